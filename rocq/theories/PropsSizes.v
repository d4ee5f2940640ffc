(** Property C61: the sizes of byte strings.

    [number_size], [int_size], [part_size], [ct_size], [key_size], [ek_size], [sk_size], [params_size] (SizesSpec.v) are the
    sizes in bytes that the protobuf format gives to numbers, parts and messages. *)
From Verif Require Import Outcome BasicSpec PolySpec ZqModel NttModel CbdModel CbdSpec TranscodeModel RnsModel RnsSpec RqModel RqSpec ParamsModel BfvSpec PlainModel CipherModel OpsModel SchemeSpec CipherSpec KeysModel KeysSpec EvalSpec RgswSpec WireSpec ReachSpec.
From Verif Require Import PrimeCert ExampleParams CipherExamples KeyExamples BytesModel BytesSpec BytesExamples SizesSpec SizesPropLemmas SizesExamples.
(** C61: the size of a polynomial depends on its context only. *)
Theorem C61_polynomial : forall isp cands, oracles isp cands -> forall c, is_context isp cands c -> Z.of_nat (c_degree c) < 2 ^ 32 -> Z.of_nat (length (c_moduli c)) < 2 ^ 29 ->
  forall R (p : poly R), p_ctx p = c -> well_formed p -> exists b, poly_to_bytes p = Val b /\ len b = poly_size (c_degree c) (c_moduli c).
Proof. exact poly_size_all. Qed.
Print Assumptions C61_polynomial.
(** C61: the size of any ciphertext that the library makes depends on its level, the number of its parts and whether it has a seed. *)
Theorem C61_ciphertext : forall isp cands par, oracles isp cands -> is_params isp cands par -> serializable par -> forall expand, expands_well expand -> forall ct, reach isp cands expand par ct ->
  exists b, ct_to_bytes ct = Val b /\ len b = ct_size par (ct_level ct) (length (ct_c ct)) (is_some (ct_seed ct)).
Proof. exact ct_size_all. Qed.
Print Assumptions C61_ciphertext.
(** C61: encryptions with a secret key have the size of one part and a seed, whatever the message, the key and the randomness. *)
Theorem C61_secret_encryption : forall isp cands par, oracles isp cands -> is_params isp cands par -> serializable par -> forall l, (l <= max_level par)%nat -> pa_t par <= level_modulus par l ->
  forall expand sk sd rng pt m, expands_well expand -> words rng -> is_sk par sk -> length sd = 32%nat -> is_pt par l pt m -> canonical (pa_t par) m ->
  exists ct b, sk_encrypt expand sk pt sd rng = Val ct /\ ct_to_bytes ct = Val b /\ len b = ct_size par l 2 true.
Proof. exact sk_encrypt_size_all. Qed.
Print Assumptions C61_secret_encryption.
(** C61: encryptions with a public key have the size of two parts. *)
Theorem C61_public_encryption : forall isp cands par, oracles isp cands -> is_params isp cands par -> serializable par -> forall l0 l, (l0 <= l)%nat -> (l <= max_level par)%nat -> pa_t par <= level_modulus par l ->
  forall sk pk B ru r1 r2 pt m, is_sk par sk -> is_pk par sk l0 pk B -> words ru -> words r1 -> words r2 -> is_pt par l pt m -> canonical (pa_t par) m ->
  exists ct b, pk_encrypt pk pt ru r1 r2 = Val ct /\ ct_to_bytes ct = Val b /\ len b = ct_size par l 2 false.
Proof. exact pk_encrypt_size_all. Qed.
Print Assumptions C61_public_encryption.
(** C61: at the next level a ciphertext is smaller. *)
Theorem C61_smaller : forall isp cands par, oracles isp cands -> is_params isp cands par -> forall l n (seeded : bool), (S l <= max_level par)%nat -> ((if seeded then 2 else 1) <= n)%nat -> ct_size par (S l) n seeded < ct_size par l n seeded.
Proof. exact switch_size_all. Qed.
Print Assumptions C61_smaller.
(** C61: public keys, *)
Theorem C61_public_key : forall isp cands par, oracles isp cands -> is_params isp cands par -> serializable par -> forall pk, pk_shape par pk -> ct_seed_ok (pk_c pk) ->
  exists b, pk_to_bytes pk = Val b /\ (fits b -> len b = part_size (ct_size par 0 (length (ct_c (pk_c pk))) (is_some (ct_seed (pk_c pk))))).
Proof. exact pk_size_all. Qed.
Print Assumptions C61_public_key.
Theorem C61_public_key_new : forall isp cands par, oracles isp cands -> is_params isp cands par -> serializable par -> forall expand, expands_well expand -> forall sk, is_sk par sk -> forall sd rng, length sd = 32%nat -> words rng ->
  exists pk b, pk_new expand sk sd rng = Val pk /\ pk_to_bytes pk = Val b /\ (fits b -> len b = part_size (ct_size par 0 2 true)).
Proof. exact pk_new_size_all. Qed.
Print Assumptions C61_public_key_new.
(** C61: relinearization keys, *)
Theorem C61_relinearization_key : forall isp cands par, oracles isp cands -> is_params isp cands par -> serializable par -> forall l1 l2 k, key_shape par l1 l2 k ->
  exists b, relin_to_bytes k = Val b /\ (fits b -> len b = part_size (key_size par l1 l2 (k_log_base k) (is_some (k_seed k)))).
Proof. exact relin_size_all. Qed.
Print Assumptions C61_relinearization_key.
Theorem C61_relinearization_key_new : forall isp cands par, oracles isp cands -> is_params isp cands par -> supported par -> serializable par -> forall expand derive, expands_well expand -> forall sk, is_sk par sk ->
  forall l1 l2, (l1 <= max_level par)%nat -> (l2 < max_level par)%nat -> forall sd rngs, length sd = 32%nat -> (forall i, words (rngs i)) ->
  exists k b, relin_new expand derive sk l1 l2 sd rngs = Val k /\ relin_to_bytes k = Val b /\ (fits b -> len b = part_size (key_size par l1 l2 0 true)).
Proof. exact relin_new_size_all. Qed.
Print Assumptions C61_relinearization_key_new.
(** C61: RGSW ciphertexts, *)
Theorem C61_rgsw : forall isp cands par, oracles isp cands -> is_params isp cands par -> serializable par -> forall l r, rgsw_shape par l r -> exists b, rgsw_to_bytes r = Val b /\
  (fits b -> len b = part_size (key_size par l l (k_log_base (r_ksk0 r)) (is_some (k_seed (r_ksk0 r)))) + part_size (key_size par l l (k_log_base (r_ksk1 r)) (is_some (k_seed (r_ksk1 r))))).
Proof. exact rgsw_size_all. Qed.
Print Assumptions C61_rgsw.
Theorem C61_rgsw_new : forall isp cands par, oracles isp cands -> is_params isp cands par -> serializable par -> forall expand derive, expands_well expand -> forall sk, is_sk par sk -> forall l, (l <= max_level par)%nat ->
  forall pt m, is_pt par l pt m -> forall sd0 sd1 rngs0 rngs1, length sd0 = 32%nat -> length sd1 = 32%nat -> (forall i, words (rngs0 i)) -> (forall i, words (rngs1 i)) ->
  exists r b, rgsw_encrypt expand derive sk pt sd0 sd1 rngs0 rngs1 = Val r /\ rgsw_to_bytes r = Val b /\ (fits b -> len b = 2 * part_size (key_size par l l (key_base par l) true)).
Proof. exact rgsw_new_size_all. Qed.
Print Assumptions C61_rgsw_new.
(** C61: evaluation keys, of a size that depends on what [ek_public] tells, *)
Theorem C61_evaluation_key : forall isp cands par, oracles isp cands -> is_params isp cands par -> serializable par -> forall l1 ek, ek_shape par l1 ek -> NoDup (map fst (ek_gk ek)) -> (ek_level ek <= max_level par)%nat ->
  exists b, ek_to_bytes ek = Val b /\ (fits b -> len b = ek_size par l1 (ek_level ek) (ek_public ek)).
Proof. exact ek_size_all. Qed.
Print Assumptions C61_evaluation_key.
Theorem C61_evaluation_key_new : forall isp cands par, oracles isp cands -> is_params isp cands par -> serializable par -> forall expand derive, expands_well expand -> forall sk, is_sk par sk -> forall l1 l2, (l1 <= max_level par)%nat -> (l2 <= l1)%nat ->
  forall b cols sds rngs, is_ekb par sk l1 l2 b cols -> (forall e, length (sds e) = 32%nat) -> (forall e i, words (rngs e i)) ->
  exists ek s es, ek_build expand derive b sds rngs = Val ek /\ ek_to_bytes ek = Val s /\ NoDup es /\ (forall e, In e es <-> asked (pa_degree par) b cols e) /\
    (fits s -> len s = ek_size par l1 l2 (map (fun e => (e, key_base par l2, true)) es)).
Proof. exact ek_new_size_all. Qed.
Print Assumptions C61_evaluation_key_new.
(** C61: so that builders that ask for the same exponents yield strings of the same size, whatever the keys and in whatever order. *)
Theorem C61_evaluation_key_same : forall isp cands par, oracles isp cands -> is_params isp cands par -> serializable par -> forall expand derive, expands_well expand -> forall l1 l2, (l1 <= max_level par)%nat -> (l2 <= l1)%nat ->
  forall sk sk' b b' cols cols' sds sds' rngs rngs', is_sk par sk -> is_sk par sk' -> is_ekb par sk l1 l2 b cols -> is_ekb par sk' l1 l2 b' cols' -> (forall e, length (sds e) = 32%nat) -> (forall e, length (sds' e) = 32%nat) ->
  (forall e i, words (rngs e i)) -> (forall e i, words (rngs' e i)) -> (forall e, asked (pa_degree par) b cols e <-> asked (pa_degree par) b' cols' e) ->
  exists ek ek' s s', ek_build expand derive b sds rngs = Val ek /\ ek_build expand derive b' sds' rngs' = Val ek' /\ ek_to_bytes ek = Val s /\ ek_to_bytes ek' = Val s' /\ (fits s -> fits s' -> len s = len s').
Proof. exact ek_same_size_all. Qed.
Print Assumptions C61_evaluation_key_same.
(** C61: the size of a secret key depends on its coefficients. *)
Theorem C61_secret_key : forall isp cands par, oracles isp cands -> is_params isp cands par -> forall sk, is_sk par sk -> len (sk_to_bytes sk) = sk_size (sk_coeffs sk).
Proof. exact sk_any_size_all. Qed.
Print Assumptions C61_secret_key.
(** C61: with a variance of at most 31, all generated secret keys have the same size; *)
Theorem C61_secret_key_new : forall isp cands par, oracles isp cands -> is_params isp cands par -> pa_variance par <= 31 -> forall rng, words rng -> exists sk, sk_random par rng = Val sk /\ len (sk_to_bytes sk) = part_size (Z.of_nat (pa_degree par)).
Proof. exact sk_new_size_all. Qed.
Print Assumptions C61_secret_key_new.
(** C61: with variance 32 they have not. *)
Theorem C61_secret_key_refuted : forall isp cands par, oracles isp cands -> is_params isp cands par -> pa_variance par = 32 -> exists rng rng' sk sk', words rng /\ words rng' /\ sk_random par rng = Val sk /\ sk_random par rng' = Val sk' /\ len (sk_to_bytes sk) = part_size (Z.of_nat (pa_degree par)) /\ len (sk_to_bytes sk') = part_size (2 * Z.of_nat (pa_degree par)).
Proof. exact sk_big_size_all. Qed.
Print Assumptions C61_secret_key_refuted.
(** C61: parameters. *)
Theorem C61_parameters : forall isp cands par, oracles isp cands -> is_params isp cands par -> fits (params_to_bytes par) -> len (params_to_bytes par) = params_size par.
Proof. exact params_size_all. Qed.
Print Assumptions C61_parameters.
(** C61: every variance from 1 to 32 is possible with the moduli of any parameters. *)
Theorem C61_variance : forall isp cands par, is_params isp cands par -> forall v, 1 <= v <= 32 -> is_params isp cands (with_variance v par).
Proof. exact with_variance_all. Qed.
Print Assumptions C61_variance.
(** The formulas and the strings of C55. *)
Example C61_sizes_ex : sizes_ex = Val [10; 84; 82; 133; 138; 266; 14] /\ strings_ex = Val ([10; 84; 82; 133; 138; 266], [true; true; true; true; true; true]).
Proof. exact sizes_ex_eq. Qed.
Print Assumptions C61_sizes_ex.
Example C61_levels_ex : levels_ex = Val [82; 64; 96; 58] /\ map number_size [0; 1; 127; 128; 16383; 16384; 2 ^ 64 - 1] = [1; 1; 1; 2; 2; 3; 10] /\ map signed_size [0; 1; -1; 63; -64; 64; -65] = [1; 1; 1; 1; 1; 2; 2].
Proof. exact levels_ex_eq. Qed.
Print Assumptions C61_levels_ex.
Example C61_variance_ex : exists par, is_params isp_bfv cands_bfv par /\ pa_variance par = 10 /\ fits (params_to_bytes par) /\ is_params isp_bfv cands_bfv (with_variance 32 par) /\ pa_variance (with_variance 32 par) = 32.
Proof. exact variance_ex. Qed.
Print Assumptions C61_variance_ex.
Example C61_hypotheses_ex : exists par, is_params isp_bfv cands_bfv par /\ supported par /\ serializable par /\ expands_well expand_ex /\ max_level par = 1%nat /\ length sd_ex = 32%nat /\ (forall i, words (rngs_ex i)) /\ pa_t par <= level_modulus par 0 /\
  exists sk, is_sk par sk /\ sk_coeffs sk <> [] /\ fits (sk_to_bytes sk) /\
  (exists k, key_shape par 0 0 k) /\ (exists b cols, is_ekb par sk 0 0 b cols) /\ (exists ek, ek_shape par 0 ek /\ NoDup (map fst (ek_gk ek)) /\ (ek_level ek <= max_level par)%nat) /\ (exists pk, pk_shape par pk /\ ct_seed_ok (pk_c pk)) /\
  (exists pt m r, is_pt par 0 pt m /\ canonical (pa_t par) m /\ rgsw_encrypt expand_ex derive_ex sk pt sd_ex sd_ex rngs_ex rngs_ex = Val r).
Proof. exact sizes_hypotheses_ex. Qed.
Print Assumptions C61_hypotheses_ex.
