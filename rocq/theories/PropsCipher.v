(** Properties C34, C35, C36, C41 and C47: encryption, decryption, linear operations and modulus switching of ciphertexts
    (fhe/src/bfv/keys/secret_key.rs, public_key.rs, ciphertext.rs, ops/mod.rs, ops/dot_product.rs).

    [is_ct par l ct xs]: the parts of [ct] represent the integer polynomials [xs] modulo the modulus Q of level [l].
    [phase n s xs] is xs_0 + xs_1 * s + xs_2 * s^2 + .. in Z[X]/(X^n+1).
    [encrypts par sk l ct m B]: the phase of [ct] is floor(Q * m / t) + e modulo Q, with every coefficient of [e] at most [B].
    The seeds, the expansion of seeds and the random streams are arguments, so every outcome of the randomness is covered. *)
From Verif Require Import Outcome BasicSpec PolySpec ZqModel NttModel TranscodeModel RnsModel RnsSpec RqModel RqSpec ParamsModel BfvSpec PrimeCert ExampleParams PlainModel CipherModel OpsModel SchemeSpec CipherSpec CipherPropLemmas LinearPropLemmas DotPropLemmas CipherExamples.
From Coq Require Import Znumtheory.

(** [supported] bounds the moduli (8 moduli of 62 bits are fine), [decryptable] asks that the base in which decryption
    computes exceed 3t/2, and [small_noise par l B] is B + 1 <= (1 - 2^-60) * Q / (2t). *)
(** C34: a ciphertext of any number of parts decrypts to its message when its noise is below the bound. *)
Theorem C34_decrypt : forall isp cands par, oracles isp cands -> is_params isp cands par -> forall l, (l <= max_level par)%nat -> supported par -> decryptable par ->
  forall sk ct m B, is_sk par sk -> encrypts par sk l ct m B -> small_noise par l B ->
  exists pt, sk_decrypt sk ct = Val pt /\ is_pt par l pt (map (fun a => a mod (pa_t par)) m) /\ pt_enc pt = None.
Proof. exact decrypt_all. Qed.
Print Assumptions C34_decrypt.
(** C34 fails without [decryptable]: when t is close to the first modulus, even a ciphertext without noise can decrypt to another message. *)
Theorem C34_base_refuted : exists par sk ct m pt, is_params isp_bfv cands_bfv par /\ supported par /\ is_sk par sk /\ canonical (pa_t par) m /\ encrypts par sk 0 ct m 0 /\ small_noise par 0 0 /\
  sk_decrypt sk ct = Val pt /\ ~ is_pt par 0 pt m.
Proof. exact base_bad. Qed.
Print Assumptions C34_base_refuted.
(** C34: secret-key encryption, every randomness: noise at most twice the variance. *)
Theorem C34_sk_encrypt : forall isp cands par, oracles isp cands -> is_params isp cands par -> forall l, (l <= max_level par)%nat ->
  forall expand sk sd rng pt m, expands_well expand -> words rng -> is_sk par sk -> is_pt par l pt m -> canonical (pa_t par) m -> (pa_t par) <= level_modulus par l ->
  exists ct, sk_encrypt expand sk pt sd rng = Val ct /\ encrypts par sk l ct m (2 * pa_variance par) /\ ct_seed ct = Some sd /\ length (ct_c ct) = 2%nat.
Proof. exact sk_encrypt_all. Qed.
Print Assumptions C34_sk_encrypt.
(** C34: fresh secret keys have coefficients of absolute value at most twice the variance. *)
Theorem C34_secret_key : forall isp cands par, oracles isp cands -> is_params isp cands par -> forall rng, words rng ->
  exists sk, sk_random par rng = Val sk /\ is_sk par sk /\ bounded_by (2 * pa_variance par) (sk_coeffs sk) /\ norm1 (sk_coeffs sk) <= Z.of_nat (pa_degree par) * (2 * pa_variance par).
Proof. exact sk_random_all. Qed.
Print Assumptions C34_secret_key.
(** C34: fresh public keys encrypt zero. *)
Theorem C34_pk_new : forall isp cands par, oracles isp cands -> is_params isp cands par -> forall expand sk sd rng, expands_well expand -> words rng -> is_sk par sk ->
  exists pk, pk_new expand sk sd rng = Val pk /\ is_pk par sk 0 pk (2 * pa_variance par) /\ ct_seed (pk_c pk) = Some sd.
Proof. exact pk_new_all. Qed.
Print Assumptions C34_pk_new.
(** C34: public-key encryption to any level from the key's level down, every randomness. *)
Theorem C34_pk_encrypt : forall isp cands par, oracles isp cands -> is_params isp cands par -> forall l0 l, (l0 <= l)%nat -> (l <= max_level par)%nat ->
  forall sk pk B ru r1 r2 pt m, is_sk par sk -> is_pk par sk l0 pk B -> words ru -> words r1 -> words r2 -> is_pt par l pt m -> canonical (pa_t par) m -> (pa_t par) <= level_modulus par l ->
  exists ct, pk_encrypt pk pt ru r1 r2 = Val ct /\ ct_seed ct = None /\ length (ct_c ct) = 2%nat /\
    encrypts par sk l ct m (pk_noise par (norm1 (sk_coeffs sk)) (dropped_noise (norm1 (sk_coeffs sk)) 2 (dropped (pa_moduli par) l0 (l - l0)) B)).
Proof. exact pk_encrypt_all. Qed.
Print Assumptions C34_pk_encrypt.
(** C34: plaintexts of a level above the key's are refused. *)
Theorem C34_pk_encrypt_up : forall isp cands par, oracles isp cands -> is_params isp cands par -> forall l0 l, (l < l0)%nat -> (l0 <= max_level par)%nat ->
  forall sk pk B ru r1 r2 pt m, is_sk par sk -> is_pk par sk l0 pk B -> is_pt par l pt m ->
  pk_encrypt pk pt ru r1 r2 = Err (InvalidLevel (Z.of_nat l) (Z.of_nat l0) (Z.of_nat (max_level par))).
Proof. exact pk_encrypt_up_all. Qed.
Print Assumptions C34_pk_encrypt_up.
(** C34: encode, encrypt with the secret key, decrypt, decode. *)
Theorem C34_sk_roundtrip : forall isp cands par, oracles isp cands -> is_params isp cands par -> forall l, (l <= max_level par)%nat -> supported par -> decryptable par -> small_noise par l (2 * pa_variance par) ->
  forall expand sk sd rng, expands_well expand -> words rng -> is_sk par sk -> roundtrips par l (fun pt => sk_encrypt expand sk pt sd rng) sk.
Proof. exact sk_roundtrip_all. Qed.
Print Assumptions C34_sk_roundtrip.
(** C34: encode, encrypt with a fresh public key, decrypt, decode. *)
Theorem C34_pk_roundtrip : forall isp cands par, oracles isp cands -> is_params isp cands par -> forall l, (l <= max_level par)%nat -> supported par -> decryptable par ->
  forall expand sk sd rng ru r1 r2, expands_well expand -> words rng -> words ru -> words r1 -> words r2 -> is_sk par sk ->
  small_noise par l (pk_noise par (norm1 (sk_coeffs sk)) (dropped_noise (norm1 (sk_coeffs sk)) 2 (dropped (pa_moduli par) 0 l) (2 * pa_variance par))) ->
  exists pk, pk_new expand sk sd rng = Val pk /\ roundtrips par l (fun pt => pk_encrypt pk pt ru r1 r2) sk.
Proof. exact pk_roundtrip_all. Qed.
Print Assumptions C34_pk_roundtrip.
(** C34: decoding only depends on the polynomial of the plaintext. *)
Theorem C34_same_decoding : forall isp cands par, oracles isp cands -> is_params isp cands par -> forall l, (l <= max_level par)%nat -> forall pt pt' m e, is_pt par l pt m -> is_pt par l pt' m ->
  pt_enc pt = Some e \/ pt_enc pt = None -> pt_enc pt' = Some e \/ pt_enc pt' = None ->
  decode_big pt' (Some e) = decode_big pt (Some e) /\ decode_u64 pt' (Some e) = decode_u64 pt (Some e) /\ decode_i64 pt' (Some e) = decode_i64 pt (Some e).
Proof. exact same_decoding_all. Qed.
Print Assumptions C34_same_decoding.
(** The hypotheses hold together, for the parameters of the examples, at both levels. *)
Example C34_hypotheses_ex : exists par, is_params isp_bfv cands_bfv par /\ supported par /\ decryptable par /\ small_noise par 0 (2 * pa_variance par) /\ small_noise par 1 (2 * pa_variance par) /\ expands_well expand_ex /\ words rng_ex /\
  (exists sk, sk_random par rng_ex = Val sk /\ is_sk par sk /\
     small_noise par 1 (pk_noise par (norm1 (sk_coeffs sk)) (dropped_noise (norm1 (sk_coeffs sk)) 2 (dropped (pa_moduli par) 0 1) (2 * pa_variance par)))).
Proof. exact cipher_hypotheses_ex. Qed.
(** Sum of a secret-key and a public-key encryption switched to level 1, product by a plaintext, dot product, noise of a fresh encryption. *)
Example C34_ex : pipeline_ex = Val ([6; 5; 16; 0; 0; 0; 0; 0], [8; 9; 0; 0; 0; 0; 0; 0], [10; 12; 0; 0; 0; 0; 0; 0], 3, true).
Proof. vm_compute. reflexivity. Qed.

(** C35: sums, part by part and of phases. *)
Theorem C35_add : forall isp cands par, oracles isp cands -> is_params isp cands par -> forall l, (l <= max_level par)%nat -> forall a b xs ys, is_ct par l a xs -> is_ct par l b ys -> length xs = length ys -> xs <> [] ->
  exists ct, ct_add a b = Val ct /\ ct_seed ct = None /\ is_ct par l ct (add_parts xs ys) /\
    forall s, length s = (pa_degree par) -> phase (pa_degree par) s (add_parts xs ys) = zipWith Z.add (phase (pa_degree par) s xs) (phase (pa_degree par) s ys).
Proof. exact add_all. Qed.
Print Assumptions C35_add.
(** C35: differences. *)
Theorem C35_sub : forall isp cands par, oracles isp cands -> is_params isp cands par -> forall l, (l <= max_level par)%nat -> forall a b xs ys, is_ct par l a xs -> is_ct par l b ys -> length xs = length ys -> xs <> [] ->
  exists ct, ct_sub a b = Val ct /\ ct_seed ct = None /\ is_ct par l ct (sub_parts xs ys) /\
    forall s, length s = (pa_degree par) -> phase (pa_degree par) s (sub_parts xs ys) = zipWith Z.sub (phase (pa_degree par) s xs) (phase (pa_degree par) s ys).
Proof. exact sub_all. Qed.
Print Assumptions C35_sub.
(** C35: opposites. *)
Theorem C35_neg : forall isp cands par, oracles isp cands -> is_params isp cands par -> forall l, (l <= max_level par)%nat -> forall a xs, is_ct par l a xs ->
  exists ct, ct_neg a = Val ct /\ ct_seed ct = None /\ is_ct par l ct (map (map Z.opp) xs) /\
    forall s, length s = (pa_degree par) -> phase (pa_degree par) s (map (map Z.opp) xs) = map Z.opp (phase (pa_degree par) s xs).
Proof. exact neg_all. Qed.
Print Assumptions C35_neg.
(** C35: the messages are added, subtracted, negated, and the noises added up to 1. *)
Theorem C35_messages : forall isp cands par, oracles isp cands -> is_params isp cands par -> forall l, (l <= max_level par)%nat -> forall sk a b m1 m2 B1 B2, is_sk par sk -> encrypts par sk l a m1 B1 -> encrypts par sk l b m2 B2 -> length (ct_c a) = length (ct_c b) ->
  (exists ct, ct_add a b = Val ct /\ encrypts par sk l ct (zipWith Z.add m1 m2) (B1 + B2 + 1)) /\
  (exists ct, ct_sub a b = Val ct /\ encrypts par sk l ct (zipWith Z.sub m1 m2) (B1 + B2 + 1)) /\
  (exists ct, ct_neg a = Val ct /\ encrypts par sk l ct (map Z.opp m1) (B1 + 1)).
Proof. exact enc_add_all. Qed.
Print Assumptions C35_messages.
(** C35: sums and differences with a plaintext only touch the first part, by floor(Q * m / t). *)
Theorem C35_plaintext : forall isp cands par, oracles isp cands -> is_params isp cands par -> forall l, (l <= max_level par)%nat -> forall a x xs pt m, is_ct par l a (x :: xs) -> is_pt par l pt m -> canonical (pa_t par) m -> (pa_t par) <= level_modulus par l ->
  (exists ct, ct_add_pt a pt = Val ct /\ ct_seed ct = None /\ is_ct par l ct (zipWith Z.add x (scaled (level_modulus par l) (pa_t par) m) :: xs)) /\
  (exists ct, ct_sub_pt a pt = Val ct /\ ct_seed ct = None /\ is_ct par l ct (zipWith Z.sub x (scaled (level_modulus par l) (pa_t par) m) :: xs)) /\
  (exists ct, pt_sub_ct pt a = Val ct /\ ct_seed ct = None /\ is_ct par l ct (zipWith Z.sub (scaled (level_modulus par l) (pa_t par) m) x :: map (map Z.opp) xs)).
Proof. exact add_pt_all. Qed.
Print Assumptions C35_plaintext.
(** C35: the messages and noises of sums with a plaintext. *)
Theorem C35_plaintext_messages : forall isp cands par, oracles isp cands -> is_params isp cands par -> forall l, (l <= max_level par)%nat -> forall sk a m1 B pt m2, is_sk par sk -> encrypts par sk l a m1 B -> is_pt par l pt m2 -> canonical (pa_t par) m2 -> (pa_t par) <= level_modulus par l ->
  (exists ct, ct_add_pt a pt = Val ct /\ encrypts par sk l ct (zipWith Z.add m1 m2) (B + 1)) /\
  (exists ct, ct_sub_pt a pt = Val ct /\ encrypts par sk l ct (zipWith Z.sub m1 m2) (B + 1)) /\
  (exists ct, pt_sub_ct pt a = Val ct /\ encrypts par sk l ct (zipWith Z.sub m2 m1) (B + 1)).
Proof. exact enc_add_pt_all. Qed.
Print Assumptions C35_plaintext_messages.
(** C35: the zero ciphertext is neutral. *)
Theorem C35_zero : forall par, forall a, ct_par a = par -> ct_add (ct_zero par) a = Val a /\ ct_sub (ct_zero par) a = ct_neg a /\ (ct_c a <> [] -> ct_add a (ct_zero par) = Val a /\ ct_sub a (ct_zero par) = Val a).
Proof. exact zero_all. Qed.
Print Assumptions C35_zero.
(** C35: operands of different parameters, levels or numbers of parts make the operators panic. *)
Theorem C35_mismatch : forall a b, ct_c a <> [] -> ct_c b <> [] -> pa_id (ct_par a) <> pa_id (ct_par b) \/ ct_level a <> ct_level b \/ length (ct_c a) <> length (ct_c b) -> ct_add a b = Panic /\ ct_sub a b = Panic.
Proof. exact mismatch_all. Qed.
Print Assumptions C35_mismatch.
(** C35: so do plaintexts of another level. *)
Theorem C35_mismatch_plaintext : forall isp cands par, oracles isp cands -> is_params isp cands par -> forall l, (l <= max_level par)%nat -> forall a pt m, is_pt par l pt m -> ct_par a = par -> ct_c a = [] \/ ct_level a <> l ->
  ct_add_pt a pt = Panic /\ ct_sub_pt a pt = Panic /\ pt_sub_ct pt a = Panic /\ (ct_c a <> [] -> ct_mul_pt a pt = Panic).
Proof. exact mismatch_pt_all. Qed.
Print Assumptions C35_mismatch_plaintext.
(** C36: products by a plaintext, part by part and of phases. *)
Theorem C36_mul_plaintext : forall isp cands par, oracles isp cands -> is_params isp cands par -> forall l, (l <= max_level par)%nat -> forall a xs pt m, is_ct par l a xs -> xs <> [] -> is_pt par l pt m ->
  exists ct, ct_mul_pt a pt = Val ct /\ ct_seed ct = None /\ is_ct par l ct (map (fun x => negacyclic (pa_degree par) x m) xs) /\
    forall s, length s = (pa_degree par) -> phase (pa_degree par) s (map (fun x => negacyclic (pa_degree par) x m) xs) = negacyclic (pa_degree par) (phase (pa_degree par) s xs) m.
Proof. exact mul_pt_all. Qed.
Print Assumptions C36_mul_plaintext.
(** C36: the messages are multiplied; the noise grows by the 1-norm of the plaintext. *)
Theorem C36_mul_plaintext_messages : forall isp cands par, oracles isp cands -> is_params isp cands par -> forall l, (l <= max_level par)%nat -> forall sk a m1 B pt m2, is_sk par sk -> encrypts par sk l a m1 B -> is_pt par l pt m2 ->
  exists ct, ct_mul_pt a pt = Val ct /\ encrypts par sk l ct (negacyclic (pa_degree par) m1 m2) (norm1 m2 * (B + 1)).
Proof. exact enc_mul_pt_all. Qed.
Print Assumptions C36_mul_plaintext_messages.
(** C36: dot products, any number of terms. *)
Theorem C36_dot_product : forall isp cands par, oracles isp cands -> is_params isp cands par -> forall l, (l <= max_level par)%nat -> forall k (zs : list (ciphertext * list (list Z) * plaintext * list Z)), zs <> [] -> (2 <= k)%nat ->
  Forall (fun '(ct, xs, pt, m) => is_ct par l ct xs /\ length xs = k /\ is_pt par l pt m) zs ->
  exists ct, dot_product_scalar (map (fun '(ct, _, _, _) => ct) zs) (map (fun '(_, _, pt, _) => pt) zs) = Val ct /\ ct_seed ct = None /\
    is_ct par l ct (dot_parts (pa_degree par) k (map (fun '(_, xs, _, m) => (xs, m)) zs)) /\
    forall s, length s = (pa_degree par) -> phase (pa_degree par) s (dot_parts (pa_degree par) k (map (fun '(_, xs, _, m) => (xs, m)) zs)) = poly_sum (pa_degree par) (map (fun '(_, xs, _, m) => negacyclic (pa_degree par) (phase (pa_degree par) s xs) m) zs).
Proof. exact dot_all. Qed.
Print Assumptions C36_dot_product.
(** C36: messages and noise of dot products. *)
Theorem C36_dot_product_messages : forall isp cands par, oracles isp cands -> is_params isp cands par -> forall l, (l <= max_level par)%nat -> forall k sk (zs : list (ciphertext * list Z * Z * plaintext * list Z)), is_sk par sk -> zs <> [] ->
  Forall (fun '(ct, m, B, pt, n) => encrypts par sk l ct m B /\ length (ct_c ct) = k /\ is_pt par l pt n) zs ->
  exists ct, dot_product_scalar (map (fun '(ct, _, _, _, _) => ct) zs) (map (fun '(_, _, _, pt, _) => pt) zs) = Val ct /\
    encrypts par sk l ct (poly_sum (pa_degree par) (map (fun '(_, m, _, _, n) => negacyclic (pa_degree par) m n) zs)) (dot_noise (map (fun '(_, _, B, _, n) => (n, B)) zs)).
Proof. exact enc_dot_all. Qed.
Print Assumptions C36_dot_product_messages.
(** C36: refused arguments. *)
Theorem C36_dot_product_errors : (forall pts, dot_product_scalar [] pts = Err DpEmptyInput) /\ (forall cts, dot_product_scalar cts [] = Err DpEmptyInput) /\
  (forall cts pts, cts <> [] -> pts <> [] -> length cts <> length pts -> dot_product_scalar cts pts = Err (DpOperandCountMismatch (Z.of_nat (length cts)) (Z.of_nat (length pts)))).
Proof. exact dot_errors_all. Qed.
Print Assumptions C36_dot_product_errors.
(** C41: any ciphertext goes down to any level; the seed is cleared unless the level is unchanged. *)
Theorem C41_switch_to_level : forall isp cands par, oracles isp cands -> is_params isp cands par -> forall l target, (l <= target)%nat -> (target <= max_level par)%nat ->
  forall a xs, is_ct par l a xs -> exists ct ys, ct_switch_to_level a target = Val ct /\ is_ct par target ct ys /\ length ys = length xs /\ (l = target -> ct = a) /\ ((l < target)%nat -> ct_seed ct = None).
Proof. exact switch_all. Qed.
Print Assumptions C41_switch_to_level.
(** C41: going down one level divides every part by the last modulus and rounds. *)
Theorem C41_switch_down : forall isp cands par, oracles isp cands -> is_params isp cands par -> forall l, (l < max_level par)%nat -> forall a xs, is_ct par l a xs ->
  exists ct, ct_switch_down a = Val ct /\ ct_seed ct = None /\ is_ct par (S l) ct (map (map (round_div (nth (length (pa_moduli par) - 1 - l) (pa_moduli par) 0))) xs).
Proof. exact switch_down_all. Qed.
Print Assumptions C41_switch_down.
(** C41: the message stays and the noise is divided by each dropped modulus, up to rounding. *)
Theorem C41_messages : forall isp cands par, oracles isp cands -> is_params isp cands par -> forall l target, (l <= target)%nat -> (target <= max_level par)%nat ->
  forall sk a m B, is_sk par sk -> encrypts par sk l a m B -> exists ct, ct_switch_to_level a target = Val ct /\
  encrypts par sk target ct m (dropped_noise (norm1 (sk_coeffs sk)) (length (ct_c a)) (dropped (pa_moduli par) l (target - l)) B).
Proof. exact enc_switch_all. Qed.
Print Assumptions C41_messages.
(** C41: levels above the current one or below the last one are refused. *)
Theorem C41_errors : forall a target, 
  (max_level (ct_par a) <= ct_level a -> ct_switch_down a = Err NoMoreContext)%nat /\
  (target < ct_level a \/ max_level (ct_par a) < target -> ct_switch_to_level a target = Err (InvalidLevel (Z.of_nat target) (Z.of_nat (ct_level a)) (Z.of_nat (max_level (ct_par a)))))%nat.
Proof. exact switch_errors_all. Qed.
Print Assumptions C41_errors.
(** C47: [measure_noise] is the bit length of the largest noise coefficient, while decryption works. *)
Theorem C47_measure_noise : forall isp cands par, oracles isp cands -> is_params isp cands par -> forall l, (l <= max_level par)%nat -> supported par -> decryptable par ->
  forall sk ct xs m e B, is_sk par sk -> is_ct par l ct xs -> (2 <= length xs)%nat -> length m = (pa_degree par) -> length e = (pa_degree par) -> bounded_by B e -> small_noise par l B ->
  congruent (level_modulus par l) (phase (pa_degree par) (sk_coeffs sk) xs) (zipWith Z.add (scaled (level_modulus par l) (pa_t par) m) e) ->
  exists n, measure_noise sk ct = Val n /\ noise_bits e n.
Proof. exact measure_all. Qed.
Print Assumptions C47_measure_noise.
