(** Property C43 (key serialization): protobuf messages of keys and of RGSW ciphertexts
    (fhe/src/bfv/keys/*.rs, fhe/src/bfv/rgsw_ciphertext.rs).

    [safe r P]: the outcome [r] is an error or a value satisfying [P], never a panic.  [wire_ct], [wire_ksk], [wire_galois],
    [wire_ek], [wire_rgsw]: messages whose fields are in the range of their protobuf types.  [key_shape par l1 l2 k]: a
    key-switching key from level [l1] to level [l2] of any content, with as many polynomials as the code expects;
    [key_faithful]: its second half is the expansion of its seed, if it has one; [base_fits]: its digits have less than 64 bits.
    [gk_shape], [ek_shape], [rgsw_shape], [pk_shape]: the same for the other keys.  [some_ct par l n ct]: any ciphertext
    of level [l] with [n] parts; [any_ct par ct]: any ciphertext.  [same_ek]: evaluation keys equal up to the order of their maps. *)
From Verif Require Import Outcome BasicSpec PolySpec ZqModel NttModel TranscodeModel RnsModel RnsSpec RqModel RqSpec ParamsModel BfvSpec PrimeCert ExampleParams PlainModel CipherModel OpsModel SchemeSpec CipherSpec CipherExamples KeysModel KeysSpec KeyExamples EvalSpec RgswSpec WireSpec WirePropLemmas KeySerialPropLemmas WireExamples.
From Coq Require Import Permutation.

(** ** Round trips *)
(** C43: secret keys survive. *)
Theorem C43_secret_key : forall par, forall sk, is_sk par sk -> sk_from_proto (sk_to_proto sk) par = Val sk.
Proof. exact sk_roundtrip_all. Qed.
Print Assumptions C43_secret_key.
(** C43: fresh public keys survive. *)
Theorem C43_public_key : forall isp cands par, oracles isp cands -> is_params isp cands par -> serializable par -> forall expand, expands_well expand -> forall sk, is_sk par sk -> forall sd rng, length sd = 32%nat -> words rng ->
  exists pk m, pk_new expand sk sd rng = Val pk /\ pk_to_proto pk = Val m /\ pk_from_proto expand m par = Val pk.
Proof. exact pk_roundtrip_all. Qed.
Print Assumptions C43_public_key.
(** C43: every key-switching key that agrees with its seed survives, whatever its content. *)
Theorem C43_key : forall isp cands par, oracles isp cands -> is_params isp cands par -> serializable par -> forall expand derive, expands_well expand -> forall l1 l2 k, key_shape par l1 l2 k -> key_faithful expand derive k ->
  exists m, ksk_to_proto k = Val m /\ ksk_from_proto expand derive m par = Val k.
Proof. exact ksk_roundtrip_all. Qed.
Print Assumptions C43_key.
(** C43: every key-switching key made by the constructor survives. *)
Theorem C43_switching_key : forall isp cands par, oracles isp cands -> is_params isp cands par -> serializable par -> forall expand derive, expands_well expand -> forall sk, is_sk par sk ->
  forall l1 l2, (l1 <= max_level par)%nat -> (l2 <= max_level par)%nat -> (l1 = l2 \/ l2 < max_level par)%nat ->
  forall (from : poly PowerBasis) f sd rngs, is_poly par l2 from f -> length sd = 32%nat -> (forall i, words (rngs i)) ->
  exists k m, ksk_new expand derive sk from l1 l2 sd rngs = Val k /\ key_shape par l1 l2 k /\ base_fits k /\ ksk_to_proto k = Val m /\ ksk_from_proto expand derive m par = Val k.
Proof. exact ksk_new_roundtrip_all. Qed.
Print Assumptions C43_switching_key.
(** C43: relinearization keys survive, for all levels at which they can be built. *)
Theorem C43_relinearization_key : forall isp cands par, oracles isp cands -> is_params isp cands par -> supported par -> serializable par -> forall expand derive, expands_well expand -> forall sk, is_sk par sk ->
  forall l1 l2, (l1 <= max_level par)%nat -> (l2 < max_level par)%nat -> forall sd rngs, length sd = 32%nat -> (forall i, words (rngs i)) ->
  exists k m, relin_new expand derive sk l1 l2 sd rngs = Val k /\ key_shape par l1 l2 k /\ base_fits k /\ relin_to_proto k = Val m /\ relin_from_proto expand derive m par = Val k.
Proof. exact relin_roundtrip_all. Qed.
Print Assumptions C43_relinearization_key.
(** C43: automorphism keys survive. *)
Theorem C43_galois_key : forall isp cands par, oracles isp cands -> is_params isp cands par -> serializable par -> forall expand derive, expands_well expand -> forall sk, is_sk par sk ->
  forall l1 l2, (l1 <= max_level par)%nat -> (l2 <= l1)%nat -> forall e sd rngs, 0 <= e < 2 * Z.of_nat (pa_degree par) -> Z.odd e = true -> length sd = 32%nat -> (forall i, words (rngs i)) ->
  exists g m, galois_new expand derive sk e l1 l2 sd rngs = Val g /\ gk_shape par l1 l2 g /\ base_fits (g_ksk g) /\ galois_to_proto g = Val m /\ galois_from_proto expand derive m par = Val g.
Proof. exact galois_roundtrip_all. Qed.
Print Assumptions C43_galois_key.
(** C43: evaluation keys survive, whatever the order in which their map is traversed. *)
Theorem C43_evaluation_key : forall isp cands par, oracles isp cands -> is_params isp cands par -> serializable par -> forall expand derive, expands_well expand -> forall sk, is_sk par sk -> forall l1 l2, (l1 <= max_level par)%nat -> (l2 <= l1)%nat ->
  forall b cols sds rngs, is_ekb par sk l1 l2 b cols -> (forall e, length (sds e) = 32%nat) -> (forall e i, words (rngs e i)) ->
  exists ek m, ek_build expand derive b sds rngs = Val ek /\ ek_shape par l1 ek /\ ek_fits ek /\ ek_to_proto ek = Val m /\
    forall gs, Permutation gs (ep_gk m) -> exists ek', ek_from_proto expand derive (mkEp gs (ep_ct_level m) (ep_level m)) par = Val ek' /\ same_ek ek' ek.
Proof. exact ek_roundtrip_all. Qed.
Print Assumptions C43_evaluation_key.
(** C43: RGSW ciphertexts survive. *)
Theorem C43_rgsw : forall isp cands par, oracles isp cands -> is_params isp cands par -> serializable par -> forall expand derive, expands_well expand -> forall sk, is_sk par sk -> forall l, (l <= max_level par)%nat ->
  forall pt m, is_pt par l pt m -> forall sd0 sd1 rngs0 rngs1, length sd0 = 32%nat -> length sd1 = 32%nat -> (forall i, words (rngs0 i)) -> (forall i, words (rngs1 i)) ->
  exists r msg, rgsw_encrypt expand derive sk pt sd0 sd1 rngs0 rngs1 = Val r /\ rgsw_shape par l r /\ base_fits (r_ksk0 r) /\ base_fits (r_ksk1 r) /\ rgsw_to_proto r = Val msg /\ rgsw_from_proto expand derive msg par = Val r.
Proof. exact rgsw_roundtrip_all. Qed.
Print Assumptions C43_rgsw.

(** ** Messages of any content *)
(** C43: reading a ciphertext from any message never panics; what is accepted has at least two parts of a valid level and agrees with its seed. *)
Theorem C43_read_ciphertext : forall isp cands par, oracles isp cands -> is_params isp cands par -> serializable par -> forall expand, expands_well expand -> forall m, wire_ct m ->
  safe (ct_from_proto expand m par) (fun ct => Z.of_nat (ct_level ct) = cp_level m /\ (ct_level ct <= max_level par)%nat /\ (exists n, (2 <= n)%nat /\ some_ct par (ct_level ct) n ct) /\ seed_faithful expand ct).
Proof. exact ct_read_all. Qed.
Print Assumptions C43_read_ciphertext.
(** C43: secret keys are accepted exactly when they have N coefficients. *)
Theorem C43_read_secret_key : forall par, forall coeffs, (length coeffs = (pa_degree par) -> sk_from_proto coeffs par = Val (mkSk par coeffs)) /\ (length coeffs <> (pa_degree par) -> exists e, sk_from_proto coeffs par = Err e).
Proof. exact sk_read_all. Qed.
Print Assumptions C43_read_secret_key.
(** C43: reading a public key never panics. *)
Theorem C43_read_public_key : forall isp cands par, oracles isp cands -> is_params isp cands par -> serializable par -> forall expand, expands_well expand -> forall m, wire_opt wire_ct m ->
  safe (pk_from_proto expand m par) (pk_shape par).
Proof. exact pk_read_all. Qed.
Print Assumptions C43_read_public_key.
(** C43: reading a key-switching key never panics, and gives a key of the announced levels. *)
Theorem C43_read_key : forall isp cands par, oracles isp cands -> is_params isp cands par -> serializable par -> forall expand derive, expands_well expand -> forall m, wire_ksk m ->
  safe (ksk_from_proto expand derive m par) (fun k => key_shape par (Z.to_nat (kp_ct_level m)) (Z.to_nat (kp_level m)) k /\ k_log_base k = kp_log_base m /\ key_faithful expand derive k).
Proof. exact ksk_read_all. Qed.
Print Assumptions C43_read_key.
(** C43: an accepted message has valid levels, the expected numbers of polynomials, a seed of 32 bytes or none, and digits at the last level only. *)
Theorem C43_rejected : forall isp cands par, oracles isp cands -> is_params isp cands par -> forall expand derive m k, wire_ksk m -> ksk_from_proto expand derive m par = Val k ->
  kp_ct_level m <= Z.of_nat (max_level par) /\ kp_level m <= Z.of_nat (max_level par) /\ Z.of_nat (length (kp_c0 m)) = key_count par (Z.to_nat (kp_ct_level m)) (kp_log_base m) /\
  (kp_seed m = [] /\ k_seed k = None /\ Z.of_nat (length (kp_c1 m)) = key_count par (Z.to_nat (kp_ct_level m)) (kp_log_base m) \/ length (kp_seed m) = 32%nat /\ k_seed k = Some (kp_seed m)) /\
  (kp_log_base m <> 0 -> kp_ct_level m = Z.of_nat (max_level par) /\ kp_level m = Z.of_nat (max_level par)).
Proof. exact ksk_read_rejects. Qed.
Print Assumptions C43_rejected.
(** C43: the same for relinearization keys, *)
Theorem C43_read_relinearization_key : forall isp cands par, oracles isp cands -> is_params isp cands par -> serializable par -> forall expand derive, expands_well expand -> forall m, wire_opt wire_ksk m ->
  safe (relin_from_proto expand derive m par) (fun k => exists l1 l2, key_shape par l1 l2 k).
Proof. exact relin_read_all. Qed.
Print Assumptions C43_read_relinearization_key.
(** C43: automorphism keys, *)
Theorem C43_read_galois_key : forall isp cands par, oracles isp cands -> is_params isp cands par -> serializable par -> forall expand derive, expands_well expand -> forall m, wire_galois m ->
  safe (galois_from_proto expand derive m par) (fun g => gk_shape par (k_ct_level (g_ksk g)) (k_level (g_ksk g)) g /\ se_exponent (g_element g) = gkp_exponent m mod (2 * Z.of_nat (pa_degree par))).
Proof. exact galois_read_all. Qed.
Print Assumptions C43_read_galois_key.
(** C43: evaluation keys *)
Theorem C43_read_evaluation_key : forall isp cands par, oracles isp cands -> is_params isp cands par -> serializable par -> forall expand derive, expands_well expand -> forall m, wire_ek m ->
  safe (ek_from_proto expand derive m par) (fun ek => ek_shape par (Z.to_nat (ep_ct_level m)) ek /\ ek_level ek = Z.to_nat (ep_level m)).
Proof. exact ek_read_all. Qed.
Print Assumptions C43_read_evaluation_key.
(** C43: and RGSW ciphertexts. *)
Theorem C43_read_rgsw : forall isp cands par, oracles isp cands -> is_params isp cands par -> serializable par -> forall expand derive, expands_well expand -> forall m, wire_rgsw m ->
  safe (rgsw_from_proto expand derive m par) (fun r => rgsw_shape par (k_level (r_ksk0 r)) r).
Proof. exact rgsw_read_all. Qed.
Print Assumptions C43_read_rgsw.

(** ** Operations with keys of any content *)
(** C43: relinearization with any key read from a message never panics when its digits fit, *)
Theorem C43_relinearizes_safe : forall isp cands par, oracles isp cands -> is_params isp cands par -> forall l1 l2 k, key_shape par l1 l2 k -> base_fits k -> forall ct, any_ct par ct ->
  safe (relinearizes k ct) (some_ct par l1 2).
Proof. exact relinearizes_safe_all. Qed.
Print Assumptions C43_relinearizes_safe.
(** C43: nor do automorphisms, *)
Theorem C43_galois_safe : forall isp cands par, oracles isp cands -> is_params isp cands par -> forall l1 l2 g, gk_shape par l1 l2 g -> base_fits (g_ksk g) -> forall ct, any_ct par ct ->
  safe (galois_apply g ct) (some_ct par l1 2) /\ forall out, any_ct par out -> safe (galois_apply_into g ct out) (some_ct par l1 2).
Proof. exact galois_safe_all. Qed.
Print Assumptions C43_galois_safe.
(** C43: rotations, inner sums and expansions. *)
Theorem C43_evaluation_safe : forall isp cands par, oracles isp cands -> is_params isp cands par -> forall l1 ek, ek_shape par l1 ek -> ek_fits ek -> forall ct, any_ct par ct ->
  safe (rotates_rows ek ct) (some_ct par l1 2) /\ (forall i, safe (rotates_columns_by ek ct i) (some_ct par l1 2)) /\ safe (computes_inner_sum ek ct) (some_ct par l1 2) /\ forall size, safe (expands ek ct size) (Forall (any_ct par)).
Proof. exact ek_safe_all. Qed.
Print Assumptions C43_evaluation_safe.
(** C43: External products with operands of the level succeed. *)
Theorem C43_rgsw_safe : forall isp cands par, oracles isp cands -> is_params isp cands par -> forall l r, rgsw_shape par l r -> base_fits (r_ksk0 r) -> base_fits (r_ksk1 r) -> forall ct, some_ct par l 2 ct ->
  exists ct', ct_mul_rgsw ct r = Val ct' /\ rgsw_mul_ct r ct = Val ct' /\ some_ct par l 2 ct'.
Proof. exact rgsw_safe_all. Qed.
Print Assumptions C43_rgsw_safe.
(** C43: Encryption with any public key read from a message succeeds. *)
Theorem C43_encrypt_safe : forall isp cands par, oracles isp cands -> is_params isp cands par -> forall pk, pk_shape par pk -> forall l pt m ru r1 r2, (l <= max_level par)%nat -> is_pt par l pt m -> canonical (pa_t par) m -> (pa_t par) <= level_modulus par l -> words ru -> words r1 -> words r2 ->
  exists ct, pk_encrypt pk pt ru r1 r2 = Val ct /\ some_ct par l 2 ct.
Proof. exact pk_safe_all. Qed.
Print Assumptions C43_encrypt_safe.

(** ** What is wrong in the code *)
(** C43: keys with digits of 64 bits or more make every switch panic, *)
Theorem C43_wide_base_switch : forall k, ~ base_fits k -> 0 <= k_log_base k -> (exists q qs, c_moduli (k_ct_ctx k) = q :: qs /\ 2 <= q < W62) ->
  forall p : poly PowerBasis, p_ctx p = k_ct_ctx k -> key_switch k p = Panic.
Proof. exact wide_base_panics. Qed.
Print Assumptions C43_wide_base_switch.
(** C43: and reading accepts them: for each such size there is a well-formed message whose relinearization key panics on every ciphertext. *)
Theorem C43_wide_base_refuted : forall isp cands par, oracles isp cands -> is_params isp cands par -> serializable par -> forall expand derive, expands_well expand -> forall b, 64 <= b < 2 ^ 32 ->
  exists m k, wire_ksk m /\ relin_from_proto expand derive (Some m) par = Val k /\ key_shape par (max_level par) (max_level par) k /\ k_log_base k = b /\
    forall ct x0 x1 x2, is_ct par (max_level par) ct [x0; x1; x2] -> relinearizes k ct = Panic.
Proof. exact wide_base_all. Qed.
Print Assumptions C43_wide_base_refuted.
(** C43: public keys with any number of parts from two up are accepted. *)
Theorem C43_public_key_parts_refuted : forall isp cands par, oracles isp cands -> is_params isp cands par -> serializable par -> forall expand n, (2 <= n)%nat -> exists m pk, pk_from_proto expand (Some m) par = Val pk /\ length (cp_c m) = n /\ length (ct_c (pk_c pk)) = n.
Proof. exact pk_extra_all. Qed.
Print Assumptions C43_public_key_parts_refuted.
Example C43_hypotheses_ex : exists par, is_params isp_bfv cands_bfv par /\ supported par /\ serializable par /\ expands_well expand_ex /\ max_level par = 1%nat /\ length sd_ex = 32%nat /\ (forall i, words (rngs_ex i)) /\ pa_t par <= level_modulus par 0 /\
  exists sk, is_sk par sk /\
  (exists k, key_shape par 0 0 k /\ key_faithful expand_ex derive_ex k /\ base_fits k) /\
  (exists g, gk_shape par 0 0 g /\ base_fits (g_ksk g)) /\
  (exists b cols, is_ekb par sk 0 0 b cols) /\
  (exists ek, ek_shape par 0 ek /\ ek_fits ek) /\
  (exists pk, pk_shape par pk) /\ (exists m, wire_ksk m).
Proof. exact wire_hypotheses_ex. Qed.
Example C43_relinearization_key_ex : wire_relin_ex = Val (2, 0, 32, true).
Proof. vm_compute. reflexivity. Qed.
(** With digits of 63 bits the relinearization goes through, with digits of 64 bits it panics. *)
Example C43_wide_base_ex : wide_base_ex 63 = Val false /\ wide_base_ex 64 = Val true.
Proof. split; vm_compute; reflexivity. Qed.
