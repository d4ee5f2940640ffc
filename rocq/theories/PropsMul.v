(** Properties C37 and C42: products of ciphertexts, serialization of ciphertexts
    (fhe/src/bfv/ops/mod.rs, fhe/src/bfv/ciphertext.rs).

    [is_ct], [phase] and [encrypts] are as in PropsCipher.  [lifts Q x y]: y is congruent to x modulo Q and
    |y| <= Q * (1 + 2^-44) / 2.  [mul_room par l n]: n * N * 2^(number of primes added to the basis) <= 2^59; n = 2 and
    N = 2^15 leave room for 43 added primes. *)
From Verif Require Import Outcome BasicSpec PolySpec ZqModel NttModel TranscodeModel RnsModel RnsSpec RqModel RqSpec ParamsModel BfvSpec PrimeCert ExampleParams PlainModel CipherModel OpsModel SchemeSpec CipherSpec CipherPropLemmas LinearPropLemmas SerialPropLemmas MulPropLemmas CipherExamples MulExamples.
From Coq Require Import Znumtheory.

(** C37: for any numbers of parts, including squares, Q * phase(ct1*ct2) differs from t * phase1 * phase2 (for lifts of the parts) by at most about Q/2 * (1 + S + S^2 + ..), S being the 1-norm of the key. *)
Theorem C37_phase : forall isp cands par, oracles isp cands -> is_params isp cands par -> supported par -> forall l, (l <= max_level par)%nat -> forall a b xs ys, is_ct par l a xs -> is_ct par l b ys -> xs <> [] -> ys <> [] -> mul_room par l (length xs) ->
  exists ct zs xs' ys', ct_mul a b = Val ct /\ ct_seed ct = None /\ is_ct par l ct zs /\ length zs = (length xs + length ys - 1)%nat /\
    Forall2 (lifts (level_modulus par l)) xs xs' /\ Forall2 (lifts (level_modulus par l)) ys ys' /\
    forall s, length s = (pa_degree par) -> Forall (fun a => 2 ^ 43 * Z.abs a <= level_modulus par l * (2 ^ 42 + 1) * geometric (norm1 s) (length zs))
      (zipWith Z.sub (map (Z.mul (level_modulus par l)) (phase (pa_degree par) s zs)) (map (Z.mul (pa_t par)) (negacyclic (pa_degree par) (phase (pa_degree par) s xs') (phase (pa_degree par) s ys')))).
Proof. exact mul_all. Qed.
Print Assumptions C37_phase.
(** C37: the product encrypts the product of the messages, with an explicit noise bound. *)
Theorem C37_messages : forall isp cands par, oracles isp cands -> is_params isp cands par -> supported par -> forall l, (l <= max_level par)%nat -> forall sk a b m1 m2 B1 B2, is_sk par sk -> encrypts par sk l a m1 B1 -> encrypts par sk l b m2 B2 ->
  2 * (pa_t par) * (B1 + 1) <= level_modulus par l -> 2 * (pa_t par) * (B2 + 1) <= level_modulus par l -> mul_room par l (length (ct_c a)) ->
  exists ct, ct_mul a b = Val ct /\ ct_seed ct = None /\ length (ct_c ct) = (length (ct_c a) + length (ct_c b) - 1)%nat /\
    encrypts par sk l ct (negacyclic (pa_degree par) m1 m2) (mul_noise (pa_degree par) (pa_t par) (level_modulus par l) (norm1 (sk_coeffs sk)) (length (ct_c a)) (length (ct_c b)) B1 B2).
Proof. exact enc_mul_all. Qed.
Print Assumptions C37_messages.
(** C37: hence it decrypts to the product when that bound is below the threshold. *)
Theorem C37_decrypt : forall isp cands par, oracles isp cands -> is_params isp cands par -> supported par -> decryptable par -> forall l, (l <= max_level par)%nat -> forall sk a b m1 m2 B1 B2, is_sk par sk -> encrypts par sk l a m1 B1 -> encrypts par sk l b m2 B2 ->
  2 * (pa_t par) * (B1 + 1) <= level_modulus par l -> 2 * (pa_t par) * (B2 + 1) <= level_modulus par l -> mul_room par l (length (ct_c a)) ->
  small_noise par l (mul_noise (pa_degree par) (pa_t par) (level_modulus par l) (norm1 (sk_coeffs sk)) (length (ct_c a)) (length (ct_c b)) B1 B2) ->
  exists ct pt, ct_mul a b = Val ct /\ sk_decrypt sk ct = Val pt /\ is_pt par l pt (map (fun a => a mod (pa_t par)) (negacyclic (pa_degree par) m1 m2)).
Proof. exact mul_decrypt_all. Qed.
Print Assumptions C37_decrypt.
(** C37: operands of different parameters or levels make the operator panic. *)
Theorem C37_mismatch : forall a b, ct_c a <> [] -> ct_eqb b a = false -> pa_id (ct_par a) <> pa_id (ct_par b) \/ ct_level a <> ct_level b -> ct_mul a b = Panic.
Proof. exact mul_mismatch_all. Qed.
Print Assumptions C37_mismatch.
(** C37: the zero ciphertext times anything is the zero ciphertext. *)
Theorem C37_zero_left : forall par, forall b, ct_mul (ct_zero par) b = Val (ct_zero par).
Proof. exact mul_zero_left_all. Qed.
Print Assumptions C37_zero_left.
(** C37 fails for the zero ciphertext on the right: the product of a two-part ciphertext by it has one part only and cannot be decrypted. *)
Theorem C37_zero_right_refuted : forall isp cands par, oracles isp cands -> is_params isp cands par -> supported par -> forall a xs, is_ct par 0 a xs -> length xs = 2%nat -> exists ct, ct_mul a (ct_zero par) = Val ct /\ length (ct_c ct) = 1%nat /\
  forall sk, sk_par sk = par -> sk_decrypt sk ct = Err (TooFewPolynomials 1 2).
Proof. exact mul_zero_right_all. Qed.
Print Assumptions C37_zero_right_refuted.
(** The hypotheses hold together for the parameters of the examples. *)
Example C37_hypotheses_ex : exists par, is_params isp_bfv cands_bfv par /\ supported par /\ decryptable par /\ serializable par /\ mul_room par 0 2 /\ mul_room par 0 3 /\
  2 * pa_t par * (2 * pa_variance par + 1) <= level_modulus par 0 /\
  exists sk, sk_random par rng_ex = Val sk /\ is_sk par sk /\
    small_noise par 0 (mul_noise (pa_degree par) (pa_t par) (level_modulus par 0) (norm1 (sk_coeffs sk)) 2 2 (2 * pa_variance par) (2 * pa_variance par)).
Proof. exact mul_hypotheses_ex. Qed.
Example C37_ex : product_ex = Val ([5; 6; 0; 0; 0; 0; 0; 0], 3).
Proof. vm_compute. reflexivity. Qed.

(** [with_vt ct] is [ct] with the variable-time flags of its parts set; the derived equality ignores them. *)
(** C42: what the derived equality of ciphertexts compares. *)
Theorem C42_equality : forall a b, ct_eqb a b = true <->
  pa_degree (ct_par a) = pa_degree (ct_par b) /\ pa_moduli (ct_par a) = pa_moduli (ct_par b) /\ pa_variance (ct_par a) = pa_variance (ct_par b) /\ pa_t (ct_par a) = pa_t (ct_par b) /\
  ct_seed a = ct_seed b /\ ct_level a = ct_level b /\
  Forall2 (fun x y => c_moduli (p_ctx x) = c_moduli (p_ctx y) /\ c_degree (p_ctx x) = c_degree (p_ctx y) /\ p_lazy x = p_lazy y /\ p_coeffs x = p_coeffs y /\ p_shoup x = p_shoup y) (ct_c a) (ct_c b).
Proof. exact ct_eqb_all. Qed.
Print Assumptions C42_equality.
(** C42: ciphertexts of two parts or more survive serialization, provided the last part is the expansion of the seed if there is one. *)
Theorem C42_roundtrip : forall isp cands par, oracles isp cands -> is_params isp cands par -> serializable par -> forall l, (l <= max_level par)%nat ->
  forall expand ct xs, expands_well expand -> is_ct par l ct xs -> (2 <= length xs)%nat -> seed_faithful expand ct ->
  exists m, ct_to_proto ct = Val m /\ ct_from_proto expand m par = Val (with_vt ct) /\ ct_eqb (with_vt ct) ct = true.
Proof. exact ct_roundtrip_all. Qed.
Print Assumptions C42_roundtrip.
(** C42: fresh secret-key encryptions satisfy that condition. *)
Theorem C42_fresh : forall isp cands par, oracles isp cands -> is_params isp cands par -> forall l, (l <= max_level par)%nat ->
  forall expand sk sd rng pt m, expands_well expand -> words rng -> is_sk par sk -> is_pt par l pt m -> canonical (pa_t par) m -> pa_t par <= level_modulus par l -> length sd = 32%nat ->
  exists ct, sk_encrypt expand sk pt sd rng = Val ct /\ ct_seed ct = Some sd /\ seed_faithful expand ct.
Proof. exact fresh_faithful_all. Qed.
Print Assumptions C42_fresh.
(** C42 fails for a seeded ciphertext whose last part is overwritten through [DerefMut]: the new part is lost. *)
Theorem C42_overwrite_refuted : forall isp cands par, oracles isp cands -> is_params isp cands par -> serializable par -> forall l, (l <= max_level par)%nat ->
  forall expand ct xs sd p, expands_well expand -> is_ct par l ct xs -> (2 <= length xs)%nat -> seed_faithful expand ct -> ct_seed ct = Some sd ->
  (exists front last, ct_c ct = front ++ [last] /\ p_coeffs p <> p_coeffs last) ->
  exists m, ct_to_proto (ct_overwrite ct (length xs - 1) p) = Val m /\ ct_from_proto expand m par = Val (with_vt ct) /\ ct_eqb (with_vt ct) (ct_overwrite ct (length xs - 1) p) = false.
Proof. exact overwrite_all. Qed.
Print Assumptions C42_overwrite_refuted.
(** C42 fails for the zero ciphertext: its own serialization is rejected. *)
Theorem C42_zero_refuted : forall par, forall expand, exists m, ct_to_proto (ct_zero par) = Val m /\ ct_from_proto expand m par = Err (InvalidCiphertextPolynomialCount 0 false).
Proof. exact zero_serial_all. Qed.
Print Assumptions C42_zero_refuted.
Example C42_ex : serialization_ex = Val (true, false).
Proof. vm_compute. reflexivity. Qed.
