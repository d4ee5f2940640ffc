(** Property C38: key switching and relinearization
    (fhe/src/bfv/keys/key_switching_key.rs, fhe/src/bfv/keys/relinearization_key.rs).

    [is_ksk par sk l1 l2 k f B]: the elements of the key [k] of level [l2], for ciphertexts of level [l1], encrypt under [sk]
    the polynomial [f] times the weights of the decomposition, with noise at most [B].  [level_ratio par l1 l2] is
    Q_l2 / Q_l1 for l2 <= l1. *)
From Verif Require Import Outcome BasicSpec PolySpec ZqModel NttModel TranscodeModel RnsModel RnsSpec RqModel RqSpec ParamsModel BfvSpec PrimeCert ExampleParams PlainModel CipherModel OpsModel SchemeSpec CipherSpec CipherPropLemmas LinearPropLemmas MulPropLemmas CipherExamples KeysModel KeysSpec KeyPropLemmas KeyExamples.
From Coq Require Import Znumtheory.

(** C38: a new key is a key for its polynomial, with the noise of the error distribution. *)
Theorem C38_new : forall isp cands par, oracles isp cands -> is_params isp cands par -> forall expand derive, expands_well expand -> forall sk, is_sk par sk -> forall l1 l2, (l1 <= max_level par)%nat -> (l2 <= max_level par)%nat -> (l1 = l2 \/ l2 < max_level par)%nat ->
  forall (from : poly PowerBasis) f sd rngs, is_poly par l2 from f -> (forall i, words (rngs i)) ->
  exists k, ksk_new expand derive sk from l1 l2 sd rngs = Val k /\ is_ksk par sk l1 l2 k f (2 * pa_variance par) /\ k_log_base k = key_base par l2.
Proof. exact ksk_new_all. Qed.
Print Assumptions C38_new.
(** C38: c0 + c1*s = w*f + noise modulo the modulus of the key, for a lift w of p; w can be replaced by p itself when Q_l1 * f is 0 modulo Q_l2 (l1 = l2, or keys prepared by relinearization and Galois keys). *)
Theorem C38_key_switch : forall isp cands par, oracles isp cands -> is_params isp cands par -> forall sk, is_sk par sk -> forall l1 l2, (l1 <= max_level par)%nat -> (l2 <= max_level par)%nat ->
  forall k f B, 0 <= B -> is_ksk par sk l1 l2 k f B -> forall (p : poly PowerBasis) x, is_poly par l1 p x ->
  exists c0 c1 y0 y1 w e, key_switch k p = Val (c0, c1) /\ is_poly par l2 c0 y0 /\ is_poly par l2 c1 y1 /\ congruent (level_modulus par l1) w x /\ length e = (pa_degree par) /\ bounded_by (switch_noise par l1 (k_log_base k) B) e /\
    congruent (level_modulus par l2) (phase (pa_degree par) (sk_coeffs sk) [y0; y1]) (zipWith Z.add (negacyclic (pa_degree par) w f) e) /\
    (Forall (fun a => (level_modulus par l1 * a) mod level_modulus par l2 = 0) f -> congruent (level_modulus par l2) (phase (pa_degree par) (sk_coeffs sk) [y0; y1]) (zipWith Z.add (negacyclic (pa_degree par) x f) e)).
Proof. exact key_switch_all. Qed.
Print Assumptions C38_key_switch.
(** C38: polynomials of another context are refused. *)
Theorem C38_key_switch_context : forall k (p : poly PowerBasis), ctx_eqb (p_ctx p) (k_ct_ctx k) = false -> key_switch k p = Err ParameterMismatch.
Proof. exact key_switch_ctx. Qed.
Print Assumptions C38_key_switch_context.
(** C38: the lazily reduced digits can only be multiplied by the elements of a key. *)
Theorem C38_lazy : forall c v (p : poly Ntt), ntt_lazy_constant c v = Val p -> forall q, poly_add p q = Panic /\ poly_add q p = Panic /\ poly_sub p q = Panic /\ poly_mul p q = Panic /\ poly_mul q p = Panic.
Proof. exact lazy_all. Qed.
Print Assumptions C38_lazy.
(** C38: a new relinearization key is a key for Q_l2/Q_l1 * s^2; there is none at the last level. *)
Theorem C38_relin_new : forall isp cands par, oracles isp cands -> is_params isp cands par -> forall expand derive, expands_well expand -> forall sk, is_sk par sk -> forall l1 l2, (l1 <= max_level par)%nat -> (l2 <= l1)%nat ->
  forall sd rngs, (forall i, words (rngs i)) ->
  ((l2 < max_level par)%nat -> exists k, relin_new expand derive sk l1 l2 sd rngs = Val k /\ k_log_base k = 0 /\
    is_ksk par sk l1 l2 k (map (Z.mul (level_ratio par l1 l2)) (negacyclic (pa_degree par) (sk_coeffs sk) (sk_coeffs sk))) (2 * pa_variance par)) /\
  (l2 = max_level par -> relin_new expand derive sk l1 l2 sd rngs = Err KeySwitchingNotSupported).
Proof. exact relin_new_all. Qed.
Print Assumptions C38_relin_new.
(** C38: relinearization returns two parts and adds at most D to the noise. *)
Theorem C38_relinearize : forall isp cands par, oracles isp cands -> is_params isp cands par -> forall sk, is_sk par sk -> forall l1 l2, (l1 <= max_level par)%nat -> (l2 <= l1)%nat ->
  forall k B, 0 <= B -> is_ksk par sk l1 l2 k (map (Z.mul (level_ratio par l1 l2)) (negacyclic (pa_degree par) (sk_coeffs sk) (sk_coeffs sk))) B ->
  let D := divided_noise (norm1 (sk_coeffs sk)) (level_ratio par l1 l2) (switch_noise par l1 (k_log_base k) B) in
  (forall ct x0 x1 x2, is_ct par l1 ct [x0; x1; x2] -> exists ct' z0 z1 e, relinearizes k ct = Val ct' /\ ct_seed ct' = ct_seed ct /\ is_ct par l1 ct' [z0; z1] /\ length e = (pa_degree par) /\ bounded_by D e /\
    congruent (level_modulus par l1) (phase (pa_degree par) (sk_coeffs sk) [z0; z1]) (zipWith Z.add (phase (pa_degree par) (sk_coeffs sk) [x0; x1; x2]) e)) /\
  (forall ct m B', encrypts par sk l1 ct m B' -> length (ct_c ct) = 3%nat -> exists ct', relinearizes k ct = Val ct' /\ length (ct_c ct') = 2%nat /\ encrypts par sk l1 ct' m (B' + D)).
Proof. exact relinearizes_all. Qed.
Print Assumptions C38_relinearize.
(** C38: other numbers of parts and other levels are refused. *)
Theorem C38_relinearize_refused : forall isp cands par, oracles isp cands -> is_params isp cands par -> forall l ct xs k, (l <= max_level par)%nat -> is_ct par l ct xs -> (2 <= length xs)%nat -> k_par k = par ->
  (length xs <> 3%nat -> relinearizes k ct = Err (InvalidPolynomialCount (Z.of_nat (length xs)) 3)) /\
  (length xs = 3%nat -> l <> k_ct_level k -> relinearizes k ct = Err (InvalidLevel (Z.of_nat l) (Z.of_nat (k_ct_level k)) (Z.of_nat (k_ct_level k)))).
Proof. exact relinearizes_refused. Qed.
Print Assumptions C38_relinearize_refused.
(** C38 fails for keys of a level above that of the ciphertexts: they are built, and never relinearize. *)
Theorem C38_above_refuted : forall isp cands par, oracles isp cands -> is_params isp cands par -> supported par -> forall expand derive, expands_well expand -> forall sk, is_sk par sk -> forall l1 l2, (l1 < l2)%nat -> (l2 < max_level par)%nat ->
  forall sd rngs, (forall i, words (rngs i)) -> exists k, relin_new expand derive sk l1 l2 sd rngs = Val k /\ forall ct x0 x1 x2, is_ct par l1 ct [x0; x1; x2] -> relinearizes k ct = Err ContextNotReachable.
Proof. exact relin_above. Qed.
Print Assumptions C38_above_refuted.
(** C38 fails for a key of the last level prepared for ciphertexts of another level: it is built, and every switch panics. *)
Theorem C38_last_level_refuted : forall isp cands par, oracles isp cands -> is_params isp cands par -> forall expand derive, expands_well expand -> forall sk, is_sk par sk -> forall l1, (l1 < max_level par)%nat ->
  forall (from : poly PowerBasis) f sd rngs, is_poly par (max_level par) from f -> (forall i, words (rngs i)) ->
  exists k, ksk_new expand derive sk from l1 (max_level par) sd rngs = Val k /\ forall (p : poly PowerBasis) x, is_poly par l1 p x -> key_switch k p = Panic.
Proof. exact single_panics. Qed.
Print Assumptions C38_last_level_refuted.
(** The hypotheses hold together for the parameters of the examples; three moduli give three levels. *)
Example C38_hypotheses_ex : exists par, is_params isp_bfv cands_bfv par /\ supported par /\ decryptable par /\ max_level par = 1%nat /\
  expands_well expand_ex /\ (forall i, words (rngs_ex i)) /\ exists sk, sk_random par rng_ex = Val sk /\ is_sk par sk /\
  small_noise par 0 (mul_noise (pa_degree par) (pa_t par) (level_modulus par 0) (norm1 (sk_coeffs sk)) 2 2 (2 * pa_variance par) (2 * pa_variance par) + key_noise par (norm1 (sk_coeffs sk)) 0 0) /\
  small_noise par 1 (2 * pa_variance par + key_noise par (norm1 (sk_coeffs sk)) 1 0).
Proof. exact keys_hypotheses_ex. Qed.
Example C38_three_levels_ex : exists par, is_params isp_bfv cands_bfv par /\ supported par /\ max_level par = 2%nat.
Proof. exact three_levels_ex. Qed.
Example C38_relin_ex : relin_ex = Val ([1; 2; 16; 0; 0; 0; 0; 0], 2, 2).
Proof. vm_compute. reflexivity. Qed.
Example C38_digits_ex : digits_ex = Val ([1; 2; 16; 0; 0; 0; 0; 0], 10, 2).
Proof. vm_compute. reflexivity. Qed.
