(** Properties C45 (external products with RGSW ciphertexts) and C37 (products by multiplicators)
    (fhe/src/bfv/rgsw_ciphertext.rs, fhe/src/bfv/ops/mul.rs).

    [is_rgsw par sk l r m B]: the RGSW ciphertext [r] of level [l] encrypts the polynomial [m] with noise at most [B].
    [external_noise]: what an external product adds.  [product_basis par l basis]: the moduli of level [l] followed by enough
    primes of 62 bits.  [textbook]: the factors 1, 1 and t/Q. *)
From Verif Require Import Outcome BasicSpec PolySpec ZqModel NttModel TranscodeModel RnsModel RnsSpec RqModel RqSpec ParamsModel BfvSpec PrimeCert ExampleParams PlainModel CipherModel OpsModel SchemeSpec CipherSpec CipherExamples KeysModel KeysSpec KeyExamples RgswSpec RgswPropLemmas MultPropLemmas RgswExamples.

(** C45: RGSW encryption of a plaintext succeeds, with keys for m and s*m. *)
Theorem C45_encrypt : forall isp cands par, oracles isp cands -> is_params isp cands par -> forall expand derive, expands_well expand -> forall sk, is_sk par sk -> forall l, (l <= max_level par)%nat ->
  forall pt m, is_pt par l pt m -> forall sd0 sd1 rngs0 rngs1, (forall i, words (rngs0 i)) -> (forall i, words (rngs1 i)) ->
  exists r, rgsw_encrypt expand derive sk pt sd0 sd1 rngs0 rngs1 = Val r /\ is_rgsw par sk l r m (2 * pa_variance par) /\
    k_log_base (r_ksk0 r) = key_base par l /\ k_log_base (r_ksk1 r) = key_base par l.
Proof. exact rgsw_new_all. Qed.
Print Assumptions C45_encrypt.
(** C45: the product with a two-part ciphertext, in either order, has phase m * phase + noise; it encrypts m * m'. *)
Theorem C45_external : forall isp cands par, oracles isp cands -> is_params isp cands par -> forall sk, is_sk par sk -> forall l, (l <= max_level par)%nat -> forall r m B, 0 <= B -> is_rgsw par sk l r m B ->
  (forall ct x0 x1, is_ct par l ct [x0; x1] -> exists ct' z0 z1 e, ct_mul_rgsw ct r = Val ct' /\ rgsw_mul_ct r ct = Val ct' /\ ct_seed ct' = None /\ is_ct par l ct' [z0; z1] /\
    length e = (pa_degree par) /\ bounded_by (external_noise par l r B) e /\
    congruent (level_modulus par l) (phase (pa_degree par) (sk_coeffs sk) [z0; z1]) (zipWith Z.add (negacyclic (pa_degree par) m (phase (pa_degree par) (sk_coeffs sk) [x0; x1])) e)) /\
  (forall ct m' B', encrypts par sk l ct m' B' -> length (ct_c ct) = 2%nat -> exists ct', ct_mul_rgsw ct r = Val ct' /\ rgsw_mul_ct r ct = Val ct' /\ length (ct_c ct') = 2%nat /\
    encrypts par sk l ct' (negacyclic (pa_degree par) m m') (norm1 m * (B' + 1) + external_noise par l r B)).
Proof. exact external_all. Qed.
Print Assumptions C45_external.
(** C45: products with fresh RGSW encryptions, with the noise spelled out. *)
Theorem C45_fresh : forall isp cands par, oracles isp cands -> is_params isp cands par -> forall expand derive, expands_well expand -> forall sk, is_sk par sk -> forall l, (l <= max_level par)%nat ->
  forall pt m, is_pt par l pt m -> forall sd0 sd1 rngs0 rngs1, (forall i, words (rngs0 i)) -> (forall i, words (rngs1 i)) ->
  exists r, rgsw_encrypt expand derive sk pt sd0 sd1 rngs0 rngs1 = Val r /\
    forall ct m' B', encrypts par sk l ct m' B' -> length (ct_c ct) = 2%nat -> exists ct', ct_mul_rgsw ct r = Val ct' /\ rgsw_mul_ct r ct = Val ct' /\
      encrypts par sk l ct' (negacyclic (pa_degree par) m m') (norm1 m * (B' + 1) + 2 * switch_noise par l (key_base par l) (2 * pa_variance par)).
Proof. exact external_fresh. Qed.
Print Assumptions C45_fresh.
(** C45: operands of other parameters, levels or numbers of parts make the product panic. *)
Theorem C45_mismatch : forall ct r, (par_eqb (ct_par ct) (k_par (r_ksk0 r)) = false \/ ct_level ct <> k_ct_level (r_ksk0 r) \/ length (ct_c ct) <> 2%nat) -> ct_mul_rgsw ct r = Panic /\ rgsw_mul_ct r ct = Panic.
Proof. exact external_panics. Qed.
Print Assumptions C45_mismatch.
(** C45: plaintexts of other parameters are refused. *)
Theorem C45_other_params : forall expand derive sk pt sd0 sd1 rngs0 rngs1, pa_id (pt_par pt) <> pa_id (sk_par sk) -> rgsw_encrypt expand derive sk pt sd0 sd1 rngs0 rngs1 = Err ParameterMismatch.
Proof. exact rgsw_refused. Qed.
Print Assumptions C45_other_params.
(** C37: products of two-part ciphertexts by a multiplicator for any product basis, with or without modulus switching. *)
Theorem C37_multiplicator : forall isp cands par, oracles isp cands -> is_params isp cands par -> supported par -> forall l, (l <= max_level par)%nat -> forall lhs rhs post basis, textbook par l lhs rhs post -> product_basis par l basis ->
  forall m, mult_new isp cands lhs rhs basis post l par = Val m -> forall sk a b m1 m2 B1 B2, is_sk par sk -> encrypts par sk l a m1 B1 -> encrypts par sk l b m2 B2 -> length (ct_c a) = 2%nat -> length (ct_c b) = 2%nat ->
  2 * (pa_t par) * (B1 + 1) <= level_modulus par l -> 2 * (pa_t par) * (B2 + 1) <= level_modulus par l ->
  let B := mul_noise (pa_degree par) (pa_t par) (level_modulus par l) (norm1 (sk_coeffs sk)) 2 2 B1 B2 in
  (exists ct, mult_multiply m a b = Val ct /\ ct_seed ct = None /\ length (ct_c ct) = 3%nat /\ encrypts par sk l ct (negacyclic (pa_degree par) m1 m2) B) /\
  ((l < max_level par)%nat -> exists m' ct, mult_enable_switch m = Val m' /\ mult_multiply m' a b = Val ct /\ ct_seed ct = None /\ length (ct_c ct) = 3%nat /\
     encrypts par sk (S l) ct (negacyclic (pa_degree par) m1 m2) (dropped_noise (norm1 (sk_coeffs sk)) 3 (dropped (pa_moduli par) l 1) B)) /\
  (l = max_level par -> mult_enable_switch m = Err NoMoreContext).
Proof. exact mult_new_all. Qed.
Print Assumptions C37_multiplicator.
(** C37: the same with relinearization. *)
Theorem C37_multiplicator_relin : forall isp cands par, oracles isp cands -> is_params isp cands par -> supported par -> forall l, (l <= max_level par)%nat -> forall lhs rhs post basis, textbook par l lhs rhs post -> product_basis par l basis ->
  forall m0, mult_new isp cands lhs rhs basis post l par = Val m0 -> forall sk, is_sk par sk -> forall l2, (l2 <= l)%nat -> forall k B, 0 <= B -> is_ksk par sk l l2 k (map (Z.mul (level_ratio par l l2)) (negacyclic (pa_degree par) (sk_coeffs sk) (sk_coeffs sk))) B ->
  exists m, mult_enable_relin m0 k = Val m /\ forall a b m1 m2 B1 B2, encrypts par sk l a m1 B1 -> encrypts par sk l b m2 B2 -> length (ct_c a) = 2%nat -> length (ct_c b) = 2%nat ->
  2 * (pa_t par) * (B1 + 1) <= level_modulus par l -> 2 * (pa_t par) * (B2 + 1) <= level_modulus par l ->
  let B' := mul_noise (pa_degree par) (pa_t par) (level_modulus par l) (norm1 (sk_coeffs sk)) 2 2 B1 B2 + divided_noise (norm1 (sk_coeffs sk)) (level_ratio par l l2) (switch_noise par l (k_log_base k) B) in
  (exists ct, mult_multiply m a b = Val ct /\ ct_seed ct = None /\ length (ct_c ct) = 2%nat /\ encrypts par sk l ct (negacyclic (pa_degree par) m1 m2) B') /\
  ((l < max_level par)%nat -> exists m' ct, mult_enable_switch m = Val m' /\ mult_multiply m' a b = Val ct /\ ct_seed ct = None /\ length (ct_c ct) = 2%nat /\
     encrypts par sk (S l) ct (negacyclic (pa_degree par) m1 m2) (dropped_noise (norm1 (sk_coeffs sk)) 2 (dropped (pa_moduli par) l 1) B')) /\
  (l = max_level par -> mult_enable_switch m = Err NoMoreContext).
Proof. exact mult_relin_all. Qed.
Print Assumptions C37_multiplicator_relin.
(** C37: the default multiplicator of a relinearization key exists and computes products. *)
Theorem C37_default : forall isp cands par, oracles isp cands -> is_params isp cands par -> supported par -> forall l, (l <= max_level par)%nat -> mul_room par l 2 ->
  forall sk, is_sk par sk -> forall l2, (l2 <= l)%nat -> forall k B, 0 <= B -> is_ksk par sk l l2 k (map (Z.mul (level_ratio par l l2)) (negacyclic (pa_degree par) (sk_coeffs sk) (sk_coeffs sk))) B ->
  (complete_draws cands -> exists m, mult_default isp cands k = Val m) /\
  forall m, mult_default isp cands k = Val m -> forall a b m1 m2 B1 B2, encrypts par sk l a m1 B1 -> encrypts par sk l b m2 B2 -> length (ct_c a) = 2%nat -> length (ct_c b) = 2%nat ->
  2 * (pa_t par) * (B1 + 1) <= level_modulus par l -> 2 * (pa_t par) * (B2 + 1) <= level_modulus par l ->
  let B' := mul_noise (pa_degree par) (pa_t par) (level_modulus par l) (norm1 (sk_coeffs sk)) 2 2 B1 B2 + divided_noise (norm1 (sk_coeffs sk)) (level_ratio par l l2) (switch_noise par l (k_log_base k) B) in
  (exists ct, mult_multiply m a b = Val ct /\ ct_seed ct = None /\ length (ct_c ct) = 2%nat /\ encrypts par sk l ct (negacyclic (pa_degree par) m1 m2) B') /\
  ((l < max_level par)%nat -> exists m' ct, mult_enable_switch m = Val m' /\ mult_multiply m' a b = Val ct /\ ct_seed ct = None /\ length (ct_c ct) = 2%nat /\
     encrypts par sk (S l) ct (negacyclic (pa_degree par) m1 m2) (dropped_noise (norm1 (sk_coeffs sk)) 2 (dropped (pa_moduli par) l 1) B')) /\
  (l = max_level par -> mult_enable_switch m = Err NoMoreContext).
Proof. exact mult_default_all. Qed.
Print Assumptions C37_default.
(** C37: decryption of such products gives m1 * m2 mod t. *)
Theorem C37_default_decrypt : forall isp cands par, oracles isp cands -> is_params isp cands par -> supported par -> decryptable par -> forall l, (l <= max_level par)%nat -> mul_room par l 2 ->
  forall sk, is_sk par sk -> forall l2, (l2 <= l)%nat -> forall k B, 0 <= B -> is_ksk par sk l l2 k (map (Z.mul (level_ratio par l l2)) (negacyclic (pa_degree par) (sk_coeffs sk) (sk_coeffs sk))) B ->
  forall m, mult_default isp cands k = Val m -> forall a b m1 m2 B1 B2, encrypts par sk l a m1 B1 -> encrypts par sk l b m2 B2 -> length (ct_c a) = 2%nat -> length (ct_c b) = 2%nat ->
  2 * (pa_t par) * (B1 + 1) <= level_modulus par l -> 2 * (pa_t par) * (B2 + 1) <= level_modulus par l ->
  let B' := mul_noise (pa_degree par) (pa_t par) (level_modulus par l) (norm1 (sk_coeffs sk)) 2 2 B1 B2 + divided_noise (norm1 (sk_coeffs sk)) (level_ratio par l l2) (switch_noise par l (k_log_base k) B) in
  (small_noise par l B' -> exists ct pt, mult_multiply m a b = Val ct /\ sk_decrypt sk ct = Val pt /\ is_pt par l pt (map (fun a => a mod (pa_t par)) (negacyclic (pa_degree par) m1 m2))) /\
  ((l < max_level par)%nat -> small_noise par (S l) (dropped_noise (norm1 (sk_coeffs sk)) 2 (dropped (pa_moduli par) l 1) B') ->
     exists m' ct pt, mult_enable_switch m = Val m' /\ mult_multiply m' a b = Val ct /\ sk_decrypt sk ct = Val pt /\ is_pt par (S l) pt (map (fun a => a mod (pa_t par)) (negacyclic (pa_degree par) m1 m2))).
Proof. exact mult_decrypt_all. Qed.
Print Assumptions C37_default_decrypt.
(** C37: operands of other levels or numbers of parts are refused. *)
Theorem C37_multiplicator_refused : forall isp cands par, oracles isp cands -> is_params isp cands par -> forall m, m_par m = par -> forall la lb a b xs ys, (la <= max_level par)%nat -> (lb <= max_level par)%nat -> is_ct par la a xs -> is_ct par lb b ys -> (2 <= length xs)%nat -> (2 <= length ys)%nat ->
  (la <> m_level m -> mult_multiply m a b = Err (InvalidLevel (Z.of_nat la) (Z.of_nat (m_level m)) (Z.of_nat (m_level m)))) /\
  (la = m_level m -> lb <> m_level m -> mult_multiply m a b = Err (InvalidLevel (Z.of_nat lb) (Z.of_nat (m_level m)) (Z.of_nat (m_level m)))) /\
  (la = m_level m -> lb = m_level m -> length xs <> 2%nat \/ length ys <> 2%nat -> mult_multiply m a b = Err (MultiplicationPolynomialCount (Z.of_nat (length xs)) (Z.of_nat (length ys)) 2)).
Proof. exact mult_refused. Qed.
Print Assumptions C37_multiplicator_refused.
(** C37: operands of other parameters are refused. *)
Theorem C37_multiplicator_params : forall m a b, par_same (ct_par a) (m_par m) = false -> mult_multiply m a b = Err ParameterMismatch.
Proof. exact mult_params. Qed.
Print Assumptions C37_multiplicator_params.
Example C45_hypotheses_ex : exists par, is_params isp_bfv cands_bfv par /\ supported par /\ decryptable par /\ complete_draws cands_bfv /\ expands_well expand_ex /\ (forall i, words (rngs_ex i)) /\ max_level par = 1%nat /\ mul_room par 0 2 /\
  2 * pa_t par * (2 * pa_variance par + 1) <= level_modulus par 0 /\
  exists sk, sk_random par rng_ex = Val sk /\ is_sk par sk /\
    small_noise par 0 (8 * 16 * (2 * pa_variance par + 1) + 2 * switch_noise par 0 (key_base par 0) (2 * pa_variance par)) /\
    let B := mul_noise (pa_degree par) (pa_t par) (level_modulus par 0) (norm1 (sk_coeffs sk)) 2 2 (2 * pa_variance par) (2 * pa_variance par) + key_noise par (norm1 (sk_coeffs sk)) 0 0 in
    small_noise par 0 B /\ small_noise par 1 (dropped_noise (norm1 (sk_coeffs sk)) 2 (dropped (pa_moduli par) 0 1) B).
Proof. exact rgsw_hypotheses_ex. Qed.
Example C45_external_ex : external_ex 0 = Val ([5; 6; 0; 0; 0; 0; 0; 0], [5; 6; 0; 0; 0; 0; 0; 0]).
Proof. vm_compute. reflexivity. Qed.
Example C45_digits_ex : external_ex 1 = Val ([5; 6; 0; 0; 0; 0; 0; 0], [5; 6; 0; 0; 0; 0; 0; 0]).
Proof. vm_compute. reflexivity. Qed.
Example C37_multiplicator_ex : multiplicator_ex = Val ([5; 6; 0; 0; 0; 0; 0; 0], 2, 1%nat).
Proof. vm_compute. reflexivity. Qed.
