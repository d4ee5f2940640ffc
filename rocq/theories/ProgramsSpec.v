(** Specification vocabulary for the example programs: what their generators give, what they compute, and the noise of their ciphertexts. *)
From Verif Require Import Outcome BasicSpec RnsModel RnsSpec RqModel RqSpec ParamsModel BfvSpec PlainModel CipherModel OpsModel SchemeSpec CipherSpec KeysModel KeysSpec EvalSpec RgswSpec CircuitSpec ProgramsModel.

(** The generators give 64-bit words. *)
Definition fresh_ok (d : fresh) : Prop := words (f_u d) /\ words (f_e1 d) /\ words (f_e2 d).
Definition basic_ok (d : basic_draws) : Prop := words (b_sk d) /\ words (b_pk d) /\ forall i, fresh_ok (b_enc d i).
Definition ops_ok (d : ops_draws) : Prop :=
  words (o_sk d) /\ words (o_pk d) /\ (forall e i, words (o_ek d e i)) /\ (forall i, words (o_rk d i)) /\ forall i j, fresh_ok (o_enc d i j).
Definition rgsw_ok (d : rgsw_draws) : Prop :=
  words (g_sk d) /\ words (g_enc1 d) /\ words (g_enc2 d) /\ (forall i, words (g_rgsw0 d i)) /\ forall i, words (g_rgsw1 d i).

(** Vectors of values below the plaintext modulus, at most one for each slot. *)
Definition values (par : params) (v : list Z) : Prop := Forall (fun a => 0 <= a < pa_t par) v /\ (length v <= pa_degree par)%nat.
(** The inner product of two vectors, up to the end of the shorter one, and the polynomial 3 x^2 + 2 x + 1. *)
Definition inner (v w : list Z) : Z := sum_of (zipWith Z.mul v w).
Definition polynomial_at (x : Z) : Z := 3 * x ^ 2 + 2 * x + 1.

(** Parameters with which the programs could run. *)
Definition program_params (par : params) : Prop := supported par /\ decryptable par /\ pa_t par <= level_modulus par 0 /\ pa_t par < 2 ^ 64.
(** The largest 1-norm of a secret key, and keys as the programs make them. *)
Definition key_norm (par : params) : Z := Z.of_nat (pa_degree par) * (2 * pa_variance par).
Definition key_pair (par : params) (sk : secret_key) (pk : public_key) : Prop :=
  is_sk par sk /\ norm1 (sk_coeffs sk) <= key_norm par /\ is_pk par sk 0 pk (2 * pa_variance par).
Definition relin_key (par : params) (sk : secret_key) (rk : ksk) : Prop := k_log_base rk = key_base par 0 /\ rkey_ok par sk (mkRkey rk 0 0 (2 * pa_variance par)).
Definition sum_key (par : params) (sk : secret_key) (ek : eval_key) : Prop :=
  exists has, ekey_ok par sk (mkEkey ek 0 0 has (2 * pa_variance par)) /\ sums_b (pa_degree par) has = true.

(** The largest noise of an encryption, of a change of key, of a relinearized product of two encryptions, and of an inner sum. *)
Definition encryption_noise (par : params) : Z := pk_noise par (key_norm par) (2 * pa_variance par).
Definition switching_noise (par : params) : Z := key_noise par (key_norm par) 0 0.
Definition product_noise (par : params) : Z :=
  mul_noise (pa_degree par) (pa_t par) (level_modulus par 0) (key_norm par) 2 2 (encryption_noise par) (encryption_noise par) + switching_noise par.
Definition inner_sum_noise (par : params) (B : Z) : Z := Z.of_nat (pa_degree par) * (B + 2 + switching_noise par) - 2 - switching_noise par.
(** Encryptions can be multiplied. *)
Definition products_fit (par : params) : Prop := 2 * pa_t par * (encryption_noise par + 1) <= level_modulus par 0 /\ mul_room par 0 2.
(** The noise of the results of bfv_ops.rs, for sums of [n] products. *)
Definition plain_weights_noise (par : params) (n : Z) : Z := n * ((pa_t par - 1) * (encryption_noise par + 1) + 1) - 1.
Definition simd_weights_noise (par : params) : Z := inner_sum_noise par (Z.of_nat (pa_degree par) * (pa_t par - 1) * (encryption_noise par + 1)).
Definition plain_product_noise (par : params) (n : Z) : Z := n * (product_noise par + 1) - 1.
Definition simd_product_noise (par : params) : Z := inner_sum_noise par (product_noise par).
(** [w] bounds the 1-norm of the encodings of the three coefficients of the polynomial. *)
Definition polynomial_noise (par : params) (w : Z) : Z := w * (product_noise par + 1) + w * (encryption_noise par + 1) + 2.
(** The slotwise products of two vectors, and the noise of the two products of rgsw.rs. *)
Definition slot_products (par : params) (v w : list Z) : list Z := zipWith (fun a b => (a * b) mod pa_t par) (pad (pa_degree par) v) (pad (pa_degree par) w).
Definition external_product_noise (par : params) : Z := Z.of_nat (pa_degree par) * (pa_t par - 1) * (2 * pa_variance par + 1) + 2 * switching_noise par.
Definition direct_product_noise (par : params) : Z :=
  mul_noise (pa_degree par) (pa_t par) (level_modulus par 0) (key_norm par) 2 2 (2 * pa_variance par) (2 * pa_variance par).
(** Secret key encryptions can be multiplied. *)
Definition direct_products_fit (par : params) : Prop := 2 * pa_t par * (2 * pa_variance par + 1) <= level_modulus par 0 /\ mul_room par 0 2.
