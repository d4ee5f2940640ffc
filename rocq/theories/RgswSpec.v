(** Specification vocabulary for RGSW ciphertexts and multiplicators, independent of the model's helpers. *)
From Verif Require Import Outcome BasicSpec PolySpec ZqModel NttModel RnsModel RnsSpec RqModel RqSpec ParamsModel BfvSpec PlainModel CipherModel SchemeSpec CipherSpec KeysModel KeysSpec.

(** [r] encrypts the polynomial [m] at level [l]: its halves are keys for m and for s*m, with noise at most [B], that
    decompose polynomials in the base of that level. *)
Definition is_rgsw (par : params) (sk : secret_key) (l : nat) (r : rgsw) (m : list Z) (B : Z) : Prop :=
  is_ksk par sk l l (r_ksk0 r) m B /\ is_ksk par sk l l (r_ksk1 r) (negacyclic (pa_degree par) (sk_coeffs sk) m) B.
(** The noise of an external product: two switches. *)
Definition external_noise (par : params) (l : nat) (r : rgsw) (B : Z) : Z :=
  switch_noise par l (k_log_base (r_ksk0 r)) B + switch_noise par l (k_log_base (r_ksk1 r)) B.

(** A basis for products at level [l]: its moduli followed by primes of 62 bits, large enough for the products of two
    ciphertexts of two parts. *)
Definition product_basis (par : params) (l : nat) (basis : list Z) : Prop :=
  exists ext, basis = level_moduli (pa_moduli par) l ++ ext /\ Forall (fun p => 2 ^ 61 <= p < 2 ^ 62) ext /\
    level_modulus par l * 2 ^ 60 <= 2 ^ (62 * Z.of_nat (length ext)) /\
    2 * Z.of_nat (pa_degree par) * 2 ^ Z.of_nat (length ext) <= 2 ^ 59.
(** The factors of the textbook product: 1, 1 and t/Q. *)
Definition textbook (par : params) (l : nat) (lhs rhs post : factor) : Prop :=
  factor_new 1 1 = Val lhs /\ factor_new 1 1 = Val rhs /\ factor_new (pa_t par) (level_modulus par l) = Val post.
