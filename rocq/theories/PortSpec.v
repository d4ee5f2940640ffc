(** Specification for the property about reading what was written by a program that uses other roots of unity: parameter
    sets with the same numbers, and the same secret key under other parameters. *)
From Verif Require Import Outcome BasicSpec ParamsModel PlainModel CipherModel BytesModel.

(** Two parameter sets with the same degree, ciphertext moduli, variance and plaintext modulus.  They may differ in their
    roots of unity: the tables of their transforms and all that was computed with these. *)
Definition same_numbers (p p' : params) : Prop :=
  pa_degree p = pa_degree p' /\ pa_moduli p = pa_moduli p' /\ pa_variance p = pa_variance p' /\ pa_t p = pa_t p'.
(** The secret key of the same coefficients for [par]. *)
Definition key_under (par : params) (sk : secret_key) : secret_key := mkSk par (sk_coeffs sk).
(** A ciphertext and a secret key are written; a program that holds [par'] reads both and decrypts. *)
Definition decrypt_elsewhere (expand : expander) (sk : secret_key) (ct : ciphertext) (par' : params) : M plaintext :=
  b <- ct_to_bytes ct ;;
  sk' <- sk_from_bytes (sk_to_bytes sk) par' ;;
  ct' <- ct_from_bytes expand b par' ;;
  sk_decrypt sk' ct'.
