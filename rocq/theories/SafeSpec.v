(** Calls of the functions that return a [Result], on ciphertexts that a program can hold. *)
From Verif Require Import Outcome BasicSpec PolySpec NttModel RnsModel RnsSpec RqModel RqSpec ParamsModel BfvSpec PlainModel CipherModel SchemeSpec CipherSpec OpsModel KeysModel KeysSpec EvalSpec MbfvModel WireSpec ReachSpec.

(** Scaling by [f] from the moduli [qs] keeps within the bound of the scaler's analysis (C19). *)
Definition tame (f : factor) (qs : list Z) : Prop := factor_new (f_num f) (f_den f) = Val f /\ 0 <= f_num f /\ 0 <= f_den f /\ (f_num f = f_den f \/ load (f_num f) (f_den f) qs < 2 ^ 65) /\ Z.of_nat (length qs) < 2 ^ 60.

Section Calls.
  Variables (isp : Z -> bool) (cands : Z -> list Z) (expand : expander) (par : params).

  (** Multiplicators with tame factors; the extended basis and the relinearization key are arbitrary. *)
  Inductive tame_multiplier : multiplicator -> Prop :=
  | tame_new lhs rhs basis post l m : (l <= max_level par)%nat -> mult_new isp cands lhs rhs basis post l par = Val m ->
      tame lhs (level_moduli (pa_moduli par) l) -> tame rhs (level_moduli (pa_moduli par) l) -> tame post basis -> tame_multiplier m
  | tame_relin m l1 l2 rk m' : tame_multiplier m -> key_shape par l1 l2 rk -> base_fits rk -> mult_enable_relin m rk = Val m' -> tame_multiplier m'
  | tame_switch m m' : tame_multiplier m -> mult_enable_switch m = Val m' -> tame_multiplier m'.

  (** [call ins A m]: [m] is a call on the ciphertexts [ins], with result of type [A]. *)
  Inductive call : list ciphertext -> forall A : Type, M A -> Prop :=
  | call_new ps : Forall (fun p => exists l x, (l <= max_level par)%nat /\ is_poly par l p x) ps -> call [] _ (ct_new ps par)
  | call_read m : wire_ct m -> call [] _ (ct_from_proto expand m par)
  | call_sk_encrypt sk pt sd rng : is_sk par sk -> usable_pt par pt -> words rng -> call [] _ (sk_encrypt expand sk pt sd rng)
  | call_pk_encrypt pk pt ru r1 r2 : pk_shape par pk -> usable_pt par pt -> words ru -> words r1 -> words r2 -> call [] _ (pk_encrypt pk pt ru r1 r2)
  | call_decrypt sk a : is_sk par sk -> call [a] _ (sk_decrypt sk a)
  | call_noise sk a : is_sk par sk -> pa_t par <= level_modulus par (ct_level a) -> call [a] _ (measure_noise sk a)
  | call_dot cts pts : Forall (any_pt par) pts -> call cts _ (dot_product_scalar cts pts)
  | call_multiply m a b : tame_multiplier m -> call [a; b] _ (mult_multiply m a b)
  | call_down a : call [a] _ (ct_switch_down a)
  | call_level a l : call [a] _ (ct_switch_to_level a l)
  | call_relin k l1 l2 a : key_shape par l1 l2 k -> base_fits k -> call [a] _ (relinearizes k a)
  | call_galois g l1 l2 a : gk_shape par l1 l2 g -> base_fits (g_ksk g) -> call [a] _ (galois_apply g a)
  | call_rows ek l a : ek_shape par l ek -> ek_fits ek -> call [a] _ (rotates_rows ek a)
  | call_columns ek l a i : ek_shape par l ek -> ek_fits ek -> call [a] _ (rotates_columns_by ek a i)
  | call_inner ek l a : ek_shape par l ek -> ek_fits ek -> call [a] _ (computes_inner_sum ek a)
  | call_expand ek l a size : ek_shape par l ek -> ek_fits ek -> call [a] _ (expands ek a size)
  | call_switch_share sk1 sk2 a rng : is_sk par sk1 -> is_sk par sk2 -> words rng -> call [a] _ (sks_new sk1 sk2 a rng)
  | call_decryption_share sk a rng : is_sk par sk -> words rng -> call [a] _ (dec_share_new sk a rng).
End Calls.

(** A share of the switching of [ct], made by some member. *)
Definition share_of (par : params) (ct : ciphertext) (s : sks_share) : Prop := exists sk1 sk2 rng, is_sk par sk1 /\ is_sk par sk2 /\ words rng /\ sks_new sk1 sk2 ct rng = Val s.
(** Operands that the operators on two ciphertexts refuse. *)
Definition mismatch (a b : ciphertext) : Prop := ct_level a <> ct_level b \/ length (ct_c a) <> length (ct_c b).
