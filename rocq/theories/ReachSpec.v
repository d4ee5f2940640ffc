(** The ciphertexts that programs using the public interface can hold: results of encryptions, of [Ciphertext::new], of
    reading messages, and of any sequence of operations on such ciphertexts, whatever the keys and plaintexts. *)
From Verif Require Import Outcome BasicSpec PolySpec NttModel RnsModel RqModel RqSpec ParamsModel BfvSpec PlainModel CipherModel SchemeSpec CipherSpec OpsModel KeysModel KeysSpec EvalSpec WireSpec.

Section Reach.
  Variables (isp : Z -> bool) (cands : Z -> list Z) (expand : expander) (par : params).

  (** Plaintexts of a level whose modulus is not below the plaintext modulus. *)
  Definition usable_pt (pt : plaintext) : Prop := exists l m, (l <= max_level par)%nat /\ is_pt par l pt m /\ pa_t par <= level_modulus par l.
  Definition any_pt (pt : plaintext) : Prop := exists l m, (l <= max_level par)%nat /\ is_pt par l pt m.
  (** Multiplicators, whatever their scaling factors and basis. *)
  Inductive multiplier : multiplicator -> Prop :=
  | multiplier_new lhs rhs basis post l m : (l <= max_level par)%nat -> mult_new isp cands lhs rhs basis post l par = Val m -> multiplier m
  | multiplier_relin m l1 l2 rk m' : multiplier m -> key_shape par l1 l2 rk -> base_fits rk -> mult_enable_relin m rk = Val m' -> multiplier m'
  | multiplier_switch m m' : multiplier m -> mult_enable_switch m = Val m' -> multiplier m'.

  (** Ciphertexts made from something else than ciphertexts.  Messages with a seed carry one polynomial, as those written by
      this library do for fresh ciphertexts. *)
  Inductive created : ciphertext -> Prop :=
  | created_zero : created (ct_zero par)
  | created_sk sk pt sd rng ct : is_sk par sk -> usable_pt pt -> length sd = 32%nat -> words rng -> sk_encrypt expand sk pt sd rng = Val ct -> created ct
  | created_pk pk pt ru r1 r2 ct : pk_shape par pk -> usable_pt pt -> words ru -> words r1 -> words r2 -> pk_encrypt pk pt ru r1 r2 = Val ct -> created ct
  | created_new ps l ct : (l <= max_level par)%nat -> Forall (fun p => exists x, is_poly par l p x) ps -> ct_new ps par = Val ct -> created ct
  | created_read m ct : wire_ct m -> cp_seed m = [] \/ length (cp_c m) = 1%nat -> ct_from_proto expand m par = Val ct -> created ct.

  (** [result ins ct]: some operation on the ciphertexts [ins] returns [ct]. *)
  Inductive result : list ciphertext -> ciphertext -> Prop :=
  | result_add a b r : ct_add a b = Val r -> result [a; b] r
  | result_sub a b r : ct_sub a b = Val r -> result [a; b] r
  | result_neg a r : ct_neg a = Val r -> result [a] r
  | result_add_pt a pt r : usable_pt pt -> ct_add_pt a pt = Val r -> result [a] r
  | result_sub_pt a pt r : usable_pt pt -> ct_sub_pt a pt = Val r -> result [a] r
  | result_pt_sub a pt r : usable_pt pt -> pt_sub_ct pt a = Val r -> result [a] r
  | result_mul_pt a pt r : any_pt pt -> ct_mul_pt a pt = Val r -> result [a] r
  | result_mul a b r : ct_mul a b = Val r -> result [a; b] r
  | result_dot cts pts r : Forall any_pt pts -> dot_product_scalar cts pts = Val r -> result cts r
  | result_multiply m a b r : multiplier m -> mult_multiply m a b = Val r -> result [a; b] r
  | result_down a r : ct_switch_down a = Val r -> result [a] r
  | result_level a l r : ct_switch_to_level a l = Val r -> result [a] r
  | result_relin k l1 l2 a r : key_shape par l1 l2 k -> base_fits k -> relinearizes k a = Val r -> result [a] r
  | result_galois g l1 l2 a r : gk_shape par l1 l2 g -> base_fits (g_ksk g) -> galois_apply g a = Val r -> result [a] r
  | result_rows ek l a r : ek_shape par l ek -> ek_fits ek -> rotates_rows ek a = Val r -> result [a] r
  | result_columns ek l a i r : ek_shape par l ek -> ek_fits ek -> rotates_columns_by ek a i = Val r -> result [a] r
  | result_inner ek l a r : ek_shape par l ek -> ek_fits ek -> computes_inner_sum ek a = Val r -> result [a] r
  | result_expand ek l a size rs r : ek_shape par l ek -> ek_fits ek -> expands ek a size = Val rs -> In r rs -> result [a] r
  | result_rgsw a l g r : rgsw_shape par l g -> base_fits (r_ksk0 g) -> base_fits (r_ksk1 g) -> ct_mul_rgsw a g = Val r -> result [a] r.

  Inductive reach : ciphertext -> Prop :=
  | reach_created ct : created ct -> reach ct
  | reach_result ins ct : Forall reach ins -> result ins ct -> reach ct.
End Reach.
