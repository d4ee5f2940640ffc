(** Specification vocabulary for evaluation keys and slots, independent of the model's helpers. *)
From Verif Require Import Outcome BasicSpec PolySpec ZqModel NttModel RnsSpec RqModel RqSpec ParamsModel BfvSpec PlainModel CipherModel SchemeSpec CipherSpec KeysModel KeysSpec.

(** The N slots of a plaintext form a matrix with two rows of N/2 columns. *)
Definition rotate_left (i : nat) (row : list Z) : list Z := skipn i row ++ firstn i row.
Definition rotated_columns (n i : nat) (v : list Z) : list Z := rotate_left i (firstn (n / 2) v) ++ rotate_left i (skipn (n / 2) v).
Definition swapped_rows (n : nat) (v : list Z) : list Z := skipn (n / 2) v ++ firstn (n / 2) v.

(** The two-part ciphertext [ct] of level [l] encrypts the message [m], with noise at most [B]. *)
Definition encrypts2 (par : params) (sk : secret_key) (l : nat) (ct : ciphertext) (m : list Z) (B : Z) : Prop :=
  length (ct_c ct) = 2%nat /\ encrypts par sk l ct m B.
(** The two-part ciphertext [ct] of level [l] encrypts the SIMD encoding of [v], with noise at most [B]. *)
Definition encrypts_slots (par : params) (sk : secret_key) (l : nat) (ct : ciphertext) (v : list Z) (B : Z) : Prop :=
  exists pt m, encode_u64 false v (mkEnc EncSimd l) par = Val pt /\ is_pt par l pt m /\ Forall (fun a => 0 <= a < pa_t par) m /\ encrypts2 par sk l ct m B.

(** [g] applies the automorphism X -> X^e to ciphertexts of level [l1], with a key of level [l2]. *)
Definition is_gk (par : params) (sk : secret_key) (l1 l2 : nat) (e : Z) (g : galois_key) (B : Z) : Prop :=
  (exists c, par_context par l1 = Val c /\ subst_new c e = Val (g_element g)) /\ k_log_base (g_ksk g) = key_base par l2 /\
  is_ksk par sk l1 l2 (g_ksk g) (map (Z.mul (level_ratio par l1 l2)) (automorphism (pa_degree par) e (sk_coeffs sk))) B.

(** The exponents of the automorphisms: rotating the columns by [i], swapping the rows, and the rounds of an expansion. *)
Definition column_exponent (n : nat) (i : Z) : Z := 3 ^ i mod (2 * Z.of_nat n).
Definition row_exponent (n : nat) : Z := 2 * Z.of_nat n - 1.
Definition expansion_exponent (n k : nat) : Z := Z.of_nat n / 2 ^ Z.of_nat k + 1.
(** The steps by which columns can be rotated. *)
Definition is_step (n : nat) (i : Z) : Prop := 0 < i < Z.of_nat (n / 2).
Definition rotation_table (n : nat) (rot : list (Z * Z)) : Prop :=
  forall i e, lookup rot i = Some e <-> is_step n i /\ e = column_exponent n i.

(** [ek] holds automorphism keys of the levels [l1] and [l2] for the exponents satisfying [es], and no other. *)
Definition is_ek (par : params) (sk : secret_key) (l1 l2 : nat) (ek : eval_key) (es : Z -> Prop) (B : Z) : Prop :=
  ek_par ek = par /\ ek_ct_level ek = l1 /\ ek_level ek = l2 /\ rotation_table (pa_degree par) (ek_rot ek) /\
  Forall2 (is_poly par l1) (ek_monomials ek) (map (fun k => monomial (pa_degree par) (2 * Z.of_nat (pa_degree par) - 2 ^ Z.of_nat k)) (seq 0 (Z.to_nat (Z.log2 (Z.of_nat (pa_degree par)))))) /\
  (forall e, es e <-> lookup (ek_gk ek) e <> None) /\
  forall e g, lookup (ek_gk ek) e = Some g -> is_gk par sk l1 l2 e g B.

(** A builder for the keys of [sk], asked to rotate columns by the steps [cols]. *)
Definition is_ekb (par : params) (sk : secret_key) (l1 l2 : nat) (b : ek_builder) (cols : list Z) : Prop :=
  eb_sk b = sk /\ eb_ct_level b = l1 /\ eb_level b = l2 /\ rotation_table (pa_degree par) (eb_rot b) /\
  Z.of_nat (eb_expansion b) <= Z.log2 (Z.of_nat (pa_degree par)) /\ Forall (is_step (pa_degree par)) cols /\
  forall e, In e (eb_columns b) <-> exists i, In i cols /\ e = column_exponent (pa_degree par) i.
(** What was asked: the automorphisms of the steps; of the rows; of the inner sum, that is, the rows and the powers of two
    below N/2; and of the rounds of an expansion. *)
Definition asked (n : nat) (b : ek_builder) (cols : list Z) (e : Z) : Prop :=
  (exists i, In i cols /\ e = column_exponent n i) \/
  ((eb_row b = true \/ eb_inner_sum b = true) /\ e = row_exponent n) \/
  (eb_inner_sum b = true /\ exists k, 0 <= k /\ 2 ^ k < Z.of_nat (n / 2) /\ e = column_exponent n (2 ^ k)) \/
  (exists k, (k < eb_expansion b)%nat /\ e = expansion_exponent n k).

(** Every [s]-th coefficient of [m] from index [i] on, moved down by [i] places, times [s]. *)
Definition expanded (n s i : nat) (m : list Z) : list Z :=
  map (fun j => if Nat.eqb (j mod s) 0 then Z.of_nat s * nth (i + j) m 0 else 0) (seq 0 n).

(** The exponents of automorphisms. *)
Definition proper_exponents (n : nat) (es : Z -> Prop) : Prop := forall e, es e -> 0 <= e < 2 * Z.of_nat n /\ Z.odd e = true.
(** The noise added by the key of an automorphism, with the noise [B]. *)
Definition galois_noise (par : params) (sk : secret_key) (l1 l2 : nat) (B : Z) : Z :=
  divided_noise (norm1 (sk_coeffs sk)) (level_ratio par l1 l2) (switch_noise par l1 (key_base par l2) B).
(** The rotations an inner sum needs, and the automorphisms the rounds of an expansion need. *)
Definition sum_exponents (n : nat) (es : Z -> Prop) : Prop :=
  es (row_exponent n) /\ forall k, 0 <= k -> 2 ^ k < Z.of_nat (n / 2) -> es (column_exponent n (2 ^ k)).
Definition round_exponents (n L : nat) (es : Z -> Prop) : Prop := forall k, (k < L)%nat -> es (expansion_exponent n k).
