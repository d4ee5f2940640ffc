(** Circuits: any composition of the homomorphic operations, what they compute, and an estimate of their noise. *)
From Verif Require Import Outcome BasicSpec PolySpec NttModel RnsModel RnsSpec RqModel RqSpec ParamsModel BfvSpec PlainModel CipherModel OpsModel SchemeSpec CipherSpec KeysModel KeysSpec EvalSpec RgswSpec.

(** The numbers stand for ciphertexts, plaintexts, relinearization keys, evaluation keys, multiplicators and RGSW ciphertexts of
    an environment; [i] in [Columns k i a] is the number of steps, and [Expand k size i a] is ciphertext [i] of an expansion to [size]. *)
Inductive circuit :=
| Input (i : nat)
| Neg (a : circuit)
| Add (a b : circuit)
| Sub (a b : circuit)
| AddPlain (a : circuit) (j : nat)
| SubPlain (a : circuit) (j : nat)
| PlainSub (j : nat) (a : circuit)
| MulPlain (a : circuit) (j : nat)
| Mul (a b : circuit)
| Relin (k : nat) (a : circuit)
| SwitchTo (l : nat) (a : circuit)
| Columns (k : nat) (i : Z) (a : circuit)
| Rows (k : nat) (a : circuit)
| InnerSum (k : nat) (a : circuit)
| Expand (k : nat) (size : Z) (i : nat) (a : circuit)
| MulWith (k : nat) (a b : circuit)
| External (j : nat) (a : circuit).

(** A ciphertext with its level, its message as a polynomial and as slots, and a bound of its noise; a plaintext; a
    relinearization key for ciphertexts of level [r_from], of level [r_level] itself; an evaluation key and the
    exponents of its automorphisms; a multiplicator made from a relinearization key, which switches the modulus of its
    products or not; an RGSW ciphertext. *)
Record input := mkInput { i_ct : ciphertext; i_level : nat; i_message : list Z; i_slots : list Z; i_noise : Z }.
Record plain := mkPlain { p_pt : plaintext; p_level : nat; p_message : list Z; p_slots : list Z }.
Record rkey := mkRkey { r_key : ksk; r_from : nat; r_level : nat; r_noise : Z }.
Record ekey := mkEkey { e_key : eval_key; e_from : nat; e_to : nat; e_has : Z -> bool; e_noise : Z }.
Record mkey := mkMkey { x_mult : multiplicator; x_rkey : rkey; x_switch : bool }.
Record gkey := mkGkey { g_rgsw : rgsw; g_level : nat; g_message : list Z; g_slots : list Z; g_noise : Z }.
Record env := mkEnv { inputs : list input; plains : list plain; rkeys : list rkey; ekeys : list ekey; mkeys : list mkey; gkeys : list gkey }.

Definition input_ok (par : params) (sk : secret_key) (x : input) : Prop :=
  (i_level x <= max_level par)%nat /\ encrypts par sk (i_level x) (i_ct x) (i_message x) (i_noise x).
Definition plain_ok (par : params) (x : plain) : Prop :=
  (p_level x <= max_level par)%nat /\ is_pt par (p_level x) (p_pt x) (p_message x) /\ canonical (pa_t par) (p_message x).
Definition rkey_ok (par : params) (sk : secret_key) (x : rkey) : Prop :=
  (r_from x <= max_level par)%nat /\ (r_level x <= r_from x)%nat /\ 0 <= r_noise x /\
  is_ksk par sk (r_from x) (r_level x) (r_key x) (map (Z.mul (level_ratio par (r_from x) (r_level x))) (negacyclic (pa_degree par) (sk_coeffs sk) (sk_coeffs sk))) (r_noise x).
Definition ekey_ok (par : params) (sk : secret_key) (x : ekey) : Prop :=
  (e_from x <= max_level par)%nat /\ (e_to x <= e_from x)%nat /\ 0 <= e_noise x /\
  is_ek par sk (e_from x) (e_to x) (e_key x) (fun e => e_has x e = true) (e_noise x) /\ proper_exponents (pa_degree par) (fun e => e_has x e = true).
Definition mkey_ok (isp : Z -> bool) (cands : Z -> list Z) (par : params) (sk : secret_key) (x : mkey) : Prop :=
  rkey_ok par sk (x_rkey x) /\ exists m, mult_default isp cands (r_key (x_rkey x)) = Val m /\ (if x_switch x then mult_enable_switch m else Val m) = Val (x_mult x).
Definition gkey_ok (par : params) (sk : secret_key) (x : gkey) : Prop :=
  (g_level x <= max_level par)%nat /\ 0 <= g_noise x /\ is_rgsw par sk (g_level x) (g_rgsw x) (g_message x) (g_noise x).
Definition env_ok (isp : Z -> bool) (cands : Z -> list Z) (par : params) (sk : secret_key) (V : env) : Prop :=
  Forall (input_ok par sk) (inputs V) /\ Forall (plain_ok par) (plains V) /\ Forall (rkey_ok par sk) (rkeys V) /\ Forall (ekey_ok par sk) (ekeys V) /\
  Forall (mkey_ok isp cands par sk) (mkeys V) /\ Forall (gkey_ok par sk) (gkeys V).

(** The calls that evaluate a circuit. *)
Definition pick {A} (l : list A) (i : nat) : M A := match nth_error l i with Some x => Val x | None => Panic end.
Fixpoint run (V : env) (c : circuit) : M ciphertext :=
  match c with
  | Input i => x <- pick (inputs V) i ;; Val (i_ct x)
  | Neg a => x <- run V a ;; ct_neg x
  | Add a b => x <- run V a ;; y <- run V b ;; ct_add x y
  | Sub a b => x <- run V a ;; y <- run V b ;; ct_sub x y
  | AddPlain a j => x <- run V a ;; p <- pick (plains V) j ;; ct_add_pt x (p_pt p)
  | SubPlain a j => x <- run V a ;; p <- pick (plains V) j ;; ct_sub_pt x (p_pt p)
  | PlainSub j a => x <- run V a ;; p <- pick (plains V) j ;; pt_sub_ct (p_pt p) x
  | MulPlain a j => x <- run V a ;; p <- pick (plains V) j ;; ct_mul_pt x (p_pt p)
  | Mul a b => x <- run V a ;; y <- run V b ;; ct_mul x y
  | Relin k a => x <- run V a ;; r <- pick (rkeys V) k ;; relinearizes (r_key r) x
  | SwitchTo l a => x <- run V a ;; ct_switch_to_level x l
  | Columns k i a => x <- run V a ;; e <- pick (ekeys V) k ;; rotates_columns_by (e_key e) x i
  | Rows k a => x <- run V a ;; e <- pick (ekeys V) k ;; rotates_rows (e_key e) x
  | InnerSum k a => x <- run V a ;; e <- pick (ekeys V) k ;; computes_inner_sum (e_key e) x
  | Expand k size i a => x <- run V a ;; e <- pick (ekeys V) k ;; cts <- expands (e_key e) x size ;; pick cts i
  | MulWith k a b => x <- run V a ;; y <- run V b ;; m <- pick (mkeys V) k ;; mult_multiply (x_mult m) x y
  | External j a => x <- run V a ;; g <- pick (gkeys V) j ;; ct_mul_rgsw x (g_rgsw g)
  end.

(** What a circuit computes on polynomials of degree below [n], in Z[X]/(X^n+1).  An inner sum adds the images of the polynomial
    under the automorphisms of the powers of two and of the rows. *)
Definition add_image (n : nat) (m : list Z) (e : Z) : list Z := zipWith Z.add m (automorphism n e m).
Definition sum_images (n : nat) (m : list Z) : list Z :=
  add_image n (fold_left (add_image n) (map (fun k => column_exponent n (2 ^ Z.of_nat k)) (seq 0 (Nat.log2 n - 1))) m) (row_exponent n).
Definition of {A} (d : list Z) (f : A -> list Z) (l : list A) (i : nat) : list Z := match nth_error l i with Some x => f x | None => d end.
Fixpoint meaning (n : nat) (V : env) (c : circuit) : list Z :=
  match c with
  | Input i => of [] i_message (inputs V) i
  | Neg a => map Z.opp (meaning n V a)
  | Add a b => zipWith Z.add (meaning n V a) (meaning n V b)
  | Sub a b => zipWith Z.sub (meaning n V a) (meaning n V b)
  | AddPlain a j => zipWith Z.add (meaning n V a) (of [] p_message (plains V) j)
  | SubPlain a j => zipWith Z.sub (meaning n V a) (of [] p_message (plains V) j)
  | PlainSub j a => zipWith Z.sub (of [] p_message (plains V) j) (meaning n V a)
  | MulPlain a j => negacyclic n (meaning n V a) (of [] p_message (plains V) j)
  | Mul a b => negacyclic n (meaning n V a) (meaning n V b)
  | Relin _ a => meaning n V a
  | SwitchTo _ a => meaning n V a
  | Columns _ i a => automorphism n (column_exponent n i) (meaning n V a)
  | Rows _ a => automorphism n (row_exponent n) (meaning n V a)
  | InnerSum _ a => sum_images n (meaning n V a)
  | Expand _ size i a => expanded n (2 ^ Z.to_nat (Z.log2_up size)) i (meaning n V a)
  | MulWith _ a b => negacyclic n (meaning n V a) (meaning n V b)
  | External j a => negacyclic n (of [] g_message (gkeys V) j) (meaning n V a)
  end.

(** What it computes on the [n] slots, modulo [t], when it expands nothing: an expansion works on coefficients. *)
Fixpoint slotwise (c : circuit) : bool :=
  match c with
  | Input _ => true
  | Neg a | AddPlain a _ | SubPlain a _ | PlainSub _ a | MulPlain a _ | Relin _ a | SwitchTo _ a | Columns _ _ a | Rows _ a | InnerSum _ a | External _ a => slotwise a
  | Add a b | Sub a b | Mul a b | MulWith _ a b => slotwise a && slotwise b
  | Expand _ _ _ _ => false
  end.
Fixpoint slot_meaning (n : nat) (t : Z) (V : env) (c : circuit) : list Z :=
  match c with
  | Input i => of [] (fun x => pad n (i_slots x)) (inputs V) i
  | Neg a => map (fun x => (- x) mod t) (slot_meaning n t V a)
  | Add a b => zipWith (fun x y => (x + y) mod t) (slot_meaning n t V a) (slot_meaning n t V b)
  | Sub a b => zipWith (fun x y => (x - y) mod t) (slot_meaning n t V a) (slot_meaning n t V b)
  | AddPlain a j => zipWith (fun x y => (x + y) mod t) (slot_meaning n t V a) (of [] (fun x => pad n (p_slots x)) (plains V) j)
  | SubPlain a j => zipWith (fun x y => (x - y) mod t) (slot_meaning n t V a) (of [] (fun x => pad n (p_slots x)) (plains V) j)
  | PlainSub j a => zipWith (fun x y => (x - y) mod t) (of [] (fun x => pad n (p_slots x)) (plains V) j) (slot_meaning n t V a)
  | MulPlain a j => zipWith (fun x y => (x * y) mod t) (slot_meaning n t V a) (of [] (fun x => pad n (p_slots x)) (plains V) j)
  | Mul a b => zipWith (fun x y => (x * y) mod t) (slot_meaning n t V a) (slot_meaning n t V b)
  | Relin _ a => slot_meaning n t V a
  | SwitchTo _ a => slot_meaning n t V a
  | Columns _ i a => rotated_columns n (Z.to_nat i) (slot_meaning n t V a)
  | Rows _ a => swapped_rows n (slot_meaning n t V a)
  | InnerSum _ a => repeat (sum_of (slot_meaning n t V a) mod t) n
  | Expand _ _ _ _ => []
  | MulWith _ a b => zipWith (fun x y => (x * y) mod t) (slot_meaning n t V a) (slot_meaning n t V b)
  | External j a => zipWith (fun x y => (x * y) mod t) (of [] (fun x => pad n (g_slots x)) (gkeys V) j) (slot_meaning n t V a)
  end.
(** The messages are the SIMD encodings of the slots. *)
Definition encodes (par : params) (l : nat) (m v : list Z) : Prop :=
  pa_t par <= level_modulus par l /\ canonical (pa_t par) v /\ canonical (pa_t par) m /\ exists pt, encode_u64 false v (mkEnc EncSimd l) par = Val pt /\ is_pt par l pt m.
Definition slots_ok (par : params) (V : env) : Prop :=
  Forall (fun x => encodes par (i_level x) (i_message x) (i_slots x)) (inputs V) /\ Forall (fun x => encodes par (p_level x) (p_message x) (p_slots x)) (plains V) /\
  Forall (fun x => encodes par (g_level x) (g_message x) (g_slots x)) (gkeys V).

(** The level, the number of parts and the noise of the result, when every operation has operands it accepts and every
    product enough room. *)
Definition state : Type := nat * nat * Z.
Definition only_if (b : bool) (s : state) : option state := if b then Some s else None.
Definition with_state (o : option state) (f : nat -> nat -> Z -> option state) : option state := match o with Some (l, k, B) => f l k B | None => None end.
Definition with_item {A} (l : list A) (i : nat) (f : A -> option state) : option state := match nth_error l i with Some x => f x | None => None end.
Definition mul_room_b (par : params) (l k : nat) (B1 B2 : Z) : bool :=
  (2 * pa_t par * (B1 + 1) <=? level_modulus par l) && (2 * pa_t par * (B2 + 1) <=? level_modulus par l) &&
  (Z.of_nat k * Z.of_nat (pa_degree par) * 2 ^ extra_primes (level_moduli (pa_moduli par) l) <=? 2 ^ 59).
Definition step_b (n : nat) (i : Z) : bool := (0 <? i) && (i <? Z.of_nat (n / 2)).
Definition sums_b (n : nat) (has : Z -> bool) : bool :=
  has (row_exponent n) && forallb (fun k => negb (2 ^ Z.of_nat k <? Z.of_nat (n / 2)) || has (column_exponent n (2 ^ Z.of_nat k))) (seq 0 n).
Fixpoint estimate (par : params) (sk : secret_key) (V : env) (c : circuit) : option state :=
  let n := pa_degree par in
  let S := norm1 (sk_coeffs sk) in
  let fits l := pa_t par <=? level_modulus par l in
  let galois e := galois_noise par sk (e_from e) (e_to e) (e_noise e) in
  match c with
  | Input i => with_item (inputs V) i (fun x => Some (i_level x, length (ct_c (i_ct x)), i_noise x))
  | Neg a => with_state (estimate par sk V a) (fun l k B => Some (l, k, B + 1))
  | Add a b | Sub a b =>
      with_state (estimate par sk V a) (fun l k B => with_state (estimate par sk V b) (fun l' k' B' =>
        only_if (Nat.eqb l l' && Nat.eqb k k') (l, k, B + B' + 1)))
  | AddPlain a j | SubPlain a j | PlainSub j a =>
      with_state (estimate par sk V a) (fun l k B => with_item (plains V) j (fun p => only_if (Nat.eqb l (p_level p) && fits l) (l, k, B + 1)))
  | MulPlain a j =>
      with_state (estimate par sk V a) (fun l k B => with_item (plains V) j (fun p => only_if (Nat.eqb l (p_level p)) (l, k, norm1 (p_message p) * (B + 1))))
  | Mul a b =>
      with_state (estimate par sk V a) (fun l k B => with_state (estimate par sk V b) (fun l' k' B' =>
        only_if (Nat.eqb l l' && mul_room_b par l k B B') (l, (k + k' - 1)%nat, mul_noise n (pa_t par) (level_modulus par l) S k k' B B')))
  | Relin i a =>
      with_state (estimate par sk V a) (fun l k B => with_item (rkeys V) i (fun r =>
        only_if (Nat.eqb l (r_from r) && Nat.eqb k 3) (l, 2%nat, B + divided_noise S (level_ratio par l (r_level r)) (switch_noise par l (k_log_base (r_key r)) (r_noise r)))))
  | SwitchTo l' a =>
      with_state (estimate par sk V a) (fun l k B => only_if (Nat.leb l l' && Nat.leb l' (max_level par)) (l', k, dropped_noise S k (dropped (pa_moduli par) l (l' - l)) B))
  | Columns i s a =>
      with_state (estimate par sk V a) (fun l k B => with_item (ekeys V) i (fun e =>
        only_if (Nat.eqb l (e_from e) && Nat.eqb k 2 && step_b n s && e_has e (column_exponent n s)) (l, k, B + 1 + galois e)))
  | Rows i a =>
      with_state (estimate par sk V a) (fun l k B => with_item (ekeys V) i (fun e =>
        only_if (Nat.eqb l (e_from e) && Nat.eqb k 2 && e_has e (row_exponent n)) (l, k, B + 1 + galois e)))
  | InnerSum i a =>
      with_state (estimate par sk V a) (fun l k B => with_item (ekeys V) i (fun e =>
        only_if (Nat.eqb l (e_from e) && Nat.eqb k 2 && sums_b n (e_has e)) (l, k, Z.of_nat n * (B + 2 + galois e) - 2 - galois e)))
  | Expand i size j a =>
      with_state (estimate par sk V a) (fun l k B => with_item (ekeys V) i (fun e =>
        let L := Z.to_nat (Z.log2_up size) in
        only_if (Nat.eqb l (e_from e) && Nat.eqb k 2 && (0 <? size) && (size <=? Z.of_nat n) && (Z.of_nat j <? size) && forallb (fun r => e_has e (expansion_exponent n r)) (seq 0 L))
          (l, k, 2 ^ Z.of_nat L * (B + galois e + 3) - galois e - 3)))
  | MulWith i a b =>
      with_state (estimate par sk V a) (fun l k B => with_state (estimate par sk V b) (fun l' k' B' => with_item (mkeys V) i (fun m =>
        let r := x_rkey m in
        let B'' := mul_noise n (pa_t par) (level_modulus par l) S 2 2 B B' + divided_noise S (level_ratio par l (r_level r)) (switch_noise par l (k_log_base (r_key r)) (r_noise r)) in
        only_if (Nat.eqb l (r_from r) && Nat.eqb l' (r_from r) && Nat.eqb k 2 && Nat.eqb k' 2 && mul_room_b par l 2 B B')
          (if x_switch m then (Datatypes.S l, 2%nat, dropped_noise S 2 (dropped (pa_moduli par) l 1) B'') else (l, 2%nat, B'')))))
  | External j a =>
      with_state (estimate par sk V a) (fun l k B => with_item (gkeys V) j (fun g =>
        only_if (Nat.eqb l (g_level g) && Nat.eqb k 2) (l, k, norm1 (g_message g) * (B + 1) + external_noise par l (g_rgsw g) (g_noise g))))
  end.
