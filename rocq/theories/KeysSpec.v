(** Specification vocabulary for evaluation keys, independent of the model's helpers. *)
From Verif Require Import Outcome BasicSpec PolySpec ZqModel NttModel RnsSpec RqModel RqSpec ParamsModel BfvSpec PlainModel CipherModel SchemeSpec CipherSpec KeysModel.

(** The polynomial [p] of level [l] carries the integer polynomial [x]. *)
Definition is_poly {R} (par : params) (l : nat) (p : poly R) (x : list Z) : Prop :=
  par_context par l = Val (p_ctx p) /\ represents p x.

(** How a polynomial is decomposed before it is multiplied by a key, and the weights that recombine it: the residues
    modulo the moduli of its level, with weights that are 1 modulo one of them and 0 modulo the others; or, for a single
    modulus, the digits in base 2^b, with the powers of that base. *)
Definition crt_weights (qs gs : list Z) : Prop :=
  length gs = length qs /\ forall i j, (i < length qs)%nat -> (j < length qs)%nat -> nth i gs 0 mod nth j qs 0 = (if Nat.eqb i j then 1 else 0) mod nth j qs 0.
Definition digit_count (q b : Z) : Z := (Z.log2_up q + b - 1) / b.
Definition digit_weights (b : Z) (n : nat) : list Z := map (fun i => 2 ^ (Z.of_nat i * b)) (seq 0 n).
Definition gadget (qs : list Z) (b : Z) (gs : list Z) : Prop :=
  (b = 0 /\ crt_weights qs gs) \/
  (0 < b < 64 /\ exists q, qs = [q] /\ gs = digit_weights b (Z.to_nat (digit_count q b))).

(** [k] switches polynomials of level [l1] from the key [f] (a polynomial of level [l2]) to the key [sk]: its elements
    (b_i, a_i) satisfy b_i + a_i * s = g_i * f + e_i modulo the modulus of level [l2], with |e_i| <= B. *)
Definition is_ksk (par : params) (sk : secret_key) (l1 l2 : nat) (k : ksk) (f : list Z) (B : Z) : Prop :=
  k_par k = par /\ k_ct_level k = l1 /\ k_level k = l2 /\
  par_context par l1 = Val (k_ct_ctx k) /\ par_context par l2 = Val (k_ctx k) /\
  (k_log_base k = 0 \/ l1 = l2) /\ length f = pa_degree par /\
  exists gs bs xs, gadget (level_moduli (pa_moduli par) l1) (k_log_base k) gs /\
    Forall2 (is_poly par l2) (k_c0 k) bs /\ Forall2 (is_poly par l2) (k_c1 k) xs /\ length bs = length gs /\ length xs = length gs /\
    Forall2 (fun g ba => exists e, length e = pa_degree par /\ bounded_by B e /\
        congruent (level_modulus par l2) (phase (pa_degree par) (sk_coeffs sk) [fst ba; snd ba]) (zipWith Z.add (map (Z.mul g) f) e))
      gs (combine bs xs).

(** The noise of a switch with a key of noise [B]: N * B * (sum of the largest residues, or of the largest digits). *)
Definition largest_digits (qs : list Z) (b : Z) : Z :=
  if b =? 0 then sum_of (map (fun q => q - 1) qs) else digit_count (hd 0 qs) b * (2 ^ b - 1).
Definition switch_noise (par : params) (l : nat) (b B : Z) : Z :=
  Z.of_nat (pa_degree par) * B * largest_digits (level_moduli (pa_moduli par) l) b.
(** The noise [B] after a division by [P] that rounds, for a key of 1-norm [S]: (B + (1 + S) * (P - 1)) / P. *)
Definition divided_noise (S P B : Z) : Z := (B + (1 + S) * (P - 1)) / P.
(** The quotient of the moduli of the levels [l2 <= l1]. *)
Definition level_ratio (par : params) (l1 l2 : nat) : Z := prod_list (skipn (length (level_moduli (pa_moduli par) l1)) (level_moduli (pa_moduli par) l2)).
(** The base of the digits of the keys of level [l]: half the size of the modulus when there is only one. *)
Definition key_base (par : params) (l : nat) : Z := match level_moduli (pa_moduli par) l with [q] => Z.log2_up q / 2 | _ => 0 end.
(** The noise of an operation with a key of level [l2] on ciphertexts of level [l1]. *)
Definition key_noise (par : params) (S : Z) (l1 l2 : nat) : Z :=
  divided_noise S (level_ratio par l1 l2) (switch_noise par l1 (key_base par l2) (2 * pa_variance par)).
