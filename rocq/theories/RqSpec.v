(** Specification vocabulary for polynomials in residue-number-system form.

    A polynomial of a context with moduli q_1..q_k and degree N stands for an element of
    Z_Q[X]/(X^N+1), Q = q_1*..*q_k, given here by any list of N integers congruent to its coefficients
    modulo Q. *)
From Verif Require Import Outcome BasicSpec PolySpec ZqModel NttModel RnsSpec RqModel.

(** Q *)
Definition modulus_of (c : ctx) : Z := prod_list (c_moduli c).

(** The root of X^N+1 modulo q used by an operator, and the values of [x] at its odd powers, in
    bit-reversed order. *)
Definition ntt_root (op : ntt_op) : Z := nth (nt_size op / 2) (nt_omegas op) 0.
Definition evaluations (op : ntt_op) (x : list Z) : list Z :=
  map (fun j => eval x (ntt_root op ^ (2 * bitrev (Nat.log2 (nt_size op)) (Z.of_nat j) + 1)) mod mod_p (nt_p op))
    (seq 0 (nt_size op)).

(** The row of one modulus: the residues of the coefficients, or of the evaluations. *)
Definition row (R : repn) (op : ntt_op) (x : list Z) : list Z :=
  match R with
  | PowerBasis => map (fun v => v mod mod_p (nt_p op)) x
  | _ => evaluations op x
  end.
Definition shoup_row (op : ntt_op) (r : list Z) : list Z := map (fun v => v * 2 ^ 64 / mod_p (nt_p op)) r.

(** The representation [R] of [x] in context [c]. *)
Definition poly_of (R : repn) (c : ctx) (vt : bool) (x : list Z) : poly R :=
  mkPoly c false vt (map (fun op => row R op x) (c_ops c))
    (match R with NttShoup => Some (map (fun op => shoup_row op (row R op x)) (c_ops c)) | _ => None end).
Definition represents {R} (p : poly R) (x : list Z) : Prop :=
  length x = c_degree (p_ctx p) /\ p = poly_of R (p_ctx p) (p_vt p) x.

(** Polynomials whose fields have the right shape, with canonical residues. *)
Definition well_formed {R} (p : poly R) : Prop :=
  p_lazy p = false /\
  Forall2 (fun q r => length r = c_degree (p_ctx p) /\ canonical (mod_p q) r) (c_q (p_ctx p)) (p_coeffs p) /\
  p_shoup p = match R with
              | NttShoup => Some (zipWith (fun q r => map (fun v => v * 2 ^ 64 / mod_p q) r) (c_q (p_ctx p)) (p_coeffs p))
              | _ => None
              end.

(** Coefficientwise congruence. *)
Definition congruent (Q : Z) (x y : list Z) : Prop := Forall2 (fun a b => a mod Q = b mod Q) x y.

(** X -> X^e on Z[X]/(X^n+1): the coefficient of X^j goes to X^(j*e), with X^n = -1. *)
Definition monomial_sign (n m : Z) : Z := if Z.even (m / n) then 1 else -1.
Definition automorphism (n : nat) (e : Z) (x : list Z) : list Z :=
  map (fun k => sumn n (fun j =>
        if (Z.of_nat j * e) mod Z.of_nat n =? Z.of_nat k
        then monomial_sign (Z.of_nat n) (Z.of_nat j * e) * nth j x 0 else 0)) (seq 0 n).

(** The monomial X^m of Z[X]/(X^n+1), for m >= 0. *)
Definition monomial (n : nat) (m : Z) : list Z :=
  map (fun k => if m mod Z.of_nat n =? Z.of_nat k then monomial_sign (Z.of_nat n) m else 0) (seq 0 n).

(** Division by [q], rounded to nearest (halves up). *)
Definition round_div (q v : Z) : Z := (2 * v + q) / (2 * q).

(** [y] is [num / den] times a representative of [x] modulo the product of [qs], up to the rounding of the scaler;
    the representative is nearly centered when the moduli are not too large for their number. *)
Definition scaled_value (qs : list Z) (num den x y : Z) : Prop :=
  exists x', x' mod prod_list qs = x mod prod_list qs /\
    (forall k, 0 <= k <= 127 -> (forall q, In q qs -> q * Z.of_nat (length qs) <= 2 ^ (191 - k)) ->
       2 ^ (k + 1) * Z.abs x' <= prod_list qs * (2 ^ k + sum_of (residues_of qs x))) /\
    (num = den -> y = x') /\
    2 ^ 127 * Z.abs (den * y - num * x') <= den * (2 ^ 126 + 2 * sum_of (residues_of qs x)).

(** What the oracles of [context_new] must satisfy: a primality test for 64-bit words, and random draws below
    the modulus.  A context is a value returned by the constructor. *)
Definition oracles (isp : Z -> bool) (cands : Z -> list Z) : Prop := prime_oracle isp /\ forall p, canonical p (cands p).
Definition is_context (isp : Z -> bool) (cands : Z -> list Z) (c : ctx) : Prop :=
  exists moduli degree, context_new isp cands moduli degree = Val c.

(** A computation that returns a polynomial of context [c] representing [x]. *)
Definition returns {R} (m : M (poly R)) (c : ctx) (x : list Z) : Prop :=
  exists r, m = Val r /\ p_ctx r = c /\ represents r x /\ well_formed r.

(** The sum of a list of integer polynomials of length [n]. *)
Definition poly_sum (n : nat) (l : list (list Z)) : list Z := fold_left (zipWith Z.add) l (repeat 0 n).
(** Successive rounded divisions. *)
Definition round_divs (qs : list Z) (x : list Z) : list Z := fold_left (fun x q => map (round_div q) x) qs x.
