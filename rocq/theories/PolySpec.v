(** Specification vocabulary for polynomials: coefficient lists (constant term first), evaluation,
    the product in Z[X]/(X^n+1), bit reversal. *)
From Verif Require Import Outcome.

(** Value of the polynomial with coefficients [a] at [x]. *)
Fixpoint eval (a : list Z) (x : Z) : Z :=
  match a with [] => 0 | c :: t => c + x * eval t x end.

(** f 0 + ... + f (n-1) *)
Definition sumn (n : nat) (f : nat -> Z) : Z := fold_right Z.add 0 (map f (seq 0 n)).

(** Product modulo X^n + 1: coefficient k is sum_{i<=k} a_i b_(k-i) - sum_{i>k} a_i b_(n+k-i). *)
Definition negacyclic (n : nat) (a b : list Z) : list Z :=
  map (fun k => sumn n (fun i =>
        nth i a 0 * (if Nat.leb i k then nth (k - i) b 0 else - nth (n + k - i) b 0))) (seq 0 n).

(** Reversal of the [k] low bits of [x]. *)
Fixpoint bitrev (k : nat) (x : Z) : Z :=
  match k with O => 0 | S k' => (x mod 2) * 2 ^ Z.of_nat k' + bitrev k' (x / 2) end.
