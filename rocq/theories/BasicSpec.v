(** Small specification vocabulary used in the property statements; independent of the model. *)
From Verif Require Import Outcome.
From Coq Require Import Znumtheory.

(** Pointwise combination of two lists. *)
Fixpoint zipWith {A B C} (f : A -> B -> C) (l : list A) (l' : list B) : list C :=
  match l, l' with a :: t, b :: t' => f a b :: zipWith f t t' | _, _ => [] end.

(** Vectors of residues in [0,p). *)
Definition canonical (p : Z) (l : list Z) : Prop := Forall (fun x => 0 <= x < p) l.

(** Behaviour expected from the primality oracle [fhe_util::is_prime]. *)
Definition prime_oracle (isp : Z -> bool) : Prop := forall p, is_u64 p -> (isp p = true <-> prime p).

(** The integer spelled by little-endian digits of width [w]. *)
Fixpoint digits_value (w : Z) (l : list Z) : Z :=
  match l with [] => 0 | d :: t => d + 2 ^ w * digits_value w t end.

(** Lists of digits of width [w]. *)
Definition digits (w : Z) (l : list Z) : Prop := Forall (fun d => 0 <= d < 2 ^ w) l.

(** Primes of exactly [nb] bits, congruent to 1 modulo [modulo], below [upper]. *)
Definition wanted (nb modulo upper p : Z) : Prop :=
  prime p /\ 2 ^ (nb - 1) <= p < 2 ^ nb /\ p mod modulo = 1 mod modulo /\ p < upper.

(** Closes conjunctions of closed computations, one after the other (earlier ones fix existential witnesses). *)
Ltac examples := repeat (split; [vm_compute; reflexivity|]); vm_compute; reflexivity.
