(** Specification vocabulary of C65. *)
From Verif Require Import Outcome BasicSpec PolySpec RqModel RqSpec.

(** Contexts of the same degree, where the moduli of one are the first moduli of the other: the levels of a parameter set. *)
Definition one_chain (c c' : ctx) : Prop :=
  c_degree c = c_degree c' /\ ((exists l, c_moduli c = c_moduli c' ++ l) \/ (exists l, c_moduli c' = c_moduli c ++ l)).
(** [z] is [u] modulo the first [k] moduli of [c] and [x] modulo the others. *)
Definition mixed (c : ctx) (k : nat) (z u x : list Z) : Prop :=
  forall i q, nth_error (c_moduli c) i = Some q -> congruent q z (if Nat.ltb i k then u else x).
(** The operands, of contexts with the given numbers of moduli, that have a row [i], added to [x]. *)
Definition sum_at (i : nat) (x : list Z) (l : list (nat * list Z)) : list Z :=
  fold_left (fun acc ky => if Nat.ltb i (fst ky) then zipWith Z.add acc (snd ky) else acc) l x.
(** A share for a level of the chain of [c], standing for [y]. *)
Definition good_share isp cands c (p : poly Ntt) (y : list Z) : Prop := is_context isp cands (p_ctx p) /\ one_chain c (p_ctx p) /\ represents p y.
