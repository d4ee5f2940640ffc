(** Specification vocabulary for the words of polynomials: reading them from vectors and arrays. *)
From Verif Require Import Outcome BasicSpec RqModel RqSpec.

(** The three conversions of a vector of words (convert.rs:148-241), by representation. *)
Definition from_words (R : repn) : ctx -> list Z -> bool -> M (poly R) :=
  match R with PowerBasis => pb_from_u64 | Ntt => ntt_from_u64 | NttShoup => shoup_from_u64 end.
(** Words in the order of the moduli, [n] for each, all of them residues. *)
Definition words_reduced (moduli : list Z) (n : nat) (v : list Z) : Prop :=
  forall i j, (i < length moduli)%nat -> (j < n)%nat -> 0 <= nth (i * n + j) v 0 < nth i moduli 0.
(** An array of [r] rows and [k] columns. *)
Definition is_array (r k : nat) (rows : list (list Z)) : Prop := length rows = r /\ Forall (fun row => length row = k) rows.
(** A polynomial of context [c] with the mark [vt] and the given words, whatever they are. *)
Definition holds {R} (p : poly R) (c : ctx) (vt : bool) (v : list Z) : Prop := p_ctx p = c /\ p_vt p = vt /\ poly_to_u64 p = v.
