(** Specification vocabulary of C59: what the inverse transform of the release build computes from slots that are too large.
    [pad]: SchemeSpec.v. *)
From Verif Require Import Outcome BasicSpec ParamsModel SchemeSpec.

(** Slots 2i and 2i+1 add up to less than 4p. *)
Fixpoint small_pairs (p : Z) (a : list Z) : Prop :=
  match a with x :: y :: r => 0 <= x /\ 0 <= y /\ x + y < 4 * p /\ small_pairs p r | _ => True end.
(** The slots that are transformed instead: 2^63 is moved from one slot of a pair to the other if 2p + x - y is not in [0, 2^64). *)
Fixpoint shifted (p : Z) (a : list Z) : list Z :=
  match a with
  | x :: y :: r =>
      (if 2 * p + x <? y then [x + W63; y - W63] else if W64 <=? 2 * p + x - y then [x - W63; y + W63] else [x; y]) ++ shifted p r
  | _ => a
  end.
(** It never is outside. *)
Fixpoint no_wrap (p : Z) (a : list Z) : Prop :=
  match a with x :: y :: r => 0 <= 2 * p + x - y < W64 /\ no_wrap p r | _ => True end.
(** [w] holds the slots [v], padded with zeros, in the order of the transform. *)
Definition in_order (par : params) (v w : list Z) : Prop :=
  length w = pa_degree par /\ forall i, (i < pa_degree par)%nat -> nth (nth i (pa_index par) O) w 0 = nth i (pad (pa_degree par) v) 0.
