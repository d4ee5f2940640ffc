(** Specification vocabulary for residue number systems, independent of the model. *)
From Verif Require Import Outcome BasicSpec.

(** Any two entries at different positions are coprime. *)
Definition pairwise_coprime (qs : list Z) : Prop :=
  forall i j, (i < length qs)%nat -> (j < length qs)%nat -> i <> j -> Z.gcd (nth i qs 0) (nth j qs 0) = 1.

(** A list usable as an RNS basis. *)
Definition rns_basis (qs : list Z) : Prop :=
  qs <> [] /\ pairwise_coprime qs /\ Forall (fun q => 2 <= q < W62) qs.

(** [(i, j)] is the first pair, in lexicographic order, of distinct positions whose entries are not coprime. *)
Definition first_conflict (qs : list Z) (i j : nat) : Prop :=
  (i < length qs)%nat /\ (j < length qs)%nat /\ i <> j /\ Z.gcd (nth i qs 0) (nth j qs 0) <> 1 /\
  forall i' j', (i' < length qs)%nat -> (j' < length qs)%nat -> i' <> j' ->
    (i' < i \/ (i' = i /\ j' < j))%nat -> Z.gcd (nth i' qs 0) (nth j' qs 0) = 1.

(** The product of a list. *)
Fixpoint prod_list (l : list Z) : Z := match l with [] => 1 | q :: t => q * prod_list t end.

(** The residues of an integer. *)
Definition residues_of (qs : list Z) (x : Z) : list Z := map (fun q => x mod q) qs.

(** Canonical residue vectors for a basis. *)
Definition canonical_residues (qs rs : list Z) : Prop := Forall2 (fun q r => 0 <= r < q) qs rs.

Fixpoint sum_of (l : list Z) : Z := match l with [] => 0 | a :: t => a + sum_of t end.

(** The part of a basis that contributes a fractional part when multiplying by [num / den]. *)
Definition load (num den : Z) (qs : list Z) : Z :=
  let Q := prod_list qs in
  sum_of (map (fun q => if (num * (Q / q)) mod den =? 0 then 0 else q) qs)
  + (if (num * Q) mod den =? 0 then 0 else sum_of qs).
