(** The scaler variant that returns a new vector (scaler.rs:237-241). *)
From Verif Require Import Outcome BasicSpec RnsSpec RnsModel RnsPropLemmas.

Lemma scale_new_all : forall qs qs' from to num den f,
  rns_new qs = Val from -> rns_new qs' = Val to -> Z.of_nat (length qs) < 2 ^ 60 ->
  0 <= num -> 0 <= den -> factor_new num den = Val f ->
  exists s, scaler_new from to f = Val s /\
  forall rs, canonical_residues qs rs -> (num = den \/ load num den qs < 2 ^ 65) ->
  exists x y,
    residues_of qs x = rs /\
    (forall k, 0 <= k <= 127 -> (forall q, In q qs -> q * Z.of_nat (length qs) <= 2 ^ (191 - k)) ->
       2 ^ (k + 1) * Z.abs x <= prod_list qs * (2 ^ k + sum_of rs)) /\
    (num = den -> y = x) /\
    2 ^ 127 * Z.abs (den * y - num * x) <= den * (2 ^ 126 + 2 * sum_of rs) /\
    (forall size, (0 < size)%nat -> (size <= length qs')%nat -> scale_new s rs size = Val (residues_of (firstn size qs') y)).
Proof.
  intros qs qs' from to num den f H1 H2 H3 H4 H5 H6. destruct (scaler_all qs qs' from to num den f H1 H2 H3 H4 H5 H6) as (s & E & H). exists s. split; [exact E|]. intros rs Hr Hl. destruct (H rs Hr Hl) as (x & y & A & B & C & D & F). exists x, y. split; [exact A|]. split; [exact B|]. split; [exact C|]. split; [exact D|]. intros size K1 K2. exact (F 0%nat size K1 K2).
Qed.
