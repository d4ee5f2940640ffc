(** Property C64: the release build of the residue-number-system scaler.

    [rel_*]: the release build (ReleaseRnsModel.v), where additions and products wrap and assertions are gone; without the prefix: the debug
    build (RnsModel.v).  [rel_scale s rests start len] is [Panic] when it reads outside of the tables of the scaler, which is undefined
    behaviour in the code ([get_unchecked]). *)
From Verif Require Import Outcome BasicSpec RnsSpec ZqModel NttModel RnsModel ReleaseModel ReleaseRnsModel ReleaseRnsProofs ReleaseRnsPropLemmas.
(** C64: contexts are the same in both builds, and so are the errors and panics. *)
Theorem C64_context : forall qs, rel_rns_new qs = rns_new qs.
Proof. exact rel_rns_new_eq. Qed.
Print Assumptions C64_context.
(** C64: scalers between contexts are the same in both builds, and whatever the debug build computes with them the release build computes too. *)
Theorem C64_new : forall qs qs' from to num den f,
  rns_new qs = Val from -> rns_new qs' = Val to -> Z.of_nat (length qs) < 2 ^ 60 -> 0 <= num -> 0 <= den -> factor_new num den = Val f ->
  exists s, scaler_new from to f = Val s /\ rel_scaler_new from to f = Val s /\
    forall rs start len r, scale s rs start len = Val r -> rel_scale s rs start len = Val r.
Proof. exact rel_new_all. Qed.
Print Assumptions C64_new.
(** C64: so the release build scales residues by the factor with the error of C19; it also accepts an empty output. *)
Theorem C64_scale : forall qs qs' from to num den f,
  rel_rns_new qs = Val from -> rel_rns_new qs' = Val to -> Z.of_nat (length qs) < 2 ^ 60 ->
  0 <= num -> 0 <= den -> factor_new num den = Val f ->
  exists s, rel_scaler_new from to f = Val s /\
  forall rs, canonical_residues qs rs -> (num = den \/ load num den qs < 2 ^ 65) ->
  exists x y,
    residues_of qs x = rs /\
    (forall k, 0 <= k <= 127 -> (forall q, In q qs -> q * Z.of_nat (length qs) <= 2 ^ (191 - k)) ->
       2 ^ (k + 1) * Z.abs x <= prod_list qs * (2 ^ k + sum_of rs)) /\
    (num = den -> y = x) /\
    2 ^ 127 * Z.abs (den * y - num * x) <= den * (2 ^ 126 + 2 * sum_of rs) /\
    (forall start len, (start + len <= length qs')%nat -> rel_scale s rs start len = Val (residues_of (firstn len (skipn start qs')) y)) /\
    (forall size, (size <= length qs')%nat -> rel_scale_new s rs size = Val (residues_of (firstn size qs') y)).
Proof. exact rel_scale_all. Qed.
Print Assumptions C64_scale.
(** C64: for words of any size, the release build returns reduced residues when there are no more words than moduli and the outputs are in range; missing words count as zeros.  In all other cases with an output it reads outside of its tables. *)
Theorem C64_words : forall qs qs' from to num den f,
  rel_rns_new qs = Val from -> rel_rns_new qs' = Val to -> Z.of_nat (length qs) < 2 ^ 60 ->
  0 <= num -> 0 <= den -> factor_new num den = Val f ->
  exists s, rel_scaler_new from to f = Val s /\
  forall rs start len,
    ((length rs <= length qs)%nat -> (start + len <= length qs')%nat ->
       exists r, rel_scale s rs start len = Val r /\ canonical_residues (firstn len (skipn start qs')) r /\
         rel_scale s (rs ++ repeat 0 (length qs - length rs)) start len = Val r) /\
    ((0 < len)%nat -> (length qs < length rs)%nat \/ (length qs' < start + len)%nat -> rel_scale s rs start len = Panic).
Proof. exact rel_words_all. Qed.
Print Assumptions C64_words.
Example C64_ex : exists from to f s, rel_rns_new [4; 15; 1153] = Val from /\ rel_rns_new [7; 11] = Val to /\ factor_new 3 7 = Val f /\
  rel_scaler_new from to f = Val s /\ scaler_new from to f = Val s /\
  rel_scale s (residues_of [4; 15; 1153] (-1000)) 0 2 = Val (residues_of [7; 11] (-429)) /\
  rel_scale s (residues_of [4; 15; 1153] (-1000)) 1 1 = Val (residues_of [11] (-429)) /\
  scale s [3; 14] 0 2 = Panic /\ rel_scale s [3; 14] 0 2 = rel_scale s [3; 14; 0] 0 2 /\ scale s [3; 14; 0] 0 2 = rel_scale s [3; 14; 0] 0 2 /\
  scale s [1; 1; 1] 0 0 = Panic /\ rel_scale s [1; 1; 1] 0 0 = Val [] /\
  rel_scale s [1; 1; 1; 1] 0 1 = Panic /\ rel_scale s [1; 1; 1] 1 2 = Panic /\ load 3 7 [4; 15; 1153] < 2 ^ 65.
Proof. exact rel_scale_ex. Qed.
Print Assumptions C64_ex.
