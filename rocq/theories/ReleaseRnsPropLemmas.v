(** Statements about the release build of the residue-number-system scaler in terms of the constructors. *)
From Verif Require Import Outcome BasicSpec RnsSpec OutcomeLemmas ZqModel ZqProofs NumTheory NttModel RnsModel RnsProofs RnsScalerProofs RnsPropLemmas
  ReleaseModel ReleaseProofs ReleaseRnsModel ReleaseRnsProofs.
From Coq Require Import Znumtheory.

Lemma factor_inv num den f : 0 <= den -> factor_new num den = Val f -> f = mkFactor num den (num =? den) /\ 0 < den.
Proof.
  intros Hd Ef. unfold factor_new in Ef. apply bind_inv in Ef. destruct Ef as (u & Eg & Ef). apply guard_inv in Eg.
  apply negb_true_iff, Z.eqb_neq in Eg. split; [congruence|lia].
Qed.

Section Two.
  Variables (qs qs' : list Z) (from to : rns_ctx) (num den : Z) (f : factor).
  Hypothesis E : rns_new qs = Val from.
  Hypothesis E' : rns_new qs' = Val to.
  Hypothesis Hn : Z.of_nat (length qs) < 2 ^ 60.
  Hypothesis Hnum : 0 <= num.
  Hypothesis Hden : 0 <= den.
  Hypothesis Ef : factor_new num den = Val f.

  Lemma rel_new_good : exists s, scaler_new from to f = Val s /\ rel_scaler_new from to f = Val s /\ good_scaler s /\
    rns_u64 (sc_from s) = qs /\ rns_u64 (sc_to s) = qs'.
  Proof.
    destruct (rns_new_good _ _ E) as [G Eq]. destruct (rns_new_good _ _ E') as [G' Eq'].
    destruct (factor_inv num den f Hden Ef) as [Hf Hd].
    destruct (rel_scaler_new_ok from to f G G') as (s & E1 & E2 & Gs & E3 & E4 & _); subst f; cbn [f_num f_den f_one]; try lia; try reflexivity.
    { subst qs. exact Hn. }
    exists s. rewrite E3, E4. auto.
  Qed.
End Two.

Lemma rel_new_all qs qs' from to num den f :
  rns_new qs = Val from -> rns_new qs' = Val to -> Z.of_nat (length qs) < 2 ^ 60 -> 0 <= num -> 0 <= den -> factor_new num den = Val f ->
  exists s, scaler_new from to f = Val s /\ rel_scaler_new from to f = Val s /\
    forall rs start len r, scale s rs start len = Val r -> rel_scale s rs start len = Val r.
Proof.
  intros E E' Hn Hnum Hden Ef. destruct (rel_new_good qs qs' from to num den f E E' Hn Hnum Hden Ef) as (s & E1 & E2 & Gs & _).
  exists s. split; [exact E1|]. split; [exact E2|]. intros rs start len r. apply rel_scale_ok. exact Gs.
Qed.

Lemma rel_scale_all qs qs' from to num den f :
  rel_rns_new qs = Val from -> rel_rns_new qs' = Val to -> Z.of_nat (length qs) < 2 ^ 60 ->
  0 <= num -> 0 <= den -> factor_new num den = Val f ->
  exists s, rel_scaler_new from to f = Val s /\
  forall rs, canonical_residues qs rs -> (num = den \/ load num den qs < 2 ^ 65) ->
  exists x y,
    residues_of qs x = rs /\
    (forall k, 0 <= k <= 127 -> (forall q, In q qs -> q * Z.of_nat (length qs) <= 2 ^ (191 - k)) ->
       2 ^ (k + 1) * Z.abs x <= prod_list qs * (2 ^ k + sum_of rs)) /\
    (num = den -> y = x) /\
    2 ^ 127 * Z.abs (den * y - num * x) <= den * (2 ^ 126 + 2 * sum_of rs) /\
    (forall start len, (start + len <= length qs')%nat -> rel_scale s rs start len = Val (residues_of (firstn len (skipn start qs')) y)) /\
    (forall size, (size <= length qs')%nat -> rel_scale_new s rs size = Val (residues_of (firstn size qs') y)).
Proof.
  rewrite !rel_rns_new_eq. intros E E' Hn Hnum Hden Ef.
  destruct (rel_new_all qs qs' from to num den f E E' Hn Hnum Hden Ef) as (s & E1 & E2 & R).
  destruct (scaler_all qs qs' from to num den f E E' Hn Hnum Hden Ef) as (s0 & E3 & H). assert (s0 = s) by congruence. subst s0.
  exists s. split; [exact E2|]. intros rs C HL. destruct (H rs C HL) as (x & y & H1 & H2 & H3 & H4 & H5).
  exists x, y.
  assert (K : forall start len, (start + len <= length qs')%nat -> rel_scale s rs start len = Val (residues_of (firstn len (skipn start qs')) y)).
  { intros start len Hb. destruct len as [|len].
    - destruct (rel_new_good qs qs' from to num den f E E' Hn Hnum Hden Ef) as (s1 & E4 & _ & Gs & _). assert (s1 = s) by congruence. subst s1.
      unfold rel_scale. rewrite rel_scale_v_val by (pose proof (gs_shift _ Gs); lia). cbn [bind seq mapM firstn].
      destruct (rel_scale_w s rs _). reflexivity.
    - apply R. apply H5; lia. }
  repeat (split; [assumption|]). intros size Hs. unfold rel_scale_new. apply (K O size). exact Hs.
Qed.

Lemma rel_words_all qs qs' from to num den f :
  rel_rns_new qs = Val from -> rel_rns_new qs' = Val to -> Z.of_nat (length qs) < 2 ^ 60 ->
  0 <= num -> 0 <= den -> factor_new num den = Val f ->
  exists s, rel_scaler_new from to f = Val s /\
  forall rs start len,
    ((length rs <= length qs)%nat -> (start + len <= length qs')%nat ->
       exists r, rel_scale s rs start len = Val r /\ canonical_residues (firstn len (skipn start qs')) r /\
         rel_scale s (rs ++ repeat 0 (length qs - length rs)) start len = Val r) /\
    ((0 < len)%nat -> (length qs < length rs)%nat \/ (length qs' < start + len)%nat -> rel_scale s rs start len = Panic).
Proof.
  rewrite !rel_rns_new_eq. intros E E' Hn Hnum Hden Ef.
  destruct (rel_new_good qs qs' from to num den f E E' Hn Hnum Hden Ef) as (s & _ & E2 & Gs & <- & <-).
  exists s. split; [exact E2|]. intros rs start len. split.
  - intros H1 H2. apply rel_scale_total; assumption.
  - intros H1 H2. apply rel_scale_out; assumption.
Qed.

Lemma rel_scale_ex : exists from to f s, rel_rns_new [4; 15; 1153] = Val from /\ rel_rns_new [7; 11] = Val to /\ factor_new 3 7 = Val f /\
  rel_scaler_new from to f = Val s /\ scaler_new from to f = Val s /\
  rel_scale s (residues_of [4; 15; 1153] (-1000)) 0 2 = Val (residues_of [7; 11] (-429)) /\
  rel_scale s (residues_of [4; 15; 1153] (-1000)) 1 1 = Val (residues_of [11] (-429)) /\
  scale s [3; 14] 0 2 = Panic /\ rel_scale s [3; 14] 0 2 = rel_scale s [3; 14; 0] 0 2 /\ scale s [3; 14; 0] 0 2 = rel_scale s [3; 14; 0] 0 2 /\
  scale s [1; 1; 1] 0 0 = Panic /\ rel_scale s [1; 1; 1] 0 0 = Val [] /\
  rel_scale s [1; 1; 1; 1] 0 1 = Panic /\ rel_scale s [1; 1; 1] 1 2 = Panic /\ load 3 7 [4; 15; 1153] < 2 ^ 65.
Proof. do 4 eexists. repeat (split; [vm_compute; reflexivity|]). vm_compute. reflexivity. Qed.
