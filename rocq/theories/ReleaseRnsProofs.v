(** The release build of the residue-number-system scaler against the debug build. *)
From Verif Require Import Outcome BasicSpec RnsSpec OutcomeLemmas ZqModel ZqProofs NumTheory NttModel RnsModel RnsProofs RnsScalerProofs RnsPropLemmas
  ReleaseModel ReleaseProofs ReleasePropLemmas ReleaseRnsModel.
From Coq Require Import Znumtheory.

Lemma mapM_ref {A B} (f g : A -> M B) l r : (forall a b, In a l -> f a = Val b -> g a = Val b) -> mapM f l = Val r -> mapM g l = Val r.
Proof.
  revert r. induction l as [|a l IH]; intros r H E; cbn [mapM] in *; [exact E|].
  apply bind_inv in E. destruct E as (b & Eb & E). apply bind_inv in E. destruct E as (t & Et & E).
  rewrite (H a b (or_introl eq_refl) Eb). cbn [bind]. rewrite (IH t (fun x y Hx => H x y (or_intror Hx)) Et). cbn [bind]. exact E.
Qed.
Lemma map2M_ref {A B C} (f g : A -> B -> M C) l : forall l' r, (forall a b c, In a l -> In b l' -> f a b = Val c -> g a b = Val c) ->
  map2M f l l' = Val r -> map2M g l l' = Val r.
Proof.
  induction l as [|a l IH]; intros [|b l'] r H E; cbn [map2M] in *; try exact E.
  apply bind_inv in E. destruct E as (c & Ec & E). apply bind_inv in E. destruct E as (t & Et & E).
  rewrite (H a b c (or_introl eq_refl) (or_introl eq_refl) Ec). cbn [bind].
  rewrite (IH l' t (fun x y z Hx Hy => H x y z (or_intror Hx) (or_intror Hy)) Et). cbn [bind]. exact E.
Qed.

(** ** The context *)
Lemma mod_inverse_range a p r : 0 < p -> mod_inverse a p = Some r -> 0 <= r < p.
Proof.
  intros Hp H. unfold mod_inverse in H. destruct (egcd _ p 0 (a mod p) 1) as [g s]. destruct (g =? 1); [|discriminate].
  injection H as <-. apply Z.mod_pos_bound. exact Hp.
Qed.
Lemma rel_rns_entry_eq Q q : rel_rns_entry Q q = rns_entry Q q.
Proof.
  unfold rel_rns_entry, rns_entry. destruct (modulus_new q) as [m| |] eqn:Em; cbn [bind]; [|reflexivity|reflexivity].
  destruct (modulus_new_valid _ _ Em) as [Vm Ep]. pose proof (valid_fields m Vm) as (Bp & _).
  destruct (mod_inverse (Q / q) q) as [r|] eqn:Er; cbn [unwrap bind]; [|reflexivity].
  apply mod_inverse_range in Er; [|lia]. unfold to_u64. rewrite !bind_chk by lia.
  destruct (shoup_spec m Vm r ltac:(lia)) as [Es _]. rewrite (rel_shoup_ok m r _ ltac:(lia) Es), Es. reflexivity.
Qed.
Lemma rel_rns_new_eq qs : rel_rns_new qs = rns_new qs.
Proof.
  unfold rel_rns_new, rns_new. destruct qs as [|q qs]; [reflexivity|].
  rewrite (mapM_ext (rel_rns_entry (product (q :: qs))) (rns_entry (product (q :: qs)))); [reflexivity|].
  intros x _. apply rel_rns_entry_eq.
Qed.

(** ** The constructor of the scaler *)
Lemma rel_theta_shift1_ok k q x : 0 < q * k <= 2 ^ 122 -> theta_shift1 k q = Val x -> rel_theta_shift1 k q = Val x.
Proof.
  intros B H. unfold theta_shift1 in H. unfold rel_theta_shift1.
  apply bind_inv in H. destruct H as (y & Ey & H). apply chk128_rel in Ey. cbv zeta. rewrite Ey.
  rewrite w128_id in Ey by (change W128 with (2 ^ 122 * 64); unfold is_u128; change W128 with (2 ^ 122 * 64); remember (2 ^ 122) as p; lia). subst y.
  assert (L : Z.log2_up (q * k) <= 122) by (rewrite <- (Z.log2_up_pow2 122) by lia; apply Z.log2_up_le_mono; lia).
  rewrite bind_guard by (apply Z.ltb_lt; lia).
  apply chk_inv in H. destruct H as (-> & H). f_equal. apply Z.mod_small. exact H.
Qed.
Lemma rel_theta_shift_ok qs x : rns_basis qs -> Z.of_nat (length qs) < 2 ^ 60 -> theta_shift qs = Val x -> rel_theta_shift qs = Val x.
Proof.
  intros (Hne & _ & Hr) Hn H. unfold theta_shift in H. unfold rel_theta_shift.
  apply bind_inv in H. destruct H as (ss & Ess & H). rewrite Forall_forall in Hr.
  rewrite (mapM_ref _ _ _ ss) with (2 := Ess); [exact H|].
  intros q b Hq. apply rel_theta_shift1_ok. specialize (Hr q Hq).
  assert (1 <= Z.of_nat (length qs)) by (destruct qs; [congruence|cbn [length]; lia]).
  change (2 ^ 122) with (W62 * 2 ^ 60). remember (2 ^ 60) as p. set (n := Z.of_nat _) in *. nia.
Qed.

Lemma rel_scaler_new_ok from to f : good_rns from -> good_rns to ->
  0 <= f_num f -> 0 < f_den f -> f_one f = (f_num f =? f_den f) -> Z.of_nat (length (rns_u64 from)) < 2 ^ 60 ->
  exists s, scaler_new from to f = Val s /\ rel_scaler_new from to f = Val s /\ good_scaler s /\ sc_from s = from /\ sc_to s = to /\ sc_factor s = f.
Proof.
  intros Hf Ht Hn Hd H1 HN. destruct (scaler_new_good from to f Hf Ht Hn Hd H1 HN) as (s & Es & Gs & E1 & E2 & E3).
  exists s. split; [exact Es|]. split; [|auto].
  unfold scaler_new in Es. unfold rel_scaler_new.
  apply bind_inv in Es. destruct Es as (u & -> & Es). cbn [bind].
  apply bind_inv in Es. destruct Es as ([[ga tg] tgs] & -> & Es). cbn [bind].
  apply bind_inv in Es. destruct Es as (gsh & Egsh & Es).
  apply bind_inv in Es. destruct Es as (es & Ees & Es).
  apply bind_inv in Es. destruct Es as (om & Eom & Es).
  apply bind_inv in Es. destruct Es as (osh & Eosh & Es).
  apply bind_inv in Es. destruct Es as (sh & Esh & Es).
  apply bind_inv in Es. destruct Es as (tgar & Etg & Es). apply val_inj in Es.
  assert (Fg : Forall (fun x => 0 <= x) ga).
  { pose proof (gs_gamma _ Gs) as G. rewrite <- Es in G. cbn [sc_gamma sc_to sc_factor sc_from] in G. rewrite G. unfold residues_of.
    rewrite Forall_map, Forall_forall. intros q Hq. pose proof (gr_basis _ Ht) as (_ & _ & Hr). rewrite Forall_forall in Hr.
    specialize (Hr q Hq). apply Z.mod_pos_bound. lia. }
  assert (Fo : forall row, In row om -> Forall (fun x => 0 <= x) row).
  { intros row Hrow. pose proof (gs_omega _ Gs) as G. rewrite <- Es in G. cbn [sc_omega sc_to sc_factor sc_from] in G. rewrite G in Hrow.
    apply in_map_iff in Hrow. destruct Hrow as (q & <- & Hq). rewrite Forall_map, Forall_forall. intros g _.
    pose proof (gr_basis _ Ht) as (_ & _ & Hr). rewrite Forall_forall in Hr. specialize (Hr q Hq). apply Z.mod_pos_bound. lia. }
  rewrite (map2M_ref _ _ _ _ gsh) with (2 := Egsh).
  2:{ intros a m c Ha _. apply rel_shoup_ok. rewrite Forall_forall in Fg. exact (Fg a Ha). }
  cbn [bind]. rewrite Ees. cbn [bind].
  rewrite (mapM_ref _ _ _ om) with (2 := Eom).
  2:{ intros j row _. apply mapM_ref. intros [[pr t] sg] b _ H.
      apply bind_inv in H. destruct H as (m & -> & H). cbn [bind]. apply bind_inv in H. destruct H as (x & -> & H). cbn [bind].
      f_equal. apply rel_reduce_ok. exact H. }
  cbn [bind]. rewrite (map2M_ref _ _ _ _ osh) with (2 := Eosh).
  2:{ intros m row c _ Hrow. apply mapM_ref. intros a b Ha. apply rel_shoup_ok. specialize (Fo row Hrow). rewrite Forall_forall in Fo. exact (Fo a Ha). }
  cbn [bind]. rewrite (rel_theta_shift_ok _ _ (gr_basis _ Hf) HN Esh). cbn [bind]. rewrite Etg. cbn [bind]. f_equal. exact Es.
Qed.

(** ** Scaling *)
Lemma rel_dot_lazy_ok m rs : forall os osh acc r, dot_lazy m rs os osh acc = Val r -> rel_dot_lazy m rs os osh acc = Val r.
Proof.
  induction rs as [|x rs IH]; intros os osh acc r H; cbn [dot_lazy rel_dot_lazy] in *; [exact H|].
  destruct os as [|o os]; [discriminate|]. destruct osh as [|os' osh]; [discriminate|].
  apply bind_inv in H. destruct H as (t & Et & H). apply bind_inv in H. destruct H as (a & Ea & H).
  apply rel_lazy_mul_shoup_ok in Et. apply chk128_rel in Ea. rewrite Et, Ea. apply IH. exact H.
Qed.
Lemma rel_scale_one_ok s rs v sg w i r : scale_one s rs v sg w i = Val r -> rel_scale_one s rs v sg w i = Val r.
Proof.
  unfold scale_one, rel_scale_one. intros H.
  apply bind_inv in H. destruct H as (q & -> & H). apply bind_inv in H. destruct H as (om & -> & H).
  apply bind_inv in H. destruct H as (osh & -> & H). apply bind_inv in H. destruct H as (ga & -> & H).
  apply bind_inv in H. destruct H as (gsh & -> & H). cbn [bind]. cbv zeta.
  apply bind_inv in H. destruct H as (p2 & Ep2 & H). apply chk64_rel in Ep2. rewrite Ep2.
  apply bind_inv in H. destruct H as (vr & Evr & H). apply rel_reduce_u128_ok in Evr. rewrite Evr.
  apply bind_inv in H. destruct H as (t & Et & H). apply rel_lazy_mul_shoup_ok in Et. rewrite Et.
  apply bind_inv in H. destruct H as (y & Ey & H). apply chk64_rel in Ey. rewrite Ey.
  apply bind_inv in H. destruct H as (y' & Ey' & H). apply bind_inv in H. destruct H as (z & Ez & H).
  assert (E : (if f_one (sc_factor s) then y else w128 (y + (if sg then w64 (p2 - rel_lazy_reduce_u128 q w) else rel_lazy_reduce_u128 q w))) = y').
  { destruct (f_one (sc_factor s)); [apply val_inj; exact Ey'|].
    apply bind_inv in Ey'. destruct Ey' as (wi & Ewi & Ey'). apply rel_lazy_reduce_u128_ok in Ewi. rewrite Ewi.
    destruct sg; [|apply chk128_rel; exact Ey'].
    apply bind_inv in Ey'. destruct Ey' as (d & Ed & Ey'). apply chk64_rel in Ed. rewrite Ed. apply chk128_rel. exact Ey'. }
  rewrite E. rewrite (rel_dot_lazy_ok _ _ _ _ _ _ Ez). cbn [bind]. f_equal. apply rel_reduce_u128_ok. exact H.
Qed.
Lemma rel_scale_w_ok s rs v x : scale_w s rs v = Val x -> rel_scale_w s rs v = x.
Proof.
  unfold scale_w, rel_scale_w. destruct (f_one (sc_factor s)); [apply val_inj|]. cbv zeta. intros H.
  apply bind_inv in H. destruct H as (vt & Ev & H). apply chk_inv in Ev. destruct Ev as (-> & Bv).
  rewrite (Z.mod_small (v * sc_theta_gamma s)) by exact Bv. set (sum := (if sc_theta_gamma_sign s then _ else _) mod W256) in *.
  destruct (0 <? Z.shiftr sum (63 + 128)); [|apply val_inj; exact H].
  apply bind_inv in H. destruct H as (y & Ey & H). apply chk128_rel in Ey. rewrite Ey. apply val_inj. exact H.
Qed.
Lemma rel_scale_v_val s rs : 1 <= sc_shift s <= 256 ->
  rel_scale_v s rs = Val (div_ceil2 (Z.shiftr (wsum (sc_theta_garner s) rs 0) (sc_shift s - 1) mod W128)).
Proof.
  intros B. unfold rel_scale_v. cbv zeta. rewrite w64_id by (unfold is_u64; lia). rewrite bind_guard by (apply Z.ltb_lt; lia). reflexivity.
Qed.
Lemma rel_scale_ok s rs start len r : good_scaler s -> scale s rs start len = Val r -> rel_scale s rs start len = Val r.
Proof.
  intros Gs H. unfold scale in H. unfold rel_scale. pose proof (gs_shift _ Gs) as (Bsh & _).
  apply bind_inv in H. destruct H as (u1 & _ & H). apply bind_inv in H. destruct H as (u2 & _ & H). apply bind_inv in H. destruct H as (u3 & _ & H).
  apply bind_inv in H. destruct H as (v & Ev & H). rewrite rel_scale_v_val by lia. cbn [bind].
  unfold scale_v in Ev. apply bind_inv in Ev. destruct Ev as (e & Ee & Ev). apply chk_inv in Ee. destruct Ee as (-> & _). apply val_inj in Ev. rewrite Ev.
  apply bind_inv in H. destruct H as ([sg w] & Ew & H). rewrite (rel_scale_w_ok _ _ _ _ Ew).
  revert H. apply mapM_ref. intros i b _. apply rel_scale_one_ok.
Qed.

(** ** Any words *)
Lemma rel_lazy_mul_shoup_0 m o osh : rel_lazy_mul_shoup m 0 o osh = 0.
Proof. unfold rel_lazy_mul_shoup. rewrite !Z.mul_0_l. reflexivity. Qed.
Lemma rel_dot_lazy_total m rs : forall os osh acc, (length rs <= length os)%nat -> length osh = length os -> is_u128 acc ->
  exists r, rel_dot_lazy m rs os osh acc = Val r /\ is_u128 r.
Proof.
  induction rs as [|x rs IH]; intros os osh acc L L' Ba; cbn [rel_dot_lazy]; [eauto|].
  destruct os as [|o os]; cbn [length] in *; [lia|]. destruct osh as [|o' osh]; cbn [length] in *; [lia|].
  apply IH; [lia|lia|]. apply Z.mod_pos_bound. reflexivity.
Qed.
Lemma rel_dot_lazy_pad m rs : forall os osh acc k, (length rs + k <= length os)%nat -> length osh = length os -> is_u128 acc ->
  rel_dot_lazy m (rs ++ repeat 0 k) os osh acc = rel_dot_lazy m rs os osh acc.
Proof.
  induction rs as [|x rs IH]; intros os osh acc k L L' Ba.
  - cbn [app]. revert os osh L L'. induction k as [|k IHk]; intros os osh L L'; cbn [repeat rel_dot_lazy length] in *; [reflexivity|].
    destruct os as [|o os]; cbn [length] in *; [lia|]. destruct osh as [|o' osh]; cbn [length] in *; [lia|].
    rewrite rel_lazy_mul_shoup_0, Z.add_0_r, w128_id by exact Ba. apply IHk; lia.
  - cbn [app rel_dot_lazy length] in *.
    destruct os as [|o os]; cbn [length] in *; [lia|]. destruct osh as [|o' osh]; cbn [length] in *; [lia|].
    apply IH; [lia|lia|]. apply Z.mod_pos_bound. reflexivity.
Qed.
Lemma rel_dot_lazy_long m rs : forall os osh acc, (length os < length rs)%nat -> rel_dot_lazy m rs os osh acc = Panic.
Proof.
  induction rs as [|x rs IH]; intros os osh acc L; cbn [length rel_dot_lazy] in *; [lia|].
  destruct os as [|o os]; [reflexivity|]. destruct osh as [|o' osh]; [reflexivity|]. apply IH. cbn [length] in L. lia.
Qed.
Lemma inner_zeros l k : inner l (repeat 0 k) = 0.
Proof. revert k. induction l as [|x l IH]; intros [|k]; cbn [repeat inner]; [reflexivity..|]. rewrite IH. lia. Qed.
Lemma inner_pad l : forall rs k, inner l (rs ++ repeat 0 k) = inner l rs.
Proof.
  induction l as [|x l IH]; intros [|r rs] k; cbn [app inner]; [destruct k; reflexivity|reflexivity| |rewrite IH; reflexivity].
  apply (inner_zeros (x :: l) k).
Qed.
Lemma wsum_pad ts rs k : wsum ts (rs ++ repeat 0 k) 0 = wsum ts rs 0.
Proof. rewrite !wsum_spec by (split; [lia|reflexivity]). rewrite inner_pad. reflexivity. Qed.
Lemma wsum_signed_pad ts ss rs k : wsum_signed ts ss (rs ++ repeat 0 k) 0 = wsum_signed ts ss rs 0.
Proof. rewrite !wsum_signed_spec by (split; [lia|reflexivity]). rewrite inner_pad. reflexivity. Qed.
Lemma rel_scale_v_pad s rs k : rel_scale_v s (rs ++ repeat 0 k) = rel_scale_v s rs.
Proof. unfold rel_scale_v. rewrite wsum_pad. reflexivity. Qed.
Lemma rel_scale_w_pad s rs k v : rel_scale_w s (rs ++ repeat 0 k) v = rel_scale_w s rs v.
Proof. unfold rel_scale_w. rewrite wsum_signed_pad. reflexivity. Qed.

Lemma zipWith_len {A B C} (f : A -> B -> C) l : forall l', length l = length l' -> length (zipWith f l l') = length l.
Proof. induction l as [|a l IH]; intros [|b l'] H; cbn [length zipWith] in *; [reflexivity|discriminate|discriminate|]. rewrite IH by lia. reflexivity. Qed.
Lemma nth_zipWith {A B C} (f : A -> B -> C) da db dc l : forall l' i, length l = length l' -> (i < length l)%nat ->
  nth i (zipWith f l l') dc = f (nth i l da) (nth i l' db).
Proof.
  induction l as [|a l IH]; intros [|b l'] i H Hi; cbn [length zipWith] in *; try lia. destruct i; cbn [nth]; [reflexivity|]. apply IH; lia.
Qed.
Lemma get_over {A} (l : list A) i : (length l <= i)%nat -> get l i = Panic.
Proof. intros H. unfold get. rewrite (proj2 (nth_error_None l i) H). reflexivity. Qed.

Section Rows.
  Variables (s : rns_scaler) (i : nat).
  Hypothesis Gs : good_scaler s.
  Hypothesis Hi : (i < length (rns_u64 (sc_to s)))%nat.
  Lemma rows : exists q om osh ga gsh, get (rns_moduli (sc_to s)) i = Val q /\ valid_modulus q /\ mod_p q = nth i (rns_u64 (sc_to s)) 0 /\
    get (sc_omega s) i = Val om /\ get (sc_omega_shoup s) i = Val osh /\ get (sc_gamma s) i = Val ga /\ get (sc_gamma_shoup s) i = Val gsh /\
    length om = length (rns_u64 (sc_from s)) /\ length osh = length om.
  Proof.
    destruct (good_modulus _ _ (gs_to _ Gs) Hi) as (q & Eq & Vq & Ep).
    assert (Lg : length (sc_gamma s) = length (rns_u64 (sc_to s))) by (rewrite (gs_gamma _ Gs); unfold residues_of; apply map_length).
    assert (Lgs : length (sc_gamma_shoup s) = length (rns_u64 (sc_to s))) by (rewrite (gs_gamma_shoup _ Gs); apply zipWith_len; congruence).
    assert (Lo : length (sc_omega s) = length (rns_u64 (sc_to s))) by (rewrite (gs_omega _ Gs); apply map_length).
    assert (Los : length (sc_omega_shoup s) = length (rns_u64 (sc_to s))) by (rewrite (gs_omega_shoup _ Gs); apply zipWith_len; congruence).
    exists q, (nth i (sc_omega s) []), (nth i (sc_omega_shoup s) []), (nth i (sc_gamma s) 0), (nth i (sc_gamma_shoup s) 0).
    rewrite !get_lt with (d := []) by congruence. rewrite !get_lt with (d := 0) by congruence.
    repeat (split; [assumption || reflexivity|]). split.
    - rewrite (gs_omega _ Gs). rewrite (map_nth_lt _ _ i 0) by exact Hi. rewrite map_length. apply (gr_lg _ (gs_from _ Gs)).
    - rewrite (gs_omega_shoup _ Gs). rewrite (nth_zipWith _ 0 []) by congruence. apply map_length.
  Qed.
End Rows.

Lemma rel_scale_one_total s rs v sg w i : good_scaler s -> (i < length (rns_u64 (sc_to s)))%nat -> (length rs <= length (rns_u64 (sc_from s)))%nat ->
  exists r, rel_scale_one s rs v sg w i = Val r /\ 0 <= r < nth i (rns_u64 (sc_to s)) 0 /\
    rel_scale_one s (rs ++ repeat 0 (length (rns_u64 (sc_from s)) - length rs)) v sg w i = Val r.
Proof.
  intros Gs Hi Hl. destruct (rows s i Gs Hi) as (q & om & osh & ga & gsh & Eq & Vq & Ep & E1 & E2 & E3 & E4 & L1 & L2).
  unfold rel_scale_one. rewrite Eq, E1, E2, E3, E4. cbn [bind]. cbv zeta.
  set (y := if f_one (sc_factor s) then _ else _).
  assert (By : is_u128 y).
  { unfold y. destruct (f_one (sc_factor s)); [|apply Z.mod_pos_bound; reflexivity].
    match goal with |- is_u128 (w64 ?x) => pose proof (w64_u64 x) as B end. unfold is_u64, is_u128 in *. change W128 with (W64 * W64). nia. }
  destruct (rel_dot_lazy_total q rs om osh y ltac:(lia) L2 By) as (r & Er & Br). rewrite Er. cbn [bind].
  exists (rel_reduce_u128 q r). split; [reflexivity|]. split.
  - rewrite (proj1 (rel_reduce_u128_total q Vq r Br)). rewrite Ep. pose proof (valid_fields q Vq) as (Bp & _). apply Z.mod_pos_bound. lia.
  - rewrite rel_dot_lazy_pad by (try exact By; lia). rewrite Er. reflexivity.
Qed.
Lemma rel_scale_one_panic s rs v sg w i : good_scaler s ->
  (length (rns_u64 (sc_to s)) <= i)%nat \/ (length (rns_u64 (sc_from s)) < length rs)%nat -> rel_scale_one s rs v sg w i = Panic.
Proof.
  intros Gs H. destruct (Nat.lt_ge_cases i (length (rns_u64 (sc_to s)))) as [Hi|Hi].
  - destruct H as [H|H]; [lia|]. destruct (rows s i Gs Hi) as (q & om & osh & ga & gsh & Eq & Vq & Ep & E1 & E2 & E3 & E4 & L1 & L2).
    unfold rel_scale_one. rewrite Eq, E1, E2, E3, E4. cbn [bind]. cbv zeta. rewrite rel_dot_lazy_long by lia. reflexivity.
  - unfold rel_scale_one. rewrite get_over; [reflexivity|].
    pose proof (gr_moduli _ (gs_to _ Gs)) as G. apply Forall2_length_eq in G. lia.
Qed.

Lemma mapM_panic {A B} (f : A -> M B) l a : (forall x, In x l -> f x = Panic \/ exists b, f x = Val b) -> In a l -> f a = Panic -> mapM f l = Panic.
Proof.
  induction l as [|x l IH]; intros H Ha E; [destruct Ha|]. cbn [mapM].
  destruct (H x (or_introl eq_refl)) as [->|(b & Eb)]; [reflexivity|]. rewrite Eb. cbn [bind].
  destruct Ha as [->|Ha]; [congruence|]. rewrite IH; [reflexivity|intros y Hy; apply H; right; exact Hy|exact Ha|exact E].
Qed.

Lemma skipn_cons {A} (l : list A) d : forall i, (i < length l)%nat -> skipn i l = nth i l d :: skipn (S i) l.
Proof. induction l as [|a l IH]; intros i Hi; cbn [length] in *; [lia|]. destruct i; [reflexivity|]. cbn [skipn nth]. apply IH. lia. Qed.

Lemma rel_scale_total s rs start len : good_scaler s -> (length rs <= length (rns_u64 (sc_from s)))%nat -> (start + len <= length (rns_u64 (sc_to s)))%nat ->
  exists r, rel_scale s rs start len = Val r /\ canonical_residues (firstn len (skipn start (rns_u64 (sc_to s)))) r /\
    rel_scale s (rs ++ repeat 0 (length (rns_u64 (sc_from s)) - length rs)) start len = Val r.
Proof.
  intros Gs Hl Hb. pose proof (gs_shift _ Gs) as (Bsh & _). unfold rel_scale.
  rewrite rel_scale_v_pad, rel_scale_v_val by lia. cbn [bind]. rewrite rel_scale_w_pad.
  destruct (rel_scale_w s rs _) as [sg w]. set (v := div_ceil2 _).
  enough (H : forall n k, (start + (k + n) <= length (rns_u64 (sc_to s)))%nat ->
    exists r, mapM (fun i => rel_scale_one s rs v sg w (start + i)) (seq k n) = Val r /\
      canonical_residues (firstn n (skipn (start + k) (rns_u64 (sc_to s)))) r /\
      mapM (fun i => rel_scale_one s (rs ++ repeat 0 (length (rns_u64 (sc_from s)) - length rs)) v sg w (start + i)) (seq k n) = Val r).
  { destruct (H len O ltac:(lia)) as (r & Hr). rewrite Nat.add_0_r in Hr. exists r. exact Hr. }
  induction n as [|n IH]; intros k Hk; cbn [seq mapM].
  - exists []. split; [reflexivity|]. split; [constructor|reflexivity].
  - destruct (rel_scale_one_total s rs v sg w (start + k) Gs ltac:(lia) Hl) as (x & Ex & Bx & Ex').
    destruct (IH (S k) ltac:(lia)) as (r & Er & Cr & Er').
    exists (x :: r). rewrite Ex, Ex'. cbn [bind]. rewrite Er, Er'. cbn [bind]. split; [reflexivity|]. split; [|reflexivity].
    rewrite (skipn_cons _ 0) by lia. cbn [firstn]. constructor; [exact Bx|]. rewrite <- plus_n_Sm in Cr. exact Cr.
Qed.
Lemma rel_scale_out s rs start len : good_scaler s -> (0 < len)%nat ->
  (length (rns_u64 (sc_from s)) < length rs)%nat \/ (length (rns_u64 (sc_to s)) < start + len)%nat -> rel_scale s rs start len = Panic.
Proof.
  intros Gs Hl H. pose proof (gs_shift _ Gs) as (Bsh & _). unfold rel_scale. rewrite rel_scale_v_val by lia. cbn [bind].
  destruct (rel_scale_w s rs _) as [sg w]. set (v := div_ceil2 _).
  apply mapM_panic with (a := (len - 1)%nat).
  - intros i _. destruct (Nat.lt_ge_cases (start + i) (length (rns_u64 (sc_to s)))) as [Hi|Hi];
      [|left; apply rel_scale_one_panic; [exact Gs|left; exact Hi]].
    destruct (Nat.le_gt_cases (length rs) (length (rns_u64 (sc_from s)))) as [Hr|Hr];
      [|left; apply rel_scale_one_panic; [exact Gs|right; exact Hr]].
    right. destruct (rel_scale_one_total s rs v sg w (start + i) Gs Hi Hr) as (x & Ex & _). eauto.
  - apply in_seq. lia.
  - apply rel_scale_one_panic; [exact Gs|]. destruct H as [H|H]; [right; exact H|left; lia].
Qed.
