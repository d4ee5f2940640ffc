(** Proofs about [generate_prime]. *)
From Verif Require Import Outcome OutcomeLemmas PrimesModel ZqPow NumTheory.
From Coq Require Import Znumtheory.

(** [while_pos] is iteration: a generic rule with invariant and decreasing nonnegative measure. *)
Fixpoint iter_n {S R} (step : S -> S + R) (n : nat) (s : S) : S + R :=
  match n with O => inl s | Datatypes.S n' => match step s with inl s' => iter_n step n' s' | inr r => inr r end end.

Lemma iter_n_add {S R} (step : S -> S + R) a b s :
  iter_n step (a + b) s = match iter_n step a s with inl s' => iter_n step b s' | inr r => inr r end.
Proof.
  revert s; induction a as [|a IH]; intros s; cbn [iter_n Nat.add]; [reflexivity|].
  destruct (step s); [apply IH|reflexivity].
Qed.

Lemma while_pos_iter {S R} (step : S -> S + R) p s : while_pos step p s = iter_n step (Pos.to_nat p) s.
Proof.
  revert s; induction p as [p IH|p IH|]; intros s; cbn [while_pos].
  - rewrite Pos2Nat.inj_xI. cbn [iter_n]. destruct (step s) as [s1|]; [|reflexivity].
    replace (2 * Pos.to_nat p)%nat with (Pos.to_nat p + Pos.to_nat p)%nat by lia.
    rewrite iter_n_add, IH. destruct (iter_n step (Pos.to_nat p) s1); [apply IH|reflexivity].
  - rewrite Pos2Nat.inj_xO. replace (2 * Pos.to_nat p)%nat with (Pos.to_nat p + Pos.to_nat p)%nat by lia.
    rewrite iter_n_add, IH. destruct (iter_n step (Pos.to_nat p) s); [apply IH|reflexivity].
  - change (Pos.to_nat 1) with 1%nat. cbn [iter_n]. destruct (step s); reflexivity.
Qed.

Lemma while_rule {S R} (step : S -> S + R) (Inv : S -> Prop) (mu : S -> Z) (Post : R -> Prop) :
  (forall s, Inv s -> 0 <= mu s) ->
  (forall s, Inv s -> match step s with inl s' => Inv s' /\ mu s' < mu s | inr r => Post r end) ->
  forall n s, Inv s -> mu s < Z.of_nat n -> exists r, iter_n step n s = inr r /\ Post r.
Proof.
  intros Hmu Hstep n. induction n as [|n IH]; intros s Hs Hn; [specialize (Hmu s Hs); lia|].
  cbn [iter_n]. specialize (Hstep s Hs). destruct (step s) as [s'|r].
  - destruct Hstep as [Hs' Hlt]. apply IH; [exact Hs'|lia].
  - eauto.
Qed.

Lemma while64_rule {S R} (step : S -> S + M R) (Inv : S -> Prop) (mu : S -> Z) (Post : M R -> Prop) s :
  (forall s, Inv s -> 0 <= mu s < W64) ->
  (forall s, Inv s -> match step s with inl s' => Inv s' /\ mu s' < mu s | inr r => Post r end) ->
  Inv s -> Post (while64 step s).
Proof.
  intros Hmu Hstep Hs. unfold while64. rewrite while_pos_iter.
  destruct (while_rule step Inv mu Post (fun s H => proj1 (Hmu s H)) Hstep (Pos.to_nat 18446744073709551616) s Hs) as (r & -> & HP).
  - rewrite positive_nat_Z. apply Hmu, Hs.
  - exact HP.
Qed.

Lemma lz_iff t nb : 1 <= nb <= 64 -> 0 <= t -> (leading_zeros64 t = 64 - nb <-> 2 ^ (nb - 1) <= t < 2 ^ nb).
Proof.
  intros Hnb Ht. unfold leading_zeros64, nbits. destruct (Z.leb_spec t 0).
  - assert (t = 0) by lia. subst. assert (0 < 2 ^ (nb - 1)) by (apply Z.pow_pos_nonneg; lia). split; lia.
  - pose proof (Z.log2_spec t ltac:(lia)) as Hl. split.
    + intros E. assert (E2 : Z.log2 t = nb - 1) by lia. rewrite E2 in Hl. replace (Z.succ (nb - 1)) with nb in Hl by lia. exact Hl.
    + intros Hr. assert (Z.log2 t = nb - 1); [|lia].
      apply Z.log2_unique; [lia|]. replace (Z.succ (nb - 1)) with nb by lia. exact Hr.
Qed.

Lemma generate_prime_spec isp nb modulo upper :
  prime_oracle isp -> 10 <= nb <= 62 -> 2 <= modulo < W64 -> 1 <= upper <= 2 ^ nb ->
  (exists p, generate_prime isp nb modulo upper = Val (Some p) /\ wanted nb modulo upper p /\
             forall x, wanted nb modulo upper x -> x <= p) \/
  (generate_prime isp nb modulo upper = Val None /\ forall x, ~ wanted nb modulo upper x).
Proof.
  intros Ho Hnb Hmod Hup. unfold wanted. rewrite (Z.mod_small 1 modulo) by lia. unfold generate_prime.
  destruct (Z.leb_spec 10 nb); [|lia]. destruct (Z.leb_spec nb 62); [|lia]. cbn [andb negb].
  assert (Hnbp : 2 ^ nb <= W62) by (change W62 with (2 ^ 62); apply Z.pow_le_mono_r; lia).
  rewrite bind_guard by (apply Z.leb_le; rewrite Z.shiftl_mul_pow2 by lia; lia).
  unfold chk64. rewrite bind_chk by lia.
  rewrite bind_guard by (destruct (Z.eqb_spec modulo 0); [lia|reflexivity]).
  assert (H9 : 2 ^ 9 <= 2 ^ (nb - 1)) by (apply Z.pow_le_mono_r; lia). change (2 ^ 9) with 512 in H9.
  assert (Hlz : forall t, 0 <= t -> (leading_zeros64 t =? 64 - nb) = true <-> 2 ^ (nb - 1) <= t < 2 ^ nb).
  { intros t Ht. rewrite Z.eqb_eq. apply lz_iff; lia. }
  (* first loop *)
  assert (L1 : exists t, gp_loop1 modulo (64 - nb) (upper - 1) = Val t /\ 0 <= t < upper /\
            (forall x, t < x < upper -> 2 ^ (nb - 1) <= x -> x mod modulo <> 1) /\
            (2 ^ (nb - 1) <= t -> t mod modulo = 1)).
  { unfold gp_loop1.
    apply (while64_rule _ (fun t => 0 <= t < upper /\ (forall x, t < x < upper -> 2 ^ (nb - 1) <= x -> x mod modulo <> 1))
             (fun t => t) (fun r => exists t, r = Val t /\ _)).
    - intros t (Ht & _). lia.
    - intros t (Ht & Hx). destruct (Z.eqb_spec (t mod modulo) 1) as [E|E]; cbn [negb andb].
      + exists t. repeat split; try lia. exact Hx.
      + destruct (leading_zeros64 t =? 64 - nb) eqn:El.
        * apply Hlz in El; [|lia]. split; [|lia]. split; [lia|]. intros x Hx1 Hx2.
          destruct (Z.eq_dec x t) as [->|]; [exact E|apply Hx; lia].
        * exists t. split; [reflexivity|]. split; [lia|]. split; [exact Hx|].
          intros Hge. exfalso. assert (Hc : (leading_zeros64 t =? 64 - nb) = true) by (apply Hlz; lia). congruence.
    - split; [lia|]. intros x Hx. lia. }
  destruct L1 as (t1 & -> & Ht1 & Hx1 & Hm1). cbn [bind].
  (* second loop *)
  assert (L2 : exists t, gp_loop2 isp modulo (64 - nb) t1 = Val t /\ 0 <= t < upper /\
            (forall x, t < x < upper -> 2 ^ (nb - 1) <= x -> x mod modulo = 1 -> ~ prime x) /\
            (2 ^ (nb - 1) <= t -> t mod modulo = 1 /\ isp t = true)).
  { unfold gp_loop2.
    apply (while64_rule _ (fun t => 0 <= t < upper /\ (2 ^ (nb - 1) <= t -> t mod modulo = 1) /\
              (forall x, t < x < upper -> 2 ^ (nb - 1) <= x -> x mod modulo = 1 -> ~ prime x))
             (fun t => t) (fun r => exists t, r = Val t /\ _)).
    - intros t (Ht & _). lia.
    - intros t (Ht & Hm & Hx). destruct (leading_zeros64 t =? 64 - nb) eqn:El; cbn [andb].
      + apply Hlz in El; [|lia]. specialize (Hm (proj1 El)) as Hmt.
        assert (Hge : modulo <= t).
        { destruct (Z.le_gt_cases modulo t) as [H1|H1]; [exact H1|]. rewrite Z.mod_small in Hmt by lia. lia. }
        destruct (isp t) eqn:Ei; cbn [negb andb].
        * exists t. repeat split; try lia; try assumption.
        * destruct (Z.leb_spec modulo t); [|lia]. split; [|lia]. split; [lia|]. split.
          { intros _. rewrite <- (Z_mod_plus_full (t - modulo) 1 modulo). replace (t - modulo + 1 * modulo) with t by ring. exact Hmt. }
          intros x Hxr Hx2 Hxm.
          destruct (Z.lt_trichotomy x t) as [Hlt|[->|Hgt]].
          -- exfalso. assert (Hd : (t - x) mod modulo = 0) by (rewrite Zminus_mod, Hmt, Hxm, Z.sub_diag; apply Zmod_0_l).
             rewrite Z.mod_small in Hd by lia. lia.
          -- intros Hpr. apply Ho in Hpr; [congruence|unfold is_u64; lia].
          -- apply Hx; lia.
      + exists t. split; [reflexivity|]. split; [lia|]. split; [exact Hx|]. intros Hge. exfalso.
        assert (Hc : (leading_zeros64 t =? 64 - nb) = true) by (apply Hlz; lia). congruence.
    - split; [lia|]. split; [exact Hm1|]. intros x Hxr Hx2 Hxm. exfalso. exact (Hx1 x Hxr Hx2 Hxm). }
  destruct L2 as (t2 & -> & Ht2 & Hx2 & Hm2). cbn [bind].
  destruct (leading_zeros64 t2 =? 64 - nb) eqn:El; cbn [andb].
  - apply Hlz in El; [|lia]. destruct (Hm2 (proj1 El)) as (Hmm & Hi). rewrite Hi. left. exists t2.
    split; [reflexivity|]. split.
    + split; [apply Ho; [unfold is_u64; lia|exact Hi]|]. repeat split; lia.
    + intros x (Hpx & Hrx & Hmx & Hux). destruct (Z.le_gt_cases x t2); [assumption|]. exfalso.
      apply (Hx2 x); try lia. exact Hpx.
  - right. split; [reflexivity|]. intros x (Hpx & Hrx & Hmx & Hux).
    assert (Hlt : ~ 2 ^ (nb - 1) <= t2).
    { intros Hge. assert (Hc : (leading_zeros64 t2 =? 64 - nb) = true) by (apply Hlz; lia). congruence. }
    apply (Hx2 x); try lia. exact Hpx.
Qed.

Lemma generate_prime_range isp nb modulo upper : ~ (10 <= nb <= 62) -> generate_prime isp nb modulo upper = Val None.
Proof.
  intros H. unfold generate_prime. destruct (Z.leb_spec 10 nb); destruct (Z.leb_spec nb 62); cbn [andb negb]; try reflexivity. lia.
Qed.

(** [modulo = 1] makes every integer qualify, but the loop tests [t % 1 != 1]. *)
Lemma generate_prime_mod1 : exists p, wanted 10 1 1024 p /\ forall isp, generate_prime isp 10 1 1024 = Val None.
Proof.
  exists 1021. split.
  - unfold wanted. split; [apply (check_prime_spec 1000); vm_compute; reflexivity|]. repeat split; vm_compute; congruence.
  - intros isp. vm_compute. reflexivity.
Qed.
