(** Examples for PropsTfhe.v: the modulus 1153, vectors of length 8, and plans made of native operators. *)
From Verif Require Import Outcome OutcomeLemmas BasicSpec NumTheory ZqModel ZqProofs ZqPow NttModel PolySpec PolyRing NttPure NttStages NttProofs NttPropLemmas.
From Verif Require Import RqSpec RqOps TfheModel TfheSpec TfheProofs TfhePropLemmas.
From Coq Require Import Znumtheory.

(** A plan that computes with a native operator, and one that refuses vectors that are not reduced. *)
Definition native_plan (op : ntt_op) : plan := mkPlan (ntt_forward op) (ntt_backward op) Val.
Definition strict_plan (op : ntt_op) : plan :=
  mkPlan (fun a => guard (forallb (fun x => x <? mod_p (nt_p op)) a) ;;; ntt_forward op a) (ntt_backward op) Val.

Lemma native_evaluates op k w B : ntt_ok op k w -> B <= 4 * mod_p (nt_p op) -> evaluates (mod_p (nt_p op)) k w B (ntt_forward op).
Proof.
  intros Hok HB. pose proof (p_bounds op k w Hok) as Pb. pose proof (ok_size _ _ _ Hok) as Es. split.
  - apply cong_m1; [lia|]. rewrite nat_pow2_Z. apply (ok_n _ _ _ Hok).
  - intros a La Ha. exists (NTT op a). rewrite (forward_NTT op k w Hok); [|congruence|apply Forall_impl with (2 := Ha); cbv beta; lia].
    split; [reflexivity|]. split; [rewrite (NTT_length op k w Hok); congruence|]. intros i Hi. apply (NTT_eval op k w Hok); congruence.
Qed.
Lemma native_contract op k w : ntt_ok op k w -> plan_contract (mod_p (nt_p op)) k w (4 * mod_p (nt_p op)) (native_plan op).
Proof.
  intros Hok. pose proof (p_pos op k w Hok). pose proof (ok_size _ _ _ Hok) as Es. split; [apply native_evaluates; [exact Hok|lia]|].
  intros a b La Ca E. unfold native_plan in *. cbn [pl_fwd pl_inv pl_normalize] in *. exists a. split; [|reflexivity].
  rewrite (native_fwd k op w Hok a La Ca) in E. apply val_inj in E. subst b. pose proof (NTT_canonical op k w Hok a) as Cn.
  rewrite (native_bwd k op w Hok); [|rewrite (NTT_length op k w Hok); congruence|exact Cn]. rewrite (INTT_NTT op k w Hok), rmod_small by (assumption || congruence). reflexivity.
Qed.
Lemma strict_contract op k w : ntt_ok op k w -> plan_contract (mod_p (nt_p op)) k w (mod_p (nt_p op)) (strict_plan op).
Proof.
  intros Hok. pose proof (p_pos op k w Hok).
  assert (G : forall a, canonical (mod_p (nt_p op)) a -> pl_fwd (strict_plan op) a = ntt_forward op a).
  { intros a Ca. unfold strict_plan. cbn [pl_fwd]. apply bind_guard. rewrite forallb_forall. intros x Hx. unfold canonical in Ca. rewrite Forall_forall in Ca. apply Z.ltb_lt, Ca, Hx. }
  destruct (native_contract op k w Hok) as (_ & N2). split.
  - destruct (native_evaluates op k w (mod_p (nt_p op)) Hok ltac:(lia)) as (E1 & E2). split; [exact E1|]. intros a La Ca. rewrite (G a Ca). apply E2; assumption.
  - intros a b La Ca E. rewrite (G a Ca) in E. exact (N2 a b La Ca E).
Qed.

Lemma op_1153 isp : prime_oracle isp -> forall m, modulus_new 1153 = Val m -> forall c, 0 <= c < 1153 -> c ^ 576 mod 1153 = 1152 ->
  exists op w, ntt_new isp [c] m (2 ^ 3)%nat = Val (Some op) /\ ntt_ok op 3 w /\ nt_p op = m /\ w = c ^ 72 mod 1153.
Proof.
  intros Hisp m Em c Hc Hq.
  assert (S : supports_ntt isp 1153 8 = Val true).
  { apply supports_all; [exact Hisp|lia|]. exists 3. split; [lia|]. split; [reflexivity|]. split; [|reflexivity].
    apply (check_prime_spec 1000). vm_compute. reflexivity. }
  assert (Cc : canonical 1153 [c]) by (constructor; [exact Hc|constructor]).
  destruct (new_some_all isp Hisp 1153 m Em [c] (2 ^ 3)%nat Cc S) as (op & E).
  { exists c. split; [left; reflexivity|]. change ((1153 - 1) / 2) with 576. exact Hq. }
  destruct (modulus_new_valid _ _ Em) as (Hm & Ep). rewrite Ep in Cc. destruct (new_ok isp [c] m 3 op Hisp Hm Cc E) as (w & Hok & Eq).
  destruct (root_candidate isp Hisp m Hm [c] 3 op w Cc E Hok Eq) as (c' & [<-|[]] & Ew). exists op, w. split; [exact E|]. split; [exact Hok|]. split; [exact Eq|].
  rewrite <- Ep in Ew. change ((1153 - 1) / (2 * Z.of_nat (2 ^ 3))) with 72 in Ew. exact Ew.
Qed.
Lemma small_1153 l : forallb (fun x => (0 <=? x) && (x <? 1153)) l = true -> canonical 1153 l.
Proof. intros H. unfold canonical. rewrite forallb_forall in H. rewrite Forall_forall. intros x Hx. specialize (H x Hx). apply andb_prop in H. lia. Qed.

(** Operators of the feature: without a plan, with a plan for the same root, with a plan for another root. *)
Lemma plans_ex : exists isp m cands, prime_oracle isp /\ modulus_new 1153 = Val m /\ canonical 1153 cands /\
  (exists plan_new t, tfhe_new isp plan_new cands m (2 ^ 3)%nat = Val (Some t) /\ tf_plan t = None) /\
  (exists plan_new t pl, tfhe_new isp plan_new cands m (2 ^ 3)%nat = Val (Some t) /\ tf_plan t = Some pl /\ plan_contract 1153 3 1086 (4 * 1153) pl /\
     evaluates 1153 3 1086 1153 (ntt_forward (tf_native t))) /\
  (exists plan_new t pl, tfhe_new isp plan_new cands m (2 ^ 3)%nat = Val (Some t) /\ tf_plan t = Some pl /\ plan_contract 1153 3 170 (4 * 1153) pl /\
     tfhe_forward t [0; 1; 0; 0; 0; 0; 0; 0] <> ntt_forward (tf_native t) [0; 1; 0; 0; 0; 0; 0; 0]).
Proof.
  destruct prime_oracle_exists as (isp & Hisp). destruct (modulus_new 1153) as [m| |] eqn:Em; [|vm_compute in Em; discriminate..].
  assert (Ep : mod_p m = 1153) by (destruct (modulus_new_valid _ _ Em) as (_ & E); symmetry; exact E).
  destruct (op_1153 isp Hisp m Em 5 ltac:(lia) ltac:(vm_compute; reflexivity)) as (op & w & En & Hok & Eq & Ew).
  destruct (op_1153 isp Hisp m Em 14 ltac:(lia) ltac:(vm_compute; reflexivity)) as (op' & w' & En' & Hok' & Eq' & Ew').
  assert (V1 : 5 ^ 72 mod 1153 = 1086) by (vm_compute; reflexivity). assert (V2 : 14 ^ 72 mod 1153 = 170) by (vm_compute; reflexivity). rewrite V1 in Ew. rewrite V2 in Ew'. subst w w'.
  assert (T : forall pn, tfhe_new isp pn [5] m (2 ^ 3)%nat = Val (Some (mkTfhe (pn (2 ^ 3)%nat (mod_p m)) op))) by (intros pn; unfold tfhe_new; rewrite En; reflexivity).
  exists isp, m, [5]. split; [exact Hisp|]. split; [reflexivity|]. split; [apply small_1153; reflexivity|]. split; [|split].
  - exists (fun _ _ => None). eexists. split; [apply T|reflexivity].
  - exists (fun _ _ => Some (native_plan op)). eexists. eexists. split; [apply T|]. split; [reflexivity|].
    pose proof (native_contract op 3 1086 Hok) as C. pose proof (native_evaluates op 3 1086 1153 Hok) as E. rewrite Eq, Ep in *. split; [exact C|apply E; lia].
  - exists (fun _ _ => Some (native_plan op')). eexists. eexists. split; [apply T|]. split; [reflexivity|].
    pose proof (native_contract op' 3 170 Hok') as C. rewrite Eq', Ep in C. split; [exact C|]. cbn [tf_native]. unfold tfhe_forward. cbn [tf_plan native_plan pl_fwd].
    assert (Cx : canonical 1153 [0; 1; 0; 0; 0; 0; 0; 0]) by (apply small_1153; reflexivity).
    rewrite (native_fwd 3 op 1086 Hok), (native_fwd 3 op' 170 Hok'); try (rewrite ?Eq, ?Eq', Ep; exact Cx); try reflexivity.
    intros E. apply val_inj in E. apply (f_equal (fun l => nth 0 l 0)) in E.
    rewrite (NTT_eval op 3 1086 Hok), (NTT_eval op' 3 170 Hok') in E; try (rewrite ?(ok_size _ _ _ Hok), ?(ok_size _ _ _ Hok'); cbn; lia).
    rewrite Eq, Eq', Ep in E. vm_compute in E. discriminate.
Qed.

(** The plan may be for another root: the results of the two transforms differ. *)
Lemma same_refuted : ~ (forall isp, prime_oracle isp -> forall p m, modulus_new p = Val m -> forall cands, canonical p cands ->
  forall plan_new k t pl psi, tfhe_new isp plan_new cands m (2 ^ k)%nat = Val (Some t) -> tf_plan t = Some pl -> plan_contract p k psi (4 * p) pl ->
  forall a, length a = (2 ^ k)%nat -> canonical p a -> tfhe_forward t a = ntt_forward (tf_native t) a).
Proof.
  intros H. destruct plans_ex as (isp & m & cands & Hisp & Em & Hc & _ & _ & pn & t & pl & Et & Epl & Hpl & Hne).
  apply Hne. apply (H isp Hisp 1153 m Em cands Hc pn 3%nat t pl 170 Et Epl Hpl); [reflexivity|apply small_1153; reflexivity].
Qed.

(** A plan that is right for reduced vectors only does not suffice for [forward_vt_lazy]. *)
Lemma lazy_refuted : ~ (forall isp, prime_oracle isp -> forall p m, modulus_new p = Val m -> forall cands, canonical p cands ->
  forall plan_new k t pl psi, tfhe_new isp plan_new cands m (2 ^ k)%nat = Val (Some t) -> tf_plan t = Some pl -> plan_contract p k psi p pl ->
  forall v r, length v = (2 ^ k)%nat -> Forall is_u64 v -> lazy_reduce_vec m v = Val r -> exists b, tfhe_forward_vt_lazy t r = Val b).
Proof.
  intros H. destruct prime_oracle_exists as (isp & Hisp). destruct (modulus_new 1153) as [m| |] eqn:Em; [|vm_compute in Em; discriminate..].
  assert (Ep : mod_p m = 1153) by (destruct (modulus_new_valid _ _ Em) as (_ & E); symmetry; exact E).
  destruct (op_1153 isp Hisp m Em 5 ltac:(lia) ltac:(vm_compute; reflexivity)) as (op & w & En & Hok & Eq & Ew).
  set (pn := fun (_ : nat) (_ : Z) => Some (strict_plan op)).
  assert (T : tfhe_new isp pn [5] m (2 ^ 3)%nat = Val (Some (mkTfhe (Some (strict_plan op)) op))) by (unfold tfhe_new; rewrite En; reflexivity).
  pose proof (strict_contract op 3 w Hok) as C. rewrite Eq, Ep in C.
  set (v := repeat 1153 8).
  assert (R : exists r, lazy_reduce_vec m v = Val r /\ forallb (fun x => x <? 1153) r = false).
  { assert (Q : bind (modulus_new 1153) (fun m => lazy_reduce_vec m (repeat 1153 8)) = Val (repeat 1153 8)) by (vm_compute; reflexivity).
    rewrite Em in Q. exists (repeat 1153 8). split; [exact Q|reflexivity]. }
  destruct R as (r & Er & Fr).
  destruct (H isp Hisp 1153 m Em [5] ltac:(apply small_1153; reflexivity) pn 3%nat _ _ w T eq_refl C v r eq_refl) as (b & Eb); [|exact Er|].
  - unfold v. rewrite Forall_forall. intros x Hx. apply repeat_spec in Hx. subst x. unfold is_u64. change W64 with (2 ^ 64). lia.
  - unfold tfhe_forward_vt_lazy in Eb. cbn [tf_plan strict_plan pl_fwd] in Eb. rewrite Eq, Ep, Fr in Eb. discriminate.
Qed.

(** Two operators modulo 1153: the roots are 1086 and 170 = 1086^3. *)
Lemma roots_ex : exists m op1 op2, modulus_new 1153 = Val m /\ ntt_new (Z.eqb 1153) [5] m (2 ^ 3) = Val (Some op1) /\ ntt_new (Z.eqb 1153) [14] m (2 ^ 3) = Val (Some op2) /\
  ntt_root op1 = 1086 /\ ntt_root op2 = 170 /\ 1086 ^ 3 mod 1153 = 170 /\ 170 ^ 11 mod 1153 = 1086 /\ 3 * 11 mod 16 = 1 /\
  (a <- ntt_backward op1 [10; 11; 12; 13; 14; 15; 16; 17] ;; ntt_forward op2 a) = Val [14; 15; 17; 16; 11; 10; 12; 13] /\
  map (moved_slot 3 3) (seq 0 8) = [4; 5; 7; 6; 1; 0; 2; 3]%nat.
Proof. eexists. eexists. eexists. examples. Qed.
