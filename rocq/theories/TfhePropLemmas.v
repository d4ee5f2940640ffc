(** The statements of PropsTfhe.v, assembled. *)
From Verif Require Import Outcome OutcomeLemmas BasicSpec NumTheory ZqModel ZqProofs ZqPow NttModel PolySpec PolyRing NttPure NttStages NttProofs NttPropLemmas.
From Verif Require Import RqSpec RqOps TfheModel TfheSpec TfheProofs.
From Coq Require Import Znumtheory.

Lemma tfhe_new_all : forall isp plan_new cands m size,
  (forall t, tfhe_new isp plan_new cands m size = Val (Some t) <-> ntt_new isp cands m size = Val (Some (tf_native t)) /\ tf_plan t = plan_new size (mod_p m)) /\
  (tfhe_new isp plan_new cands m size = Val None <-> ntt_new isp cands m size = Val None) /\
  (tfhe_new isp plan_new cands m size = Panic <-> ntt_new isp cands m size = Panic).
Proof.
  intros isp plan_new cands m size. unfold tfhe_new. destruct (ntt_new isp cands m size) as [[op|]|e|]; cbn [bind].
  - split; [|split; split; discriminate]. intros [pl op']. cbn [tf_native tf_plan]. split.
    + intros E. injection E as E1 E2. subst. split; reflexivity.
    + intros (E1 & E2). injection E1 as E1. subst. reflexivity.
  - split; [|split; split; (discriminate || reflexivity)]. intros t. split; [discriminate|intros (E & _); discriminate].
  - split; [|split; split; discriminate]. intros t. split; [discriminate|intros (E & _); discriminate].
  - split; [|split; split; (discriminate || reflexivity)]. intros t. split; [discriminate|intros (E & _); discriminate].
Qed.

(** Facts about an operator and a plan that meets its contract. *)
Lemma size_inj k K : (2 ^ K = 2 ^ k)%nat -> K = k.
Proof. intros E. apply (Nat.pow_inj_r 2); [lia|exact E]. Qed.
Lemma new_ok isp cands m k op : prime_oracle isp -> valid_modulus m -> canonical (mod_p m) cands -> ntt_new isp cands m (2 ^ k)%nat = Val (Some op) ->
  exists w, ntt_ok op k w /\ nt_p op = m.
Proof.
  intros Hisp Hm Hc E. destruct (ntt_new_ok isp Hisp m Hm cands _ op Hc E) as (K & w & Hok & Em & En).
  rewrite (ok_size _ _ _ Hok) in En. apply size_inj in En. subst K. exists w. auto.
Qed.
Lemma equal_all : forall isp plan_new p1 m1 cands1 size1 p2 m2 cands2 size2 t1 t2, prime_oracle isp ->
  modulus_new p1 = Val m1 -> modulus_new p2 = Val m2 -> canonical p1 cands1 -> canonical p2 cands2 ->
  tfhe_new isp plan_new cands1 m1 size1 = Val (Some t1) -> tfhe_new isp plan_new cands2 m2 size2 = Val (Some t2) ->
  tf_native t1 = tf_native t2 -> t1 = t2.
Proof.
  intros isp plan_new p1 m1 cands1 size1 p2 m2 cands2 size2 t1 t2 Hisp M1 M2 C1 C2 T1 T2 E.
  destruct (modulus_new_valid _ _ M1) as (V1 & ->). destruct (modulus_new_valid _ _ M2) as (V2 & ->).
  apply (proj1 (tfhe_new_all _ _ _ _ _)) in T1. apply (proj1 (tfhe_new_all _ _ _ _ _)) in T2. destruct T1 as (N1 & P1). destruct T2 as (N2 & P2).
  destruct (ntt_new_ok isp Hisp m1 V1 cands1 _ _ C1 N1) as (K1 & w1 & _ & Em1 & En1). destruct (ntt_new_ok isp Hisp m2 V2 cands2 _ _ C2 N2) as (K2 & w2 & _ & Em2 & En2).
  destruct t1 as [pl1 op1], t2 as [pl2 op2]. cbn [tf_native tf_plan] in *. subst op2 pl1 pl2. rewrite <- Em1, <- Em2, <- En1, <- En2. reflexivity.
Qed.

Lemma fallback_all : forall t a, tf_plan t = None ->
  tfhe_forward t a = ntt_forward (tf_native t) a /\ tfhe_forward_vt t a = ntt_forward_vt (tf_native t) a /\
  tfhe_forward_vt_lazy t a = ntt_forward_vt_lazy (tf_native t) a /\
  tfhe_backward t a = ntt_backward (tf_native t) a /\ tfhe_backward_vt t a = ntt_backward_vt (tf_native t) a.
Proof. intros [pl op] a E. cbn [tf_plan] in E. subst pl. repeat split. Qed.

Section Plan.
  Variables (op : ntt_op) (k : nat) (w : Z) (Hok : ntt_ok op k w).
  Notation p := (mod_p (nt_p op)).
  Notation n := (2 ^ k)%nat.
  Lemma evaluates_NTT psi B f : evaluates p k psi B f -> cong p psi w ->
    forall a, length a = n -> Forall (fun x => 0 <= x < B) a -> f a = Val (NTT op a).
  Proof using Hok.
    intros (_ & H) Ew a La Ha. destruct (H a La Ha) as (b & E & Lb & Hb). rewrite E. f_equal. pose proof (ok_size _ _ _ Hok) as Es. apply list_ext_Z.
    - rewrite (NTT_length op k w Hok); congruence.
    - rewrite Lb. intros i Hi. rewrite (Hb i Hi), (NTT_eval op k w Hok) by congruence. unfold point. apply (eval_cong op).
      apply cong_pow; [pose proof (bitrev_bounds k (Z.of_nat i)); lia|exact Ew].
  Qed.
  Lemma contract_INTT psi B pl : p <= B -> plan_contract p k psi B pl -> cong p psi w ->
    forall b, length b = n -> canonical p b -> (c <- pl_inv pl b ;; pl_normalize pl c) = Val (INTT op b).
  Proof using Hok.
    intros HB (H1 & H2) Ew b Lb Cb. pose proof (ok_size _ _ _ Hok) as Es. assert (Li : length (INTT op b) = n) by (rewrite (INTT_length op k w Hok); congruence).
    pose proof (INTT_canonical op k w Hok b) as Ci.
    assert (E : pl_fwd pl (INTT op b) = Val b).
    { rewrite (evaluates_NTT psi B _ H1 Ew _ Li) by (apply Forall_impl with (2 := Ci); cbv beta; lia). rewrite (NTT_INTT op k w Hok) by congruence. rewrite rmod_small by exact Cb. reflexivity. }
    destruct (H2 _ _ Li Ci E) as (c & E1 & E2). rewrite E1. exact E2.
  Qed.
  Lemma evaluates_native psi B f : B <= 4 * p -> evaluates p k psi B f -> cong p psi w ->
    forall a, length a = n -> Forall (fun x => 0 <= x < B) a -> f a = ntt_forward op a.
  Proof using Hok.
    intros HB H Ew a La Ha. rewrite (evaluates_NTT _ _ _ H Ew a La Ha). symmetry. apply (forward_NTT op k w Hok); [rewrite (ok_size _ _ _ Hok); exact La|].
    apply Forall_impl with (2 := Ha). cbv beta. lia.
  Qed.
End Plan.

(** A plan computes what the native operator computes for another list of candidates. *)
Lemma other_candidate isp cands p m k op psi : prime_oracle isp -> modulus_new p = Val m -> canonical p cands ->
  ntt_new isp cands m (2 ^ k)%nat = Val (Some op) -> psi ^ Z.of_nat (2 ^ k) mod p = p - 1 ->
  exists c op' w', canonical p [c] /\ ntt_new isp [c] m (2 ^ k)%nat = Val (Some op') /\ ntt_ok op' k w' /\ nt_p op' = m /\ cong p psi w'.
Proof.
  intros Hisp Em Hc E Hpsi. destruct (modulus_new_valid _ _ Em) as (Hm & ->). pose proof (proj1 (valid_fields m Hm)) as Bp.
  destruct (new_ok isp cands m k op Hisp Hm Hc E) as (w & Hok & Eq). destruct (root_candidate isp Hisp m Hm cands k op w Hc E Hok Eq) as (c & Hin & Ew).
  set (p := mod_p m) in *. set (n := Z.of_nat (2 ^ k)) in *. set (lam := (p - 1) / (2 * n)) in *.
  apply cong_m1 in Hpsi; [|lia]. pose proof (ok_size _ _ _ Hok) as Es.
  destruct (point_surj op k w Hok psi) as (i & Hi & Ei); [rewrite Es, Eq; exact Hpsi|]. rewrite Eq in Ei. fold p in Ei. unfold point in Ei.
  pose proof (bitrev_bounds k (Z.of_nat i)) as Hb. set (e := 2 * bitrev k (Z.of_nat i) + 1) in *. assert (He : 0 <= e) by lia. clearbody e.
  assert (Hs : supports_ntt isp p n = Val true).
  { unfold ntt_new in E. apply bind_inv in E. destruct E as (s & Hs & E). fold p n in Hs. destruct s; [exact Hs|discriminate]. }
  destruct (supports_ntt_inv isp p n Bp Hs) as (K & HK & EK & Emod & Eisp).
  assert (Hn : 8 <= n) by (rewrite EK; change 8 with (2 ^ 3); apply Z.pow_le_mono_r; lia).
  pose proof (mod_1_ge p (2 * n) ltac:(lia) ltac:(lia) Emod) as Hnp.
  assert (Hlam : (p - 1) / 2 = lam * n).
  { assert (D : p - 1 = 2 * n * lam).
    { unfold lam. rewrite <- Z_div_exact_full_2; [reflexivity|lia|]. rewrite Zminus_mod, Emod, (Z.mod_small 1) by lia. apply Zmod_0_l. }
    rewrite D. replace (2 * n * lam) with (lam * n * 2) by ring. apply Z.div_mul. lia. }
  assert (Hl0 : 0 <= lam) by (apply Z.div_pos; lia).
  assert (Hc' : 0 <= c ^ e mod p < p) by (apply Z.mod_pos_bound; lia).
  assert (Er : cong p psi ((c ^ e mod p) ^ lam)).
  { rewrite Ei. rewrite Ew. transitivity ((c ^ lam) ^ e); [apply cong_pow; [exact He|apply cong_mod]|].
    rewrite <- Z.pow_mul_r by assumption. rewrite Z.mul_comm, Z.pow_mul_r by assumption. apply cong_pow; [exact Hl0|]. apply cong_sym, cong_mod. }
  assert (Hq : exists x, In x [c ^ e mod p] /\ x ^ ((p - 1) / 2) mod p = p - 1).
  { exists (c ^ e mod p). split; [left; reflexivity|]. apply cong_m1; [lia|]. rewrite Hlam, Z.pow_mul_r by lia.
    transitivity (psi ^ n); [apply cong_pow; [lia|apply cong_sym, Er]|exact Hpsi]. }
  assert (Cc : canonical p [c ^ e mod p]) by (constructor; [exact Hc'|constructor]).
  destruct (ntt_new_total isp Hisp m Hm [c ^ e mod p] (2 ^ k)%nat Cc Hs) as (op' & E').
  { destruct Hq as (x & Hx & Q). exists x. split; [exact Hx|]. apply cong_m1; [lia|exact Q]. }
  destruct (new_ok isp _ m k op' Hisp Hm Cc E') as (w' & Hok' & Eq'). destruct (root_candidate isp Hisp m Hm _ k op' w' Cc E' Hok' Eq') as (c2 & Hin2 & Ew').
  destruct Hin2 as [<-|[]]. exists (c ^ e mod p), op', w'. split; [exact Cc|]. split; [exact E'|]. split; [exact Hok'|]. split; [exact Eq'|].
  rewrite Ew'. fold p n lam. rewrite cong_mod. exact Er.
Qed.

Section Natives.
  Variables (op1 op2 : ntt_op) (k : nat) (w1 w2 : Z) (H1 : ntt_ok op1 k w1) (H2 : ntt_ok op2 k w2) (Ep : nt_p op2 = nt_p op1).
  Notation p := (mod_p (nt_p op1)).
  Notation n := (2 ^ k)%nat.
  Lemma native_fwd op w (H : ntt_ok op k w) a : length a = n -> canonical (mod_p (nt_p op)) a -> ntt_forward op a = Val (NTT op a).
  Proof. intros La Ca. pose proof (p_pos op k w H). apply (forward_NTT op k w H); [rewrite (ok_size _ _ _ H); exact La|]. revert Ca. apply below_le. lia. Qed.
  Lemma native_bwd op w (H : ntt_ok op k w) a : length a = n -> canonical (mod_p (nt_p op)) a -> ntt_backward op a = Val (INTT op a).
  Proof. intros La Ca. pose proof (p_pos op k w H). apply (backward_INTT op k w H); [rewrite (ok_size _ _ _ H); exact La|]. revert Ca. apply below_le. lia. Qed.
  Lemma natives : exists e f, units k e f /\ related p k e f (ntt_forward op1) (ntt_backward op1) (ntt_forward op2) (ntt_backward op2).
  Proof using H1 H2 Ep.
    destruct (root_powers op1 op2 k w1 w2 H1 H2 Ep) as (e & f & Oe & He & Of & Hf & Eef & E2 & E1 & I).
    pose proof (ok_size _ _ _ H1) as S1. pose proof (ok_size _ _ _ H2) as S2. pose proof (p_pos op1 k w1 H1) as Pp.
    exists e, f. split; [split; [exact He|split; [exact Hf|exact Eef]]|].
    assert (F2 : forall a, length a = n -> canonical p a -> ntt_forward op2 a = Val (NTT op2 a)) by (rewrite <- Ep; apply (native_fwd op2 w2 H2)).
    assert (B2 : forall a, length a = n -> canonical p a -> ntt_backward op2 a = Val (INTT op2 a)) by (rewrite <- Ep; apply (native_bwd op2 w2 H2)).
    pose proof (native_fwd op1 w1 H1) as F1. pose proof (native_bwd op1 w1 H1) as B1.
    assert (Lx : forall s, length s = n -> length (INTT op1 s) = n) by (intros s Ls; rewrite (INTT_length op1 k w1 H1); congruence).
    assert (Le : forall s, length s = n -> length (NTT op1 s) = n) by (intros s Ls; rewrite (NTT_length op1 k w1 H1); congruence).
    assert (Eq : e = 1 -> (forall a, length a = n -> NTT op1 a = NTT op2 a)).
    { intros E. apply I in E. intros a La. apply list_ext_Z; [rewrite (NTT_length op1 k w1 H1), (NTT_length op2 k w2 H2) by congruence; congruence|].
      rewrite (NTT_length op1 k w1 H1) by congruence. intros i Hi. rewrite (NTT_eval op1 k w1 H1), (NTT_eval op2 k w2 H2) by congruence. unfold point. rewrite Ep, E. reflexivity. }
    assert (Ne : (forall a, length a = n -> canonical p a -> NTT op1 a = NTT op2 a) -> e = 1).
    { intros H. apply I. pose proof (ok_K _ _ _ H1) as HK. pose proof (pow_pow2 3 k HK) as H8. change (2 ^ 3)%nat with 8%nat in H8. pose proof (p_bounds op1 k w1 H1) as Pb.
      set (x := 0 :: 1 :: repeat 0 (n - 2)).
      assert (Lxx : length x = n) by (unfold x; cbn [length]; rewrite repeat_length; lia).
      assert (Cx : canonical p x).
      { unfold x. constructor; [lia|]. constructor; [lia|]. rewrite Forall_forall. intros y Hy. apply repeat_spec in Hy. subst y. lia. }
      assert (Ev : forall z, eval x z = z).
      { intros z. unfold x. cbn [eval]. fold (lzero (n - 2)). rewrite eval_lzero. ring. }
      specialize (H x Lxx Cx). apply (f_equal (fun l => nth 0 l 0)) in H. rewrite (NTT_eval op1 k w1 H1), (NTT_eval op2 k w2 H2) in H by (congruence || lia).
      rewrite !Ev in H. unfold point in H. change (Z.of_nat 0) with 0 in H.
      assert (B0 : bitrev k 0 = 0) by (clear; induction k as [|k' IH]; [reflexivity|]; cbn [bitrev]; change (0 mod 2) with 0; change (0 / 2) with 0; rewrite IH; reflexivity).
      rewrite B0 in H. change (2 * 0 + 1) with 1 in H. rewrite !Z.pow_1_r in H. pose proof (ok_w _ _ _ H1) as W1. pose proof (ok_w _ _ _ H2) as W2.
      rewrite !Z.mod_small in H by assumption. exact H. }
    split; [|split; [|split; [|split]]].
    - intros a La Ca. rewrite F2 by assumption. rewrite (forward_rel op1 op2 k w1 w2 H1 H2 Ep e a) by (assumption || lia).
      rewrite F1; [|rewrite map_length; apply aut_length|apply canonical_map_mod; lia]. f_equal. apply NTT_cong, lcong_sym, lcong_map_mod.
    - intros b Lb Cb. exists (INTT op1 b). split; [apply B1; assumption|]. rewrite B2 by assumption. f_equal.
      apply (backward_rel op1 op2 k w1 w2 H1 H2 Ep); (assumption || lia).
    - intros s Ls Cs. exists (INTT op1 s), (NTT op2 (INTT op1 s)). split; [apply B1; assumption|]. split; [apply F2; [apply Lx, Ls|apply (INTT_canonical op1 k w1 H1)]|].
      split; [rewrite (NTT_length op2 k w2 H2); [exact S2|rewrite S2; apply Lx, Ls]|]. intros i Hi.
      destruct (slot_rel op1 op2 k w1 w2 H1 H2 Ep e s i ltac:(lia) Oe E2 Ls Hi) as (G1 & G2). split; [exact G1|]. rewrite G2.
      apply Z.mod_small. unfold canonical in Cs. rewrite Forall_forall in Cs. apply Cs, nth_In. lia.
    - split.
      + intros E a La Ca. rewrite F1, F2 by assumption. f_equal. apply (Eq E a La).
      + intros H. apply Ne. intros a La Ca. specialize (H a La Ca). rewrite F1, F2 in H by assumption. apply val_inj in H. exact H.
    - split.
      + intros E b Lb Cb. rewrite B1, B2 by assumption. f_equal.
        pose proof (Eq E (INTT op1 b) (Lx _ Lb)) as H. rewrite (NTT_INTT op1 k w1 H1), rmod_small in H by (assumption || congruence).
        rewrite H at 2. rewrite (INTT_NTT op2 k w2 H2) by (rewrite S2; apply Lx, Lb). rewrite Ep. symmetry. apply rmod_small, (INTT_canonical op1 k w1 H1).
      + intros H. apply Ne. intros a La Ca. pose proof (NTT_canonical op1 k w1 H1 a) as Cn. specialize (H _ (Le _ La) Cn). rewrite B1, B2 in H by (assumption || apply Le, La).
        apply val_inj in H. rewrite (INTT_NTT op1 k w1 H1), rmod_small in H by (assumption || congruence). rewrite H at 2.
        rewrite (NTT_INTT op2 k w2 H2) by (rewrite S2; apply Le, La). rewrite Ep. symmetry. apply rmod_small, Cn.
  Qed.
End Natives.

Lemma natives_all : forall isp, prime_oracle isp -> forall p m, modulus_new p = Val m -> forall cands1 cands2, canonical p cands1 -> canonical p cands2 ->
  forall k op1 op2, ntt_new isp cands1 m (2 ^ k)%nat = Val (Some op1) -> ntt_new isp cands2 m (2 ^ k)%nat = Val (Some op2) ->
  exists e f, units k e f /\ related p k e f (ntt_forward op1) (ntt_backward op1) (ntt_forward op2) (ntt_backward op2).
Proof.
  intros isp Hisp. use_modulus m. intros cands1 cands2 C1 C2 k op1 op2 E1 E2.
  destruct (new_ok isp _ m k op1 Hisp Hm C1 E1) as (w1 & H1 & M1). destruct (new_ok isp _ m k op2 Hisp Hm C2 E2) as (w2 & H2 & M2). rewrite <- M1.
  apply (natives op1 op2 k w1 w2 H1 H2). congruence.
Qed.

Lemma simulates_all : forall isp, prime_oracle isp -> forall p m, modulus_new p = Val m -> forall cands, canonical p cands ->
  forall plan_new k t pl psi B, tfhe_new isp plan_new cands m (2 ^ k)%nat = Val (Some t) -> tf_plan t = Some pl ->
  p <= B <= 4 * p -> plan_contract p k psi B pl ->
  exists cands' op, canonical p cands' /\ ntt_new isp cands' m (2 ^ k)%nat = Val (Some op) /\
    (forall a, length a = (2 ^ k)%nat -> Forall (fun x => 0 <= x < B) a ->
       exists b l, ntt_forward op a = Val b /\ tfhe_forward t a = Val b /\ tfhe_forward_vt t a = Val b /\ tfhe_forward_vt_lazy t a = Val b /\
         ntt_forward_vt_lazy op a = Val l /\ map (fun x => x mod p) l = b) /\
    (forall b, length b = (2 ^ k)%nat -> canonical p b ->
       exists a, ntt_backward op b = Val a /\ tfhe_backward t b = Val a /\ tfhe_backward_vt t b = Val a).
Proof.
  intros isp Hisp p m Em cands Hc plan_new k [pl0 op] pl psi B Et Epl HB Hpl. cbn [tf_plan] in Epl. subst pl0.
  apply (proj1 (tfhe_new_all _ _ _ _ _)) in Et. destruct Et as (En & _). cbn [tf_native] in En.
  destruct (other_candidate isp cands p m k op psi Hisp Em Hc En (proj1 (proj1 Hpl))) as (c & op' & w' & Cc & En' & Hok & Eq & Ew).
  destruct (modulus_new_valid _ _ Em) as (Hm & ->). rewrite <- Eq in *. clear Em.
  exists [c], op'. split; [exact Cc|]. split; [exact En'|]. split.
  - intros a La Ha. assert (Ha4 : below (4 * mod_p (nt_p op')) a) by (apply Forall_impl with (2 := Ha); cbv beta; lia).
    pose proof (ok_size _ _ _ Hok) as Es. assert (La' : length a = nt_size op') by congruence.
    destruct (forward_vt_lazy_NTT op' k w' Hok a La' Ha4) as (l & El & _ & Ml). exists (NTT op' a), l.
    pose proof (evaluates_NTT op' k w' Hok psi B _ (proj1 Hpl) Ew a La Ha) as E. unfold tfhe_forward, tfhe_forward_vt, tfhe_forward_vt_lazy. cbn [tf_plan].
    rewrite (forward_NTT op' k w' Hok a La' Ha4). repeat split; assumption.
  - intros b Lb Cb. exists (INTT op' b). pose proof (contract_INTT op' k w' Hok psi B pl ltac:(lia) Hpl Ew b Lb Cb) as E.
    rewrite (native_bwd k op' w' Hok b Lb Cb). unfold tfhe_backward, tfhe_backward_vt. cbn [tf_plan]. repeat split; exact E.
Qed.

Lemma tfhe_inverse_all : forall isp, prime_oracle isp -> forall p m, modulus_new p = Val m -> forall cands, canonical p cands ->
  forall plan_new k t pl psi, tfhe_new isp plan_new cands m (2 ^ k)%nat = Val (Some t) -> tf_plan t = Some pl -> plan_contract p k psi p pl ->
  forall a, length a = (2 ^ k)%nat -> canonical p a ->
  (exists b, tfhe_forward t a = Val b /\ length b = (2 ^ k)%nat /\ canonical p b /\ tfhe_backward t b = Val a) /\
  (exists b, tfhe_backward t a = Val b /\ length b = (2 ^ k)%nat /\ canonical p b /\ tfhe_forward t b = Val a).
Proof.
  intros isp Hisp p m Em cands Hc plan_new k t pl psi Et Epl Hpl a La Ca. assert (Hp : 2 <= p) by (destruct (modulus_new_valid _ _ Em) as (Hm & ->); apply (valid_fields m Hm)).
  destruct (simulates_all isp Hisp p m Em cands Hc plan_new k t pl psi p Et Epl ltac:(lia) Hpl) as (cands' & op & Cc & En & F & B).
  destruct (inverse_all isp Hisp p m Em cands' Cc _ op En a La Ca) as ((b & E1 & Lb & Cb & E2) & (b' & E3 & Lb' & Cb' & E4)). split.
  - exists b. destruct (F a La Ca) as (b0 & _ & G1 & G2 & _). destruct (B b Lb Cb) as (a0 & G3 & G4 & _). rewrite G2, G4, <- G1, <- G3. auto.
  - exists b'. destruct (B a La Ca) as (a0 & G3 & G4 & _). destruct (F b' Lb' Cb') as (b0 & _ & G1 & G2 & _). rewrite G2, G4, <- G1, <- G3. auto.
Qed.

Lemma tfhe_convolution_all : forall isp, prime_oracle isp -> forall p m, modulus_new p = Val m -> forall cands, canonical p cands ->
  forall plan_new k t pl psi, tfhe_new isp plan_new cands m (2 ^ k)%nat = Val (Some t) -> tf_plan t = Some pl -> plan_contract p k psi p pl ->
  forall a b, length a = (2 ^ k)%nat -> length b = (2 ^ k)%nat -> canonical p a -> canonical p b ->
  exists fa fb fc, tfhe_forward t a = Val fa /\ tfhe_forward t b = Val fb /\ mul_vec m fa fb = Val fc /\
    tfhe_backward t fc = Val (map (fun x => x mod p) (negacyclic (2 ^ k) a b)).
Proof.
  intros isp Hisp p m Em cands Hc plan_new k t pl psi Et Epl Hpl a b La Lb Ca Cb. destruct (modulus_new_valid _ _ Em) as (Hm & Ep). assert (Hp : 2 <= p) by (subst p; apply (valid_fields m Hm)).
  destruct (simulates_all isp Hisp p m Em cands Hc plan_new k t pl psi p Et Epl ltac:(lia) Hpl) as (cands' & op & Cc & En & F & B).
  destruct (convolution_all isp Hisp p m Em cands' Cc _ op En a b La Lb Ca Cb) as (fa & fb & fc & E1 & E2 & E3 & E4).
  exists fa, fb, fc. destruct (F a La Ca) as (x & _ & G1 & G2 & _). destruct (F b Lb Cb) as (y & _ & G3 & G4 & _). rewrite G2, G4, <- G1, <- G3. do 2 (split; [assumption|]). split; [exact E3|].
  destruct (inverse_all isp Hisp p m Em cands' Cc _ op En a La Ca) as ((b1 & I1 & L1 & C1 & _) & _).
  destruct (inverse_all isp Hisp p m Em cands' Cc _ op En b Lb Cb) as ((b2 & I2 & L2 & C2 & _) & _).
  rewrite E1 in I1. apply val_inj in I1. subst b1. rewrite E2 in I2. apply val_inj in I2. subst b2.
  assert (Efc : fc = zipWith (fun x y => (x * y) mod p) fa fb).
  { rewrite Ep in C1, C2. rewrite (proj1 (mul_vec_spec m Hm fa fb C1 C2 ltac:(congruence))) in E3. apply val_inj in E3. rewrite Ep. symmetry. exact E3. }
  assert (Lc : length fc = (2 ^ k)%nat) by (rewrite Efc, zipWith_length, L1, L2; lia).
  assert (Ccc : canonical p fc).
  { rewrite Efc. clear - Hp. revert fb. induction fa as [|u fa IH]; intros [|v fb]; cbn [zipWith]; try constructor; [apply Z.mod_pos_bound; lia|apply IH]. }
  destruct (B fc Lc Ccc) as (a0 & G5 & G6 & _). rewrite G6, <- G5. exact E4.
Qed.

Lemma builds_all : forall isp, prime_oracle isp -> forall p m, modulus_new p = Val m -> forall cands, canonical p cands ->
  forall plan_new k t pl psi, tfhe_new isp plan_new cands m (2 ^ k)%nat = Val (Some t) -> tf_plan t = Some pl -> plan_contract p k psi p pl ->
  exists e f, units k e f /\ related p k e f (ntt_forward (tf_native t)) (ntt_backward (tf_native t)) (tfhe_forward t) (tfhe_backward t) /\
    (e = 1 <-> evaluates p k psi p (ntt_forward (tf_native t))).
Proof.
  intros isp Hisp p m Em cands Hc plan_new k t pl psi Et Epl Hpl. destruct (modulus_new_valid _ _ Em) as (Hm & Ep). assert (Hp : 2 <= p) by (subst p; apply (valid_fields m Hm)).
  destruct (simulates_all isp Hisp p m Em cands Hc plan_new k t pl psi p Et Epl ltac:(lia) Hpl) as (cands' & op & Cc & En & F & B).
  pose proof (proj1 (proj1 (proj1 (tfhe_new_all _ _ _ _ _) _) Et)) as En0.
  destruct (natives_all isp Hisp p m Em cands cands' Hc Cc k _ op En0 En) as (e & f & U & R1 & R2 & R3 & R4 & R5).
  assert (F2 : forall a, length a = (2 ^ k)%nat -> canonical p a -> tfhe_forward t a = ntt_forward op a) by (intros a La Ca; destruct (F a La Ca) as (x & _ & G1 & G2 & _); congruence).
  assert (B2 : forall a, length a = (2 ^ k)%nat -> canonical p a -> tfhe_backward t a = ntt_backward op a) by (intros a La Ca; destruct (B a La Ca) as (x & G1 & G2 & _); congruence).
  assert (R4' : e = 1 <-> (forall a, length a = (2 ^ k)%nat -> canonical p a -> ntt_forward (tf_native t) a = tfhe_forward t a)).
  { rewrite R4. split; intros H a La Ca; rewrite ?F2 by assumption; rewrite H by assumption; rewrite ?F2 by assumption; reflexivity. }
  exists e, f. split; [exact U|]. split; [split; [|split; [|split; [|split]]]|].
  - intros a La Ca. rewrite F2 by assumption. apply R1; assumption.
  - intros b Lb Cb. destruct (R2 b Lb Cb) as (a & E1 & E2). exists a. rewrite B2 by assumption. split; assumption.
  - intros s Ls Cs. destruct (R3 s Ls Cs) as (a & b & E1 & E2 & E3). exists a, b.
    destruct (inverse_all isp Hisp p m Em cands Hc _ _ En0 s Ls Cs) as (_ & (a' & I1 & I2 & I3 & _)). rewrite E1 in I1. apply val_inj in I1. subst a'.
    rewrite F2 by assumption. split; [exact E1|]. split; [exact E2|exact E3].
  - exact R4'.
  - rewrite R5. split; intros H a La Ca; [rewrite B2 by assumption; apply H; assumption|rewrite <- B2 by assumption; apply H; assumption].
  - rewrite R4'. assert (Ef : forall a, tfhe_forward t a = pl_fwd pl a) by (intros a; unfold tfhe_forward; rewrite Epl; reflexivity). split.
    + intros H. split; [apply (proj1 (proj1 Hpl))|]. intros a La Ca. rewrite (H a La Ca), Ef. apply (proj2 (proj1 Hpl)); assumption.
    + intros (_ & H) a La Ca. rewrite Ef. destruct (H a La Ca) as (b & E1 & L1 & N1). destruct (proj2 (proj1 Hpl) a La Ca) as (b' & E2 & L2 & N2).
      rewrite E1, E2. f_equal. apply list_ext_Z; [congruence|]. rewrite L1. intros i Hi. rewrite N1, N2 by exact Hi. reflexivity.
Qed.

Lemma lazy_all : forall isp, prime_oracle isp -> forall p m, modulus_new p = Val m -> forall cands, canonical p cands ->
  forall plan_new k t pl psi B, tfhe_new isp plan_new cands m (2 ^ k)%nat = Val (Some t) -> tf_plan t = Some pl -> 2 * p <= B -> plan_contract p k psi B pl ->
  forall v, length v = (2 ^ k)%nat -> Forall is_u64 v ->
  exists r b, lazy_reduce_vec m v = Val r /\ tfhe_forward_vt_lazy t r = Val b /\ length b = (2 ^ k)%nat /\
    forall i, (i < 2 ^ k)%nat -> nth i b 0 = eval v (psi ^ (2 * bitrev k (Z.of_nat i) + 1)) mod p.
Proof.
  intros isp Hisp p m Em cands Hc plan_new k t pl psi B Et Epl HB Hpl v Lv Hv. destruct (modulus_new_valid _ _ Em) as (Hm & Ep). rewrite Ep in *. clear Em Ep.
  destruct (lazy_reduce_vec_spec _ Hm v Hv) as (r & E & F). exists r.
  assert (Lr : length r = (2 ^ k)%nat) by (rewrite <- Lv; clear - F; induction F; cbn [length]; congruence).
  assert (Br : Forall (fun x => 0 <= x < B) r) by (clear - F HB; induction F; constructor; [cbv beta in *; lia|assumption]).
  destruct (proj2 (proj1 Hpl) r Lr Br) as (b & Eb & Lb & Nb). exists b. split; [exact E|]. unfold tfhe_forward_vt_lazy. rewrite Epl.
  split; [exact Eb|]. split; [exact Lb|]. intros i Hi. rewrite (Nb i Hi). apply lcong_eval; [|apply cong_refl].
  clear - F. induction F as [|x y l l' H H0 IH]; [constructor|]. constructor; [exact (proj2 H)|exact IH].
Qed.
