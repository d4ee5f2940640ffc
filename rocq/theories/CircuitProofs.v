(** Circuits: evaluation, estimates and slots. *)
From Verif Require Import Outcome BasicSpec OutcomeLemmas ZqModel ZqProofs NumTheory NttModel PolySpec PolyRing NttPure NttStages NttProofs RnsModel RnsSpec RnsProofs RqModel RqSpec RqCtx RqOps RqPropLemmas RingRn ParamsModel BfvSpec ParamsProofs BuildProofs ParamsPropLemmas PlainModel CipherModel OpsModel SchemeSpec CipherSpec PlainProofs PlainPropLemmas RnPoly CipherProofs EncryptProofs CipherPropLemmas LinearPropLemmas KeysModel KeysSpec KeyOpsProofs KeyPropLemmas EvalSpec RotProofs EvalKeyProofs EvalOpsProofs EvalSumProofs EvalPropLemmas.
From Verif Require Import MulPropLemmas RgswSpec MultPropLemmas RgswPropLemmas CircuitSpec.
From Coq Require Import Znumtheory.
Set Default Proof Using "Type".

Lemma only_if_some b s s' : only_if b s = Some s' -> b = true /\ s' = s.
Proof. unfold only_if. destruct b; intros H; [|discriminate]. injection H as <-. auto. Qed.
Lemma with_item_some {A} (xs : list A) i f s : with_item xs i f = Some s -> exists x, nth_error xs i = Some x /\ f x = Some s.
Proof. unfold with_item. destruct (nth_error xs i) as [x|]; [|discriminate]. eauto. Qed.
Lemma with_state_some o f s : with_state o f = Some s -> exists l k B, o = Some (l, k, B) /\ f l k B = Some s.
Proof. unfold with_state. destruct o as [((l & k) & B)|]; [|discriminate]. eauto. Qed.
Lemma F2_length {A B} (R : A -> B -> Prop) xs ys : Forall2 R xs ys -> length xs = length ys.
Proof. induction 1; cbn [length]; congruence. Qed.
Lemma picked {A} (xs : list A) i x (P : A -> Prop) : nth_error xs i = Some x -> Forall P xs -> pick xs i = Val x /\ P x /\ forall d f, of d f xs i = f x.
Proof. intros E H. unfold pick, of. rewrite E. split; [reflexivity|]. split; [|reflexivity]. rewrite Forall_forall in H. apply H, nth_error_In with i, E. Qed.

Section Circuits.
  Context (isp : Z -> bool) (cands : Z -> list Z) (par : params).
  Notation N := (pa_degree par).
  Notation t := (pa_t par).
  Lemma images_step (m : Rn N) es : (0 < N)%nat -> Forall (fun e => 0 <= e) es -> fold_left (add_image N) es (rl m) = rl (fold_left (sum_step par) es m).
  Proof.
    intros HN. revert m. induction es as [|e es IH]; intros m H; [reflexivity|]. inversion H; subst. cbn [fold_left]. rewrite <- IH by assumption. f_equal. unfold add_image, sum_step. rewrite automorphism_raut by lia. reflexivity.
  Qed.
  Lemma images_sum (m : Rn N) : oracles isp cands -> good_params isp cands par ->
    sum_images N (rl m) = rl (sum_step par (fold_left (sum_step par) (map (column_exponent N) (steps_of par)) m) (row_exponent N)).
  Proof.
    intros Ho G. destruct (steps_eq isp cands Ho par G) as (K & HK & EN & ->). assert (HN : (0 < N)%nat) by (rewrite EN; apply Nat.neq_0_lt_0, Nat.pow_nonzero; lia). assert (EL : Nat.log2 N = K) by (rewrite EN; apply Nat.log2_pow2; lia). unfold sum_images. rewrite EL. rewrite map_map.
    rewrite images_step; [|exact HN|]. 2: { apply Forall_map, Forall_forall. intros k _. unfold column_exponent. apply Z.mod_pos_bound. lia. }
    unfold add_image, sum_step. rewrite automorphism_raut by (unfold row_exponent; lia). reflexivity.
  Qed.
  Lemma parts_of sk l ct m B : encrypts par sk l ct m B -> exists xs, is_ct par l ct xs /\ length xs = length (ct_c ct) /\ (2 <= length xs)%nat /\ length m = N.
  Proof.
    intros (xs & e & H & L & Lm & _). exists xs. split; [exact H|]. split; [|auto]. destruct H as (_ & _ & H). symmetry. exact (F2_length _ _ _ H).
  Qed.
  Lemma ct_length l ct xs : is_ct par l ct xs -> length (ct_c ct) = length xs.
  Proof. intros (_ & _ & H). exact (F2_length _ _ _ H). Qed.

  Theorem circuit_all : oracles isp cands -> is_params isp cands par -> supported par -> forall sk, is_sk par sk -> forall V, env_ok isp cands par sk V ->
    forall c l k B, estimate par sk V c = Some (l, k, B) ->
    (l <= max_level par)%nat /\ exists ct, run V c = Val ct /\ length (ct_c ct) = k /\ encrypts par sk l ct (meaning N V c) B.
  Proof.
    intros Ho Hp Hsup sk Hsk V (Vi & Vp & Vr & Ve & Vm & Vg). pose proof (params_good isp cands par Ho Hp) as G. pose proof (proj1 (proj2 Hsk)) as Ls.
    induction c as [i|a IHa|a IHa b IHb|a IHa b IHb|a IHa j|a IHa j|j a IHa|a IHa j|a IHa b IHb|i a IHa|l' a IHa|i s a IHa|i a IHa|i a IHa|i size j a IHa|i a IHa b IHb|j a IHa]; intros l k B E; cbn [estimate] in E; cbn [run meaning].
    - apply with_item_some in E. destruct E as (x & Ex & E). injection E as <- <- <-. destruct (picked _ _ _ _ Ex Vi) as (-> & (Hl & Henc) & ->). split; [exact Hl|]. exists (i_ct x). cbn [bind]. auto.
    - apply with_state_some in E. destruct E as (l1 & k1 & B1 & E1 & E). injection E as <- <- <-. destruct (IHa _ _ _ E1) as (Hl & x & -> & Lx & Hx). split; [exact Hl|]. cbn [bind].
      destruct (enc_add_all isp cands par Ho Hp l1 Hl sk x x _ _ _ _ Hsk Hx Hx eq_refl) as (_ & _ & (ct & Ect & Hct)). exists ct. split; [exact Ect|]. split; [|exact Hct].
      destruct (parts_of _ _ _ _ _ Hx) as (xs & Hxs & Lxs & _). destruct (neg_all isp cands par Ho Hp l1 Hl x xs Hxs) as (ct' & Ect' & _ & Hi & _). rewrite Ect in Ect'. injection Ect' as <-. rewrite (ct_length _ _ _ Hi), map_length. congruence.
    - apply with_state_some in E. destruct E as (l1 & k1 & B1 & E1 & E). apply with_state_some in E. destruct E as (l2 & k2 & B2 & E2 & E). apply only_if_some in E. destruct E as (E & Eq). injection Eq as -> -> ->. apply andb_true_iff in E. destruct E as (El & Ek). apply Nat.eqb_eq in El, Ek. subst l2 k2.
      destruct (IHa _ _ _ E1) as (Hl & x & -> & Lx & Hx). destruct (IHb _ _ _ E2) as (_ & y & -> & Ly & Hy). split; [exact Hl|]. cbn [bind].
      destruct (enc_add_all isp cands par Ho Hp l1 Hl sk x y _ _ _ _ Hsk Hx Hy ltac:(congruence)) as ((ct & Ect & Hct) & _). exists ct. split; [exact Ect|]. split; [|exact Hct].
      destruct (parts_of _ _ _ _ _ Hx) as (xs & Hxs & Lxs & L2 & _). destruct (parts_of _ _ _ _ _ Hy) as (ys & Hys & Lys & _). destruct (add_all isp cands par Ho Hp l1 Hl x y xs ys Hxs Hys ltac:(congruence) ltac:(intros ->; cbn in L2; lia)) as (ct' & Ect' & _ & Hi & _).
      rewrite Ect in Ect'. injection Ect' as <-. rewrite (ct_length _ _ _ Hi). unfold add_parts. rewrite map_length, combine_length. lia.
    - apply with_state_some in E. destruct E as (l1 & k1 & B1 & E1 & E). apply with_state_some in E. destruct E as (l2 & k2 & B2 & E2 & E). apply only_if_some in E. destruct E as (E & Eq). injection Eq as -> -> ->. apply andb_true_iff in E. destruct E as (El & Ek). apply Nat.eqb_eq in El, Ek. subst l2 k2.
      destruct (IHa _ _ _ E1) as (Hl & x & -> & Lx & Hx). destruct (IHb _ _ _ E2) as (_ & y & -> & Ly & Hy). split; [exact Hl|]. cbn [bind].
      destruct (enc_add_all isp cands par Ho Hp l1 Hl sk x y _ _ _ _ Hsk Hx Hy ltac:(congruence)) as (_ & (ct & Ect & Hct) & _). exists ct. split; [exact Ect|]. split; [|exact Hct].
      destruct (parts_of _ _ _ _ _ Hx) as (xs & Hxs & Lxs & L2 & _). destruct (parts_of _ _ _ _ _ Hy) as (ys & Hys & Lys & _). destruct (sub_all isp cands par Ho Hp l1 Hl x y xs ys Hxs Hys ltac:(congruence) ltac:(intros ->; cbn in L2; lia)) as (ct' & Ect' & _ & Hi & _).
      rewrite Ect in Ect'. injection Ect' as <-. rewrite (ct_length _ _ _ Hi). unfold sub_parts. rewrite map_length, combine_length. lia.
    - apply with_state_some in E. destruct E as (l1 & k1 & B1 & E1 & E). apply with_item_some in E. destruct E as (p & Ep & E). apply only_if_some in E. destruct E as (E & Eq). injection Eq as -> -> ->. apply andb_true_iff in E. destruct E as (El & Ef). apply Nat.eqb_eq in El. apply Z.leb_le in Ef.
      destruct (picked _ _ _ _ Ep Vp) as (-> & (Hpl & Hpt & Hc) & ->). destruct (IHa _ _ _ E1) as (Hl & x & -> & Lx & Hx). rewrite <- El in *. split; [exact Hl|]. cbn [bind].
      destruct (enc_add_pt_all isp cands par Ho Hp l1 Hl sk x _ _ _ _ Hsk Hx Hpt Hc Ef) as ((ct & Ect & Hct) & _). exists ct. split; [exact Ect|]. split; [|exact Hct].
      destruct (parts_of _ _ _ _ _ Hx) as ([|x0 xs] & Hxs & Lxs & L2 & _); [cbn in L2; lia|]. destruct (add_pt_all isp cands par Ho Hp l1 Hl x x0 xs _ _ Hxs Hpt Hc Ef) as ((ct' & Ect' & _ & Hi) & _).
      rewrite Ect in Ect'. injection Ect' as <-. rewrite (ct_length _ _ _ Hi). cbn [length] in *. congruence.
    - apply with_state_some in E. destruct E as (l1 & k1 & B1 & E1 & E). apply with_item_some in E. destruct E as (p & Ep & E). apply only_if_some in E. destruct E as (E & Eq). injection Eq as -> -> ->. apply andb_true_iff in E. destruct E as (El & Ef). apply Nat.eqb_eq in El. apply Z.leb_le in Ef.
      destruct (picked _ _ _ _ Ep Vp) as (-> & (Hpl & Hpt & Hc) & ->). destruct (IHa _ _ _ E1) as (Hl & x & -> & Lx & Hx). rewrite <- El in *. split; [exact Hl|]. cbn [bind].
      destruct (enc_add_pt_all isp cands par Ho Hp l1 Hl sk x _ _ _ _ Hsk Hx Hpt Hc Ef) as (_ & (ct & Ect & Hct) & _). exists ct. split; [exact Ect|]. split; [|exact Hct].
      destruct (parts_of _ _ _ _ _ Hx) as ([|x0 xs] & Hxs & Lxs & L2 & _); [cbn in L2; lia|]. destruct (add_pt_all isp cands par Ho Hp l1 Hl x x0 xs _ _ Hxs Hpt Hc Ef) as (_ & (ct' & Ect' & _ & Hi) & _).
      rewrite Ect in Ect'. injection Ect' as <-. rewrite (ct_length _ _ _ Hi). cbn [length] in *. congruence.
    - apply with_state_some in E. destruct E as (l1 & k1 & B1 & E1 & E). apply with_item_some in E. destruct E as (p & Ep & E). apply only_if_some in E. destruct E as (E & Eq). injection Eq as -> -> ->. apply andb_true_iff in E. destruct E as (El & Ef). apply Nat.eqb_eq in El. apply Z.leb_le in Ef.
      destruct (picked _ _ _ _ Ep Vp) as (-> & (Hpl & Hpt & Hc) & ->). destruct (IHa _ _ _ E1) as (Hl & x & -> & Lx & Hx). rewrite <- El in *. split; [exact Hl|]. cbn [bind].
      destruct (enc_add_pt_all isp cands par Ho Hp l1 Hl sk x _ _ _ _ Hsk Hx Hpt Hc Ef) as (_ & _ & (ct & Ect & Hct)). exists ct. split; [exact Ect|]. split; [|exact Hct].
      destruct (parts_of _ _ _ _ _ Hx) as ([|x0 xs] & Hxs & Lxs & L2 & _); [cbn in L2; lia|]. destruct (add_pt_all isp cands par Ho Hp l1 Hl x x0 xs _ _ Hxs Hpt Hc Ef) as (_ & _ & (ct' & Ect' & _ & Hi)).
      rewrite Ect in Ect'. injection Ect' as <-. rewrite (ct_length _ _ _ Hi). cbn [length] in *. rewrite map_length. congruence.
    - apply with_state_some in E. destruct E as (l1 & k1 & B1 & E1 & E). apply with_item_some in E. destruct E as (p & Ep & E). apply only_if_some in E. destruct E as (El & Eq). injection Eq as -> -> ->. apply Nat.eqb_eq in El.
      destruct (picked _ _ _ _ Ep Vp) as (-> & (Hpl & Hpt & Hc) & ->). destruct (IHa _ _ _ E1) as (Hl & x & -> & Lx & Hx). rewrite <- El in *. split; [exact Hl|]. cbn [bind].
      destruct (enc_mul_pt_all isp cands par Ho Hp l1 Hl sk x _ _ _ _ Hsk Hx Hpt) as (ct & Ect & Hct). exists ct. split; [exact Ect|]. split; [|exact Hct].
      destruct (parts_of _ _ _ _ _ Hx) as (xs & Hxs & Lxs & L2 & _). destruct (mul_pt_all isp cands par Ho Hp l1 Hl x xs _ _ Hxs ltac:(intros ->; cbn in L2; lia) Hpt) as (ct' & Ect' & _ & Hi & _).
      rewrite Ect in Ect'. injection Ect' as <-. rewrite (ct_length _ _ _ Hi), map_length. congruence.
    - apply with_state_some in E. destruct E as (l1 & k1 & B1 & E1 & E). apply with_state_some in E. destruct E as (l2 & k2 & B2 & E2 & E). apply only_if_some in E. destruct E as (E & Eq). injection Eq as -> -> ->. unfold mul_room_b in E. rewrite !andb_true_iff, !Z.leb_le, Nat.eqb_eq in E. destruct E as (<- & (R1 & R2) & R3).
      destruct (IHa _ _ _ E1) as (Hl & x & -> & Lx & Hx). destruct (IHb _ _ _ E2) as (_ & y & -> & Ly & Hy). split; [exact Hl|]. cbn [bind].
      destruct (enc_mul_all isp cands par Ho Hp Hsup l1 Hl sk x y _ _ _ _ Hsk Hx Hy R1 R2) as (ct & Ect & _ & Lct & Hct); [rewrite Lx; exact R3|]. rewrite Lx, Ly in *. exists ct. auto.
    - apply with_state_some in E. destruct E as (l1 & k1 & B1 & E1 & E). apply with_item_some in E. destruct E as (r & Er & E). apply only_if_some in E. destruct E as (E & Eq). injection Eq as -> -> ->. rewrite andb_true_iff, !Nat.eqb_eq in E. destruct E as (El & ->).
      destruct (picked _ _ _ _ Er Vr) as (-> & (Hr1 & Hr2 & HB & Hk) & _). destruct (IHa _ _ _ E1) as (Hl & x & -> & Lx & Hx). rewrite <- El in *. split; [exact Hl|]. cbn [bind].
      destruct (relinearizes_all isp cands par Ho Hp sk Hsk l1 _ Hl Hr2 _ _ HB Hk) as (_ & H). destruct (H x _ _ Hx Lx) as (ct & Ect & Lct & Hct). exists ct. auto.
    - apply with_state_some in E. destruct E as (l1 & k1 & B1 & E1 & E). apply only_if_some in E. destruct E as (E & Eq). injection Eq as -> -> ->. rewrite andb_true_iff, !Nat.leb_le in E. destruct E as (El & Em).
      destruct (IHa _ _ _ E1) as (Hl & x & -> & Lx & Hx). split; [exact Em|]. cbn [bind].
      destruct (enc_switch_all isp cands par Ho Hp l1 l' El Em sk x _ _ Hsk Hx) as (ct & Ect & Hct). rewrite Lx in Hct. exists ct. split; [exact Ect|]. split; [|exact Hct].
      destruct (parts_of _ _ _ _ _ Hx) as (xs & Hxs & Lxs & L2 & _). destruct (switch_all isp cands par Ho Hp l1 l' El Em x xs Hxs) as (ct' & ys & Ect' & Hi & Lys & _). rewrite Ect in Ect'. injection Ect' as <-. rewrite (ct_length _ _ _ Hi). congruence.
    - apply with_state_some in E. destruct E as (l1 & k1 & B1 & E1 & E). apply with_item_some in E. destruct E as (e & Ee & E). apply only_if_some in E. destruct E as (E & Eq). injection Eq as -> -> ->. unfold step_b in E. rewrite !andb_true_iff, !Nat.eqb_eq, !Z.ltb_lt in E. destruct E as (((El & ->) & Hs) & Hh).
      destruct (picked _ _ _ _ Ee Ve) as (-> & (He1 & He2 & HB & Hek & Hes) & _). destruct (IHa _ _ _ E1) as (Hl & x & -> & Lx & Hx). rewrite <- El in *. split; [exact Hl|]. cbn [bind].
      destruct (at_level_ex isp cands par l1 Ho G Hl) as (lv1 & c1 & A1). destruct (at_level_ex isp cands par (e_to e) Ho G ltac:(lia)) as (lv2 & c2 & A2). destruct (parts_of _ _ _ _ _ Hx) as (_ & _ & _ & _ & Lm). set (m := mkR (meaning N V a) Lm).
      assert (Hm : enc par l1 c1 (mkR (sk_coeffs sk) Ls) x m B1) by (apply (enc_encrypts2 isp cands Ho par G l1 lv1 c1 A1); split; assumption).
      destruct (columns_enc isp cands Ho par G l1 lv1 c1 A1 _ lv2 c2 A2 He2 sk Ls _ _ _ HB Hek Hes x m B1 s Hm Hs Hh) as (ct & Ect & Hct). exists ct. split; [exact Ect|]. apply (enc_encrypts2 isp cands Ho par G l1 lv1 c1 A1) in Hct. destruct Hct as (Lct & Hct). split; [exact Lct|].
      change (meaning N V a) with (rl m). rewrite automorphism_raut; [exact Hct| |unfold column_exponent; apply Z.mod_pos_bound]; pose proof (N_pos isp cands Ho par G l1 lv1 c1 A1); lia.
    - apply with_state_some in E. destruct E as (l1 & k1 & B1 & E1 & E). apply with_item_some in E. destruct E as (e & Ee & E). apply only_if_some in E. destruct E as (E & Eq). injection Eq as -> -> ->. rewrite !andb_true_iff, !Nat.eqb_eq in E. destruct E as ((El & ->) & Hh).
      destruct (picked _ _ _ _ Ee Ve) as (-> & (He1 & He2 & HB & Hek & Hes) & _). destruct (IHa _ _ _ E1) as (Hl & x & -> & Lx & Hx). rewrite <- El in *. split; [exact Hl|]. cbn [bind].
      destruct (at_level_ex isp cands par l1 Ho G Hl) as (lv1 & c1 & A1). destruct (at_level_ex isp cands par (e_to e) Ho G ltac:(lia)) as (lv2 & c2 & A2). destruct (parts_of _ _ _ _ _ Hx) as (_ & _ & _ & _ & Lm). set (m := mkR (meaning N V a) Lm).
      assert (Hm : enc par l1 c1 (mkR (sk_coeffs sk) Ls) x m B1) by (apply (enc_encrypts2 isp cands Ho par G l1 lv1 c1 A1); split; assumption).
      destruct (rows_enc isp cands Ho par G l1 lv1 c1 A1 _ lv2 c2 A2 He2 sk Ls _ _ _ HB Hek Hes x m B1 Hm Hh) as (ct & Ect & Hct). exists ct. split; [exact Ect|]. apply (enc_encrypts2 isp cands Ho par G l1 lv1 c1 A1) in Hct. destruct Hct as (Lct & Hct). split; [exact Lct|].
      change (meaning N V a) with (rl m). rewrite automorphism_raut; [exact Hct| |unfold row_exponent]; pose proof (N_pos isp cands Ho par G l1 lv1 c1 A1); lia.
    - apply with_state_some in E. destruct E as (l1 & k1 & B1 & E1 & E). apply with_item_some in E. destruct E as (e & Ee & E). apply only_if_some in E. destruct E as (E & Eq). injection Eq as -> -> ->. unfold sums_b in E. rewrite !andb_true_iff, !Nat.eqb_eq in E. destruct E as ((El & ->) & (Hrow & Hcol)).
      destruct (picked _ _ _ _ Ee Ve) as (-> & (He1 & He2 & HB & Hek & Hes) & _). destruct (IHa _ _ _ E1) as (Hl & x & -> & Lx & Hx). rewrite <- El in *. split; [exact Hl|]. cbn [bind].
      destruct (at_level_ex isp cands par l1 Ho G Hl) as (lv1 & c1 & A1). destruct (at_level_ex isp cands par (e_to e) Ho G ltac:(lia)) as (lv2 & c2 & A2). destruct (parts_of _ _ _ _ _ Hx) as (_ & _ & _ & _ & Lm). set (m := mkR (meaning N V a) Lm).
      assert (Hm : enc par l1 c1 (mkR (sk_coeffs sk) Ls) x m B1) by (apply (enc_encrypts2 isp cands Ho par G l1 lv1 c1 A1); split; assumption).
      assert (Hen : sum_exponents N (fun z => e_has e z = true)).
      { split; [exact Hrow|]. intros k Hk0 Hk. rewrite forallb_forall in Hcol. assert (Hlt : (Z.to_nat k < N)%nat). { apply Nat2Z.inj_lt. rewrite Z2Nat.id by lia. pose proof (Z.pow_gt_lin_r 2 k ltac:(lia) Hk0). pose proof (Nat.div_le_upper_bound N 2 N). assert (N / 2 <= N)%nat by (apply Nat.div_le_upper_bound; lia). lia. }
        specialize (Hcol (Z.to_nat k) ltac:(apply in_seq; lia)). rewrite Z2Nat.id in Hcol by lia. apply orb_true_iff in Hcol. destruct Hcol as [Hc|Hc]; [|exact Hc]. apply negb_true_iff, Z.ltb_ge in Hc. lia. }
      destruct (sum_enc isp cands Ho par G l1 lv1 c1 A1 _ lv2 c2 A2 He2 sk Ls _ _ _ HB Hek Hes x m B1 Hm (proj2 (sums_iff isp cands par _ Ho Hp) Hen)) as (ct & Ect & Hct). exists ct. split; [exact Ect|].
      apply (enc_encrypts2 isp cands Ho par G l1 lv1 c1 A1) in Hct. destruct Hct as (Lct & Hct). split; [exact Lct|]. change (meaning N V a) with (rl m). rewrite (images_sum m Ho G). exact Hct.
    - apply with_state_some in E. destruct E as (l1 & k1 & B1 & E1 & E). apply with_item_some in E. destruct E as (e & Ee & E). apply only_if_some in E. destruct E as (E & Eq). injection Eq as -> -> ->. rewrite !andb_true_iff, !Nat.eqb_eq, !Z.ltb_lt, Z.leb_le in E. destruct E as (((((El & ->) & H0) & Hsz) & Hj) & Hh).
      destruct (picked _ _ _ _ Ee Ve) as (-> & (He1 & He2 & HB & Hek & Hes) & _). destruct (IHa _ _ _ E1) as (Hl & x & -> & Lx & Hx). rewrite <- El in *. split; [exact Hl|]. cbn [bind].
      destruct (parts_of _ _ _ _ _ Hx) as (_ & _ & _ & _ & Lm). destruct (expands_all isp cands par Ho Hp sk Hsk l1 _ Hl He2 _ _ _ HB Hek Hes x _ B1 Lm (conj Lx Hx) size) as (H & _).
      destruct (H ltac:(lia)) as (cts & Ect & Lc & Hc); [intros r Hr; rewrite forallb_forall in Hh; apply Hh, in_seq; lia|]. rewrite Ect. cbn [bind]. unfold pick.
      destruct (nth_error cts j) as [ct|] eqn:Ej; [|apply nth_error_None in Ej; lia]. exists ct. split; [reflexivity|]. destruct (Hc j ct Ej) as (L2 & H2). auto.
    - apply with_state_some in E. destruct E as (l1 & k1 & B1 & E1 & E). apply with_state_some in E. destruct E as (l2 & k2 & B2 & E2 & E). apply with_item_some in E. destruct E as (m & Em & E). cbv zeta in E. apply only_if_some in E. destruct E as (E & Eq).
      unfold mul_room_b in E. rewrite !andb_true_iff, !Z.leb_le, !Nat.eqb_eq in E. destruct E as ((((El & El2) & ->) & ->) & (R1 & R2) & R3). rewrite <- El in El2. subst l2.
      destruct (picked _ _ _ _ Em Vm) as (-> & ((Hr1 & Hr2 & HB & Hk) & m0 & Em0 & Esw) & _). destruct (IHa _ _ _ E1) as (Hl & x & -> & Lx & Hx). destruct (IHb _ _ _ E2) as (_ & y & -> & Ly & Hy). rewrite <- El in *. cbn [bind].
      destruct (mult_default_all isp cands par Ho Hp Hsup l1 Hl R3 sk Hsk _ Hr2 _ _ HB Hk) as (_ & H). destruct (H m0 Em0 x y _ _ _ _ Hx Hy Lx Ly R1 R2) as ((ct & Ect & _ & Lct & Hct) & Hsw & Hmax). clear H. destruct (x_switch m).
      + injection Eq as -> -> ->. assert (Hlt : (l1 < max_level par)%nat). { destruct (Nat.eq_dec l1 (max_level par)) as [e|]; [|lia]. rewrite (Hmax e) in Esw. discriminate. }
        destruct (Hsw Hlt) as (m' & ct' & Em' & Ect' & _ & Lct' & Hct'). rewrite Em' in Esw. injection Esw as <-. split; [exact Hlt|]. exists ct'. auto.
      + injection Eq as -> -> ->. injection Esw as <-. split; [exact Hl|]. exists ct. auto.
    - apply with_state_some in E. destruct E as (l1 & k1 & B1 & E1 & E). apply with_item_some in E. destruct E as (g & Eg & E). apply only_if_some in E. destruct E as (E & Eq). injection Eq as -> -> ->. rewrite andb_true_iff, !Nat.eqb_eq in E. destruct E as (El & ->).
      destruct (picked _ _ _ _ Eg Vg) as (-> & (Hg1 & HB & Hg) & ->). destruct (IHa _ _ _ E1) as (Hl & x & -> & Lx & Hx). rewrite <- El in *. split; [exact Hl|]. cbn [bind].
      destruct (external_all isp cands par Ho Hp sk Hsk l1 Hl _ _ _ HB Hg) as (_ & H). destruct (H x _ _ Hx Lx) as (ct & Ect & _ & Lct & Hct). exists ct. auto.
  Qed.
End Circuits.
