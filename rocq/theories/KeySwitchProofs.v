(** Key-switching keys between two levels, on elements of Z[X]/(X^N+1). *)
From Verif Require Import Outcome BasicSpec OutcomeLemmas ZqModel ZqProofs NumTheory NttModel PolySpec PolyRing NttPure NttStages NttProofs CbdModel CbdSpec CbdProofs.
From Verif Require Import TranscodeModel PrimesModel RnsModel RnsSpec RnsProofs RqModel RqSpec RqCtx RqRows RqProofs RingRn RqOps RqIO ParamsModel BfvSpec ParamsProofs BuildProofs PlainModel CipherModel OpsModel SchemeSpec CipherSpec PlainProofs RnPoly CipherProofs EncryptProofs KeysModel KeysSpec KeysProofs.
From Coq Require Import Znumtheory.
Set Default Proof Using "Type".

Lemma map_combine_fst {A B} (l : list A) : forall m : list B, length l = length m -> map fst (combine l m) = l.
Proof. induction l as [|a l IH]; intros [|b m] H; try discriminate; [reflexivity|]. cbn [combine map fst]. f_equal. apply IH. cbn [length] in H. lia. Qed.
Lemma map_combine_snd {A B} (l : list A) : forall m : list B, length l = length m -> map snd (combine l m) = m.
Proof. induction l as [|a l IH]; intros [|b m] H; try discriminate; [reflexivity|]. cbn [combine map snd]. f_equal. apply IH. cbn [length] in H. lia. Qed.

Section Entries.
  Variables (c : ctx) (Hc : ctx_ok c) (N : nat) (HN : c_degree c = N).
  Add Ring Rn_entries : (Rn_ring N).
  Local Open Scope rn_scope.
  Lemma generate_c1_P expand derive sd n : expands_well expand -> exists xs : list (Rn N), length xs = n /\ generate_c1 expand derive c sd n = Val (shoups c (map (pair true) xs)).
  Proof using Hc HN.
    intros Hx. unfold generate_c1. generalize 0%nat as i. induction n as [|n IH]; intros i; [exists []; split; reflexivity|].
    destruct (P_seed c Hc N HN NttShoup expand (derive sd i) Hx) as (a & Ea). destruct (IH (S i)) as (xs & L & E). exists (a :: xs). split; [cbn [length]; lia|].
    cbn [seq mapM]. rewrite Ea. cbn [bind]. rewrite P_allow, E. reflexivity.
  Qed.
  Lemma entries_P F variance (s f : Rn N) vs vf rngs : (forall i, words (rngs i)) -> 1 <= variance <= 32 -> forall (xs : list (Rn N)) i gs, length gs = length xs -> (forall j, (j < length xs)%nat -> F (i + j)%nat = Val (nth j gs 0)) ->
    exists bs, length bs = length xs /\ rkey (modulus_of c) s f (2 * variance) gs (combine bs xs) /\
      mapM (fun ic : nat * poly NttShoup => bind (F (fst ic)) (fun g => ksk_entry variance (P Ntt c vs s) (P PowerBasis c vf f) (rngs (fst ic)) (snd ic) g)) (combine (seq i (length xs)) (shoups c (map (pair true) xs))) = Val (shoups c (map (pair true) bs)).
  Proof using Hc HN.
    intros Hr Hv. induction xs as [|a xs IH]; intros i [|g gs] L HF; try discriminate.
    - exists []. split; [reflexivity|]. split; [constructor|reflexivity].
    - injection L as L. destruct (IH (S i) gs L) as (bs & Lb & K & E). { intros j Hj. specialize (HF (S j) ltac:(cbn [length]; lia)). rewrite Nat.add_succ_r in HF. exact HF. }
      exists ((cbd_rn N variance (rngs i) - a * s + (g *: f)) :: bs). split; [cbn [length]; lia|]. split.
      + cbn [combine]. constructor; [|exact K]. exists (cbd_rn N variance (rngs i)). split; [apply (cbd_bound c N); lia|]. cbn [fst snd].
        replace (cbd_rn N variance (rngs i) - a * s + g *: f + s * a) with (g *: f + cbd_rn N variance (rngs i)) by ring. apply rcong_refl.
      + cbn [length seq map shoups combine mapM fst snd]. specialize (HF 0%nat ltac:(cbn [length]; lia)). rewrite Nat.add_0_r in HF. rewrite HF. cbn [bind nth].
        rewrite (ksk_entry_P c Hc N HN) by (auto). cbn [bind]. fold (shoups c (map (pair true) xs)). rewrite E. reflexivity.
  Qed.
End Entries.

Section Two.
  Context (isp : Z -> bool) (cands : Z -> list Z) (Ho : oracles isp cands) (par : params) (G : good_params isp cands par).
  Context (l1 : nat) (lv1 : level_ctx) (c1 : ctx) (A1 : at_level isp cands par l1 lv1 c1).
  Context (l2 : nat) (lv2 : level_ctx) (c2 : ctx) (A2 : at_level isp cands par l2 lv2 c2).
  Notation N := (pa_degree par).
  Notation qs1 := (level_moduli (pa_moduli par) l1).
  Notation qs2 := (level_moduli (pa_moduli par) l2).
  Notation Q1 := (prod_list qs1).
  Notation Q2 := (prod_list qs2).
  Add Ring Rn_two : (Rn_ring N).
  Set Default Proof Using "All".
  Local Lemma Hc1 : ctx_ok c1. Proof. exact (good_ok _ (al_good _ _ _ _ _ _ A1)). Qed.
  Local Lemma Hc2 : ctx_ok c2. Proof. exact (good_ok _ (al_good _ _ _ _ _ _ A2)). Qed.
  Local Lemma Hd1 : c_degree c1 = N. Proof. exact (al_deg _ _ _ _ _ _ A1). Qed.
  Local Lemma Hd2 : c_degree c2 = N. Proof. exact (al_deg _ _ _ _ _ _ A2). Qed.
  Local Lemma Hm1 : c_moduli c1 = qs1. Proof. exact (al_mod _ _ _ _ _ _ A1). Qed.
  Local Lemma Hm2 : c_moduli c2 = qs2. Proof. exact (al_mod _ _ _ _ _ _ A2). Qed.
  Local Lemma HQ1 : 0 < Q1. Proof. exact (Qpos isp cands Ho par G l1 lv1 c1 A1). Qed.
  Local Lemma HQ2 : 0 < Q2. Proof. exact (Qpos isp cands Ho par G l2 lv2 c2 A2). Qed.
  Local Lemma Hmo2 : modulus_of c2 = Q2. Proof. unfold modulus_of. rewrite Hm2. reflexivity. Qed.
  Local Lemma Lq1 : length qs1 = (length (pa_moduli par) - l1)%nat.
  Proof. unfold level_moduli. rewrite firstn_length. lia. Qed.
  Local Lemma basis1 : rns_basis qs1.
  Proof. rewrite <- Hm1. apply (basis c1 Hc1). Qed.

  Theorem generate_c0_P sk (Hl : length (sk_coeffs sk) = N) vf (f : Rn N) (xs : list (Rn N)) rngs : sk_par sk = par -> Forall is_i64 (sk_coeffs sk) -> (forall i, words (rngs i)) -> length xs = length qs1 ->
    exists bs gs, length bs = length xs /\ crt_weights qs1 gs /\ rkey Q2 (mkR (sk_coeffs sk) Hl) f (2 * pa_variance par) gs (combine bs xs) /\
      generate_c0 sk (P PowerBasis c2 vf f) (shoups c2 (map (pair true) xs)) rngs = Val (shoups c2 (map (pair true) bs)).
  Proof.
    intros Esk Hi Hr Lx. destruct (rns_new_ok qs1 basis1) as (r & Er & Gr & Ur). pose proof (garner_weights r Gr) as W. rewrite Ur in W. pose proof (al_lt _ _ _ _ _ _ A1) as Hlt.
    destruct (entries_P c2 Hc2 N Hd2 (fun i => unwrap (get_garner r i)) (pa_variance par) (mkR (sk_coeffs sk) Hl) f false vf rngs Hr ltac:(exact (var_good isp cands par l2 lv2 c2 Ho G A2)) xs 0 (rns_garner r)) as (bs & Lb & K & E).
    - rewrite (proj1 W). congruence.
    - intros j Hj. unfold get_garner. rewrite (nth_error_nth' (rns_garner r) 0) by (rewrite (proj1 W); lia). reflexivity.
    - exists bs, (rns_garner r). split; [exact Lb|]. split; [exact W|]. rewrite Hmo2 in K. split; [exact K|]. unfold generate_c0.
      destruct xs as [|x xs]; [rewrite Lq1 in Lx; cbn [length] in Lx; lia|]. cbn [map shoups]. rewrite P_ctx. rewrite (sk_poly_eq isp cands Ho par G l2 lv2 c2 A2 sk Hl Hi). cbn [bind].
      fold (shoups c2 (map (pair true) xs)). change (P NttShoup c2 (fst (true, x)) (snd (true, x)) :: shoups c2 (map (pair true) xs)) with (shoups c2 (map (pair true) (x :: xs))).
      assert (Ls : length (shoups c2 (map (pair true) (x :: xs))) = length qs1) by (unfold shoups; rewrite !map_length; exact Lx).
      unfold slice_to. rewrite Esk, Ls, Lq1. replace (Nat.leb (length (pa_moduli par) - l1) (length (pa_moduli par))) with true by (symmetry; apply Nat.leb_le; lia). cbn [guard bind].
      fold (level_moduli (pa_moduli par) l1). rewrite Er. cbn [bind]. unfold enumerate. rewrite Ls, <- Lx. exact E.
  Qed.
  Theorem ksk_new_P expand derive sk (Hl : length (sk_coeffs sk) = N) vf (f : Rn N) sd rngs : expands_well expand -> sk_par sk = par -> Forall is_i64 (sk_coeffs sk) -> (forall i, words (rngs i)) -> (length qs2 <> 1)%nat ->
    exists bs xs gs, length bs = length qs1 /\ length xs = length qs1 /\ crt_weights qs1 gs /\ rkey Q2 (mkR (sk_coeffs sk) Hl) f (2 * pa_variance par) gs (combine bs xs) /\
      ksk_new expand derive sk (P PowerBasis c2 vf f) l1 l2 sd rngs = Val (mkKsk par (Some sd) (shoups c2 (map (pair true) bs)) (shoups c2 (map (pair true) xs)) l1 c1 l2 c2 0) /\
      generate_c1 expand derive c2 sd (length qs1) = Val (shoups c2 (map (pair true) xs)).
  Proof.
    intros Hx Esk Hi Hr Hn. destruct (generate_c1_P c2 Hc2 N Hd2 expand derive sd (length qs1) Hx) as (xs & Lx & Ex).
    destruct (generate_c0_P sk Hl vf f xs rngs Esk Hi Hr Lx) as (bs & gs & Lb & W & K & E). exists bs, xs, gs. split; [congruence|]. split; [exact Lx|]. split; [exact W|]. split; [exact K|]. split; [|exact Ex].
    unfold ksk_new. rewrite Esk, (al_par_context isp cands par l2 lv2 c2 A2), (al_par_context isp cands par l1 lv1 c1 A1). cbn [bind]. rewrite P_ctx, ctx_eqb_refl. cbn [negb].
    rewrite Hm1. assert (Em : forall T (a : Z -> T) b, match c_moduli c2 with [q] => a q | _ => b end = b). { intros T a b. rewrite Hm2. destruct (level_moduli (pa_moduli par) l2) as [|q [|q' qs]]; [reflexivity|exfalso; apply Hn; reflexivity|reflexivity]. }
    rewrite Em, Ex. cbn [bind]. rewrite E. reflexivity.
  Qed.

  (** *** Switching with a key over several moduli *)
  Definition residues (x : Rn N) : list (Rn N) := map (fun q => rred q x) qs1.
  Lemma coeffs_residues v (x : Rn N) : p_coeffs (P PowerBasis c1 v x) = map (fun y : Rn N => rl y) (residues x).
  Proof.
    unfold residues. rewrite <- Hm1. rewrite (moduli_ops c1 Hc1), !map_map. reflexivity.
  Qed.
  Lemma residues_u64 (x : Rn N) : Forall (fun y : Rn N => Forall is_u64 (rl y)) (residues x).
  Proof.
    pose proof (level_range isp cands Ho par G l1 lv1 c1 A1) as R. unfold residues. apply Forall_forall. intros y Hy. apply in_map_iff in Hy. destruct Hy as (q & <- & Hq). rewrite Forall_forall in R. specialize (R q Hq).
    eapply Forall_impl; [|apply (rred_canonical q x); lia]. cbv beta. intros a Ha. unfold is_u64. lia.
  Qed.
  Lemma residues_norm (x : Rn N) : rnorms (residues x) <= sum_of (map (fun q => q - 1) qs1).
  Proof.
    pose proof (level_range isp cands Ho par G l1 lv1 c1 A1) as R. unfold residues. induction qs1 as [|q qs IH]; cbn [map rnorms fold_right sum_of]; [lia|]. fold (rnorms (map (fun q => rred q x) qs)).
    pose proof (Forall_inv R) as Hq. cbv beta in Hq. specialize (IH (Forall_inv_tail R)). pose proof (canonical_norm q (rred q x) ltac:(lia) (rred_canonical q x ltac:(lia))). lia.
  Qed.
  Lemma set_vt_P (b v : bool) R (c : ctx) (x : Rn N) : set_vt b (P R c v x) = P R c b x.
  Proof. destruct b; reflexivity. Qed.
  Theorem key_switch_P sd (b0 b1 : list (bool * Rn N)) v (x : Rn N) : length b0 = length qs1 -> length b1 = length qs1 ->
    exists w0 w1, key_switch (mkKsk par sd (shoups c2 b0) (shoups c2 b1) l1 c1 l2 c2 0) (P PowerBasis c1 v x) =
      Val (P Ntt c2 w0 (rdot (residues x) (map snd b0)), P Ntt c2 w1 (rdot (residues x) (map snd b1))).
  Proof.
    intros L0 L1. unfold key_switch. cbn [k_log_base k_ct_ctx k_ctx k_c0 k_c1]. cbn [Z.eqb negb]. rewrite P_ctx, ctx_eqb_refl. cbn [negb]. rewrite coeffs_residues, (P_zero c2 Hc2 N Hd2), set_vt_P.
    assert (L : length (residues x) = length qs1) by apply map_length.
    destruct (ks_loop_P c2 Hc2 N Hd2 (residues x) b0 b1 (ksk_permits (mkKsk par sd (shoups c2 b0) (shoups c2 b1) l1 c1 l2 c2 0) (P PowerBasis c1 v x)) (ksk_permits (mkKsk par sd (shoups c2 b0) (shoups c2 b1) l1 c1 l2 c2 0) (P PowerBasis c1 v x)) (r0 N) (r0 N) ltac:(congruence) ltac:(congruence) (residues_u64 x)) as (w0 & w1 & E).
    exists w0, w1. rewrite E. do 2 f_equal; f_equal; ring.
  Qed.
  Lemma zeroize_P R v (x : Rn N) : R <> NttShoup -> poly_zeroize (P R c2 v x) = P R c2 v (r0 N).
  Proof.
    intros HR. pose proof Hd2 as Hd. unfold poly_zeroize. cbn [P poly_of p_ctx p_lazy p_vt p_coeffs p_shoup].
    unfold P, poly_of. assert (Es : match R with NttShoup => Some (map (fun op => shoup_row op (row R op (rl x))) (c_ops c2)) | _ => None end = None) by (destruct R; congruence).
    rewrite Es. assert (Es' : match R with NttShoup => Some (map (fun op => shoup_row op (row R op (rl (r0 N)))) (c_ops c2)) | _ => None end = None) by (destruct R; congruence). rewrite Es'. f_equal.
    rewrite map_map. apply map_ext_in. intros op Hop. destruct (op_ok c2 Hc2 op Hop) as (K & w & Hok & Hs). pose proof (row_length op K w Hok R (rl x)) as Lr. rewrite Hs in Lr. specialize (Lr ltac:(rewrite rl_length; symmetry; exact Hd2)).
    assert (E1 : row R op (rl (r0 N)) = repeat 0 (c_degree c2)).
    { change (rl (r0 N)) with (lzero N). replace (lzero N) with (lscale 0 (lzero N)) by apply lscale_zero. rewrite (row_lscale op K w Hok) by (rewrite lzero_length; congruence).
      assert (Hl : length (row R op (lzero N)) = c_degree c2) by (rewrite (row_length op K w Hok); rewrite ?lzero_length; congruence). revert Hl.
      generalize (row R op (lzero N)). intros l <-. induction l as [|a l IH]; [reflexivity|]. cbn [map length repeat]. f_equal. exact IH. }
    rewrite E1, <- Lr. clear. induction (row R op (rl x)) as [|a l IH]; [reflexivity|]. cbn [map length repeat]. f_equal. exact IH.
  Qed.
  (** The accumulators given to [key_switch_assign] do not matter. *)
  Definition any_acc (p : poly Ntt) : Prop := ctx_eqb (p_ctx p) c2 = false \/ exists v (y : Rn N), p = P Ntt c2 v y.
  Lemma reset_P p : any_acc p -> exists v, ks_reset c2 p = P Ntt c2 v (r0 N).
  Proof.
    intros [H|(v & y & ->)]; unfold ks_reset.
    - rewrite H. cbn [negb]. rewrite (P_zero c2 Hc2 N Hd2). eauto.
    - rewrite P_ctx, ctx_eqb_refl. cbn [negb]. rewrite zeroize_P by discriminate. eauto.
  Qed.
  Theorem key_switch_assign_P sd (b0 b1 : list (bool * Rn N)) v (x : Rn N) p0 p1 : length b0 = length qs1 -> length b1 = length qs1 -> any_acc p0 -> any_acc p1 ->
    exists w0 w1, key_switch_assign (mkKsk par sd (shoups c2 b0) (shoups c2 b1) l1 c1 l2 c2 0) (P PowerBasis c1 v x) p0 p1 =
      Val (P Ntt c2 w0 (rdot (residues x) (map snd b0)), P Ntt c2 w1 (rdot (residues x) (map snd b1))).
  Proof.
    intros L0 L1 H0 H1. unfold key_switch_assign. cbn [k_log_base k_ct_ctx k_ctx k_c0 k_c1]. cbn [Z.eqb negb]. rewrite P_ctx, ctx_eqb_refl. cbn [negb]. rewrite coeffs_residues.
    destruct (reset_P p0 H0) as (v0 & ->). destruct (reset_P p1 H1) as (v1 & ->). rewrite !set_vt_P. assert (L : length (residues x) = length qs1) by apply map_length.
    destruct (ks_loop_P c2 Hc2 N Hd2 (residues x) b0 b1 (ksk_permits (mkKsk par sd (shoups c2 b0) (shoups c2 b1) l1 c1 l2 c2 0) (P PowerBasis c1 v x)) (ksk_permits (mkKsk par sd (shoups c2 b0) (shoups c2 b1) l1 c1 l2 c2 0) (P PowerBasis c1 v x)) (r0 N) (r0 N) ltac:(congruence) ltac:(congruence) (residues_u64 x)) as (w0 & w1 & E).
    exists w0, w1. rewrite E. do 2 f_equal; f_equal; ring.
  Qed.
  (** The phase of the result. *)
  Theorem switch_phase s (f : Rn N) B gs (b0 b1 : list (Rn N)) (x : Rn N) : 0 <= B -> crt_weights qs1 gs -> length b0 = length qs1 -> length b1 = length qs1 -> rkey Q2 s f B gs (combine b0 b1) ->
    exists w e, rcong Q1 w x /\ rnorm e <= Z.of_nat N * B * sum_of (map (fun q => q - 1) qs1) /\
      rcong Q2 (rdot (residues x) b0 + s * rdot (residues x) b1)%R (w * f + e)%R.
  Proof.
    intros HB W L0 L1 K. assert (Lc : length (residues x) = length (combine b0 b1)) by (rewrite combine_length; unfold residues; rewrite map_length; lia).
    destruct (rkey_dot Q2 s f B gs (combine b0 b1) HQ2 HB K (residues x) Lc) as (E & HE & HC). rewrite map_combine_fst, map_combine_snd in HC by congruence.
    exists (rdot (residues x) (map (rZ N) gs)), E. split; [apply (crt_recombine qs1 gs x basis1 W)|]. split; [|exact HC].
    eapply Z.le_trans; [exact HE|]. apply Z.mul_le_mono_nonneg_l; [apply Z.mul_nonneg_nonneg; lia|apply residues_norm].
  Qed.

  (** *** Scaling up and down between the two levels, [l2 <= l1] *)
  Hypothesis Hle : (l2 <= l1)%nat.
  Definition extra : list Z := skipn (length qs1) qs2.
  Notation Pz := (prod_list extra).
  Lemma prefix_eq : qs2 = qs1 ++ extra.
  Proof.
    unfold extra. assert (E : qs1 = firstn (length qs1) qs2).
    { rewrite Lq1. unfold level_moduli. rewrite firstn_firstn. f_equal. lia. }
    rewrite E at 1. symmetry. apply firstn_skipn.
  Qed.
  Lemma Q_split : Q2 = Q1 * Pz.
  Proof. rewrite prefix_eq at 1. apply prod_list_app. Qed.
  Lemma Pz_pos : 0 < Pz.
  Proof. pose proof HQ1 as H1. pose proof HQ2 as H2. rewrite Q_split in H2. nia. Qed.
  Lemma switch_up : exists sw, switcher_new c1 c2 = Val sw /\ forall v (x : Rn N), poly_scale sw (P PowerBasis c1 v x) = Val (P PowerBasis c2 v (Pz *: x)%R).
  Proof.
    pose proof Hd1 as D1. pose proof Hd2 as D2. pose proof HQ1 as H1. pose proof HQ2 as H2. pose proof Pz_pos as HP. pose proof Q_split as EQ.
    assert (B1 : built isp cands c1) by (eexists _, _; exact (al_new _ _ _ _ _ _ A1)). assert (B2 : built isp cands c2) by (eexists _, _; exact (al_new _ _ _ _ _ _ A2)).
    pose proof (built_same_ops isp cands c1 c2 B1 B2 ltac:(congruence)) as Hops.
    assert (Ll : Z.of_nat (length qs1) < 2 ^ 60).
    { pose proof (friendly_length N (pa_moduli par) ltac:(pose proof (al_N8 isp cands par l1 lv1 c1 A1); lia) (gp_nodup _ _ _ G) (gp_friendly _ _ _ G)). rewrite Lq1. lia. }
    assert (Ef : factor_new Q2 Q1 = Val (mkFactor Q2 Q1 (Q2 =? Q1))) by (unfold factor_new; replace (Q1 =? 0) with false by (symmetry; apply Z.eqb_neq; lia); reflexivity).
    destruct (poly_scale_eq c1 c2 Hc1 Hc2 ltac:(congruence) Hops Q2 Q1 (mkFactor Q2 Q1 (Q2 =? Q1))) as (sw & Es & Hs).
    - rewrite Hm1. exact Ll.
    - lia.
    - lia.
    - exact Ef.
    - right. rewrite Hm1. unfold load. cbv zeta. assert (Ez : forall k, (Q2 * k) mod Q1 = 0) by (intros k; rewrite EQ, <- Z.mul_assoc, Z.mul_comm; apply Z_mod_mult). rewrite Ez, Z.eqb_refl, Z.add_0_r.
      assert (El : map (fun q => if (Q2 * (Q1 / q)) mod Q1 =? 0 then 0 else q) qs1 = map (fun _ => 0) qs1) by (apply map_ext; intros q; rewrite Ez; reflexivity). rewrite El. clear. induction qs1 as [|q qs IH]; cbn [map sum_of]; lia.
    - exists sw. split.
      { unfold switcher_new. rewrite (gr_product _ (co_rns _ Hc1)), (gr_product _ (co_rns _ Hc2)), (co_u64 _ Hc1), (co_u64 _ Hc2), Hm1, Hm2, Ef. exact Es. }
      intros v x. destruct (Hs PowerBasis v (rl x) ltac:(discriminate) ltac:(rewrite rl_length; congruence)) as (y & Ly & Hy & E). assert (Ly' : length y = N) by congruence.
      unfold P at 1. rewrite E. f_equal. change y with (rl (mkR y Ly')). change (poly_of PowerBasis c2 v (rl (mkR y Ly'))) with (P PowerBasis c2 v (mkR y Ly')). apply (P_cong c2 Hc2 N Hd2). rewrite Hmo2.
      apply rcong_nth. intros k Hk. rewrite rl_mkR, nth_rscale. rewrite Hm1 in Hy.
      assert (Hsv : scaled_value qs1 Q2 Q1 (nth k (rl x) 0) (nth k y 0)) by (apply (Forall2_nth_Z _ _ _ k Hy); rewrite rl_length; exact Hk).
      destruct Hsv as (x' & Ex & _ & _ & Hb). pose proof (level_range isp cands Ho par G l1 lv1 c1 A1) as R.
      pose proof (sum_residues qs1 (nth k (rl x) 0) ltac:(eapply Forall_impl; [|exact R]; cbv beta; intros; lia)) as Hsum.
      assert (Hsb : sum_of qs1 < 2 ^ 122). { assert (forall l, Forall (fun q => 2 <= q < W62) l -> sum_of l <= Z.of_nat (length l) * W62) as Hb'. { induction 1; cbn [sum_of length]; [lia|]. rewrite Nat2Z.inj_succ. lia. } specialize (Hb' _ R). assert (W62 = 2 ^ 62) by reflexivity. nia. }
      assert (Ey : nth k y 0 = Pz * x').
      { set (u := nth k y 0) in *. set (S := sum_of (residues_of qs1 (nth k (rl x) 0))) in *. replace (Q1 * u - Q2 * x') with (Q1 * (u - Pz * x')) in Hb by (rewrite EQ; ring).
        rewrite Z.abs_mul, (Z.abs_eq Q1) in Hb by lia. replace (2 ^ 127 * (Q1 * Z.abs (u - Pz * x'))) with (Q1 * (2 ^ 127 * Z.abs (u - Pz * x'))) in Hb by ring. apply Z.mul_le_mono_pos_l in Hb; [|lia]. lia. }
      rewrite Ey, EQ. rewrite (Z.mul_comm Q1 Pz). unfold cong. rewrite !Z.mul_mod_distr_l by lia. rewrite Ex. reflexivity.
  Qed.

  Lemma down_ctx : level_of c2 (l1 - l2) = c1.
  Proof.
    assert (B2 : built isp cands c2) by (eexists _, _; exact (al_new _ _ _ _ _ _ A2)). pose proof (al_lt _ _ _ _ _ _ A1) as Hlt.
    destruct (built_level isp (proj1 Ho) cands (proj2 Ho) (l1 - l2) c2 B2) as (_ & E).
    { rewrite (al_moduli_length isp cands par l2 lv2 c2 A2). lia. }
    rewrite (al_moduli_length isp cands par l2 lv2 c2 A2), Hm2, Hd2 in E. unfold level_moduli in E. rewrite firstn_firstn in E. replace (Nat.min (length (pa_moduli par) - l2 - (l1 - l2)) (length (pa_moduli par) - l2)) with (length (pa_moduli par) - l1)%nat in E by lia.
    fold (level_moduli (pa_moduli par) l1) in E. rewrite (al_new _ _ _ _ _ _ A1) in E. injection E as E. symmetry. exact E.
  Qed.
  (** Bringing a pair back to the level of the ciphertext. *)
  Definition back (x : Rn N) : Rn N := if Nat.eqb l1 l2 then x else rchain (rev extra) x.
  Lemma ks_down_P w0 w1 (u0 u1 : Rn N) : exists w0' w1', ks_down c1 c1 (P Ntt c2 w0 u0, P Ntt c2 w1 u1) = Val (P Ntt c1 w0' (back u0), P Ntt c1 w1' (back u1)).
  Proof.
    exists w0, w1. unfold ks_down, back. cbn [fst snd]. rewrite P_ctx. destruct (Nat.eqb_spec l1 l2) as [E|E].
    - assert (E1 : c2 = c1) by (pose proof A2 as A2'; rewrite <- E in A2'; apply (at_level_unique _ _ _ _ _ _ _ _ A2' A1)). rewrite E1, ctx_eqb_refl. reflexivity.
    - pose proof (al_lt _ _ _ _ _ _ A1) as Hlt. assert (Ln : length (c_moduli c2) <> length (c_moduli c1)) by (rewrite (al_moduli_length isp cands par l2 lv2 c2 A2), (al_moduli_length isp cands par l1 lv1 c1 A1); lia).
      replace (ctx_eqb c2 c1) with false by (symmetry; apply not_true_is_false; intros H; apply ctx_eqb_true in H; apply Ln; f_equal; apply H).
      assert (Em : c_moduli c1 = firstn (length (c_moduli c2) - (l1 - l2)) (c_moduli c2)).
      { rewrite (al_moduli_length isp cands par l2 lv2 c2 A2), Hm1, Hm2. unfold level_moduli. rewrite firstn_firstn. f_equal. lia. }
      assert (Esk : skipn (length (c_moduli c2) - (l1 - l2)) (c_moduli c2) = extra).
      { unfold extra. rewrite (al_moduli_length isp cands par l2 lv2 c2 A2), Lq1, Hm2. f_equal. lia. }
      assert (Hsw : forall w (u : Rn N), switch_down_to (P PowerBasis c2 w u) c1 = Val (P PowerBasis c1 w (rchain (rev extra) u))).
      { intros w u. rewrite (P_switch_to c2 c1 (l1 - l2) w u (al_good _ _ _ _ _ _ A2) Hd2); [|rewrite (al_moduli_length isp cands par l2 lv2 c2 A2); lia|exact Hd1|exact Em]. rewrite Esk, down_ctx. reflexivity. }
      rewrite !(P_ntt_pb c2 Hc2 N Hd2). cbn [bind]. rewrite !Hsw. cbn [bind]. rewrite !(P_pb_ntt c1 Hc1 N Hd1). reflexivity.
  Qed.
End Two.
