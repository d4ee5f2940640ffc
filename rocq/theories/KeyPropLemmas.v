(** Closing lemmas for the properties about key switching and relinearization. *)
From Verif Require Import Outcome BasicSpec OutcomeLemmas ZqModel ZqProofs NumTheory NttModel PolySpec PolyRing NttPure NttStages NttProofs CbdModel CbdSpec CbdProofs.
From Verif Require Import TranscodeModel PrimesModel RnsModel RnsSpec RnsProofs RqModel RqSpec RqCtx RqRows RqProofs RingRn RqOps RqIO RqPropLemmas ParamsModel BfvSpec ParamsProofs BuildProofs ParamsPropLemmas PlainModel CipherModel OpsModel SchemeSpec CipherSpec PlainProofs RnPoly CipherProofs EncryptProofs CipherPropLemmas LinearPropLemmas SerialPropLemmas KeysModel KeysSpec KeysProofs KeySwitchProofs KeyNoiseProofs KeyOpsProofs.
From Coq Require Import Znumtheory.
Set Default Proof Using "Type".

Section Poly.
  Variables (isp : Z -> bool) (cands : Z -> list Z) (Ho : oracles isp cands) (par : params) (G : good_params isp cands par).
  Variables (l : nat) (lv : level_ctx) (c : ctx) (A : at_level isp cands par l lv c).
  Notation N := (pa_degree par).
  Set Default Proof Using "All".
  Lemma is_poly_P {R} (p : poly R) x : is_poly par l p x -> exists y : Rn N, p = P R c (p_vt p) y /\ rl y = x.
  Proof.
    intros (Ec & Lx & Ep). rewrite (al_par_context isp cands par l lv c A) in Ec. injection Ec as Ec. rewrite <- Ec, (al_deg _ _ _ _ _ _ A) in Lx. exists (mkR x Lx). split; [|reflexivity]. rewrite Ep at 1. unfold P. rewrite rl_mkR, Ec. reflexivity.
  Qed.
  Lemma P_is_poly R v (x : Rn N) : is_poly par l (P R c v x) (rl x).
  Proof. split; [rewrite P_ctx; apply (al_par_context isp cands par l lv c A)|]. split; [rewrite P_ctx, rl_length; symmetry; apply (al_deg _ _ _ _ _ _ A)|reflexivity]. Qed.
  Lemma polys_shoups ps xs : Forall2 (is_poly par l) ps xs -> exists bs : list (bool * Rn N), ps = shoups c bs /\ map rl (map snd bs) = xs.
  Proof.
    induction 1 as [|p x ps xs Hp H (bs & -> & <-)]; [exists []; split; reflexivity|]. destruct (is_poly_P p x Hp) as (y & -> & <-). exists ((p_vt (P NttShoup c (p_vt p) y), y) :: bs). split; reflexivity.
  Qed.
  Lemma shoups_polys (bs : list (bool * Rn N)) : Forall2 (is_poly par l) (shoups c bs) (map rl (map snd bs)).
  Proof. induction bs as [|(v & x) bs IH]; cbn [shoups map fst snd]; constructor; [apply P_is_poly|exact IH]. Qed.
End Poly.

Set Default Proof Using "Type".
Lemma rl_map_Z {n} g (f : Rn n) : map (Z.mul g) (rl f) = rl (g *: f)%R.
Proof. reflexivity. Qed.
Section Two.
  Context (isp : Z -> bool) (cands : Z -> list Z) (Ho : oracles isp cands) (par : params) (G : good_params isp cands par).
  Context (l1 : nat) (lv1 : level_ctx) (c1 : ctx) (A1 : at_level isp cands par l1 lv1 c1).
  Context (l2 : nat) (lv2 : level_ctx) (c2 : ctx) (A2 : at_level isp cands par l2 lv2 c2).
  Context (sk : secret_key) (Hl : length (sk_coeffs sk) = pa_degree par).
  Notation N := (pa_degree par).
  Notation Q2 := (prod_list (level_moduli (pa_moduli par) l2)).
  Notation s := (mkR (sk_coeffs sk) Hl).
  Add Ring Rn_kpl : (Rn_ring N).
  Set Default Proof Using "All".
  Lemma is_ksk_R k (f : Rn N) B : is_ksk par sk l1 l2 k (rl f) B -> kskR par l1 c1 l2 c2 (k_log_base k) k s f B.
  Proof.
    intros (E1 & E2 & E3 & E4 & E5 & H1 & _ & gs & bs & xs & Hg & Hb & Hx & Lb & Lx & HK). destruct k as [kp ksd k0 k1 kl1 kc1 kl2 kc2 kb]. cbn [k_par k_seed k_c0 k_c1 k_ct_level k_ct_ctx k_level k_ctx k_log_base] in *. subst kp kl1 kl2.
    rewrite (al_par_context isp cands par l1 lv1 c1 A1) in E4. rewrite (al_par_context isp cands par l2 lv2 c2 A2) in E5. injection E4 as <-. injection E5 as <-.
    destruct (polys_shoups isp cands Ho par G l2 lv2 c2 A2 _ _ Hb) as (b0 & -> & <-). destruct (polys_shoups isp cands Ho par G l2 lv2 c2 A2 _ _ Hx) as (b1 & -> & <-). rewrite !map_length in Lb, Lx.
    exists ksd, b0, b1, gs. split; [reflexivity|]. split; [exact H1|]. split; [exact Hg|]. split; [exact Lb|]. split; [exact Lx|]. clear - HK Lb Lx G A2 Ho. revert b0 b1 Lb Lx HK. unfold rkey. induction gs as [|g gs IH]; intros [|(v0 & y0) b0] [|(v1 & y1) b1] Lb Lx HK; try discriminate; [constructor|].
    cbn [map combine fst snd] in *. inversion HK as [|? ? ? ? H2 H3]; subst. constructor; [|apply IH; [injection Lb as Lb; exact Lb|injection Lx as Lx; exact Lx|exact H3]].
    destruct H2 as (e & Le & He & Hc). exists (mkR e Le). cbn [fst snd] in *. split.
    - apply rnorm_bounded; [|exact He]. apply (bounded_nonneg (mkR e Le) B); [|exact He]. apply (N_pos isp cands Ho par G l2 lv2 c2 A2).
    - unfold rcong. change (sk_coeffs sk) with (rl s) in Hc. change e with (rl (mkR e Le)) in Hc. change [rl y0; rl y1] with (map rl [y0; y1]) in Hc. rewrite phase_rphase, rl_map_Z, <- rl_add, rphase_2 in Hc. exact Hc.
  Qed.
  Lemma R_is_ksk lb k (f : Rn N) B : 0 <= B -> kskR par l1 c1 l2 c2 lb k s f B -> is_ksk par sk l1 l2 k (rl f) B /\ k_log_base k = lb.
  Proof.
    intros HB (sd & b0 & b1 & gs & -> & H1 & Hg & Lb & Lx & HK). split; [|reflexivity]. unfold is_ksk. cbn [k_par k_seed k_c0 k_c1 k_ct_level k_ct_ctx k_level k_ctx k_log_base].
    split; [reflexivity|]. split; [reflexivity|]. split; [reflexivity|]. split; [apply (al_par_context isp cands par l1 lv1 c1 A1)|]. split; [apply (al_par_context isp cands par l2 lv2 c2 A2)|]. split; [exact H1|]. split; [apply rl_length|].
    exists gs, (map rl (map snd b0)), (map rl (map snd b1)). split; [exact Hg|]. split; [apply (shoups_polys isp cands Ho par G l2 lv2 c2 A2)|]. split; [apply (shoups_polys isp cands Ho par G l2 lv2 c2 A2)|]. rewrite !map_length. split; [exact Lb|]. split; [exact Lx|].
    clear - HK Lb Lx HB. revert b0 b1 Lb Lx HK. unfold rkey. induction gs as [|g gs IH]; intros [|(v0 & y0) b0] [|(v1 & y1) b1] Lb Lx HK; try discriminate; [constructor|].
    cbn [map combine fst snd] in *. inversion HK as [|? ? ? ? H2 H3]; subst. constructor; [|apply IH; [injection Lb as Lb; exact Lb|injection Lx as Lx; exact Lx|exact H3]].
    destruct H2 as (e & He & Hc). exists (rl e). cbn [fst snd] in *. split; [apply rl_length|]. split; [apply rnorm_bounded; [exact HB|exact He]|].
    change (sk_coeffs sk) with (rl s). change [rl y0; rl y1] with (map rl [y0; y1]). rewrite phase_rphase, rl_map_Z, <- rl_add, rphase_2. exact Hc.
  Qed.
End Two.

Set Default Proof Using "Type".
Lemma level_ratio_split par l1 l2 : (l2 <= l1)%nat -> level_modulus par l2 = level_modulus par l1 * level_ratio par l1 l2.
Proof.
  intros H. unfold level_modulus, level_ratio. rewrite <- prod_list_app. f_equal.
  assert (E : level_moduli (pa_moduli par) l1 = firstn (length (level_moduli (pa_moduli par) l1)) (level_moduli (pa_moduli par) l2)).
  { unfold level_moduli. rewrite firstn_length, firstn_firstn. f_equal. lia. }
  rewrite E at 1. symmetry. apply firstn_skipn.
Qed.

Section Props.
  Context (isp : Z -> bool) (cands : Z -> list Z) (par : params).
  Notation N := (pa_degree par).
  Notation t := (pa_t par).
  Add Ring Rn_kpp : (Rn_ring N).
  Lemma single_iff l : good_params isp cands par -> (l <= max_level par)%nat -> length (level_moduli (pa_moduli par) l) = 1%nat <-> l = max_level par.
  Proof. intros G Hl. pose proof (gp_ne _ _ _ G) as Hne. unfold max_level in *. destruct (gp_levels _ _ _ G) as (_ & _ & Hll & _). rewrite Hll in *. unfold level_moduli. rewrite firstn_length. assert (length (pa_moduli par) <> 0%nat) by (destruct (pa_moduli par); [congruence|discriminate]). lia. Qed.

  Theorem ksk_new_all : oracles isp cands -> is_params isp cands par -> forall expand derive, expands_well expand -> forall sk, is_sk par sk -> forall l1 l2, (l1 <= max_level par)%nat -> (l2 <= max_level par)%nat -> (l1 = l2 \/ l2 < max_level par)%nat ->
    forall (from : poly PowerBasis) f sd rngs, is_poly par l2 from f -> (forall i, words (rngs i)) ->
    exists k, ksk_new expand derive sk from l1 l2 sd rngs = Val k /\ is_ksk par sk l1 l2 k f (2 * pa_variance par) /\ k_log_base k = key_base par l2.
  Proof.
    intros Ho Hp expand derive Hx sk (Esk & Ls & Hi) l1 l2 Hl1 Hl2 Hlev from f sd rngs Hf Hr. pose proof (params_good isp cands par Ho Hp) as G. destruct (at_level_ex isp cands par l1 Ho G Hl1) as (lv1 & c1 & A1). destruct (at_level_ex isp cands par l2 Ho G Hl2) as (lv2 & c2 & A2).
    destruct (is_poly_P isp cands Ho par G l2 lv2 c2 A2 from f Hf) as (fr & Ef & <-). rewrite Ef. pose proof (gp_var _ _ _ G) as Hv.
    destruct (ksk_new_R isp cands Ho par G l1 lv1 c1 A1 l2 lv2 c2 A2 expand derive sk Ls (p_vt from) fr sd rngs Hx Esk Hi Hr) as (k & Ek & HK).
    { intros H1. apply (single_iff l2 G Hl2) in H1. lia. }
    exists k. split; [exact Ek|]. apply (R_is_ksk isp cands Ho par G l1 lv1 c1 A1 l2 lv2 c2 A2 sk Ls); [lia|exact HK].
  Qed.
  Theorem key_switch_all : oracles isp cands -> is_params isp cands par -> forall sk, is_sk par sk -> forall l1 l2, (l1 <= max_level par)%nat -> (l2 <= max_level par)%nat ->
    forall k f B, 0 <= B -> is_ksk par sk l1 l2 k f B -> forall (p : poly PowerBasis) x, is_poly par l1 p x ->
    exists c0 c1 y0 y1 w e, key_switch k p = Val (c0, c1) /\ is_poly par l2 c0 y0 /\ is_poly par l2 c1 y1 /\ congruent (level_modulus par l1) w x /\ length e = N /\ bounded_by (switch_noise par l1 (k_log_base k) B) e /\
      congruent (level_modulus par l2) (phase N (sk_coeffs sk) [y0; y1]) (zipWith Z.add (negacyclic N w f) e) /\
      (Forall (fun a => (level_modulus par l1 * a) mod level_modulus par l2 = 0) f -> congruent (level_modulus par l2) (phase N (sk_coeffs sk) [y0; y1]) (zipWith Z.add (negacyclic N x f) e)).
  Proof.
    intros Ho Hp sk (Esk & Ls & Hi) l1 l2 Hl1 Hl2 k f B HB HK p x Hx. pose proof (params_good isp cands par Ho Hp) as G. destruct (at_level_ex isp cands par l1 Ho G Hl1) as (lv1 & c1 & A1). destruct (at_level_ex isp cands par l2 Ho G Hl2) as (lv2 & c2 & A2). unfold level_modulus.
    pose proof HK as (_ & _ & _ & _ & _ & _ & Lf & _). destruct (is_poly_P isp cands Ho par G l1 lv1 c1 A1 p x Hx) as (xr & Ep & <-). assert (exists fr : Rn N, rl fr = f) as (fr & <-) by (exists (mkR f Lf); reflexivity).
    pose proof (is_ksk_R isp cands Ho par G l1 lv1 c1 A1 l2 lv2 c2 A2 sk Ls k fr B HK) as HR.
    destruct (kskR_switch isp cands Ho par G l1 lv1 c1 A1 l2 lv2 c2 A2 _ k _ fr B HB HR (p_vt p) xr) as (u0 & u1 & w & e & (w0 & w1 & Es) & _ & Hw & He & Hc). rewrite <- Ep in Es.
    pose proof (Qpos isp cands Ho par G l1 lv1 c1 A1) as HQ1. pose proof (Qpos isp cands Ho par G l2 lv2 c2 A2) as HQ2.
    exists (P Ntt c2 w0 u0), (P Ntt c2 w1 u1), (rl u0), (rl u1), (rl w), (rl e). split; [exact Es|]. split; [apply (P_is_poly isp cands Ho par G l2 lv2 c2 A2)|]. split; [apply (P_is_poly isp cands Ho par G l2 lv2 c2 A2)|]. split; [exact Hw|]. split; [apply rl_length|].
    pose proof (rnorm_nonneg N e). split; [apply rnorm_bounded; [lia|exact He]|].
    change (sk_coeffs sk) with (rl (mkR (sk_coeffs sk) Ls)). change [rl u0; rl u1] with (map rl [u0; u1]). rewrite phase_rphase, rphase_2. rewrite <- !rl_mul, <- !rl_add. split; [exact Hc|].
    intros Hf. eapply rcong_trans; [exact Hc|]. apply rcong_add; [|apply rcong_refl]. apply rcong_exists in Hw; [|exact HQ1]. destruct Hw as (j & ->).
    assert (Hf0 : rcong (prod_list (level_moduli (pa_moduli par) l2)) (prod_list (level_moduli (pa_moduli par) l1) *: fr)%R (r0 N)).
    { apply rcong_nth. intros i Hi'. rewrite nth_rscale, nth_r0. unfold cong. rewrite Z.mod_0_l by lia. rewrite Forall_forall in Hf. apply Hf, nth_In. rewrite rl_length. exact Hi'. }
    replace ((xr + prod_list (level_moduli (pa_moduli par) l1) *: j) * fr)%R with (xr * fr + j * (prod_list (level_moduli (pa_moduli par) l1) *: fr))%R by (rewrite !rscale_mul; ring).
    replace (xr * fr)%R with (xr * fr + j * r0 N)%R at 2 by ring. apply rcong_add; [apply rcong_refl|]. apply rcong_mul; [exact HQ2|apply rcong_refl|exact Hf0].
  Qed.
  (** A polynomial of another context. *)
  Theorem key_switch_ctx : forall k (p : poly PowerBasis), ctx_eqb (p_ctx p) (k_ct_ctx k) = false -> key_switch k p = Err ParameterMismatch.
  Proof. intros k p H. unfold key_switch, key_switch_decomposition. rewrite H. cbn [negb]. destruct (k_log_base k =? 0); reflexivity. Qed.

  Theorem relin_new_all : oracles isp cands -> is_params isp cands par -> forall expand derive, expands_well expand -> forall sk, is_sk par sk -> forall l1 l2, (l1 <= max_level par)%nat -> (l2 <= l1)%nat ->
    forall sd rngs, (forall i, words (rngs i)) ->
    ((l2 < max_level par)%nat -> exists k, relin_new expand derive sk l1 l2 sd rngs = Val k /\ k_log_base k = 0 /\
      is_ksk par sk l1 l2 k (map (Z.mul (level_ratio par l1 l2)) (negacyclic N (sk_coeffs sk) (sk_coeffs sk))) (2 * pa_variance par)) /\
    (l2 = max_level par -> relin_new expand derive sk l1 l2 sd rngs = Err KeySwitchingNotSupported).
  Proof.
    intros Ho Hp expand derive Hx sk (Esk & Ls & Hi) l1 l2 Hl1 Hle sd rngs Hr. pose proof (params_good isp cands par Ho Hp) as G. assert (Hl2 : (l2 <= max_level par)%nat) by lia. destruct (at_level_ex isp cands par l1 Ho G Hl1) as (lv1 & c1 & A1). destruct (at_level_ex isp cands par l2 Ho G Hl2) as (lv2 & c2 & A2).
    pose proof (gp_var _ _ _ G) as Hv. pose proof (single_iff l2 G Hl2) as Hs. split; intros Hm.
    - destruct (relin_new_R isp cands Ho par G l1 lv1 c1 A1 l2 lv2 c2 A2 Hle expand derive Hx sk Ls Esk Hi sd rngs Hr ltac:(rewrite Hs; lia)) as (k & Ek & HK). exists k. split; [exact Ek|].
      change (sk_coeffs sk) with (rl (mkR (sk_coeffs sk) Ls)). rewrite <- rl_mul. rewrite <- rscale_mul in HK. apply (R_is_ksk isp cands Ho par G l1 lv1 c1 A1 l2 lv2 c2 A2 sk Ls) in HK; [|lia]. destruct HK as (HK & Hb). split; [exact Hb|exact HK].
    - apply Hs in Hm. unfold relin_new. rewrite Esk, (al_par_context isp cands par l2 lv2 c2 A2), (al_par_context isp cands par l1 lv1 c1 A1). cbn [bind]. rewrite (al_mod _ _ _ _ _ _ A2), Hm. reflexivity.
  Qed.
  Theorem relinearizes_all : oracles isp cands -> is_params isp cands par -> forall sk, is_sk par sk -> forall l1 l2, (l1 <= max_level par)%nat -> (l2 <= l1)%nat ->
    forall k B, 0 <= B -> is_ksk par sk l1 l2 k (map (Z.mul (level_ratio par l1 l2)) (negacyclic N (sk_coeffs sk) (sk_coeffs sk))) B ->
    let D := divided_noise (norm1 (sk_coeffs sk)) (level_ratio par l1 l2) (switch_noise par l1 (k_log_base k) B) in
    (forall ct x0 x1 x2, is_ct par l1 ct [x0; x1; x2] -> exists ct' z0 z1 e, relinearizes k ct = Val ct' /\ ct_seed ct' = ct_seed ct /\ is_ct par l1 ct' [z0; z1] /\ length e = N /\ bounded_by D e /\
      congruent (level_modulus par l1) (phase N (sk_coeffs sk) [z0; z1]) (zipWith Z.add (phase N (sk_coeffs sk) [x0; x1; x2]) e)) /\
    (forall ct m B', encrypts par sk l1 ct m B' -> length (ct_c ct) = 3%nat -> exists ct', relinearizes k ct = Val ct' /\ length (ct_c ct') = 2%nat /\ encrypts par sk l1 ct' m (B' + D)).
  Proof.
    intros Ho Hp sk (Esk & Ls & Hi) l1 l2 Hl1 Hle k B HB HK D. pose proof (params_good isp cands par Ho Hp) as G. assert (Hl2 : (l2 <= max_level par)%nat) by lia. destruct (at_level_ex isp cands par l1 Ho G Hl1) as (lv1 & c1 & A1). destruct (at_level_ex isp cands par l2 Ho G Hl2) as (lv2 & c2 & A2).
    set (s := mkR (sk_coeffs sk) Ls). assert (HR : sw_key par l1 c1 k s (s * s)%R D).
    { change (sk_coeffs sk) with (rl s) in HK. rewrite <- rl_mul in HK. apply (is_ksk_R isp cands Ho par G l1 lv1 c1 A1 l2 lv2 c2 A2 sk Ls k (level_ratio par l1 l2 *: (s * s))%R B) in HK. rewrite rscale_mul in HK. fold s in HK.
      pose proof (kskR_sw isp cands Ho par G l1 lv1 c1 A1 l2 lv2 c2 A2 Hle _ k s (s * s)%R B HB HK) as H. rewrite rnorm1_norm1 in H. exact H. }
    split.
    - intros ct x0 x1 x2 Hct. destruct (ct_parts isp cands Ho par G l1 lv1 c1 A1 ct _ Hct) as (vxs & Ect & Ex). destruct vxs as [|(v0 & y0) [|(v1 & y1) [|(v2 & y2) [|? ?]]]]; try discriminate. cbn [map snd] in Ex. injection Ex as <- <- <-.
      destruct (relinearizes_P isp cands Ho par G l1 lv1 c1 A1 k s D HR (ct_seed ct) v0 v1 v2 y0 y1 y2) as (w0 & w1 & z0 & z1 & E & Er & HE & HC). rewrite <- Ect in Er.
      eexists _, (rl z0), (rl z1), (rl E). split; [exact Er|]. split; [reflexivity|]. split; [apply (parts_ct isp cands Ho par G l1 lv1 c1 A1 (ct_seed ct) [(w0, z0); (w1, z1)])|]. split; [apply rl_length|]. pose proof (rnorm_nonneg N E). split; [apply rnorm_bounded; [lia|exact HE]|].
      unfold level_modulus. change (sk_coeffs sk) with (rl s). change [rl z0; rl z1] with (map rl [z0; z1]). change [rl y0; rl y1; rl y2] with (map rl [y0; y1; y2]). rewrite !phase_rphase, <- rl_add, (rphase_2 s z0 z1). exact HC.
    - intros ct m B' Henc Hlen. destruct (encrypts_parts isp cands Ho par G l1 lv1 c1 A1 sk ct m B' Ls Henc) as (vxs & mr & e & Ect & _ & L & <- & (He & He') & Hc). rewrite Hlen in L. destruct vxs as [|(v0 & y0) [|(v1 & y1) [|(v2 & y2) [|? ?]]]]; try discriminate. cbn [map snd] in Hc.
      destruct (relinearizes_P isp cands Ho par G l1 lv1 c1 A1 k s D HR (ct_seed ct) v0 v1 v2 y0 y1 y2) as (w0 & w1 & z0 & z1 & E & Er & HE & HC). rewrite <- Ect in Er. eexists. split; [exact Er|]. split; [reflexivity|].
      apply (parts_encrypts isp cands Ho par G l1 lv1 c1 A1) with (e := (e + E)%R) (Hl := Ls); [cbn [length]; lia| |].
      + pose proof (rnorm_add N e E). lia.
      + cbn [map snd]. rewrite rphase_2. eapply rcong_trans; [exact HC|]. set (T := rscaled _ _ _) in *. replace (T + (e + E))%R with (T + e + E)%R by ring. apply rcong_add; [exact Hc|apply rcong_refl].
  Qed.
  (** Requests that are refused. *)
  Theorem relinearizes_refused : oracles isp cands -> is_params isp cands par -> forall l ct xs k, (l <= max_level par)%nat -> is_ct par l ct xs -> (2 <= length xs)%nat -> k_par k = par ->
    (length xs <> 3%nat -> relinearizes k ct = Err (InvalidPolynomialCount (Z.of_nat (length xs)) 3)) /\
    (length xs = 3%nat -> l <> k_ct_level k -> relinearizes k ct = Err (InvalidLevel (Z.of_nat l) (Z.of_nat (k_ct_level k)) (Z.of_nat (k_ct_level k)))).
  Proof.
    intros Ho Hp l ct xs k Hl Hct Hx Ek. pose proof (params_good isp cands par Ho Hp) as G. destruct (at_level_ex isp cands par l Ho G Hl) as (lv & c & A). destruct (ct_parts isp cands Ho par G l lv c A ct xs Hct) as (vxs & -> & <-). rewrite !map_length in *.
    unfold relinearizes. rewrite Ek, (ct_validate_eq isp cands Ho par G l lv c A) by exact Hx. cbn [bind ct_c ct_level]. split.
    - intros Hn. pose proof (parts_length c vxs) as Lp. unfold len. destruct (parts c vxs) as [|p0 [|p1 [|p2 [|p3 ps]]]]; cbn [length] in *; try lia; rewrite <- Lp; reflexivity.
    - intros H3 Hn. destruct vxs as [|(v0 & y0) [|(v1 & y1) [|(v2 & y2) [|? ?]]]]; try discriminate. cbn [parts map]. replace (l =? k_ct_level k)%nat with false by (symmetry; apply Nat.eqb_neq; exact Hn). reflexivity.
  Qed.

  (** A key level above the level of the ciphertexts: the key is built, and every relinearization fails. *)
  Theorem relin_above : oracles isp cands -> is_params isp cands par -> supported par -> forall expand derive, expands_well expand -> forall sk, is_sk par sk -> forall l1 l2, (l1 < l2)%nat -> (l2 < max_level par)%nat ->
    forall sd rngs, (forall i, words (rngs i)) -> exists k, relin_new expand derive sk l1 l2 sd rngs = Val k /\ forall ct x0 x1 x2, is_ct par l1 ct [x0; x1; x2] -> relinearizes k ct = Err ContextNotReachable.
  Proof.
    intros Ho Hp Hsup expand derive Hx sk (Esk & Ls & Hi) l1 l2 Hlt Hmax sd rngs Hr. pose proof (params_good isp cands par Ho Hp) as G. assert (Hl1 : (l1 <= max_level par)%nat) by lia. assert (Hl2 : (l2 <= max_level par)%nat) by lia.
    destruct (at_level_ex isp cands par l1 Ho G Hl1) as (lv1 & c1 & A1). destruct (at_level_ex isp cands par l2 Ho G Hl2) as (lv2 & c2 & A2). pose proof (single_iff l2 G Hl2) as Hs. pose proof (gp_var _ _ _ G) as Hv.
    pose proof (good_ok _ (al_good _ _ _ _ _ _ A1)) as Hc1. pose proof (good_ok _ (al_good _ _ _ _ _ _ A2)) as Hc2. pose proof (al_deg _ _ _ _ _ _ A1) as Hd1. pose proof (al_deg _ _ _ _ _ _ A2) as Hd2. pose proof (al_mod _ _ _ _ _ _ A1) as Hm1. pose proof (al_mod _ _ _ _ _ _ A2) as Hm2.
    pose proof (Qpos isp cands Ho par G l1 lv1 c1 A1) as HQ1. pose proof (Qpos isp cands Ho par G l2 lv2 c2 A2) as HQ2. pose proof (level_supported isp cands Ho par G l1 lv1 c1 A1 Hsup) as (Hs1 & Hs2).
    assert (B1 : built isp cands c1) by (eexists _, _; exact (al_new _ _ _ _ _ _ A1)). assert (B2 : built isp cands c2) by (eexists _, _; exact (al_new _ _ _ _ _ _ A2)).
    pose proof (built_same_ops isp cands c1 c2 B1 B2 ltac:(congruence)) as Hops. set (s := mkR (sk_coeffs sk) Ls).
    set (Q1 := prod_list (level_moduli (pa_moduli par) l1)) in *. set (Q2 := prod_list (level_moduli (pa_moduli par) l2)) in *.
    assert (Ef : factor_new Q2 Q1 = Val (mkFactor Q2 Q1 (Q2 =? Q1))) by (unfold factor_new; replace (Q1 =? 0) with false by (symmetry; apply Z.eqb_neq; lia); reflexivity).
    destruct (poly_scale_eq c1 c2 Hc1 Hc2 ltac:(congruence) Hops Q2 Q1 (mkFactor Q2 Q1 (Q2 =? Q1))) as (sw & Es & Hsw).
    { rewrite Hm1. lia. } { lia. } { lia. } { exact Ef. } { right. rewrite Hm1. pose proof (load_bound Q2 _ (level_range isp cands Ho par G l1 lv1 c1 A1)) as Hlb. fold Q1 in Hlb. lia. }
    destruct (Hsw PowerBasis (false && false) (rl (s * s)%R) ltac:(discriminate) ltac:(rewrite rl_length; congruence)) as (y & Ly & _ & Ey). assert (Ly' : length y = N) by congruence.
    destruct (ksk_new_R isp cands Ho par G l1 lv1 c1 A1 l2 lv2 c2 A2 expand derive sk Ls (false && false) (mkR y Ly') sd rngs Hx Esk Hi Hr) as (k & Ek & HK). { intros H1. apply Hs in H1. lia. }
    exists k. split.
    - unfold relin_new. rewrite Esk, (al_par_context isp cands par l2 lv2 c2 A2), (al_par_context isp cands par l1 lv1 c1 A1). cbn [bind]. rewrite Hm2. replace (length (level_moduli (pa_moduli par) l2) =? 1)%nat with false by (symmetry; apply Nat.eqb_neq; rewrite Hs; lia).
      rewrite (sk_poly_eq isp cands Ho par G l1 lv1 c1 A1 sk Ls Hi). cbn [bind]. rewrite (P_mul c1 Hc1 N Hd1). cbn [bind]. rewrite (P_ntt_pb c1 Hc1 N Hd1). cbn [bind].
      unfold switcher_new. rewrite (gr_product _ (co_rns _ Hc1)), (gr_product _ (co_rns _ Hc2)), (co_u64 _ Hc1), (co_u64 _ Hc2), Hm1, Hm2. fold Q1 Q2. rewrite Ef. cbn [bind]. rewrite Es. cbn [bind]. fold s. unfold P at 1. rewrite Ey. cbn [bind]. exact Ek.
    - intros ct x0 x1 x2 Hct. destruct (ct_parts isp cands Ho par G l1 lv1 c1 A1 ct _ Hct) as (vxs & -> & Ex). destruct vxs as [|(v0 & y0) [|(v1 & y1) [|(v2 & y2) [|? ?]]]]; try discriminate.
      assert (Hlev : k_par k = par /\ k_ct_level k = l1) by (destruct HK as (? & ? & ? & ? & -> & _); split; reflexivity). destruct Hlev as (Ep & El).
      destruct (kskR_switch isp cands Ho par G l1 lv1 c1 A1 l2 lv2 c2 A2 _ k _ (mkR y Ly') (2 * pa_variance par) ltac:(lia) HK v2 y2) as (u0 & u1 & w & e & (w0 & w1 & Ew) & _).
      unfold relinearizes. rewrite Ep, (ct_validate_eq isp cands Ho par G l1 lv1 c1 A1) by (cbn [length]; lia). cbn [bind ct_c parts map fst snd ct_level]. rewrite El, Nat.eqb_refl. cbn [negb].
      rewrite (P_ntt_pb c1 Hc1 N Hd1). cbn [bind]. rewrite Ew. cbn [bind]. unfold ks_down. cbn [fst snd]. rewrite !P_ctx.
      assert (Ln : (length (c_moduli c2) < length (c_moduli c1))%nat) by (rewrite (al_moduli_length isp cands par l2 lv2 c2 A2), (al_moduli_length isp cands par l1 lv1 c1 A1); pose proof (al_lt _ _ _ _ _ _ A1); lia).
      replace (ctx_eqb c2 c1) with false by (symmetry; apply not_true_is_false; intros H; apply ctx_eqb_true in H; destruct H as (H & _); rewrite H in Ln; lia).
      rewrite !(P_ntt_pb c2 Hc2 N Hd2). cbn [bind]. unfold P at 1. rewrite (switch_down_to_err PowerBasis w0 c2 c1 _ eq_refl (al_good _ _ _ _ _ _ A2)); [reflexivity|].
      intros (i & _ & _ & H). apply (f_equal (@length Z)) in H. rewrite firstn_length in H. lia.
  Qed.
  (** A key of the last level for ciphertexts of another level: it is built, and every switch panics. *)
  Theorem single_panics : oracles isp cands -> is_params isp cands par -> forall expand derive, expands_well expand -> forall sk, is_sk par sk -> forall l1, (l1 < max_level par)%nat ->
    forall (from : poly PowerBasis) f sd rngs, is_poly par (max_level par) from f -> (forall i, words (rngs i)) ->
    exists k, ksk_new expand derive sk from l1 (max_level par) sd rngs = Val k /\ forall (p : poly PowerBasis) x, is_poly par l1 p x -> key_switch k p = Panic.
  Proof.
    intros Ho Hp expand derive Hx sk (Esk & Ls & Hi) l1 Hmax from f sd rngs Hf Hr. pose proof (params_good isp cands par Ho Hp) as G. assert (Hl1 : (l1 <= max_level par)%nat) by lia. 
    destruct (at_level_ex isp cands par l1 Ho G Hl1) as (lv1 & c1 & A1). destruct (at_level_ex isp cands par (max_level par) Ho G (le_n _)) as (lv2 & c2 & A2). pose proof (single_iff (max_level par) G (le_n _)) as Hs. pose proof (single_iff l1 G Hl1) as Hs1.
    destruct (level_moduli (pa_moduli par) (max_level par)) as [|q [|q' qs]] eqn:Eq; [destruct Hs as (_ & Hs); specialize (Hs eq_refl); discriminate| |destruct Hs as (_ & Hs); specialize (Hs eq_refl); discriminate].
    destruct (is_poly_P isp cands Ho par G _ lv2 c2 A2 from f Hf) as (fr & Ef & _). rewrite Ef.
    destruct (ksk_new_single_P isp cands Ho par G l1 lv1 c1 A1 _ lv2 c2 A2 expand derive sk Ls (p_vt from) fr sd rngs q Hx Esk Hi Hr Eq) as (bs & xs & Lb & Lx & _ & Ek & _). eexists. split; [exact Ek|].
    pose proof (good_ok _ (al_good _ _ _ _ _ _ A1)) as Hc1. pose proof (al_deg _ _ _ _ _ _ A1) as Hd1. pose proof (al_mod _ _ _ _ _ _ A1) as Hm1. pose proof (al_deg _ _ _ _ _ _ A2) as Hd2. pose proof (al_mod _ _ _ _ _ _ A2) as Hm2. pose proof (good_ok _ (al_good _ _ _ _ _ _ A2)) as Hc2.
    intros p x Hpx. destruct (is_poly_P isp cands Ho par G l1 lv1 c1 A1 p x Hpx) as (y & -> & _).
    assert (Hq : 16 < q < W62).
    { assert (F : Forall (ntt_friendly N) (level_moduli (pa_moduli par) (max_level par))) by (apply Forall_firstn, (gp_friendly _ _ _ G)). rewrite Eq in F. destruct (Forall_inv F) as (H1 & H2 & H3). apply prime_ge_2 in H1. pose proof (al_N8 isp cands par l1 lv1 c1 A1).
      assert (Hqm : q = 2 * Z.of_nat N * (q / (2 * Z.of_nat N)) + 1) by (pose proof (Z.div_mod q (2 * Z.of_nat N) ltac:(lia)); lia). set (k := q / (2 * Z.of_nat N)) in *. clearbody k. split; [|exact H2]. assert (0 < k) by nia. assert (8 <= Z.of_nat N) by lia. nia. }
    destruct (base_facts q Hq) as (Hb & Hn & _). set (b := Z.log2_up q / 2) in *. unfold key_switch. cbn [k_log_base]. replace (b =? 0) with false by (symmetry; apply Z.eqb_neq; lia). cbn [negb].
    set (kk := mkKsk _ _ _ _ _ _ _ _ _). unfold key_switch_decomposition. cbn [k_ct_ctx kk]. rewrite P_ctx, ctx_eqb_refl. cbn [negb].
    pose proof (al_moduli_length isp cands par l1 lv1 c1 A1) as Lm. rewrite Hm1 in Lm.
    assert (Ltwo : (2 <= length (level_moduli (pa_moduli par) l1))%nat). { assert (length (level_moduli (pa_moduli par) l1) <> 1%nat) by (rewrite Hs1; lia). pose proof (al_lt _ _ _ _ _ _ A1). lia. }
    destruct (level_moduli (pa_moduli par) l1) as [|q0 [|q1 qs]] eqn:Eq1; cbn [length] in Ltwo; try lia. rewrite Hm1. cbn [nth_error unwrap bind].
    assert (Hq0 : 2 <= q0 < W62). { pose proof (level_range isp cands Ho par G l1 lv1 c1 A1) as R. rewrite Eq1 in R. exact (Forall_inv R). }
    rewrite log_modulus_eq by lia. cbn [bind k_log_base kk]. rewrite chk_val by lia. cbn [bind]. rewrite div_ceilM_eq by lia. cbn [bind k_ctx k_c0 k_c1].
    assert (Hn0 : 1 <= (Z.log2_up q0 + b - 1) / b). { apply Z.div_le_lower_bound; [lia|]. pose proof (Z.log2_up_pos q0 ltac:(lia)). lia. }
    destruct (Z.to_nat ((Z.log2_up q0 + b - 1) / b)) as [|n] eqn:En; [lia|]. destruct bs as [|b0 bs]; [cbn [length] in Lb; lia|]. destruct xs as [|a0 xs]; [cbn [length] in Lx; lia|].
    subst kk. cbn [k_ctx k_c0 k_c1 digits shoups map ks_loop]. unfold ntt_lazy_constant. rewrite map_length.
    assert (Lc : (c_degree c2 < length (concat (p_coeffs (P PowerBasis c1 (p_vt p) y))))%nat).
    { rewrite (coeffs_residues isp cands Ho par G l1 lv1 c1 A1 l1 lv1 c1 A1). unfold residues. rewrite Eq1. cbn [map concat]. rewrite !app_length, !rl_length, Hd2. pose proof (N_pos isp cands Ho par G l1 lv1 c1 A1). lia. }
    pose proof (co_ne _ Hc2) as Hne. rewrite (q_ops c2 Hc2). destruct (c_ops c2) as [|op ops] eqn:Eo; [exfalso|].
    - pose proof (co_moduli _ Hc2) as Hmo. rewrite (q_ops c2 Hc2), Eo in Hmo. rewrite Hm2, Eq in Hmo. discriminate.
    - cbn [map map2M]. replace (length (concat (p_coeffs (P PowerBasis c1 (p_vt p) y))) =? c_degree c2)%nat with false by (symmetry; apply Nat.eqb_neq; lia). reflexivity.
  Qed.
End Props.
(** Lazily reduced polynomials are refused by every operation but the product by a polynomial of a key. *)
Theorem lazy_all : forall c v (p : poly Ntt), ntt_lazy_constant c v = Val p -> forall q, poly_add p q = Panic /\ poly_add q p = Panic /\ poly_sub p q = Panic /\ poly_mul p q = Panic /\ poly_mul q p = Panic.
Proof.
  intros c v p H q. unfold ntt_lazy_constant in H. apply bind_inv in H. destruct H as (rows & _ & H). injection H as <-. unfold poly_add, poly_sub, poly_mul, poly_op2. cbn [p_lazy negb andb]. rewrite andb_false_r. repeat split; reflexivity.
Qed.
