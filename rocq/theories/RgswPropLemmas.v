(** Closing lemmas for the property about RGSW ciphertexts. *)
From Verif Require Import Outcome BasicSpec OutcomeLemmas ZqModel ZqProofs NumTheory NttModel PolySpec PolyRing NttPure NttStages NttProofs CbdModel CbdSpec CbdProofs.
From Verif Require Import TranscodeModel PrimesModel RnsModel RnsSpec RnsProofs RqModel RqSpec RqCtx RqRows RqProofs RingRn RqOps RqIO RqPropLemmas ParamsModel BfvSpec ParamsProofs BuildProofs ParamsPropLemmas PlainModel CipherModel OpsModel SchemeSpec CipherSpec PlainProofs RnPoly CipherProofs EncryptProofs CipherPropLemmas LinearPropLemmas SerialPropLemmas KeysModel KeysSpec KeysProofs KeySwitchProofs KeyNoiseProofs KeyOpsProofs KeyPropLemmas RgswSpec.
From Coq Require Import Znumtheory.
Set Default Proof Using "Type".

Lemma par_eqb_refl p : par_eqb p p = true.
Proof. unfold par_eqb. rewrite Nat.eqb_refl, !Z.eqb_refl, (proj2 (list_eqb_iff _ _) eq_refl). reflexivity. Qed.

Section Level.
  Context (isp : Z -> bool) (cands : Z -> list Z) (Ho : oracles isp cands) (par : params) (G : good_params isp cands par).
  Context (l : nat) (lv : level_ctx) (c : ctx) (A : at_level isp cands par l lv c).
  Context (sk : secret_key) (Hl : length (sk_coeffs sk) = pa_degree par).
  Notation N := (pa_degree par).
  Notation Q := (prod_list (level_moduli (pa_moduli par) l)).
  Notation s := (mkR (sk_coeffs sk) Hl).
  Add Ring Rn_rgsw : (Rn_ring N).
  Set Default Proof Using "All".
  Local Lemma Hc : ctx_ok c. Proof. exact (good_ok _ (al_good _ _ _ _ _ _ A)). Qed.
  Local Lemma Hd : c_degree c = N. Proof. exact (al_deg _ _ _ _ _ _ A). Qed.
  (** Switching at one level. *)
  Lemma switch_same k (f : Rn N) B : 0 <= B -> is_ksk par sk l l k (rl f) B -> forall v (x : Rn N), exists u0 u1 e,
    (exists w0 w1, key_switch_assign k (P PowerBasis c v x) (poly_zero Ntt (k_ctx k)) (poly_zero Ntt (k_ctx k)) = Val (P Ntt c w0 u0, P Ntt c w1 u1)) /\
    rnorm e <= switch_noise par l (k_log_base k) B /\ rcong Q (u0 + s * u1)%R (x * f + e)%R.
  Proof.
    intros HB HK v x. pose proof HK as (_ & _ & _ & _ & Ec & _). rewrite (al_par_context isp cands par l lv c A) in Ec. injection Ec as <-.
    pose proof (is_ksk_R isp cands Ho par G l lv c A l lv c A sk Hl k f B HK) as HR.
    destruct (kskR_switch isp cands Ho par G l lv c A l lv c A _ k _ f B HB HR v x) as (u0 & u1 & w & e & _ & Es & Hw & He & HC). exists u0, u1, e.
    rewrite (P_zero c Hc N Hd). split; [apply Es; right; eauto|]. split; [exact He|]. eapply rcong_trans; [exact HC|]. apply rcong_add; [|apply rcong_refl]. apply rcong_mul; [apply (Qpos isp cands Ho par G l lv c A)|exact Hw|apply rcong_refl].
  Qed.
  Theorem external_P r (m : Rn N) B : 0 <= B -> is_rgsw par sk l r (rl m) B -> forall sd v0 v1 (x0 x1 : Rn N), exists w0 w1 z0 z1 e,
    ct_mul_rgsw (mkCt par sd (parts c [(v0, x0); (v1, x1)]) l) r = Val (mkCt par None (parts c [(w0, z0); (w1, z1)]) l) /\
    rnorm e <= external_noise par l r B /\ rcong Q (z0 + s * z1)%R (m * (x0 + s * x1) + e)%R.
  Proof.
    intros HB (H0 & H1) sd v0 v1 x0 x1. pose proof H0 as (Ep & El & _). change (sk_coeffs sk) with (rl s) in H1. rewrite <- rl_mul in H1.
    destruct (switch_same _ m B HB H0 v0 x0) as (a0 & a1 & e0 & (p0 & p1 & E0) & He0 & C0). destruct (switch_same _ (s * m)%R B HB H1 v1 x1) as (b0 & b1 & e1 & (q0 & q1 & E1) & He1 & C1).
    exists (p0 && q0), (p1 && q1), (a0 + b0)%R, (a1 + b1)%R, (e0 + e1)%R. unfold ct_mul_rgsw. cbn [ct_par ct_level ct_c parts map fst snd length]. rewrite Ep, El, par_eqb_refl, Nat.eqb_refl. cbn [guard bind Nat.eqb get nth_error unwrap].
    rewrite !(P_ntt_pb c Hc N Hd). cbn [bind]. rewrite E0. cbn [no_err bind]. rewrite E1. cbn [no_err bind fst snd]. rewrite !(P_add c Hc N Hd) by discriminate. cbn [bind]. split; [reflexivity|].
    split; [pose proof (rnorm_add N e0 e1); unfold external_noise; lia|].
    replace (a0 + b0 + s * (a1 + b1))%R with ((a0 + s * a1) + (b0 + s * b1))%R by ring. replace (m * (x0 + s * x1) + (e0 + e1))%R with ((x0 * m + e0) + (x1 * (s * m) + e1))%R by ring. apply rcong_add; assumption.
  Qed.
End Level.

Set Default Proof Using "Type".
Section Props.
  Context (isp : Z -> bool) (cands : Z -> list Z) (par : params).
  Notation N := (pa_degree par).
  Notation t := (pa_t par).
  Add Ring Rn_rgp : (Rn_ring N).
  Theorem rgsw_new_all : oracles isp cands -> is_params isp cands par -> forall expand derive, expands_well expand -> forall sk, is_sk par sk -> forall l, (l <= max_level par)%nat ->
    forall pt m, is_pt par l pt m -> forall sd0 sd1 rngs0 rngs1, (forall i, words (rngs0 i)) -> (forall i, words (rngs1 i)) ->
    exists r, rgsw_encrypt expand derive sk pt sd0 sd1 rngs0 rngs1 = Val r /\ is_rgsw par sk l r m (2 * pa_variance par) /\
      k_log_base (r_ksk0 r) = key_base par l /\ k_log_base (r_ksk1 r) = key_base par l.
  Proof.
    intros Ho Hp expand derive Hx sk Hsk l Hll pt m Hpt sd0 sd1 rngs0 rngs1 Hr0 Hr1. pose proof Hsk as (Esk & Ls & Hi). pose proof (params_good isp cands par Ho Hp) as G. destruct (at_level_ex isp cands par l Ho G Hll) as (lv & c & A).
    destruct (pt_P isp cands Ho par G l lv c A pt m Hpt) as (mr & -> & <-). set (v := p_vt (pt_poly pt)).
    assert (Hc : ctx_ok c) by exact (good_ok _ (al_good _ _ _ _ _ _ A)). assert (Hd : c_degree c = N) by exact (al_deg _ _ _ _ _ _ A).
    unfold rgsw_encrypt. rewrite Esk. unfold P at 1. rewrite (pt_validate_eq isp cands par l lv c A). cbn [bind]. unfold P at 1. rewrite (pt_level_eq isp cands par l lv c A). cbn [bind]. rewrite (al_par_context isp cands par l lv c A). cbn [bind pt_poly].
    rewrite (P_ntt_pb c Hc N Hd). cbn [bind]. rewrite (sk_poly_eq isp cands Ho par G l lv c A sk Ls Hi). cbn [bind]. rewrite (P_mul c Hc N Hd). cbn [bind]. rewrite (P_ntt_pb c Hc N Hd). cbn [bind].
    destruct (ksk_new_all isp cands par Ho Hp expand derive Hx sk Hsk l l Hll Hll (or_introl eq_refl) (P PowerBasis c v mr) (rl mr) sd0 rngs0 (P_is_poly isp cands Ho par G l lv c A _ _ _) Hr0) as (k0 & E0 & K0 & B0).
    destruct (ksk_new_all isp cands par Ho Hp expand derive Hx sk Hsk l l Hll Hll (or_introl eq_refl) (P PowerBasis c (false && v) (mkR (sk_coeffs sk) Ls * mr)%R) _ sd1 rngs1 (P_is_poly isp cands Ho par G l lv c A _ _ _) Hr1) as (k1 & E1 & K1 & B1).
    rewrite E0. cbn [bind]. rewrite E1. cbn [bind]. eexists. split; [reflexivity|]. cbn [r_ksk0 r_ksk1]. split; [|split; assumption]. split; [exact K0|]. cbn [r_ksk1]. rewrite rl_mul in K1. exact K1.
  Qed.
  Theorem external_all : oracles isp cands -> is_params isp cands par -> forall sk, is_sk par sk -> forall l, (l <= max_level par)%nat -> forall r m B, 0 <= B -> is_rgsw par sk l r m B ->
    (forall ct x0 x1, is_ct par l ct [x0; x1] -> exists ct' z0 z1 e, ct_mul_rgsw ct r = Val ct' /\ rgsw_mul_ct r ct = Val ct' /\ ct_seed ct' = None /\ is_ct par l ct' [z0; z1] /\
      length e = N /\ bounded_by (external_noise par l r B) e /\
      congruent (level_modulus par l) (phase N (sk_coeffs sk) [z0; z1]) (zipWith Z.add (negacyclic N m (phase N (sk_coeffs sk) [x0; x1])) e)) /\
    (forall ct m' B', encrypts par sk l ct m' B' -> length (ct_c ct) = 2%nat -> exists ct', ct_mul_rgsw ct r = Val ct' /\ rgsw_mul_ct r ct = Val ct' /\ length (ct_c ct') = 2%nat /\
      encrypts par sk l ct' (negacyclic N m m') (norm1 m * (B' + 1) + external_noise par l r B)).
  Proof.
    intros Ho Hp sk (Esk & Ls & Hi) l Hll r m B HB HR. pose proof (params_good isp cands par Ho Hp) as G. destruct (at_level_ex isp cands par l Ho G Hll) as (lv & c & A). pose proof (gp_t _ _ _ G) as Ht.
    pose proof (proj1 HR) as (_ & _ & _ & _ & _ & _ & Lm & _). assert (exists mr : Rn N, rl mr = m) as (mr & <-) by (exists (mkR m Lm); reflexivity). set (s := mkR (sk_coeffs sk) Ls).
    unfold rgsw_mul_ct. split.
    - intros ct x0 x1 Hct. destruct (ct_parts isp cands Ho par G l lv c A ct _ Hct) as (vxs & Ect & Ex). destruct vxs as [|(v0 & y0) [|(v1 & y1) [|? ?]]]; try discriminate. cbn [map snd] in Ex. injection Ex as <- <-.
      destruct (external_P isp cands Ho par G l lv c A sk Ls r mr B HB HR (ct_seed ct) v0 v1 y0 y1) as (w0 & w1 & z0 & z1 & e & E & He & HC). rewrite <- Ect in E.
      exists (mkCt par None (parts c [(w0, z0); (w1, z1)]) l), (rl z0), (rl z1), (rl e). split; [exact E|]. split; [exact E|]. split; [reflexivity|]. split; [apply (parts_ct isp cands Ho par G l lv c A None [(w0, z0); (w1, z1)])|]. split; [apply rl_length|]. pose proof (rnorm_nonneg N e). split; [apply rnorm_bounded; [lia|exact He]|].
      unfold level_modulus. change (sk_coeffs sk) with (rl s). change [rl z0; rl z1] with (map rl [z0; z1]). change [rl y0; rl y1] with (map rl [y0; y1]). rewrite !phase_rphase, !rphase_2, <- rl_mul, <- rl_add. exact HC.
    - intros ct m' B' Henc Hlen. destruct (encrypts_parts isp cands Ho par G l lv c A sk ct m' B' Ls Henc) as (vxs & x & e & Ect & _ & L & <- & (He & He') & Hc). rewrite Hlen in L. destruct vxs as [|(v0 & y0) [|(v1 & y1) [|? ?]]]; try discriminate. cbn [map snd] in Hc. rewrite rphase_2 in Hc. fold s in Hc.
      destruct (external_P isp cands Ho par G l lv c A sk Ls r mr B HB HR (ct_seed ct) v0 v1 y0 y1) as (w0 & w1 & z0 & z1 & E & Er & HE & HC). rewrite <- Ect in Er. fold s in HC. eexists. split; [exact Er|]. split; [exact Er|]. split; [reflexivity|].
      set (Q := prod_list (level_moduli (pa_moduli par) l)) in *. rewrite <- rl_mul.
      apply (parts_encrypts isp cands Ho par G l lv c A) with (e := ((e * mr + (rscaled Q t x * mr - rscaled Q t (x * mr))) + E)%R) (Hl := Ls); [cbn [length]; lia| |].
      + pose proof (rnorm_add N (e * mr + (rscaled Q t x * mr - rscaled Q t (x * mr))) E)%R. pose proof (rnorm_add N (e * mr)%R (rscaled Q t x * mr - rscaled Q t (x * mr))%R). pose proof (rnorm_mul1' e mr). pose proof (rscaled_mul Q t x mr ltac:(lia)). pose proof (rnorm1_nonneg mr). rewrite rnorm1_norm1 in *.
        assert (norm1 (rl mr) * rnorm e <= norm1 (rl mr) * B') by (apply Z.mul_le_mono_nonneg_l; assumption). lia.
      + cbn [map snd]. fold s Q. rewrite rphase_2. eapply rcong_trans; [exact HC|]. replace (mr * x)%R with (x * mr)%R by ring. match goal with |- rcong _ _ ?w => replace w with (mr * (rscaled Q t x + e) + E)%R by ring end.
        apply rcong_add; [|apply rcong_refl]. apply rcong_mul; [apply (Qpos isp cands Ho par G l lv c A)|apply rcong_refl|exact Hc].
  Qed.
  (** From the encryption to the product. *)
  Theorem external_fresh : oracles isp cands -> is_params isp cands par -> forall expand derive, expands_well expand -> forall sk, is_sk par sk -> forall l, (l <= max_level par)%nat ->
    forall pt m, is_pt par l pt m -> forall sd0 sd1 rngs0 rngs1, (forall i, words (rngs0 i)) -> (forall i, words (rngs1 i)) ->
    exists r, rgsw_encrypt expand derive sk pt sd0 sd1 rngs0 rngs1 = Val r /\
      forall ct m' B', encrypts par sk l ct m' B' -> length (ct_c ct) = 2%nat -> exists ct', ct_mul_rgsw ct r = Val ct' /\ rgsw_mul_ct r ct = Val ct' /\
        encrypts par sk l ct' (negacyclic N m m') (norm1 m * (B' + 1) + 2 * switch_noise par l (key_base par l) (2 * pa_variance par)).
  Proof.
    intros Ho Hp expand derive Hx sk Hsk l Hll pt m Hpt sd0 sd1 rngs0 rngs1 Hr0 Hr1. pose proof (params_good isp cands par Ho Hp) as G. pose proof (gp_var _ _ _ G) as Hv.
    destruct (rgsw_new_all Ho Hp expand derive Hx sk Hsk l Hll pt m Hpt sd0 sd1 rngs0 rngs1 Hr0 Hr1) as (r & Er & HR & B0 & B1). exists r. split; [exact Er|]. intros ct m' B' He Hlen.
    destruct (external_all Ho Hp sk Hsk l Hll r m (2 * pa_variance par) ltac:(lia) HR) as (_ & H). destruct (H ct m' B' He Hlen) as (ct' & E1 & E2 & _ & E3). exists ct'. split; [exact E1|]. split; [exact E2|].
    unfold external_noise in E3. rewrite B0, B1 in E3. replace (2 * switch_noise par l (key_base par l) (2 * pa_variance par)) with (switch_noise par l (key_base par l) (2 * pa_variance par) + switch_noise par l (key_base par l) (2 * pa_variance par)) by ring. exact E3.
  Qed.
  (** Operands that do not match: the product is an assertion. *)
  Theorem external_panics : forall ct r, (par_eqb (ct_par ct) (k_par (r_ksk0 r)) = false \/ ct_level ct <> k_ct_level (r_ksk0 r) \/ length (ct_c ct) <> 2%nat) -> ct_mul_rgsw ct r = Panic /\ rgsw_mul_ct r ct = Panic.
  Proof.
    intros ct r H. assert (E : ct_mul_rgsw ct r = Panic); [|split; exact E]. unfold ct_mul_rgsw. destruct (par_eqb _ _) eqn:E1; [|reflexivity]. cbn [guard bind].
    destruct (Nat.eqb_spec (ct_level ct) (k_ct_level (r_ksk0 r))) as [E2|E2]; [|reflexivity]. cbn [guard bind]. destruct (Nat.eqb_spec (length (ct_c ct)) 2) as [E3|E3]; [|reflexivity]. destruct H as [H|[H|H]]; [discriminate|contradiction|contradiction].
  Qed.
  Theorem rgsw_refused : forall expand derive sk pt sd0 sd1 rngs0 rngs1, pa_id (pt_par pt) <> pa_id (sk_par sk) -> rgsw_encrypt expand derive sk pt sd0 sd1 rngs0 rngs1 = Err ParameterMismatch.
  Proof. intros expand derive sk pt sd0 sd1 rngs0 rngs1 H. unfold rgsw_encrypt, pt_validate_for, par_same. destruct (Z.eqb_spec (pa_id (pt_par pt)) (pa_id (sk_par sk))); [contradiction|reflexivity]. Qed.
End Props.
