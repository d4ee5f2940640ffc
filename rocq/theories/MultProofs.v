(** Products of two ciphertexts of two parts by a multiplicator, on elements of Z[X]/(X^N+1). *)
From Verif Require Import Outcome BasicSpec OutcomeLemmas ZqModel ZqProofs NumTheory NttModel PolySpec PolyRing NttPure NttStages NttProofs CbdModel CbdSpec CbdProofs.
From Verif Require Import TranscodeModel RnsModel RnsSpec RnsProofs RqModel RqSpec RqCtx RqRows RqProofs RingRn RqOps RqIO ParamsModel BfvSpec ParamsProofs BuildProofs ParamsPropLemmas PlainModel CipherModel OpsModel SchemeSpec CipherSpec PlainProofs RnPoly CipherProofs EncryptProofs CipherPropLemmas LinearPropLemmas SerialPropLemmas MulProofs MulPropLemmas KeysModel KeysSpec RgswSpec.
From Coq Require Import Znumtheory.
Set Default Proof Using "Type".

Section Core.
  Context (c to : ctx) (Hc : ctx_ok c) (Ht : ctx_ok to) (N : nat) (HN : c_degree c = N) (HNt : c_degree to = N) (Hops : same_ops c to) (Hops' : same_ops to c).
  Context (qs ext : list Z) (Em : c_moduli c = qs) (Et : c_moduli to = qs ++ ext) (Hq : Forall (fun q => 2 <= q < W62) qs) (Hsum : sum_of qs < 2 ^ 65) (Hlen : Z.of_nat (length qs) <= 2 ^ 20).
  Context (Hext : Forall (fun p => 2 ^ 61 <= p < 2 ^ 62) ext) (Hle : Z.of_nat (length ext) <= 2 ^ 20 + 2) (Hroom : prod_list qs * 2 ^ 60 <= 2 ^ (62 * Z.of_nat (length ext))).
  Context (t : Z) (Hpt : 2 <= t).
  Notation Q := (prod_list qs).
  Notation E := (prod_list ext).
  Add Ring RnMC : (Rn_ring N).
  Set Default Proof Using "All".
  Lemma two_parts (f : poly Ntt -> M (poly Ntt)) (vys : list (bool * Rn N)) p q d : mapM f [p; q] = Val (parts d vys) -> exists v0 y0 v1 y1, vys = [(v0, y0); (v1, y1)] /\ f p = Val (P Ntt d v0 y0) /\ f q = Val (P Ntt d v1 y1).
  Proof.
    cbn [mapM]. destruct (f p) as [a| |]; try discriminate. cbn [bind]. destruct (f q) as [b| |]; try discriminate. cbn [bind]. intros H. injection H as H. destruct vys as [|(v0 & y0) [|(v1 & y1) [|? ?]]]; try discriminate.
    cbn [parts map fst snd] in H. injection H as -> ->. exists v0, y0, v1, y1. auto.
  Qed.
  Lemma three_parts (f : poly Ntt -> M (poly Ntt)) (vys : list (bool * Rn N)) p q r d : mapM f [p; q; r] = Val (parts d vys) -> exists v0 y0 v1 y1 v2 y2, vys = [(v0, y0); (v1, y1); (v2, y2)] /\ f p = Val (P Ntt d v0 y0) /\ f q = Val (P Ntt d v1 y1) /\ f r = Val (P Ntt d v2 y2).
  Proof.
    cbn [mapM]. destruct (f p) as [a| |]; try discriminate. cbn [bind]. destruct (f q) as [b| |]; try discriminate. cbn [bind]. destruct (f r) as [e| |]; try discriminate. cbn [bind]. intros H. injection H as H. destruct vys as [|(v0 & y0) [|(v1 & y1) [|(v2 & y2) [|? ?]]]]; try discriminate.
    cbn [parts map fst snd] in H. injection H as -> -> ->. exists v0, y0, v1, y1, v2, y2. auto.
  Qed.
  Theorem core_two up down : poly_scaler_new c to (mkFactor 1 1 true) = Val up -> poly_scaler_new to c (mkFactor t Q (t =? Q)) = Val down -> 2 * Z.of_nat N * 2 ^ Z.of_nat (length ext) <= 2 ^ 59 ->
    forall u0 u1 w0 w1 (x0 x1 y0 y1 : Rn N), exists a0 a1 b0 b1 (x0' x1' y0' y1' : Rn N),
      poly_scale up (P Ntt c u0 x0) = Val (P Ntt to a0 x0') /\ poly_scale up (P Ntt c u1 x1) = Val (P Ntt to a1 x1') /\
      poly_scale up (P Ntt c w0 y0) = Val (P Ntt to b0 y0') /\ poly_scale up (P Ntt c w1 y1) = Val (P Ntt to b1 y1') /\
      Forall2 (rcong Q) [x0'; x1'] [x0; x1] /\ Forall (fun y => 2 ^ 45 * rnorm y <= Q * (2 ^ 44 + 1)) [x0'; x1'] /\
      Forall2 (rcong Q) [y0'; y1'] [y0; y1] /\ Forall (fun y => 2 ^ 45 * rnorm y <= Q * (2 ^ 44 + 1)) [y0'; y1'] /\
      forall f0 f1 f2, exists g0 g1 g2 (z0 z1 z2 : Rn N), poly_scale down (P Ntt to f0 (x0' * y0')%R) = Val (P Ntt c g0 z0) /\ poly_scale down (P Ntt to f1 (x0' * y1' + x1' * y0')%R) = Val (P Ntt c g1 z1) /\
        poly_scale down (P Ntt to f2 (x1' * y1')%R) = Val (P Ntt c g2 z2) /\
        forall s, 2 ^ 43 * rnorm (Q *: rphase s [z0; z1; z2] - t *: (rphase s [x0'; x1'] * rphase s [y0'; y1']))%R <= Q * (2 ^ 42 + 1) * geometric (rnorm1 s) 3.
  Proof.
    intros Eu Ed Hr u0 u1 w0 w1 x0 x1 y0 y1.
    destruct (core_up c to Hc Ht N HN HNt Hops Hops' qs ext Em Et Hq Hsum Hlen Hext Hle Hroom t Hpt) as (up' & Eu' & Hup). rewrite Eu in Eu'. injection Eu' as <-.
    destruct (core_down c to Hc Ht N HN HNt Hops Hops' qs ext Em Et Hq Hsum Hlen Hext Hle Hroom t Hpt) as (down' & Ed' & Hdown). rewrite Ed in Ed'. injection Ed' as <-.
    destruct (Hup [(u0, x0); (u1, x1)]) as (vx & Ex & _ & Cx & Nx). destruct (Hup [(w0, y0); (w1, y1)]) as (vy & Ey & _ & Cy & Ny). cbn [parts map fst snd] in Ex, Ey.
    apply two_parts in Ex. destruct Ex as (a0 & x0' & a1 & x1' & -> & X0 & X1). apply two_parts in Ey. destruct Ey as (b0 & y0' & b1 & y1' & -> & Y0 & Y1). cbn [map snd] in Cx, Nx, Cy, Ny.
    exists a0, a1, b0, b1, x0', x1', y0', y1'. split; [exact X0|]. split; [exact X1|]. split; [exact Y0|]. split; [exact Y1|]. split; [exact Cx|]. split; [exact Nx|]. split; [exact Cy|]. split; [exact Ny|]. intros f0 f1 f2.
    pose proof (core_Q c to Hc Ht N HN HNt Hops Hops' qs ext Em Et Hq Hsum Hlen Hext Hle Hroom t Hpt) as HQ. pose proof (core_E c to Hc Ht N HN HNt Hops Hops' qs ext Em Et Hq Hsum Hlen Hext Hle Hroom t Hpt) as HE. pose proof (ext_room c to Hc Ht N HN HNt Hops Hops' qs ext Em Et Hq Hsum Hlen Hext Hle Hroom t Hpt) as HR.
    set (M := Q * (2 ^ 44 + 1) / 2 ^ 45). assert (HM : forall y : Rn N, 2 ^ 45 * rnorm y <= Q * (2 ^ 44 + 1) -> rnorm y <= M) by (intros y H; apply Z.div_le_lower_bound; [lia|exact H]).
    assert (M0 : 0 <= M) by (apply Z.div_pos; [apply Z.mul_nonneg_nonneg; lia|lia]).
    assert (HM4 : 4 * (2 * (Z.of_nat N * (M * M))) <= Q * E).
    { assert (M1 : 8 * M <= 5 * Q) by (pose proof (Z.mul_div_le (Q * (2 ^ 44 + 1)) (2 ^ 45) ltac:(lia)); fold M in H; lia).
      set (nN := 2 * Z.of_nat N) in *. assert (HnN : 0 <= nN) by (apply Z.mul_nonneg_nonneg; lia). replace (2 * (Z.of_nat N * (M * M))) with (nN * (M * M)) by (unfold nN; ring).
      set (k := 2 ^ Z.of_nat (length ext)) in *. assert (Hk : 0 < k) by (apply Z.pow_pos_nonneg; lia).
      assert (H2 : 2 * (nN * Q) <= E). { apply Z.mul_le_mono_pos_l with (p := 2 ^ 59 * k); [lia|]. apply Z.le_trans with (nN * k * (Q * 2 ^ 60)); [apply Z.eq_le_incl; ring|]. apply Z.le_trans with (nN * k * (E * k)); [apply Z.mul_le_mono_nonneg_l; [apply Z.mul_nonneg_nonneg; lia|exact HR]|]. replace (2 ^ 59 * k * E) with (2 ^ 59 * (E * k)) by ring. apply Z.mul_le_mono_nonneg_r; [apply Z.mul_nonneg_nonneg; lia|exact Hr]. }
      assert (H3 : 64 * (M * M) <= 25 * (Q * Q)) by nia. assert (H4 : Q * (2 * (nN * Q)) <= Q * E) by (apply Z.mul_le_mono_nonneg_l; lia).
      assert (H5 : nN * (64 * (M * M)) <= nN * (25 * (Q * Q))) by (apply Z.mul_le_mono_nonneg_l; lia). replace (nN * (64 * (M * M))) with (64 * (nN * (M * M))) in H5 by ring. replace (nN * (25 * (Q * Q))) with (25 * (nN * (Q * Q))) in H5 by ring. replace (Q * (2 * (nN * Q))) with (2 * (nN * (Q * Q))) in H4 by ring.
      assert (0 <= nN * (Q * Q)) by (repeat apply Z.mul_nonneg_nonneg; lia). lia. }
    pose proof (HM _ (Forall_inv Nx)) as Hx0. pose proof (HM _ (Forall_inv (Forall_inv_tail Nx))) as Hx1. pose proof (HM _ (Forall_inv Ny)) as Hy0. pose proof (HM _ (Forall_inv (Forall_inv_tail Ny))) as Hy1.
    assert (Hm : forall a b : Rn N, rnorm a <= M -> rnorm b <= M -> rnorm (a * b)%R <= Z.of_nat N * (M * M)).
    { intros a b Ha Hb. eapply Z.le_trans; [apply rnorm_mul|]. apply Z.mul_le_mono_nonneg_l; [lia|]. apply Z.mul_le_mono_nonneg; try apply rnorm_nonneg; assumption. }
    assert (H0 : 0 <= Z.of_nat N * (M * M)) by (apply Z.mul_nonneg_nonneg; [lia|apply Z.mul_nonneg_nonneg; exact M0]).
    destruct (Hdown [(f0, x0' * y0')%R; (f1, x0' * y1' + x1' * y0')%R; (f2, x1' * y1')%R]) as (vz & Ez & _ & Cz).
    { cbn [map snd]. pose proof (Hm x0' y0' Hx0 Hy0). pose proof (Hm x0' y1' Hx0 Hy1). pose proof (Hm x1' y0' Hx1 Hy0). pose proof (Hm x1' y1' Hx1 Hy1). pose proof (rnorm_add N (x0' * y1')%R (x1' * y0')%R). repeat (apply Forall_cons; [lia|]). constructor. }
    cbn [parts map fst snd] in Ez. apply three_parts in Ez. destruct Ez as (g0 & z0 & g1 & z1 & g2 & z2 & -> & Z0 & Z1 & Z2). cbn [map snd] in Cz. exists g0, g1, g2, z0, z1, z2. split; [exact Z0|]. split; [exact Z1|]. split; [exact Z2|].
    intros s. pose proof (rphase_diff s Q t [z0; z1; z2] [x0' * y0'; x0' * y1' + x1' * y0'; x1' * y1']%R (2 ^ 43) (Q * (2 ^ 42 + 1)) ltac:(apply Z.mul_nonneg_nonneg; lia) Cz ltac:(lia)) as Hd. cbn [length] in Hd.
    replace (rphase s [x0'; x1'] * rphase s [y0'; y1'])%R with (rphase s [x0' * y0'; x0' * y1' + x1' * y0'; x1' * y1']%R); [exact Hd|]. rewrite !rphase_cons, rphase_nil. ring.
  Qed.
End Core.

Set Default Proof Using "Type".
Section Level.
  Context (isp : Z -> bool) (cands : Z -> list Z) (Ho : oracles isp cands) (par : params) (G : good_params isp cands par) (l : nat) (lv : level_ctx) (c : ctx) (A : at_level isp cands par l lv c).
  Notation N := (pa_degree par).
  Notation t := (pa_t par).
  Notation qs := (level_moduli (pa_moduli par) l).
  Notation Q := (prod_list qs).
  Add Ring RnML : (Rn_ring N).
  Set Default Proof Using "All".
  Local Lemma Hc : ctx_ok c. Proof. exact (good_ok _ (al_good _ _ _ _ _ _ A)). Qed.
  Local Lemma Hd : c_degree c = N. Proof. exact (al_deg _ _ _ _ _ _ A). Qed.
  (** What follows the product: relinearization and modulus switching. *)
  Definition mult_finish (m : multiplicator) (ct : ciphertext) : M ciphertext :=
    bind (match m_rk m with Some k => relinearizes k ct | None => Val ct end) (fun ct => if m_switch m then ct_switch_down ct else Val ct).
  Theorem mult_P m lhs rhs post basis : supported par -> textbook par l lhs rhs post -> product_basis par l basis -> mult_new isp cands lhs rhs basis post l par = Val m ->
    forall rk sw, (forall k, rk = Some k -> k_par k = par /\ k_ct_level k = l) -> forall sa sb u0 u1 w0 w1 (x0 x1 y0 y1 : Rn N), exists g0 g1 g2 (z0 z1 z2 : Rn N) (xs' ys' : list (Rn N)),
      let m' := mkMult (m_par m) (m_lhs m) (m_rhs m) (m_down m) (m_base m) (m_mul m) rk sw (m_level m) in
      mult_multiply m' (mkCt par sa (parts c [(u0, x0); (u1, x1)]) l) (mkCt par sb (parts c [(w0, y0); (w1, y1)]) l) = mult_finish m' (mkCt par None (parts c [(g0, z0); (g1, z1); (g2, z2)]) l) /\
      Forall2 (rcong Q) xs' [x0; x1] /\ Forall (fun y => 2 ^ 45 * rnorm y <= Q * (2 ^ 44 + 1)) xs' /\
      Forall2 (rcong Q) ys' [y0; y1] /\ Forall (fun y => 2 ^ 45 * rnorm y <= Q * (2 ^ 44 + 1)) ys' /\
      forall s, 2 ^ 43 * rnorm (Q *: rphase s [z0; z1; z2] - t *: (rphase s xs' * rphase s ys'))%R <= Q * (2 ^ 42 + 1) * geometric (rnorm1 s) 3.
  Proof.
    intros Hs (Fl & Fr & Fp) (ext & -> & Hext & Hroom & Hr2) Em rk sw Hrk sa sb u0 u1 w0 w1 x0 x1 y0 y1. unfold factor_new in Fl, Fr. cbn in Fl, Fr. injection Fl as <-. injection Fr as <-.
    pose proof (Qpos isp cands Ho par G l lv c A) as HQ. unfold level_modulus in Fp, Hroom. unfold factor_new in Fp. destruct (Z.eqb_spec Q 0) as [E0|_]; [lia|]. injection Fp as <-.
    unfold mult_new in Em. rewrite (al_par_context isp cands par l lv c A) in Em. cbn [bind] in Em. apply bind_inv in Em. destruct Em as (to & Eto & Em). apply bind_inv in Em. destruct Em as (up & Eu & Em). apply bind_inv in Em. destruct Em as (up' & Eu' & Em). rewrite Eu in Eu'. injection Eu' as <-. apply bind_inv in Em. destruct Em as (down & Edn & Em). injection Em as <-.
    destruct (level_supported isp cands Ho par G l lv c A Hs) as (Hs1 & Hs2). pose proof (gp_t _ _ _ G) as Ht. pose proof Ho as (H1 & H2). destruct (context_new_good isp H1 cands H2 _ _ _ Eto) as (Hg & Emo & Ede). assert (Bt : built isp cands to) by (eexists _, _; exact Eto).
    assert (Bc : built isp cands c) by (eexists _, _; exact (al_new _ _ _ _ _ _ A)).
    assert (Hle : Z.of_nat (length ext) <= 2 ^ 20 + 2).
    { destruct (Z_le_dec (Z.of_nat (length ext)) (2 ^ 20 + 2)) as [H|H]; [exact H|]. exfalso. pose proof (al_N8 isp cands par l lv c A) as H8. assert (Hp : 2 ^ 59 <= 2 ^ Z.of_nat (length ext)) by (apply Z.pow_le_mono_r; lia). assert (2 * Z.of_nat N * 2 ^ 59 <= 2 * Z.of_nat N * 2 ^ Z.of_nat (length ext)) by (apply Z.mul_le_mono_nonneg_l; lia). lia. }
    assert (Hops : same_ops c to) by (apply (built_same_ops isp cands); [exact Bc|exact Bt|rewrite Ede; apply Hd]). assert (Hops' : same_ops to c) by (apply (built_same_ops isp cands); [exact Bt|exact Bc|rewrite Ede; symmetry; apply Hd]).
    destruct (core_two c to Hc (good_ok _ Hg) N Hd Ede Hops Hops' qs ext (al_mod _ _ _ _ _ _ A) Emo (level_range isp cands Ho par G l lv c A) Hs1 Hs2 Hext Hle Hroom t ltac:(lia) up down Eu Edn Hr2 u0 u1 w0 w1 x0 x1 y0 y1)
      as (a0 & a1 & b0 & b1 & x0' & x1' & y0' & y1' & X0 & X1 & Y0 & Y1 & Cx & Nx & Cy & Ny & Hdn).
    destruct (Hdn (a0 && b0) ((a0 && b1) && (a1 && b0)) (a1 && b1)) as (g0 & g1 & g2 & z0 & z1 & z2 & Z0 & Z1 & Z2 & Hph).
    exists g0, g1, g2, z0, z1, z2, [x0'; x1'], [y0'; y1']. cbv zeta. cbn [m_par m_lhs m_rhs m_down m_base m_mul m_level m_rk m_switch]. split; [|split; [exact Cx|split; [exact Nx|split; [exact Cy|split; [exact Ny|exact Hph]]]]].
    unfold mult_multiply. cbn [m_par m_lhs m_rhs m_down m_base m_mul m_level m_rk m_switch]. rewrite !(ct_validate_eq isp cands Ho par G l lv c A) by (cbn [length]; lia). cbn [bind ct_level ct_c parts map fst snd]. rewrite Nat.eqb_refl. cbn [negb].
    rewrite X0. cbn [bind]. rewrite X1. cbn [bind]. rewrite Y0. cbn [bind]. rewrite Y1. cbn [bind]. repeat (rewrite !(P_mul to (good_ok _ Hg) N Ede); cbn [bind]). rewrite (P_add to (good_ok _ Hg) N Ede) by discriminate. cbn [bind].
    rewrite Z0. cbn [bind]. rewrite Z1. cbn [bind]. rewrite Z2. cbn [bind]. unfold mult_finish. cbn [m_rk m_switch]. destruct rk as [k|]; [|reflexivity]. destruct (Hrk k eq_refl) as (Ek & El).
    unfold relinearizes. rewrite Ek. change ([P Ntt c g0 z0; P Ntt c g1 z1; P Ntt c g2 z2]) with (parts c [(g0, z0); (g1, z1); (g2, z2)]). rewrite (ct_validate_eq isp cands Ho par G l lv c A) by (cbn [length]; lia). cbn [bind ct_c ct_level ct_seed ct_par parts map fst snd]. rewrite El, Nat.eqb_refl. cbn [negb].
    rewrite (P_ntt_pb c Hc N Hd). cbn [bind]. destruct (key_switch k (P PowerBasis c g2 z2)) as [r| |]; cbn [bind]; try reflexivity. rewrite !P_ctx. destruct (ks_down c c r) as [r'| |]; cbn [bind]; try reflexivity.
    destruct (poly_add (P Ntt c g0 z0) (fst r')) as [e0| |]; cbn [bind]; try reflexivity. destruct (poly_add (P Ntt c g1 z1) (snd r')) as [e1| |]; cbn [bind]; reflexivity.
  Qed.
  (** The noise of a product, from the phases. *)
  Lemma product_encrypts sk (Ls : length (sk_coeffs sk) = N) sd (vxs vys vws : list (bool * Rn N)) (xs' ys' : list (Rn N)) (x y e1 e2 : Rn N) B1 B2 : (2 <= length vws)%nat -> length vws = (length vxs + length vys - 1)%nat ->
    Forall2 (rcong Q) xs' (map snd vxs) -> Forall (fun y => 2 ^ 45 * rnorm y <= Q * (2 ^ 44 + 1)) xs' -> Forall2 (rcong Q) ys' (map snd vys) -> Forall (fun y => 2 ^ 45 * rnorm y <= Q * (2 ^ 44 + 1)) ys' ->
    (forall s, 2 ^ 43 * rnorm (Q *: rphase s (map snd vws) - t *: (rphase s xs' * rphase s ys'))%R <= Q * (2 ^ 42 + 1) * geometric (rnorm1 s) (length vxs + length vys - 1)) ->
    rnorm e1 <= B1 -> rnorm e2 <= B2 -> rcong Q (rphase (mkR (sk_coeffs sk) Ls) (map snd vxs)) (rscaled Q t x + e1)%R -> rcong Q (rphase (mkR (sk_coeffs sk) Ls) (map snd vys)) (rscaled Q t y + e2)%R ->
    2 * t * (B1 + 1) <= Q -> 2 * t * (B2 + 1) <= Q ->
    encrypts par sk l (mkCt par sd (parts c vws) l) (rl (x * y)%R) (mul_noise N t Q (norm1 (sk_coeffs sk)) (length vxs) (length vys) B1 B2).
  Proof.
    intros L2w L C1 N1 C2 N2 Hd He1' He2' Hc1 Hc2 S1 S2. pose proof (gp_t _ _ _ G) as Ht.
    pose proof (Qpos isp cands Ho par G l lv c A) as HQ. set (Q := prod_list (level_moduli (pa_moduli par) l)) in *. set (s := mkR (sk_coeffs sk) Ls) in *.
    pose proof (rphase_cong Q s _ _ HQ C1) as D1. pose proof (rphase_cong Q s _ _ HQ C2) as D2. pose proof (rcong_trans _ _ _ _ _ D1 Hc1) as F1. pose proof (rcong_trans _ _ _ _ _ D2 Hc2) as F2.
    apply rcong_exists in F1; [|exact HQ]. apply rcong_exists in F2; [|exact HQ]. destruct F1 as (r1 & F1). destruct F2 as (r2 & F2).
    pose proof (phase_lift_norm par Q s xs' HQ N1) as M1. pose proof (phase_lift_norm par Q s ys' HQ N2) as M2. pose proof (Forall2_len2 _ _ _ C1) as K1. pose proof (Forall2_len2 _ _ _ C2) as K2. rewrite map_length in K1, K2. rewrite K1 in M1. rewrite K2 in M2.
    specialize (Hd s). assert (HS : 0 <= rnorm1 s) by apply rnorm1_nonneg. replace (Q * (2 ^ 42 + 1) * geometric (rnorm1 s) (length vxs + length vys - 1)) with (Q * ((2 ^ 42 + 1) * geometric (rnorm1 s) (length vxs + length vys - 1))) in Hd by ring.
    destruct (product_noise Q t B1 B2 (geometric (rnorm1 s) (length vxs)) (geometric (rnorm1 s) (length vys)) ((2 ^ 42 + 1) * geometric (rnorm1 s) (length vxs + length vys - 1)) (rphase s xs') (rphase s ys') (rphase s (map snd vws)) x y e1 e2 r1 r2) as (e & Ec & En); try assumption; try exact (proj1 Ht); try (apply geometric_nonneg; exact HS).
    { apply Z.mul_nonneg_nonneg; [lia|apply geometric_nonneg; exact HS]. }
    apply (parts_encrypts isp cands Ho par G l lv c A) with (e := e) (Hl := Ls); [exact L2w| |exact Ec]. unfold mul_noise, mul_factor. change (sk_coeffs sk) with (rl s). rewrite <- rnorm1_norm1. exact En.
  Qed.
End Level.
