(** Closing lemmas for the multiparty protocols. *)
From Verif Require Import Outcome BasicSpec OutcomeLemmas ZqModel ZqProofs NumTheory NttModel PolySpec PolyRing NttPure NttStages NttProofs CbdModel CbdSpec CbdProofs.
From Verif Require Import TranscodeModel PrimesModel RnsModel RnsSpec RnsProofs RqModel RqSpec RqCtx RqRows RqProofs RingRn RqOps RqIO RqPropLemmas ParamsModel BfvSpec ParamsProofs BuildProofs ParamsPropLemmas PlainModel CipherModel OpsModel SchemeSpec CipherSpec PlainProofs RnPoly CipherProofs EncryptProofs CipherPropLemmas LinearPropLemmas KeysModel KeysSpec EvalSpec KeysProofs KeySwitchProofs KeyNoiseProofs KeyOpsProofs KeyPropLemmas MbfvModel MbfvSpec MbfvProofs.
From Coq Require Import Znumtheory.
Set Default Proof Using "Type".

Lemma psum_map {N : nat} {S T} (f : S -> Rn N) (g : T -> S) ps : psum f (map g ps) = psum (fun p => f (g p)) ps.
Proof. induction ps as [|p ps IH]; [reflexivity|]. cbn [map]. rewrite !psum_cons, IH. reflexivity. Qed.
Lemma group_R par sks : Forall (is_sk par) sks -> exists Hl : length (sk_coeffs (sum_sks par sks)) = pa_degree par, mkR (sk_coeffs (sum_sks par sks)) Hl = psum (kR par) sks.
Proof.
  intros H. assert (E : sk_coeffs (sum_sks par sks) = rl (psum (kR par) sks)) by (apply sum_sks_R; eapply Forall_impl; [|exact H]; intros sk Hs; apply Hs).
  assert (Hl : length (sk_coeffs (sum_sks par sks)) = pa_degree par) by (rewrite E; apply rl_length). exists Hl. apply rl_inj. rewrite rl_mkR. exact E.
Qed.
Lemma Forall_map_iff {A B} (f : A -> B) (Q : B -> Prop) l : Forall (fun a => Q (f a)) l -> Forall Q (map f l).
Proof. intros H. apply Forall_map. exact H. Qed.

Section Props.
  Context (isp : Z -> bool) (cands : Z -> list Z) (par : params).
  Notation N := (pa_degree par).
  Notation t := (pa_t par).
  Notation v := (pa_variance par).
  Add Ring RnMPL : (Rn_ring N).

  (** *** Common random polynomials *)
  Theorem crp_all : oracles isp cands -> is_params isp cands par -> 
    (forall l rows, (l <= max_level par)%nat -> Forall2 (fun q r => length r = N /\ canonical q r) (level_moduli (pa_moduli par) l) rows -> exists p x, crp_new_leveled par l rows = Val p /\ is_poly par l p x) /\
    (forall rows, (forall i, Forall2 (fun q r => length r = N /\ canonical q r) (pa_moduli par) (rows i)) ->
      exists ps xs, crp_new_vec par rows = Val ps /\ length ps = length (pa_moduli par) /\ Forall2 (is_poly par 0) ps xs).
  Proof.
    intros Ho Hp. pose proof (params_good isp cands par Ho Hp) as G.
    assert (H1 : forall l rows, (l <= max_level par)%nat -> Forall2 (fun q r => length r = N /\ canonical q r) (level_moduli (pa_moduli par) l) rows -> exists p x, crp_new_leveled par l rows = Val p /\ is_poly par l p x).
    { intros l rows Hl Hr. destruct (at_level_ex isp cands par l Ho G Hl) as (lv & c & A). unfold crp_new_leveled. rewrite (al_par_context isp cands par l lv c A). cbn [bind].
      destruct (P_random c (good_ok _ (al_good _ _ _ _ _ _ A)) N (al_deg _ _ _ _ _ _ A) Ntt rows) as (x & E). { rewrite (al_mod _ _ _ _ _ _ A), (al_deg _ _ _ _ _ _ A). exact Hr. }
      exists (P Ntt c false x), (rl x). split; [exact E|]. apply (P_is_poly isp cands Ho par G l lv c A). }
    split; [exact H1|]. intros rows Hr.
    assert (H : forall is, exists ps xs, mapM (fun i => crp_new par (rows i)) is = Val ps /\ length ps = length is /\ Forall2 (is_poly par 0) ps xs).
    { induction is as [|i is (ps & xs & E & L & H)]; [exists [], []; split; [reflexivity|]; split; [reflexivity|constructor]|].
      destruct (H1 0%nat (rows i)) as (p & x & Ep & Hpx); [lia|unfold level_moduli; rewrite Nat.sub_0_r, firstn_all; exact (Hr i)|].
      exists (p :: ps), (x :: xs). cbn [mapM]. change (crp_new par (rows i)) with (crp_new_leveled par 0 (rows i)). rewrite Ep. cbn [bind]. rewrite E. split; [reflexivity|]. split; [cbn [length]; congruence|constructor; assumption]. }
    destruct (H (seq 0 (length (pa_moduli par)))) as (ps & xs & E & L & Hx). rewrite seq_length in L. exists ps, xs. auto.
  Qed.

  (** *** Public keys *)
  Theorem group_pk_all : oracles isp cands -> is_params isp cands par -> forall ps crp a, ps <> [] -> Forall (fun p => is_sk par (fst p) /\ words (snd p)) ps -> is_poly par 0 crp a ->
    exists pk, pk_protocol ps crp = Val pk /\ is_pk par (sum_sks par (map fst ps)) 0 pk (group_noise par (length ps)) /\ nth_error (ct_c (pk_c pk)) 1 = Some crp.
  Proof.
    intros Ho Hp ps crp a Hne H Hcrp. pose proof (params_good isp cands par Ho Hp) as G. destruct (at_level_ex isp cands par 0 Ho G ltac:(lia)) as (lv & c & A).
    destruct (is_poly_P isp cands Ho par G 0 lv c A crp a Hcrp) as (y & Ey & _). rewrite Ey. destruct (pk_protocol_P isp cands Ho par G lv c A ps (p_vt crp) y Hne H) as (w & E). eexists. split; [exact E|].
    destruct (group_R par (map fst ps)) as (Hl & ES). { apply Forall_map_iff. eapply Forall_impl; [|exact H]. intros p Hp'. apply Hp'. }
    split; [|reflexivity]. split; [reflexivity|]. split; [reflexivity|]. cbn [pk_c]. rewrite <- (rl_r0 N).
    apply (parts_encrypts isp cands Ho par G 0 lv c A _ None _ (r0 N) (psum (fun p => cbd_rn N v (snd p)) ps) _ Hl).
    - cbn [length]. lia.
    - apply psum_norm. intros p _. apply (small_norm isp cands Ho par G 0 lv c A).
    - cbn [map snd]. rewrite ES, psum_map, rphase_2. assert (Hz : rscaled (prod_list (level_moduli (pa_moduli par) 0)) t (r0 N) = r0 N) by (apply rn_ext; intros i Hi; rewrite nth_rscaled, nth_r0, Z.mul_0_r; apply Zdiv_0_l). rewrite Hz.
      match goal with |- rcong _ ?x ?y => replace x with y by ring end. apply rcong_refl.
  Qed.

  (** *** Relinearization keys *)
  Lemma level_ratio_0 : level_ratio par 0 0 = 1.
  Proof. unfold level_ratio. rewrite skipn_all. reflexivity. Qed.
  Theorem group_relin_all : oracles isp cands -> is_params isp cands par -> forall ps crps xs, (1 < length (pa_moduli par))%nat -> ps <> [] -> Forall (member_ok par) ps -> length crps = length (pa_moduli par) -> Forall2 (is_poly par 0) crps xs ->
    let S := sum_sks par (map me_sk ps) in
    exists rk, relin_protocol ps crps = Val rk /\ k_log_base rk = 0 /\
      is_ksk par S 0 0 rk (negacyclic N (sk_coeffs S) (sk_coeffs S)) (relin_protocol_noise par (norm1 (sk_coeffs S)) (length ps)).
  Proof.
    intros Ho Hp ps crps xs Hn Hne H Lc Hx S. pose proof (params_good isp cands par Ho Hp) as G. destruct (at_level_ex isp cands par 0 Ho G ltac:(lia)) as (lv & c & A).
    assert (exists va (a : nat -> Rn N), crps = map (fun i => P Ntt c (va i) (a i)) (seq 0 (length (pa_moduli par)))) as (va & a & Ec).
    { rewrite <- Lc. clear - Hx Ho G A. induction Hx as [|p x ps xs Hpx _ (va & a & E)]; [exists (fun _ => true), (fun _ => r0 N); reflexivity|]. destruct (is_poly_P isp cands Ho par G 0 lv c A p x Hpx) as (y & Ey & _).
      exists (fun i => match i with O => p_vt p | Datatypes.S j => va j end), (fun i => match i with O => y | Datatypes.S j => a j end). cbn [length seq map]. rewrite <- Ey. f_equal. rewrite <- seq_shift, map_map. exact E. }
    assert (Hb : rns_basis (pa_moduli par)). { pose proof (basis c (good_ok _ (al_good _ _ _ _ _ _ A))) as B. rewrite (al_mod _ _ _ _ _ _ A) in B. unfold level_moduli in B. rewrite Nat.sub_0_r, firstn_all in B. exact B. }
    destruct (rns_new_ok (pa_moduli par) Hb) as (r & Er & Gr & Ur). pose proof (garner_weights r Gr) as W. rewrite Ur in W.
    destruct (relin_protocol_ksk isp cands Ho par G lv c A (length (pa_moduli par)) va a r eq_refl ltac:(lia) Er (proj1 W) ps) as (rk & E & K).
    - unfold level_moduli. rewrite Nat.sub_0_r, firstn_all. exact W.
    - exact Hne.
    - exact H.
    - exists rk. rewrite Ec. split; [exact E|]. destruct (group_R par (map me_sk ps)) as (Hl & ES). { apply Forall_map_iff. eapply Forall_impl; [|exact H]. intros p Hp'. apply Hp'. }
      rewrite psum_map in ES. change (psum (fun p => kR par (me_sk p)) ps) with (psum (skR par) ps) in ES. rewrite <- ES in K.
      assert (HB : 0 <= relin_protocol_noise par (norm1 (sk_coeffs S)) (length ps)).
      { unfold relin_protocol_noise, group_noise. pose proof (gp_var _ _ _ G). set (V := Z.of_nat (length ps) * (2 * v)). assert (0 <= V) by (apply Z.mul_nonneg_nonneg; lia). pose proof (rnorm1_nonneg (mkR (sk_coeffs S) Hl)) as HN1. rewrite rnorm1_norm1, rl_mkR in HN1.
        assert (0 <= norm1 (sk_coeffs S) * V) by (apply Z.mul_nonneg_nonneg; assumption). assert (0 <= V * V) by (apply Z.mul_nonneg_nonneg; assumption). assert (0 <= Z.of_nat N * (V * V)) by (apply Z.mul_nonneg_nonneg; lia). lia. }
      destruct (R_is_ksk isp cands Ho par G 0 lv c A 0 lv c A S Hl 0 rk _ _ HB K) as (HK & Hb0). split; [exact Hb0|]. rewrite rl_mul in HK. exact HK.
  Qed.
  Theorem group_relin_use_all : oracles isp cands -> is_params isp cands par -> forall ps crps xs, (1 < length (pa_moduli par))%nat -> ps <> [] -> Forall (member_ok par) ps -> length crps = length (pa_moduli par) -> Forall2 (is_poly par 0) crps xs ->
    let S := sum_sks par (map me_sk ps) in is_sk par S ->
    exists rk, relin_protocol ps crps = Val rk /\ forall ct m B, encrypts par S 0 ct m B -> length (ct_c ct) = 3%nat ->
      exists ct', relinearizes rk ct = Val ct' /\ encrypts2 par S 0 ct' m (B + switch_noise par 0 0 (relin_protocol_noise par (norm1 (sk_coeffs S)) (length ps))).
  Proof.
    intros Ho Hp ps crps xs Hn Hne H Lc Hx S HS. destruct (group_relin_all Ho Hp ps crps xs Hn Hne H Lc Hx) as (rk & E & Eb & K). fold S in K. exists rk. split; [exact E|]. pose proof (params_good isp cands par Ho Hp) as G.
    set (B0 := relin_protocol_noise par (norm1 (sk_coeffs S)) (length ps)) in *.
    assert (HB : 0 <= B0).
    { unfold B0, relin_protocol_noise, group_noise. pose proof (gp_var _ _ _ G). set (V := Z.of_nat (length ps) * (2 * v)). assert (0 <= V) by (apply Z.mul_nonneg_nonneg; lia). pose proof (rnorm1_nonneg (mkR (sk_coeffs S) (proj1 (proj2 HS)))) as HN1. rewrite rnorm1_norm1, rl_mkR in HN1.
      assert (0 <= norm1 (sk_coeffs S) * V) by (apply Z.mul_nonneg_nonneg; assumption). assert (0 <= V * V) by (apply Z.mul_nonneg_nonneg; assumption). assert (0 <= Z.of_nat N * (V * V)) by (apply Z.mul_nonneg_nonneg; lia). lia. }
    destruct (relinearizes_all isp cands par Ho Hp S HS 0%nat 0%nat ltac:(lia) ltac:(lia) rk B0 HB) as (_ & HR).
    - rewrite level_ratio_0. rewrite (map_ext _ (fun z => z)) by (intros; ring). rewrite map_id. exact K.
    - intros ct m B He L3. destruct (HR ct m B He L3) as (ct' & E' & L2 & He'). exists ct'. split; [exact E'|]. split; [exact L2|]. rewrite Eb, level_ratio_0 in He'. unfold divided_noise in He'. rewrite Z.sub_diag, Z.mul_0_r, Z.add_0_r, Z.div_1_r in He'. exact He'.
  Qed.
  Theorem relin_errors_all : oracles isp cands -> is_params isp cands par -> forall sk crps rng, is_sk par sk ->
    (length (pa_moduli par) = 1%nat -> gen_new sk crps rng = Err KeySwitchingNotSupported) /\
    (length (pa_moduli par) <> 1%nat -> length crps <> length (pa_moduli par) -> gen_new sk crps rng = Err (InvalidCrpCount (Z.of_nat (length crps)) (Z.of_nat (length (pa_moduli par))))).
  Proof.
    intros Ho Hp sk crps rng (Es & _). pose proof (params_good isp cands par Ho Hp) as G. destruct (at_level_ex isp cands par 0 Ho G ltac:(lia)) as (lv & c & A). unfold gen_new. rewrite Es, (al_par_context isp cands par 0 lv c A). cbn [bind].
    assert (L : length (c_moduli c) = length (pa_moduli par)) by (rewrite (al_mod _ _ _ _ _ _ A); unfold level_moduli; rewrite Nat.sub_0_r, firstn_all; reflexivity). unfold len. rewrite L. split.
    - intros ->. reflexivity.
    - intros H1 H2. destruct (Nat.eqb_spec (length (pa_moduli par)) 1); [contradiction|]. destruct (Nat.eqb_spec (length crps) (length (pa_moduli par))); [contradiction|]. reflexivity.
  Qed.

  (** *** Switching to the key of another group, and decryption *)
  Lemma two_parts l lv c sk ct m B (Hl : length (sk_coeffs sk) = N) : oracles isp cands -> good_params isp cands par -> at_level isp cands par l lv c -> encrypts2 par sk l ct m B ->
    exists v0 v1 (x0 x1 mr e : Rn N), ct = mkCt par (ct_seed ct) (parts c [(v0, x0); (v1, x1)]) l /\ rl mr = m /\ 0 <= rnorm e <= B /\
      rcong (prod_list (level_moduli (pa_moduli par) l)) (x0 + mkR (sk_coeffs sk) Hl * x1)%R (rscaled (prod_list (level_moduli (pa_moduli par) l)) t mr + e)%R.
  Proof.
    intros Ho G A (L2 & He). destruct (encrypts_parts isp cands Ho par G l lv c A sk ct m B Hl He) as (vxs & mr & e & Ect & _ & Lx & Em & Hb & Hc). rewrite L2 in Lx. destruct vxs as [|(v0 & x0) [|(v1 & x1) [|? ?]]]; try discriminate Lx.
    exists v0, v1, x0, x1, mr, e. cbn [map snd] in Hc. rewrite rphase_2 in Hc. split; [exact Ect|]. split; [exact Em|]. split; [exact Hb|exact Hc].
  Qed.
  Theorem group_sks_all : oracles isp cands -> is_params isp cands par -> forall l, (l <= max_level par)%nat -> forall ps ct m B, ps <> [] -> Forall (fun p => is_sk par (fst (fst p)) /\ is_sk par (snd (fst p)) /\ words (snd p)) ps ->
    encrypts2 par (sum_sks par (map (fun p => fst (fst p)) ps)) l ct m B ->
    exists ct', sks_protocol ps ct = Val ct' /\ encrypts2 par (sum_sks par (map (fun p => snd (fst p)) ps)) l ct' m (B + group_noise par (length ps)).
  Proof.
    intros Ho Hp l Hl ps ct m B Hne H He. pose proof (params_good isp cands par Ho Hp) as G. destruct (at_level_ex isp cands par l Ho G Hl) as (lv & c & A).
    destruct (group_R par (map (fun p : secret_key * secret_key * (nat -> Z) => fst (fst p)) ps)) as (H1 & E1). { apply Forall_map_iff. eapply Forall_impl; [|exact H]. intros p Hp'. apply Hp'. }
    destruct (group_R par (map (fun p : secret_key * secret_key * (nat -> Z) => snd (fst p)) ps)) as (H2 & E2). { apply Forall_map_iff. eapply Forall_impl; [|exact H]. intros p Hp'. apply Hp'. }
    destruct (two_parts l lv c _ ct m B H1 Ho G A He) as (v0 & v1 & x0 & x1 & mr & e & -> & <- & Hb & Hc). rewrite E1, psum_map in Hc. rewrite psum_map in E2.
    destruct (sks_protocol_P isp cands Ho par G l lv c A ps (ct_seed ct) v0 v1 x0 x1 Hne H) as (shares & w & Es & Ea). unfold sks_protocol. cbn [ct_seed]. rewrite Es. cbn [bind]. eexists. split; [exact Ea|]. split; [reflexivity|].
    apply (parts_encrypts isp cands Ho par G l lv c A _ None _ mr (e + psum (fun p => cbd_rn N v (snd p)) ps)%R _ H2).
    - cbn [length]. lia.
    - pose proof (rnorm_add N e (psum (fun p => cbd_rn N v (snd p)) ps)). assert (rnorm (psum (fun p => cbd_rn N v (snd p)) ps) <= group_noise par (length ps)) by (apply psum_norm; intros p _; apply (small_norm isp cands Ho par G l lv c A)). lia.
    - cbn [map snd]. rewrite E2, rphase_2. set (S1 := psum (fun p : secret_key * secret_key * (nat -> Z) => kR par (fst (fst p))) ps) in *. set (S2 := psum (fun p : secret_key * secret_key * (nat -> Z) => kR par (snd (fst p))) ps) in *. set (E := psum (fun p => cbd_rn N v (snd p)) ps).
      match goal with |- rcong _ ?x ?y => replace x with (x0 + S1 * x1 + E)%R by ring; replace y with (rscaled (prod_list (level_moduli (pa_moduli par) l)) t mr + e + E)%R by ring end. apply rcong_add; [exact Hc|apply rcong_refl].
  Qed.
  Theorem sks_errors_all : forall sk1 sk2 ct rng, (sk_par sk1 = par -> sk_par sk2 = par -> ct_par ct = par -> length (ct_c ct) <> 2%nat -> sks_new sk1 sk2 ct rng = Err (InvalidPolynomialCount (Z.of_nat (length (ct_c ct))) 2)) /\
    (par_eqb (sk_par sk1) (sk_par sk2) = false \/ par_eqb (sk_par sk2) (ct_par ct) = false -> sks_new sk1 sk2 ct rng = Err ParameterMismatch).
  Proof.
    intros sk1 sk2 ct rng. unfold sks_new. split.
    - intros -> -> -> H. rewrite par_eqb_refl. cbn [negb]. destruct (Nat.eqb_spec (length (ct_c ct)) 2); [contradiction|]. reflexivity.
    - intros [->| ->]; [reflexivity|]. destruct (par_eqb (sk_par sk1) (sk_par sk2)); reflexivity.
  Qed.
  Theorem group_dec_all : oracles isp cands -> is_params isp cands par -> forall l, (l <= max_level par)%nat -> supported par -> group_decryptable par -> forall ps ct m B, ps <> [] -> Forall (fun p => is_sk par (fst p) /\ words (snd p)) ps ->
    encrypts2 par (sum_sks par (map fst ps)) l ct m B -> small_noise par l (B + group_noise par (length ps)) ->
    exists pt, dec_protocol ps ct = Val pt /\ is_pt par l pt (map (fun a => a mod t) m) /\ pt_enc pt = None.
  Proof.
    intros Ho Hp l Hl Hsup Hdec ps ct m B Hne H He Hn. pose proof (params_good isp cands par Ho Hp) as G. destruct (at_level_ex isp cands par l Ho G Hl) as (lv & c & A). pose proof (gp_t _ _ _ G) as Ht. pose proof (gp_var _ _ _ G) as Hvar.
    destruct (group_R par (map fst ps)) as (H1 & E1). { apply Forall_map_iff. eapply Forall_impl; [|exact H]. intros p Hp'. apply Hp'. }
    destruct (two_parts l lv c _ ct m B H1 Ho G A He) as (v0 & v1 & x0 & x1 & mr & e & -> & <- & Hb & Hc). rewrite E1, psum_map in Hc.
    set (zero := mkSk par (repeat 0 N)). assert (Hz : is_sk par zero) by (split; [reflexivity|]; split; [apply repeat_length|]; apply Forall_forall; intros z Hz; apply repeat_spec in Hz; subst z; unfold is_i64; lia).
    set (qs := map (fun p : secret_key * (nat -> Z) => (fst p, zero, snd p)) ps).
    assert (Hq : Forall (fun p => is_sk par (fst (fst p)) /\ is_sk par (snd (fst p)) /\ words (snd p)) qs) by (apply Forall_map_iff; eapply Forall_impl; [|exact H]; intros p (Ha & Hb'); cbn [fst snd]; auto).
    assert (Hqne : qs <> []) by (unfold qs; destruct ps; [congruence|discriminate]).
    destruct (sks_protocol_P isp cands Ho par G l lv c A qs (ct_seed ct) v0 v1 x0 x1 Hqne Hq) as (shares & w & Es & Ea). cbn [ct_seed].
    assert (Ed : mapM (fun p => dec_share_new (fst p) (mkCt par (ct_seed ct) (parts c [(v0, x0); (v1, x1)]) l) (snd p)) ps = Val shares).
    { rewrite <- Es. unfold qs. clear - H. induction H as [|p ps (Ha & _) _ IH]; [reflexivity|]. cbn [map mapM fst snd]. rewrite IH. unfold dec_share_new. rewrite (proj1 Ha). reflexivity. }
    unfold dec_protocol. rewrite Ed. cbn [bind]. unfold qs in Ea. rewrite !psum_map in Ea. cbn [fst snd] in Ea. set (E := psum (fun p => cbd_rn N v (snd p)) ps) in *. set (S := psum (fun p : secret_key * (nat -> Z) => kR par (fst p)) ps) in *.
    assert (Z0 : kR par zero = r0 N) by (apply rl_inj; unfold kR; rewrite rl_toR by apply repeat_length; reflexivity).
    assert (Zs : psum (fun _ : secret_key * (nat -> Z) => kR par zero) ps = r0 N) by (rewrite Z0; clear; induction ps as [|p ps IH]; [reflexivity|]; rewrite psum_cons, IH; ring). rewrite Zs in Ea.
    assert (HE : rnorm E <= group_noise par (length ps)) by (apply psum_norm; intros p _; apply (small_norm isp cands Ho par G l lv c A)).
    assert (H0 : 0 <= group_noise par (length ps)) by (pose proof (rnorm_nonneg N E); lia).
    assert (HtQ : t <= level_modulus par l) by (apply (fits_of_noise isp cands par l (B + group_noise par (length ps))); [lia|lia|exact Hn]).
    eexists. split; [|split; [rewrite <- rl_rmodt; apply (P_pt isp cands Ho par G l lv c A)|reflexivity]].
    eapply (dec_from_P isp cands Ho par G l lv c A shares w v1 _ x1 mr (e + E)%R Ea Hsup).
    - exact Hdec.
    - exact HtQ.
    - match goal with |- rcong _ ?x ?y => replace x with (x0 + S * x1 + E)%R by ring; replace y with (rscaled (prod_list (level_moduli (pa_moduli par) l)) t mr + e + E)%R by ring end. apply rcong_add; [exact Hc|apply rcong_refl].
    - eapply Z.le_trans; [|exact Hn]. pose proof (rnorm_add N e E). apply Z.mul_le_mono_nonneg_l; [lia|]. apply Z.mul_le_mono_nonneg_l; lia.
  Qed.

  (** *** The room for decryption *)
  Theorem decryptable_group_all : oracles isp cands -> is_params isp cands par -> decryptable par -> group_decryptable par.
  Proof.
    intros Ho Hp Hd. pose proof (params_good isp cands par Ho Hp) as G. destruct (at_level_ex isp cands par 0 Ho G (Nat.le_0_l _)) as (lv & c & A). pose proof (plain_prod_base isp cands Ho par G 0 lv c A) as H.
    unfold decryptable in Hd. rewrite <- (base_eq isp cands Ho par G 0 lv c A) in Hd. unfold group_decryptable. change (3 * t + t / 2 ^ 40 + 4 <= 2 * plain_prod par). lia.
  Qed.
  Lemma prod_bits qs : Forall (fun q => 17 <= q) qs -> exists L, 0 <= L /\ 4 * sum_of (map nbits qs) <= 5 * L /\ 2 ^ L <= prod_list qs.
  Proof.
    induction 1 as [|q qs Hq _ (L & H0 & H1 & H2)]; [exists 0; cbn; lia|]. cbn [map sum_of]. change (prod_list (q :: qs)) with (q * prod_list qs). pose proof (Z.log2_spec q ltac:(lia)) as Hl. assert (Z.log2 17 <= Z.log2 q) by (apply Z.log2_le_mono; lia). change (Z.log2 17) with 4 in *.
    exists (Z.log2 q + L). unfold nbits at 1. replace (q <=? 0) with false by (symmetry; apply Z.leb_gt; lia). split; [lia|]. split; [lia|]. rewrite Z.pow_add_r by lia. apply Z.mul_le_mono_nonneg; try lia; apply Z.pow_nonneg; lia.
  Qed.
  Theorem group_room_all : oracles isp cands -> is_params isp cands par -> t < 2 ^ 200 -> 2 * t <= level_modulus par 0 -> group_decryptable par.
  Proof.
    intros Ho Hp Ht2 HtQ. pose proof (params_good isp cands par Ho Hp) as G. pose proof (gp_t _ _ _ G) as Ht. destruct (plain_basis_all (pa_moduli par) t (gp_ne _ _ _ G)) as (k & Ek & Hk & _ & Hb). unfold group_decryptable. rewrite (gp_sizes _ _ _ G), Ek.
    assert (H17 : Forall (fun q => 17 <= q) (pa_moduli par)).
    { destruct Hp as (id & b & Hbb & Eb). destruct (built_all isp cands Ho id b par Hbb Eb) as ((kk & Hkk & En) & _ & _ & _ & _ & (_ & HF & _) & _). eapply Forall_impl; [|exact HF]. cbv beta. intros q (P & _ & Hm). assert (2 ^ 3 <= 2 ^ kk) by (apply Z.pow_le_mono_r; lia). change (2 ^ 3) with 8 in *. apply prime_ge_2 in P. destruct (Z_lt_dec q (2 * b_degree b)) as [Hlt|]; [rewrite Z.mod_small in Hm by lia; lia|]. destruct (Z.eq_dec q 16) as [->|]; [|lia]. assert (2 * b_degree b = 16) by lia. rewrite H0 in Hm. discriminate. }
    assert (Hd : t / 2 ^ 40 <= t / 2 ^ 1) by (apply Z.div_le_compat_l; lia). assert (t / 2 ^ 1 <= t - 1) by (apply Z.lt_le_pred, Z.div_lt; lia). pose proof (Z.div_le_upper_bound t (2 ^ 40) 0) as Hs.
    destruct Hb as [Hb|Hb].
    - destruct (prod_bits (firstn k (pa_moduli par)) (Forall_firstn _ _ _ H17)) as (L & HL & H1 & H2). assert (Hn : nbits t = Z.log2 t + 1) by (unfold nbits; replace (t <=? 0) with false by (symmetry; apply Z.leb_gt; lia); reflexivity).
      assert (Z.log2 t < 200) by (apply Z.log2_lt_pow2; lia). pose proof (Z.log2_spec t ltac:(lia)) as Hl2. pose proof (Z.log2_nonneg t). assert (Hp2 : 2 ^ (Z.succ (Z.log2 t) + 2) <= 2 ^ L) by (apply Z.pow_le_mono_r; lia). rewrite Z.pow_add_r in Hp2 by lia. lia.
    - rewrite Hb, firstn_all. assert (EQ : level_modulus par 0 = prod_list (pa_moduli par)) by (unfold level_modulus, level_moduli; rewrite Nat.sub_0_r, firstn_all; reflexivity). rewrite EQ in HtQ.
      assert (17 <= prod_list (pa_moduli par)). { pose proof (gp_ne _ _ _ G) as Hne. destruct (pa_moduli par) as [|q qs]; [congruence|]. change (prod_list (q :: qs)) with (q * prod_list qs). inversion H17 as [|? ? Hq HF]; subst. assert (1 <= prod_list qs) by (clear - HF; induction HF as [|x l Hx _ IH]; [cbn; lia|]; change (prod_list (x :: l)) with (x * prod_list l); nia). nia. }
      destruct (Z_lt_dec t (2 ^ 40)) as [Hs40|Hs40]; [rewrite Z.div_small by lia; lia|]. assert (t / 2 ^ 40 <= t / 2) by (apply Z.div_le_compat_l; lia). pose proof (Z.mul_div_le t 2 ltac:(lia)). lia.
  Qed.
  Theorem big_room_all : oracles isp cands -> is_params isp cands par -> 2 ^ 64 <= t < 2 ^ 200 -> 2 * t <= level_modulus par 0 -> decryptable par.
  Proof.
    intros Ho Hp Ht HtQ. pose proof (group_room_all Ho Hp ltac:(lia) HtQ) as H. unfold decryptable, decryption_base. replace (t <? 2 ^ 64) with false by (symmetry; apply Z.ltb_ge; lia). exact H.
  Qed.

  (** *** Switching to a public key *)
  Theorem group_pksw_all : oracles isp cands -> is_params isp cands par -> forall l0 l, (l0 <= l)%nat -> (l <= max_level par)%nat -> forall ps sk pk ct m B Bp, ps <> [] ->
    Forall (fun p => is_sk par (fst p) /\ words (fst (fst (snd p))) /\ words (snd (fst (snd p))) /\ words (snd (snd p))) ps -> is_sk par sk -> is_pk par sk l0 pk Bp ->
    encrypts2 par (sum_sks par (map fst ps)) l ct m B ->
    exists ct', pksw_protocol ps pk ct = Val ct' /\
      encrypts2 par sk l ct' m (pksw_noise par (norm1 (sk_coeffs sk)) (length ps) B (dropped_noise (norm1 (sk_coeffs sk)) 2 (dropped (pa_moduli par) l0 (l - l0)) Bp)).
  Proof.
    intros Ho Hp l0 l Hl0 Hl ps sk pk ct m B Bp Hne H Hsk (Epk & L2 & Hpk) He. pose proof (params_good isp cands par Ho Hp) as G. destruct (at_level_ex isp cands par l Ho G Hl) as (lv & c & A). destruct (at_level_ex isp cands par l0 Ho G ltac:(lia)) as (lv0 & c0 & A0).
    pose proof (gp_t _ _ _ G) as Ht. pose proof (gp_var _ _ _ G) as Hvar. set (Q0 := prod_list (level_moduli (pa_moduli par) l0)). set (Q := prod_list (level_moduli (pa_moduli par) l)).
    destruct (group_R par (map fst ps)) as (H1 & E1). { apply Forall_map_iff. eapply Forall_impl; [|exact H]. intros p Hp'. apply Hp'. }
    destruct (two_parts l lv c _ ct m B H1 Ho G A He) as (v0 & v1 & x0 & x1 & mr & e & -> & <- & Hb & Hc). rewrite E1, psum_map in Hc.
    destruct (two_parts l0 lv0 c0 sk (pk_c pk) _ Bp (proj1 (proj2 Hsk)) Ho G A0 (conj L2 Hpk)) as (u0 & u1 & b0 & a0 & zr & ep & Ec & Ez & Hbp & Hcp). rewrite <- (rl_r0 N) in Ez. apply rl_inj in Ez. subst zr.
    set (s := mkR (sk_coeffs sk) (proj1 (proj2 Hsk))) in *. 
    destruct (iter_switch_P isp cands par Ho G (l - l0) l0 lv0 c0 lv c (ct_seed (pk_c pk)) [(u0, b0); (u1, a0)] A0) as (sd' & vys & Ei & Ly & _ & _ & Hnoise). { replace (l0 + (l - l0))%nat with l by lia. exact A. }
    replace (l0 + (l - l0))%nat with l in * by lia. rewrite <- Ec in Ei. destruct (Hnoise s (r0 N) ep) as (ep' & Hep' & Hcp'). { cbn [map snd]. rewrite rphase_2. exact Hcp. }
    destruct vys as [|(w0 & b) [|(w1 & a) [|? ?]]]; try discriminate Ly. cbn [map snd] in Hcp'. rewrite rphase_2 in Hcp'.
    assert (Hz : rscaled Q t (r0 N) = r0 N) by (apply rn_ext; intros i Hi; rewrite nth_rscaled, nth_r0, Z.mul_0_r; apply Zdiv_0_l). fold Q in Hcp', Hc. rewrite Hz in Hcp'. replace (r0 N + ep')%R with ep' in Hcp' by ring.
    assert (Es : switch_until (S (max_level par)) l (pk_c pk) = Val (mkCt par sd' (parts c [(w0, b); (w1, a)]) l)). { rewrite <- Ei. apply switch_until_iter; [lia|]. rewrite Ec. cbn [ct_level]. lia. }
    destruct (pksw_protocol_P isp cands Ho par G l lv c A ps pk (ct_seed ct) sd' [] v0 v1 x0 x1 w0 w1 b a Hne H Epk) as (w & Ew); [rewrite Ec; reflexivity|exact Es|]. cbn [ct_seed]. rewrite Ew. eexists. split; [reflexivity|]. split; [reflexivity|].
    set (U := psum (fun p : secret_key * ((nat -> Z) * (nat -> Z) * (nat -> Z)) => cbd_rn N v (fst (fst (snd p)))) ps) in *. set (E0 := psum (fun p : secret_key * ((nat -> Z) * (nat -> Z) * (nat -> Z)) => cbd_rn N v (snd (fst (snd p)))) ps) in *. set (E2 := psum (fun p : secret_key * ((nat -> Z) * (nat -> Z) * (nat -> Z)) => cbd_rn N v (snd (snd p))) ps) in *.
    set (SS := psum (fun p : secret_key * ((nat -> Z) * (nat -> Z) * (nat -> Z)) => kR par (fst p)) ps) in *.
    apply (parts_encrypts isp cands Ho par G l lv c A sk None _ mr (e + (U * ep' + E0 + s * E2))%R _ (proj1 (proj2 Hsk))).
    - cbn [length]. lia.
    - set (V := group_noise par (length ps)). assert (BU : rnorm U <= V) by (apply psum_norm; intros p _; apply (small_norm isp cands Ho par G l lv c A)). assert (B0 : rnorm E0 <= V) by (apply psum_norm; intros p _; apply (small_norm isp cands Ho par G l lv c A)). assert (B2 : rnorm E2 <= V) by (apply psum_norm; intros p _; apply (small_norm isp cands Ho par G l lv c A)).
      unfold pksw_noise. fold V. change (norm1 (sk_coeffs sk)) with (rnorm1 s). cbn [length] in Hep'. set (D := dropped_noise (rnorm1 s) 2 (dropped (pa_moduli par) l0 (l - l0)) Bp).
      assert (HD : rnorm ep' <= D). { eapply Z.le_trans; [exact Hep'|]. apply dropped_noise_mono; [apply (dropped_pos isp cands par Ho G); lia|lia]. }
      pose proof (rnorm_add N e (U * ep' + E0 + s * E2)%R). pose proof (rnorm_add N (U * ep' + E0)%R (s * E2)%R). pose proof (rnorm_add N (U * ep')%R E0). pose proof (rnorm_mul N U ep'). pose proof (rnorm_mul1 N s E2). pose proof (rnorm_nonneg N U). pose proof (rnorm_nonneg N ep'). pose proof (rnorm1_nonneg s). pose proof (rnorm_nonneg N E2).
      assert (rnorm1 s * rnorm E2 <= rnorm1 s * V) by (apply Z.mul_le_mono_nonneg_l; assumption). assert (rnorm U * rnorm ep' <= V * D) by (apply Z.mul_le_mono_nonneg; assumption). assert (Z.of_nat N * (rnorm U * rnorm ep') <= Z.of_nat N * (V * D)) by (apply Z.mul_le_mono_nonneg_l; [lia|assumption]). lia.
    - cbn [map snd]. rewrite rphase_2. fold s Q.
      match goal with |- rcong _ ?x ?y => replace x with ((x0 + SS * x1) + (U * (b + s * a) + (E0 + s * E2)))%R by ring; replace y with ((rscaled Q t mr + e) + (U * ep' + (E0 + s * E2)))%R by ring end.
      apply rcong_add; [exact Hc|]. apply rcong_add; [|apply rcong_refl]. apply rcong_mul; [apply (HQ isp cands par l lv c Ho G A)|apply rcong_refl|exact Hcp'].
  Qed.
  (** A public key of a level after that of the ciphertext cannot be used. *)
  Theorem pksw_above_all : oracles isp cands -> is_params isp cands par -> forall l0 l, (l < l0)%nat -> (l0 <= max_level par)%nat -> forall sk pk xs ct ru r0 r1, sk_par sk = par -> pk_par pk = par -> is_ct par l0 (pk_c pk) xs -> ct_par ct = par -> ct_level ct = l ->
    pksw_new sk pk ct ru r0 r1 = Err NoMoreContext.
  Proof.
    intros Ho Hp l0 l Hl Hl0 sk pk xs ct ru r0 r1 Es Ep Hpk Ec El. pose proof (params_good isp cands par Ho Hp) as G. destruct (at_level_ex isp cands par l0 Ho G Hl0) as (lv0 & c0 & A0). destruct (ct_parts isp cands Ho par G l0 lv0 c0 A0 (pk_c pk) xs Hpk) as (vxs & E & _).
    unfold pksw_new. rewrite Es, Ep, Ec, El, par_eqb_refl. cbn [negb]. rewrite E at 2. assert (Epc : ct_par (pk_c pk) = par) by (rewrite E; reflexivity). rewrite Epc.
    rewrite (switch_until_above isp cands par Ho G (S (max_level par)) l0 lv0 c0 _ vxs l A0 Hl) by lia. reflexivity.
  Qed.
  (** Only the first two parts of the ciphertext are read. *)
  Theorem pksw_two_parts_all : forall ps pk ct, pksw_protocol ps pk ct = pksw_protocol ps pk (mkCt (ct_par ct) (ct_seed ct) (firstn 2 (ct_c ct)) (ct_level ct)).
  Proof.
    intros ps pk ct. unfold pksw_protocol. f_equal. apply mapM_ext. intros p _. destruct ct as [pp sd cs lv]. unfold pksw_new. cbn [ct_par ct_c ct_level]. destruct cs as [|p0 [|p1 cs]]; reflexivity.
  Qed.

  (** *** Empty groups *)
  Theorem no_shares_all : pk_from_shares [] = Err NoShares /\ r1_from_shares [] = Err NoShares /\ relin_from_shares [] = Err NoShares /\ sks_from_shares [] = Err NoShares /\ dec_from_shares [] = Err NoShares /\ pksw_from_shares [] = Err NoShares.
  Proof. repeat split; reflexivity. Qed.

  (** *** Common random polynomials of another level are not accepted: the program stops. *)
  Theorem crp_level_all : oracles isp cands -> is_params isp cands par -> forall l, (0 < l <= max_level par)%nat -> forall crp a sk rng, is_poly par l crp a -> is_sk par sk -> words rng -> pk_share_new sk crp rng = Panic.
  Proof.
    intros Ho Hp l Hl crp a sk rng Hcrp Hsk Hr. pose proof (params_good isp cands par Ho Hp) as G. destruct (at_level_ex isp cands par 0 Ho G ltac:(lia)) as (lv & c & A). destruct (at_level_ex isp cands par l Ho G ltac:(lia)) as (lv' & c' & A').
    destruct (is_poly_P isp cands Ho par G l lv' c' A' crp a Hcrp) as (y & Ey & _). rewrite Ey. unfold pk_share_new. rewrite (proj1 Hsk), (al_par_context isp cands par 0 lv c A). cbn [bind]. rewrite (sk_poly_R isp cands Ho par G 0 lv c A _ Hsk). cbn [bind]. rewrite (small_R isp cands Ho par G 0 lv c A _ Hr). cbn [bind].
    rewrite (P_neg c' (good_ok _ (al_good _ _ _ _ _ _ A')) N (al_deg _ _ _ _ _ _ A')) by discriminate. cbn [bind]. rewrite P_disallow.
    assert (Hne : ctx_eqb c' c = false). { destruct (ctx_eqb c' c) eqn:E; [|reflexivity]. apply ctx_eqb_true in E. exfalso. pose proof (al_mod _ _ _ _ _ _ A) as M. pose proof (al_mod _ _ _ _ _ _ A') as M'. pose proof (al_lt _ _ _ _ _ _ A').
      assert (L : length (c_moduli c') = length (c_moduli c)) by (f_equal; apply E). rewrite M, M' in L. unfold level_moduli in L. rewrite !firstn_length in L. lia. }
    unfold poly_mul, poly_op2. rewrite !P_ctx, Hne. unfold P at 1. cbn [p_lazy poly_of negb andb guard bind]. match goal with |- context [guard ?b] => destruct b end; reflexivity.
  Qed.

  (** *** Encryption to a group, decryption by the group *)
  Theorem group_roundtrip_all : oracles isp cands -> is_params isp cands par -> supported par -> group_decryptable par -> forall ps crp a, ps <> [] -> Forall (fun p => is_sk par (fst p) /\ words (snd p)) ps -> is_poly par 0 crp a ->
    forall S, S = sum_sks par (map fst ps) -> is_sk par S ->
    exists pk, pk_protocol ps crp = Val pk /\ forall l, (l <= max_level par)%nat ->
      small_noise par l (pk_noise par (norm1 (sk_coeffs S)) (dropped_noise (norm1 (sk_coeffs S)) 2 (dropped (pa_moduli par) 0 l) (group_noise par (length ps))) + group_noise par (length ps)) ->
      forall pt m ru r1 r2 ds, words ru -> words r1 -> words r2 -> is_pt par l pt m -> canonical t m -> Forall (fun p => words (snd p)) ds -> map fst ds = map fst ps ->
      exists ct pt', pk_encrypt pk pt ru r1 r2 = Val ct /\ dec_protocol ds ct = Val pt' /\ is_pt par l pt' m.
  Proof.
    intros Ho Hp Hsup Hdec ps crp a Hne H Hcrp S ES HS. pose proof (params_good isp cands par Ho Hp) as G. pose proof (gp_t _ _ _ G) as Ht. pose proof (gp_var _ _ _ G) as Hv.
    destruct (group_pk_all Ho Hp ps crp a Hne H Hcrp) as (pk & E & Hpk & _). exists pk. split; [exact E|]. intros l Hl Hn pt m ru r1 r2 ds W0 W1 W2 Hpt Hm Hd Ed. rewrite <- ES in Hpk.
    set (T := norm1 (sk_coeffs S)) in *. set (V := group_noise par (length ps)) in *. assert (HV : 0 <= V) by (unfold V, group_noise; apply Z.mul_nonneg_nonneg; lia).
    assert (HT : 0 <= T) by (apply (rnorm1_nonneg (mkR (sk_coeffs S) (proj1 (proj2 HS))))).
    assert (HD : forall qs B, Forall (fun q => 0 < q) qs -> 0 <= B -> 0 <= dropped_noise T 2 qs B).
    { induction qs as [|q qs IH]; intros B Hq HB; [exact HB|]. inversion Hq; subst. cbn [dropped_noise fold_left]. apply IH; [assumption|]. unfold switched_noise. apply Z.div_pos; [|lia]. pose proof (geometric_nonneg T 2 HT). nia. }
    specialize (HD (dropped (pa_moduli par) 0 l) V (dropped_pos isp cands par Ho G 0 l Hl) HV). set (D := dropped_noise T 2 (dropped (pa_moduli par) 0 l) V) in *.
    assert (HB : 0 <= pk_noise par T D). { unfold pk_noise. assert (0 <= T * (2 * v)) by (apply Z.mul_nonneg_nonneg; lia). assert (0 <= Z.of_nat N * (2 * v) * D) by (apply Z.mul_nonneg_nonneg; [apply Z.mul_nonneg_nonneg; lia|exact HD]). lia. }
    assert (HtQ : t <= level_modulus par l) by (apply (fits_of_noise isp cands par l (pk_noise par T D + V)); [lia|lia|exact Hn]).
    destruct (pk_encrypt_all isp cands par Ho Hp 0 l (Nat.le_0_l _) Hl S pk V ru r1 r2 pt m HS Hpk W0 W1 W2 Hpt Hm HtQ) as (ct & Ec & _ & L2 & He). rewrite Nat.sub_0_r in He. fold T D in He.
    assert (Ld : length ds = length ps) by (rewrite <- (map_length fst ds), <- (map_length fst ps), Ed; reflexivity).
    destruct (group_dec_all Ho Hp l Hl Hsup Hdec ds ct m (pk_noise par T D)) as (pt' & Edc & Hpt' & _).
    - intros ->. cbn [map] in Ed. destruct ps; [congruence|discriminate Ed].
    - clear - H Hd Ed. apply Forall_forall. intros p Hi. split; [|exact (proj1 (Forall_forall _ _) Hd p Hi)]. assert (Hi' : In (fst p) (map fst ps)) by (rewrite <- Ed; apply in_map; exact Hi). apply in_map_iff in Hi'. destruct Hi' as (q & <- & Hq). exact (proj1 (proj1 (Forall_forall _ _) H q Hq)).
    - rewrite Ed, <- ES. split; [exact L2|exact He].
    - rewrite Ld. exact Hn.
    - exists ct, pt'. split; [exact Ec|]. split; [exact Edc|]. rewrite (map_ext_in _ (fun z => z)), map_id in Hpt'; [exact Hpt'|]. intros z Hz. apply Z.mod_small. exact (proj1 (Forall_forall _ _) Hm z Hz).
  Qed.

  (** *** A switch of a ciphertext of three parts to a public key loses its message. *)
  Lemma sum_one sk : is_sk par sk -> sum_sks par [sk] = sk.
  Proof.
    intros (E & L & _). assert (Es : sk_coeffs (sum_sks par [sk]) = sk_coeffs sk). { rewrite sum_sks_R by (constructor; [exact L|constructor]). rewrite psum_cons. replace (toR N (sk_coeffs sk) + psum (fun sk => toR N (sk_coeffs sk)) [])%R with (toR N (sk_coeffs sk)) by (cbn [psum fold_right]; ring). apply rl_toR. exact L. }
    destruct sk as [pp cs]. cbn [sk_par sk_coeffs] in *. subst pp. unfold sum_sks in *. cbn [sk_coeffs] in Es. rewrite Es. reflexivity.
  Qed.
  Theorem pksw_three_all : oracles isp cands -> is_params isp cands par -> supported par -> decryptable par -> small_noise par 0 (2 * group_noise par 1) -> forall m ru r1 r2, length m = N -> canonical t m -> words ru -> words r1 -> words r2 ->
    exists sk pk ct ct' pt pt', is_sk par sk /\ is_pk par sk 0 pk 0 /\ length (ct_c ct) = 3%nat /\ encrypts par sk 0 ct m 0 /\ sk_decrypt sk ct = Val pt /\ is_pt par 0 pt m /\
      pksw_protocol [(sk, (ru, r1, r2))] pk ct = Val ct' /\ sk_decrypt sk ct' = Val pt' /\ is_pt par 0 pt' (repeat 0 N).
  Proof.
    intros Ho Hp Hsup Hdec Hn m ru r_1 r2 Lm Hm W0 W1 W2. pose proof (params_good isp cands par Ho Hp) as G. destruct (at_level_ex isp cands par 0 Ho G ltac:(lia)) as (lv & c & A). pose proof (gp_t _ _ _ G) as Ht. pose proof (gp_var _ _ _ G) as Hv. pose proof (N_pos isp cands Ho par G 0 lv c A) as HN.
    set (mr := mkR m Lm). set (sk := mkSk par (rl (r1 N))). pose proof (rl_length (r1 N)) as Ls.
    assert (Hsk : is_sk par sk). { split; [reflexivity|]. split; [exact Ls|]. cbn [sk_coeffs sk]. apply Forall_forall. intros z Hz. apply (In_nth _ _ 0) in Hz. destruct Hz as (i & Hi & <-). change (rl (r1 N)) with (lone N). rewrite (nth_lone N i HN). destruct (Nat.eqb i 0); unfold is_i64; lia. }
    assert (Es : mkR (sk_coeffs sk) Ls = r1 N) by (apply rl_inj; rewrite rl_mkR; reflexivity).
    assert (Hz : rscaled (prod_list (level_moduli (pa_moduli par) 0)) t (r0 N) = r0 N) by (apply rn_ext; intros i Hi; rewrite nth_rscaled, nth_r0, Z.mul_0_r; apply Zdiv_0_l).
    assert (N0 : rnorm (r0 N) <= 0) by (rewrite rnorm_0; lia).
    set (ct2 := mkCt par None (parts c [(true, r0 N); (true, r0 N)]) 0%nat). set (ct := mkCt par None (parts c [(true, r0 N); (true, r0 N); (true, rscaled (prod_list (level_moduli (pa_moduli par) 0)) t mr)]) 0%nat). set (pk := mkPk par ct2).
    assert (E2 : encrypts par sk 0 ct2 (rl (r0 N)) 0). { apply (parts_encrypts isp cands Ho par G 0 lv c A sk None _ (r0 N) (r0 N) 0 Ls); [cbn [length]; lia|exact N0|]. cbn [map snd]. rewrite Es, rphase_2, Hz. match goal with |- rcong _ ?x ?y => replace x with y by ring end. apply rcong_refl. }
    assert (E3 : encrypts par sk 0 ct m 0). { replace m with (rl mr) by apply rl_mkR. apply (parts_encrypts isp cands Ho par G 0 lv c A sk None _ mr (r0 N) 0 Ls); [cbn [length]; lia|exact N0|]. cbn [map snd]. rewrite Es, EncryptProofs.rphase_cons, EncryptProofs.rphase_2. match goal with |- rcong _ ?x ?y => replace x with y by ring end. apply rcong_refl. }
    assert (Hpk : is_pk par sk 0 pk 0) by (split; [reflexivity|]; split; [reflexivity|]; rewrite (rl_r0 N) in E2; exact E2).
    assert (T1 : norm1 (sk_coeffs sk) = 1). { cbn [sk_coeffs sk]. change (rl (r1 N)) with (lone N). clear - HN. destruct N as [|n]; [lia|]. unfold norm1. cbn [lone fold_right]. assert (Z0 : fold_right (fun a m => Z.abs a + m) 0 (repeat 0 n) = 0) by (clear; induction n as [|n IH]; [reflexivity|]; cbn [repeat fold_right]; rewrite IH; reflexivity). rewrite Z0. reflexivity. }
    set (V := group_noise par 1) in *. assert (HV : 0 <= V) by (unfold V, group_noise; lia).
    assert (Hn0 : small_noise par 0 0). { unfold small_noise in *. eapply Z.le_trans; [|exact Hn]. apply Z.mul_le_mono_nonneg_l; [lia|]. apply Z.mul_le_mono_nonneg_l; lia. }
    destruct (decrypt_all isp cands par Ho Hp 0 ltac:(lia) Hsup Hdec sk ct m 0 Hsk E3 Hn0) as (pt & Ept & Hpt & _).
    destruct (group_pksw_all Ho Hp 0 0 (Nat.le_refl _) ltac:(lia) [(sk, (ru, r_1, r2))] sk pk ct2 (rl (r0 N)) 0 0) as (ct' & Ew & (_ & Hw)).
    { discriminate. } { constructor; [|constructor]. cbn [fst snd]. auto. } { exact Hsk. } { exact Hpk. } { cbn [map fst]. rewrite (sum_one sk Hsk). split; [reflexivity|exact E2]. }
    cbn [length] in Hw. rewrite T1 in Hw. cbn [dropped_noise dropped Nat.sub fold_left] in Hw.
    assert (Hn2 : small_noise par 0 (pksw_noise par 1 1 0 0)). { unfold pksw_noise. fold V. replace (0 + Z.of_nat N * V * 0 + V + 1 * V) with (2 * V) by ring. exact Hn. }
    destruct (decrypt_all isp cands par Ho Hp 0 ltac:(lia) Hsup Hdec sk ct' _ _ Hsk Hw Hn2) as (pt' & Ept' & Hpt' & _).
    exists sk, pk, ct, ct', pt, pt'. split; [exact Hsk|]. split; [exact Hpk|]. split; [reflexivity|]. split; [exact E3|]. split; [exact Ept|]. split; [|split; [|split; [exact Ept'|]]].
    - rewrite (map_ext_in _ (fun z => z)), map_id in Hpt; [exact Hpt|]. intros z Hz'. apply Z.mod_small. exact (proj1 (Forall_forall _ _) Hm z Hz').
    - rewrite pksw_two_parts_all. exact Ew.
    - rewrite rl_r0 in Hpt'. rewrite (map_ext_in _ (fun z => z)), map_id in Hpt'; [exact Hpt'|]. intros z Hz'. apply repeat_spec in Hz'. subst z. apply Zmod_0_l.
  Qed.
End Props.
