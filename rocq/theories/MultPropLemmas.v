(** Closing lemmas for the property about products: multiplicators. *)
From Verif Require Import Outcome BasicSpec OutcomeLemmas ZqModel ZqProofs NumTheory NttModel PolySpec PolyRing NttPure NttStages NttProofs CbdModel CbdSpec CbdProofs.
From Verif Require Import TranscodeModel RnsModel RnsSpec RnsProofs RqModel RqSpec RqCtx RqRows RqProofs RingRn RqOps RqIO ParamsModel BfvSpec ParamsProofs BuildProofs ParamsPropLemmas PlainModel CipherModel OpsModel SchemeSpec CipherSpec PlainProofs RnPoly CipherProofs EncryptProofs CipherPropLemmas LinearPropLemmas SerialPropLemmas MulProofs MulPropLemmas KeysModel KeysSpec KeyPropLemmas RgswSpec MultProofs.
From Coq Require Import Znumtheory.
Set Default Proof Using "Type".

Section Props.
  Context (isp : Z -> bool) (cands : Z -> list Z) (par : params).
  Notation N := (pa_degree par).
  Notation t := (pa_t par).
  (** A multiplicator that [mult_new] made, whatever was enabled afterwards. *)
  Definition made_from (m0 m : multiplicator) : Prop :=
    m = mkMult (m_par m0) (m_lhs m0) (m_rhs m0) (m_down m0) (m_base m0) (m_mul m0) (m_rk m) (m_switch m) (m_level m0).
  Lemma mult_new_fields lhs rhs basis post l m : mult_new isp cands lhs rhs basis post l par = Val m -> m_par m = par /\ m_level m = l /\ par_context par l = Val (m_base m) /\ m_rk m = None /\ m_switch m = false.
  Proof.
    unfold mult_new. intros Em. apply bind_inv in Em. destruct Em as (b & Eb & Em). apply bind_inv in Em. destruct Em as (to & Eto & Em). apply bind_inv in Em. destruct Em as (up & Eu & Em). apply bind_inv in Em. destruct Em as (up' & Eu' & Em). apply bind_inv in Em. destruct Em as (down & Edn & Em). injection Em as <-. cbn. auto.
  Qed.
  Lemma enable_switch_inv m m' : mult_enable_switch m = Val m' -> m' = mkMult (m_par m) (m_lhs m) (m_rhs m) (m_down m) (m_base m) (m_mul m) (m_rk m) true (m_level m).
  Proof. unfold mult_enable_switch. intros H. apply bind_inv in H. destruct H as (c & _ & H). destruct (ctx_eqb c (m_base m)); [discriminate|]. injection H as <-. reflexivity. Qed.
  Lemma enable_relin_inv m k m' : mult_enable_relin m k = Val m' -> m' = mkMult (m_par m) (m_lhs m) (m_rhs m) (m_down m) (m_base m) (m_mul m) (Some k) (m_switch m) (m_level m).
  Proof. unfold mult_enable_relin. intros H. apply bind_inv in H. destruct H as (c & _ & H). destruct (negb (ctx_eqb c (m_base m))); [discriminate|]. injection H as <-. reflexivity. Qed.
  Lemma generic m0 lhs rhs post basis l : oracles isp cands -> is_params isp cands par -> supported par -> (l <= max_level par)%nat -> textbook par l lhs rhs post -> product_basis par l basis -> mult_new isp cands lhs rhs basis post l par = Val m0 ->
    forall m, made_from m0 m -> (forall k, m_rk m = Some k -> k_par k = par /\ k_ct_level k = l) ->
    forall sk a b m1 m2 B1 B2, is_sk par sk -> encrypts par sk l a m1 B1 -> encrypts par sk l b m2 B2 -> length (ct_c a) = 2%nat -> length (ct_c b) = 2%nat -> 2 * t * (B1 + 1) <= level_modulus par l -> 2 * t * (B2 + 1) <= level_modulus par l ->
    exists ct, mult_multiply m a b = mult_finish m ct /\ ct_seed ct = None /\ length (ct_c ct) = 3%nat /\ encrypts par sk l ct (negacyclic N m1 m2) (mul_noise N t (level_modulus par l) (norm1 (sk_coeffs sk)) 2 2 B1 B2).
  Proof.
    intros Ho Hp Hs Hl Ht Hb Em m Hm Hk sk a b m1 m2 B1 B2 (_ & Ls & _) Ha Hb' La Lb S1 S2. pose proof (params_good isp cands par Ho Hp) as G. destruct (at_level_ex isp cands par l Ho G Hl) as (lv & c & A). unfold level_modulus in S1, S2 |- *.
    destruct (encrypts_parts isp cands Ho par G l lv c A sk a m1 B1 Ls Ha) as (vxs & x & e1 & Ea & L1 & L1' & <- & (He1 & He1') & Hc1). destruct (encrypts_parts isp cands Ho par G l lv c A sk b m2 B2 Ls Hb') as (vys & y & e2 & Eb & L2 & L2' & <- & (He2 & He2') & Hc2).
    rewrite La in L1'. rewrite Lb in L2'. destruct vxs as [|(u0 & x0) [|(u1 & x1) [|? ?]]]; try discriminate. destruct vys as [|(w0 & y0) [|(w1 & y1) [|? ?]]]; try discriminate. cbn [map snd] in Hc1, Hc2.
    destruct (mult_P isp cands Ho par G l lv c A m0 lhs rhs post basis Hs Ht Hb Em (m_rk m) (m_switch m) Hk (ct_seed a) (ct_seed b) u0 u1 w0 w1 x0 x1 y0 y1) as (g0 & g1 & g2 & z0 & z1 & z2 & xs' & ys' & E & C1 & N1 & C2 & N2 & Hph). cbv zeta in E. rewrite <- Hm, <- Ea, <- Eb in E.
    exists (mkCt par None (parts c [(g0, z0); (g1, z1); (g2, z2)]) l). split; [exact E|]. split; [reflexivity|]. split; [reflexivity|]. rewrite <- rl_mul.
    refine (product_encrypts isp cands Ho par G l lv c A sk Ls None [(u0, x0); (u1, x1)] [(w0, y0); (w1, y1)] [(g0, z0); (g1, z1); (g2, z2)] xs' ys' x y e1 e2 B1 B2 _ _ C1 N1 C2 N2 Hph He1' He2' Hc1 Hc2 S1 S2); cbn [length]; lia.
  Qed.
  Lemma switch_one : oracles isp cands -> is_params isp cands par -> forall l, (l < max_level par)%nat -> forall sk a m B, is_sk par sk -> encrypts par sk l a m B ->
    exists ct, ct_switch_down a = Val ct /\ ct_seed ct = None /\ length (ct_c ct) = length (ct_c a) /\ encrypts par sk (S l) ct m (dropped_noise (norm1 (sk_coeffs sk)) (length (ct_c a)) (dropped (pa_moduli par) l 1) B).
  Proof.
    intros Ho Hp l Hl sk a m B Hsk He. destruct (enc_switch_all isp cands par Ho Hp l (S l) ltac:(lia) ltac:(lia) sk a m B Hsk He) as (ct & E & Hc).
    pose proof He as (xs & e & Hct & _). rewrite (switch_loop par a (S l) l (proj1 Hct) (proj1 (proj2 Hct)) ltac:(lia) ltac:(lia)) in E. replace (S l - l)%nat with 1%nat in E, Hc by lia. cbn [iterM] in E. destruct (switch_down_all isp cands par Ho Hp l Hl a xs Hct) as (ct' & E' & Es & Hct').
    rewrite E' in E. cbn [bind] in E. injection E as <-. exists ct'. split; [exact E'|]. split; [exact Es|]. split; [|exact Hc].
    destruct Hct as (_ & _ & F). destruct Hct' as (_ & _ & F'). apply Forall2_len2 in F. apply Forall2_len2 in F'. rewrite map_length in F'. congruence.
  Qed.
  (** Products without relinearization. *)
  Theorem mult_new_all : oracles isp cands -> is_params isp cands par -> supported par -> forall l, (l <= max_level par)%nat -> forall lhs rhs post basis, textbook par l lhs rhs post -> product_basis par l basis ->
    forall m, mult_new isp cands lhs rhs basis post l par = Val m -> forall sk a b m1 m2 B1 B2, is_sk par sk -> encrypts par sk l a m1 B1 -> encrypts par sk l b m2 B2 -> length (ct_c a) = 2%nat -> length (ct_c b) = 2%nat ->
    2 * t * (B1 + 1) <= level_modulus par l -> 2 * t * (B2 + 1) <= level_modulus par l ->
    let B := mul_noise N t (level_modulus par l) (norm1 (sk_coeffs sk)) 2 2 B1 B2 in
    (exists ct, mult_multiply m a b = Val ct /\ ct_seed ct = None /\ length (ct_c ct) = 3%nat /\ encrypts par sk l ct (negacyclic N m1 m2) B) /\
    ((l < max_level par)%nat -> exists m' ct, mult_enable_switch m = Val m' /\ mult_multiply m' a b = Val ct /\ ct_seed ct = None /\ length (ct_c ct) = 3%nat /\
       encrypts par sk (S l) ct (negacyclic N m1 m2) (dropped_noise (norm1 (sk_coeffs sk)) 3 (dropped (pa_moduli par) l 1) B)) /\
    (l = max_level par -> mult_enable_switch m = Err NoMoreContext).
  Proof.
    intros Ho Hp Hs l Hl lhs rhs post basis Ht Hb m Em sk a b m1 m2 B1 B2 Hsk Ha Hb' La Lb S1 S2 B. destruct (mult_new_fields _ _ _ _ _ _ Em) as (F1 & F2 & F3 & F4 & F5).
    pose proof (params_good isp cands par Ho Hp) as G. destruct (at_level_ex isp cands par l Ho G Hl) as (lv & c & A). destruct (at_level_ex isp cands par (max_level par) Ho G ltac:(lia)) as (lv' & c' & A').
    pose proof (al_par_context isp cands par l lv c A) as Ec. rewrite F3 in Ec. injection Ec as Ec.
    split; [|split].
    - destruct (generic m lhs rhs post basis l Ho Hp Hs Hl Ht Hb Em m) with (sk := sk) (a := a) (b := b) (m1 := m1) (m2 := m2) (B1 := B1) (B2 := B2) as (ct & E & H1 & H2 & H3); try assumption; [destruct m; reflexivity|rewrite F4; discriminate|].
      exists ct. unfold mult_finish in E. rewrite F4, F5 in E. auto.
    - intros Hlt. unfold mult_enable_switch. rewrite F1, (al_par_context isp cands par _ lv' c' A'). cbn [bind]. rewrite Ec.
      replace (ctx_eqb c' c) with false by (symmetry; apply not_true_is_false; intros H; apply ctx_eqb_true in H; destruct H as (H & _); pose proof (al_moduli_length isp cands par l lv c A) as K1; pose proof (al_moduli_length isp cands par _ lv' c' A') as K2; rewrite H, K1 in K2; pose proof (al_lt _ _ _ _ _ _ A); pose proof (al_lt _ _ _ _ _ _ A'); lia).
      eexists. destruct (generic m lhs rhs post basis l Ho Hp Hs Hl Ht Hb Em (mkMult par (m_lhs m) (m_rhs m) (m_down m) c (m_mul m) (m_rk m) true (m_level m))) with (sk := sk) (a := a) (b := b) (m1 := m1) (m2 := m2) (B1 := B1) (B2 := B2) as (ct & E & H1 & H2 & H3); try assumption.
      + unfold made_from. cbn. congruence.
      + cbn. rewrite F4. discriminate.
      + destruct (switch_one Ho Hp l Hlt sk ct _ _ Hsk H3) as (ct' & E' & H1' & H2' & H3'). exists ct'. split; [reflexivity|]. rewrite E. unfold mult_finish. cbn [m_rk m_switch]. rewrite F4. cbn [bind]. rewrite H2 in H2', H3'. auto.
    - intros ->. unfold mult_enable_switch. rewrite F1, (al_par_context isp cands par _ lv c A). cbn [bind]. rewrite Ec, ctx_eqb_refl. reflexivity.
  Qed.
  (** Products with relinearization, by any multiplicator for that basis. *)
  Lemma relin_generic m0 lhs rhs post basis l : oracles isp cands -> is_params isp cands par -> supported par -> (l <= max_level par)%nat -> textbook par l lhs rhs post -> product_basis par l basis -> mult_new isp cands lhs rhs basis post l par = Val m0 ->
    forall sk, is_sk par sk -> forall l2, (l2 <= l)%nat -> forall k B, 0 <= B -> is_ksk par sk l l2 k (map (Z.mul (level_ratio par l l2)) (negacyclic N (sk_coeffs sk) (sk_coeffs sk))) B ->
    exists m, mult_enable_relin m0 k = Val m /\ forall a b m1 m2 B1 B2, encrypts par sk l a m1 B1 -> encrypts par sk l b m2 B2 -> length (ct_c a) = 2%nat -> length (ct_c b) = 2%nat ->
    2 * t * (B1 + 1) <= level_modulus par l -> 2 * t * (B2 + 1) <= level_modulus par l ->
    let B' := mul_noise N t (level_modulus par l) (norm1 (sk_coeffs sk)) 2 2 B1 B2 + divided_noise (norm1 (sk_coeffs sk)) (level_ratio par l l2) (switch_noise par l (k_log_base k) B) in
    (exists ct, mult_multiply m a b = Val ct /\ ct_seed ct = None /\ length (ct_c ct) = 2%nat /\ encrypts par sk l ct (negacyclic N m1 m2) B') /\
    ((l < max_level par)%nat -> exists m' ct, mult_enable_switch m = Val m' /\ mult_multiply m' a b = Val ct /\ ct_seed ct = None /\ length (ct_c ct) = 2%nat /\
       encrypts par sk (S l) ct (negacyclic N m1 m2) (dropped_noise (norm1 (sk_coeffs sk)) 2 (dropped (pa_moduli par) l 1) B')) /\
    (l = max_level par -> mult_enable_switch m = Err NoMoreContext).
  Proof.
    intros Ho Hp Hs Hl Ht Hb Em sk Hsk l2 Hl2 k B HB HK. destruct (mult_new_fields _ _ _ _ _ _ Em) as (F1 & F2 & F3 & F4 & F5). pose proof HK as (K1 & K2 & _ & K3 & _).
    pose proof (params_good isp cands par Ho Hp) as G. destruct (at_level_ex isp cands par l Ho G Hl) as (lv & c & A). destruct (at_level_ex isp cands par (max_level par) Ho G ltac:(lia)) as (lv' & c' & A').
    pose proof (al_par_context isp cands par l lv c A) as Ec. rewrite F3 in Ec. injection Ec as Ec.
    exists (mkMult par (m_lhs m0) (m_rhs m0) (m_down m0) c (m_mul m0) (Some k) false l). split.
    { unfold mult_enable_relin. rewrite F1, K2, F3. cbn [bind]. rewrite ctx_eqb_refl. cbn [negb]. rewrite F5, F2, Ec. reflexivity. }
    intros a b m1 m2 B1 B2 Ha Hb' La Lb S1 S2 B'.
    assert (Hgen : forall sw, exists ct, mult_multiply (mkMult par (m_lhs m0) (m_rhs m0) (m_down m0) c (m_mul m0) (Some k) sw l) a b = (if sw then ct_switch_down ct else Val ct) /\ ct_seed ct = None /\ length (ct_c ct) = 2%nat /\ encrypts par sk l ct (negacyclic N m1 m2) B').
    { intros sw. destruct (generic m0 lhs rhs post basis l Ho Hp Hs Hl Ht Hb Em (mkMult par (m_lhs m0) (m_rhs m0) (m_down m0) c (m_mul m0) (Some k) sw l)) with (sk := sk) (a := a) (b := b) (m1 := m1) (m2 := m2) (B1 := B1) (B2 := B2) as (ct & E & H1 & H2 & H3); try assumption.
      - unfold made_from. cbn. congruence.
      - cbn. intros k' Hk'. injection Hk' as <-. auto.
      - destruct (relinearizes_all isp cands par Ho Hp sk Hsk l l2 Hl Hl2 k B HB HK) as (R1 & R2). destruct (R2 ct _ _ H3 H2) as (ct' & E' & H2' & H3'). exists ct'. rewrite E. unfold mult_finish. cbn [m_rk m_switch]. rewrite E'. cbn [bind]. split; [reflexivity|]. split; [|split; [exact H2'|exact H3']].
        pose proof H3 as (xs & e & Hct & _). pose proof Hct as (_ & _ & F). apply Forall2_len2 in F. rewrite H2 in F. destruct xs as [|? [|? [|? [|? ?]]]]; try discriminate. destruct (R1 ct _ _ _ Hct) as (ct'' & ? & ? & ? & E'' & Es & _). rewrite E' in E''. injection E'' as <-. congruence. }
    split; [|split].
    - destruct (Hgen false) as (ct & E & H). exists ct. auto.
    - intros Hlt. unfold mult_enable_switch. cbn [m_par m_base]. rewrite (al_par_context isp cands par _ lv' c' A'). cbn [bind].
      replace (ctx_eqb c' c) with false by (symmetry; apply not_true_is_false; intros H; apply ctx_eqb_true in H; destruct H as (H & _); pose proof (al_moduli_length isp cands par l lv c A) as J1; pose proof (al_moduli_length isp cands par _ lv' c' A') as J2; rewrite H, J1 in J2; pose proof (al_lt _ _ _ _ _ _ A); pose proof (al_lt _ _ _ _ _ _ A'); lia).
      destruct (Hgen true) as (ct & E & H1 & H2 & H3). destruct (switch_one Ho Hp l Hlt sk ct _ _ Hsk H3) as (ct' & E' & H1' & H2' & H3'). eexists _, ct'. split; [reflexivity|]. cbn [m_lhs m_rhs m_down m_mul m_rk m_level]. rewrite E. rewrite H2 in H2', H3'. auto.
    - intros El. unfold mult_enable_switch. cbn [m_par m_base]. rewrite <- El, (al_par_context isp cands par _ lv c A). cbn [bind]. rewrite ctx_eqb_refl. reflexivity.
  Qed.
  Theorem mult_relin_all : oracles isp cands -> is_params isp cands par -> supported par -> forall l, (l <= max_level par)%nat -> forall lhs rhs post basis, textbook par l lhs rhs post -> product_basis par l basis ->
    forall m0, mult_new isp cands lhs rhs basis post l par = Val m0 -> forall sk, is_sk par sk -> forall l2, (l2 <= l)%nat -> forall k B, 0 <= B -> is_ksk par sk l l2 k (map (Z.mul (level_ratio par l l2)) (negacyclic N (sk_coeffs sk) (sk_coeffs sk))) B ->
    exists m, mult_enable_relin m0 k = Val m /\ forall a b m1 m2 B1 B2, encrypts par sk l a m1 B1 -> encrypts par sk l b m2 B2 -> length (ct_c a) = 2%nat -> length (ct_c b) = 2%nat ->
    2 * t * (B1 + 1) <= level_modulus par l -> 2 * t * (B2 + 1) <= level_modulus par l ->
    let B' := mul_noise N t (level_modulus par l) (norm1 (sk_coeffs sk)) 2 2 B1 B2 + divided_noise (norm1 (sk_coeffs sk)) (level_ratio par l l2) (switch_noise par l (k_log_base k) B) in
    (exists ct, mult_multiply m a b = Val ct /\ ct_seed ct = None /\ length (ct_c ct) = 2%nat /\ encrypts par sk l ct (negacyclic N m1 m2) B') /\
    ((l < max_level par)%nat -> exists m' ct, mult_enable_switch m = Val m' /\ mult_multiply m' a b = Val ct /\ ct_seed ct = None /\ length (ct_c ct) = 2%nat /\
       encrypts par sk (S l) ct (negacyclic N m1 m2) (dropped_noise (norm1 (sk_coeffs sk)) 2 (dropped (pa_moduli par) l 1) B')) /\
    (l = max_level par -> mult_enable_switch m = Err NoMoreContext).
  Proof. intros Ho Hp Hs l Hl lhs rhs post basis Ht Hb m0 Em. exact (relin_generic m0 lhs rhs post basis l Ho Hp Hs Hl Ht Hb Em). Qed.
  (** The default multiplicator of a relinearization key. *)
  Lemma default_basis l lv c : oracles isp cands -> good_params isp cands par -> at_level isp cands par l lv c ->
    exists ext, extended_basis_loop isp (mul_moduli_count (map nbits (level_moduli (pa_moduli par) l)) + length (c_moduli c) + 1) (mul_moduli_count (map nbits (level_moduli (pa_moduli par) l))) (degree_of par) (Z.shiftl 1 62) (c_moduli c) [] = Val ext /\
      Z.of_nat (length ext) = extra_primes (level_moduli (pa_moduli par) l) /\ NoDup ext /\ Forall (fun p => prime p /\ 2 ^ 61 <= p < 2 ^ 62 /\ p mod (2 * Z.of_nat N) = 1 /\ ~ In p (level_moduli (pa_moduli par) l)) ext /\
      level_modulus par l * 2 ^ 60 <= 2 ^ (62 * Z.of_nat (length ext)).
  Proof.
    intros Ho G A. pose proof (level_range isp cands Ho par G l lv c A) as R. pose proof Ho as (H1 & H2). assert (H8 : 8 <= Z.of_nat N <= 65536) by (destruct (gp_deg _ _ _ G) as (K & HK & EK & _); rewrite EK, Nat2Z.inj_pow; change (8 <= 2 ^ Z.of_nat K <= 65536); split; [change 8 with (2 ^ 3)|change 65536 with (2 ^ 16)]; apply Z.pow_le_mono_r; lia). set (qs := level_moduli (pa_moduli par) l) in *. unfold degree_of. rewrite (al_mod _ _ _ _ _ _ A). fold qs.
    change (Z.shiftl 1 62) with (2 ^ 62). set (w := mul_moduli_count (map nbits qs)). assert (H62 : 1 <= 2 ^ 62 <= 2 ^ 62) by (vm_compute; split; discriminate).
    destruct (extended_loop_spec isp H1 (Z.of_nat N) H8 w qs (w + length qs + 1) (2 ^ 62) []) as [(ext & E & L & Hnd & HF)|E].
    - cbn [length]; lia.
    - pose proof (below_count_le (2 ^ 62) qs). cbn [length]. lia.
    - exact H62.
    - constructor.
    - constructor.
    - constructor.
    - exists ext. split; [exact E|]. split; [rewrite L; apply extra_count, R|]. split; [exact Hnd|]. split; [exact HF|]. rewrite L. apply mul_count_room. eapply Forall_impl; [|exact R]. cbv beta. intros; lia.
    - exfalso. destruct (al_gl _ _ _ _ _ _ A) as (plain & _ & _ & _ & _ & GL). destruct (gl_mul _ _ _ _ _ _ _ _ GL) as (ext & L & Hnd & HF & _). change (firstn (length (pa_moduli par) - l) (pa_moduli par)) with qs in L. fold w in L.
      pose proof (extended_loop_err isp H1 (Z.of_nat N) H8 w qs _ _ _ [] H62 ltac:(cbn [length]; apply Nat.le_0_l) ltac:(intros x _ Hx _ Hx'; exfalso; apply (Z.lt_irrefl x); apply Z.lt_le_trans with (2 ^ 62); [exact (proj2 Hx)|exact Hx']) E ext Hnd) as Hlt. rewrite L in Hlt. assert (w < w)%nat; [|lia]. apply Hlt. eapply Forall_impl; [|exact HF]. cbv beta. intros p (P1 & P2 & P3 & P4). repeat (split; [assumption|]).
      intros Hin. apply P4. unfold qs, level_moduli in Hin. rewrite <- (firstn_skipn (length (pa_moduli par) - l) (pa_moduli par)). apply in_or_app. left. exact Hin.
  Qed.
  Theorem mult_default_all : oracles isp cands -> is_params isp cands par -> supported par -> forall l, (l <= max_level par)%nat -> mul_room par l 2 ->
    forall sk, is_sk par sk -> forall l2, (l2 <= l)%nat -> forall k B, 0 <= B -> is_ksk par sk l l2 k (map (Z.mul (level_ratio par l l2)) (negacyclic N (sk_coeffs sk) (sk_coeffs sk))) B ->
    (complete_draws cands -> exists m, mult_default isp cands k = Val m) /\
    forall m, mult_default isp cands k = Val m -> forall a b m1 m2 B1 B2, encrypts par sk l a m1 B1 -> encrypts par sk l b m2 B2 -> length (ct_c a) = 2%nat -> length (ct_c b) = 2%nat ->
    2 * t * (B1 + 1) <= level_modulus par l -> 2 * t * (B2 + 1) <= level_modulus par l ->
    let B' := mul_noise N t (level_modulus par l) (norm1 (sk_coeffs sk)) 2 2 B1 B2 + divided_noise (norm1 (sk_coeffs sk)) (level_ratio par l l2) (switch_noise par l (k_log_base k) B) in
    (exists ct, mult_multiply m a b = Val ct /\ ct_seed ct = None /\ length (ct_c ct) = 2%nat /\ encrypts par sk l ct (negacyclic N m1 m2) B') /\
    ((l < max_level par)%nat -> exists m' ct, mult_enable_switch m = Val m' /\ mult_multiply m' a b = Val ct /\ ct_seed ct = None /\ length (ct_c ct) = 2%nat /\
       encrypts par sk (S l) ct (negacyclic N m1 m2) (dropped_noise (norm1 (sk_coeffs sk)) 2 (dropped (pa_moduli par) l 1) B')) /\
    (l = max_level par -> mult_enable_switch m = Err NoMoreContext).
  Proof.
    intros Ho Hp Hs l Hl Hr sk Hsk l2 Hl2 k B HB HK. pose proof HK as (K1 & K2 & _ & _). pose proof (params_good isp cands par Ho Hp) as G. destruct (at_level_ex isp cands par l Ho G Hl) as (lv & c & A).
    pose proof (Qpos isp cands Ho par G l lv c A) as HQ. destruct (default_basis l lv c Ho G A) as (ext & Ee & Le & Hnd & HF & Hroom). set (qs := level_moduli (pa_moduli par) l) in *. set (post := mkFactor t (prod_list qs) (t =? prod_list qs)).
    assert (Hpost : factor_new t (prod_list qs) = Val post) by (unfold factor_new; destruct (Z.eqb_spec (prod_list qs) 0); [lia|reflexivity]).
    assert (Ht : textbook par l factor_one factor_one post) by (split; [reflexivity|split; [reflexivity|exact Hpost]]).
    assert (Hb : product_basis par l (qs ++ ext)).
    { exists ext. split; [reflexivity|]. split; [eapply Forall_impl; [|exact HF]; cbv beta; intros p (_ & Hpr & _); exact Hpr|]. split; [exact Hroom|]. rewrite Le. unfold mul_room in Hr. exact Hr. }
    assert (E : mult_default isp cands k = bind (mult_new isp cands factor_one factor_one (qs ++ ext) post l par) (fun m => mult_enable_relin m k)).
    { unfold mult_default. rewrite K1, K2, (al_par_context isp cands par l lv c A). cbn [bind].
      replace (slice_to (pa_sizes par) (length (c_moduli c))) with (Val (map nbits qs) : M (list Z)).
      2:{ rewrite (gp_sizes _ _ _ G), (al_mod _ _ _ _ _ _ A). unfold slice_to. rewrite map_length. unfold level_moduli. rewrite firstn_length. destruct (Nat.leb_spec (Nat.min (length (pa_moduli par) - l) (length (pa_moduli par))) (length (pa_moduli par))) as [_|H]; [|lia]. rewrite Nat.min_l by lia. cbn [guard bind]. unfold qs, level_moduli. rewrite firstn_map. reflexivity. }
      cbn [bind]. rewrite Ee. cbn [bind]. replace (rns_product (c_rns c)) with (prod_list qs) by (rewrite (gr_product _ (co_rns _ (good_ok _ (al_good _ _ _ _ _ _ A)))), (co_u64 _ (good_ok _ (al_good _ _ _ _ _ _ A))), (al_mod _ _ _ _ _ _ A); reflexivity). rewrite Hpost. cbn [bind]. rewrite (al_mod _ _ _ _ _ _ A). reflexivity. }
    split.
    - intros Hd. assert (Hfr : Forall (ntt_friendly N) (qs ++ ext)).
      { apply Forall_app. split; [apply Forall_firstn; exact (gp_friendly _ _ _ G)|]. eapply Forall_impl; [|exact HF]. cbv beta. intros p (P1 & P2 & P3 & _). split; [exact P1|]. split; [lia|exact P3]. }
      destruct (gp_deg _ _ _ G) as (K & HK1 & EK & _). destruct (context_new_total isp cands Ho Hd K (qs ++ ext)) as (to & Eto).
      + lia.
      + intros H. apply app_eq_nil in H. destruct H as (H & _). pose proof (al_moduli_length isp cands par l lv c A) as Hm. rewrite (al_mod _ _ _ _ _ _ A) in Hm. fold qs in Hm. rewrite H in Hm. cbn [length] in Hm. pose proof (al_lt _ _ _ _ _ _ A). lia.
      + apply NoDup_app_disjoint; [apply NoDup_firstn; exact (gp_nodup _ _ _ G)|exact Hnd|]. intros x Hx Hx'. rewrite Forall_forall in HF. destruct (HF x Hx') as (_ & _ & _ & H). auto.
      + rewrite <- EK. exact Hfr.
      + rewrite <- EK in Eto. assert (exists m, mult_new isp cands factor_one factor_one (qs ++ ext) post l par = Val m) as (m & Em).
        { unfold mult_new. rewrite (al_par_context isp cands par l lv c A). cbn [bind]. rewrite Eto. cbn [bind]. destruct (level_supported isp cands Ho par G l lv c A Hs) as (Hs1 & Hs2). pose proof (gp_t _ _ _ G) as Ht2. pose proof Ho as (H1 & H2).
          destruct (context_new_good isp H1 cands H2 _ _ _ Eto) as (Hg & Emo & Ede). assert (Bt : built isp cands to) by (eexists _, _; exact Eto). assert (Bc : built isp cands c) by (eexists _, _; exact (al_new _ _ _ _ _ _ A)).
          assert (Hle : Z.of_nat (length ext) <= 2 ^ 20 + 2).
          { pose proof (mul_count_le N qs (level_range isp cands Ho par G l lv c A)) as H. pose proof (extra_count qs (level_range isp cands Ho par G l lv c A)) as H'. fold qs in Hs2. lia. }
          assert (Hext : Forall (fun p => 2 ^ 61 <= p < 2 ^ 62) ext) by (eapply Forall_impl; [|exact HF]; cbv beta; intros p (_ & Hpr & _); exact Hpr).
          assert (Hops : same_ops c to) by (apply (built_same_ops isp cands); [exact Bc|exact Bt|rewrite Ede; apply (al_deg _ _ _ _ _ _ A)]). assert (Hops' : same_ops to c) by (apply (built_same_ops isp cands); [exact Bt|exact Bc|rewrite Ede; symmetry; apply (al_deg _ _ _ _ _ _ A)]).
          destruct (core_up c to (good_ok _ (al_good _ _ _ _ _ _ A)) (good_ok _ Hg) N (al_deg _ _ _ _ _ _ A) Ede Hops Hops' qs ext (al_mod _ _ _ _ _ _ A) Emo (level_range isp cands Ho par G l lv c A) Hs1 Hs2 Hext Hle Hroom t ltac:(lia)) as (up & Eu & _).
          destruct (core_down c to (good_ok _ (al_good _ _ _ _ _ _ A)) (good_ok _ Hg) N (al_deg _ _ _ _ _ _ A) Ede Hops Hops' qs ext (al_mod _ _ _ _ _ _ A) Emo (level_range isp cands Ho par G l lv c A) Hs1 Hs2 Hext Hle Hroom t ltac:(lia)) as (dn & Edn & _).
          change factor_one with (mkFactor 1 1 true). rewrite Eu. cbn [bind]. unfold post. rewrite Edn. cbn [bind]. eexists. reflexivity. }
        destruct (relin_generic m factor_one factor_one post (qs ++ ext) l Ho Hp Hs Hl Ht Hb Em sk Hsk l2 Hl2 k B HB HK) as (m' & Em' & _). exists m'. rewrite E, Em. exact Em'.
    - intros m Em. rewrite E in Em. apply bind_inv in Em. destruct Em as (m0 & Em0 & Em). destruct (relin_generic m0 factor_one factor_one post (qs ++ ext) l Ho Hp Hs Hl Ht Hb Em0 sk Hsk l2 Hl2 k B HB HK) as (m' & Em' & H). rewrite Em in Em'. injection Em' as <-. exact H.
  Qed.
  (** Decryption of a product by the default multiplicator. *)
  Theorem mult_decrypt_all : oracles isp cands -> is_params isp cands par -> supported par -> decryptable par -> forall l, (l <= max_level par)%nat -> mul_room par l 2 ->
    forall sk, is_sk par sk -> forall l2, (l2 <= l)%nat -> forall k B, 0 <= B -> is_ksk par sk l l2 k (map (Z.mul (level_ratio par l l2)) (negacyclic N (sk_coeffs sk) (sk_coeffs sk))) B ->
    forall m, mult_default isp cands k = Val m -> forall a b m1 m2 B1 B2, encrypts par sk l a m1 B1 -> encrypts par sk l b m2 B2 -> length (ct_c a) = 2%nat -> length (ct_c b) = 2%nat ->
    2 * t * (B1 + 1) <= level_modulus par l -> 2 * t * (B2 + 1) <= level_modulus par l ->
    let B' := mul_noise N t (level_modulus par l) (norm1 (sk_coeffs sk)) 2 2 B1 B2 + divided_noise (norm1 (sk_coeffs sk)) (level_ratio par l l2) (switch_noise par l (k_log_base k) B) in
    (small_noise par l B' -> exists ct pt, mult_multiply m a b = Val ct /\ sk_decrypt sk ct = Val pt /\ is_pt par l pt (map (fun a => a mod t) (negacyclic N m1 m2))) /\
    ((l < max_level par)%nat -> small_noise par (S l) (dropped_noise (norm1 (sk_coeffs sk)) 2 (dropped (pa_moduli par) l 1) B') ->
       exists m' ct pt, mult_enable_switch m = Val m' /\ mult_multiply m' a b = Val ct /\ sk_decrypt sk ct = Val pt /\ is_pt par (S l) pt (map (fun a => a mod t) (negacyclic N m1 m2))).
  Proof.
    intros Ho Hp Hs Hd l Hl Hr sk Hsk l2 Hl2 k B HB HK m Em a b m1 m2 B1 B2 Ha Hb La Lb S1 S2 B'. destruct (mult_default_all Ho Hp Hs l Hl Hr sk Hsk l2 Hl2 k B HB HK) as (_ & H). destruct (H m Em a b m1 m2 B1 B2 Ha Hb La Lb S1 S2) as ((ct & E & _ & _ & He) & H2 & _). split.
    - intros Hn. destruct (decrypt_all isp cands par Ho Hp l Hl Hs Hd sk ct _ _ Hsk He Hn) as (pt & E1 & E2 & _). exists ct, pt. auto.
    - intros Hlt Hn. destruct (H2 Hlt) as (m' & ct' & Em' & E' & _ & _ & He'). destruct (decrypt_all isp cands par Ho Hp (S l) ltac:(lia) Hs Hd sk ct' _ _ Hsk He' Hn) as (pt & E1 & E2 & _). exists m', ct', pt. auto.
  Qed.
  (** What a multiplicator refuses. *)
  Theorem mult_refused : oracles isp cands -> is_params isp cands par -> forall m, m_par m = par -> forall la lb a b xs ys, (la <= max_level par)%nat -> (lb <= max_level par)%nat -> is_ct par la a xs -> is_ct par lb b ys -> (2 <= length xs)%nat -> (2 <= length ys)%nat ->
    (la <> m_level m -> mult_multiply m a b = Err (InvalidLevel (Z.of_nat la) (Z.of_nat (m_level m)) (Z.of_nat (m_level m)))) /\
    (la = m_level m -> lb <> m_level m -> mult_multiply m a b = Err (InvalidLevel (Z.of_nat lb) (Z.of_nat (m_level m)) (Z.of_nat (m_level m)))) /\
    (la = m_level m -> lb = m_level m -> length xs <> 2%nat \/ length ys <> 2%nat -> mult_multiply m a b = Err (MultiplicationPolynomialCount (Z.of_nat (length xs)) (Z.of_nat (length ys)) 2)).
  Proof.
    intros Ho Hp m Em la lb a b xs ys Hla Hlb Ha Hb Lx Ly. pose proof (params_good isp cands par Ho Hp) as G. destruct (at_level_ex isp cands par la Ho G Hla) as (lv & c & A). destruct (at_level_ex isp cands par lb Ho G Hlb) as (lv' & c' & A').
    destruct (ct_parts isp cands Ho par G la lv c A a _ Ha) as (vxs & Ea & <-). destruct (ct_parts isp cands Ho par G lb lv' c' A' b _ Hb) as (vys & Eb & <-). rewrite !map_length in *.
    unfold mult_multiply. rewrite Ea, Eb, Em, (ct_validate_eq isp cands Ho par G la lv c A), (ct_validate_eq isp cands Ho par G lb lv' c' A') by assumption. cbn [bind ct_level ct_c]. split; [|split].
    - intros H. rewrite (proj2 (Nat.eqb_neq _ _) H). reflexivity.
    - intros -> H. rewrite Nat.eqb_refl, (proj2 (Nat.eqb_neq _ _) H). reflexivity.
    - intros -> -> H. rewrite Nat.eqb_refl. cbn [negb]. unfold len. rewrite !parts_length.
      destruct vxs as [|x0 [|x1 [|x2 vxs]]]; cbn [length] in *; try lia; destruct vys as [|y0 [|y1 [|y2 vys]]]; cbn [length] in *; try lia; reflexivity.
  Qed.
  Theorem mult_params : forall m a b, par_same (ct_par a) (m_par m) = false -> mult_multiply m a b = Err ParameterMismatch.
  Proof. intros m a b H. unfold mult_multiply, ct_validate_for. rewrite H. reflexivity. Qed.
End Props.
