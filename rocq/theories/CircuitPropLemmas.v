(** Circuits: decryption, slots, and the fresh ciphertexts and keys that circuits start from. *)
From Verif Require Import Outcome BasicSpec OutcomeLemmas ZqModel ZqProofs NumTheory NttModel PolySpec PolyRing NttPure NttStages NttProofs NttPropLemmas RnsModel RnsSpec RnsProofs RqModel RqSpec RqCtx RqOps RqPropLemmas RingRn ParamsModel BfvSpec ParamsProofs SlotsProofs BuildProofs ParamsPropLemmas PlainModel CipherModel OpsModel SchemeSpec CipherSpec PlainProofs PlainPropLemmas RnPoly CipherProofs EncryptProofs CipherPropLemmas LinearPropLemmas KeysModel KeysSpec KeyOpsProofs KeyPropLemmas EvalSpec RotProofs EvalKeyProofs EvalOpsProofs EvalSumProofs EvalPropLemmas.
From Verif Require Import MulPropLemmas RgswSpec MultPropLemmas RgswPropLemmas CircuitSpec CircuitProofs.
Set Default Proof Using "Type".

Lemma eval_sub a : forall b z, length a = length b -> eval (zipWith Z.sub a b) z = eval a z - eval b z.
Proof. induction a as [|c a IH]; intros [|d b] z H; try discriminate; [reflexivity|]. cbn [zipWith eval]. rewrite IH by (cbn [length] in H; lia). ring. Qed.
Lemma slots_sub n t psi (x y : Rn n) : slots n t psi (rl (x - y)%R) = zipWith (fun a b => (a - b) mod t) (slots n t psi (rl x)) (slots n t psi (rl y)).
Proof.
  assert (E : forall z, eval (rl (x - y)%R) z = eval (rl x) z - eval (rl y) z) by (intros z; rewrite rl_sub; apply eval_sub; rewrite !rl_length; reflexivity).
  unfold slots. induction (seq 0 n) as [|i is IH]; [reflexivity|]. cbn [map zipWith]. f_equal; [|exact IH]. rewrite E. apply Zminus_mod.
Qed.
Lemma eval_opp a z : eval (map Z.opp a) z = - eval a z.
Proof. induction a as [|c a IH]; [reflexivity|]. cbn [map eval]. rewrite IH. ring. Qed.
Lemma slots_opp n t psi (x : Rn n) : 0 < t -> slots n t psi (rl (- x)%R) = map (fun a => (- a) mod t) (slots n t psi (rl x)).
Proof.
  intros Ht. unfold slots. rewrite map_map. apply map_ext. intros i. rewrite rl_opp, eval_opp. symmetry. apply (cong_opp t). unfold cong. apply Z.mod_mod. lia.
Qed.

Section Coding.
  Context (isp : Z -> bool) (cands : Z -> list Z) (Ho : oracles isp cands) (par : params) (Hp : is_params isp cands par) (G : good_params isp cands par) (op : ntt_op) (Eop : pa_ntt par = Some op).
  Set Default Proof Using "All".
  Notation N := (pa_degree par).
  Notation t := (pa_t par).
  Lemma slots_mul psi (x y : Rn N) : good_root par op psi -> slots N t psi (rl (x * y)%R) = zipWith (fun a b => (a * b) mod t) (slots N t psi (rl x)) (slots N t psi (rl y)).
  Proof.
    intros (Hn & _). destruct (ntt_facts isp cands par G op Eop) as (mm & Es & Em & En). destruct Ho as (H1 & H2). destruct (modulus_new_valid _ _ Em) as (Hmm & Et). assert (Ct : canonical (mod_p mm) (cands t)) by (rewrite <- Et; apply H2). destruct (ntt_new_ok isp H1 mm Hmm (cands t) N op Ct En) as (K & w & Hok & Emm & EN).
    destruct (gp_deg _ _ _ G) as (K' & HK' & EK' & _). assert (K = K') as -> by (pose proof (ok_size _ _ _ Hok); apply (Nat.pow_inj_r 2); lia).
    rewrite <- Emm in Et. rewrite Et in *. revert x y. rewrite <- EN in *. intros x y. unfold slots. induction (seq 0 (nt_size op)) as [|i is IH]; [reflexivity|]. cbn [map zipWith]. f_equal; [|exact IH].
    pose proof (slot_exponent_range K' ltac:(lia) i) as Hi. rewrite <- (ok_size _ _ _ Hok) in Hi.
    rewrite <- Zmult_mod. change (rl (x * y)%R) with (nmul (nt_size op) (rl x) (rl y)). apply (eval_nmul op K' w Hok (rl x) (rl y)); [apply rl_length|]. apply (psi_odd op K' w Hok ltac:(lia) psi Hn); [lia|apply Hi].
  Qed.
  Lemma encodes_slots psi l m v : (l <= max_level par)%nat -> good_root par op psi -> encodes par l m v -> slots N t psi m = pad N v.
  Proof.
    intros Hl (Hn & Hr) (HtQ & Cv & Cm & pt & E & Hpt). destruct (at_level_ex isp cands par l Ho G Hl) as (lv & c & A). assert (Lv : (length v <= N)%nat). { unfold encode_u64 in E. destruct (Nat.ltb_spec N (length v)); [discriminate|lia]. }
    destruct (encode_reads isp cands Ho par Hp G l lv c A op Eop HtQ v Lv Cv) as (b & Lb & Cb & E' & R). rewrite E in E'. injection E' as ->. destruct (pt_P isp cands Ho par G l lv c A _ m Hpt) as (x & Ep & <-). apply (f_equal pt_poly) in Ep. cbn [pt_poly] in Ep.
    change (P Ntt c false (mkR b Lb) = P Ntt c false x) in Ep. apply (P_eq c (good_ok _ (al_good _ _ _ _ _ _ A)) N (al_deg _ _ _ _ _ _ A)) in Ep. destruct Ep as (_ & Ep). unfold modulus_of in Ep. rewrite (al_mod _ _ _ _ _ _ A) in Ep. unfold level_modulus in HtQ.
    assert (Ex : x = mkR b Lb).
    { apply rn_ext. intros k Hk. apply rcong_nth with (k := k) in Ep; [|exact Hk]. unfold canonical in Cm, Cb. rewrite Forall_forall in Cm, Cb. rewrite rl_mkR in *. unfold cong in Ep.
      assert (In (nth k b 0) b) by (apply nth_In; lia). assert (In (nth k (rl x) 0) (rl x)) by (apply nth_In; rewrite rl_length; exact Hk). apply Cb in H. apply Cm in H0. rewrite !Z.mod_small in Ep by lia. symmetry. exact Ep. }
    pose proof (Hr (rl x) (rl_length x) Cm) as Rx. subst x. rewrite rl_mkR in *. unfold reads in *. rewrite R in Rx. injection Rx as ->. reflexivity.
  Qed.
  Lemma slots_neg_list psi a : length a = N -> slots N t psi (map Z.opp a) = map (fun a => (- a) mod t) (slots N t psi a).
  Proof. intros H. pose proof (gp_t _ _ _ G). change a with (rl (mkR a H)). rewrite <- rl_opp. apply slots_opp. lia. Qed.
  Lemma slots_add_list psi a b : length a = N -> length b = N -> slots N t psi (zipWith Z.add a b) = zipWith (fun a b => (a + b) mod t) (slots N t psi a) (slots N t psi b).
  Proof. intros H H'. change a with (rl (mkR a H)). change b with (rl (mkR b H')). rewrite <- rl_add. apply slots_add. Qed.
  Lemma slots_sub_list psi a b : length a = N -> length b = N -> slots N t psi (zipWith Z.sub a b) = zipWith (fun a b => (a - b) mod t) (slots N t psi a) (slots N t psi b).
  Proof. intros H H'. change a with (rl (mkR a H)). change b with (rl (mkR b H')). rewrite <- rl_sub. apply slots_sub. Qed.
  Lemma slots_mul_list psi a b : length a = N -> length b = N -> good_root par op psi -> slots N t psi (negacyclic N a b) = zipWith (fun a b => (a * b) mod t) (slots N t psi a) (slots N t psi b).
  Proof. intros H H' Hr. change a with (rl (mkR a H)). change b with (rl (mkR b H')). rewrite <- rl_mul. apply slots_mul, Hr. Qed.

  Lemma meaning_slots sk V psi : supported par -> is_sk par sk -> env_ok isp cands par sk V -> slots_ok par V -> good_root par op psi ->
    forall c s, slotwise c = true -> estimate par sk V c = Some s -> slots N t psi (meaning N V c) = slot_meaning N t V c.
  Proof.
    intros Hsup Hsk HV (Si & Sp & Sg) Hr. pose proof HV as (Vi & Vp & Vr & Ve & Vm & Vg).
    assert (Lm : forall c l k B, estimate par sk V c = Some (l, k, B) -> length (meaning N V c) = N).
    { intros c l k B E. destruct (circuit_all isp cands par Ho Hp Hsup sk Hsk V HV c l k B E) as (_ & ct & _ & _ & H). destruct (parts_of par _ _ _ _ _ H) as (xs & _ & _ & _ & L). exact L. }
    assert (Lp : forall i p, nth_error (plains V) i = Some p -> length (p_message p) = N /\ slots N t psi (p_message p) = pad N (p_slots p)).
    { intros i p E. destruct (picked _ _ _ _ E Vp) as (_ & (Hl & Hpt & _) & _). destruct (picked _ _ _ _ E Sp) as (_ & He & _). destruct (at_level_ex isp cands par _ Ho G Hl) as (lv & c & A). destruct (pt_P isp cands Ho par G _ lv c A _ _ Hpt) as (x & _ & Ex). split; [rewrite <- Ex; apply rl_length|]. exact (encodes_slots psi _ _ _ Hl Hr He). }
    assert (Lg : forall i g, nth_error (gkeys V) i = Some g -> length (g_message g) = N /\ slots N t psi (g_message g) = pad N (g_slots g)).
    { intros i g E. destruct (picked _ _ _ _ E Vg) as (_ & (Hl & _ & (_ & _ & _ & _ & _ & _ & L & _) & _) & _). destruct (picked _ _ _ _ E Sg) as (_ & He & _). split; [exact L|]. exact (encodes_slots psi _ _ _ Hl Hr He). }
    destruct (at_level_ex isp cands par 0 Ho G ltac:(lia)) as (lv & c0 & A). assert (HtQ : t <= prod_list (level_moduli (pa_moduli par) 0)). { pose proof (gp_t _ _ _ G). unfold level_moduli. rewrite Nat.sub_0_r, firstn_all. lia. }
    induction c as [i|a IHa|a IHa b IHb|a IHa b IHb|a IHa j|a IHa j|j a IHa|a IHa j|a IHa b IHb|i a IHa|l' a IHa|i s a IHa|i a IHa|i a IHa|i size j a IHa|i a IHa b IHb|j a IHa]; intros st Hs E; cbn [estimate] in E; cbn [meaning slot_meaning]; cbn [slotwise] in Hs; try (apply andb_true_iff in Hs; destruct Hs as (Hs1 & Hs2)); try discriminate.
    - apply with_item_some in E. destruct E as (x & Ex & E). destruct (picked _ _ _ _ Ex Vi) as (_ & (Hl & _) & H). rewrite !H. clear H. destruct (picked _ _ _ _ Ex Si) as (_ & He & H). rewrite ?H. exact (encodes_slots psi _ _ _ Hl Hr He).
    - apply with_state_some in E. destruct E as (l1 & k1 & B1 & E1 & E). rewrite slots_neg_list by eauto. erewrite IHa; eauto.
    - apply with_state_some in E. destruct E as (l1 & k1 & B1 & E1 & E). apply with_state_some in E. destruct E as (l2 & k2 & B2 & E2 & E). rewrite slots_add_list by eauto. erewrite IHa, IHb; eauto.
    - apply with_state_some in E. destruct E as (l1 & k1 & B1 & E1 & E). apply with_state_some in E. destruct E as (l2 & k2 & B2 & E2 & E). rewrite slots_sub_list by eauto. erewrite IHa, IHb; eauto.
    - apply with_state_some in E. destruct E as (l1 & k1 & B1 & E1 & E). apply with_item_some in E. destruct E as (p & Ep & E). destruct (picked _ _ _ _ Ep Vp) as (_ & _ & H). rewrite !H. destruct (Lp _ _ Ep) as (Lp' & <-). rewrite slots_add_list by eauto. erewrite IHa; eauto.
    - apply with_state_some in E. destruct E as (l1 & k1 & B1 & E1 & E). apply with_item_some in E. destruct E as (p & Ep & E). destruct (picked _ _ _ _ Ep Vp) as (_ & _ & H). rewrite !H. destruct (Lp _ _ Ep) as (Lp' & <-). rewrite slots_sub_list by eauto. erewrite IHa; eauto.
    - apply with_state_some in E. destruct E as (l1 & k1 & B1 & E1 & E). apply with_item_some in E. destruct E as (p & Ep & E). destruct (picked _ _ _ _ Ep Vp) as (_ & _ & H). rewrite !H. destruct (Lp _ _ Ep) as (Lp' & <-). rewrite slots_sub_list by eauto. erewrite IHa; eauto.
    - apply with_state_some in E. destruct E as (l1 & k1 & B1 & E1 & E). apply with_item_some in E. destruct E as (p & Ep & E). destruct (picked _ _ _ _ Ep Vp) as (_ & _ & H). rewrite !H. destruct (Lp _ _ Ep) as (Lp' & <-). rewrite slots_mul_list by eauto. erewrite IHa; eauto.
    - apply with_state_some in E. destruct E as (l1 & k1 & B1 & E1 & E). apply with_state_some in E. destruct E as (l2 & k2 & B2 & E2 & E). rewrite slots_mul_list by eauto. erewrite IHa, IHb; eauto.
    - apply with_state_some in E. destruct E as (l1 & k1 & B1 & E1 & E). erewrite IHa; eauto.
    - apply with_state_some in E. destruct E as (l1 & k1 & B1 & E1 & E). erewrite IHa; eauto.
    - apply with_state_some in E. destruct E as (l1 & k1 & B1 & E1 & E). apply with_item_some in E. destruct E as (e & Ee & E). destruct st as ((l & k) & B). apply only_if_some in E. destruct E as (E & _). unfold step_b in E. rewrite !andb_true_iff, !Z.ltb_lt in E. destruct E as ((_ & Hst) & _).
      pose proof (Lm _ _ _ _ E1) as La. set (m := mkR (meaning N V a) La). change (meaning N V a) with (rl m). rewrite automorphism_raut; [| |unfold column_exponent; apply Z.mod_pos_bound]; [|pose proof (N_pos isp cands Ho par G 0%nat lv c0 A); lia..].
      destruct (slots_galois isp cands Ho par Hp G 0 lv c0 A op Eop HtQ psi m Hr) as (H & _). rewrite <- (Z2Nat.id s) at 1 by lia. rewrite H by lia. change (rl m) with (meaning N V a). erewrite IHa; eauto.
    - apply with_state_some in E. destruct E as (l1 & k1 & B1 & E1 & E).
      pose proof (Lm _ _ _ _ E1) as La. set (m := mkR (meaning N V a) La). change (meaning N V a) with (rl m). rewrite automorphism_raut; [| |unfold row_exponent]; [|pose proof (N_pos isp cands Ho par G 0%nat lv c0 A); lia..].
      destruct (slots_galois isp cands Ho par Hp G 0 lv c0 A op Eop HtQ psi m Hr) as (_ & H). rewrite H. change (rl m) with (meaning N V a). erewrite IHa; eauto.
    - apply with_state_some in E. destruct E as (l1 & k1 & B1 & E1 & E). pose proof (Lm _ _ _ _ E1) as La. set (m := mkR (meaning N V a) La). change (meaning N V a) with (rl m). rewrite (images_sum isp cands par m Ho G).
      rewrite (slots_sum isp cands Ho par Hp G 0 lv c0 A op Eop HtQ psi m Hr). change (rl m) with (meaning N V a). erewrite IHa; eauto.
    - apply with_state_some in E. destruct E as (l1 & k1 & B1 & E1 & E). apply with_state_some in E. destruct E as (l2 & k2 & B2 & E2 & E). rewrite slots_mul_list by eauto. erewrite IHa, IHb; eauto.
    - apply with_state_some in E. destruct E as (l1 & k1 & B1 & E1 & E). apply with_item_some in E. destruct E as (g & Eg & E). destruct (picked _ _ _ _ Eg Vg) as (_ & _ & H). rewrite !H. destruct (Lg _ _ Eg) as (Lg' & <-). rewrite slots_mul_list by eauto. erewrite IHa; eauto.
  Qed.
End Coding.
Set Default Proof Using "Type".

Section Props.
  Context (isp : Z -> bool) (cands : Z -> list Z) (par : params).
  Notation N := (pa_degree par).
  Notation t := (pa_t par).
  Theorem circuit_decrypt_all : oracles isp cands -> is_params isp cands par -> supported par -> decryptable par -> forall sk, is_sk par sk -> forall V, env_ok isp cands par sk V ->
    forall c l k B, estimate par sk V c = Some (l, k, B) -> small_noise par l B ->
    exists ct pt, run V c = Val ct /\ sk_decrypt sk ct = Val pt /\ is_pt par l pt (map (fun a => a mod t) (meaning N V c)) /\ pt_enc pt = None.
  Proof.
    intros Ho Hp Hsup Hdec sk Hsk V HV c l k B E Hn. destruct (circuit_all isp cands par Ho Hp Hsup sk Hsk V HV c l k B E) as (Hl & ct & Ect & _ & H). destruct (decrypt_all isp cands par Ho Hp l Hl Hsup Hdec sk ct _ B Hsk H Hn) as (pt & Ed & Hpt & He). exists ct, pt. auto.
  Qed.
  Theorem circuit_slots_all : oracles isp cands -> is_params isp cands par -> pa_ntt par <> None -> supported par -> decryptable par -> forall sk, is_sk par sk -> forall V, env_ok isp cands par sk V -> slots_ok par V ->
    forall c l k B, slotwise c = true -> estimate par sk V c = Some (l, k, B) -> small_noise par l B ->
    exists ct pt, run V c = Val ct /\ sk_decrypt sk ct = Val pt /\ decode_u64 pt (Some (mkEnc EncSimd l)) = Val (slot_meaning N t V c).
  Proof.
    intros Ho Hp Hs Hsup Hdec sk Hsk V HV HS c l k B Hc E Hn. pose proof (params_good isp cands par Ho Hp) as G. destruct (circuit_all isp cands par Ho Hp Hsup sk Hsk V HV c l k B E) as (Hl & ct & Ect & _ & H).
    destruct (decrypt_all isp cands par Ho Hp l Hl Hsup Hdec sk ct _ B Hsk H Hn) as (pt & Ed & Hpt & He). exists ct, pt. split; [exact Ect|]. split; [exact Ed|]. destruct (parts_of par _ _ _ _ _ H) as (_ & _ & _ & _ & Lm). pose proof (gp_t _ _ _ G) as Ht.
    destruct (pa_ntt par) as [op|] eqn:Eop; [|congruence]. destruct (at_level_ex isp cands par l Ho G Hl) as (lv & c0 & A).
    assert (HtQ : t <= level_modulus par l). { destruct (encrypts_parts isp cands Ho par G l lv c0 A sk ct _ B (proj1 (proj2 Hsk)) H) as (vxs & mr & er & _ & _ & _ & _ & (H0 & H1) & _). apply (fits_of_noise isp cands par l B); [lia|lia|exact Hn]. }
    destruct (root_ex isp cands Ho par Hp G l lv c0 A op Eop HtQ) as (psi & Hr). rewrite <- (meaning_slots isp cands Ho par Hp G op Eop sk V psi Hsup Hsk HV HS Hr c _ Hc E).
    set (m := mkR (meaning N V c) Lm). change (meaning N V c) with (rl m) in Hpt |- *. rewrite <- rl_rmodt in Hpt. assert (Cm : canonical t (rl (rmodt t m))) by (apply rmodt_canonical; lia).
    assert (Es : slots N t psi (rl m) = slots N t psi (rl (rmodt t m))). { unfold slots. apply map_ext. intros i. apply lcong_eval; [|apply cong_refl]. apply rcong_sym, rmodt_cong. lia. } rewrite Es.
    pose proof (slots_encode isp cands Ho par Hp G l lv c0 A op Eop HtQ psi (rmodt t m) Hr Cm) as E1. set (v := slots N t psi (rl (rmodt t m))) in *. set (e := mkEnc EncSimd l) in *.
    assert (Lv : length v = N) by apply slots_length. assert (Cv : canonical t v) by (apply slots_canonical; lia).
    assert (Hu : Forall is_u64 v). { destruct (ntt_facts isp cands par G op Eop) as (mm & _ & Em & _). destruct (modulus_new_valid _ _ Em) as (Hmm & Et). unfold canonical in Cv. rewrite Forall_forall in Cv |- *. intros a Ha. specialize (Cv a Ha). pose proof (valid_fields mm Hmm) as (Hr1 & _). assert (W62 < W64) by reflexivity. unfold is_u64. lia. }
    assert (Hus : usable par e) by (intros _; congruence).
    destruct (roundtrip_unsigned_all isp cands Ho par Hp l Hl HtQ e v eq_refl Hus ltac:(lia) Cv) as (_ & R). destruct (R Hu false) as (pt1 & E1' & R'). rewrite E1 in E1'. injection E1' as <-.
    destruct (same_decoding_all isp cands par Ho Hp l Hl (mkPt par (Some e) (P Ntt c0 false (rmodt t m))) pt (rl (rmodt t m)) e) as (_ & -> & _); [apply (P_pt isp cands Ho par G l lv c0 A)|exact Hpt|left; reflexivity|right; exact He|].
    transitivity (Val (pad N v)); [apply R'; auto|]. unfold pad. rewrite Lv, Nat.sub_diag. cbn [repeat]. rewrite app_nil_r. reflexivity.
  Qed.
  (** What circuits start from. *)
  Lemma mult_switch_ex : oracles isp cands -> is_params isp cands par -> forall l, (l < max_level par)%nat ->
    forall sk l2 k x B, is_ksk par sk l l2 k x B -> forall m, mult_default isp cands k = Val m -> exists m', mult_enable_switch m = Val m'.
  Proof.
    intros Ho Hp l Hl sk l2 k x B (K1 & K2 & _) m E. pose proof (params_good isp cands par Ho Hp) as G. destruct (at_level_ex isp cands par l Ho G ltac:(lia)) as (lv & c & A). destruct (at_level_ex isp cands par (max_level par) Ho G ltac:(lia)) as (lv' & c' & A').
    unfold mult_default in E. rewrite K1, K2 in E. do 4 (apply bind_inv in E; destruct E as (? & _ & E)). apply bind_inv in E. destruct E as (m0 & E0 & E). unfold mult_new in E0. rewrite (al_par_context isp cands par l lv c A) in E0. cbn [bind] in E0.
    do 4 (apply bind_inv in E0; destruct E0 as (? & _ & E0)). injection E0 as <-. unfold mult_enable_relin in E. cbn [m_par m_base m_lhs m_rhs m_down m_mul m_level KeysModel.m_switch] in E. apply bind_inv in E. destruct E as (c2 & _ & E). destruct (ctx_eqb c2 c); [|discriminate]. cbn [negb] in E. injection E as <-.
    unfold mult_enable_switch. cbn [m_par m_base]. rewrite (al_par_context isp cands par _ lv' c' A'). cbn [bind].
    replace (ctx_eqb c' c) with false; [eauto|]. symmetry. apply not_true_is_false. intros H. apply ctx_eqb_true in H. destruct H as (H & _). pose proof (al_moduli_length isp cands par l lv c A). pose proof (al_moduli_length isp cands par _ lv' c' A'). rewrite H in *. pose proof (al_lt _ _ _ _ _ _ A'). lia.
  Qed.
  Theorem fresh_plain_all : oracles isp cands -> is_params isp cands par -> pa_ntt par <> None -> forall l, (l <= max_level par)%nat -> t <= level_modulus par l ->
    forall v, Forall (fun a => 0 <= a < t) v -> (length v <= N)%nat ->
    exists pt m, encode_u64 false v (mkEnc EncSimd l) par = Val pt /\ plain_ok par (mkPlain pt l m v) /\ encodes par l m v.
  Proof.
    intros Ho Hp Hs l Hl HtQ v Hv Lv. pose proof (params_good isp cands par Ho Hp) as G. destruct (pa_ntt par) as [op|] eqn:Eop; [|congruence]. destruct (at_level_ex isp cands par l Ho G Hl) as (lv & c & A).
    destruct (encode_reads isp cands Ho par Hp G l lv c A op Eop HtQ v Lv Hv) as (b & Lb & Cb & E & _). eexists _, b. split; [exact E|].
    assert (Hpt : is_pt par l (mkPt par (Some (mkEnc EncSimd l)) (poly_of Ntt c false b)) b) by exact (P_pt isp cands Ho par G l lv c A _ false (mkR b Lb)).
    split; [split; [exact Hl|split; assumption]|]. split; [exact HtQ|]. split; [exact Hv|]. split; [exact Cb|]. eauto.
  Qed.
  Theorem fresh_input_all : oracles isp cands -> is_params isp cands par -> forall expand, expands_well expand -> forall sk, is_sk par sk -> forall p, plain_ok par p -> t <= level_modulus par (p_level p) ->
    (forall sd rng, words rng -> exists ct, sk_encrypt expand sk (p_pt p) sd rng = Val ct /\ length (ct_c ct) = 2%nat /\ input_ok par sk (mkInput ct (p_level p) (p_message p) (p_slots p) (2 * pa_variance par))) /\
    (forall pk l0 B ru r1 r2, (l0 <= p_level p)%nat -> is_pk par sk l0 pk B -> words ru -> words r1 -> words r2 -> exists ct, pk_encrypt pk (p_pt p) ru r1 r2 = Val ct /\ length (ct_c ct) = 2%nat /\
       input_ok par sk (mkInput ct (p_level p) (p_message p) (p_slots p) (pk_noise par (norm1 (sk_coeffs sk)) (dropped_noise (norm1 (sk_coeffs sk)) 2 (dropped (pa_moduli par) l0 (p_level p - l0)) B)))).
  Proof.
    intros Ho Hp expand Hx sk Hsk p (Hl & Hpt & Hc) HtQ. split.
    - intros sd rng Hw. destruct (sk_encrypt_all isp cands par Ho Hp _ Hl expand sk sd rng _ _ Hx Hw Hsk Hpt Hc HtQ) as (ct & E & H & _ & L). exists ct. split; [exact E|]. split; [exact L|]. split; assumption.
    - intros pk l0 B ru r1 r2 H0 Hpk W0 W1 W2. destruct (pk_encrypt_all isp cands par Ho Hp l0 _ H0 Hl sk pk B ru r1 r2 _ _ Hsk Hpk W0 W1 W2 Hpt Hc HtQ) as (ct & E & _ & L & H). exists ct. split; [exact E|]. split; [exact L|]. split; assumption.
  Qed.
  Theorem fresh_rkey_all : oracles isp cands -> is_params isp cands par -> forall expand derive, expands_well expand -> forall sk, is_sk par sk -> forall l1 l2, (l1 <= max_level par)%nat -> (l2 <= l1)%nat -> (l2 < max_level par)%nat ->
    forall sd rngs, (forall i, words (rngs i)) ->
    exists k, relin_new expand derive sk l1 l2 sd rngs = Val k /\ k_log_base k = 0 /\ rkey_ok par sk (mkRkey k l1 l2 (2 * pa_variance par)) /\
      (supported par -> mul_room par l1 2 -> complete_draws cands -> forall switch, (switch = true -> (l1 < max_level par)%nat) -> exists m, mkey_ok isp cands par sk (mkMkey m (mkRkey k l1 l2 (2 * pa_variance par)) switch)).
  Proof.
    intros Ho Hp expand derive Hx sk Hsk l1 l2 H1 H2 H3 sd rngs Hr. pose proof (params_good isp cands par Ho Hp) as G. pose proof (gp_var _ _ _ G) as Hv. destruct (relin_new_all isp cands par Ho Hp expand derive Hx sk Hsk l1 l2 H1 H2 sd rngs Hr) as (H & _). destruct (H H3) as (k & E & Eb & Hk). exists k. split; [exact E|]. split; [exact Eb|].
    assert (HB : 0 <= 2 * pa_variance par) by lia. assert (Hok : rkey_ok par sk (mkRkey k l1 l2 (2 * pa_variance par))) by (split; [exact H1|]; split; [exact H2|]; split; [exact HB|exact Hk]). split; [exact Hok|].
    intros Hsup Hroom Hd switch Hsw. destruct (mult_default_all isp cands par Ho Hp Hsup l1 H1 Hroom sk Hsk l2 H2 k _ HB Hk) as (Hex & Hm). destruct (Hex Hd) as (m & Em). destruct switch.
    - destruct (mult_switch_ex Ho Hp l1 (Hsw eq_refl) sk l2 k _ _ Hk m Em) as (m' & Em'). exists m'. split; [exact Hok|]. exists m. auto.
    - exists m. split; [exact Hok|]. exists m. auto.
  Qed.
  Theorem fresh_ekey_all : oracles isp cands -> is_params isp cands par -> forall expand derive, expands_well expand -> forall sk, is_sk par sk -> forall l1 l2, (l1 <= max_level par)%nat -> (l2 <= l1)%nat ->
    forall b cols sds rngs, is_ekb par sk l1 l2 b cols -> (forall e i, words (rngs e i)) ->
    exists ek has, ek_build expand derive b sds rngs = Val ek /\ ekey_ok par sk (mkEkey ek l1 l2 has (2 * pa_variance par)) /\ forall e, has e = true <-> asked N b cols e.
  Proof.
    intros Ho Hp expand derive Hx sk Hsk l1 l2 H1 H2 b cols sds rngs Hb Hr. pose proof (params_good isp cands par Ho Hp) as G. pose proof (gp_var _ _ _ G) as Hv. destruct (build_all isp cands par Ho Hp expand derive Hx sk Hsk l1 l2 H1 H2 b cols sds rngs Hb Hr) as (ek & E & Hek & Hes).
    exists ek, (fun e => match lookup (ek_gk ek) e with Some _ => true | None => false end). split; [exact E|]. destruct Hek as (E1 & E2 & E3 & E4 & E5 & E6 & E7).
    assert (Hiff : forall e, match lookup (ek_gk ek) e with Some _ => true | None => false end = true <-> asked N b cols e) by (intros e; rewrite E6; destruct (lookup (ek_gk ek) e); split; congruence).
    split; [|exact Hiff]. split; [exact H1|]. split; [exact H2|]. split; [cbn [e_noise]; lia|]. split; [|intros e He; apply Hes, Hiff, He]. split; [exact E1|]. split; [exact E2|]. split; [exact E3|]. split; [exact E4|]. split; [exact E5|]. split; [|exact E7].
    intros e. cbn [e_has]. rewrite Hiff. apply E6.
  Qed.
  Theorem fresh_gkey_all : oracles isp cands -> is_params isp cands par -> forall expand derive, expands_well expand -> forall sk, is_sk par sk -> forall p, plain_ok par p ->
    forall sd0 sd1 rngs0 rngs1, (forall i, words (rngs0 i)) -> (forall i, words (rngs1 i)) ->
    exists r, rgsw_encrypt expand derive sk (p_pt p) sd0 sd1 rngs0 rngs1 = Val r /\ gkey_ok par sk (mkGkey r (p_level p) (p_message p) (p_slots p) (2 * pa_variance par)) /\
      k_log_base (r_ksk0 r) = key_base par (p_level p) /\ k_log_base (r_ksk1 r) = key_base par (p_level p).
  Proof.
    intros Ho Hp expand derive Hx sk Hsk p (Hl & Hpt & Hc) sd0 sd1 rngs0 rngs1 H0 H1. pose proof (params_good isp cands par Ho Hp) as G. pose proof (gp_var _ _ _ G) as Hv. destruct (rgsw_new_all isp cands par Ho Hp expand derive Hx sk Hsk _ Hl _ _ Hpt sd0 sd1 rngs0 rngs1 H0 H1) as (r & E & H & Hb). exists r. split; [exact E|]. split; [|exact Hb]. split; [exact Hl|]. split; [cbn [g_noise]; lia|exact H].
  Qed.
End Props.
