(** Closing lemmas for the property about messages: reading them never panics, and neither do operations with what was read. *)
From Verif Require Import Outcome BasicSpec OutcomeLemmas ZqModel ZqProofs NumTheory NttModel PolySpec PolyRing NttPure NttStages NttProofs CbdModel CbdSpec CbdProofs.
From Verif Require Import TranscodeModel PrimesModel RnsModel RnsSpec RnsProofs RqModel RqSpec RqCtx RqRows RqProofs RingRn RqOps RqIO RqPropLemmas ParamsModel BfvSpec ParamsProofs BuildProofs ParamsPropLemmas PlainModel CipherModel OpsModel SchemeSpec CipherSpec PlainProofs RnPoly CipherProofs EncryptProofs CipherPropLemmas LinearPropLemmas SerialPropLemmas KeysModel KeysSpec KeysProofs KeySwitchProofs KeyNoiseProofs KeyOpsProofs KeyPropLemmas EvalSpec EvalKeyProofs EvalOpsProofs EvalExpandProofs RgswPropLemmas WireSpec WireProofs WireKeysProofs WireOpsProofs.
From Coq Require Import Znumtheory.
Set Default Proof Using "Type".

Section Good.
  Context (isp : Z -> bool) (cands : Z -> list Z) (Ho : oracles isp cands) (par : params) (G : good_params isp cands par).
  Notation N := (pa_degree par).
  Set Default Proof Using "All".
  (** Specifications and internal forms. *)
  Lemma any_some ct : any_ct par ct -> some_parts isp cands par ct.
  Proof.
    intros (l & n & Hl & xs & H & _). destruct (at_level_ex isp cands par l Ho G Hl) as (lv & c & A). destruct (ct_parts isp cands Ho par G l lv c A ct xs H) as (vxs & E & _). exists l, lv, c, vxs. split; assumption.
  Qed.
  Lemma some_any ct : some_parts isp cands par ct -> any_ct par ct.
  Proof.
    intros (l & lv & c & vxs & A & ->). exists l, (length vxs). split; [apply (at_level_bound isp cands par l lv c G A)|]. eexists. split; [apply (parts_ct isp cands Ho par G l lv c A)|]. rewrite !map_length. reflexivity.
  Qed.
  Lemma two_ct l lv c ct : at_level isp cands par l lv c -> two_parts par l c ct -> some_ct par l 2 ct.
  Proof. intros A (v0 & v1 & x0 & x1 & ->). eexists. split; [apply (parts_ct isp cands Ho par G l lv c A)|]. reflexivity. Qed.
  Lemma shape_safe l1 l2 k lv1 c1 : at_level isp cands par l1 lv1 c1 -> key_shape par l1 l2 k -> base_fits k -> safe_key par l1 c1 k.
  Proof.
    intros A H Hf. destruct (shape_read_ksk isp cands Ho par G l1 l2 k H) as (lv1' & c1' & lv2 & c2 & A1 & A2 & HK). destruct (at_level_unique _ _ _ _ _ _ _ _ A A1) as (-> & ->). exact (read_safe isp cands Ho par G l1 lv1' c1' A1 l2 lv2 c2 A2 k HK Hf).
  Qed.
  Lemma gk_safe l1 l2 g lv1 c1 : at_level isp cands par l1 lv1 c1 -> gk_shape par l1 l2 g -> base_fits (g_ksk g) -> safe_gk par l1 c1 g.
  Proof.
    intros A (H & c & e & Ec & He & Hodd & Es) Hf. split; [|apply (shape_safe l1 l2 _ lv1 c1 A H Hf)]. rewrite (al_par_context isp cands par l1 lv1 c1 A) in Ec. injection Ec as <-. pose proof (N31 isp cands Ho par G) as HN. pose proof (al_deg _ _ _ _ _ _ A) as Hd. rewrite <- Hd in HN.
    destruct (subst_new_ok c1 e (good_ok _ (al_good _ _ _ _ _ _ A)) HN He Hodd) as (i & Ei & _ & Hi). rewrite Es in Ei. injection Ei as <-. rewrite Hd in Hi. eauto.
  Qed.
  Lemma ek_safe l1 lv1 c1 ek : at_level isp cands par l1 lv1 c1 -> ek_shape par l1 ek -> ek_fits ek -> safe_ek par l1 c1 ek.
  Proof.
    intros A (E1 & E2 & Hl & Hrot & Hm & Hg) Hf. split; [exact E1|]. split; [exact E2|]. split; [exact Hrot|]. split.
    - intros e g Hlk. destruct (Hg e g Hlk) as (_ & H). apply (gk_safe l1 _ g lv1 c1 A H (Hf e g Hlk)).
    - clear -A G Ho Hm. induction Hm as [|p x ps xs Hp Hm IH]; constructor; [|exact IH]. destruct (is_poly_P isp cands Ho par G l1 lv1 c1 A p x Hp) as (y & Ey & _). eauto.
  Qed.
End Good.

Set Default Proof Using "Type".
Section Props.
  Context (isp : Z -> bool) (cands : Z -> list Z) (par : params).
  Notation N := (pa_degree par).
  Notation t := (pa_t par).

  (** *** Reading *)
  Theorem ct_read_all : oracles isp cands -> is_params isp cands par -> serializable par -> forall expand, expands_well expand -> forall m, wire_ct m ->
    safe (ct_from_proto expand m par) (fun ct => Z.of_nat (ct_level ct) = cp_level m /\ (ct_level ct <= max_level par)%nat /\ (exists n, (2 <= n)%nat /\ some_ct par (ct_level ct) n ct) /\ seed_faithful expand ct).
  Proof.
    intros Ho Hp Hser expand Hx m Hm. pose proof (params_good isp cands par Ho Hp) as G. eapply safe_mono; [apply (ct_from_proto_read isp cands Ho par G Hser expand Hx m Hm)|].
    intros ct ((l & lv & c & vxs & A & E & Hlen & Hs) & El). rewrite E in El |- *. cbn [ct_level] in *. split; [exact El|]. split; [apply (at_level_bound isp cands par l lv c G A)|]. split; [|rewrite <- E; exact Hs]. exists (length vxs). split; [exact Hlen|]. eexists. split; [apply (parts_ct isp cands Ho par G l lv c A)|]. rewrite !map_length. reflexivity.
  Qed.
  Theorem pk_read_all : oracles isp cands -> is_params isp cands par -> serializable par -> forall expand, expands_well expand -> forall m, wire_opt wire_ct m ->
    safe (pk_from_proto expand m par) (pk_shape par).
  Proof.
    intros Ho Hp Hser expand Hx [m|] Hm; [|exact I]. pose proof (params_good isp cands par Ho Hp) as G. unfold pk_from_proto. eapply safe_bind; [apply (ct_read_all Ho Hp Hser expand Hx m Hm)|].
    intros ct (_ & _ & (n & Hn & xs & H & Hlen) & _). destruct (Nat.eqb_spec (ct_level ct) 0) as [E|E]; [|exact I]. cbn [negb safe]. split; [reflexivity|]. exists n. split; [exact Hn|]. rewrite E in H. exists xs. split; [|exact Hlen]. cbn [pk_c]. destruct H as (H1 & H2 & H3). split; [exact H1|]. split; [exact H2|]. cbn [map_polys ct_c].
    clear -H3. induction H3 as [|p x ps xs (Hc & Hr) H IH]; constructor; [|exact IH]. split; [exact Hc|]. destruct Hr as (Lx & Er). split; [exact Lx|]. cbn [disallow_vt p_ctx p_coeffs p_vt]. rewrite Er at 1. reflexivity.
  Qed.
  Theorem sk_read_all : forall coeffs, (length coeffs = N -> sk_from_proto coeffs par = Val (mkSk par coeffs)) /\ (length coeffs <> N -> exists e, sk_from_proto coeffs par = Err e).
  Proof.
    intros coeffs. unfold sk_from_proto. destruct (Nat.eqb_spec (length coeffs) N); split; intros H; try contradiction; cbn [negb]; eauto.
  Qed.
  Theorem ksk_read_all : oracles isp cands -> is_params isp cands par -> serializable par -> forall expand derive, expands_well expand -> forall m, wire_ksk m ->
    safe (ksk_from_proto expand derive m par) (fun k => key_shape par (Z.to_nat (kp_ct_level m)) (Z.to_nat (kp_level m)) k /\ k_log_base k = kp_log_base m /\ key_faithful expand derive k).
  Proof.
    intros Ho Hp Hser expand derive Hx m Hm. pose proof (params_good isp cands par Ho Hp) as G. eapply safe_mono; [apply (ksk_from_proto_read isp cands Ho par G Hser expand Hx derive m Hm)|].
    intros k ((l1 & lv1 & c1 & l2 & lv2 & c2 & A1 & A2 & HK) & Hf & E1 & E2 & E3). split; [|split; assumption]. pose proof (read_ksk_shape isp cands Ho par G l1 lv1 c1 l2 lv2 c2 k A1 A2 HK) as H. pose proof H as (_ & F1 & F2 & _). rewrite <- E1, <- E2, !Nat2Z.id, F1, F2. exact H.
  Qed.
  (** What a message must hold to be accepted. *)
  Theorem ksk_read_rejects : oracles isp cands -> is_params isp cands par -> forall expand derive m k, wire_ksk m -> ksk_from_proto expand derive m par = Val k ->
    kp_ct_level m <= Z.of_nat (max_level par) /\ kp_level m <= Z.of_nat (max_level par) /\ Z.of_nat (length (kp_c0 m)) = key_count par (Z.to_nat (kp_ct_level m)) (kp_log_base m) /\
    (kp_seed m = [] /\ k_seed k = None /\ Z.of_nat (length (kp_c1 m)) = key_count par (Z.to_nat (kp_ct_level m)) (kp_log_base m) \/ length (kp_seed m) = 32%nat /\ k_seed k = Some (kp_seed m)) /\
    (kp_log_base m <> 0 -> kp_ct_level m = Z.of_nat (max_level par) /\ kp_level m = Z.of_nat (max_level par)).
  Proof.
    intros Ho Hp expand derive m k Hm E. pose proof (params_good isp cands par Ho Hp) as G. destruct Hm as (_ & _ & Hl1 & Hl2 & Hb). unfold is_u32 in *. unfold ksk_from_proto in E.
    destruct (context_cases isp cands Ho par G (Z.to_nat (kp_level m))) as [(lv2 & c2 & A2 & Ec2 & Hle2)|(_ & e & Ec2)]; rewrite Ec2 in E; [|discriminate]. cbn [bind] in E.
    destruct (context_cases isp cands Ho par G (Z.to_nat (kp_ct_level m))) as [(lv1 & c1 & A1 & Ec1 & Hle1)|(_ & e & Ec1)]; rewrite Ec1 in E; [|discriminate]. cbn [bind] in E.
    apply bind_inv in E. destruct E as (size & Es & E).
    assert (Hs : size = key_count par (Z.to_nat (kp_ct_level m)) (kp_log_base m) /\ (kp_log_base m <> 0 -> kp_ct_level m = Z.of_nat (max_level par) /\ kp_level m = Z.of_nat (max_level par))).
    { unfold key_count. destruct (Z.eqb_spec (kp_log_base m) 0) as [E0|E0]; cbn [negb] in Es.
      - injection Es as <-. split; [|intros H; contradiction]. unfold len. rewrite (al_mod _ _ _ _ _ _ A1). reflexivity.
      - destruct (Nat.eqb_spec (Z.to_nat (kp_level m)) (max_level par)) as [F2|F2]; [|discriminate]. destruct (Nat.eqb_spec (Z.to_nat (kp_ct_level m)) (max_level par)) as [F1|F1]; [|discriminate]. cbn [negb orb] in Es.
        split; [|intros _; lia]. destruct (hd_moduli isp cands Ho par G) as (q & qs & Eq & Hq). rewrite Eq in Es |- *. cbn [nth_error unwrap bind hd] in *. rewrite log_modulus_eq in Es by lia. cbn [bind] in Es. rewrite div_ceilM_eq in Es by lia. injection Es as <-. reflexivity. }
    destruct Hs as (Hs & Hlv). rewrite Hs in E. destruct (Z.eqb_spec (len (kp_c0 m)) (key_count par (Z.to_nat (kp_ct_level m)) (kp_log_base m))) as [E0|E0]; [|discriminate]. cbn [negb] in E. split; [lia|]. split; [lia|]. split; [exact E0|]. split; [|exact Hlv].
    apply bind_inv in E. destruct E as (sd & Esd & E). apply bind_inv in E. destruct E as (d1 & _ & E). apply bind_inv in E. destruct E as (d0 & _ & E). injection E as <-. cbn [k_seed].
    destruct (Nat.eqb_spec (length (kp_seed m)) 0) as [En|En].
    - left. destruct (Z.eqb_spec (len (kp_c1 m)) (key_count par (Z.to_nat (kp_ct_level m)) (kp_log_base m))) as [E1|E1]; [|discriminate]. injection Esd as <-. split; [destruct (kp_seed m); [reflexivity|discriminate]|]. split; [reflexivity|exact E1].
    - right. destruct (Z.eqb_spec (len (kp_seed m)) 32) as [E1|E1]; [|discriminate]. injection Esd as <-. split; [unfold len in E1; lia|reflexivity].
  Qed.
  Theorem relin_read_all : oracles isp cands -> is_params isp cands par -> serializable par -> forall expand derive, expands_well expand -> forall m, wire_opt wire_ksk m ->
    safe (relin_from_proto expand derive m par) (fun k => exists l1 l2, key_shape par l1 l2 k).
  Proof.
    intros Ho Hp Hser expand derive Hx [m|] Hm; [|exact I]. eapply safe_mono; [apply (ksk_read_all Ho Hp Hser expand derive Hx m Hm)|]. intros k (H & _). eauto.
  Qed.
  Theorem galois_read_all : oracles isp cands -> is_params isp cands par -> serializable par -> forall expand derive, expands_well expand -> forall m, wire_galois m ->
    safe (galois_from_proto expand derive m par) (fun g => gk_shape par (k_ct_level (g_ksk g)) (k_level (g_ksk g)) g /\ se_exponent (g_element g) = gkp_exponent m mod (2 * Z.of_nat N)).
  Proof.
    intros Ho Hp Hser expand derive Hx [e [m|]] (He & Hm); [|exact I]. cbn [gkp_exponent gkp_ksk wire_opt] in *. pose proof (params_good isp cands par Ho Hp) as G. unfold galois_from_proto. cbn [gkp_ksk gkp_exponent].
    eapply safe_bind; [apply (ksk_read_all Ho Hp Hser expand derive Hx m Hm)|]. intros k (H & _). pose proof H as (_ & E1 & E2 & Hl & _ & Ec & _). rewrite E1, Ec. cbn [bind]. destruct (at_level_ex isp cands par _ Ho G Hl) as (lv & c & A). pose proof Ec as Ec'. rewrite (al_par_context isp cands par _ lv c A) in Ec'. injection Ec' as <-.
    pose proof (N31 isp cands Ho par G) as HN. pose proof (al_deg _ _ _ _ _ _ A) as Hd. rewrite <- Hd in HN. pose proof (good_ok _ (al_good _ _ _ _ _ _ A)) as Hc. unfold is_u32 in He. destruct (Z.odd e) eqn:Hodd; [|rewrite (subst_new_even c e Hc (proj1 He) Hodd); exact I].
    destruct (subst_new_ok c e Hc HN (proj1 He) Hodd) as (i & Ei & _ & Hi). rewrite Ei. cbn [bind safe g_ksk g_element]. rewrite E1, E2. split; [|rewrite <- Hd; apply (so_exp _ _ _ Hi)]. split; [exact H|]. exists c, e. split; [exact (al_par_context isp cands par _ lv c A)|]. split; [lia|]. split; [exact Hodd|exact Ei].
  Qed.
  Theorem ek_read_all : oracles isp cands -> is_params isp cands par -> serializable par -> forall expand derive, expands_well expand -> forall m, wire_ek m ->
    safe (ek_from_proto expand derive m par) (fun ek => ek_shape par (Z.to_nat (ep_ct_level m)) ek /\ ek_level ek = Z.to_nat (ep_level m)).
  Proof.
    intros Ho Hp Hser expand derive Hx m (Hg & Hl1 & Hl2). unfold is_u32 in *. pose proof (params_good isp cands par Ho Hp) as G. unfold ek_from_proto.
    apply (safe_bind _ _ (fun gk => forall e g, lookup gk e = Some g -> se_exponent (g_element g) = e /\ gk_shape par (Z.to_nat (ep_ct_level m)) (Z.to_nat (ep_level m)) g)).
    { apply (safe_foldM _ _ wire_galois); [exact Hg| |intros e g H; discriminate]. intros acc gm Hgm Hacc. eapply safe_bind; [apply (galois_read_all Ho Hp Hser expand derive Hx gm Hgm)|]. intros g (Hs & Ee). cbv zeta.
      destruct (Z.eqb_spec (Z.of_nat (k_ct_level (g_ksk g))) (ep_ct_level m)) as [E1|E1]; [|exact I]. destruct (Z.eqb_spec (Z.of_nat (k_level (g_ksk g))) (ep_level m)) as [E2|E2]; [|exact I]. cbn [negb safe]. intros e g' H. rewrite lookup_insert in H. destruct (Z.eqb_spec (se_exponent (g_element g)) e) as [E|E]; [|apply Hacc, H]. injection H as <-. split; [exact E|]. rewrite <- E1, <- E2, !Nat2Z.id. exact Hs. }
    intros gk Hgk. destruct (context_cases isp cands Ho par G (Z.to_nat (ep_ct_level m))) as [(lv & c & A & -> & Hle)|(_ & e & ->)]; [|exact I]. cbn [bind].
    destruct (deg_pow isp cands Ho par G) as (K & HK & EN & E & El & _). set (sk := mkSk par (repeat 0 N)). assert (Lsk : length (sk_coeffs sk) = N) by apply repeat_length.
    rewrite (monomials_eq isp cands Ho par G _ lv c A _ lv c A (Nat.le_refl _) sk Lsk K EN ltac:(lia) El). cbn [bind]. destruct (rot_table isp cands Ho par G) as (rot & -> & Hrot). cbn [bind safe].
    split; [|reflexivity]. split; [reflexivity|]. split; [reflexivity|]. split; [exact Hle|]. split; [exact Hrot|]. cbn [ek_monomials ek_gk]. split; [|exact Hgk]. fold (degree_of par). rewrite El, Nat2Z.id. apply (monomials_is isp cands Ho par G _ lv c A _ lv c A (Nat.le_refl _) sk Lsk K EN).
  Qed.
  Theorem rgsw_read_all : oracles isp cands -> is_params isp cands par -> serializable par -> forall expand derive, expands_well expand -> forall m, wire_rgsw m ->
    safe (rgsw_from_proto expand derive m par) (fun r => rgsw_shape par (k_level (r_ksk0 r)) r).
  Proof.
    intros Ho Hp Hser expand derive Hx [m0 m1] (H0 & H1). cbn [rp_ksk0 rp_ksk1] in *. unfold rgsw_from_proto. cbn [rp_ksk0 rp_ksk1]. destruct m0 as [m0|]; [|exact I]. cbn [ok_or bind wire_opt] in *. eapply safe_bind; [apply (ksk_read_all Ho Hp Hser expand derive Hx m0 H0)|]. intros k0 (S0 & _).
    destruct m1 as [m1|]; [|exact I]. cbn [ok_or bind wire_opt] in *. eapply safe_bind; [apply (ksk_read_all Ho Hp Hser expand derive Hx m1 H1)|]. intros k1 (S1 & _). pose proof S0 as (_ & E0 & F0 & _). pose proof S1 as (_ & E1 & F1 & _). 
    destruct (Nat.eqb_spec (k_level k0) (k_ct_level k0)) as [Ha|Ha]; [|exact I]. destruct (Nat.eqb_spec (k_ct_level k0) (k_ct_level k1)) as [Hb|Hb]; [|exact I]. destruct (Nat.eqb_spec (k_ct_level k1) (k_level k1)) as [Hd|Hd]; [|exact I]. cbn [negb orb safe r_ksk0 r_ksk1].
    unfold rgsw_shape. cbn [r_ksk0 r_ksk1]. rewrite <- E0, <- F0 in S0. rewrite <- E1, <- F1 in S1. rewrite <- Hd, <- Hb, <- Ha in S1. rewrite <- Ha in S0. split; assumption.
  Qed.

  (** *** Using what was read *)
  Theorem relinearizes_safe_all : oracles isp cands -> is_params isp cands par -> forall l1 l2 k, key_shape par l1 l2 k -> base_fits k -> forall ct, any_ct par ct ->
    safe (relinearizes k ct) (some_ct par l1 2).
  Proof.
    intros Ho Hp l1 l2 k Hk Hf ct Hct. pose proof (params_good isp cands par Ho Hp) as G. pose proof Hk as (_ & _ & _ & Hl & _). destruct (at_level_ex isp cands par l1 Ho G Hl) as (lv & c & A).
    eapply safe_mono; [apply (relinearizes_safe isp cands Ho par G l1 lv c A k ct (shape_safe isp cands Ho par G l1 l2 k lv c A Hk Hf) (any_some isp cands Ho par G ct Hct))|]. intros r. apply (two_ct isp cands Ho par G l1 lv c r A).
  Qed.
  Theorem galois_safe_all : oracles isp cands -> is_params isp cands par -> forall l1 l2 g, gk_shape par l1 l2 g -> base_fits (g_ksk g) -> forall ct, any_ct par ct ->
    safe (galois_apply g ct) (some_ct par l1 2) /\ forall out, any_ct par out -> safe (galois_apply_into g ct out) (some_ct par l1 2).
  Proof.
    intros Ho Hp l1 l2 g Hg Hf ct Hct. pose proof (params_good isp cands par Ho Hp) as G. pose proof Hg as ((_ & _ & _ & Hl & _) & _). destruct (at_level_ex isp cands par l1 Ho G Hl) as (lv & c & A). pose proof (N31 isp cands Ho par G) as HN.
    pose proof (gk_safe isp cands Ho par G l1 l2 g lv c A Hg Hf) as Hs. pose proof (any_some isp cands Ho par G ct Hct) as Hc. split.
    - eapply safe_mono; [apply (galois_apply_safe isp cands Ho par G l1 lv c A HN g ct Hs Hc)|]. intros r. apply (two_ct isp cands Ho par G l1 lv c r A).
    - intros out Hout. eapply safe_mono; [apply (galois_apply_into_safe isp cands Ho par G l1 lv c A HN g ct out Hs Hc)|intros r (Hr & _); apply (two_ct isp cands Ho par G l1 lv c r A Hr)].
      intros o0 o1 Eo Ex0 Ex1. destruct (any_some isp cands Ho par G out Hout) as (l & lv' & c' & vxs & A' & E'). rewrite E' in Eo. cbn [ct_c] in Eo. destruct vxs as [|(v0 & x0) [|(v1 & x1) [|? ?]]]; try discriminate. cbn [parts map fst snd] in Eo. injection Eo as <- <-. rewrite P_ctx in Ex0, Ex1.
      assert (l = l1). { apply ctx_eqb_true in Ex0. destruct Ex0 as (E & _). apply (f_equal (@length Z)) in E. rewrite (al_moduli_length isp cands par l lv' c' A'), (al_moduli_length isp cands par l1 lv c A) in E. pose proof (al_lt _ _ _ _ _ _ A). pose proof (al_lt _ _ _ _ _ _ A'). lia. }
      subst l. destruct (at_level_unique _ _ _ _ _ _ _ _ A A') as (_ & ->). eauto 6.
  Qed.
  Theorem ek_safe_all : oracles isp cands -> is_params isp cands par -> forall l1 ek, ek_shape par l1 ek -> ek_fits ek -> forall ct, any_ct par ct ->
    safe (rotates_rows ek ct) (some_ct par l1 2) /\ (forall i, safe (rotates_columns_by ek ct i) (some_ct par l1 2)) /\ safe (computes_inner_sum ek ct) (some_ct par l1 2) /\ forall size, safe (expands ek ct size) (Forall (any_ct par)).
  Proof.
    intros Ho Hp l1 ek Hek Hf ct Hct. pose proof (params_good isp cands par Ho Hp) as G. pose proof Hek as (_ & _ & Hl & _). destruct (at_level_ex isp cands par l1 Ho G Hl) as (lv & c & A). pose proof (N31 isp cands Ho par G) as HN.
    pose proof (ek_safe isp cands Ho par G l1 lv c ek A Hek Hf) as Hs. pose proof (any_some isp cands Ho par G ct Hct) as Hc. pose proof (fun r => two_ct isp cands Ho par G l1 lv c r A) as H2. split; [|split; [|split]].
    - eapply safe_mono; [apply (rows_safe isp cands Ho par G l1 lv c A HN ek Hs ct Hc)|exact H2].
    - intros i. eapply safe_mono; [apply (columns_safe isp cands Ho par G l1 lv c A HN ek Hs ct i Hc)|exact H2].
    - eapply safe_mono; [apply (sum_safe isp cands Ho par G l1 lv c A HN ek Hs ct Hc)|exact H2].
    - intros size. eapply safe_mono; [apply (expands_safe isp cands Ho par G l1 lv c A HN ek Hs ct size Hc)|]. intros r Hr. eapply Forall_impl; [|exact Hr]. apply (some_any isp cands Ho par G).
  Qed.
  Theorem rgsw_safe_all : oracles isp cands -> is_params isp cands par -> forall l r, rgsw_shape par l r -> base_fits (r_ksk0 r) -> base_fits (r_ksk1 r) -> forall ct, some_ct par l 2 ct ->
    exists ct', ct_mul_rgsw ct r = Val ct' /\ rgsw_mul_ct r ct = Val ct' /\ some_ct par l 2 ct'.
  Proof.
    intros Ho Hp l r (H0 & H1) Hf0 Hf1 ct (xs & Hct & Hlen). pose proof (params_good isp cands par Ho Hp) as G. pose proof H0 as (Ep & El & _ & Hl & _ & _ & Ec0 & _). pose proof H1 as (_ & _ & _ & _ & _ & _ & Ec1 & _). destruct (at_level_ex isp cands par l Ho G Hl) as (lv & c & A).
    assert (Hc : ctx_ok c) by exact (good_ok _ (al_good _ _ _ _ _ _ A)). assert (Hd : c_degree c = N) by exact (al_deg _ _ _ _ _ _ A). rewrite (al_par_context isp cands par l lv c A) in Ec0, Ec1. injection Ec0 as Ec0. injection Ec1 as Ec1.
    assert (Hsw : forall k v (x : Rn N), key_shape par l l k -> base_fits k -> exists w0 w1 (y0 y1 : Rn N), key_switch_assign k (P PowerBasis c v x) (poly_zero Ntt c) (poly_zero Ntt c) = Val (P Ntt c w0 y0, P Ntt c w1 y1)).
    { intros k v x Hk Hf. destruct (shape_read_ksk isp cands Ho par G l l k Hk) as (lv1' & c1' & lv2 & c2 & A1 & A2 & HK). destruct (at_level_unique _ _ _ _ _ _ _ _ A A1) as (<- & <-). destruct (at_level_unique _ _ _ _ _ _ _ _ A A2) as (<- & <-).
      pose proof (read_kskR isp cands Ho par G l lv c A l lv c A k (r0 N) (r0 N) HK Hf) as HR. pose proof (Qpos isp cands Ho par G l lv c A) as HQ.
      destruct (kskR_switch isp cands Ho par G l lv c A l lv c A _ k _ _ _ (Z.lt_le_incl _ _ HQ) HR v x) as (u0 & u1 & w & e & _ & Ea & _). rewrite (P_zero c Hc N Hd). destruct (Ea (P Ntt c false (r0 N)) (P Ntt c false (r0 N))) as (w0 & w1 & ->); [right; eauto..|]. eauto. }
    destruct (ct_parts isp cands Ho par G l lv c A ct xs Hct) as (vxs & Ect & Ex). rewrite <- Ex, !map_length in Hlen. destruct vxs as [|(v0 & x0) [|(v1 & x1) [|? ?]]]; try discriminate. rewrite Ect.
    destruct (Hsw _ v0 x0 H0 Hf0) as (p0 & p1 & a0 & a1 & E0). destruct (Hsw _ v1 x1 H1 Hf1) as (q0 & q1 & b0 & b1 & E1).
    assert (E : ct_mul_rgsw (mkCt par (ct_seed ct) (parts c [(v0, x0); (v1, x1)]) l) r = Val (mkCt par None (parts c [(p0 && q0, (a0 + b0)%R); (p1 && q1, (a1 + b1)%R)]) l)).
    { unfold ct_mul_rgsw. cbn [ct_par ct_level ct_c parts map fst snd length]. rewrite Ep, El, par_eqb_refl, Nat.eqb_refl. cbn [guard bind Nat.eqb get nth_error unwrap]. rewrite <- Ec0, <- Ec1, !(P_ntt_pb c Hc N Hd). cbn [bind]. rewrite E0. cbn [no_err bind]. rewrite E1. cbn [no_err bind fst snd]. rewrite !(P_add c Hc N Hd) by discriminate. reflexivity. }
    eexists. split; [exact E|]. split; [exact E|]. eexists. split; [apply (parts_ct isp cands Ho par G l lv c A)|]. reflexivity.
  Qed.
  Theorem pk_safe_all : oracles isp cands -> is_params isp cands par -> forall pk, pk_shape par pk -> forall l pt m ru r1 r2, (l <= max_level par)%nat -> is_pt par l pt m -> canonical t m -> t <= level_modulus par l -> words ru -> words r1 -> words r2 ->
    exists ct, pk_encrypt pk pt ru r1 r2 = Val ct /\ some_ct par l 2 ct.
  Proof.
    intros Ho Hp [pp pc] (Epk & n & Hn & xs & Hct & Hlen) l pt m ru r1 r2 Hl Hpt Hm HtQ W0 W1 W2. cbn [pk_par pk_c] in *. subst pp. pose proof (params_good isp cands par Ho Hp) as G.
    destruct (at_level_ex isp cands par l Ho G Hl) as (lv & c & A). destruct (at_level_ex isp cands par 0 Ho G (Nat.le_0_l _)) as (lv0 & c0 & A0).
    destruct (pt_P isp cands Ho par G l lv c A pt m Hpt) as (x & Ept & Ex). rewrite Ept. destruct (ct_parts isp cands Ho par G 0 lv0 c0 A0 pc xs Hct) as (vxs & Epc & Exs). rewrite <- Exs, !map_length in Hlen.
    destruct (iter_switch_P isp cands par Ho G l 0 lv0 c0 lv c (ct_seed pc) vxs A0 A) as (sd' & vys & Ei & Ly & _). cbn [Nat.add] in Ei. rewrite <- Epc in Ei. destruct vys as [|(w0 & y0) [|(w1 & y1) rest]]; cbn [length] in Ly; [lia|lia|].
    set (sk := mkSk par (repeat 0 N)). assert (Lsk : length (sk_coeffs sk) = N) by apply repeat_length. rewrite <- Ex in Hm.
    destruct (pk_encrypt_here isp cands par l lv c Ho G A sk Lsk ru r1 r2 sd' (pt_enc pt) (p_vt (pt_poly pt)) w0 w1 y0 y1 (rphase (mkR (sk_coeffs sk) Lsk) [y0; y1]) x W0 W1 W2 Hm HtQ (rcong_refl _ _ _)) as (b0 & b1 & e' & E & _).
    eexists. split.
    - unfold pk_encrypt. cbn [pk_par pk_c]. unfold P at 1. rewrite (pt_validate_eq isp cands par l lv c A). cbn [bind]. rewrite Epc at 1. rewrite (ct_validate_eq isp cands Ho par G 0 lv0 c0 A0) by lia. cbn [bind]. unfold P at 1. rewrite (pt_level_eq isp cands par l lv c A). cbn [bind]. assert (El0 : ct_level pc = 0%nat) by (rewrite Epc; reflexivity). rewrite El0. cbn [Nat.ltb Nat.leb].
      rewrite Nat.sub_0_r, Ei. cbn [bind ct_level ct_c] in E |- *. exact E.
    - eexists. split; [apply (parts_ct isp cands Ho par G l lv c A)|]. reflexivity.
  Qed.
End Props.
