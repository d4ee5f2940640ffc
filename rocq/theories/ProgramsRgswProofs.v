(** The example program rgsw.rs. *)
From Coq Require Import Znumtheory.
From Verif Require Import Outcome BasicSpec OutcomeLemmas ZqModel ZqProofs NumTheory PrimesModel PrimeCert NttModel PolySpec PolyRing NttPure NttStages NttProofs CbdModel CbdSpec CbdProofs.
From Verif Require Import TranscodeModel RnsModel RnsSpec RnsProofs RqModel RqSpec RqCtx RqRows RqProofs RingRn RqOps RqIO RqPropLemmas ParamsModel BfvSpec ParamsProofs BuildProofs ParamsPropLemmas PlainModel CipherModel OpsModel SchemeSpec CipherSpec PlainProofs PlainPropLemmas RnPoly CipherProofs EncryptProofs CipherPropLemmas LinearPropLemmas.
From Verif Require Import MulPropLemmas SerialPropLemmas KeysModel KeysSpec KeyPropLemmas EvalSpec EvalPropLemmas RgswSpec RgswPropLemmas CircuitSpec CircuitProofs CircuitPropLemmas MbfvProofs PirLists DefaultModel DefaultSpec DefaultPropLemmas ProgramsModel ProgramsSpec ProgramsProofs ProgramsSetProofs.
From Verif Require Import BasicSpec.
Set Default Proof Using "Type".

Section Rgsw.
  Context (isp : Z -> bool) (cands : Z -> list Z) (par : params) (Ho : oracles isp cands) (Hp : is_params isp cands par) (HP : program_params par).
  Notation N := (pa_degree par).
  Notation t := (pa_t par).
  Notation Q := (level_modulus par 0).
  Notation v2 := (2 * pa_variance par).
  Let G : good_params isp cands par := params_good isp cands par Ho Hp.
  Set Default Proof Using "All".
  (** ** The products *)
  Lemma slots_plain v : pa_ntt par <> None -> values par v -> exists pt m, encode_u64 false v (mkEnc EncSimd 0) par = Val pt /\ plain_ok par (mkPlain pt 0 m v) /\ encodes par 0 m v.
  Proof. intros Hn (Hv & Lv). destruct HP as (_ & _ & HtQ & _). exact (fresh_plain_all isp cands par Ho Hp Hn 0 (Nat.le_0_l _) HtQ v Hv Lv). Qed.
  Lemma ratio_1 : level_ratio par 0 0 = 1.
  Proof. unfold level_ratio. rewrite skipn_all. reflexivity. Qed.
  Lemma switching_is : switching_noise par = switch_noise par 0 (key_base par 0) v2.
  Proof. unfold switching_noise, key_noise, divided_noise. rewrite ratio_1, Z.div_1_r. lia. Qed.
  Lemma plain_length pt m s : plain_ok par (mkPlain pt 0 m s) -> length m = N.
  Proof. intros (_ & Hpt & _). cbn [p_pt p_message p_level] in *. destruct (at_level_ex isp cands par 0 Ho G (Nat.le_0_l _)) as (lv & c & A). destruct (pt_P isp cands Ho par G 0 lv c A pt m Hpt) as (x & _ & <-). apply rl_length. Qed.
  Lemma norm_le pt m s : plain_ok par (mkPlain pt 0 m s) -> norm1 m <= Z.of_nat N * (t - 1).
  Proof. intros H. rewrite <- (plain_length _ _ _ H). apply norm1_below. exact (proj2 (proj2 H)). Qed.
  Lemma small_mono B B' : B <= B' -> small_noise par 0 B' -> small_noise par 0 B.
  Proof. intros HB. unfold small_noise. pose proof (gp_t _ _ _ G). assert (t * (B + 1) <= t * (B' + 1)) by (apply Z.mul_le_mono_nonneg_l; lia). lia. Qed.
  Lemma enc_weaken sk ct m B B' : B <= B' -> encrypts par sk 0 ct m B -> encrypts par sk 0 ct m B'.
  Proof. intros HB (xs & e & H1 & H2 & H3 & H4 & H5 & H6). exists xs, e. do 4 (split; [assumption|]). split; [|exact H6]. eapply Forall_impl; [|exact H5]. cbv beta. intros. lia. Qed.
  Lemma slot_products_comm x y : slot_products par x y = slot_products par y x.
  Proof. unfold slot_products. generalize (pad N x) (pad N y). intros u. induction u as [|a u IH]; intros [|b w]; try reflexivity. cbn [zipWith]. rewrite IH. f_equal. f_equal. apply Z.mul_comm. Qed.
  Lemma Q_pos : 0 < Q.
  Proof. pose proof (gp_t _ _ _ G). destruct HP as (_ & _ & HtQ & _). lia. Qed.
  Theorem rgsw_products_ok expand derive x y d : expands_well expand -> rgsw_ok d -> pa_ntt par <> None -> values par x -> values par y -> direct_products_fit par ->
    exists sk p q m, rgsw_products expand derive par x y d = Val (sk, p, q) /\ is_sk par sk /\ ct_seed p = None /\ encrypts par sk 0 p m (external_product_noise par) /\ encrypts par sk 0 q m (direct_product_noise par) /\
      (small_noise par 0 (external_product_noise par) -> decrypted sk EncSimd p = Val (slot_products par x y)) /\ (small_noise par 0 (direct_product_noise par) -> decrypted sk EncSimd q = Val (slot_products par x y)).
  Proof.
    intros Hx (W0 & W1 & W2 & W3 & W4) Hn H1 H2 (Hf & Hr). pose proof HP as (Hsup & Hdec & HtQ & _). pose proof (gp_var _ _ _ G) as Hv. pose proof (gp_t _ _ _ G) as Ht.
    destruct (sk_random_all isp cands par Ho Hp (g_sk d) W0) as (sk & Esk & Hsk & _ & Hnorm). destruct (slots_plain x Hn H1) as (p1 & m1 & E1 & P1 & S1). destruct (slots_plain y Hn H2) as (p2 & m2 & E2 & P2 & S2).
    destruct (proj1 (fresh_input_all isp cands par Ho Hp expand Hx sk Hsk _ P1 HtQ) (g_seed1 d) (g_enc1 d) W1) as (c1 & F1 & L1 & I1). destruct (proj1 (fresh_input_all isp cands par Ho Hp expand Hx sk Hsk _ P2 HtQ) (g_seed2 d) (g_enc2 d) W2) as (c2 & F2 & L2 & I2).
    destruct (fresh_gkey_all isp cands par Ho Hp expand derive Hx sk Hsk _ P2 (g_rgsw_seed0 d) (g_rgsw_seed1 d) (g_rgsw0 d) (g_rgsw1 d) W3 W4) as (r & F3 & Hg & B0 & B1). cbn [p_pt p_level p_message p_slots] in *.
    set (V := mkEnv [mkInput c1 0 m1 x v2; mkInput c2 0 m2 y v2] [] [] [] [] [mkGkey r 0 m2 y v2]).
    assert (HV : env_ok isp cands par sk V) by (unfold env_ok, V; cbn [inputs plains rkeys ekeys mkeys gkeys]; split; [constructor; [exact I1|constructor; [exact I2|constructor]]|]; do 4 (split; [constructor|]); constructor; [exact Hg|constructor]).
    assert (HS : slots_ok par V) by (unfold slots_ok, V; cbn [inputs plains gkeys]; split; [constructor; [exact S1|constructor; [exact S2|constructor]]|]; split; [constructor|constructor; [exact S2|constructor]]).
    assert (He1 : estimate par sk V (External 0 (Input 0)) = Some (0%nat, 2%nat, norm1 m2 * (v2 + 1) + 2 * switching_noise par)).
    { cbn [V estimate with_item nth_error inputs gkeys i_level i_ct i_noise with_state g_level g_message g_rgsw g_noise]. rewrite L1. cbn [Nat.eqb andb only_if]. unfold external_noise. rewrite B0, B1, <- switching_is. do 2 f_equal. lia. }
    assert (He2 : estimate par sk V (Mul (Input 0) (Input 1)) = Some (0%nat, 3%nat, mul_noise N t Q (norm1 (sk_coeffs sk)) 2 2 v2 v2)).
    { cbn [V estimate with_item nth_error inputs i_level i_ct i_noise with_state]. rewrite L1, L2. unfold mul_room_b, mul_room in *. rewrite (proj2 (Z.leb_le _ _) Hf), (proj2 (Z.leb_le _ _) Hr). reflexivity. }
    destruct (circuit_all isp cands par Ho Hp Hsup sk Hsk V HV _ _ _ _ He1) as (_ & p & R1 & _ & C1). destruct (circuit_all isp cands par Ho Hp Hsup sk Hsk V HV _ _ _ _ He2) as (_ & q & R2 & _ & C2).
    exists sk, p, q, (meaning N V (Mul (Input 0) (Input 1))). assert (T1 : ct_mul_rgsw c1 r = Val p) by exact R1. assert (T2 : ct_mul c1 c2 = Val q) by exact R2.
    split; [unfold rgsw_products; rewrite Esk; cbn [bind]; rewrite E1; cbn [bind]; rewrite E2; cbn [bind]; rewrite F1; cbn [bind]; rewrite F2; cbn [bind]; rewrite F3; cbn [bind]; rewrite T1; cbn [bind]; rewrite T2; reflexivity|].
    assert (B1' : norm1 m2 * (v2 + 1) + 2 * switching_noise par <= external_product_noise par) by (unfold external_product_noise; pose proof (norm_le _ _ _ P2); assert (norm1 m2 * (v2 + 1) <= Z.of_nat N * (t - 1) * (v2 + 1)) by (apply Z.mul_le_mono_nonneg_r; lia); lia).
    assert (B2' : mul_noise N t Q (norm1 (sk_coeffs sk)) 2 2 v2 v2 <= direct_product_noise par) by (unfold direct_product_noise; pose proof (norm1_nonneg' (sk_coeffs sk)); pose proof Q_pos; apply mul_noise_mono; try lia; unfold key_norm; lia).
    split; [exact Hsk|]. split.
    { clear - T1. unfold ct_mul_rgsw in T1. repeat match type of T1 with bind ?a _ = Val _ => destruct a; cbn [bind] in T1; try discriminate T1 end. injection T1 as <-. reflexivity. }
    split. { refine (enc_weaken _ _ _ _ _ B1' _). replace (meaning N V (Mul (Input 0) (Input 1))) with (meaning N V (External 0 (Input 0))); [exact C1|]. apply negacyclic_comm; [exact (plain_length _ _ _ P2)|exact (plain_length _ _ _ P1)]. }
    split; [exact (enc_weaken _ _ _ _ _ B2' C2)|]. split; intros Hs.
    - destruct (circuit_slots_all isp cands par Ho Hp Hn Hsup Hdec sk Hsk V HV HS (External 0 (Input 0)) 0%nat 2%nat _ eq_refl He1) as (p' & pt & R & Ed & Eu).
      + exact (small_mono _ _ B1' Hs).
      + assert (p' = p) as -> by congruence. unfold decrypted. rewrite Ed. cbn [bind]. rewrite Eu. f_equal. exact (slot_products_comm y x).
    - destruct (circuit_slots_all isp cands par Ho Hp Hn Hsup Hdec sk Hsk V HV HS (Mul (Input 0) (Input 1)) 0%nat 3%nat _ eq_refl He2) as (q' & pt & R & Ed & Eu).
      + exact (small_mono _ _ B2' Hs).
      + assert (q' = q) as -> by congruence. unfold decrypted. rewrite Ed. exact Eu.
  Qed.

  (** ** The comparison *)
  Lemma measure_val l sk ct xs : (l <= max_level par)%nat -> t <= level_modulus par l -> is_sk par sk -> is_ct par l ct xs -> (2 <= length xs)%nat -> exists n, measure_noise sk ct = Val n.
  Proof.
    intros Hl HtQ Hsk Hct Hlen. pose proof HP as (Hsup & _). destruct (decrypt_bound_all isp cands par Ho Hp l Hl Hsup HtQ sk ct xs Hsk Hct Hlen) as (pt & m & Ed & Hpt & Hm & _). pose proof Hsk as (E1 & E2 & E3). destruct (at_level_ex isp cands par l Ho G Hl) as (lv & c & A).
    destruct (ct_parts isp cands Ho par G l lv c A ct xs Hct) as (vxs & Ect & Ex). rewrite <- Ex, !map_length in Hlen. unfold measure_noise. rewrite Ed. cbn [bind]. rewrite Ect. cbn [ct_c].
    pose proof (good_ok _ (al_good _ _ _ _ _ _ A)) as Hc. pose proof (al_deg _ _ _ _ _ _ A) as Hd.
    destruct (pt_P isp cands Ho par G l lv c A pt m Hpt) as (x & Ept & Em). rewrite Ept, (to_poly_P isp cands par l lv c Ho G A) by (exact HtQ || (rewrite Em; exact Hm)). cbn [bind].
    destruct vxs as [|(v0 & x0) vxs]; [cbn in Hlen; lia|]. cbn [parts map get nth_error unwrap bind tl fst snd]. rewrite P_ctx, (sk_poly_eq isp cands Ho par G l lv c A sk E2 E3). cbn [bind]. fold (parts c vxs). rewrite P_disallow.
    set (s := mkR (sk_coeffs sk) E2). destruct (phase_loop_all_eq c Hc Hd s false vxs false false s x0) as (v' & Ep). rewrite Ep. cbn [bind]. rewrite (P_sub c Hc N Hd) by discriminate. cbn [bind]. rewrite (P_ntt_pb c Hc N Hd). cbn [bind]. rewrite (P_to_big c Hc N Hd). cbn [bind]. eexists. reflexivity.
  Qed.
  Lemma proto_val l ct xs : (l <= max_level par)%nat -> serializable par -> is_ct par l ct xs -> (2 <= length xs)%nat -> ct_seed ct = None -> exists m, ct_to_proto ct = Val m.
  Proof.
    intros Hl Hser Hct Hlen Es. destruct (at_level_ex isp cands par l Ho G Hl) as (lv & c & A). destruct (ct_parts isp cands Ho par G l lv c A ct xs Hct) as (vxs & Ect & Ex). rewrite <- Ex, !map_length in Hlen. rewrite Es in Ect. rewrite Ect.
    destruct (roundtrip_none isp cands Ho par G l lv c A Hser (fun _ _ _ => []) vxs Hlen) as (m & E & _). exists m. exact E.
  Qed.
  Theorem compare_panics sk p q xs ys n : is_sk par sk -> is_ct par 0 p xs -> (2 <= length xs)%nat -> ct_seed p = None -> is_ct par 0 q ys -> (2 <= length ys)%nat -> (0 < max_level par)%nat -> t <= level_modulus par (max_level par) -> serializable par ->
    rgsw_compare sk p q (max_level par) n = Panic.
  Proof.
    intros Hsk Hxs Lx Es Hys Ly Hl HtL Hser. pose proof HP as (Hsup & _ & HtQ & _). unfold rgsw_compare. destruct (measure_val 0 sk p xs (Nat.le_0_l _) HtQ Hsk Hxs Lx) as (b & Eb). rewrite Eb. cbn [bind]. destruct (proto_val 0 p xs (Nat.le_0_l _) Hser Hxs Lx Es) as (m & Em). rewrite Em. cbn [bind]. 
    destruct (switch_all isp cands par Ho Hp 0 (max_level par) (Nat.le_0_l _) (Nat.le_refl _) p xs Hxs) as (r & zs & Er & Hr & Lz & _ & Es'). rewrite Er. cbn [bind]. specialize (Es' Hl). rewrite <- Lz in Lx. destruct (measure_val (max_level par) sk r zs (Nat.le_refl _) HtL Hsk Hr Lx) as (b' & Eb'). rewrite Eb'. cbn [bind].
    destruct (proto_val (max_level par) r zs (Nat.le_refl _) Hser Hr Lx Es') as (m' & Em'). rewrite Em'. cbn [bind]. destruct (decrypt_bound_all isp cands par Ho Hp (max_level par) (Nat.le_refl _) Hsup HtL sk r zs Hsk Hr Lx) as (pr & mr & Er' & Hpr & _). rewrite Er'. cbn [bind].
    destruct (decrypt_bound_all isp cands par Ho Hp 0 (Nat.le_0_l _) Hsup HtQ sk q ys Hsk Hys Ly) as (pq & mq & Eq & Hpq & _). rewrite Eq. cbn [bind].
    replace (pt_eqb pr pq) with false; [reflexivity|]. symmetry. unfold pt_eqb, poly_eqb, ctx_eqb. destruct Hpr as (_ & C1 & _), Hpq as (_ & C2 & _).
    destruct (at_level_ex isp cands par 0 Ho G (Nat.le_0_l _)) as (lv & c & A). destruct (at_level_ex isp cands par (max_level par) Ho G (Nat.le_refl _)) as (lv' & c' & A').
    rewrite (al_par_context isp cands par _ lv' c' A') in C1. rewrite (al_par_context isp cands par _ lv c A) in C2. injection C1 as C1. injection C2 as C2. rewrite <- C1, <- C2, (al_mod _ _ _ _ _ _ A), (al_mod _ _ _ _ _ _ A').
    destruct (list_eqb (level_moduli (pa_moduli par) (max_level par)) (level_moduli (pa_moduli par) 0)) eqn:El; [|destruct (par_eqb _ _); reflexivity]. exfalso. apply list_eqb_eq in El. apply (f_equal (@length Z)) in El. unfold level_moduli in El. rewrite !firstn_length in El.
    destruct (gp_levels _ _ _ G) as (plain & _ & L & _). unfold max_level in *. rewrite L in *. lia.
  Qed.
  Lemma same_plaintext l pt pt' m : (l <= max_level par)%nat -> is_pt par l pt m -> is_pt par l pt' m -> pt_enc pt = None -> pt_eqb pt pt' = true.
  Proof.
    intros Hl H H' Ee. destruct (at_level_ex isp cands par l Ho G Hl) as (lv & c & A). destruct (pt_P isp cands Ho par G l lv c A pt m H) as (x & E & Ex). destruct (pt_P isp cands Ho par G l lv c A pt' m H') as (x' & E' & Ex').
    rewrite E, E', Ee. unfold pt_eqb, P. rewrite Ex, Ex'. cbn [pt_par pt_poly pt_enc]. rewrite par_eqb_refl. unfold poly_eqb, poly_of, ctx_eqb, rows_eqb, shoup_eqb. cbn [p_ctx p_lazy p_coeffs p_shoup]. rewrite list_eqb_refl, Nat.eqb_refl. cbn [andb Bool.eqb].
    destruct (list_eq_dec _ _ _) as [_|Hne]; [reflexivity|congruence].
  Qed.
  Theorem compare_same sk p q m B B' x n : is_sk par sk -> encrypts par sk 0 p m B -> encrypts par sk 0 q m B' -> small_noise par 0 B -> small_noise par 0 B' -> ct_seed p = None -> serializable par -> (n <= length x)%nat ->
    decrypted sk EncSimd p = Val x -> rgsw_compare sk p q 0 n = Val (firstn n x).
  Proof.
    intros Hsk Hp1 Hq1 HB HB' Es Hser Hln Dp. pose proof HP as (Hsup & Hdec & HtQ & _). pose proof Hp1 as (xs & e & Hxs & Lx & _). unfold rgsw_compare. destruct (measure_val 0 sk p xs (Nat.le_0_l _) HtQ Hsk Hxs Lx) as (b & Eb). rewrite Eb. cbn [bind]. destruct (proto_val 0 p xs (Nat.le_0_l _) Hser Hxs Lx Es) as (w & Ew). rewrite Ew. cbn [bind].
    destruct (switch_all isp cands par Ho Hp 0 0 (Nat.le_0_l _) (Nat.le_0_l _) p xs Hxs) as (r & zs & Er & _ & _ & Esame & _). rewrite (Esame eq_refl) in Er. rewrite Er. cbn [bind]. rewrite Eb. cbn [bind]. rewrite Ew. cbn [bind].
    destruct (decrypt_all isp cands par Ho Hp 0 (Nat.le_0_l _) Hsup Hdec sk p m B Hsk Hp1 HB) as (pp & E1 & P1 & N1). destruct (decrypt_all isp cands par Ho Hp 0 (Nat.le_0_l _) Hsup Hdec sk q m B' Hsk Hq1 HB') as (pq & E2 & P2 & _).
    unfold decrypted in Dp. rewrite E1 in Dp |- *. cbn [bind] in *. rewrite E2. cbn [bind]. rewrite (same_plaintext 0 pp pq _ (Nat.le_0_l _) P1 P2 N1). cbn [guard bind]. rewrite Dp. cbn [bind]. unfold prefix. rewrite (proj2 (Nat.leb_le _ _) Hln). reflexivity.
  Qed.
End Rgsw.
