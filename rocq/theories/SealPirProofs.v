(** The responses of the server and the answer of the client in the SealPIR example. *)
From Verif Require Import Outcome BasicSpec OutcomeLemmas ZqModel ZqProofs NumTheory NttModel PolySpec PolyRing NttPure NttStages NttProofs CbdModel CbdSpec CbdProofs.
From Verif Require Import TranscodeModel TranscodeProofs PrimesModel RnsModel RnsSpec RnsProofs RqModel RqSpec RqCtx RqRows RqProofs RingRn RqOps RqIO RqPropLemmas ParamsModel BfvSpec ParamsProofs BuildProofs ParamsPropLemmas PlainModel CipherModel OpsModel SchemeSpec CipherSpec PlainProofs PlainPropLemmas RnPoly CipherProofs EncryptProofs CipherPropLemmas LinearPropLemmas.
From Verif Require Import SerialPropLemmas DotPropLemmas MulPropLemmas KeysModel KeysSpec KeyNoiseProofs KeyPropLemmas EvalSpec EvalPropLemmas WireSpec KeySerialPropLemmas PolyEncProofs PirModel PirSpec PirLists PirProofs MulPirProofs.
From Verif Require Import BasicSpec.
Set Default Proof Using "Type".

Section Fold.
  Context (isp : Z -> bool) (cands : Z -> list Z) (par : params) (Ho : oracles isp cands) (Hp : is_params isp cands par) (HP : pir_params par).
  Context (sk : secret_key) (Hsk : is_sk par sk).
  Set Default Proof Using "All".
  Notation N := (pa_degree par).
  Notation t := (pa_t par).
  Notation w := (Z.log2 (pa_t par)).
  Notation qb := (nbits (hd 0 (pa_moduli par))).
  Notation n := (Z.to_nat (div_ceil (Z.of_nat (pa_degree par) * nbits (hd 0 (pa_moduli par))) (Z.log2 (pa_t par)))).
  Notation G := (params_good isp cands par Ho Hp).

  Lemma q0_bits : 1 <= qb <= 62 /\ hd 0 (pa_moduli par) < 2 ^ qb /\ first_bits par = Val qb /\ level_moduli (pa_moduli par) 2 = [hd 0 (pa_moduli par)].
  Proof.
    pose proof (gp_friendly _ _ _ G) as Hf. destruct HP as (L3 & _). unfold first_bits, get, level_moduli. destruct (pa_moduli par) as [|q0 [|q1 [|q2 [|? ?]]]]; try discriminate L3. apply Forall_cons_iff in Hf. destruct Hf as ((Hq & Hlt & _) & _). apply Znumtheory.prime_ge_2 in Hq. cbn [hd nth_error unwrap bind].
    pose proof (nbits_62 0%nat q0 ltac:(lia)). pose proof (nbits_spec q0 ltac:(lia)). split; [lia|]. split; [lia|]. split; [|reflexivity]. unfold leading_zeros64. do 2 f_equal. lia.
  Qed.
  Lemma n_bounds : Z.of_nat n = div_ceil (Z.of_nat N * qb) w /\ (0 < n)%nat /\ Z.of_nat N * qb <= w * Z.of_nat n /\ Z.of_nat n <= Z.of_nat N * qb /\ Z.of_nat N * qb <= 65536 * 62.
  Proof.
    pose proof q0_bits as (Hq & _). pose proof (pir_w isp cands par Ho Hp HP) as (Hw & _). destruct (pir_N isp cands par Ho Hp HP) as (K & _ & _ & _ & HN). assert (H1 : 1 <= Z.of_nat N * qb <= 65536 * 62) by nia.
    pose proof (ceiling_bound (Z.of_nat N * qb) w ltac:(lia)) as Hc. change (ceiling (Z.of_nat N * qb) w) with (div_ceil (Z.of_nat N * qb) w) in Hc. set (z := div_ceil _ _) in *. assert (Hz : 1 <= z) by nia. rewrite Z2Nat.id by lia. repeat split; try lia; nia.
  Qed.
  (** The words of a part of a ciphertext at the last level *)
  Lemma part_words c (p : poly Ntt) x : par_context par 2 = Val c -> p_ctx p = c -> represents p x ->
    length (poly_to_u64 p) = N /\ digits qb (poly_to_u64 p) /\ ntt_from_u64 c (poly_to_u64 p) true = Val (poly_of Ntt c true x).
  Proof.
    intros Ec Epc (Lx & Ep). pose proof (pir_levels isp cands par Ho Hp HP) as Hml. destruct (at_level_ex isp cands par 2%nat Ho G ltac:(lia)) as (lv & c' & A). rewrite (al_par_context isp cands par 2 lv c' A) in Ec. injection Ec as Ec. subst c'.
    pose proof q0_bits as (Hqb & Hq0 & _ & E1). pose proof (al_mod _ _ _ _ _ _ A) as Em. rewrite E1 in Em. pose proof (good_ok _ (al_good _ _ _ _ _ _ A)) as Hc. pose proof (al_deg _ _ _ _ _ _ A) as Hdg. rewrite Epc in *.
    pose proof (poly_of_wf c Hc Ntt (p_vt p) x Lx) as (_ & Hwf & _). rewrite (moduli_ops c Hc) in Em. pose proof (q_ops c Hc) as Eq. rewrite Ep. unfold poly_to_u64. cbn [poly_of p_coeffs p_ctx] in *. rewrite Eq in Hwf.
    destruct (c_ops c) as [|op [|op' ops]] eqn:Eops; try discriminate Em. cbn [map concat] in *. rewrite app_nil_r. inversion Hwf as [|? ? ? ? (Lr & Hr) _]; subst. injection Em as Em. set (r := row Ntt op x) in *.
    change (evaluations op x) with r in Lr, Hr. split; [congruence|]. split; [eapply Forall_impl; [|exact Hr]; cbv beta; rewrite Em; intros; lia|]. unfold ntt_from_u64, rows_of. rewrite Eq, Lr. cbn [length Nat.mul]. rewrite Nat.add_0_r, Nat.eqb_refl. f_equal. unfold poly_of. rewrite Eops. cbn [map chunks_n fst]. fold r. rewrite firstn_all2 by lia. reflexivity.
  Qed.
  Lemma rebuild c ct a b m B : par_context par 2 = Val c -> is_ct par 2 ct [a; b] -> encrypts2 par sk 2 ct m B ->
    exists ct', ct_new [poly_of Ntt c true a; poly_of Ntt c true b] par = Val ct' /\ encrypts2 par sk 2 ct' m B.
  Proof.
    intros Ec Hct (L2 & He). pose proof (pir_levels isp cands par Ho Hp HP) as Hml. destruct (at_level_ex isp cands par 2%nat Ho G ltac:(lia)) as (lv & c' & A). pose proof (al_par_context isp cands par 2 lv c' A) as Ec'. rewrite Ec in Ec'. injection Ec' as <-.
    unfold ct_new. cbn [poly_of p_ctx existsb]. rewrite (al_level_of isp cands par 2 lv c A). cbn [bind]. rewrite ctx_eqb_refl. cbn [negb orb]. eexists. split; [reflexivity|]. split; [reflexivity|].
    destruct He as (xs & e & Hct' & Hlen & Lm & Le & Hb & Hc). exists xs, e. split; [|repeat (split; [assumption|]); assumption]. split; [reflexivity|]. split; [reflexivity|]. cbn [ct_c].
    destruct Hct as (_ & _ & F). destruct Hct' as (_ & _ & F'). remember (ct_c ct) as ps eqn:Eps. destruct ps as [|p0 [|p1 [|? ?]]]; try discriminate L2.
    inversion F as [|? ? ? ? (Ea & La & Pa) F1]; subst. inversion F1 as [|? ? ? ? (Eb & Lb & Pb) _]; subst. inversion F' as [|? x0 ? ? (Ea' & La' & Pa') F1']; subst. inversion F1' as [|? x1 ? ? (Eb' & Lb' & Pb') F2']; subst. inversion F2'; subst.
    rewrite Ec in Ea, Eb. injection Ea as Ea. injection Eb as Eb. rewrite <- Ea in *. rewrite <- Eb in *.
    assert (E0 : poly_of Ntt c true a = poly_of Ntt c true x0). { unfold poly_of. f_equal. apply (f_equal (@p_coeffs Ntt)) in Pa, Pa'. cbn [poly_of p_coeffs] in Pa, Pa'. congruence. }
    assert (E1 : poly_of Ntt c true b = poly_of Ntt c true x1). { unfold poly_of. f_equal. apply (f_equal (@p_coeffs Ntt)) in Pb, Pb'. cbn [poly_of p_coeffs] in Pb, Pb'. congruence. }
    constructor; [|constructor; [|constructor]]; (split; [exact Ec|]).
    - rewrite E0. split; [exact La'|reflexivity].
    - rewrite E1. split; [exact Lb'|reflexivity].
  Qed.
  Lemma transcoded r : length r = N -> digits qb r -> exists v k, transcode_bidirectional r qb w = Val v /\ length v = n /\ digits w v /\ transcode_bidirectional v w qb = Val (r ++ repeat 0 k).
  Proof.
    intros Lr Hr. pose proof q0_bits as (Hq & _). pose proof (pir_w isp cands par Ho Hp HP) as (Hw & _). pose proof n_bounds as (En & _ & _ & _ & Hb). assert (HW : W64 = 2 ^ 64) by reflexivity.
    destruct (transcode_bidirectional_spec r qb w ltac:(lia) ltac:(lia) Hr ltac:(unfold len; rewrite Lr, HW; lia)) as (v & E & Hd & _ & Hl). destruct (bidirectional_round_trip r qb w ltac:(lia) ltac:(lia) Hr ltac:(unfold len; rewrite Lr, HW; lia)) as (v' & E' & k & Ek).
    rewrite E in E'. injection E' as <-. exists v, k. split; [exact E|]. split; [|split; assumption]. unfold len in Hl. rewrite Lr in Hl. lia.
  Qed.
  (** The digits of a ciphertext determine it. *)
  Definition rebuilds (V : list Z) (m : list Z) (B : Z) : Prop :=
    exists p0 p1 c x0 x1 ct, transcode_bidirectional (firstn n V) w qb = Val p0 /\ transcode_bidirectional (skipn n V) w qb = Val p1 /\ (N <= length p0)%nat /\ (N <= length p1)%nat /\
      par_context par 2 = Val c /\ ntt_from_u64 c (firstn N p0) true = Val x0 /\ ntt_from_u64 c (firstn N p1) true = Val x1 /\ ct_new [x0; x1] par = Val ct /\ encrypts2 par sk 2 ct m B.
  Lemma fold_values_val ct m B : encrypts2 par sk 2 ct m B -> exists V, fold_values par ct = Val V /\ length V = (2 * n)%nat /\ digits w V /\ rebuilds V m B.
  Proof.
    intros He. pose proof He as (L2 & xs & e & Hct & _). pose proof q0_bits as (Hq & _ & Efb & _). pose proof (pir_w isp cands par Ho Hp HP) as (Hw & _). pose proof n_bounds as (En & Hn0 & Hn1 & Hn2 & Hn3).
    destruct Hct as (Hpar & Hlev & F). remember (ct_c ct) as ps eqn:Eps. destruct ps as [|p0 [|p1 [|? ?]]]; try discriminate L2. inversion F as [|? a ? ? (Ea & Ra) F1]; subst. inversion F1 as [|? b ? ? (Eb & Rb) F2]; subst. inversion F2; subst. rewrite Ea in Eb. injection Eb as Eb.
    destruct (part_words _ p0 a Ea eq_refl Ra) as (L0 & D0 & W0). destruct (part_words _ p1 b Ea (eq_sym Eb) Rb) as (L1 & D1 & W1).
    destruct (transcoded _ L0 D0) as (v0 & k0 & T0 & Lv0 & Dv0 & I0). destruct (transcoded _ L1 D1) as (v1 & k1 & T1 & Lv1 & Dv1 & I1).
    exists (v0 ++ v1). unfold fold_values. rewrite (pir_plain_bits isp cands par Ho Hp HP). cbn [bind]. rewrite Efb. cbn [bind]. unfold chk64. change W64 with (2 ^ 64). rewrite chk_val by lia. cbn [bind]. rewrite div_ceilM_eq by lia. cbn [bind]. fold (div_ceil (Z.of_nat N * qb) w). rewrite chk_val by lia. cbn [bind].
    unfold get. rewrite <- Eps. cbn [nth_error unwrap bind]. rewrite T0. cbn [bind]. rewrite T1. cbn [bind]. split; [reflexivity|]. split; [rewrite app_length; lia|]. split; [apply digits_app; assumption|].
    destruct (rebuild (p_ctx p0) ct a b m B Ea) as (ct' & En' & He').
    { split; [exact Hpar|]. split; [exact Hlev|]. rewrite <- Eps. constructor; [split; assumption|]. constructor; [split; [rewrite Ea, Eb; reflexivity|exact Rb]|constructor]. }
    { exact He. }
    exists (poly_to_u64 p0 ++ repeat 0 k0), (poly_to_u64 p1 ++ repeat 0 k1), (p_ctx p0). do 2 eexists. exists ct'.
    split; [rewrite <- Lv0, firstn_app, Nat.sub_diag, firstn_all; cbn [firstn]; rewrite app_nil_r; exact I0|]. split; [rewrite <- Lv0, skipn_app, Nat.sub_diag, skipn_all; cbn [skipn app]; exact I1|].
    split; [rewrite app_length; lia|]. split; [rewrite app_length; lia|]. split; [exact Ea|].
    split; [rewrite <- L0, firstn_app, Nat.sub_diag, firstn_all; cbn [firstn]; rewrite app_nil_r; exact W0|]. split; [rewrite <- L1, firstn_app, Nat.sub_diag, firstn_all; cbn [firstn]; rewrite app_nil_r; exact W1|]. split; assumption.
  Qed.
  (** Vectors of digits as plaintexts *)
  Notation kk := (Nat.max ((2 * n + N - 1) / N) 1).
  Notation chunks V := (map (fun j => pad N (slice N j V)) (seq 0 kk)).
  Lemma encode_chunks V : length V = (2 * n)%nat -> digits w V -> exists F, encode_vec_u64 true V (mkEnc EncPoly 1) par = Val F /\ Forall2 (is_pt par 1) F (chunks V).
  Proof.
    intros LV HV. pose proof (pir_levels isp cands par Ho Hp HP) as Hml. pose proof (pir_w isp cands par Ho Hp HP) as (Hw & Hw2 & Ht). destruct (at_level_ex isp cands par 1%nat Ho G ltac:(lia)) as (lv & c & A). pose proof (al_N8 _ _ _ _ _ _ A) as H8. set (e := mkEnc EncPoly 1).
    assert (Hone : forall i, exists pt, bind (encode_u64_chunk true (slice N i V) e par c) (fun p => Val (mkPt par (Some e) p)) = Val pt /\ is_pt par 1 pt (pad N (slice N i V))).
    { intros i. pose proof (Forall_slice _ N i V HV) as Hs. destruct (encode_poly_all isp cands par Ho Hp 1%nat ltac:(lia) (level_fits isp cands par Ho Hp HP 1%nat ltac:(lia)) true (slice N i V) (slice_le N i V)) as (pt & E & Hpt & _); [eapply Forall_impl; [|exact Hs]; cbv beta; intros; lia|eapply Forall_impl; [|exact Hs]; cbv beta; unfold is_u64; intros; lia|].
      exists pt. split; [|exact Hpt]. unfold encode_u64, encode_vec_u64 in E. destruct (Nat.ltb_spec N (length (slice N i V))); [discriminate|]. fold e in E. rewrite (encode_one isp cands par 1 lv c A (encode_u64_chunk true) (slice N i V) e (slice_le N i V) eq_refl ltac:(discriminate)) in E. destruct (encode_u64_chunk true (slice N i V) e par c); cbn [bind] in E |- *; [|discriminate|discriminate]. exact E. }
    unfold encode_vec_u64, encode_with. cbn [e e_kind e_level]. rewrite (al_par_context isp cands par 1 lv c A). cbn [bind]. destruct (Nat.eqb_spec N 0) as [HN0|HN0]; [lia|]. cbn [negb guard bind]. cbv zeta.
    assert (Ek : Nat.max (Z.to_nat (div_ceil (len V) (Z.of_nat N))) 1 = kk). { unfold div_ceil at 1, len. rewrite LV. f_equal. replace (Z.of_nat (2 * n) + Z.of_nat N - 1) with (Z.of_nat (2 * n + N - 1)) by lia. rewrite <- Nat2Z.inj_div. apply Nat2Z.id. }
    rewrite Ek. fold e. generalize kk as k. clear - Hone.
    enough (HE : forall k s, exists F, mapM (fun i => p <- encode_u64_chunk true (firstn N (skipn (i * N) V)) e par c ;; Val (mkPt par (Some e) p)) (seq s k) = Val F /\ Forall2 (is_pt par 1) F (map (fun j => pad N (slice N j V)) (seq s k))) by (intros k; apply HE).
    intros k. induction k as [|k IH]; intros s; [exists []; split; [reflexivity|constructor]|]. cbn [seq mapM map]. destruct (Hone s) as (pt & E & Hpt). unfold slice at 1 in E. rewrite E. cbn [bind]. destruct (IH (S s)) as (F & EF & HF). rewrite EF. cbn [bind]. exists (pt :: F). split; [reflexivity|constructor; [exact Hpt|exact HF]].
  Qed.
  Lemma nth_chunks Fs Vs j : Forall2 (fun F V => Forall2 (is_pt par 1) F (chunks V)) Fs Vs -> (j < kk)%nat -> exists pts, mapM (fun F => get F j) Fs = Val pts /\ Forall2 (is_pt par 1) pts (map (fun V => pad N (slice N j V)) Vs).
  Proof.
    intros H Hj. induction H as [|F V Fs Vs HF _ (pts & E & Hpts)]; [exists []; split; [reflexivity|constructor]|]. cbn [mapM map].
    assert (LF : length F = kk) by (rewrite (Forall2_length_eq _ _ _ HF), map_length, seq_length; reflexivity). destruct (nth_error F j) as [pt|] eqn:Ej; [|apply nth_error_None in Ej; lia]. unfold get at 1. rewrite Ej. cbn [unwrap bind]. rewrite E. cbn [bind]. exists (pt :: pts). split; [reflexivity|]. constructor; [|exact Hpts].
    pose proof (Forall2_nth_both _ _ _ [] HF j pt Ej) as Hpt. rewrite nth_map_seq in Hpt by exact Hj. exact Hpt.
  Qed.

  (** What the client reads from a response *)
  Definition carries (expand : expander) (pr : ct_proto) (v : list Z) : Prop :=
    exists ct pt, ct_from_proto expand pr par = Val ct /\ sk_decrypt sk ct = Val pt /\ decode_u64 pt (Some (mkEnc EncPoly 2)) = Val v.
  Lemma read_all expand prs vs0 : Forall2 (carries expand) prs vs0 -> exists cts pts, mapM (fun r => no_err (ct_from_proto expand r par)) prs = Val cts /\ keep_values (map (sk_decrypt sk) cts) = Val pts /\ mapM (fun pt => no_err (decode_u64 pt (Some (mkEnc EncPoly 2)))) pts = Val vs0.
  Proof.
    induction 1 as [|pr v prs vs0 (ct & pt & E1 & E2 & E3) _ (cts & pts & F1 & F2 & F3)]; [exists [], []; repeat split|]. exists (ct :: cts), (pt :: pts). cbn [mapM map keep_values]. rewrite E1. cbn [no_err bind]. rewrite F1. cbn [bind]. rewrite E2, F2. cbn [bind]. rewrite E3. cbn [no_err bind]. rewrite F3. repeat split.
  Qed.

  (** ** The server *)
  Section Answers.
    Context (expand : expander) (derive : deriver) (Hx : expands_well expand) (d : pir_draws) (Hd : draws_ok d).
    Context (pre : list plaintext) (vs : list (list Z)) (d1 d2 : nat) (Hd1 : (0 < d1)%nat) (Hd2 : (0 < d2)%nat) (Lpre : length pre = (d1 * d2)%nat) (HF : Forall2 (is_pt par 1) pre vs) (HV : Forall (fun v => length v = N /\ digits w v) vs).
    Context (qv rest : list ciphertext) (us ws : list Z) (B : Z) (HB : 0 <= B) (Lqv : length qv = d1) (Lrest : length rest = d2).
    Context (Hqv : Forall2 (fun ct u => encrypts2 par sk 1 ct (const N u) B) qv us) (Hrest : Forall2 (fun ct u => encrypts2 par sk 1 ct (const N u) B) rest ws).
    Notation S1 := (norm1 (sk_coeffs sk)).
    Notation cv := (cvals vs d1 d2).
    Notation B1 := (last_noise par S1 (column_noise par d1 B)).
    Notation B2 := (last_noise par S1 (column_noise par d2 B)).
    Lemma folded_columns k a : (a + k <= d2)%nat -> exists cs Fs Vs, mapM (sealpir_column par qv pre d2) (seq a k) = Val cs /\ mapM (fun c => v <- fold_values par c ;; encode_vec_u64 true v (mkEnc EncPoly 1) par) cs = Val Fs /\
      Forall2 (fun F V => Forall2 (is_pt par 1) F (chunks V)) Fs Vs /\ Forall (fun V => length V = (2 * n)%nat /\ digits w V) Vs /\ Forall2 (fun i V => rebuilds V (wsum N us (cv i)) B1) (seq a k) Vs.
    Proof.
      revert a. induction k as [|k IH]; intros a Ha; [exists [], [], []; cbn [seq mapM]; repeat split; constructor|]. destruct (IH (S a) ltac:(lia)) as (cs & Fs & Vs & E1 & E2 & H1 & H2 & H3).
      destruct (column_dot isp cands par Ho Hp HP sk Hsk pre vs d1 d2 Hd1 Lpre HF HV qv us B HB Lqv Hqv a ltac:(lia)) as (col & dp & Ec & Ed & _ & He). destruct (last_switch isp cands par Ho Hp HP sk Hsk dp _ _ He) as (c & Es & _ & Hc).
      destruct (fold_values_val c _ _ Hc) as (V & EV & LV & DV & RV). destruct (encode_chunks V LV DV) as (F & EF & HFV).
      exists (c :: cs), (F :: Fs), (V :: Vs). cbn [seq mapM]. unfold sealpir_column at 1. rewrite Ec. cbn [bind]. rewrite Ed. cbn [bind]. rewrite Es. cbn [bind]. rewrite E1. cbn [bind]. rewrite EV. cbn [bind]. rewrite EF. cbn [bind]. rewrite E2. cbn [bind].
      split; [reflexivity|]. split; [reflexivity|]. split; [constructor; assumption|]. split; [constructor; [split; assumption|assumption]|constructor; assumption].
    Qed.
    Context (Hsm : small_noise par 2 B2).
    Lemma response_val Fs Vs i0 j : length Fs = d2 -> Forall2 (fun F V => Forall2 (is_pt par 1) F (chunks V)) Fs Vs -> Forall (fun V => length V = (2 * n)%nat /\ digits w V) Vs -> selects t i0 ws -> (j < kk)%nat ->
      exists pts o o2 pr, mapM (fun F => get F j) Fs = Val pts /\ dot_product_scalar rest pts = Val o /\ ct_switch_to_level o (max_level (ct_par o)) = Val o2 /\ ct_to_proto o2 = Val pr /\ carries expand pr (pad N (slice N j (nth i0 Vs []))).
    Proof.
      intros LF HFs HVs Hsel Hj. pose proof (pir_levels isp cands par Ho Hp HP) as Hml. pose proof (pir_w isp cands par Ho Hp HP) as (Hw & Hw2 & Ht). destruct (nth_chunks Fs Vs j HFs Hj) as (pts & Epts & Hpts). pose proof (Forall2_length_eq _ _ _ HFs) as LV. pose proof (Forall2_length_eq _ _ _ Hpts) as Lp. rewrite map_length in Lp. pose proof (Forall2_length_eq _ _ _ Hrest) as Lws.
      assert (Hgood : Forall (fun v => length v = N /\ digits w v) (map (fun V => pad N (slice N j V)) Vs)).
      { apply Forall_forall. intros v Hin. apply in_map_iff in Hin. destruct Hin as (V & <- & HinV). apply (proj1 (Forall_forall _ _) HVs) in HinV. split; [apply pad_length, slice_le|]. apply digits_pad; [lia|]. apply Forall_slice, HinV. }
      destruct (weighted_dot isp cands par Ho Hp HP sk Hsk rest ws B pts _ HB Hrest Hpts Hgood ltac:(lia) ltac:(intros ->; cbn in Lrest; lia)) as (o & Eo & _ & Heo). rewrite Lrest in Heo. destruct (last_switch isp cands par Ho Hp HP sk Hsk o _ _ Heo) as (o2 & Eo2 & Ss & Lo2 & He2).
      destruct (wire_encrypts isp cands par Ho Hp HP expand derive Hx sk Hsk d Hd 2%nat o2 _ _ 2%nat ltac:(lia) ltac:(intros sd Esd; congruence) Lo2 He2) as (pr & o3 & Ew1 & Ew2 & Lo3 & He3).
      exists pts, o, o2, pr. repeat (split; [assumption|]). pose proof HP as (_ & Hsup & Hdec & _). destruct (decrypt_all isp cands par Ho Hp 2%nat ltac:(lia) Hsup Hdec sk o3 _ B2 Hsk He3 Hsm) as (pt & E & Hpt & Enc).
      assert (Hi0 : (i0 < length Vs)%nat) by (destruct Hsel as (Hlt & _); lia).
      assert (Em : map (fun a => a mod t) (wsum N ws (map (fun V => pad N (slice N j V)) Vs)) = pad N (slice N j (nth i0 Vs []))).
      { rewrite (wsum_select N t i0); [|lia|eapply Forall_impl; [|exact Hgood]; intros v Hv; exact (proj1 Hv)|rewrite map_length; lia|exact Hsel].
        rewrite (nth_indep _ [] (pad N (slice N j []))) by (rewrite map_length; exact Hi0). rewrite (map_nth (fun V => pad N (slice N j V))).
        assert (Hdg : digits w (pad N (slice N j (nth i0 Vs [])))) by (apply (proj1 (Forall_forall _ _) Hgood); apply (in_map (fun V => pad N (slice N j V))), nth_In, Hi0).
        rewrite <- (map_id (pad N _)) at 2. apply map_ext_in. intros a Ha. apply (proj1 (Forall_forall _ _) Hdg) in Ha. apply Z.mod_small. lia. }
      rewrite Em in Hpt. assert (Hdg : digits w (pad N (slice N j (nth i0 Vs [])))) by (apply (proj1 (Forall_forall _ _) Hgood); apply (in_map (fun V => pad N (slice N j V))), nth_In, Hi0).
      exists o3, pt. split; [exact Ew2|]. split; [exact E|]. apply (decode_poly_all isp cands par Ho Hp 2%nat ltac:(lia) (level_fits isp cands par Ho Hp HP 2%nat ltac:(lia)) pt _ Hpt); [eapply Forall_impl; [|exact Hdg]; cbv beta; intros; lia|eapply Forall_impl; [|exact Hdg]; cbv beta; unfold is_u64; intros; lia|left; exact Enc].
    Qed.
    Lemma responses_val Fs Vs i0 k a : length Fs = d2 -> Forall2 (fun F V => Forall2 (is_pt par 1) F (chunks V)) Fs Vs -> Forall (fun V => length V = (2 * n)%nat /\ digits w V) Vs -> selects t i0 ws -> (a + k <= kk)%nat ->
      exists prs, mapM (fun i => pts <- mapM (fun pts => get pts i) Fs ;; o <- dot_product_scalar rest pts ;; o <- ct_switch_to_level o (max_level (ct_par o)) ;; ct_to_proto o) (seq a k) = Val prs /\ Forall2 (carries expand) prs (map (fun j => pad N (slice N j (nth i0 Vs []))) (seq a k)).
    Proof.
      intros LF HFs HVs Hsel. revert a. induction k as [|k IH]; intros a Ha; [exists []; split; [reflexivity|constructor]|]. destruct (IH (S a) ltac:(lia)) as (prs & E & HR). destruct (response_val Fs Vs i0 a LF HFs HVs Hsel ltac:(lia)) as (pts & o & o2 & pr & E1 & E2 & E3 & E4 & Hc).
      exists (pr :: prs). cbn [seq mapM map]. rewrite E1. cbn [bind]. rewrite E2. cbn [bind]. rewrite E3. cbn [bind]. rewrite E4. cbn [bind]. rewrite E. cbn [bind]. split; [reflexivity|constructor; assumption].
    Qed.
  End Answers.
End Fold.

Section Client.
  Context (isp : Z -> bool) (cands : Z -> list Z) (par : params) (Ho : oracles isp cands) (Hp : is_params isp cands par) (HP : pir_params par).
  Context (isqrt : nat -> nat) (esize : nat) (db : list (list Z)) (d1 d2 : nat) (Hdb : database esize db) (Hne : db <> []) (Hes : (0 < esize)%nat) (Hfit : 8 * Z.of_nat esize <= Z.log2 (pa_t par) * Z.of_nat (pa_degree par)) (Hlay : layout isqrt par esize db d1 d2).
  Context (sk : secret_key) (Hsk : is_sk par sk).
  Context (expand : expander) (derive : deriver) (Hx : expands_well expand) (d : pir_draws) (Hd : draws_ok d).
  Set Default Proof Using "All".
  Notation N := (pa_degree par).
  Notation t := (pa_t par).
  Notation w := (Z.log2 (pa_t par)).
  Notation qb := (nbits (hd 0 (pa_moduli par))).
  Notation n := (Z.to_nat (div_ceil (Z.of_nat (pa_degree par) * nbits (hd 0 (pa_moduli par))) (Z.log2 (pa_t par)))).
  Notation kk := (Nat.max ((2 * n + N - 1) / N) 1).
  Notation npp := (Z.to_nat (per_row par esize)).
  Notation rows := (row_count par esize db).
  Notation S1 := (norm1 (sk_coeffs sk)).
  Lemma answer_val prs V m B v index : Forall2 (carries par sk expand) prs (map (fun j => pad N (slice N j V)) (seq 0 kk)) -> length V = (2 * n)%nat -> rebuilds par sk V m B -> small_noise par 2 B ->
    (index < length db)%nat -> map (fun a => a mod t) m = v -> length v = N -> digits w v -> digits_value w v = digits_value 8 (row_content db npp esize (index / npp)) ->
    sealpir_answer expand sk prs esize index = Val (nth index db []).
  Proof.
    intros HR LV (p0 & p1 & c & x0 & x1 & ct & T0 & T1 & Lp0 & Lp1 & Ec & X0 & X1 & En & He) Hsm Hi Em Lv Dv Hval. pose proof (q0_bits isp cands par Ho Hp HP sk Hsk) as (Hq & _ & Efb & _). pose proof (pir_w isp cands par Ho Hp HP) as (Hw & _). pose proof (n_bounds isp cands par Ho Hp HP sk Hsk) as (Enn & Hn0 & Hn1 & Hn2 & Hn3). destruct (pir_N isp cands par Ho Hp HP) as (K & HK & _ & _ & HN).
    destruct (read_all isp cands par Ho Hp HP sk Hsk expand prs _ HR) as (cts & pts & R1 & R2 & R3). destruct (extract_val isp cands par Ho Hp HP isqrt esize db d1 d2 Hdb Hne Hes Hfit Hlay sk Hsk ct m B v index Hi He Hsm Em Lv Dv Hval) as (pt & Ed & Ee).
    unfold sealpir_answer. rewrite (proj1 Hsk). cbv zeta. rewrite R1. cbn [bind]. rewrite R2. cbn [bind]. rewrite R3. cbn [bind]. rewrite (pir_plain_bits isp cands par Ho Hp HP). cbn [bind]. rewrite Efb. cbn [bind]. unfold chk64. change W64 with (2 ^ 64). rewrite chk_val by lia. cbn [bind]. rewrite div_ceilM_eq by lia. cbn [bind]. fold (div_ceil (Z.of_nat N * qb) w). rewrite chk_val by lia. cbn [bind].
    assert (Hkk : (length V <= kk * N)%nat). { rewrite LV. pose proof (Nat.div_mod (2 * n + N - 1) N ltac:(lia)). pose proof (Nat.mod_upper_bound (2 * n + N - 1) N ltac:(lia)). nia. }
    rewrite (concat_slices N kk ltac:(lia) V Hkk). unfold pad. set (z := repeat 0 _). rewrite app_length. replace (Nat.leb (2 * n) (length V + length z)) with true by (symmetry; apply Nat.leb_le; lia). cbn [guard bind].
    rewrite (firstn_app n). replace (n - length V)%nat with 0%nat by lia. cbn [firstn]. rewrite app_nil_r, T0. cbn [bind].
    rewrite <- LV at 1. rewrite firstn_app, Nat.sub_diag, firstn_all. cbn [firstn]. rewrite app_nil_r, T1. cbn [bind]. apply Nat.leb_le in Lp0, Lp1. rewrite Lp0, Lp1. cbn [guard bind]. rewrite Ec. cbn [bind]. rewrite X0. cbn [bind]. rewrite X1. cbn [bind]. rewrite En. cbn [bind]. rewrite Ed. cbn [no_err bind]. exact Ee.
  Qed.
  Lemma sealpir_answers index pre vs ek es : (index < length db)%nat -> sealpir_room par S1 d1 d2 ->
    length pre = (d1 * d2)%nat -> Forall2 (is_pt par 1) pre vs -> Forall (fun v => length v = N /\ digits w v) vs -> (forall q, Z.of_nat q < rows -> digits_value w (nth q vs []) = digits_value 8 (row_content db npp esize q)) ->
    is_ek par sk 1 0 ek es (2 * pa_variance par) -> proper_exponents N es -> round_exponents N (Z.to_nat (Z.log2_up (Z.of_nat (d1 + d2)))) es ->
    exists pr rs, pir_query expand sk d1 d2 (index / npp) d = Val pr /\ sealpir_response expand par pre d1 d2 ek pr = Val rs /\ sealpir_answer expand sk rs esize index = Val (nth index db []).
  Proof.
    intros Hi (Hsm1 & Hsm2) Lpre HF HV Hval Hek Hpe Hre. destruct (dims_bound isp cands par Ho Hp HP isqrt esize db d1 d2 Hdb Hne Hes Hfit Hlay) as (HD & Hd1 & Hd2 & _). destruct (row_lt isp cands par Ho Hp HP isqrt esize db d1 d2 Hdb Hne Hes Hfit Hlay sk Hsk index Hi) as (Hq & Hqd & _). set (q := (index / npp)%nat) in *.
    destruct (expanded_query_val isp cands par Ho Hp HP expand derive Hx sk Hsk d Hd d1 d2 q Hd1 Hd2 HD Hqd ek es Hek Hpe Hre) as (pr & query & ex & us & E1 & E2 & E3 & Lex & Lus & S_1 & S_2 & Hex). set (B := expanded_noise par S1 (d1 + d2)) in *.
    assert (HB : 0 <= B).
    { destruct (nth_error ex 0) as [c|] eqn:E0; [|apply nth_error_None in E0; lia]. destruct (Hex _ _ E0) as (_ & xs & e & _ & _ & _ & Le & Hb & _). destruct (pir_N isp cands par Ho Hp HP) as (K & _ & _ & _ & HN). destruct e as [|a e]; [cbn in Le; lia|]. apply Forall_cons_iff in Hb. lia. }
    assert (HQ : Forall2 (fun ct u => encrypts2 par sk 1 ct (const N u) B) ex us) by (apply (Forall2_of_nth _ 0); [congruence|exact Hex]).
    pose proof (Forall2_firstn_both _ d1 _ _ HQ) as HQ1. pose proof (Forall2_skipn_both _ d1 _ _ HQ) as HQ2. assert (L1 : length (firstn d1 ex) = d1) by (rewrite firstn_length; lia). assert (L2 : length (skipn d1 ex) = d2) by (rewrite skipn_length; lia).
    destruct (folded_columns isp cands par Ho Hp HP sk Hsk expand derive Hx d Hd pre vs d1 d2 Hd1 Hd2 Lpre HF HV (firstn d1 ex) (skipn d1 ex) (firstn d1 us) (skipn d1 us) B HB L1 L2 HQ1 HQ2 d2 0%nat ltac:(lia)) as (cs & Fs & Vs & Ec & EF & HFs & HVs & Hrb).
    pose proof (Forall2_length_eq _ _ _ Hrb) as LVs. rewrite seq_length in LVs. pose proof (Forall2_length_eq _ _ _ HFs) as LFs.
    assert (Hi0 : (q mod d2 < d2)%nat) by (apply Nat.mod_upper_bound; lia).
    destruct (responses_val isp cands par Ho Hp HP sk Hsk expand derive Hx d Hd pre vs d1 d2 Hd1 Hd2 Lpre HF HV (firstn d1 ex) (skipn d1 ex) (firstn d1 us) (skipn d1 us) B HB L1 L2 HQ1 HQ2 Hsm2 Fs Vs (q mod d2) kk 0%nat ltac:(congruence) HFs HVs S_2 ltac:(lia)) as (prs & Er & Hprs).
    exists pr, prs. split; [exact E1|]. split.
    { unfold sealpir_response. rewrite E2. cbn [bind]. rewrite E3. cbn [bind]. rewrite range_val by lia. cbn [skipn bind]. rewrite Ec. cbn [bind]. rewrite EF. cbn [bind].
      destruct (nth_error Fs 0) as [F0|] eqn:E0; [|apply nth_error_None in E0; lia]. unfold get at 1. rewrite E0. cbn [unwrap bind]. rewrite range_val by lia. rewrite firstn_all. cbn [bind].
      pose proof (Forall2_nth_both _ _ _ [] HFs 0%nat F0 E0) as HF0. apply Forall2_length_eq in HF0. rewrite map_length, seq_length in HF0. rewrite HF0. exact Er. }
    assert (HV0 : nth_error (seq 0 d2) (q mod d2) = Some (q mod d2)%nat). { rewrite (nth_error_nth' _ 0%nat) by (rewrite seq_length; exact Hi0). rewrite seq_nth by exact Hi0. reflexivity. }
    pose proof (Forall2_nth_both _ _ _ [] Hrb _ _ HV0) as Hr0. assert (Hin : In (nth (q mod d2) Vs []) Vs) by (apply nth_In; lia). pose proof (proj1 (proj1 (Forall_forall _ _) HVs _ Hin)) as LV0. cbv beta in Hr0.
    assert (HM : map (fun a => a mod t) (wsum N (firstn d1 us) (cvals vs d1 d2 (q mod d2))) = nth q vs []).
    { rewrite (column_sum_select isp cands par Ho Hp HP sk Hsk pre vs d1 d2 Hd1 Lpre HF HV (q mod d2) (q / d2) (firstn d1 us)) by (exact Hi0 || exact S_1 || (rewrite firstn_length; lia)). f_equal. pose proof (Nat.div_mod q d2 ltac:(lia)). lia. }
    assert (Hg : length (nth q vs []) = N /\ digits w (nth q vs [])) by (apply (proj1 (Forall_forall _ _) HV), nth_In; rewrite <- (Forall2_length_eq _ _ _ HF), Lpre; exact Hqd).
    exact (answer_val prs _ _ _ _ index Hprs LV0 Hr0 Hsm1 Hi HM (proj1 Hg) (proj2 Hg) (Hval q Hq)).
  Qed.
End Client.
