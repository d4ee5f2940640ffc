(** C58: builders under any sequence of requests, and the key protocols on anything the members can hold. *)
From Verif Require Import Outcome BasicSpec OutcomeLemmas ZqModel ZqProofs NumTheory NttModel PolySpec PolyRing NttPure NttStages NttProofs CbdModel CbdSpec CbdProofs.
From Verif Require Import TranscodeModel PrimesModel RnsModel RnsSpec RnsProofs RqModel RqSpec RqCtx RqRows RqProofs RingRn RqOps RqIO RqPropLemmas ParamsModel BfvSpec ParamsProofs BuildProofs ParamsPropLemmas PlainModel CipherModel OpsModel SchemeSpec CipherSpec PlainProofs RnPoly CipherProofs EncryptProofs CipherPropLemmas LinearPropLemmas SerialPropLemmas KeysModel KeysSpec KeysProofs KeySwitchProofs KeyNoiseProofs KeyOpsProofs KeyPropLemmas EvalSpec EvalKeyProofs EvalOpsProofs EvalExpandProofs EvalPropLemmas RgswPropLemmas MbfvModel MbfvProofs WireSpec WireProofs WireKeysProofs WireOpsProofs WirePropLemmas KeySerialPropLemmas KeygenSpec.
From Coq Require Import Znumtheory.
Set Default Proof Using "Type".

(** ** Builders *)
Section Builder.
  Context (par : params) (sk : secret_key) (Hsk : is_sk par sk) (l1 l2 : nat).
  Notation N := (pa_degree par).
  Set Default Proof Using "All".
  Lemma send_ok b cols r : is_ekb par sk l1 l2 b cols -> match refusal N r with Some e => send b r = Err e | None => exists b', send b r = Val b' end.
  Proof.
    intros Hb. pose proof (builder_enable_all par sk Hsk l1 l2 b cols Hb) as (_ & _ & Hc & Hnc & He & Hne). destruct r as [| |i|L]; cbn [refusal send]; [eexists; reflexivity..| |].
    - destruct (Z.ltb_spec 0 i) as [H0|H0]; [destruct (Z.ltb_spec i (Z.of_nat (N / 2))) as [H1|H1]|]; cbn [andb].
      + destruct (Hc i) as (b' & E & _); [split; assumption|]. eauto.
      + apply Hnc. intros (_ & H). lia.
      + apply Hnc. intros (H & _). lia.
    - destruct (Z.leb_spec (Z.of_nat L) (Z.log2 (Z.of_nat N))) as [H|H]; [destruct (He L H) as (b' & E & _); eauto|apply Hne; exact H].
  Qed.
  Lemma send_all_ok rs : forall b cols, is_ekb par sk l1 l2 b cols -> exists cols', is_ekb par sk l1 l2 (send_all b rs) cols' /\ (forall i, In i cols' <-> In i cols \/ In (want_columns i) rs /\ is_step N i) /\
    (eb_row (send_all b rs) = true <-> eb_row b = true \/ In want_rows rs) /\ (eb_inner_sum (send_all b rs) = true <-> eb_inner_sum b = true \/ In want_sum rs) /\ eb_expansion (send_all b rs) = last_expansion N rs (eb_expansion b).
  Proof.
    induction rs as [|r rs IH]; intros b cols Hb.
    - exists cols. cbn [send_all fold_left last_expansion In]. split; [exact Hb|]. repeat split; tauto.
    - pose proof (builder_enable_all par sk Hsk l1 l2 b cols Hb) as ((H1 & _) & (H2 & _) & Hc & Hnc & He & Hne). destruct r as [| |i|L].
      + change (send_all b (want_sum :: rs)) with (send_all (enable_inner_sum b) rs). destruct (IH _ _ H1) as (cols' & I1 & I2 & I3 & I4 & I5). exists cols'. split; [exact I1|]. cbn [last_expansion]. split; [|split; [|split; [|exact I5]]].
        * intros i. rewrite I2. cbn [In]. assert (want_sum <> want_columns i) by discriminate. tauto.
        * rewrite I3. cbn [In enable_inner_sum eb_row]. assert (want_sum <> want_rows) by discriminate. tauto.
        * rewrite I4. cbn [In enable_inner_sum eb_inner_sum]. tauto.
      + change (send_all b (want_rows :: rs)) with (send_all (enable_row_rotation b) rs). destruct (IH _ _ H2) as (cols' & I1 & I2 & I3 & I4 & I5). exists cols'. split; [exact I1|]. cbn [last_expansion]. split; [|split; [|split; [|exact I5]]].
        * intros i. rewrite I2. cbn [In]. assert (want_rows <> want_columns i) by discriminate. tauto.
        * rewrite I3. cbn [In enable_row_rotation eb_row]. tauto.
        * rewrite I4. cbn [In enable_row_rotation eb_inner_sum]. assert (want_rows <> want_sum) by discriminate. tauto.
      + assert (Hstep : is_step N i \/ ~ is_step N i) by (unfold is_step; lia). destruct Hstep as [Hi|Hi].
        * destruct (Hc i Hi) as (b' & E & Hb' & _). assert (Es : send_all b (want_columns i :: rs) = send_all b' rs) by (cbn [send_all fold_left send]; rewrite E; reflexivity). rewrite Es.
          assert (Ef : eb_row b' = eb_row b /\ eb_inner_sum b' = eb_inner_sum b /\ eb_expansion b' = eb_expansion b). { unfold enable_column_rotation in E. destruct (lookup (eb_rot b) i) as [e|]; [|discriminate]. inversion E. cbn [eb_row eb_inner_sum eb_expansion]. auto. } destruct Ef as (F1 & F2 & F3).
          destruct (IH _ _ Hb') as (cols' & I1 & I2 & I3 & I4 & I5). exists cols'. split; [exact I1|]. cbn [last_expansion]. rewrite F1 in I3. rewrite F2 in I4. rewrite F3 in I5. split; [|split; [|split; [|exact I5]]].
          -- intros j. rewrite I2. cbn [In]. split; [intros [[<-|H]|H]; tauto|]. intros [H|([E'|H] & Hj)]; [tauto| |tauto]. injection E' as <-. tauto.
          -- rewrite I3. cbn [In]. assert (want_columns i <> want_rows) by discriminate. tauto.
          -- rewrite I4. cbn [In]. assert (want_columns i <> want_sum) by discriminate. tauto.
        * assert (Es : send_all b (want_columns i :: rs) = send_all b rs) by (cbn [send_all fold_left send]; rewrite (Hnc i Hi); reflexivity). rewrite Es. destruct (IH _ _ Hb) as (cols' & I1 & I2 & I3 & I4 & I5). exists cols'. split; [exact I1|]. cbn [last_expansion]. split; [|split; [|split; [|exact I5]]].
          -- intros j. rewrite I2. cbn [In]. split; [tauto|]. intros [H|([E'|H] & Hj)]; [tauto| |tauto]. injection E' as <-. contradiction.
          -- rewrite I3. cbn [In]. assert (want_columns i <> want_rows) by discriminate. tauto.
          -- rewrite I4. cbn [In]. assert (want_columns i <> want_sum) by discriminate. tauto.
      + assert (Hin : forall i, want_expansion L <> want_columns i) by discriminate. assert (want_expansion L <> want_rows) by discriminate. assert (want_expansion L <> want_sum) by discriminate. cbn [last_expansion]. destruct (Z.leb_spec (Z.of_nat L) (Z.log2 (Z.of_nat N))) as [HL|HL].
        * destruct (He L HL) as (b' & E & Hb' & _). assert (Es : send_all b (want_expansion L :: rs) = send_all b' rs) by (cbn [send_all fold_left send]; rewrite E; reflexivity). rewrite Es.
          assert (Ef : eb_row b' = eb_row b /\ eb_inner_sum b' = eb_inner_sum b /\ eb_expansion b' = L). { unfold enable_expansion in E. destruct (_ <? _); [discriminate|]. inversion E. cbn [eb_row eb_inner_sum eb_expansion]. auto. } destruct Ef as (F1 & F2 & F3).
          destruct (IH _ _ Hb') as (cols' & I1 & I2 & I3 & I4 & I5). exists cols'. split; [exact I1|]. rewrite F1 in I3. rewrite F2 in I4. rewrite F3 in I5. split; [|split; [|split; [|exact I5]]].
          -- intros j. rewrite I2. cbn [In]. specialize (Hin j). tauto.
          -- rewrite I3. cbn [In]. tauto.
          -- rewrite I4. cbn [In]. tauto.
        * assert (Es : send_all b (want_expansion L :: rs) = send_all b rs) by (cbn [send_all fold_left send]; rewrite (Hne L HL); reflexivity). rewrite Es. destruct (IH _ _ Hb) as (cols' & I1 & I2 & I3 & I4 & I5). exists cols'. split; [exact I1|]. split; [|split; [|split; [|exact I5]]].
          -- intros j. rewrite I2. cbn [In]. specialize (Hin j). tauto.
          -- rewrite I3. cbn [In]. tauto.
          -- rewrite I4. cbn [In]. tauto.
  Qed.
  Lemma fresh_wanted rot rs : is_ekb par sk l1 l2 (mkEkb sk l1 l2 false false 0 [] rot) [] -> exists cols, is_ekb par sk l1 l2 (send_all (mkEkb sk l1 l2 false false 0 [] rot) rs) cols /\
    forall e, asked N (send_all (mkEkb sk l1 l2 false false 0 [] rot) rs) cols e <-> wanted N rs e.
  Proof.
    intros H0. destruct (send_all_ok rs _ _ H0) as (cols & I1 & I2 & I3 & I4 & I5). exists cols. split; [exact I1|]. cbn [eb_row eb_inner_sum eb_expansion In] in I2, I3, I4, I5. intros e. unfold asked, wanted. rewrite I5, I3, I4.
    assert (Hcol : (exists i, In i cols /\ e = column_exponent N i) <-> exists i, In (want_columns i) rs /\ is_step N i /\ e = column_exponent N i).
    { split; intros (i & Hi & E); exists i; [apply I2 in Hi; tauto|]. rewrite I2. tauto. }
    assert (Hf : ~ false = true) by discriminate. rewrite Hcol. tauto.
  Qed.
End Builder.

Set Default Proof Using "Type".
Section Params.
  Context (isp : Z -> bool) (cands : Z -> list Z) (Ho : oracles isp cands) (par : params) (G : good_params isp cands par) (Hp : is_params isp cands par).
  Notation N := (pa_degree par).
  Notation v := (pa_variance par).
  Set Default Proof Using "All".

  (** ** Keys built by one party *)
  Lemma above_context l : (max_level par < l)%nat -> par_context par l = Err (InvalidLevel (Z.of_nat l) 0 (Z.of_nat (max_level par))).
  Proof. intros H. unfold par_context, context_level_at. assert (Hn : nth_error (pa_levels par) l = None) by (apply nth_error_None; unfold max_level in H; lia). rewrite Hn. reflexivity. Qed.
  Lemma key_fits sk l1' l2' k f B : is_ksk par sk l1' l2' k f B -> base_fits k.
  Proof. intros (_ & _ & _ & _ & _ & _ & _ & gs & _ & _ & [(E0 & _)|(E0 & _)] & _); unfold base_fits; lia. Qed.
  Lemma relin_cases expand derive sk l1 l2 sd rngs : supported par -> expands_well expand -> is_sk par sk -> length sd = 32%nat -> (forall i, words (rngs i)) ->
    ((max_level par < l2)%nat -> relin_new expand derive sk l1 l2 sd rngs = Err (InvalidLevel (Z.of_nat l2) 0 (Z.of_nat (max_level par)))) /\
    ((l2 <= max_level par)%nat -> (max_level par < l1)%nat -> relin_new expand derive sk l1 l2 sd rngs = Err (InvalidLevel (Z.of_nat l1) 0 (Z.of_nat (max_level par)))) /\
    ((l1 <= max_level par)%nat -> l2 = max_level par -> relin_new expand derive sk l1 l2 sd rngs = Err KeySwitchingNotSupported) /\
    ((l1 <= max_level par)%nat -> (l2 < max_level par)%nat -> exists k, relin_new expand derive sk l1 l2 sd rngs = Val k /\ key_shape par l1 l2 k /\ base_fits k).
  Proof.
    intros Hsup Hx Hsk Lsd Hr. pose proof (proj1 Hsk) as Esk. split; [|split; [|split]].
    - intros H. unfold relin_new. rewrite Esk, (above_context _ H). reflexivity.
    - intros H2 H. destruct (at_level_ex isp cands par l2 Ho G H2) as (lv2 & c2 & A2). unfold relin_new. rewrite Esk, (al_par_context isp cands par l2 lv2 c2 A2). cbn [bind]. rewrite (above_context _ H). reflexivity.
    - intros H1 ->. destruct (at_level_ex isp cands par _ Ho G (le_n _)) as (lv2 & c2 & A2). destruct (at_level_ex isp cands par l1 Ho G H1) as (lv1 & c1 & A1). unfold relin_new. rewrite Esk, (al_par_context isp cands par _ lv2 c2 A2), (al_par_context isp cands par l1 lv1 c1 A1). cbn [bind].
      rewrite (al_mod _ _ _ _ _ _ A2). pose proof (proj2 (single_iff isp cands par (max_level par) G (le_n _)) eq_refl) as Hs. rewrite Hs. reflexivity.
    - intros H1 H2. assert (HK : exists k f, relin_new expand derive sk l1 l2 sd rngs = Val k /\ is_ksk par sk l1 l2 k f (2 * pa_variance par) /\ k_log_base k = key_base par l2).
      { destruct (le_lt_dec l2 l1) as [Hle|Hlt]; [|apply (relin_above_new isp cands par); assumption]. destruct (proj1 (relin_new_all isp cands par Ho Hp expand derive Hx sk Hsk l1 l2 H1 Hle sd rngs Hr) H2) as (k & Ek & Eb & HK). eexists k, _. split; [exact Ek|]. split; [exact HK|]. rewrite Eb. unfold key_base. pose proof (single_iff isp cands par l2 G ltac:(lia)) as Hs.
        destruct (level_moduli (pa_moduli par) l2) as [|q [|q' qs]]; try reflexivity. destruct Hs as (Hs & _). specialize (Hs eq_refl). lia. }
      destruct HK as (k & f & Ek & HK & Eb). exists k. split; [exact Ek|]. split; [|exact (key_fits _ _ _ _ _ _ HK)]. exact (made_shape isp cands Ho par G expand derive sd sk l1 l2 k f _ Lsd H1 ltac:(lia) HK Eb (relin_new_made _ _ _ _ _ _ _ _ Ek)).
  Qed.
  Lemma builder_cases expand derive sk l1 l2 : expands_well expand -> is_sk par sk -> (l1 <= max_level par)%nat -> (l2 <= l1)%nat -> forall b0, ekb_new_leveled sk l1 l2 = Val b0 -> forall rs,
    (forall r, match refusal N r with Some e => send (send_all b0 rs) r = Err e | None => exists b', send (send_all b0 rs) r = Val b' end) /\
    forall sds rngs, (forall e, length (sds e) = 32%nat) -> (forall e i, words (rngs e i)) -> exists ek, ek_build expand derive (send_all b0 rs) sds rngs = Val ek /\ ek_shape par l1 ek /\ ek_fits ek /\ ek_level ek = l2 /\ forall e, lookup (ek_gk ek) e <> None <-> wanted N rs e.
  Proof.
    intros Hx Hsk H1 H2 b0 E0 rs. destruct (proj1 (proj2 (builder_new_all isp cands par Ho Hp sk Hsk) l1 l2) (conj H2 H1)) as (rot & E0' & Hb0). assert (b0 = mkEkb sk l1 l2 false false 0 [] rot) by congruence. subst b0.
    destruct (fresh_wanted par sk Hsk l1 l2 rot rs Hb0) as (cols & Hb & Hw). split; [intros r; exact (send_ok par sk Hsk l1 l2 _ cols r Hb)|]. intros sds rngs Lsd Hr.
    destruct (build_all isp cands par Ho Hp expand derive Hx sk Hsk l1 l2 H1 H2 _ cols sds rngs Hb Hr) as (ek & Eek & (E1 & E2 & E3 & Hrot & Hmon & Hes & Hgk) & Hprop). destruct (ek_build_made _ _ _ _ _ _ Eek) as (_ & _ & Hmade).
    assert (Hk : forall e g, lookup (ek_gk ek) e = Some g -> gk_shape par l1 l2 g /\ se_exponent (g_element g) = e /\ base_fits (g_ksk g)).
    { intros e g Hlk. assert (He : asked N (send_all (mkEkb sk l1 l2 false false 0 [] rot) rs) cols e) by (apply Hes; congruence). destruct (Hprop e He) as (Hr1 & Hodd). apply (is_gk_shape isp cands par expand derive (sds e) sk l1 l2 e g (2 * pa_variance par) Ho Hp (Lsd e) H1 ltac:(lia) Hr1 Hodd (Hgk e g Hlk) (Hmade e g Hlk)). }
    exists ek. split; [exact Eek|]. split. { split; [exact E1|]. split; [exact E2|]. split; [exact H1|]. split; [exact Hrot|]. split; [exact Hmon|]. intros e g Hlk. destruct (Hk e g Hlk) as (Hs & He & _). rewrite E3. split; assumption. }
    split; [intros e g Hlk; apply (Hk e g Hlk)|]. split; [exact E3|]. intros e. rewrite <- Hes. apply Hw.
  Qed.
  Lemma rgsw_cases expand derive sk l pt m sd0 sd1 rngs0 rngs1 : expands_well expand -> is_sk par sk -> (l <= max_level par)%nat -> is_pt par l pt m -> length sd0 = 32%nat -> length sd1 = 32%nat -> (forall i, words (rngs0 i)) -> (forall i, words (rngs1 i)) ->
    exists r, rgsw_encrypt expand derive sk pt sd0 sd1 rngs0 rngs1 = Val r /\ rgsw_shape par l r /\ base_fits (r_ksk0 r) /\ base_fits (r_ksk1 r).
  Proof.
    intros Hx Hsk Hl Hpt L0 L1 Hr0 Hr1. destruct (rgsw_new_all isp cands par Ho Hp expand derive Hx sk Hsk l Hl pt m Hpt sd0 sd1 rngs0 rngs1 Hr0 Hr1) as (r & Er & (K0 & K1) & B0 & B1).
    destruct (rgsw_new_made _ _ _ _ _ _ _ _ _ Er) as (M0 & M1). pose proof (made_shape isp cands Ho par G expand derive sd0 sk l l _ _ _ L0 Hl Hl K0 B0 M0) as S0. pose proof (made_shape isp cands Ho par G expand derive sd1 sk l l _ _ _ L1 Hl Hl K1 B1 M1) as S1.
    exists r. split; [exact Er|]. split; [split; assumption|]. split; eapply key_fits; eassumption.
  Qed.
End Params.
