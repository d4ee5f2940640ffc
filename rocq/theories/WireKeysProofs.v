(** Reading ciphertexts and keys from arbitrary messages, and the shape of what is read. *)
From Verif Require Import Outcome BasicSpec OutcomeLemmas ZqModel ZqProofs NumTheory NttModel PolySpec PolyRing NttPure NttStages NttProofs CbdModel CbdSpec CbdProofs.
From Verif Require Import TranscodeModel PrimesModel RnsModel RnsSpec RnsProofs RqModel RqSpec RqCtx RqRows RqProofs RingRn RqOps RqIO RqPropLemmas ParamsModel BfvSpec ParamsProofs BuildProofs ParamsPropLemmas PlainModel CipherModel OpsModel SchemeSpec CipherSpec PlainProofs RnPoly CipherProofs EncryptProofs CipherPropLemmas LinearPropLemmas SerialPropLemmas KeysModel KeysSpec KeysProofs KeySwitchProofs KeyNoiseProofs KeyOpsProofs KeyPropLemmas WireSpec WireProofs.
From Coq Require Import Znumtheory.
Set Default Proof Using "Type".

(** ** Reasoning about computations that never panic *)
Lemma safe_val {A} (a : A) (Q : A -> Prop) : Q a -> safe (Val a) Q.
Proof. exact (fun H => H). Qed.
Lemma safe_mono {A} (m : M A) (Q Q' : A -> Prop) : safe m Q -> (forall a, Q a -> Q' a) -> safe m Q'.
Proof. destruct m; cbn [safe]; auto. Qed.
Lemma safe_bind {A B} (m : M A) (f : A -> M B) (Q : A -> Prop) (Q' : B -> Prop) : safe m Q -> (forall a, Q a -> safe (f a) Q') -> safe (bind m f) Q'.
Proof. destruct m; cbn [safe bind]; auto. Qed.
Lemma safe_if {A} (b : bool) (m m' : M A) (Q : A -> Prop) : (b = true -> safe m Q) -> (b = false -> safe m' Q) -> safe (if b then m else m') Q.
Proof. destruct b; auto. Qed.
Lemma safe_mapM {A B} (f : A -> M B) (P : A -> Prop) (Q : B -> Prop) l : Forall P l -> (forall a, P a -> safe (f a) Q) -> safe (mapM f l) (fun r => Forall Q r /\ length r = length l).
Proof.
  intros HF Hf. induction HF as [|a l Ha HF IH]; cbn [mapM]; [split; constructor|]. apply (safe_bind _ _ Q); [apply Hf, Ha|]. intros b Hb. apply (safe_bind _ _ _ _ IH). intros r (H1 & H2). split; [constructor; assumption|cbn [length]; congruence].
Qed.
Lemma safe_foldM {A S} (f : S -> A -> M S) (I : S -> Prop) (P : A -> Prop) l : Forall P l -> (forall s a, P a -> I s -> safe (f s a) I) -> forall s, I s -> safe (foldM f l s) I.
Proof. induction 1 as [|a l Ha HF IH]; intros Hf s Hs; cbn [foldM]; [exact Hs|]. apply (safe_bind _ _ I); [apply Hf; assumption|]. intros s' Hs'. apply IH; assumption. Qed.
Lemma safe_not {A} (m : M A) (Q : A -> Prop) : safe m Q -> m <> Panic.
Proof. destruct m; cbn [safe]; [discriminate..|contradiction]. Qed.
Lemma safe_any {A} (m : M A) : m <> Panic -> safe m any.
Proof. destruct m; cbn [safe]; [exact (fun _ => I)..|congruence]. Qed.
Lemma safe_inv {A} (m : M A) (Q : A -> Prop) a : safe m Q -> m = Val a -> Q a.
Proof. intros H ->. exact H. Qed.

Section Params.
  Context (isp : Z -> bool) (cands : Z -> list Z) (Ho : oracles isp cands) (par : params) (G : good_params isp cands par).
  Notation N := (pa_degree par).
  Set Default Proof Using "All".
  Lemma context_cases l : (exists lv c, at_level isp cands par l lv c /\ par_context par l = Val c /\ (l <= max_level par)%nat) \/ (max_level par < l)%nat /\ exists e, par_context par l = Err e.
  Proof.
    destruct (le_lt_dec l (max_level par)) as [H|H].
    - left. destruct (at_level_ex isp cands par l Ho G H) as (lv & c & A). exists lv, c. split; [exact A|]. split; [apply (al_par_context isp cands par l lv c A)|exact H].
    - right. split; [exact H|]. unfold par_context, context_level_at. assert (Hn : nth_error (pa_levels par) l = None) by (apply nth_error_None; unfold max_level in H; lia). rewrite Hn. eexists. reflexivity.
  Qed.
  (** Key-switching keys. *)
  Definition read_ksk (l1 : nat) (c1 : ctx) (l2 : nat) (c2 : ctx) (k : ksk) : Prop :=
    exists sd (x0 x1 : list (Rn N)) lb, k = mkKsk par sd (shoups c2 (map (pair true) x0)) (shoups c2 (map (pair true) x1)) l1 c1 l2 c2 lb /\
      Z.of_nat (length x0) = key_count par l1 lb /\ Z.of_nat (length x1) = key_count par l1 lb /\ 0 <= lb < 2 ^ 32 /\ (lb <> 0 -> l1 = max_level par /\ l2 = max_level par) /\ (forall s, sd = Some s -> length s = 32%nat).
  Lemma hd_moduli : exists q qs, pa_moduli par = q :: qs /\ 2 <= q < W62.
  Proof.
    destruct (at_level_ex isp cands par 0 Ho G (Nat.le_0_l _)) as (lv & c & A). pose proof (level_range isp cands Ho par G 0 lv c A) as R. pose proof (gp_ne _ _ _ G) as Hne. unfold level_moduli in R. rewrite Nat.sub_0_r, firstn_all in R. destruct (pa_moduli par) as [|q qs]; [congruence|]. exists q, qs. split; [reflexivity|]. inversion R; subst. assumption.
  Qed.
  (** The specification of that shape. *)
  Lemma read_ksk_shape l1 lv1 c1 l2 lv2 c2 k : at_level isp cands par l1 lv1 c1 -> at_level isp cands par l2 lv2 c2 -> read_ksk l1 c1 l2 c2 k -> key_shape par l1 l2 k.
  Proof.
    intros A1 A2 (sd & x0 & x1 & lb & -> & L0 & L1 & Hb & Hd & Hsd). unfold key_shape. cbn [k_par k_ct_level k_level k_ct_ctx k_ctx k_log_base k_c0 k_c1 k_seed].
    pose proof (at_level_bound isp cands par _ _ _ G A1). pose proof (at_level_bound isp cands par _ _ _ G A2).
    assert (F : forall xs : list (Rn N), Forall (fun p => p_vt p = true /\ exists x, is_poly par l2 p x) (shoups c2 (map (pair true) xs))).
    { intros xs. apply Forall_forall. intros p Hp. unfold shoups in Hp. rewrite map_map in Hp. apply in_map_iff in Hp. destruct Hp as (x & <- & _). cbn [fst snd]. split; [apply P_vt|]. exists (rl x). apply (P_is_poly isp cands Ho par G l2 lv2 c2 A2). }
    unfold shoups at 1 2. rewrite !map_length.
    split; [reflexivity|]. split; [reflexivity|]. split; [reflexivity|]. split; [assumption|]. split; [assumption|]. split; [apply (al_par_context isp cands par l1 lv1 c1 A1)|]. split; [apply (al_par_context isp cands par l2 lv2 c2 A2)|].
    split; [exact Hb|]. split; [exact Hd|]. split; [exact L0|]. split; [exact L1|]. split; [apply F|]. split; [apply F|exact Hsd].
  Qed.
  Lemma shape_read_ksk l1 l2 k : key_shape par l1 l2 k -> exists lv1 c1 lv2 c2, at_level isp cands par l1 lv1 c1 /\ at_level isp cands par l2 lv2 c2 /\ read_ksk l1 c1 l2 c2 k.
  Proof.
    destruct k as [kp ksd k0 k1 kl1 kc1 kl2 kc2 kb]. intros (E1 & E2 & E3 & H1 & H2 & E4 & E5 & Hb & Hd & L0 & L1 & F0 & F1 & Hsd). cbn [k_par k_ct_level k_level k_ct_ctx k_ctx k_log_base k_c0 k_c1 k_seed] in *. subst kp kl1 kl2.
    destruct (at_level_ex isp cands par l1 Ho G H1) as (lv1 & c1 & A1). destruct (at_level_ex isp cands par l2 Ho G H2) as (lv2 & c2 & A2). rewrite (al_par_context isp cands par l1 lv1 c1 A1) in E4. rewrite (al_par_context isp cands par l2 lv2 c2 A2) in E5. injection E4 as <-. injection E5 as <-.
    exists lv1, c1, lv2, c2. split; [exact A1|]. split; [exact A2|].
    assert (F : forall ps, Forall (fun p => p_vt p = true /\ exists x, is_poly par l2 p x) ps -> exists xs : list (Rn N), ps = shoups c2 (map (pair true) xs)).
    { induction 1 as [|p ps (Hv & x & Hp) H (xs & ->)]; [exists []; reflexivity|]. destruct (is_poly_P isp cands Ho par G l2 lv2 c2 A2 p x Hp) as (y & Ey & _). rewrite Hv in Ey. exists (y :: xs). rewrite Ey. reflexivity. }
    destruct (F _ F0) as (x0 & ->). destruct (F _ F1) as (x1 & ->). unfold shoups in L0, L1. rewrite !map_length in L0, L1. exists ksd, x0, x1, kb. repeat (split; [assumption || reflexivity|]). exact Hsd.
  Qed.
  Context (Hser : serializable par) (expand : expander) (Hx : expands_well expand).
  Lemma level_count l lv c : at_level isp cands par l lv c -> Z.of_nat (length (c_moduli c)) < 2 ^ 29.
  Proof. intros A. exact (par_count isp cands Ho par G l lv c A Hser). Qed.
  (** Polynomials of a level. *)
  Lemma from_proto_P l lv c (A : at_level isp cands par l lv c) R m : R <> PowerBasis -> wire_rq m -> safe (poly_from_proto R m c false) (fun p => exists x : Rn N, p = P R c false x).
  Proof.
    intros HR Hm. pose proof (good_ok _ (al_good _ _ _ _ _ _ A)) as Hc. destruct (poly_from_proto R m c false) as [p| |] eqn:E; cbn [safe]; [|exact I|exact (from_proto_no_panic c Hc (level_count l lv c A) R m false Hm E)].
    destruct (from_proto_wf c Hc (level_count l lv c A) R m false p Hm HR E) as (x & ->). rewrite <- (al_deg _ _ _ _ _ _ A). exists x. reflexivity.
  Qed.
  Lemma polys_exist R c v (ps : list (poly R)) : Forall (fun p => exists x : Rn N, p = P R c v x) ps -> exists xs : list (Rn N), ps = map (P R c v) xs.
  Proof. induction 1 as [|p ps (x & ->) H (xs & ->)]; [exists []; reflexivity|exists (x :: xs); reflexivity]. Qed.
  Lemma from_protos l lv c (A : at_level isp cands par l lv c) R ms : R <> PowerBasis -> Forall wire_rq ms -> safe (mapM (fun b => poly_from_proto R b c false) ms) (fun ps => exists xs : list (Rn N), length xs = length ms /\ ps = map (P R c false) xs).
  Proof.
    intros HR Hm. eapply safe_mono; [apply (safe_mapM _ wire_rq (fun p => exists x : Rn N, p = P R c false x)); [exact Hm|intros a Ha; apply (from_proto_P l lv c A R a HR Ha)]|].
    intros ps (H & L). destruct (polys_exist R c false ps H) as (xs & ->). rewrite map_length in L. exists xs. split; [exact L|reflexivity].
  Qed.

  (** Ciphertexts: the shape of what is read. *)
  Definition read_ct (ct : ciphertext) : Prop :=
    exists l lv c (vxs : list (bool * Rn N)), at_level isp cands par l lv c /\ ct = mkCt par (ct_seed ct) (parts c vxs) l /\ (2 <= length vxs)%nat /\ seed_faithful expand ct.
  Theorem ct_from_proto_read m : wire_ct m -> safe (ct_from_proto expand m par) (fun ct => read_ct ct /\ Z.of_nat (ct_level ct) = cp_level m).
  Proof.
    intros (Hc & Hl). unfold ct_from_proto. set (seeded := negb (Nat.eqb (length (cp_seed m)) 0)).
    apply safe_if; [intros _; exact I|]. intros H2. apply safe_if; [intros _; exact I|]. intros Hmax. apply Z.ltb_ge in Hmax. unfold is_u32 in Hl.
    destruct (context_cases (Z.to_nat (cp_level m))) as [(lv & c & A & -> & Hle)|(_ & e & ->)]; [|exact I]. cbn [bind].
    eapply safe_bind; [apply (from_protos _ lv c A Ntt (cp_c m) ltac:(discriminate) Hc)|]. intros cs (xs & Lx & ->).
    pose proof (good_ok _ (al_good _ _ _ _ _ _ A)) as Hc0. pose proof (al_deg _ _ _ _ _ _ A) as Hd.
    assert (Hallow : forall ys : list (Rn N), map allow_vt (map (P Ntt c false) ys) = parts c (map (pair true) ys)) by (intros ys; unfold parts; rewrite !map_map; apply map_ext; intros y; apply P_allow).
    destruct seeded eqn:Es.
    - unfold seed_of_bytes. destruct (len (cp_seed m) =? 32) eqn:E32; [|exact I]. apply Z.eqb_eq in E32. cbn [bind].
      destruct (P_seed c Hc0 N Hd Ntt expand (cp_seed m) Hx) as (a & Ea). rewrite Ea. cbn [bind safe ct_level]. rewrite Z2Nat.id by lia. split; [|reflexivity].
      exists (Z.to_nat (cp_level m)), lv, c, (map (pair true) (xs ++ [a])). cbn [ct_seed]. split; [exact A|]. split; [|split].
      + f_equal. rewrite <- Hallow, !map_app. reflexivity.
      + rewrite map_length, app_length, Lx. cbn [length]. destruct (Nat.eqb_spec (length (cp_c m)) 0); [discriminate|lia].
      + intros sd Esd. injection Esd as <-. split; [unfold len in E32; lia|]. exists (map allow_vt (map (P Ntt c false) xs)), (P Ntt c true a), c. cbn [ct_c ct_par ct_level]. split; [rewrite !map_app; cbn [map]; rewrite P_allow; reflexivity|]. split; [apply (al_par_context isp cands par _ lv c A)|].
        apply seed_coeffs in Ea. rewrite <- Ea. reflexivity.
    - cbn [bind safe ct_level]. rewrite Z2Nat.id by lia. split; [|reflexivity]. exists (Z.to_nat (cp_level m)), lv, c, (map (pair true) xs). cbn [ct_seed]. split; [exact A|]. split; [|split].
      + f_equal. apply Hallow.
      + rewrite map_length, Lx. apply orb_false_iff in H2. cbn [negb] in H2. rewrite andb_true_r in H2. destruct H2 as (H0 & H1). apply Nat.eqb_neq in H0. apply Nat.eqb_neq in H1. lia.
      + intros sd Esd. discriminate.
  Qed.

  Context (derive : deriver).
  Lemma allow_shoups c (xs : list (Rn N)) : map allow_vt (map (P NttShoup c false) xs) = shoups c (map (pair true) xs).
  Proof. unfold shoups. rewrite !map_map. apply map_ext. intros x. apply P_allow. Qed.
  Lemma allow_shoups' c (xs : list (Rn N)) : map allow_vt (shoups c (map (pair true) xs)) = shoups c (map (pair true) xs).
  Proof. unfold shoups. rewrite !map_map. apply map_ext. intros x. apply P_allow. Qed.
  Lemma c1_faithful c sd n (xs : list (Rn N)) : generate_c1 expand derive c sd n = Val (shoups c (map (pair true) xs)) ->
    Forall2 (fun i p => p_coeffs p = expand (derive sd i) (c_moduli c) (c_degree c)) (seq 0 n) (shoups c (map (pair true) xs)).
  Proof.
    unfold generate_c1. generalize (shoups c (map (pair true) xs)) as ps. generalize 0%nat as i. induction n as [|n IH]; intros i ps; cbn [seq mapM]; [intros E; injection E as <-; constructor|].
    destruct (poly_from_seed expand NttShoup c (derive sd i)) as [a| |] eqn:Ea; cbn [bind]; try discriminate. destruct (mapM _ (seq (S i) n)) as [r| |] eqn:Er; cbn [bind]; try discriminate. intros E. injection E as <-. constructor; [|apply IH; exact Er].
    cbn [allow_vt p_coeffs]. apply seed_coeffs in Ea. exact Ea.
  Qed.
  Theorem ksk_from_proto_read m : wire_ksk m -> safe (ksk_from_proto expand derive m par) (fun k =>
    (exists l1 lv1 c1 l2 lv2 c2, at_level isp cands par l1 lv1 c1 /\ at_level isp cands par l2 lv2 c2 /\ read_ksk l1 c1 l2 c2 k) /\ key_faithful expand derive k /\
    Z.of_nat (k_ct_level k) = kp_ct_level m /\ Z.of_nat (k_level k) = kp_level m /\ k_log_base k = kp_log_base m).
  Proof.
    intros (H0 & H1 & Hl1 & Hl2 & Hb). unfold is_u32 in *. unfold ksk_from_proto.
    destruct (context_cases (Z.to_nat (kp_level m))) as [(lv2 & c2 & A2 & -> & Hle2)|(_ & e & ->)]; [|exact I]. cbn [bind].
    destruct (context_cases (Z.to_nat (kp_ct_level m))) as [(lv1 & c1 & A1 & -> & Hle1)|(_ & e & ->)]; [|exact I]. cbn [bind].
    set (l1 := Z.to_nat (kp_ct_level m)) in *. set (l2 := Z.to_nat (kp_level m)) in *.
    assert (El1 : Z.of_nat l1 = kp_ct_level m) by (subst l1; rewrite Z2Nat.id; lia). assert (El2 : Z.of_nat l2 = kp_level m) by (subst l2; rewrite Z2Nat.id; lia).
    apply (safe_bind _ _ (fun size => size = key_count par l1 (kp_log_base m) /\ (kp_log_base m <> 0 -> l1 = max_level par /\ l2 = max_level par))).
    { unfold key_count. destruct (Z.eqb_spec (kp_log_base m) 0) as [E|E]; cbn [negb].
      - unfold len. rewrite (al_mod _ _ _ _ _ _ A1). split; [reflexivity|congruence].
      - destruct (Nat.eqb_spec l2 (max_level par)) as [E2|E2]; [|exact I]. destruct (Nat.eqb_spec l1 (max_level par)) as [E1|E1]; [|exact I]. cbn [negb orb]. destruct hd_moduli as (q & qs & Eq & Hq). rewrite Eq. cbn [nth_error unwrap bind hd]. rewrite log_modulus_eq by lia. cbn [bind]. rewrite div_ceilM_eq by lia. split; [reflexivity|tauto]. }
    intros size (-> & Hdec). apply safe_if; [intros _; exact I|]. intros L0. apply negb_false_iff, Z.eqb_eq in L0. unfold len in L0.
    apply (safe_bind _ _ (fun sd => match sd with Some s => length s = 32%nat | None => Z.of_nat (length (kp_c1 m)) = key_count par l1 (kp_log_base m) end)).
    { destruct (Nat.eqb (length (kp_seed m)) 0).
      - destruct (Z.eqb_spec (len (kp_c1 m)) (key_count par l1 (kp_log_base m))) as [E|E]; [exact E|exact I].
      - destruct (Z.eqb_spec (len (kp_seed m)) 32) as [E|E]; [|exact I]. cbn [safe]. unfold len in E. lia. }
    intros sd Hsd. pose proof (good_ok _ (al_good _ _ _ _ _ _ A2)) as Hc2. pose proof (al_deg _ _ _ _ _ _ A2) as Hd2.
    apply (safe_bind _ _ (fun ps => exists x1 : list (Rn N), Z.of_nat (length x1) = key_count par l1 (kp_log_base m) /\ map allow_vt ps = shoups c2 (map (pair true) x1) /\
      forall s, sd = Some s -> Forall2 (fun i p => p_coeffs p = expand (derive s i) (c_moduli c2) (c_degree c2)) (seq 0 (length x1)) (shoups c2 (map (pair true) x1)))).
    { destruct sd as [s|].
      - destruct (generate_c1_P c2 Hc2 N Hd2 expand derive s (length (kp_c0 m)) Hx) as (xs & Lx & Ex). rewrite Ex. cbn [safe]. exists xs. split; [lia|]. split; [apply allow_shoups'|]. intros s' Es. injection Es as <-. rewrite Lx. apply c1_faithful. exact Ex.
      - eapply safe_mono; [apply (from_protos l2 lv2 c2 A2 NttShoup _ ltac:(discriminate) H1)|]. cbv beta. intros ps (xs & Lx & ->). exists xs. split; [lia|]. split; [apply allow_shoups|discriminate]. }
    intros ps1 (x1 & L1 & E1 & F1). eapply safe_bind; [apply (from_protos l2 lv2 c2 A2 NttShoup _ ltac:(discriminate) H0)|]. cbv beta. intros ps0 (x0 & Lx0 & ->). rewrite E1, allow_shoups. cbn [safe k_ct_level k_level k_log_base]. split; [|split; [|auto]].
    - exists l1, lv1, c1, l2, lv2, c2. split; [exact A1|]. split; [exact A2|]. exists sd, x0, x1, (kp_log_base m). split; [reflexivity|]. split; [lia|]. split; [exact L1|]. split; [exact Hb|]. split; [exact Hdec|]. intros s ->. exact Hsd.
    - intros s Es. cbn [k_seed k_c1 k_ctx] in *. specialize (F1 s Es). unfold shoups at 1. rewrite !map_length. exact F1.
  Qed.
End Params.
