(** C58: the key protocols on anything that the members can hold. *)
From Verif Require Import Outcome BasicSpec OutcomeLemmas ZqModel ZqProofs NumTheory NttModel PolySpec PolyRing NttPure NttStages NttProofs CbdModel CbdSpec CbdProofs.
From Verif Require Import TranscodeModel PrimesModel RnsModel RnsSpec RnsProofs RqModel RqSpec RqCtx RqRows RqProofs RingRn RqOps RqIO RqPropLemmas ParamsModel BfvSpec ParamsProofs BuildProofs ParamsPropLemmas PlainModel CipherModel OpsModel SchemeSpec CipherSpec PlainProofs RnPoly CipherProofs EncryptProofs CipherPropLemmas LinearPropLemmas SerialPropLemmas KeysModel KeysSpec KeysProofs KeySwitchProofs KeyNoiseProofs KeyOpsProofs KeyPropLemmas EvalSpec EvalKeyProofs EvalOpsProofs EvalExpandProofs EvalPropLemmas RgswPropLemmas MbfvModel MbfvProofs WireSpec WireProofs WireKeysProofs WireOpsProofs WirePropLemmas KeySerialPropLemmas KeygenSpec KeygenProofs ReachSpec ShapeProofs ReachProofs SafeSpec SafeProofs SafeOpsProofs MbfvPropLemmas.
From Coq Require Import Znumtheory.
Set Default Proof Using "Type".
Set Default Proof Using "Type".

Lemma mapM_total {A B} (f : A -> M B) (Q : B -> Prop) l : Forall (fun a => exists b, f a = Val b /\ Q b) l -> exists bs, mapM f l = Val bs /\ Forall Q bs /\ length bs = length l.
Proof.
  induction 1 as [|a l (b & E & Hb) _ (bs & Es & F & L)]; [exists []; repeat split; constructor|]. exists (b :: bs). cbn [mapM]. rewrite E. cbn [bind]. rewrite Es. split; [reflexivity|]. split; [constructor; assumption|]. cbn [length]. congruence.
Qed.
Lemma mapM_cases {A B} (f : A -> M B) (good : A -> Prop) (Q : B -> Prop) l : Forall (fun a => (good a /\ exists b, f a = Val b /\ Q b) \/ (~ good a /\ f a = Panic)) l ->
  (Forall good l /\ exists bs, mapM f l = Val bs /\ Forall Q bs /\ length bs = length l) \/ (~ Forall good l /\ mapM f l = Panic).
Proof.
  induction 1 as [|a l Ha _ IH]; [left; split; [constructor|]; exists []; repeat split; constructor|]. cbn [mapM]. destruct Ha as [(Ga & b & E & Hb)|(Ga & E)]; rewrite E; cbn [bind].
  - destruct IH as [(Gl & bs & Es & F & L)|(Gl & Es)]; rewrite Es; cbn [bind]; [left|right].
    + split; [constructor; assumption|]. exists (b :: bs). split; [reflexivity|]. split; [constructor; assumption|]. cbn [length]. congruence.
    + split; [|reflexivity]. intros H. exact (Gl (Forall_inv_tail H)).
  - right. split; [|reflexivity]. intros H. exact (Ga (Forall_inv H)).
Qed.
Lemma enumerate_snd {A} (l : list A) : map snd (enumerate l) = l.
Proof. unfold enumerate. generalize 0%nat. induction l as [|a l IH]; intros j; cbn [length seq combine map]; [reflexivity|]. rewrite IH. reflexivity. Qed.
Lemma enumerate_Forall {A} (Q : nat -> A -> Prop) (l : list A) : (forall i a, (i < length l)%nat -> nth_error l i = Some a -> Q i a) -> Forall (fun ia => Q (fst ia) (snd ia)) (enumerate l).
Proof.
  unfold enumerate. intros H. assert (Hg : forall j l', (forall i a, (i < length l')%nat -> nth_error l' i = Some a -> Q (j + i)%nat a) -> Forall (fun ia => Q (fst ia) (snd ia)) (combine (seq j (length l')) l')).
  { intros j l'. revert j. induction l' as [|a l' IH]; intros j Hl; cbn [length seq combine]; constructor.
    - cbn [fst snd]. rewrite <- (Nat.add_0_r j). apply Hl; [cbn [length]; lia|reflexivity].
    - apply IH. intros i b Hi E. replace (S j + i)%nat with (j + S i)%nat by lia. apply Hl; [cbn [length]; lia|exact E]. }
  apply Hg. exact H.
Qed.
Lemma enumerate_length {A} (l : list A) : length (enumerate l) = length l.
Proof. unfold enumerate. rewrite combine_length, seq_length. lia. Qed.

Section Params.
  Context (isp : Z -> bool) (cands : Z -> list Z) (Ho : oracles isp cands) (par : params) (G : good_params isp cands par) (Hp : is_params isp cands par).
  Notation N := (pa_degree par).
  Notation v := (pa_variance par).
  Set Default Proof Using "All".
  Definition here (c : ctx) (p : poly Ntt) : Prop := exists b (x : Rn N), p = P Ntt c b x.

  Section Top.
  Context (lv : level_ctx) (c : ctx) (A : at_level isp cands par 0 lv c).
  Local Lemma Hc' : ctx_ok c. Proof. exact (good_ok _ (al_good _ _ _ _ _ _ A)). Qed.
  Local Lemma Hd' : c_degree c = N. Proof. exact (al_deg _ _ _ _ _ _ A). Qed.
  Notation k := (length (pa_moduli par)).
  Lemma top_moduli : length (c_moduli c) = k.
  Proof. rewrite (al_mod _ _ _ _ _ _ A). unfold level_moduli. rewrite firstn_length. lia. Qed.
  Lemma top_here p : top_crp par p -> here c p.
  Proof. intros (a & H). destruct (is_poly_P isp cands Ho par G 0 lv c A p a H) as (y & E & _). exists (p_vt p), y. exact E. Qed.
  Lemma here_top p : here c p -> top_crp par p.
  Proof. intros (b & x & ->). exists (rl x). apply (P_is_poly isp cands Ho par G 0 lv c A). Qed.
  (** A common random polynomial is at the first level, or in a context that differs from it. *)
  Lemma crp_cases p : some_crp par p -> here c p \/ ~ top_crp par p /\ exists c' b (x : Rn N), p = P Ntt c' b x /\ ctx_ok c' /\ c_degree c' = N /\ ctx_eqb c' c = false.
  Proof.
    intros (l & a & Hl & H). destruct (at_level_ex isp cands par l Ho G Hl) as (lv' & c' & A'). destruct (is_poly_P isp cands Ho par G l lv' c' A' p a H) as (y & E & _). destruct (Nat.eq_dec l 0) as [->|Hne].
    - left. apply top_here. exists a. exact H.
    - right. assert (Hl' : forall c'' , ctx_eqb c' c'' = true -> c'' = c -> False). { intros c'' H' ->. apply ctx_eqb_true in H'. destruct H' as (Em & _). apply (f_equal (@length Z)) in Em. rewrite (al_moduli_length isp cands par l lv' c' A'), (al_moduli_length isp cands par 0 lv c A) in Em. pose proof (al_lt _ _ _ _ _ _ A). pose proof (al_lt _ _ _ _ _ _ A'). lia. }
      split.
      + intros Ht. destruct (top_here p Ht) as (b & x & E'). assert (Ec : c' = c) by (apply (f_equal p_ctx) in E, E'; rewrite P_ctx in E, E'; congruence). subst c'. apply (Hl' c); [|reflexivity]. unfold ctx_eqb. destruct (list_eqb _ _) eqn:El; [|unfold list_eqb in El; destruct (list_eq_dec Z.eq_dec (c_moduli c) (c_moduli c)); congruence]. cbn [andb]. rewrite ?Nat.eqb_refl, ?Z.eqb_refl. reflexivity.
      + exists c', (p_vt p), y. split; [exact E|]. split; [exact (good_ok _ (al_good _ _ _ _ _ _ A'))|]. split; [exact (al_deg _ _ _ _ _ _ A')|]. apply not_true_is_false. intros H'. exact (Hl' c H' eq_refl).
  Qed.
  Local Notation Hc := (good_ok _ (al_good _ _ _ _ _ _ A)).
  Local Notation Hd := (al_deg _ _ _ _ _ _ A).
  Local Notation p_add := (P_add c Hc N Hd).
  Local Notation p_mul := (P_mul c Hc N Hd).
  Local Notation sk_poly_R := (sk_poly_R isp cands Ho par G 0 lv c A).
  Local Notation small_R := (small_R isp cands Ho par G 0 lv c A).
  Lemma here_add p q : here c p -> here c q -> exists r, poly_add p q = Val r /\ here c r.
  Proof. intros (b & x & ->) (b' & y & ->). rewrite p_add by discriminate. eexists. split; [reflexivity|]. eexists _, _. reflexivity. Qed.
  Lemma here_zip ps : forall qs, Forall (here c) ps -> Forall (here c) qs -> exists rs, zip_upd poly_add ps qs = Val rs /\ Forall (here c) rs /\ length rs = length ps.
  Proof.
    induction ps as [|p ps IH]; intros [|q qs] Hps Hqs; cbn [zip_upd]; [eexists; split; [reflexivity|]; split; [assumption|reflexivity]..|]. destruct (here_add p q (Forall_inv Hps) (Forall_inv Hqs)) as (r & -> & Hr). cbn [bind].
    destruct (IH qs (Forall_inv_tail Hps) (Forall_inv_tail Hqs)) as (rs & -> & Hrs & L). cbn [bind]. eexists. split; [reflexivity|]. split; [constructor; assumption|]. cbn [length]. congruence.
  Qed.
  Lemma here_both a0 : forall a1 b0 b1, Forall (here c) a0 -> Forall (here c) a1 -> Forall (here c) b0 -> Forall (here c) b1 -> exists r0 r1, add_both a0 a1 b0 b1 = Val (r0, r1) /\ Forall (here c) r0 /\ Forall (here c) r1 /\ length r0 = length a0 /\ length r1 = length a1.
  Proof.
    induction a0 as [|x0 a0 IH]; intros [|x1 a1] [|y0 b0] [|y1 b1] H0 H1 H2 H3; cbn [add_both]; [eexists _, _; split; [reflexivity|]; split; [assumption|split; [assumption|split; reflexivity]]..|].
    destruct (here_add x0 y0 (Forall_inv H0) (Forall_inv H2)) as (z0 & -> & Hz0). cbn [bind]. destruct (here_add x1 y1 (Forall_inv H1) (Forall_inv H3)) as (z1 & -> & Hz1). cbn [bind].
    destruct (IH a1 b0 b1 (Forall_inv_tail H0) (Forall_inv_tail H1) (Forall_inv_tail H2) (Forall_inv_tail H3)) as (r0 & r1 & -> & F0 & F1 & L0 & L1). cbn [bind]. eexists _, _. split; [reflexivity|]. split; [constructor; assumption|]. split; [constructor; assumption|]. cbn [length]. split; congruence.
  Qed.
  Lemma here_shoup ps : Forall (here c) ps -> exists bs : list (bool * Rn N), mapM ntt_into_shoup ps = Val (shoups c bs) /\ length bs = length ps.
  Proof.
    induction 1 as [|p ps (b & x & ->) _ (bs & E & L)]; [exists []; split; reflexivity|]. exists ((b, x) :: bs). cbn [mapM]. rewrite (P_ntt_shoup c Hc N Hd). cbn [bind]. rewrite E. split; [reflexivity|]. cbn [length]. congruence.
  Qed.
  (** *** Public keys of a group *)
  Lemma pk_share_cases sk crp rng : is_sk par sk -> some_crp par crp -> words rng ->
    (top_crp par crp /\ exists s, pk_share_new sk crp rng = Val s /\ pks_par s = par /\ pks_crp s = crp /\ here c (pks_p0 s)) \/ (~ top_crp par crp /\ pk_share_new sk crp rng = Panic).
  Proof.
    intros Hsk Hcrp Hr. destruct (crp_cases crp Hcrp) as [Hh|(Hn & c' & b & x & -> & Hc' & Hd' & Hne)].
    - left. split; [exact (here_top crp Hh)|]. destruct Hh as (b & x & ->). rewrite (pk_share_P isp cands Ho par G lv c A sk b x rng Hsk Hr). eexists. split; [reflexivity|]. split; [reflexivity|]. split; [reflexivity|]. eexists _, _. reflexivity.
    - right. split; [exact Hn|]. unfold pk_share_new. rewrite (proj1 Hsk), (al_par_context isp cands par 0 lv c A). cbn [bind]. rewrite (sk_poly_R _ Hsk). cbn [bind]. rewrite (small_R _ Hr). cbn [bind]. rewrite (P_neg c' Hc' N Hd') by discriminate. cbn [bind]. rewrite P_disallow.
      unfold poly_mul, poly_op2. rewrite !P_ctx, Hne. unfold P at 1. cbn [p_lazy poly_of negb andb guard bind]. match goal with |- context [guard ?b] => destruct b end; reflexivity.
  Qed.
  Lemma pk_made_P s : pk_share_made par s -> pks_par s = par /\ here c (pks_crp s) /\ here c (pks_p0 s).
  Proof.
    intros (sk & crp & rng & Hsk & Hcrp & Hr & E). destruct (pk_share_cases sk crp rng Hsk Hcrp Hr) as [(Ht & s' & E' & E1 & E2 & H)|(_ & E')]; rewrite E in E'; [|discriminate]. injection E' as <-. split; [exact E1|]. split; [rewrite E2; exact (top_here crp Ht)|exact H].
  Qed.
  Lemma pk_fold shares : Forall (pk_share_made par) shares -> forall p, here c p -> exists q, foldM (fun p0 sh => poly_add p0 (pks_p0 sh)) shares p = Val q /\ here c q.
  Proof.
    induction 1 as [|s shares Hs _ IH]; intros p Hp'; cbn [foldM]; [eauto|]. destruct (pk_made_P s Hs) as (_ & _ & H). destruct (here_add p _ Hp' H) as (r & -> & Hr). cbn [bind]. exact (IH r Hr).
  Qed.
  Lemma here_parts p q : here c p -> here c q -> exists vxs : list (bool * Rn N), [p; q] = parts c vxs /\ length vxs = 2%nat.
  Proof. intros (b & x & ->) (b' & y & ->). exists [(b, x); (b', y)]. split; reflexivity. Qed.
  Lemma pk_sum_cases s shares : Forall (pk_share_made par) (s :: shares) -> exists pk, pk_from_shares (s :: shares) = Val pk /\ pk_shape par pk /\ nth_error (ct_c (pk_c pk)) 1 = Some (pks_crp s).
  Proof.
    intros H. destruct (pk_made_P s (Forall_inv H)) as (E & Hcr & Hp0). destruct (pk_fold shares (Forall_inv_tail H) _ Hp0) as (q & Eq & Hq). cbn [pk_from_shares]. rewrite Eq. cbn [bind]. destruct Hq as (b & x & ->). destruct Hcr as (b' & y & Ecr). rewrite Ecr, E.
    rewrite (ct_new_P isp cands Ho par G 0 lv c A). cbn [bind]. eexists. split; [reflexivity|]. split; [|reflexivity]. split; [reflexivity|]. cbn [pk_c]. exists 2%nat. split; [lia|]. exists (map rl (map snd [(b, x); (b', y)])). split; [|reflexivity]. exact (parts_ct isp cands Ho par G 0 lv c A None [(b, x); (b', y)]).
  Qed.
  (** *** Relinearization keys of a group *)
  Definition gen_ok (g : relin_gen) : Prop := is_sk par (gen_sk g) /\ Forall (some_crp par) (gen_crp g) /\ length (gen_crp g) = k /\ here c (gen_u g).
  Lemma gen_cases sk crps rng : is_sk par sk -> Forall (some_crp par) crps -> words rng -> k <> 1%nat -> length crps = k -> exists g, gen_new sk crps rng = Val g /\ gen_sk g = sk /\ gen_crp g = crps /\ gen_ok g.
  Proof.
    intros Hsk HF Hr H1 HL. unfold gen_new. rewrite (proj1 Hsk), (al_par_context isp cands par 0 lv c A). cbn [bind]. rewrite top_moduli, HL, Nat.eqb_refl. apply Nat.eqb_neq in H1. rewrite H1. cbn [negb]. rewrite (small_R _ Hr). cbn [bind]. eexists. split; [reflexivity|]. split; [reflexivity|]. split; [reflexivity|].
    split; [exact Hsk|]. split; [exact HF|]. split; [exact HL|]. eexists _, _. reflexivity.
  Qed.
  Lemma generator_ok g : generator par g -> gen_ok g /\ k <> 1%nat.
  Proof.
    intros (sk & crps & rng & Hsk & HF & Hr & E). destruct (relin_errors_all isp cands par Ho Hp sk crps rng Hsk) as (E1 & E2). destruct (Nat.eq_dec k 1) as [H1|H1]; [rewrite (E1 H1) in E; discriminate|]. destruct (Nat.eq_dec (length crps) k) as [HL|HL]; [|rewrite (E2 H1 HL) in E; discriminate].
    destruct (gen_cases sk crps rng Hsk HF Hr H1 HL) as (g' & E' & _ & _ & Hg). rewrite E in E'. injection E' as <-. split; [exact Hg|exact H1].
  Qed.
  Definition share_ok (s : relin_share) : Prop := rks_par s = par /\ Forall (here c) (rks_h0 s) /\ Forall (here c) (rks_h1 s) /\ length (rks_h0 s) = k /\ length (rks_h1 s) = k.
  Lemma top_garner : exists r, rns_new (pa_moduli par) = Val r /\ crt_weights (pa_moduli par) (rns_garner r) /\ length (rns_garner r) = k.
  Proof.
    assert (Hb : rns_basis (pa_moduli par)). { pose proof (basis c Hc) as B. rewrite (al_mod _ _ _ _ _ _ A) in B. unfold level_moduli in B. rewrite Nat.sub_0_r, firstn_all in B. exact B. }
    destruct (rns_new_ok (pa_moduli par) Hb) as (r & Er & Gr & Ur). pose proof (garner_weights r Gr) as W. rewrite Ur in W. exists r. split; [exact Er|]. split; [exact W|exact (proj1 W)].
  Qed.
  Lemma mul_other c' b b' (x : Rn N) p : ctx_eqb c' c = false -> p = P Ntt c b' (r0 N) \/ (exists y : Rn N, p = P Ntt c b' y) -> poly_mul (P Ntt c' b x) p = Panic.
  Proof.
    intros Hne Hx. assert (exists y : Rn N, p = P Ntt c b' y) as (y & ->) by (destruct Hx as [->|H]; eauto). unfold poly_mul, poly_op2. rewrite !P_ctx, Hne. unfold P at 1. cbn [p_lazy poly_of negb andb guard bind]. match goal with |- context [guard ?b] => destruct b end; reflexivity.
  Qed.
  Lemma round1_cases g r0 r1 : gen_ok g -> (forall i, words (r0 i)) -> (forall i, words (r1 i)) ->
    (Forall (top_crp par) (gen_crp g) /\ exists s, gen_round1 g r0 r1 = Val s /\ share_ok s) \/ (~ Forall (top_crp par) (gen_crp g) /\ gen_round1 g r0 r1 = Panic).
  Proof.
    intros (Hsk & HF & HL & (vu & u & Eu)) H0 H1. destruct top_garner as (r & Er & _ & Lr). unfold gen_round1. rewrite (proj1 Hsk), (al_par_context isp cands par 0 lv c A). cbn [bind]. rewrite top_moduli, HL, Nat.eqb_refl. cbn [negb].
    unfold r1_h0. rewrite (proj1 Hsk), (al_par_context isp cands par 0 lv c A). cbn [bind]. rewrite (sk_poly_R _ Hsk). cbn [bind]. unfold slice_to. rewrite HL, Nat.leb_refl. cbn [guard bind]. rewrite firstn_all, Er. cbn [bind]. rewrite Eu.
    match goal with |- context [mapM ?f (enumerate (gen_crp g))] => set (f0 := f) end.
    assert (Hf : Forall (fun ia => (top_crp par (snd ia) /\ exists q, f0 ia = Val q /\ here c q) \/ (~ top_crp par (snd ia) /\ f0 ia = Panic)) (enumerate (gen_crp g))).
    { eapply Forall_impl; [|apply (enumerate_Forall (fun i a => (top_crp par a /\ exists q, f0 (i, a) = Val q /\ here c q) \/ (~ top_crp par a /\ f0 (i, a) = Panic)))]; [intros (i & p) H; exact H|]. intros i p Hi Ep. rewrite Forall_forall in HF. specialize (HF p (nth_error_In _ _ Ep)). unfold f0. cbn [fst snd]. unfold get_garner. rewrite (nth_error_nth' (rns_garner r) 0) by lia. cbn [unwrap bind].
      rewrite (P_scale c Hc N Hd) by discriminate. cbn [bind]. rewrite (small_R _ (H0 i)). cbn [bind]. destruct (crp_cases p HF) as [Hh|(Hn & c' & b & x & -> & Hc' & Hd' & Hne)].
      - left. split; [exact (here_top p Hh)|]. destruct Hh as (b & x & ->). rewrite (P_neg c Hc N Hd) by discriminate. cbn [bind]. rewrite P_disallow, p_mul. cbn [bind]. rewrite p_add by discriminate. cbn [bind]. rewrite p_add by discriminate. eexists. split; [reflexivity|]. eexists _, _. reflexivity.
      - right. split; [exact Hn|]. rewrite (P_neg c' Hc' N Hd') by discriminate. cbn [bind]. rewrite P_disallow. rewrite (mul_other c' false vu) by (try exact Hne; eauto). reflexivity. }
    assert (Hsnd : Forall (fun ia => top_crp par (snd ia)) (enumerate (gen_crp g)) <-> Forall (top_crp par) (gen_crp g)) by (rewrite <- (enumerate_snd (gen_crp g)) at 2; rewrite Forall_map; reflexivity).
    destruct (mapM_cases f0 _ _ _ Hf) as [(HT & h0 & E0 & F0 & L0)|(HT & E0)]; rewrite Hsnd in HT; rewrite E0; cbn [bind]; [left|right; split; [exact HT|reflexivity]]. split; [exact HT|].
    unfold r1_h1. rewrite (proj1 Hsk), (al_par_context isp cands par 0 lv c A). cbn [bind]. rewrite (sk_poly_R _ Hsk). cbn [bind]. match goal with |- context [mapM ?f (enumerate (gen_crp g))] => destruct (mapM_total f (here c) (enumerate (gen_crp g))) as (h1 & E1 & F1 & L1) end.
    { eapply Forall_impl; [|apply (enumerate_Forall (fun i a => top_crp par a))]; [|intros i p _ Ep; rewrite Forall_forall in HT; exact (HT p (nth_error_In _ _ Ep))]. intros (i & p) Ht. cbn [fst snd] in *. destruct (top_here p Ht) as (b & x & ->). rewrite (small_R _ (H1 i)). cbn [bind]. rewrite P_disallow, p_mul. cbn [bind]. rewrite p_add by discriminate. eexists. split; [reflexivity|]. eexists _, _. reflexivity. }
    rewrite E1. cbn [bind]. eexists. split; [reflexivity|]. rewrite enumerate_length in L0, L1. split; [reflexivity|]. cbn [rks_h0 rks_h1]. split; [exact F0|]. split; [exact F1|]. split; congruence.
  Qed.
  Lemma round1_ok s : round1_made par s -> share_ok s.
  Proof.
    intros (g & r0 & r1 & Hg & H0 & H1 & E). destruct (round1_cases g r0 r1 (proj1 (generator_ok g Hg)) H0 H1) as [(_ & s' & E' & H)|(_ & E')]; rewrite E in E'; [|discriminate]. injection E' as <-. exact H.
  Qed.
  Lemma r1_sum_cases s shares : Forall (round1_made par) (s :: shares) -> exists t, r1_from_shares (s :: shares) = Val t /\ share_ok t.
  Proof.
    intros H. destruct (round1_ok s (Forall_inv H)) as (Ep & F0 & F1 & L0 & L1). cbn [r1_from_shares].
    assert (Hf : forall shares, Forall (round1_made par) shares -> forall h0 h1, Forall (here c) h0 -> Forall (here c) h1 -> length h0 = k -> length h1 = k ->
      exists z0 z1, foldM (fun h sh => h0 <- zip_upd poly_add (fst h) (rks_h0 sh) ;; h1 <- zip_upd poly_add (snd h) (rks_h1 sh) ;; Val (h0, h1)) shares (h0, h1) = Val (z0, z1) /\ Forall (here c) z0 /\ Forall (here c) z1 /\ length z0 = k /\ length z1 = k).
    { clear - Ho G Hp A. induction 1 as [|s shares Hs _ IH]; intros h0 h1 F0 F1 L0 L1; cbn [foldM]; [eexists _, _; split; [reflexivity|]; repeat split; assumption|]. destruct (round1_ok s Hs) as (_ & G0 & G1 & _). cbn [fst snd].
      destruct (here_zip h0 _ F0 G0) as (z0 & -> & Z0 & M0). cbn [bind]. destruct (here_zip h1 _ F1 G1) as (z1 & -> & Z1 & M1). cbn [bind]. apply IH; try assumption; congruence. }
    destruct (Hf shares (Forall_inv_tail H) _ _ F0 F1 L0 L1) as (z0 & z1 & -> & Z0 & Z1 & M0 & M1). cbn [bind]. eexists. split; [reflexivity|]. repeat split; assumption.
  Qed.
  Lemma total_ok t : round1_total par t -> share_ok t.
  Proof.
    intros ([|s shares] & HF & E); [discriminate|]. destruct (r1_sum_cases s shares HF) as (t' & E' & H). rewrite E in E'. injection E' as <-. exact H.
  Qed.
  Lemma round2_cases g t r0 r1 : gen_ok g -> share_ok t -> (forall i, words (r0 i)) -> (forall i, words (r1 i)) -> exists s, gen_round2 g t r0 r1 = Val s /\ share_ok (rks2_share s) /\ rks2_last s = Some t.
  Proof.
    intros (Hsk & _ & _ & (vu & u & Eu)) (_ & F0 & F1 & L0 & L1) H0 H1. unfold gen_round2, r2_h0, r2_h1. rewrite (proj1 Hsk), (al_par_context isp cands par 0 lv c A). cbn [bind]. rewrite (sk_poly_R _ Hsk). cbn [bind].
    assert (Hm : forall hs (rs : nat -> nat -> Z) w (z : Rn N), Forall (here c) hs -> (forall i, words (rs i)) -> exists qs, mapM (fun ih : nat * poly Ntt => e <- poly_small Ntt c v (rs (fst ih)) ;; h <- poly_mul (disallow_vt (snd ih)) (P Ntt c w z) ;; poly_add h e) (enumerate hs) = Val qs /\ Forall (here c) qs /\ length qs = length hs).
    { intros hs rs w z HF Hr. match goal with |- context [mapM ?f (enumerate hs)] => destruct (mapM_total f (here c) (enumerate hs)) as (h1 & E1 & F & L) end; [|rewrite enumerate_length in L; eauto].
      eapply Forall_impl; [|apply (enumerate_Forall (fun i a => here c a))]; [|intros i p _ Ep; rewrite Forall_forall in HF; exact (HF p (nth_error_In _ _ Ep))]. intros (i & p) Hh. cbn [fst snd] in *. destruct Hh as (b & x & ->). rewrite (small_R _ (Hr i)). cbn [bind]. rewrite P_disallow, p_mul. cbn [bind]. rewrite p_add by discriminate. eexists. split; [reflexivity|]. eexists _, _. reflexivity. }
    destruct (Hm _ r0 false (kR par (gen_sk g)) F0 H0) as (z0 & -> & Z0 & M0). cbn [bind]. rewrite Eu, (P_sub c Hc N Hd) by discriminate. cbn [bind]. match goal with |- context [P Ntt c ?w (u - ?y)%R] => destruct (Hm _ r1 w (u - y)%R F1 H1) as (z1 & -> & Z1 & M1) end. cbn [bind].
    eexists. split; [reflexivity|]. split; [|reflexivity]. cbn [rks2_share]. split; [reflexivity|]. cbn [rks_h0 rks_h1]. split; [exact Z0|]. split; [exact Z1|]. split; congruence.
  Qed.
  Lemma round2_ok s : round2_made par s -> share_ok (rks2_share s) /\ exists t, rks2_last s = Some t /\ share_ok t.
  Proof.
    intros (g & t & r0 & r1 & Hg & Ht & H0 & H1 & E). destruct (round2_cases g t r0 r1 (proj1 (generator_ok g Hg)) (total_ok t Ht) H0 H1) as (s' & E' & H & El). rewrite E in E'. injection E' as <-. split; [exact H|]. exists t. split; [exact El|exact (total_ok t Ht)].
  Qed.
  Lemma relin_sum_cases s shares : Forall (round2_made par) (s :: shares) -> exists rk, relin_from_shares (s :: shares) = Val rk /\ k_par rk = par /\ k_ct_level rk = 0%nat /\ k_level rk = 0%nat /\ forall a f : Rn N, kskR par 0 c 0 c 0 rk a f (prod_list (level_moduli (pa_moduli par) 0)).
  Proof.
    intros H. destruct (round2_ok s (Forall_inv H)) as ((Ep & F0 & F1 & L0 & L1) & t & Et & (_ & _ & T1 & _ & LT)). cbn [relin_from_shares]. rewrite Ep, (al_par_context isp cands par 0 lv c A), Et. cbn [ok_or bind].
    assert (Hf : forall shares, Forall (round2_made par) shares -> forall h0 h1, Forall (here c) h0 -> Forall (here c) h1 -> length h0 = k -> length h1 = k ->
      exists z0 z1, foldM (fun h sh => add_both (fst h) (snd h) (rks_h0 (rks2_share sh)) (rks_h1 (rks2_share sh))) shares (h0, h1) = Val (z0, z1) /\ Forall (here c) z0 /\ Forall (here c) z1 /\ length z0 = k /\ length z1 = k).
    { clear - Ho G Hp A. induction 1 as [|s shares Hs _ IH]; intros h0 h1 F0 F1 L0 L1; cbn [foldM]; [eexists _, _; split; [reflexivity|]; repeat split; assumption|]. destruct (round2_ok s Hs) as ((_ & G0 & G1 & _) & _). cbn [fst snd].
      destruct (here_both h0 h1 _ _ F0 F1 G0 G1) as (z0 & z1 & -> & Z0 & Z1 & M0 & M1). cbn [bind]. apply IH; try assumption; congruence. }
    destruct (Hf shares (Forall_inv_tail H) _ _ F0 F1 L0 L1) as (z0 & z1 & -> & Z0 & Z1 & M0 & M1). cbn [bind]. destruct (here_zip z0 z1 Z0 Z1) as (y & -> & Y & My). cbn [bind]. destruct (here_shoup y Y) as (b0 & -> & Lb0). cbn [bind]. destruct (here_shoup _ T1) as (b1 & -> & Lb1). cbn [bind].
    eexists. split; [reflexivity|]. split; [reflexivity|]. split; [reflexivity|]. split; [reflexivity|]. intros a f. destruct top_garner as (r & _ & W & Lr).
    exists None, b0, b1, (rns_garner r). split; [reflexivity|]. split; [left; reflexivity|]. split; [left; split; [reflexivity|]; unfold level_moduli; rewrite Nat.sub_0_r, firstn_all; exact W|]. split; [congruence|]. split; [congruence|]. apply (any_rkey isp cands Ho par G 0 lv c A 0 lv c A); rewrite map_length; congruence.
  Qed.
  End Top.
End Params.
