(** C58: the statements about key generation, builders and key protocols. *)
From Verif Require Import Outcome BasicSpec OutcomeLemmas ZqModel ZqProofs NumTheory NttModel PolySpec PolyRing NttPure NttStages NttProofs CbdModel CbdSpec CbdProofs.
From Verif Require Import TranscodeModel PrimesModel RnsModel RnsSpec RnsProofs RqModel RqSpec RqCtx RqRows RqProofs RingRn RqOps RqIO RqPropLemmas ParamsModel BfvSpec ParamsProofs BuildProofs ParamsPropLemmas PlainModel CipherModel OpsModel SchemeSpec CipherSpec PlainProofs RnPoly CipherProofs EncryptProofs CipherPropLemmas LinearPropLemmas SerialPropLemmas KeysModel KeysSpec KeysProofs KeySwitchProofs KeyNoiseProofs KeyOpsProofs KeyPropLemmas EvalSpec EvalKeyProofs EvalOpsProofs EvalExpandProofs EvalPropLemmas RgswPropLemmas MbfvModel MbfvProofs WireSpec WireProofs WireKeysProofs WireOpsProofs WirePropLemmas KeySerialPropLemmas KeygenSpec KeygenProofs KeygenProtoProofs ReachSpec ShapeProofs ReachProofs SafeSpec SafeProofs SafeOpsProofs MbfvPropLemmas.
From Coq Require Import Znumtheory.
Set Default Proof Using "Type".

Lemma val_inj {A} (a b : A) : Val a = Val b -> a = b.
Proof. congruence. Qed.

Lemma ct_parts_count par l ct xs : is_ct par l ct xs -> length (ct_c ct) = length xs.
Proof. intros (_ & _ & H). induction H; cbn [length]; congruence. Qed.
Lemma bind_Panic {A B} (m : M A) (f : A -> M B) : m = Panic -> bind m f = Panic.
Proof. intros ->. reflexivity. Qed.
Lemma relin_other par k ct : k_par k = par -> safe (ct_validate_for ct par) any -> ~ (ct_level ct = k_ct_level k /\ length (ct_c ct) = 3%nat) -> exists e, relinearizes k ct = Err e.
Proof.
  intros Ek Hs Hn. unfold relinearizes. rewrite Ek. destruct (ct_validate_for ct par) as [u|e|]; cbn [bind]; [|eauto|destruct Hs]. destruct (ct_c ct) as [|p0 [|p1 [|p2 [|p3 ps]]]]; try (eexists; reflexivity).
  destruct (Nat.eqb_spec (ct_level ct) (k_ct_level k)) as [El|_]; [destruct Hn; split; [exact El|reflexivity]|]. eexists. reflexivity.
Qed.

Section All.
  Context (isp : Z -> bool) (cands : Z -> list Z) (par : params).
  Notation N := (pa_degree par).
  (** *** Keys made from one secret key *)
  Theorem relin_outcomes_all : oracles isp cands -> is_params isp cands par -> supported par -> forall expand derive, expands_well expand -> forall sk, is_sk par sk -> forall l1 l2 sd rngs, length sd = 32%nat -> (forall i, words (rngs i)) ->
    ((max_level par < l2)%nat -> relin_new expand derive sk l1 l2 sd rngs = Err (InvalidLevel (Z.of_nat l2) 0 (Z.of_nat (max_level par)))) /\
    ((l2 <= max_level par)%nat -> (max_level par < l1)%nat -> relin_new expand derive sk l1 l2 sd rngs = Err (InvalidLevel (Z.of_nat l1) 0 (Z.of_nat (max_level par)))) /\
    ((l1 <= max_level par)%nat -> l2 = max_level par -> relin_new expand derive sk l1 l2 sd rngs = Err KeySwitchingNotSupported) /\
    ((l1 <= max_level par)%nat -> (l2 < max_level par)%nat -> exists k, relin_new expand derive sk l1 l2 sd rngs = Val k /\ key_shape par l1 l2 k /\ base_fits k).
  Proof. intros Ho Hp Hs expand derive Hx sk Hsk l1 l2 sd rngs Ls Hr. exact (relin_cases isp cands Ho par (params_good isp cands par Ho Hp) Hp expand derive sk l1 l2 sd rngs Hs Hx Hsk Ls Hr). Qed.
  Theorem builder_all : oracles isp cands -> is_params isp cands par -> forall expand derive, expands_well expand -> forall sk, is_sk par sk -> forall l1 l2, (l1 <= max_level par)%nat -> (l2 <= l1)%nat ->
    exists b0, ekb_new_leveled sk l1 l2 = Val b0 /\ forall rs,
    (forall r, match refusal N r with Some e => send (send_all b0 rs) r = Err e | None => exists b', send (send_all b0 rs) r = Val b' end) /\
    forall sds rngs, (forall e, length (sds e) = 32%nat) -> (forall e i, words (rngs e i)) -> exists ek, ek_build expand derive (send_all b0 rs) sds rngs = Val ek /\ ek_shape par l1 ek /\ ek_fits ek /\ ek_level ek = l2 /\ forall e, lookup (ek_gk ek) e <> None <-> wanted N rs e.
  Proof.
    intros Ho Hp expand derive Hx sk Hsk l1 l2 H1 H2. destruct (proj1 (proj2 (builder_new_all isp cands par Ho Hp sk Hsk) l1 l2) (conj H2 H1)) as (rot & E0 & _). eexists. split; [exact E0|].
    exact (builder_cases isp cands Ho par (params_good isp cands par Ho Hp) Hp expand derive sk l1 l2 Hx Hsk H1 H2 _ E0).
  Qed.
  Theorem rgsw_outcomes_all : oracles isp cands -> is_params isp cands par -> forall expand derive, expands_well expand -> forall sk, is_sk par sk -> forall l pt m, (l <= max_level par)%nat -> is_pt par l pt m -> forall sd0 sd1 rngs0 rngs1, length sd0 = 32%nat -> length sd1 = 32%nat -> (forall i, words (rngs0 i)) -> (forall i, words (rngs1 i)) ->
    exists r, rgsw_encrypt expand derive sk pt sd0 sd1 rngs0 rngs1 = Val r /\ forall l' n ct, (l' <= max_level par)%nat -> some_ct par l' n ct ->
      if ((l' =? l) && (n =? 2))%nat then exists ct', ct_mul_rgsw ct r = Val ct' /\ rgsw_mul_ct r ct = Val ct' /\ some_ct par l 2 ct' else ct_mul_rgsw ct r = Panic /\ rgsw_mul_ct r ct = Panic.
  Proof.
    intros Ho Hp expand derive Hx sk Hsk l pt m Hl Hpt sd0 sd1 rngs0 rngs1 L0 L1 H0 H1. destruct (rgsw_cases isp cands Ho par (params_good isp cands par Ho Hp) Hp expand derive sk l pt m sd0 sd1 rngs0 rngs1 Hx Hsk Hl Hpt L0 L1 H0 H1) as (r & E & Hr & F0 & F1). exists r. split; [exact E|].
    intros l' n ct Hl' Hct. destruct (Nat.eqb_spec l' l) as [->|Hne]; [destruct (Nat.eqb_spec n 2) as [->|Hn]|]; cbn [andb].
    - exact (rgsw_safe_all isp cands par Ho Hp l r Hr F0 F1 ct Hct).
    - apply external_panics. right. right. destruct Hct as (xs & Hct & <-). rewrite (ct_parts_count par l ct xs Hct). exact Hn.
    - apply external_panics. right. left. destruct Hct as (xs & (_ & El & _) & _). destruct Hr as ((_ & Ek & _) & _). rewrite Ek, El. exact Hne.
  Qed.
  (** *** Keys of a group *)
  Theorem pk_share_outcomes_all : oracles isp cands -> is_params isp cands par -> forall sk crp rng, is_sk par sk -> some_crp par crp -> words rng ->
    (top_crp par crp -> exists s, pk_share_new sk crp rng = Val s /\ pks_crp s = crp) /\ (~ top_crp par crp -> pk_share_new sk crp rng = Panic).
  Proof.
    intros Ho Hp sk crp rng Hsk Hcrp Hr. pose proof (params_good isp cands par Ho Hp) as G. destruct (at_level_ex isp cands par 0 Ho G (Nat.le_0_l _)) as (lv & c & A).
    destruct (pk_share_cases isp cands Ho par G Hp lv c A sk crp rng Hsk Hcrp Hr) as [(Ht & s & E & _ & Ec & _)|(Ht & E)]; split; intros H; try contradiction; eauto.
  Qed.
  Theorem pk_sum_outcomes_all : oracles isp cands -> is_params isp cands par -> forall s shares, Forall (pk_share_made par) (s :: shares) ->
    exists pk, pk_from_shares (s :: shares) = Val pk /\ pk_shape par pk /\ nth_error (ct_c (pk_c pk)) 1 = Some (pks_crp s).
  Proof.
    intros Ho Hp s shares H. pose proof (params_good isp cands par Ho Hp) as G. destruct (at_level_ex isp cands par 0 Ho G (Nat.le_0_l _)) as (lv & c & A). exact (pk_sum_cases isp cands Ho par G Hp lv c A s shares H).
  Qed.
  Theorem generator_outcomes_all : oracles isp cands -> is_params isp cands par -> forall sk crps rng, is_sk par sk -> Forall (some_crp par) crps -> words rng ->
    (length (pa_moduli par) = 1%nat -> gen_new sk crps rng = Err KeySwitchingNotSupported) /\
    (length (pa_moduli par) <> 1%nat -> length crps <> length (pa_moduli par) -> gen_new sk crps rng = Err (InvalidCrpCount (Z.of_nat (length crps)) (Z.of_nat (length (pa_moduli par))))) /\
    (length (pa_moduli par) <> 1%nat -> length crps = length (pa_moduli par) -> exists g, gen_new sk crps rng = Val g /\ gen_sk g = sk /\ gen_crp g = crps).
  Proof.
    intros Ho Hp sk crps rng Hsk HF Hr. pose proof (params_good isp cands par Ho Hp) as G. destruct (at_level_ex isp cands par 0 Ho G (Nat.le_0_l _)) as (lv & c & A). destruct (relin_errors_all isp cands par Ho Hp sk crps rng Hsk) as (E1 & E2). split; [exact E1|]. split; [exact E2|]. intros H1 HL.
    destruct (gen_cases isp cands Ho par G Hp lv c A sk crps rng Hsk HF Hr H1 HL) as (g & E & E' & E'' & _). eauto.
  Qed.
  Theorem round1_outcomes_all : oracles isp cands -> is_params isp cands par -> forall g r0 r1, generator par g -> (forall i, words (r0 i)) -> (forall i, words (r1 i)) ->
    (Forall (top_crp par) (gen_crp g) -> exists s, gen_round1 g r0 r1 = Val s) /\ (~ Forall (top_crp par) (gen_crp g) -> gen_round1 g r0 r1 = Panic).
  Proof.
    intros Ho Hp g r0 r1 Hg H0 H1. pose proof (params_good isp cands par Ho Hp) as G. destruct (at_level_ex isp cands par 0 Ho G (Nat.le_0_l _)) as (lv & c & A).
    destruct (round1_cases isp cands Ho par G Hp lv c A g r0 r1 (proj1 (generator_ok isp cands Ho par G Hp lv c A g Hg)) H0 H1) as [(Ht & s & E & _)|(Ht & E)]; split; intros H; try contradiction; eauto.
  Qed.
  Theorem round2_outcomes_all : oracles isp cands -> is_params isp cands par -> (forall s shares, Forall (round1_made par) (s :: shares) -> exists tot, r1_from_shares (s :: shares) = Val tot) /\
    forall g tot r0 r1, generator par g -> round1_total par tot -> (forall i, words (r0 i)) -> (forall i, words (r1 i)) -> exists s, gen_round2 g tot r0 r1 = Val s /\ rks2_last s = Some tot.
  Proof.
    intros Ho Hp. pose proof (params_good isp cands par Ho Hp) as G. destruct (at_level_ex isp cands par 0 Ho G (Nat.le_0_l _)) as (lv & c & A). split.
    - intros s shares H. destruct (r1_sum_cases isp cands Ho par G Hp lv c A s shares H) as (t & E & _). eauto.
    - intros g t r0 r1 Hg Ht H0 H1. destruct (round2_cases isp cands Ho par G Hp lv c A g t r0 r1 (proj1 (generator_ok isp cands Ho par G Hp lv c A g Hg)) (total_ok isp cands Ho par G Hp lv c A t Ht) H0 H1) as (s & E & _ & El). eauto.
  Qed.
  Theorem relin_sum_outcomes_all : oracles isp cands -> is_params isp cands par -> forall s shares, Forall (round2_made par) (s :: shares) ->
    exists k, relin_from_shares (s :: shares) = Val k /\ k_par k = par /\ k_ct_level k = 0%nat /\ k_level k = 0%nat /\ forall l n ct, (l <= max_level par)%nat -> some_ct par l n ct ->
      if ((l =? 0) && (n =? 3))%nat then exists ct', relinearizes k ct = Val ct' /\ some_ct par 0 2 ct' else exists e, relinearizes k ct = Err e.
  Proof.
    intros Ho Hp s shares H. pose proof (params_good isp cands par Ho Hp) as G. destruct (at_level_ex isp cands par 0 Ho G (Nat.le_0_l _)) as (lv & c & A). destruct (relin_sum_cases isp cands Ho par G Hp lv c A s shares H) as (k & E & E1 & E2 & E3 & HK). exists k. split; [exact E|]. split; [exact E1|]. split; [exact E2|]. split; [exact E3|].
    intros l n ct Hl Hct. pose proof (Qpos isp cands Ho par G 0 lv c A) as HQ. destruct (Nat.eqb_spec l 0) as [->|Hne]; [destruct (Nat.eqb_spec n 3) as [->|Hn]|]; cbn [andb].
    - set (z := mkSk par (repeat 0 N)). pose proof (zero_sk isp cands Ho par G Hp : is_sk par z) as Hz. assert (Ln : length (map (Z.mul (level_ratio par 0 0)) (negacyclic N (sk_coeffs z) (sk_coeffs z))) = N) by (rewrite map_length; apply negacyclic_length).
      destruct (R_is_ksk isp cands Ho par G 0 lv c A 0 lv c A z (proj1 (proj2 Hz)) 0 k (mkR _ Ln) _ (Z.lt_le_incl _ _ HQ) (HK _ _)) as (Hk & _). rewrite rl_mkR in Hk. destruct (relinearizes_all isp cands par Ho Hp z Hz 0%nat 0%nat (Nat.le_0_l _) (le_n _) k _ (Z.lt_le_incl _ _ HQ) Hk) as (HR & _).
      destruct Hct as (xs & Hct & Lx). destruct xs as [|x0 [|x1 [|x2 [|? ?]]]]; try discriminate Lx. destruct (HR ct x0 x1 x2 Hct) as (ct' & z0 & z1 & e & Er & _ & Hct' & _). exists ct'. split; [exact Er|]. exists [z0; z1]. split; [exact Hct'|reflexivity].
    - apply (relin_other par); [exact E1|apply (some_validate isp cands Ho par G 0 lv c A), (any_some isp cands Ho par G); exists 0%nat, n; split; assumption|]. intros (_ & L). destruct Hct as (xs & Hct & Lx). rewrite (ct_parts_count par 0 ct xs Hct) in L. congruence.
    - apply (relin_other par); [exact E1|apply (some_validate isp cands Ho par G 0 lv c A), (any_some isp cands Ho par G); exists l, n; split; assumption|]. intros (L & _). destruct Hct as (xs & (_ & El & _) & _). congruence.
  Qed.
  (** *** Switching to a public key *)
  Lemma pksw_made_P : oracles isp cands -> is_params isp cands par -> forall l s, pksw_made par l s -> exists lv c, at_level isp cands par l lv c /\ pksw_par s = par /\ here par c (pksw_c0 s) /\ here par c (pksw_h0 s) /\ here par c (pksw_h1 s).
  Proof.
    intros Ho Hp l s (sk & pk & ct & ru & r0 & r1 & Hsk & (Epk & n & Hn & Hpc) & Hct & Hlev & W0 & W1 & W2 & Es). pose proof (params_good isp cands par Ho Hp) as G. destruct (any_some isp cands Ho par G ct Hct) as (l' & lv & c & vxs & A & E). assert (l' = l) by (rewrite E in Hlev; exact Hlev). subst l'. exists lv, c. split; [exact A|].
    destruct Hpc as (xs & Hpc & Ln). destruct (at_level_ex isp cands par 0 Ho G (Nat.le_0_l _)) as (lv0 & c0 & A0). destruct (ct_parts isp cands Ho par G 0 lv0 c0 A0 (pk_c pk) xs Hpc) as (vps & Ep & Ex).
    assert (L0 : length vps = n) by (rewrite <- Ln, <- Ex, !map_length; reflexivity). pose proof (at_level_bound isp cands par l lv c G A) as Hl. destruct (iter_level isp cands Ho par G Hp l 0 lv0 c0 (ct_seed (pk_c pk)) vps A0 ltac:(lia)) as (lv' & c' & sd' & vys & A' & Ly & Ei). cbn [Nat.add] in *. destruct (at_level_unique _ _ _ _ _ _ _ _ A A') as (<- & <-). rewrite <- Ep in Ei.
    assert (Ew : switch_until (S (max_level (ct_par (pk_c pk)))) l (pk_c pk) = Val (mkCt par sd' (parts c vys) l)). { rewrite <- Ei. rewrite Ep at 1. cbn [ct_par]. apply switch_until_iter; [lia|]. rewrite Ep. reflexivity. }
    rewrite E in Es. unfold pksw_new in Es. cbn [ct_par ct_level ct_c] in Es. rewrite (proj1 Hsk), Epk, par_eqb_refl in Es. cbn [negb] in Es. rewrite Ew in Es. cbn [bind] in Es. rewrite (al_par_context isp cands par l lv c A) in Es. cbn [bind] in Es. pose proof (good_ok _ (al_good _ _ _ _ _ _ A)) as Hc. pose proof (al_deg _ _ _ _ _ _ A) as Hd.
    rewrite (sk_poly_R isp cands Ho par G l lv c A _ Hsk) in Es. cbn [bind] in Es. rewrite !(small_R isp cands Ho par G l lv c A) in Es by assumption. cbn [bind] in Es.
    destruct vys as [|(w0 & b) [|(w1 & a) vys]]; cbn [length] in Ly; [lia..|]. cbn [parts map ct_c get nth_error unwrap bind fst snd] in Es. rewrite P_disallow, (P_mul c Hc N Hd) in Es. cbn [bind] in Es.
    destruct vxs as [|(v0 & x0) [|(v1 & x1) vxs]]; cbn [parts map get nth_error unwrap bind fst snd length] in Es; [discriminate Es..|]. repeat (rewrite ?P_disallow, ?(P_mul c Hc N Hd) in Es; cbn [bind] in Es; rewrite ?(P_add c Hc N Hd) in Es by discriminate; cbn [bind] in Es).
    apply val_inj in Es. rewrite <- Es. rewrite !P_allow. cbn [pksw_par pksw_c0 pksw_h0 pksw_h1]. split; [reflexivity|]. split; [|split]; eexists _, _; reflexivity.
  Qed.
  Lemma pksw_fold : oracles isp cands -> is_params isp cands par -> forall l lv c, at_level isp cands par l lv c -> forall ls shares, Forall2 (pksw_made par) ls shares -> forall h0 h1, here par c h0 -> here par c h1 ->
    let m := foldM (fun h sh => h0 <- poly_add (fst h) (pksw_h0 sh) ;; h1 <- poly_add (snd h) (pksw_h1 sh) ;; Val (h0, h1)) shares (h0, h1) in
    (Forall (eq l) ls /\ exists z0 z1, m = Val (z0, z1) /\ here par c z0 /\ here par c z1) \/ (~ Forall (eq l) ls /\ m = Panic).
  Proof.
    intros Ho Hp l lv c A. pose proof (params_good isp cands par Ho Hp) as G. pose proof (good_ok _ (al_good _ _ _ _ _ _ A)) as Hc. pose proof (al_deg _ _ _ _ _ _ A) as Hd. induction 1 as [|l' s ls shares Hs _ IH]; intros h0 h1 H0 H1; cbn [foldM]; [left; split; [constructor|]; eexists _, _; split; [reflexivity|]; split; assumption|].
    destruct (pksw_made_P Ho Hp l' s Hs) as (lv' & c' & A' & _ & _ & (b0 & y0 & E0) & (b1 & y1 & E1)). destruct H0 as (u0 & x0 & ->). destruct H1 as (u1 & x1 & ->). cbn [fst snd]. rewrite E0, E1. destruct (Nat.eq_dec l l') as [<-|Hne].
    - destruct (at_level_unique _ _ _ _ _ _ _ _ A A') as (_ & <-). rewrite !(P_add c Hc N Hd) by discriminate. cbn [bind]. destruct (IH (P Ntt c (u0 && b0) (x0 + y0)%R) (P Ntt c (u1 && b1) (x1 + y1)%R)) as [(F & z)|(F & z)]; [eexists _, _; reflexivity..|left|right]; (split; [|exact z]); [constructor; [reflexivity|exact F]|]. intros F'. exact (F (Forall_inv_tail F')).
    - right. split; [intros F'; apply Forall_inv in F'; contradiction|]. assert (Ecc : ctx_eqb c c' = false). { apply not_true_is_false. intros H'. apply ctx_eqb_true in H'. destruct H' as (Em & _). apply (f_equal (@length Z)) in Em. rewrite (al_moduli_length isp cands par l lv c A), (al_moduli_length isp cands par l' lv' c' A') in Em. pose proof (al_lt _ _ _ _ _ _ A). pose proof (al_lt _ _ _ _ _ _ A'). lia. }
      unfold poly_add, poly_op2. rewrite !P_ctx, Ecc. reflexivity.
  Qed.
  Theorem pksw_sum_outcomes_all : oracles isp cands -> is_params isp cands par -> forall l s ls shares, pksw_made par l s -> Forall2 (pksw_made par) ls shares ->
    (Forall (eq l) ls -> exists ct, pksw_from_shares (s :: shares) = Val ct /\ some_ct par l 2 ct) /\ (~ Forall (eq l) ls -> pksw_from_shares (s :: shares) = Panic).
  Proof.
    intros Ho Hp l s ls shares Hs HF. pose proof (params_good isp cands par Ho Hp) as G. destruct (pksw_made_P Ho Hp l s Hs) as (lv & c & A & Ep & (bc & xc & Ec) & H0 & H1). cbn [pksw_from_shares].
    destruct (pksw_fold Ho Hp l lv c A ls shares HF _ _ H0 H1) as [(F & z0 & z1 & Ef & (b0 & y0 & ->) & (b1 & y1 & ->))|(F & Ef)]; (split; intros F'; [|try contradiction]); try contradiction.
    - rewrite Ef. cbn [bind]. rewrite Ec, (P_add c (good_ok _ (al_good _ _ _ _ _ _ A)) N (al_deg _ _ _ _ _ _ A)) by discriminate. cbn [bind]. rewrite Ep, (ct_new_P isp cands Ho par G l lv c A). eexists. split; [reflexivity|]. eexists. split; [apply (parts_ct isp cands Ho par G l lv c A None [(_, _); (_, _)])|reflexivity].
    - rewrite Ef. reflexivity.
  Qed.
  (** *** The level of an expansion is that of the last request: asking for no expansion withdraws an earlier request. *)
  Theorem expansion_lost_all : oracles isp cands -> is_params isp cands par -> forall expand derive, expands_well expand -> forall sk, is_sk par sk -> forall l1 l2, (l1 <= max_level par)%nat -> (l2 <= l1)%nat -> forall b0, ekb_new_leveled sk l1 l2 = Val b0 ->
    forall L b1 b2, enable_expansion b0 L = Val b1 -> enable_expansion b1 0 = Val b2 -> forall sds rngs, (forall e, length (sds e) = 32%nat) -> (forall e i, words (rngs e i)) ->
    exists ek, ek_build expand derive b2 sds rngs = Val ek /\ forall e, lookup (ek_gk ek) e = None.
  Proof.
    intros Ho Hp expand derive Hx sk Hsk l1 l2 H1 H2 b0 E0 L b1 b2 E1 E2 sds rngs Ls Hr. destruct (builder_all Ho Hp expand derive Hx sk Hsk l1 l2 H1 H2) as (b0' & E0' & HB). assert (b0' = b0) by congruence. subst b0'. destruct (HB [want_expansion L; want_expansion 0]) as (_ & HB').
    assert (Eb : send_all b0 [want_expansion L; want_expansion 0] = b2) by (unfold send_all; cbn [fold_left send]; rewrite E1, E2; reflexivity). rewrite Eb in HB'. destruct (HB' sds rngs Ls Hr) as (ek & Eek & _ & _ & _ & Hw). exists ek. split; [exact Eek|]. intros e. destruct (lookup (ek_gk ek) e) eqn:El; [|reflexivity]. exfalso.
    assert (W : wanted N [want_expansion L; want_expansion 0] e) by (apply Hw; congruence). destruct W as [(i & [H|[H|[]]] & _)|[([[H|[H|[]]]|[H|[H|[]]]] & _)|[([H|[H|[]]] & _)|(k & Hk & _)]]]; try discriminate. cbn [last_expansion] in Hk. destruct (Z.of_nat 0 <=? Z.log2 (Z.of_nat N)) eqn:E; [lia|]. apply Z.leb_gt in E. pose proof (Z.log2_nonneg (Z.of_nat N)). lia.
  Qed.
End All.
