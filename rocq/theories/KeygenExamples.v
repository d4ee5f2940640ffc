(** Closed examples for property C58. *)
From Verif Require Import Outcome BasicSpec PolySpec ZqModel NttModel CbdModel TranscodeModel RnsModel RnsSpec RqModel RqSpec ParamsModel BfvSpec ParamsProofs BuildProofs PrimeCert ExampleParams ParamsPropLemmas PlainModel CipherModel OpsModel SchemeSpec CipherSpec PlainPropLemmas CipherPropLemmas SerialPropLemmas CipherExamples KeysModel KeysSpec KeyPropLemmas KeyExamples EvalSpec EvalPropLemmas RgswSpec RgswPropLemmas MultPropLemmas WireSpec WirePropLemmas KeySerialPropLemmas.
From Verif Require Import MbfvModel MulExamples WireExamples RgswExamples LinearPropLemmas MulPropLemmas ReachSpec ReachPropLemmas SafeSpec SafeProofs SafePropLemmas PlainProofs CipherProofs EncryptProofs KeySwitchProofs KeyNoiseProofs WireOpsProofs SafeExamples MbfvExamples RingRn RnPoly EvalSpec KeygenSpec KeygenPropLemmas.

(** Relinearization keys of five pairs of levels; requests to a builder; shares of public keys with common random polynomials
    of both levels, and the sum of shares with different ones; generators with too few polynomials, with enough of them, and
    with one of the second level; round 2 and the sum of its shares. *)
Definition keygen_ex : M (list Z) :=
  par <- par_ex ;; sk <- sk_random par rng_ex ;;
  b <- ekb_new sk ;;
  let relin l1 l2 := outcome (relin_new expand_ex derive_ex sk l1 l2 sd_ex rngs_ex) in
  a0 <- crp_new par (rows_ex 0 (pa_moduli par)) ;; a1 <- crp_new par (rows_ex 1 (pa_moduli par)) ;;
  low <- crp_new_leveled par 1 (rows_ex 2 (level_moduli (pa_moduli par) 1)) ;;
  s0 <- pk_share_new sk a0 rng_ex ;; s1 <- pk_share_new sk a1 rng_ex ;;
  g <- gen_new sk [a0; a1] rng_ex ;; g' <- gen_new sk [a1; a0] rng_ex ;; bad <- gen_new sk [a0; low] rng_ex ;;
  r <- gen_round1 g rngs_ex rngs_ex ;; r' <- gen_round1 g' rngs_ex rngs_ex ;; t <- r1_from_shares [r; r'] ;;
  z <- gen_round2 g t rngs_ex rngs_ex ;; z' <- gen_round2 bad r rngs_ex rngs_ex ;;
  Val [relin 0%nat 0%nat; relin 1%nat 0%nat; relin 0%nat 1%nat; relin 0%nat 2%nat; relin 2%nat 0%nat;
       outcome (send b (want_columns 1)); outcome (send b (want_columns 4)); outcome (send b (want_expansion 3)); outcome (send b (want_expansion 4));
       outcome (pk_share_new sk low rng_ex); outcome (pk_from_shares [s0; s1]);
       outcome (gen_new sk [a0] rng_ex); outcome (gen_round1 bad rngs_ex rngs_ex); outcome (relin_from_shares [z; z'])].
(** How many automorphisms a key holds after expansions of levels 2 and then 0 were asked for. *)
Definition lost_ex : M (Z * Z) :=
  par <- par_ex ;; sk <- sk_random par rng_ex ;; b <- ekb_new sk ;;
  b1 <- enable_expansion b 2 ;; b2 <- enable_expansion b1 0 ;;
  k1 <- ek_build expand_ex derive_ex b1 (fun _ => sd_ex) (fun _ => rngs_ex) ;; k2 <- ek_build expand_ex derive_ex b2 (fun _ => sd_ex) (fun _ => rngs_ex) ;;
  Val (len (ek_gk k1), len (ek_gk k2)).

(** The hypotheses of the theorems hold together. *)
Lemma keygen_hypotheses_ex : exists par, is_params isp_bfv cands_bfv par /\ supported par /\ expands_well expand_ex /\ max_level par = 1%nat /\ length (pa_moduli par) = 2%nat /\ length sd_ex = 32%nat /\ words rng_ex /\ (forall i, words (rngs_ex i)) /\
  exists sk, is_sk par sk /\ (exists pt m, is_pt par 0 pt m) /\
  (exists crp low, top_crp par crp /\ some_crp par low /\ ~ top_crp par low /\ (exists s, pks_crp s = crp /\ pk_share_made par s) /\
     (exists g, gen_crp g = [crp; low] /\ generator par g) /\ (exists g, gen_crp g = [crp; crp] /\ generator par g)) /\
  (exists s, round1_made par s) /\ (exists tot, round1_total par tot) /\ (exists s, round2_made par s) /\ (exists s s', pksw_made par 0 s /\ pksw_made par 1 s').
Proof.
  destruct params_exist_all as (par & E & Hp & H1 & H2 & H3 & H4 & _). exists par. split; [exact Hp|]. pose proof (params_good _ _ par oracles_bfv Hp) as G.
  assert (Hsup : supported par) by (unfold supported; rewrite H1; split; vm_compute; (reflexivity || discriminate)). split; [exact Hsup|]. split; [exact expand_ex_ok|].
  assert (Hmax : max_level par = 1%nat) by (destruct (gp_levels _ _ _ G) as (? & ? & Hll & _); unfold max_level; rewrite Hll, H1; reflexivity). split; [exact Hmax|].
  assert (L2 : length (pa_moduli par) = 2%nat) by (rewrite H1; reflexivity). split; [exact L2|]. split; [reflexivity|]. split; [exact rng_ex_ok|]. split; [exact rngs_ex_ok|].
  assert (HtQ : pa_t par <= level_modulus par 0) by (unfold level_modulus; rewrite H1, H2; vm_compute; discriminate).
  destruct (sk_random_all isp_bfv cands_bfv par oracles_bfv Hp rng_ex rng_ex_ok) as (sk & Es & Hsk & _ & _). exists sk. split; [exact Hsk|].
  assert (Hus : usable par (mkEnc EncPoly 0)) by (intros HU; discriminate HU).
  destruct (proj1 (proj2 (encoded_all isp_bfv cands_bfv par oracles_bfv Hp 0 (Nat.le_0_l _) HtQ (mkEnc EncPoly 0) [] eq_refl Hus (Nat.le_0_l _))) (Forall_nil _)) as (pt & m & _ & Hpt & Hm & _). split; [exists pt, m; exact Hpt|].
  destruct (at_level_ex isp_bfv cands_bfv par 0 oracles_bfv G ltac:(lia)) as (lv & c & A). destruct (at_level_ex isp_bfv cands_bfv par 1 oracles_bfv G ltac:(lia)) as (lv' & c' & A').
  set (crp := P Ntt c false (r0 (pa_degree par))). set (low := P Ntt c' false (r0 (pa_degree par))).
  assert (Hcrp : is_poly par 0 crp (rl (r0 (pa_degree par)))) by apply (P_is_poly isp_bfv cands_bfv oracles_bfv par G 0 lv c A). assert (Hlow : is_poly par 1 low (rl (r0 (pa_degree par)))) by apply (P_is_poly isp_bfv cands_bfv oracles_bfv par G 1 lv' c' A').
  assert (Tc : top_crp par crp) by (eexists; exact Hcrp). assert (Sc : some_crp par crp) by (eexists 0%nat, _; split; [lia|exact Hcrp]). assert (Sl : some_crp par low) by (eexists 1%nat, _; split; [lia|exact Hlow]).
  assert (Nl : ~ top_crp par low). { intros (a & Ha & _). destruct Hlow as (Hl & _). unfold low in Ha. rewrite P_ctx in Ha. rewrite (al_par_context isp_bfv cands_bfv par 0 lv c A) in Ha. apply KeygenPropLemmas.val_inj in Ha. pose proof (al_moduli_length isp_bfv cands_bfv par 0 lv c A) as M0. pose proof (al_moduli_length isp_bfv cands_bfv par 1 lv' c' A') as M1. rewrite Ha in M0. lia. }
  assert (HG : forall a b, some_crp par a -> some_crp par b -> exists g, gen_crp g = [a; b] /\ generator par g).
  { intros a b Ha Hb. assert (HF : Forall (some_crp par) [a; b]) by (apply Forall_cons; [exact Ha|]; apply Forall_cons; [exact Hb|]; apply Forall_nil). destruct (proj2 (proj2 (generator_outcomes_all isp_bfv cands_bfv par oracles_bfv Hp sk [a; b] rng_ex Hsk HF rng_ex_ok))) as (g & Eg & _ & Ec); [rewrite L2; discriminate|symmetry; exact L2|].
    exists g. split; [exact Ec|]. exists sk, [a; b], rng_ex. split; [exact Hsk|]. split; [exact HF|]. split; [exact rng_ex_ok|exact Eg]. }
  destruct (HG crp crp Sc Sc) as (g & Egc & Hg).
  split. { exists crp, low. split; [exact Tc|]. split; [exact Sl|]. split; [exact Nl|]. split; [|split; [apply HG; assumption|exists g; split; assumption]].
    destruct (proj1 (pk_share_outcomes_all isp_bfv cands_bfv par oracles_bfv Hp sk crp rng_ex Hsk Sc rng_ex_ok) Tc) as (s & Ek & Ec). exists s. split; [exact Ec|]. exists sk, crp, rng_ex. split; [exact Hsk|]. split; [exact Sc|]. split; [exact rng_ex_ok|exact Ek]. }
  assert (Hr1 : exists s, round1_made par s). { destruct (proj1 (round1_outcomes_all isp_bfv cands_bfv par oracles_bfv Hp g rngs_ex rngs_ex Hg rngs_ex_ok rngs_ex_ok)) as (s & Er); [rewrite Egc; apply Forall_cons; [exact Tc|]; apply Forall_cons; [exact Tc|]; apply Forall_nil|]. exists s, g, rngs_ex, rngs_ex. split; [exact Hg|]. split; [exact rngs_ex_ok|]. split; [exact rngs_ex_ok|exact Er]. }
  split; [exact Hr1|]. destruct Hr1 as (s & Hs). destruct (round2_outcomes_all isp_bfv cands_bfv par oracles_bfv Hp) as (HT & H22). assert (Hts : exists t, round1_total par t). { assert (HF : Forall (round1_made par) [s]) by (apply Forall_cons; [exact Hs|apply Forall_nil]). destruct (HT s [] HF) as (t & Et). exists t, [s]. split; [exact HF|exact Et]. }
  split; [exact Hts|]. destruct Hts as (t & Ht). split. { destruct (H22 g t rngs_ex rngs_ex Hg Ht rngs_ex_ok rngs_ex_ok) as (s2 & E2 & _). exists s2, g, t, rngs_ex, rngs_ex. split; [exact Hg|]. split; [exact Ht|]. split; [exact rngs_ex_ok|]. split; [exact rngs_ex_ok|exact E2]. }
  destruct (pk_new_all isp_bfv cands_bfv par oracles_bfv Hp expand_ex sk sd_ex rng_ex expand_ex_ok rng_ex_ok Hsk) as (pk & _ & (Hpp & Hp2 & ys & ee & Hpc & _) & _).
  assert (Hpk : pk_shape par pk) by (split; [exact Hpp|]; exists 2%nat; split; [lia|]; exists ys; split; [exact Hpc|]; destruct Hpc as (_ & _ & F); apply Forall2_len2 in F; lia).
  destruct (sk_encrypt_all isp_bfv cands_bfv par oracles_bfv Hp 0 (Nat.le_0_l _) expand_ex sk sd_ex rng_ex pt m expand_ex_ok rng_ex_ok Hsk Hpt Hm HtQ) as (a & Ea & (xs & e & Hct & _) & Es' & La).
  destruct (switch_down_all isp_bfv cands_bfv par oracles_bfv Hp 0 ltac:(lia) a xs Hct) as (b & Eb & _ & Hb).
  assert (Lb : length (ct_c b) = 2%nat) by (destruct Hct as (_ & _ & F); apply Forall2_len2 in F; destruct Hb as (_ & _ & Fb); apply Forall2_len2 in Fb; rewrite map_length in Fb; lia).
  assert (HW : forall l ct zs, (l <= 1)%nat -> is_ct par l ct zs -> length (ct_c ct) = 2%nat -> exists s, pksw_made par l s).
  { intros l ct zs Hl Hz Lz. assert (Ha : any_ct par ct) by (exists l, (length zs); split; [lia|]; exists zs; split; [exact Hz|reflexivity]). destruct (pksw_new sk pk ct rng_ex rng_ex rng_ex) as [s0|err|] eqn:Ep.
    - exists s0, sk, pk, ct, rng_ex, rng_ex, rng_ex. split; [exact Hsk|]. split; [exact Hpk|]. split; [exact Ha|]. split; [exact (proj1 (proj2 Hz))|]. repeat (split; [exact rng_ex_ok|]). exact Ep.
    - exfalso. exact (proj2 (SafeOpsProofs.pksw_cases isp_bfv cands_bfv oracles_bfv par G Hp sk pk ct rng_ex rng_ex rng_ex Hsk Hpk rng_ex_ok rng_ex_ok rng_ex_ok (WirePropLemmas.any_some isp_bfv cands_bfv oracles_bfv par G ct Ha)) err Ep).
    - exfalso. apply (proj1 (SafeOpsProofs.pksw_cases isp_bfv cands_bfv oracles_bfv par G Hp sk pk ct rng_ex rng_ex rng_ex Hsk Hpk rng_ex_ok rng_ex_ok rng_ex_ok (WirePropLemmas.any_some isp_bfv cands_bfv oracles_bfv par G ct Ha))) in Ep. lia. }
  destruct (HW 0%nat a xs ltac:(lia) Hct La) as (w0 & Hw0). destruct (HW 1%nat b _ ltac:(lia) Hb Lb) as (w1 & Hw1). exists w0, w1. split; assumption.
Qed.
Lemma keygen_run_ex : keygen_ex = Val [0; 0; 1; 1; 1; 0; 1; 0; 1; 2; 0; 1; 2; 0].
Proof. vm_compute. reflexivity. Qed.
Lemma lost_run_ex : lost_ex = Val (2, 0).
Proof. vm_compute. reflexivity. Qed.
