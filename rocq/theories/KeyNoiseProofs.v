(** The noise of key switching: division by several moduli, digits, and the two kinds of keys together. *)
From Verif Require Import Outcome BasicSpec OutcomeLemmas ZqModel ZqProofs NumTheory NttModel PolySpec PolyRing NttPure NttStages NttProofs CbdModel CbdSpec CbdProofs.
From Verif Require Import TranscodeModel PrimesModel RnsModel RnsSpec RnsProofs RqModel RqSpec RqCtx RqRows RqProofs RingRn RqOps RqIO ParamsModel BfvSpec ParamsProofs BuildProofs PlainModel CipherModel OpsModel SchemeSpec CipherSpec PlainProofs RnPoly CipherProofs EncryptProofs KeysModel KeysSpec KeysProofs KeySwitchProofs.
From Coq Require Import Znumtheory.
Set Default Proof Using "Type".

Lemma prod_list_rev l : prod_list (rev l) = prod_list l.
Proof. induction l as [|a l IH]; [reflexivity|]. cbn [rev]. rewrite prod_list_app, IH. cbn [prod_list]. ring. Qed.
Lemma prod_pos2 l : Forall (fun q => 2 <= q) l -> 0 < prod_list l.
Proof. induction 1; cbn [prod_list]; nia. Qed.
Section Ring.
  Context {N : nat}.
  Add Ring Rn_noise : (Rn_ring N).
  Implicit Types x y s : Rn N.
  Local Open Scope rn_scope.
  Lemma rchain_cons q qs x : rchain (q :: qs) x = rchain qs (rround q x).
  Proof. apply rn_ext. intros k Hk. reflexivity. Qed.
  Lemma rchain_nil x : rchain [] x = x.
  Proof. apply rn_ext. intros k Hk. reflexivity. Qed.
  Lemma rchain_phase s qs : Forall (fun q => 2 <= q) qs -> forall xs, exists r, rnorm r <= geometric (rnorm1 s) (length xs) * (prod_list qs - 1) /\ rZ N (prod_list qs) * rphase s (map (rchain qs) xs) = rphase s xs - r.
  Proof.
    induction 1 as [|q qs Hq Hqs IH]; intros xs.
    - exists (r0 N). cbn [prod_list]. split; [rewrite rnorm_0; lia|]. rewrite (map_ext _ (fun x => x) rchain_nil), map_id. rewrite rZ_1. ring.
    - rewrite (map_ext _ (fun x => rchain qs (rround q x)) (rchain_cons q qs)), <- (map_map (rround q) (rchain qs)). destruct (IH (map (rround q) xs)) as (r' & Hr' & E'). destruct (rphase_round s q xs ltac:(lia)) as (r & Hr & E). rewrite map_length in Hr'.
      exists (r + rZ N q * r'). split.
      + pose proof (rnorm_add _ r (rZ N q * r')) as H. rewrite rnorm_scale_eq in H by lia. cbn [prod_list]. pose proof (geometric_nonneg (rnorm1 s) (length xs) (rnorm1_nonneg s)). pose proof (prod_pos2 qs Hqs). set (g := geometric _ _) in *. set (p := prod_list qs) in *.
        assert (q * rnorm r' <= q * (g * (p - 1))) by (apply Z.mul_le_mono_nonneg_l; lia). nia.
      + cbn [prod_list]. rewrite rZ_mul. replace (rZ N q * rZ N (prod_list qs) * rphase s (map (rchain qs) (map (rround q) xs))) with (rZ N q * (rZ N (prod_list qs) * rphase s (map (rchain qs) (map (rround q) xs)))) by ring. rewrite E'. replace (rZ N q * (rphase s (map (rround q) xs) - r')) with (rZ N q * rphase s (map (rround q) xs) - rZ N q * r') by ring. rewrite E. ring.
  Qed.
End Ring.

Lemma log_modulus_eq q : 1 <= q < W62 -> log_modulus q = Val (Z.log2_up q).
Proof.
  intros Hq. unfold log_modulus. apply chk_val. split; [apply Z.log2_up_nonneg|]. assert (Z.log2_up q <= Z.log2_up W62) by (apply Z.log2_up_le_mono; lia). change (Z.log2_up W62) with 62 in H. lia.
Qed.
Lemma div_ceilM_eq a b : 0 < b -> div_ceilM a b = Val ((a + b - 1) / b).
Proof. intros Hb. unfold div_ceilM. replace (b =? 0) with false by (symmetry; apply Z.eqb_neq; lia). reflexivity. Qed.
Lemma digit_room q b : 1 <= q -> 0 < b -> 0 <= digit_count q b /\ q <= 2 ^ (Z.of_nat (Z.to_nat (digit_count q b)) * b).
Proof.
  intros Hq Hb. pose proof (Z.log2_up_nonneg q) as Hl. unfold digit_count. assert (H0 : 0 <= (Z.log2_up q + b - 1) / b) by (apply Z.div_pos; lia). split; [exact H0|]. rewrite Z2Nat.id by exact H0.
  pose proof (Z.mod_pos_bound (Z.log2_up q + b - 1) b Hb). pose proof (Z.div_mod (Z.log2_up q + b - 1) b ltac:(lia)).
  destruct (Z.eq_dec q 1) as [->|Hn]; [assert (0 < 2 ^ ((Z.log2_up 1 + b - 1) / b * b)) by (apply Z.pow_pos_nonneg; nia); lia|].
  pose proof (Z.log2_up_spec q ltac:(lia)) as (_ & Hu). eapply Z.le_trans; [exact Hu|]. apply Z.pow_le_mono_r; nia.
Qed.
(** The base chosen for a modulus of at least 5 bits, and the number of digits. *)
Lemma base_facts q : 16 < q < W62 -> let b := Z.log2_up q / 2 in 2 <= b < 64 /\ 2 <= digit_count q b <= 3 /\ (digit_count q b - 1) * b < 64.
Proof.
  intros Hq b. assert (H1 : 5 <= Z.log2_up q). { change 5 with (Z.log2_up 17). apply Z.log2_up_le_mono. lia. } assert (H2 : Z.log2_up q <= 62). { change 62 with (Z.log2_up W62). apply Z.log2_up_le_mono. lia. }
  subst b. unfold digit_count. set (n := Z.log2_up q) in *. clearbody n. clear q Hq. pose proof (Z.div_mod n 2 ltac:(lia)). pose proof (Z.mod_pos_bound n 2 ltac:(lia)). set (b := n / 2) in *.
  split; [lia|]. assert (n mod 2 = 0 \/ n mod 2 = 1) as [E|E] by lia; rewrite E in *.
  - assert (Ed : (n + b - 1) / b = 2) by (symmetry; apply Z.div_unique with (b - 1); lia). rewrite Ed. lia.
  - assert (Ed : (n + b - 1) / b = 3) by (symmetry; apply Z.div_unique with 0; lia). rewrite Ed. lia.
Qed.

Section Two.
  Context (isp : Z -> bool) (cands : Z -> list Z) (Ho : oracles isp cands) (par : params) (G : good_params isp cands par).
  Context (l1 : nat) (lv1 : level_ctx) (c1 : ctx) (A1 : at_level isp cands par l1 lv1 c1).
  Context (l2 : nat) (lv2 : level_ctx) (c2 : ctx) (A2 : at_level isp cands par l2 lv2 c2).
  Notation N := (pa_degree par).
  Notation qs1 := (level_moduli (pa_moduli par) l1).
  Notation qs2 := (level_moduli (pa_moduli par) l2).
  Notation Q1 := (prod_list qs1).
  Notation Q2 := (prod_list qs2).
  Add Ring Rn_two2 : (Rn_ring N).
  Set Default Proof Using "All".
  Local Lemma Hc1 : ctx_ok c1. Proof. exact (good_ok _ (al_good _ _ _ _ _ _ A1)). Qed.
  Local Lemma Hc2 : ctx_ok c2. Proof. exact (good_ok _ (al_good _ _ _ _ _ _ A2)). Qed.
  Local Lemma Hd1 : c_degree c1 = N. Proof. exact (al_deg _ _ _ _ _ _ A1). Qed.
  Local Lemma Hd2 : c_degree c2 = N. Proof. exact (al_deg _ _ _ _ _ _ A2). Qed.
  Local Lemma Hm1 : c_moduli c1 = qs1. Proof. exact (al_mod _ _ _ _ _ _ A1). Qed.
  Local Lemma Hm2 : c_moduli c2 = qs2. Proof. exact (al_mod _ _ _ _ _ _ A2). Qed.
  Local Lemma HQ1 : 0 < Q1. Proof. exact (Qpos isp cands Ho par G l1 lv1 c1 A1). Qed.
  Local Lemma HQ2 : 0 < Q2. Proof. exact (Qpos isp cands Ho par G l2 lv2 c2 A2). Qed.
  Local Lemma Hmo2 : modulus_of c2 = Q2. Proof. unfold modulus_of. rewrite Hm2. reflexivity. Qed.

  (** *** Keys at the level of a single modulus *)
  Theorem ksk_new_single_P expand derive sk (Hl : length (sk_coeffs sk) = N) vf (f : Rn N) sd rngs q : expands_well expand -> sk_par sk = par -> Forall is_i64 (sk_coeffs sk) -> (forall i, words (rngs i)) -> qs2 = [q] ->
    let b := Z.log2_up q / 2 in let n := Z.to_nat (digit_count q b) in
    exists bs xs, length bs = n /\ length xs = n /\ rkey Q2 (mkR (sk_coeffs sk) Hl) f (2 * pa_variance par) (digit_weights b n) (combine bs xs) /\
      ksk_new expand derive sk (P PowerBasis c2 vf f) l1 l2 sd rngs = Val (mkKsk par (Some sd) (shoups c2 (map (pair true) bs)) (shoups c2 (map (pair true) xs)) l1 c1 l2 c2 b) /\
      generate_c1 expand derive c2 sd n = Val (shoups c2 (map (pair true) xs)).
  Proof.
    intros Hx Esk Hi Hr Eq b n. assert (Hq : 16 < q < W62).
    { assert (F : Forall (ntt_friendly N) qs2) by (apply Forall_firstn, (gp_friendly _ _ _ G)). rewrite Eq in F. destruct (Forall_inv F) as (H1 & H2 & H3). apply prime_ge_2 in H1. pose proof (al_N8 isp cands par l1 lv1 c1 A1).
      assert (Hqm : q = 2 * Z.of_nat N * (q / (2 * Z.of_nat N)) + 1) by (pose proof (Z.div_mod q (2 * Z.of_nat N) ltac:(lia)); lia). set (k := q / (2 * Z.of_nat N)) in *. clearbody k. split; [|exact H2]. assert (0 < k) by nia. assert (8 <= Z.of_nat N) by lia. nia. }
    destruct (base_facts q Hq) as (Hb & Hn & He). fold b in Hb, Hn, He. destruct (generate_c1_P c2 Hc2 N Hd2 expand derive sd n Hx) as (xs & Lx & Ex). pose proof (var_good isp cands par l2 lv2 c2 Ho G A2) as Hvar.
    destruct (entries_P c2 Hc2 N Hd2 (fun i => bind (chk 0 64 (Z.of_nat i * b)) (fun e => Val (Z.shiftl 1 e))) (pa_variance par) (mkR (sk_coeffs sk) Hl) f false vf rngs Hr Hvar xs 0%nat (digit_weights b n)) as (bs & Lb & K & E).
    { unfold digit_weights. rewrite map_length, seq_length. congruence. }
    { intros j Hj. rewrite chk_val.
      - cbn [bind]. rewrite Z.shiftl_1_l. unfold digit_weights. rewrite (map_nth_lt _ _ j 0%nat) by (rewrite seq_length; congruence). rewrite seq_nth by congruence. reflexivity.
      - assert (Hj' : Z.of_nat j <= digit_count q b - 1) by (unfold n in Lx; lia). rewrite Nat.add_0_l. split; [apply Z.mul_nonneg_nonneg; lia|]. assert (Z.of_nat j * b <= (digit_count q b - 1) * b) by (apply Z.mul_le_mono_nonneg_r; lia). lia. }
    exists bs, xs. split; [congruence|]. split; [exact Lx|]. split; [rewrite <- Hmo2; exact K|]. split; [|exact Ex].
    unfold ksk_new. rewrite Esk, (al_par_context isp cands par l2 lv2 c2 A2), (al_par_context isp cands par l1 lv1 c1 A1). cbn [bind]. rewrite P_ctx, ctx_eqb_refl. cbn [negb]. rewrite Hm2, Eq.
    rewrite log_modulus_eq by lia. cbn [bind]. fold b. rewrite div_ceilM_eq by lia. cbn [bind]. change ((Z.log2_up q + b - 1) / b) with (digit_count q b). fold n. rewrite Ex. cbn [bind].
    unfold generate_c0_decomposition. destruct xs as [|a xs]; [cbn [length] in Lx; lia|]. cbn [map shoups]. rewrite P_ctx. rewrite (sk_poly_eq isp cands Ho par G l2 lv2 c2 A2 sk Hl Hi). cbn [bind fst snd]. unfold enumerate. rewrite Esk.
    assert (Els : length (P NttShoup c2 true a :: map (fun vx : bool * Rn N => P NttShoup c2 (fst vx) (snd vx)) (map (pair true) xs)) = length (a :: xs)) by (cbn [length]; rewrite !map_length; reflexivity).
    rewrite Els. cbn [map shoups fst snd] in E. match type of E with mapM ?F ?L = Val ?R => assert (E' : forall F', (forall x, F' x = F x) -> mapM F' L = Val R) by (intros F' HF; rewrite (mapM_ext F' F L) by (intros; apply HF); exact E) end.
    rewrite E'; [reflexivity|]. intros (i & p). cbn [fst snd]. destruct (chk 0 64 (Z.of_nat i * b)); reflexivity.
  Qed.

  (** *** Keys of both kinds *)
  Definition kskR (lb : Z) (k : ksk) (s f : Rn N) (B : Z) : Prop :=
    exists sd (b0 b1 : list (bool * Rn N)) gs, k = mkKsk par sd (shoups c2 b0) (shoups c2 b1) l1 c1 l2 c2 lb /\ (lb = 0 \/ l1 = l2) /\ gadget qs1 lb gs /\ length b0 = length gs /\ length b1 = length gs /\
      rkey Q2 s f B gs (combine (map snd b0) (map snd b1)).
  Lemma digits_norm q b n (x : Rn N) : 0 < b -> rnorms (map (fun i => rdigit b i (rred q x)) (seq 0 n)) <= Z.of_nat n * (2 ^ b - 1).
  Proof.
    intros Hb. assert (Hp : 0 < 2 ^ b) by (apply Z.pow_pos_nonneg; lia). generalize 0%nat as j. induction n as [|n IH]; intros j; cbn [seq map rnorms fold_right]; [lia|]. fold (rnorms (map (fun i => rdigit b i (rred q x)) (seq (S j) n))). specialize (IH (S j)).
    assert (rnorm (rdigit b j (rred q x)) <= 2 ^ b - 1). { apply canonical_norm; [lia|]. unfold rdigit. rewrite rl_mkR. apply Forall_forall. intros a Ha. apply in_map_iff in Ha. destruct Ha as (z & <- & _). apply Z.mod_pos_bound. lia. }
    rewrite Nat2Z.inj_succ. lia.
  Qed.
  Theorem kskR_switch lb k s f B : 0 <= B -> kskR lb k s f B -> forall v (x : Rn N), exists u0 u1 w e,
    (exists w0 w1, key_switch k (P PowerBasis c1 v x) = Val (P Ntt c2 w0 u0, P Ntt c2 w1 u1)) /\
    (forall p0 p1, any_acc par c2 p0 -> any_acc par c2 p1 -> exists w0 w1, key_switch_assign k (P PowerBasis c1 v x) p0 p1 = Val (P Ntt c2 w0 u0, P Ntt c2 w1 u1)) /\
    rcong Q1 w x /\ rnorm e <= switch_noise par l1 lb B /\ rcong Q2 (u0 + s * u1)%R (w * f + e)%R.
  Proof.
    intros HB (sd & b0 & b1 & gs & -> & Hlev & Hg & L0 & L1 & K) v x. destruct Hg as [(-> & W)|(Hb & q & Eq & ->)].
    - pose proof (proj1 W) as Lg. rewrite Lg in L0, L1. destruct (key_switch_P isp cands Ho par G l1 lv1 c1 A1 l2 lv2 c2 A2 sd b0 b1 v x L0 L1) as (w0 & w1 & E).
      destruct (switch_phase isp cands Ho par G l1 lv1 c1 A1 l2 lv2 c2 A2 s f B gs (map snd b0) (map snd b1) x HB W ltac:(rewrite map_length; exact L0) ltac:(rewrite map_length; exact L1) K) as (w & e & Hw & He & Hc).
      exists (rdot (residues par l1 x) (map snd b0)), (rdot (residues par l1 x) (map snd b1)), w, e. split; [eauto|]. split; [|split; [exact Hw|split; [exact He|exact Hc]]].
      intros p0 p1 H0 H1. exact (key_switch_assign_P isp cands Ho par G l1 lv1 c1 A1 l2 lv2 c2 A2 sd b0 b1 v x p0 p1 L0 L1 H0 H1).
    - destruct Hlev as [->|El]; [lia|]. pose proof A2 as A2'. rewrite <- El in A2'. destruct (at_level_unique _ _ _ _ _ _ _ _ A2' A1) as (_ & Ec).
      assert (Hq : 2 <= q < W62). { pose proof (level_range isp cands Ho par G l1 lv1 c1 A1) as R. rewrite Eq in R. exact (Forall_inv R). }
      destruct (digit_room q lb ltac:(lia) ltac:(lia)) as (Hn0 & Hroom). set (n := Z.to_nat (digit_count q lb)) in *. assert (Ln : length (digit_weights lb n) = n) by (unfold digit_weights; rewrite map_length, seq_length; reflexivity). rewrite Ln in L0, L1.
      set (ds := map (fun i => rdigit lb i (rred q x)) (seq 0 n)). assert (Ld : length ds = n) by (unfold ds; rewrite map_length, seq_length; reflexivity).
      pose proof (rred_canonical q x ltac:(lia)) as Hcan. assert (Hpow : 2 ^ lb <= 2 ^ 63) by (apply Z.pow_le_mono_r; lia).
      assert (Hu : Forall (fun d : Rn N => Forall is_u64 (rl d)) ds).
      { apply Forall_forall. intros d Hd. apply in_map_iff in Hd. destruct Hd as (i & <- & _). unfold rdigit. rewrite rl_mkR. apply Forall_forall. intros a Ha. apply in_map_iff in Ha. destruct Ha as (z & <- & _). pose proof (Z.mod_pos_bound (z / 2 ^ (Z.of_nat i * lb)) (2 ^ lb) ltac:(apply Z.pow_pos_nonneg; lia)). unfold is_u64. lia. }
      assert (Edec : exists w0 w1, key_switch_decomposition (mkKsk par sd (shoups c2 b0) (shoups c2 b1) l1 c1 l2 c2 lb) (P PowerBasis c1 v x) = Val (P Ntt c2 w0 (rdot ds (map snd b0)), P Ntt c2 w1 (rdot ds (map snd b1)))).
      { set (k := mkKsk _ _ _ _ _ _ _ _ _). unfold key_switch_decomposition. subst k. cbn [k_ct_ctx k_ctx k_c0 k_c1 k_log_base]. rewrite P_ctx, ctx_eqb_refl. cbn [negb]. rewrite Hm1, Eq. cbn [nth_error unwrap bind]. rewrite log_modulus_eq by lia. cbn [bind]. rewrite chk_val by lia. cbn [bind]. rewrite div_ceilM_eq by lia. cbn [bind].
        change ((Z.log2_up q + lb - 1) / lb) with (digit_count q lb). fold n. rewrite (coeffs_residues isp cands Ho par G l1 lv1 c1 A1 l2 lv2 c2 A2). unfold residues. rewrite Eq. cbn [map concat]. rewrite app_nil_r. rewrite digits_eq; [|lia|eapply Forall_impl; [|exact Hcan]; cbv beta; intros; lia]. fold ds.
        rewrite (P_zero c2 Hc2 N Hd2), (set_vt_P isp cands Ho par G l1 lv1 c1 A1 l2 lv2 c2 A2). set (vt := ksk_permits _ _).
        destruct (ks_loop_P c2 Hc2 N Hd2 ds b0 b1 vt vt (r0 N) (r0 N) ltac:(congruence) ltac:(congruence) Hu) as (w0 & w1 & E). exists w0, w1. rewrite E. do 2 f_equal; f_equal; ring. }
      pose proof (map_length snd b0) as M0. pose proof (map_length snd b1) as M1.
      destruct (rkey_dot Q2 s f B _ _ HQ2 HB K ds ltac:(rewrite combine_length; lia)) as (E & HE & HC). rewrite map_combine_fst, map_combine_snd in HC by congruence.
      assert (Erec : rdot ds (map (rZ N) (digit_weights lb n)) = rred q x). { apply digit_recombine; [lia|]. eapply Forall_impl; [|exact Hcan]. cbv beta. intros; lia. } rewrite Erec in HC.
      exists (rdot ds (map snd b0)), (rdot ds (map snd b1)), (rred q x), E.
      assert (Elb : negb (lb =? 0) = true) by (apply negb_true_iff, Z.eqb_neq; lia).
      split; [unfold key_switch; cbn [k_log_base]; rewrite Elb; exact Edec|]. split; [intros p0 p1 _ _; unfold key_switch_assign; cbn [k_log_base]; rewrite Elb; exact Edec|].
      split; [rewrite Eq; cbn [prod_list]; rewrite Z.mul_1_r; apply rred_cong; lia|]. split; [|exact HC]. eapply Z.le_trans; [exact HE|]. unfold switch_noise, largest_digits. rewrite Eq. cbn [hd]. replace (lb =? 0) with false by (symmetry; apply Z.eqb_neq; lia).
      apply Z.mul_le_mono_nonneg_l; [apply Z.mul_nonneg_nonneg; lia|]. pose proof (digits_norm q lb n x ltac:(lia)) as Hdn. fold ds in Hdn. unfold n in Hdn. rewrite Z2Nat.id in Hdn by exact Hn0. exact Hdn.
  Qed.
  (** Both constructions. *)
  Theorem ksk_new_R expand derive sk (Hl : length (sk_coeffs sk) = N) vf (f : Rn N) sd rngs : expands_well expand -> sk_par sk = par -> Forall is_i64 (sk_coeffs sk) -> (forall i, words (rngs i)) -> (length qs2 = 1%nat -> l1 = l2) ->
    exists k, ksk_new expand derive sk (P PowerBasis c2 vf f) l1 l2 sd rngs = Val k /\ kskR (key_base par l2) k (mkR (sk_coeffs sk) Hl) f (2 * pa_variance par).
  Proof.
    intros Hx Esk Hi Hr Hlev. assert (Hmm : forall xs : list (Rn N), map snd (map (pair true) xs) = xs) by (intros xs; rewrite map_map; apply map_id).
    destruct (Nat.eq_dec (length qs2) 1) as [E|E].
    - specialize (Hlev E). destruct qs2 as [|q [|q' qs]] eqn:Eq; try discriminate. destruct (ksk_new_single_P expand derive sk Hl vf f sd rngs q Hx Esk Hi Hr Eq) as (bs & xs & Lb & Lx & K & Ek & _). eexists. split; [exact Ek|].
      assert (Eb : key_base par l2 = Z.log2_up q / 2) by (unfold key_base; rewrite Eq; reflexivity). rewrite Eb.
      assert (Hq : 16 < q < W62).
      { assert (F : Forall (ntt_friendly N) qs2) by (apply Forall_firstn, (gp_friendly _ _ _ G)). rewrite Eq in F. destruct (Forall_inv F) as (H1 & H2 & H3). apply prime_ge_2 in H1. pose proof (al_N8 isp cands par l1 lv1 c1 A1).
        assert (Hqm : q = 2 * Z.of_nat N * (q / (2 * Z.of_nat N)) + 1) by (pose proof (Z.div_mod q (2 * Z.of_nat N) ltac:(lia)); lia). set (k := q / (2 * Z.of_nat N)) in *. clearbody k. split; [|exact H2]. assert (0 < k) by nia. assert (8 <= Z.of_nat N) by lia. nia. }
      destruct (base_facts q Hq) as (Hb & Hn & He).
      exists (Some sd), (map (pair true) bs), (map (pair true) xs), (digit_weights (Z.log2_up q / 2) (Z.to_nat (digit_count q (Z.log2_up q / 2)))). split; [reflexivity|]. split; [right; exact Hlev|].
      assert (Lw : length (digit_weights (Z.log2_up q / 2) (Z.to_nat (digit_count q (Z.log2_up q / 2)))) = Z.to_nat (digit_count q (Z.log2_up q / 2))) by (unfold digit_weights; rewrite map_length, seq_length; reflexivity).
      split; [right; split; [lia|]; exists q; split; [rewrite Hlev; exact Eq|reflexivity]|]. rewrite !map_length, Lw, !Hmm. split; [exact Lb|]. split; [exact Lx|]. rewrite Eq in K |- *. exact K.
    - destruct (ksk_new_P isp cands Ho par G l1 lv1 c1 A1 l2 lv2 c2 A2 expand derive sk Hl vf f sd rngs Hx Esk Hi Hr E) as (bs & xs & gs & Lb & Lx & W & K & Ek & _). eexists. split; [exact Ek|].
      assert (Eb : key_base par l2 = 0) by (unfold key_base; destruct qs2 as [|q [|q' qs]]; [reflexivity|exfalso; apply E; reflexivity|reflexivity]). rewrite Eb.
      exists (Some sd), (map (pair true) bs), (map (pair true) xs), gs. split; [reflexivity|]. split; [left; reflexivity|]. split; [left; split; [reflexivity|exact W]|]. rewrite !map_length, (proj1 W), !Hmm. auto.
  Qed.
  (** *** Bringing the pair back to the level of the ciphertext *)
  Hypothesis Hle : (l2 <= l1)%nat.
  Notation Pz := (level_ratio par l1 l2).
  Theorem back_phase (s u0 u1 y E : Rn N) B : rnorm E <= B -> rcong Q2 (u0 + s * u1)%R (rZ N Pz * y + E)%R ->
    exists E', rnorm E' <= divided_noise (rnorm1 s) Pz B /\ rcong Q1 (back par l1 l2 u0 + s * back par l1 l2 u1)%R (y + E')%R.
  Proof.
    intros HE HC. assert (HP : 0 < Pz) by exact (Pz_pos isp cands Ho par G l1 lv1 c1 A1 l2 lv2 c2 A2 Hle). assert (HQ : Q2 = Q1 * Pz) by exact (Q_split isp cands Ho par G l1 lv1 c1 A1 l2 lv2 c2 A2 Hle).
    assert (H2 : Forall (fun q => 2 <= q) (rev (extra par l1 l2))).
    { apply Forall_rev. pose proof (level_range isp cands Ho par G l2 lv2 c2 A2) as R. rewrite (prefix_eq isp cands Ho par G l1 lv1 c1 A1 l2 lv2 c2 A2 Hle) in R. apply Forall_app in R. eapply Forall_impl; [|exact (proj2 R)]. cbv beta. intros; lia. }
    assert (Hback : exists r, rnorm r <= (1 + rnorm1 s) * (Pz - 1) /\ (rZ N Pz * (back par l1 l2 u0 + s * back par l1 l2 u1) = u0 + s * u1 - r)%R).
    { unfold back. destruct (Nat.eqb_spec l1 l2) as [El|El].
      - exists (r0 N). assert (EP : Pz = 1). { unfold level_ratio. rewrite El, skipn_all. reflexivity. } rewrite EP, rnorm_0, rZ_1. split; [lia|ring].
      - destruct (rchain_phase s (rev (extra par l1 l2)) H2 [u0; u1]) as (r & Hr & Er). rewrite prod_list_rev in Hr, Er. exists r. split; [|].
        + cbn [length geometric] in Hr. change (level_ratio par l1 l2) with (prod_list (extra par l1 l2)). lia.
        + cbn [map] in Er. rewrite !rphase_2 in Er. exact Er. }
    destruct Hback as (r & Hr & Er). apply rcong_exists in HC; [|apply HQ2]. destruct HC as (k & Hk).
    exists (back par l1 l2 u0 + s * back par l1 l2 u1 - y - rZ N Q1 * k)%R. split.
    - unfold divided_noise. apply Z.div_le_lower_bound; [exact HP|].
      assert (En : (rZ N Pz * (back par l1 l2 u0 + s * back par l1 l2 u1 - y - rZ N Q1 * k) = E - r)%R).
      { replace (rZ N Pz * (back par l1 l2 u0 + s * back par l1 l2 u1 - y - rZ N Q1 * k))%R with (rZ N Pz * (back par l1 l2 u0 + s * back par l1 l2 u1) - rZ N Pz * y - rZ N Q1 * rZ N Pz * k)%R by ring. rewrite Er, <- rZ_mul, <- HQ, Hk, rscale_mul. ring. }
      pose proof (rnorm_scale_eq Pz (back par l1 l2 u0 + s * back par l1 l2 u1 - y - rZ N Q1 * k)%R) as Hn. rewrite En, Z.abs_eq in Hn by lia. rewrite <- Hn. pose proof (rnorm_sub _ E r). lia.
    - apply rcong_exists; [apply HQ1|]. exists k. rewrite rscale_mul. ring.
  Qed.
  (** Switch and bring back, with a key for [Pz * f0]. *)
  Theorem switched lb k (s f0 : Rn N) B : 0 <= B -> kskR lb k s (rZ N Pz * f0)%R B -> forall v (x : Rn N), exists y0 y1 E,
    (exists w0 w1, bind (key_switch k (P PowerBasis c1 v x)) (ks_down c1 c1) = Val (P Ntt c1 w0 y0, P Ntt c1 w1 y1)) /\
    (forall p0 p1, any_acc par c2 p0 -> any_acc par c2 p1 -> exists w0 w1, bind (key_switch_assign k (P PowerBasis c1 v x) p0 p1) (ks_down c1 c1) = Val (P Ntt c1 w0 y0, P Ntt c1 w1 y1)) /\
    rnorm E <= divided_noise (rnorm1 s) Pz (switch_noise par l1 lb B) /\ rcong Q1 (y0 + s * y1)%R (x * f0 + E)%R.
  Proof.
    intros HB HK v x. destruct (kskR_switch lb k s _ B HB HK v x) as (u0 & u1 & w & e & (w0 & w1 & E0) & E1 & Hw & He & Hc).
    assert (HQ : Q2 = Q1 * Pz) by exact (Q_split isp cands Ho par G l1 lv1 c1 A1 l2 lv2 c2 A2 Hle).
    assert (Hc' : rcong Q2 (u0 + s * u1)%R (rZ N Pz * (x * f0) + e)%R).
    { eapply rcong_trans; [exact Hc|]. apply rcong_add; [|apply rcong_refl]. apply rcong_exists in Hw; [|apply HQ1]. destruct Hw as (j & Hj). apply rcong_exists; [apply HQ2|]. exists (j * f0)%R. rewrite Hj, !rscale_mul, HQ, rZ_mul. ring. }
    destruct (back_phase s u0 u1 (x * f0)%R e _ He Hc') as (E' & HE' & HC'). exists (back par l1 l2 u0), (back par l1 l2 u1), E'. split; [|split; [|split; [exact HE'|exact HC']]].
    - rewrite E0. cbn [bind]. exact (ks_down_P isp cands Ho par G l1 lv1 c1 A1 l2 lv2 c2 A2 Hle w0 w1 u0 u1).
    - intros p0 p1 H0 H1. destruct (E1 p0 p1 H0 H1) as (z0 & z1 & Ea). rewrite Ea. cbn [bind]. exact (ks_down_P isp cands Ho par G l1 lv1 c1 A1 l2 lv2 c2 A2 Hle z0 z1 u0 u1).
  Qed.
End Two.
