(** C50: when the operators, which cannot report errors, panic; the default multiplicator; counterexamples. *)
From Verif Require Import Outcome BasicSpec OutcomeLemmas ZqModel ZqProofs NumTheory NttModel PolySpec PolyRing NttPure NttStages NttProofs CbdModel CbdSpec CbdProofs.
From Verif Require Import TranscodeModel PrimesModel RnsModel RnsSpec RnsProofs RqModel RqSpec RqCtx RqRows RqProofs RingRn RqOps RqIO RqPropLemmas ParamsModel BfvSpec ParamsProofs BuildProofs ParamsPropLemmas PlainModel CipherModel OpsModel SchemeSpec CipherSpec PlainProofs RnPoly CipherProofs EncryptProofs CipherPropLemmas LinearPropLemmas SerialPropLemmas MulPropLemmas CtDot DotPropLemmas KeysModel KeysSpec KeysProofs KeySwitchProofs KeyNoiseProofs KeyOpsProofs KeyPropLemmas EvalSpec EvalKeyProofs EvalOpsProofs EvalExpandProofs RgswPropLemmas MbfvModel MbfvProofs WireSpec WireProofs WireKeysProofs WireOpsProofs WirePropLemmas ReachSpec ShapeProofs ReachProofs SafeSpec.
From Verif Require Import MulProofs MulPropLemmas MultProofs MultPropLemmas MbfvProofs SafeProofs.
From Coq Require Import Znumtheory.
Set Default Proof Using "Type".


Section Operators.
  Context (isp : Z -> bool) (cands : Z -> list Z) (Ho : oracles isp cands) (par : params) (G : good_params isp cands par) (Hp : is_params isp cands par).
  Notation N := (pa_degree par).
  Notation shaped := (some_parts isp cands par).
  Set Default Proof Using "All".
  Lemma shaped_par a : shaped a -> ct_par a = par.
  Proof. intros (l & lv & c & vxs & A & ->). reflexivity. Qed.
  Lemma map2M_total f c (vxs : list (bool * Rn N)) : (forall v w (x y : Rn N), exists u z, f (P Ntt c v x) (P Ntt c w y) = Val (P Ntt c u (z : Rn N))) ->
    forall vys : list (bool * Rn N), exists vzs : list (bool * Rn N), map2M f (parts c vxs) (parts c vys) = Val (parts c vzs).
  Proof.
    intros Hf. induction vxs as [|(v & x) vxs IH]; intros [|(w & y) vys]; try (exists []; reflexivity). cbn [parts map map2M combine fst snd]. destruct (Hf v w x y) as (u & z & E). destruct (IH vys) as (vzs & E'). exists ((u, z) :: vzs).
    unfold map2M in *. cbn [combine mapM]. rewrite E. cbn [bind]. fold (parts c vxs) (parts c vys). rewrite E'. reflexivity.
  Qed.
  Lemma add_total l lv c : at_level isp cands par l lv c -> forall v w (x y : Rn N), exists u z, poly_add (P Ntt c v x) (P Ntt c w y) = Val (P Ntt c u (z : Rn N)).
  Proof. intros A v w x y. rewrite (P_add c (good_ok _ (al_good _ _ _ _ _ _ A)) N (al_deg _ _ _ _ _ _ A)) by discriminate. eauto. Qed.
  Lemma sub_total l lv c : at_level isp cands par l lv c -> forall v w (x y : Rn N), exists u z, poly_sub (P Ntt c v x) (P Ntt c w y) = Val (P Ntt c u (z : Rn N)).
  Proof. intros A v w x y. rewrite (P_sub c (good_ok _ (al_good _ _ _ _ _ _ A)) N (al_deg _ _ _ _ _ _ A)) by discriminate. eauto. Qed.
  Lemma neg_total a : shaped a -> exists r, ct_neg a = Val r.
  Proof.
    intros (l & lv & c & vxs & A & ->). unfold ct_neg. cbn [ct_c ct_par ct_level]. assert (E : exists ps, mapM poly_neg (parts c vxs) = Val ps); [|destruct E as (ps & ->); cbn [bind]; eauto].
    induction vxs as [|(v & x) vxs (ps & IH)]; [exists []; reflexivity|]. cbn [parts map mapM fst snd]. rewrite (P_neg c (good_ok _ (al_good _ _ _ _ _ _ A)) N (al_deg _ _ _ _ _ _ A)) by discriminate. cbn [bind]. fold (parts c vxs). rewrite IH. cbn [bind]. eauto.
  Qed.
  Lemma op2_cases f a b : (forall l lv c, at_level isp cands par l lv c -> forall v w (x y : Rn N), exists u z, f (P Ntt c v x) (P Ntt c w y) = Val (P Ntt c u (z : Rn N))) -> shaped a -> shaped b ->
    (mismatch a b /\ ct_op2 f a b = Panic) \/ (~ mismatch a b /\ exists r, ct_op2 f a b = Val r).
  Proof.
    intros Hf Ha Hb. unfold ct_op2, mismatch. destruct (Nat.eqb_spec (ct_level a) (ct_level b)) as [El|Nl]; [|left; split; [auto|reflexivity]]. destruct (Nat.eqb_spec (length (ct_c a)) (length (ct_c b))) as [En|Nn]; [|left; split; [auto|reflexivity]]. right. split; [intros [H|H]; contradiction|]. cbn [guard bind].
    destruct (two_level isp cands Ho par G Hp a b Ha Hb El) as (l & lv & c & vxs & vys & A & -> & ->). cbn [ct_c ct_par ct_level]. destruct (map2M_total f c vxs (Hf l lv c A) vys) as (vzs & ->). cbn [bind]. eauto.
  Qed.
  Lemma empty_spec a : is_empty a = true <-> ct_c a = [].
  Proof. unfold is_empty. rewrite Nat.eqb_eq. destruct (ct_c a); cbn [length]; split; intros; (discriminate || reflexivity || lia). Qed.
  Lemma same_par a b : shaped a -> shaped b -> par_same (ct_par a) (ct_par b) = true.
  Proof. intros Ha Hb. rewrite (shaped_par a Ha), (shaped_par b Hb). unfold par_same. apply Z.eqb_refl. Qed.
  (** Sums and differences of two ciphertexts. *)
  Theorem add_cases a b : shaped a -> shaped b -> (ct_add a b = Panic <-> ct_c a <> [] /\ ct_c b <> [] /\ mismatch a b) /\ (forall e, ct_add a b <> Err e).
  Proof.
    intros Ha Hb. unfold ct_add. rewrite (same_par a b Ha Hb). cbn [guard bind]. pose proof (empty_spec a) as E1. pose proof (empty_spec b) as E2. destruct (is_empty a); [split; [split; [discriminate|intros (H & _); destruct (H (proj1 E1 eq_refl))]|discriminate]|]. destruct (is_empty b); [split; [split; [discriminate|intros (_ & H & _); destruct (H (proj1 E2 eq_refl))]|discriminate]|].
    assert (N1 : ct_c a <> []) by (intros H; apply E1 in H; discriminate). assert (N2 : ct_c b <> []) by (intros H; apply E2 in H; discriminate).
    destruct (op2_cases poly_add a b add_total Ha Hb) as [(Hm & ->)|(Hm & r & ->)]; [split; [split; auto|discriminate]|split; [split; [discriminate|intros (_ & _ & H); contradiction]|discriminate]].
  Qed.
  Theorem sub_cases a b : shaped a -> shaped b -> (ct_sub a b = Panic <-> ct_c a <> [] /\ ct_c b <> [] /\ mismatch a b) /\ (forall e, ct_sub a b <> Err e).
  Proof.
    intros Ha Hb. unfold ct_sub. rewrite (same_par a b Ha Hb). cbn [guard bind]. pose proof (empty_spec a) as E1. pose proof (empty_spec b) as E2. destruct (is_empty a); [destruct (neg_total b Hb) as (r & ->); split; [split; [discriminate|intros (H & _); destruct (H (proj1 E1 eq_refl))]|discriminate]|]. destruct (is_empty b); [split; [split; [discriminate|intros (_ & H & _); destruct (H (proj1 E2 eq_refl))]|discriminate]|].
    assert (N1 : ct_c a <> []) by (intros H; apply E1 in H; discriminate). assert (N2 : ct_c b <> []) by (intros H; apply E2 in H; discriminate).
    destruct (op2_cases poly_sub a b sub_total Ha Hb) as [(Hm & ->)|(Hm & r & ->)]; [split; [split; auto|discriminate]|split; [split; [discriminate|intros (_ & _ & H); contradiction]|discriminate]].
  Qed.
  (** Operations with a plaintext. *)
  Lemma op_pt_cases f a pt : (forall l lv c, at_level isp cands par l lv c -> forall v w (x y : Rn N), exists u z, f (P Ntt c v x) (P Ntt c w y) = Val (P Ntt c u (z : Rn N))) -> shaped a -> usable_pt par pt ->
    (ct_c a = [] \/ pt_level pt <> Val (ct_level a)) /\ ct_op_pt f a pt = Panic \/ ~ (ct_c a = [] \/ pt_level pt <> Val (ct_level a)) /\ exists r, ct_op_pt f a pt = Val r /\ shaped r.
  Proof.
    intros Hf Ha Hpt. pose proof Hpt as (l0 & m0 & _ & (E0 & _) & _). destruct (to_poly_total isp cands Ho par G Hp pt Hpt) as (l & lv & c & x & A & El & Hl & Em). unfold ct_op_pt. rewrite (shaped_par a Ha), E0. unfold par_same. rewrite Z.eqb_refl. cbn [guard bind]. rewrite El. cbn [bind]. pose proof (empty_spec a) as Ee. destruct (is_empty a); [left; split; [left; apply Ee; reflexivity|reflexivity]|]. cbn [negb guard bind].
    destruct (Nat.eqb_spec (ct_level a) l) as [E|Hne]; [|left; split; [right; congruence|reflexivity]]. right. split; [intros [H|H]; [apply Ee in H; discriminate|congruence]|]. cbn [guard bind]. rewrite Em. cbn [bind]. destruct (some_level isp cands Ho par G l lv c A a Ha E) as (vxs & Ea). rewrite Ea in *. cbn [ct_c ct_par ct_level] in *. destruct vxs as [|(v & y) vxs]; [destruct Ee as (_ & Ee); discriminate (Ee eq_refl)|].
    cbn [parts map fst snd]. destruct (Hf l lv c A v false y x) as (u & z & ->). cbn [bind]. eexists. split; [reflexivity|]. apply (mk_shaped isp cands Ho par G Hp l lv c _ ((u, z) :: vxs) A).
  Qed.
  Theorem pt_cases a pt : shaped a -> usable_pt par pt -> (ct_add_pt a pt = Panic <-> ct_c a = [] \/ pt_level pt <> Val (ct_level a)) /\ (ct_sub_pt a pt = Panic <-> ct_c a = [] \/ pt_level pt <> Val (ct_level a)) /\ (pt_sub_ct pt a = Panic <-> ct_c a = [] \/ pt_level pt <> Val (ct_level a)) /\
    forall e, ct_add_pt a pt <> Err e /\ ct_sub_pt a pt <> Err e /\ pt_sub_ct pt a <> Err e.
  Proof.
    intros Ha Hpt. destruct (op_pt_cases poly_add a pt add_total Ha Hpt) as [(H1 & E1)|(H1 & r1 & E1 & S1)]; destruct (op_pt_cases poly_sub a pt sub_total Ha Hpt) as [(H2 & E2)|(H2 & r2 & E2 & S2)]; try contradiction; unfold ct_add_pt, pt_sub_ct, ct_sub_pt; rewrite E1, E2; cbn [bind].
    - repeat (split; [split; [intros _; exact H1|reflexivity]|]). intros e. split; [discriminate|split; discriminate].
    - destruct (neg_total r2 S2) as (r3 & ->). repeat (split; [split; [discriminate|intros H; contradiction]|]). intros e. split; [discriminate|split; discriminate].
  Qed.
  Theorem mul_pt_cases a pt : shaped a -> any_pt par pt -> (ct_mul_pt a pt = Panic <-> ct_c a <> [] /\ pt_level pt <> Val (ct_level a)) /\ forall e, ct_mul_pt a pt <> Err e.
  Proof.
    intros Ha (l & m & Hl & Hpt). destruct (at_level_ex isp cands par l Ho G Hl) as (lv & c & A). destruct (pt_P isp cands Ho par G l lv c A pt m Hpt) as (x & E & _). assert (Elv : pt_level pt = Val l) by (rewrite E; unfold P at 1; apply (pt_level_eq isp cands par l lv c A)). unfold ct_mul_pt. rewrite Elv. cbn [bind]. replace (pt_par pt) with par by (rewrite E; reflexivity). replace (pt_poly pt) with (P Ntt c (p_vt (pt_poly pt)) x) by (rewrite E at 2; reflexivity). rewrite (shaped_par a Ha). unfold par_same. rewrite Z.eqb_refl. cbn [guard bind]. pose proof (empty_spec a) as Ee.
    destruct (is_empty a); [split; [split; [discriminate|intros (H & _); destruct (H (proj1 Ee eq_refl))]|discriminate]|]. destruct (Nat.eqb_spec (ct_level a) l) as [El|Hne]; [|cbn [guard bind]; split; [split; [intros _; split; [intros H; apply Ee in H; discriminate|congruence]|reflexivity]|discriminate]]. cbn [guard bind].
    destruct (some_level isp cands Ho par G l lv c A a Ha El) as (vxs & Ea). rewrite Ea. cbn [ct_c ct_par ct_level]. assert (Em : exists ps, mapM (fun ci => poly_mul ci (P Ntt c (p_vt (pt_poly pt)) x)) (parts c vxs) = Val ps).
    { clear - A. induction vxs as [|(v & y) vxs (ps & IH)]; [exists []; reflexivity|]. cbn [parts map mapM fst snd]. rewrite (P_mul c (good_ok _ (al_good _ _ _ _ _ _ A)) N (al_deg _ _ _ _ _ _ A)). cbn [bind]. fold (parts c vxs). rewrite IH. cbn [bind]. eauto. }
    destruct Em as (ps & ->). cbn [bind]. split; [split; [discriminate|intros (_ & H); congruence]|discriminate].
  Qed.
  (** Products of ciphertexts. *)
  Lemma mapM_total s from to (vxs : list (bool * Rn N)) : scales par s from to -> exists vys : list (bool * Rn N), mapM (poly_scale s) (parts from vxs) = Val (parts to vys) /\ length vys = length vxs.
  Proof.
    intros Hs. induction vxs as [|(v & x) vxs (vys & IH & L)]; [exists []; split; reflexivity|]. cbn [parts map mapM fst snd]. destruct (Hs v x) as (y & ->). cbn [bind]. fold (parts from vxs). rewrite IH. cbn [bind]. exists ((v, y) :: vys). split; [reflexivity|cbn [length]; lia].
  Qed.
  Lemma bound_ex (xs : list (Rn N)) : exists B, Forall (fun x => rnorm x <= B) xs.
  Proof.
    induction xs as [|x xs (B & IH)]; [exists 0; constructor|]. exists (Z.max (rnorm x) B). constructor; [lia|]. eapply Forall_impl; [|exact IH]. cbv beta. intros; lia.
  Qed.
  Lemma mul_parts_total to (Ht : ctx_ok to) (Hd : c_degree to = N) (a b : list (bool * Rn N)) : (1 <= length a)%nat -> exists z : list (bool * Rn N), mul_parts to (parts to a) (parts to b) = Val (parts to z).
  Proof.
    intros La. destruct b as [|y b].
    - unfold mul_parts. rewrite !parts_length. cbn [length]. destruct (Nat.leb_spec 1 (length a + 0)); [|lia]. cbn [guard bind]. cbv zeta. cbn [seq]. assert (E : list_prod (seq 0 (length a)) (@nil nat) = []) by (clear; induction (seq 0 (length a)) as [|i r IH]; [reflexivity|exact IH]). rewrite E. cbn [foldM]. rewrite (P_zero to Ht N Hd).
      match goal with |- context [repeat ?z ?n] => assert (Hz : exists v (x : Rn N), z = P Ntt to v x) by (match goal with |- context [if ?c then _ else _] => destruct c end; [rewrite P_allow|]; eauto); destruct Hz as (v & x & ->); exists (repeat (v, x) n); f_equal; unfold parts; rewrite map_repeat; reflexivity end.
    - destruct (bound_ex (map snd a)) as (Ba & Ha). destruct (bound_ex (map snd (y :: b))) as (Bb & Hb). destruct (mul_parts_eq to Ht N Hd a (y :: b) Ba Bb La ltac:(cbn [length]; lia) Ha Hb) as (z & E & _). eauto.
  Qed.
  Lemma core_tame c to qs ext : ctx_ok c -> ctx_ok to -> c_degree c = N -> c_degree to = N -> built isp cands c -> built isp cands to -> c_moduli c = qs -> c_moduli to = qs ++ ext -> Forall (fun q => 2 <= q < W62) qs -> sum_of qs < 2 ^ 65 -> Z.of_nat (length qs) <= 2 ^ 20 ->
    Forall (fun p => 2 ^ 61 <= p < 2 ^ 62) ext -> Z.of_nat (length ext) <= 2 ^ 20 + 2 -> prod_list qs * 2 ^ 60 <= 2 ^ (62 * Z.of_nat (length ext)) ->
    tame (mkFactor 1 1 true) qs /\ tame (mkFactor (pa_t par) (prod_list qs) (pa_t par =? prod_list qs)) (qs ++ ext).
  Proof.
    intros Hc Ht Dc Dt Bc Bt Ec Et Hq Hsum Hlen Hext Hle Hroom. pose proof (gp_t _ _ _ G) as H2. pose proof (prod_list_pos qs Hq) as HQ. split.
    - split; [reflexivity|]. cbn [f_num f_den]. split; [lia|]. split; [lia|]. split; [left; reflexivity|lia].
    - split; [|cbn [f_num f_den]; split; [lia|split; [lia|split; [right|rewrite app_length; lia]]]].
      + unfold factor_new. cbn [f_num f_den]. destruct (Z.eqb_spec (prod_list qs) 0); [lia|reflexivity].
      + eapply Z.le_lt_trans; [|exact Hsum]. apply (core_load c to Hc Ht N Dc Dt (built_same_ops isp cands c to Bc Bt ltac:(congruence)) (built_same_ops isp cands to c Bt Bc ltac:(congruence)) qs ext Ec Et Hq Hsum Hlen Hext Hle Hroom (pa_t par) ltac:(lia)).
  Qed.
  Lemma level_scales l lv c : supported par -> at_level isp cands par l lv c -> ctx_ok (mp_to (lv_mul lv)) /\ c_degree (mp_to (lv_mul lv)) = N /\ scales par (mp_extender (lv_mul lv)) c (mp_to (lv_mul lv)) /\ scales par (mp_down (lv_mul lv)) (mp_to (lv_mul lv)) c.
  Proof.
    intros Hs A. destruct (level_supported isp cands Ho par G l lv c A Hs) as (Hs1 & Hs2). destruct (mul_basis isp cands Ho par G l lv c A) as (ext & Gt & Ed & Em & Bt & L1 & L2 & Hext & Hroom & Eu & Edn).
    assert (Bc : built isp cands c) by (eexists _, _; exact (al_new _ _ _ _ _ _ A)). pose proof (good_ok _ (al_good _ _ _ _ _ _ A)) as Hc. pose proof (good_ok _ Gt) as Ht. pose proof (al_deg _ _ _ _ _ _ A) as Hd. pose proof (al_mod _ _ _ _ _ _ A) as Ec.
    destruct (core_tame c _ _ ext Hc Ht Hd Ed Bc Bt Ec Em (level_range isp cands Ho par G l lv c A) Hs1 Hs2 Hext ltac:(lia) Hroom) as (T1 & T2). split; [exact Ht|]. split; [exact Ed|].
    rewrite <- Ec in T1. rewrite <- Em in T2. split; [exact (tame_scales isp cands Ho par G Hp _ _ _ _ Hc Ht Hd Ed Bc Bt T1 Eu)|exact (tame_scales isp cands Ho par G Hp _ _ _ _ Ht Hc Ed Hd Bt Bc T2 Edn)].
  Qed.
  Lemma mul_core_total l lv c (vxs vys : list (bool * Rn N)) : supported par -> at_level isp cands par l lv c -> (1 <= length vxs)%nat -> exists sa sb p r, mapM (poly_scale (mp_extender (lv_mul lv))) (parts c vxs) = Val sa /\ mapM (poly_scale (mp_extender (lv_mul lv))) (parts c vys) = Val sb /\
    mul_parts (mp_to (lv_mul lv)) sa sb = Val p /\ mapM (poly_scale (mp_down (lv_mul lv))) p = Val r /\ (vys = vxs -> sb = sa).
  Proof.
    intros Hs A L. destruct (level_scales l lv c Hs A) as (Ht & Hd & S1 & S2). destruct (mapM_total _ _ _ vxs S1) as (sa & E1 & L1). destruct (mapM_total _ _ _ vys S1) as (sb & E2 & L2). destruct (mul_parts_total _ Ht Hd sa sb ltac:(lia)) as (z & E3). destruct (mapM_total _ _ _ z S2) as (r & E4 & _).
    eexists _, _, _, _. split; [exact E1|]. split; [exact E2|]. split; [exact E3|]. split; [exact E4|]. intros ->. congruence.
  Qed.
  Theorem mul_cases a b : supported par -> shaped a -> shaped b -> (ct_mul a b = Panic <-> ct_c a <> [] /\ ct_level a <> ct_level b) /\ forall e, ct_mul a b <> Err e.
  Proof.
    intros Hs Ha Hb. unfold ct_mul. pose proof (empty_spec a) as Ee. destruct (is_empty a); [split; [split; [discriminate|intros (H & _); destruct (H (proj1 Ee eq_refl))]|discriminate]|]. assert (Hne : ct_c a <> []) by (intros H; apply Ee in H; discriminate). destruct (ct_eqb b a) eqn:Eab.
    - assert (Elev : ct_level b = ct_level a) by (unfold ct_eqb in Eab; apply andb_prop in Eab; destruct Eab as (_ & Eab); apply Nat.eqb_eq, Eab). rewrite Elev. clear Eab Hb Elev. destruct Ha as (l & lv & c & vxs & A & Ea). rewrite Ea in Hne |- *. cbn [ct_c ct_par ct_level] in *. rewrite (level_at isp cands Ho par G Hp l lv c A). cbn [bind].
      destruct (mul_core_total l lv c vxs vxs Hs A) as (sa & sb & p & r & -> & _ & E3 & E4 & E5); [destruct vxs; [destruct Hne; reflexivity|cbn [length]; lia]|]. cbn [no_err bind]. rewrite (E5 eq_refl) in E3. rewrite E3. cbn [bind]. rewrite E4. cbn [no_err bind]. split; [split; [discriminate|intros (_ & H); congruence]|discriminate].
    - clear Eab. rewrite (same_par a b Ha Hb). cbn [guard bind]. destruct (Nat.eqb_spec (ct_level a) (ct_level b)) as [El|Hl]; cbn [guard bind]; [|split; [split; auto|discriminate]].
      destruct (two_level isp cands Ho par G Hp a b Ha Hb El) as (l & lv & c & vxs & vys & A & Ea & Eb). rewrite Ea in Hne |- *. rewrite Eb. cbn [ct_c ct_par ct_level] in *. rewrite (level_at isp cands Ho par G Hp l lv c A). cbn [bind].
      destruct (mul_core_total l lv c vxs vys Hs A) as (sa & sb & p & r & -> & E2 & E3 & E4 & _); [destruct vxs; [destruct Hne; reflexivity|cbn [length]; lia]|]. cbn [no_err bind]. rewrite E2. cbn [no_err bind]. rewrite E3. cbn [bind]. rewrite E4. cbn [no_err bind]. split; [split; [discriminate|intros (_ & H); congruence]|discriminate].
  Qed.
  (** [Multiplicator::default] is tame. *)
  Theorem default_tame k l1 l2 m : supported par -> key_shape par l1 l2 k -> base_fits k -> mult_default isp cands k = Val m -> tame_multiplier isp cands par m.
  Proof.
    intros Hs Hk Hf H. pose proof Hk as (K1 & K2 & _ & Hl & _). destruct (at_level_ex isp cands par l1 Ho G Hl) as (lv & c & A). destruct (default_basis isp cands par l1 lv c Ho G A) as (ext & Ee & Le & Hnd & HF & Hroom). pose proof (Qpos isp cands Ho par G l1 lv c A) as HQ.
    set (qs := level_moduli (pa_moduli par) l1) in *. set (post := mkFactor (pa_t par) (prod_list qs) (pa_t par =? prod_list qs)). assert (Hpost : factor_new (pa_t par) (prod_list qs) = Val post) by (unfold factor_new; destruct (Z.eqb_spec (prod_list qs) 0); [lia|reflexivity]).
    assert (E : mult_default isp cands k = bind (mult_new isp cands factor_one factor_one (qs ++ ext) post l1 par) (fun m => mult_enable_relin m k)).
    { unfold mult_default. rewrite K1, K2, (al_par_context isp cands par l1 lv c A). cbn [bind].
      replace (slice_to (pa_sizes par) (length (c_moduli c))) with (Val (map nbits qs) : M (list Z)).
      2:{ rewrite (gp_sizes _ _ _ G), (al_mod _ _ _ _ _ _ A). unfold slice_to. rewrite map_length. unfold level_moduli. rewrite firstn_length. destruct (Nat.leb_spec (Nat.min (length (pa_moduli par) - l1) (length (pa_moduli par))) (length (pa_moduli par))) as [_|H']; [|lia]. rewrite Nat.min_l by lia. cbn [guard bind]. unfold qs, level_moduli. rewrite firstn_map. reflexivity. }
      cbn [bind]. rewrite Ee. cbn [bind]. replace (rns_product (c_rns c)) with (prod_list qs) by (rewrite (gr_product _ (co_rns _ (good_ok _ (al_good _ _ _ _ _ _ A)))), (co_u64 _ (good_ok _ (al_good _ _ _ _ _ _ A))), (al_mod _ _ _ _ _ _ A); reflexivity). rewrite Hpost. cbn [bind]. rewrite (al_mod _ _ _ _ _ _ A). reflexivity. }
    rewrite E in H. apply bind_inv in H. destruct H as (m0 & Em & H). eapply (tame_relin isp cands par m0 l1 l2 k m); [|exact Hk|exact Hf|exact H]. destruct (level_supported isp cands Ho par G l1 lv c A Hs) as (Hs1 & Hs2).
    assert (Eto : exists to, context_new isp cands (qs ++ ext) N = Val to). { unfold mult_new in Em. rewrite (al_par_context isp cands par l1 lv c A) in Em. cbn [bind] in Em. apply bind_inv in Em. destruct Em as (to & Eto & _). eauto. }
    destruct Eto as (to & Eto). destruct (context_new_good isp (proj1 Ho) cands (proj2 Ho) _ _ _ Eto) as (Hg & Emo & Ede). assert (Hext : Forall (fun p => 2 ^ 61 <= p < 2 ^ 62) ext) by (eapply Forall_impl; [|exact HF]; cbv beta; intros p (_ & Hpr & _); exact Hpr).
    assert (Hle : Z.of_nat (length ext) <= 2 ^ 20 + 2). { pose proof (mul_count_le N qs (level_range isp cands Ho par G l1 lv c A)) as H1. pose proof (extra_count qs (level_range isp cands Ho par G l1 lv c A)) as H2. fold qs in Hs2. lia. }
    destruct (core_tame c to qs ext (good_ok _ (al_good _ _ _ _ _ _ A)) (good_ok _ Hg) (al_deg _ _ _ _ _ _ A) Ede ltac:(eexists _, _; exact (al_new _ _ _ _ _ _ A)) ltac:(eexists _, _; exact Eto) (al_mod _ _ _ _ _ _ A) Emo (level_range isp cands Ho par G l1 lv c A) Hs1 Hs2 Hext Hle Hroom) as (T1 & T2).
    exact (tame_new isp cands par factor_one factor_one (qs ++ ext) post l1 m0 Hl Em T1 T1 T2).
  Qed.
  (** Shares: switching to a public key indexes the parts without looking at their number; summing shares asserts that they have one level. *)
  Theorem pksw_cases sk pk ct ru r0 r1 : is_sk par sk -> pk_shape par pk -> words ru -> words r0 -> words r1 -> shaped ct -> (pksw_new sk pk ct ru r0 r1 = Panic <-> (length (ct_c ct) < 2)%nat) /\ forall e, pksw_new sk pk ct ru r0 r1 <> Err e.
  Proof.
    intros Hsk (Epk & n & Hn & Hpc) W0 W1 W2 (l & lv & c & vxs & A & E). pose proof (some_ct_shaped isp cands Ho par G Hp 0 n (pk_c pk) (Nat.le_0_l _) Hpc) as Spc. destruct Hpc as (xs & Hpc & Ln). destruct (at_level_ex isp cands par 0 Ho G (Nat.le_0_l _)) as (lv0 & c0 & A0). destruct (ct_parts isp cands Ho par G 0 lv0 c0 A0 (pk_c pk) xs Hpc) as (vps & Ep & Ex).
    assert (L0 : length vps = n) by (rewrite <- Ln, <- Ex, !map_length; reflexivity). pose proof (at_level_bound isp cands par l lv c G A) as Hl. destruct (iter_level isp cands Ho par G Hp l 0 lv0 c0 (ct_seed (pk_c pk)) vps A0 ltac:(lia)) as (lv' & c' & sd' & vys & A' & Ly & Ei). cbn [Nat.add] in *. destruct (at_level_unique _ _ _ _ _ _ _ _ A A') as (<- & <-). rewrite <- Ep in Ei.
    assert (Es : switch_until (S (max_level (ct_par (pk_c pk)))) l (pk_c pk) = Val (mkCt par sd' (parts c vys) l)). { rewrite <- Ei. rewrite Ep at 1. cbn [ct_par]. apply switch_until_iter; [lia|]. rewrite Ep. reflexivity. }
    rewrite E. unfold pksw_new. cbn [ct_par ct_level ct_c]. rewrite (proj1 Hsk), Epk, par_eqb_refl. cbn [negb]. rewrite Es. cbn [bind]. rewrite (al_par_context isp cands par l lv c A). cbn [bind]. pose proof (good_ok _ (al_good _ _ _ _ _ _ A)) as Hc. pose proof (al_deg _ _ _ _ _ _ A) as Hd. destruct Hsk as (_ & S1 & S2).
    rewrite (sk_poly_eq isp cands Ho par G l lv c A sk S1 S2). cbn [bind]. rewrite !(P_small c Hc N Hd Ntt (pa_variance par)) by (assumption || exact (var_good isp cands par l lv c Ho G A)). cbn [bind]. rewrite parts_length.
    destruct vys as [|(w0 & b) [|(w1 & a) vys]]; cbn [length] in Ly; [lia..|]. cbn [parts map ct_c get nth_error unwrap bind fst snd]. rewrite P_disallow, (P_mul c Hc N Hd). cbn [bind].
    destruct vxs as [|(v0 & x0) [|(v1 & x1) vxs]]; cbn [parts map get nth_error unwrap bind fst snd length]; [split; [split; [lia|reflexivity]|discriminate]..|]. repeat (rewrite ?P_disallow, ?(P_mul c Hc N Hd); cbn [bind]; rewrite ?(P_add c Hc N Hd) by discriminate; cbn [bind]). split; [split; [discriminate|lia]|discriminate].
  Qed.
  Lemma share_P ct s : shaped ct -> share_of par ct s -> sks_par s = par /\ sks_ct s = ct /\ exists l lv c v0 v1 v (x0 x1 x : Rn N), at_level isp cands par l lv c /\ ct = mkCt par (ct_seed ct) (parts c [(v0, x0); (v1, x1)]) l /\ sks_h s = P Ntt c v x.
  Proof.
    intros (l & lv & c & vxs & A & E) (sk1 & sk2 & rng & H1 & H2 & Hr & Es). destruct (Nat.eqb_spec (length vxs) 2) as [E2|Hne].
    - destruct vxs as [|(v0 & x0) [|(v1 & x1) [|? ?]]]; try discriminate. rewrite E, (sks_new_P isp cands Ho par G l lv c A) in Es by assumption. match type of Es with Val ?y = Val _ => replace s with y by congruence end. split; [reflexivity|]. split; [cbn [sks_ct]; symmetry; exact E|]. eexists l, lv, c, v0, v1, _, x0, x1, _. split; [exact A|]. split; [exact E|reflexivity].
    - exfalso. rewrite E in Es. unfold sks_new in Es. rewrite (proj1 H1), (proj1 H2) in Es. cbn [ct_par ct_c] in Es. rewrite par_eqb_refl in Es. cbn [negb] in Es. rewrite parts_length in Es. apply Nat.eqb_neq in Hne. rewrite Hne in Es. discriminate.
  Qed.
  Lemma shares_fold l lv c : at_level isp cands par l lv c -> forall cts shares, Forall shaped cts -> Forall2 (share_of par) cts shares -> forall v (x : Rn N),
    (Forall (fun ct => ct_level ct = l) cts /\ exists w (y : Rn N), foldM (fun h sh => poly_add h (sks_h sh)) shares (P Ntt c v x) = Val (P Ntt c w y)) \/ (~ Forall (fun ct => ct_level ct = l) cts /\ foldM (fun h sh => poly_add h (sks_h sh)) shares (P Ntt c v x) = Panic).
  Proof.
    intros A cts shares Hs HF. induction HF as [|ct s cts shares H HF IH]; intros v x; [left; split; [constructor|cbn [foldM]; eauto]|]. pose proof (good_ok _ (al_good _ _ _ _ _ _ A)) as Hc. pose proof (al_deg _ _ _ _ _ _ A) as Hd.
    destruct (share_P ct s (Forall_inv Hs) H) as (_ & _ & l' & lv' & c' & v0 & v1 & w & x0 & x1 & y & A' & E & Eh). cbn [foldM]. rewrite Eh. assert (El : ct_level ct = l') by (rewrite E; reflexivity). destruct (Nat.eq_dec l' l) as [Ell|Hne].
    - rewrite Ell in A', El. destruct (at_level_unique _ _ _ _ _ _ _ _ A A') as (_ & Ec). subst c'. rewrite (P_add c Hc N Hd) by discriminate. cbn [bind]. destruct (IH (Forall_inv_tail Hs) (v && w)%bool (x + y)%R) as [(F & R)|(F & R)]; [left|right]; (split; [|exact R]); [constructor; assumption|]. intros F'. exact (F (Forall_inv_tail F')).
    - right. split; [intros F'; apply Forall_inv in F'; congruence|]. assert (Ecc : ctx_eqb c c' = false). { apply not_true_is_false. intros H'. apply ctx_eqb_true in H'. destruct H' as (Em & _). rewrite (al_mod _ _ _ _ _ _ A'), (al_mod _ _ _ _ _ _ A) in Em. apply (f_equal (@length Z)) in Em. pose proof (al_lt _ _ _ _ _ _ A) as L0. pose proof (al_lt _ _ _ _ _ _ A') as L1. unfold level_moduli in Em. rewrite !firstn_length in Em. lia. }
      unfold poly_add, poly_op2. rewrite !P_ctx, Ecc. reflexivity.
  Qed.
  Lemma dec_total shares l lv c w v1 (y0 x1 : Rn N) : supported par -> at_level isp cands par l lv c -> sks_from_shares shares = Val (mkCt par None (parts c [(w, y0); (v1, x1)]) l) -> exists pt, dec_from_shares shares = Val pt.
  Proof.
    intros Hsup A Es. pose proof (gp_t _ _ _ G) as Ht. pose proof (good_ok _ (al_good _ _ _ _ _ _ A)) as Hc. pose proof (al_deg _ _ _ _ _ _ A) as Hd. unfold dec_from_shares. rewrite Es. cbn [bind ct_par ct_c ct_level parts map get nth_error unwrap fst snd]. rewrite P_disallow, P_ctx, (P_ntt_pb c Hc N Hd). cbn [bind].
    rewrite (al_context_level isp cands par l lv c A). cbn [bind]. destruct (plain_scale isp cands Ho par G l lv c A Hsup) as (plain & Hpl & Edp & Emp & _ & Hsc). destruct (Hsc false y0) as (y & Hy & Ey). rewrite Ey. cbn [bind].
    rewrite (P_to_big plain Hpl N Edp). cbn [bind]. rewrite Emp. unfold slice_to. rewrite !map_length, rl_length, Nat.leb_refl. cbn [guard bind]. rewrite firstn_all2 by (rewrite !map_length, rl_length; lia).
    rewrite P_ctx. assert (Erp : rns_product (c_rns plain) = plain_prod par) by (rewrite (gr_product _ (co_rns _ Hpl)), (co_u64 _ Hpl); exact Emp). rewrite Erp. pose proof (plain_prod_pos isp cands Ho par G l lv c A) as Hpp.
    unfold reduce_big. replace (plain_prod par =? 0) with false by (symmetry; apply Z.eqb_neq; lia). replace (pa_t par =? 0) with false by (symmetry; apply Z.eqb_neq; lia). cbn [negb guard bind]. rewrite !map_map.
    match goal with |- context [pb_from_big c ?z false] => assert (L : length z = N) by (rewrite map_length; apply rl_length); rewrite (P_from_big c Hc N Hd z false L) end. cbn [bind]. rewrite (P_pb_ntt c Hc N Hd). cbn [bind]. eauto.
  Qed.
  Theorem shares_cases ct0 s0 cts shares : supported par -> Forall shaped (ct0 :: cts) -> Forall2 (share_of par) (ct0 :: cts) (s0 :: shares) ->
    (sks_from_shares (s0 :: shares) = Panic <-> ~ Forall (fun ct => ct_level ct = ct_level ct0) cts) /\ (dec_from_shares (s0 :: shares) = Panic <-> ~ Forall (fun ct => ct_level ct = ct_level ct0) cts) /\ forall e, sks_from_shares (s0 :: shares) <> Err e /\ dec_from_shares (s0 :: shares) <> Err e.
  Proof.
    intros Hsup Hs HF. inversion HF as [|? ? ? ? H0 HF']; subst. destruct (share_P ct0 s0 (Forall_inv Hs) H0) as (E1 & E2 & l & lv & c & v0 & v1 & w & x0 & x1 & y & A & E & Eh). pose proof (good_ok _ (al_good _ _ _ _ _ _ A)) as Hc. pose proof (al_deg _ _ _ _ _ _ A) as Hd. assert (El : ct_level ct0 = l) by (rewrite E; reflexivity). rewrite El.
    destruct (shares_fold l lv c A cts shares (Forall_inv_tail Hs) HF' w y) as [(F & u & z & Ef)|(F & Ef)].
    - assert (Es : sks_from_shares (s0 :: shares) = Val (mkCt par None (parts c [((v0 && u)%bool, (x0 + z)%R); (v1, x1)]) l)).
      { cbn [sks_from_shares]. rewrite Eh, Ef. cbn [bind]. rewrite E2, E. cbn [ct_c parts map get nth_error unwrap bind fst snd]. rewrite (P_add c Hc N Hd) by discriminate. cbn [bind]. rewrite E1. apply (ct_new_P isp cands Ho par G l lv c A). }
      destruct (dec_total _ l lv c _ _ _ _ Hsup A Es) as (pt & Ed). rewrite Es, Ed. split; [split; [discriminate|intros H; contradiction]|]. split; [split; [discriminate|intros H; contradiction]|]. intros e. split; discriminate.
    - assert (Es : sks_from_shares (s0 :: shares) = Panic) by (cbn [sks_from_shares]; rewrite Eh, Ef; reflexivity). assert (Ed : dec_from_shares (s0 :: shares) = Panic) by (unfold dec_from_shares; rewrite Es; reflexivity). rewrite Es, Ed. split; [split; auto|]. split; [split; auto|]. intros e. split; discriminate.
  Qed.
End Operators.
