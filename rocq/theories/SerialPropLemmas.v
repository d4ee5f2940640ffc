(** Closing lemmas for the serialization of ciphertexts and the seeds they carry. *)
From Verif Require Import Outcome BasicSpec OutcomeLemmas ZqModel ZqProofs NumTheory NttModel PolySpec PolyRing NttPure NttStages NttProofs CbdModel CbdSpec CbdProofs.
From Verif Require Import TranscodeModel RnsModel RnsSpec RnsProofs RqModel RqSpec RqCtx RqRows RqProofs RingRn RqOps RqIO ParamsModel BfvSpec ParamsProofs BuildProofs PrimeCert ExampleParams ParamsPropLemmas PlainModel CipherModel OpsModel SchemeSpec CipherSpec PlainProofs PlainPropLemmas RnPoly CipherProofs EncryptProofs CipherPropLemmas LinearPropLemmas DotPropLemmas CipherExamples.
From Coq Require Import Znumtheory.
Set Default Proof Using "Type".

(** ** Equality of ciphertexts *)
Lemma Forall2_len2 {A B} (P : A -> B -> Prop) l m : Forall2 P l m -> length l = length m.
Proof. induction 1; cbn [length]; congruence. Qed.
Lemma Forall2_mono {A B} (P Q : A -> B -> Prop) l m : (forall a b, P a b -> Q a b) -> Forall2 P l m -> Forall2 Q l m.
Proof. intros H. induction 1; constructor; auto. Qed.
Lemma rows_eqb_iff a b : rows_eqb a b = true <-> a = b.
Proof. unfold rows_eqb. destruct (list_eq_dec (list_eq_dec Z.eq_dec) a b); split; congruence. Qed.
Lemma shoup_eqb_iff a b : shoup_eqb a b = true <-> a = b.
Proof. destruct a, b; cbn [shoup_eqb]; try (split; congruence). rewrite rows_eqb_iff. split; congruence. Qed.
Lemma list_eqb_iff a b : list_eqb a b = true <-> a = b.
Proof.
  unfold list_eqb. destruct (list_eq_dec Z.eq_dec a b); split; congruence.
Qed.
Lemma poly_eqb_iff {R} (a b : poly R) : poly_eqb a b = true <-> c_moduli (p_ctx a) = c_moduli (p_ctx b) /\ c_degree (p_ctx a) = c_degree (p_ctx b) /\ p_lazy a = p_lazy b /\ p_coeffs a = p_coeffs b /\ p_shoup a = p_shoup b.
Proof.
  unfold poly_eqb, ctx_eqb. rewrite !andb_true_iff, rows_eqb_iff, shoup_eqb_iff, list_eqb_iff, Nat.eqb_eq, Bool.eqb_true_iff. tauto.
Qed.
Lemma option_eqb_iff a b : option_eqb a b = true <-> a = b.
Proof. destruct a, b; cbn [option_eqb]; try (split; congruence). rewrite list_eqb_iff. split; congruence. Qed.
Lemma polys_eqb_iff a b : polys_eqb a b = true <-> Forall2 (fun x y => poly_eqb x y = true) a b.
Proof.
  revert b. induction a as [|x a IH]; intros [|y b]; cbn [polys_eqb].
  - split; [constructor|reflexivity].
  - split; [discriminate|intros H; inversion H].
  - split; [discriminate|intros H; inversion H].
  - rewrite andb_true_iff, IH. split; [intros (H1 & H2); constructor; assumption|intros H; inversion H; auto].
Qed.
(** The derived equality compares everything but the variable-time flags, and parameters and contexts by content. *)
Theorem ct_eqb_all : forall a b, ct_eqb a b = true <->
  pa_degree (ct_par a) = pa_degree (ct_par b) /\ pa_moduli (ct_par a) = pa_moduli (ct_par b) /\ pa_variance (ct_par a) = pa_variance (ct_par b) /\ pa_t (ct_par a) = pa_t (ct_par b) /\
  ct_seed a = ct_seed b /\ ct_level a = ct_level b /\
  Forall2 (fun x y => c_moduli (p_ctx x) = c_moduli (p_ctx y) /\ c_degree (p_ctx x) = c_degree (p_ctx y) /\ p_lazy x = p_lazy y /\ p_coeffs x = p_coeffs y /\ p_shoup x = p_shoup y) (ct_c a) (ct_c b).
Proof.
  intros a b. unfold ct_eqb, par_eqb. rewrite !andb_true_iff, option_eqb_iff, polys_eqb_iff, list_eqb_iff, !Nat.eqb_eq, !Z.eqb_eq.
  assert (E : Forall2 (fun x y => poly_eqb x y = true) (ct_c a) (ct_c b) <-> Forall2 (fun x y : poly Ntt => c_moduli (p_ctx x) = c_moduli (p_ctx y) /\ c_degree (p_ctx x) = c_degree (p_ctx y) /\ p_lazy x = p_lazy y /\ p_coeffs x = p_coeffs y /\ p_shoup x = p_shoup y) (ct_c a) (ct_c b)).
  { split; intros H; (eapply Forall2_mono; [|exact H]); intros x y Hxy; apply poly_eqb_iff; exact Hxy. }
  rewrite E. tauto.
Qed.
Lemma with_vt_eqb ct : ct_eqb (with_vt ct) ct = true.
Proof. apply ct_eqb_all. cbn [with_vt ct_par ct_seed ct_level ct_c]. repeat (split; [reflexivity|]). induction (ct_c ct) as [|p ps IH]; cbn [map]; constructor; [repeat split|exact IH]. Qed.

(** ** Round trips at a level *)
Section Level.
  Variables (isp : Z -> bool) (cands : Z -> list Z) (Ho : oracles isp cands) (par : params) (G : good_params isp cands par).
  Variables (l : nat) (lv : level_ctx) (c : ctx) (A : at_level isp cands par l lv c) (Hser : serializable par).
  Set Default Proof Using "All".
  Notation N := (pa_degree par).
  Let Hc := good_ok _ (al_good _ _ _ _ _ _ A).
  Let HN := al_deg _ _ _ _ _ _ A.
  Lemma par_count : Z.of_nat (length (c_moduli c)) < 2 ^ 29.
  Proof. rewrite (al_mod _ _ _ _ _ _ A). unfold level_moduli. rewrite firstn_length. destruct Hser. lia. Qed.
  Lemma to_proto_parts (vxs : list (bool * Rn N)) : exists ms, mapM poly_to_proto (parts c vxs) = Val ms /\ length ms = length vxs /\
    mapM (fun b => poly_from_proto Ntt b c false) ms = Val (map (fun vx => P Ntt c false (snd vx)) vxs).
  Proof.
    induction vxs as [|(v & x) vxs (ms & E1 & E2 & E3)]; [exists []; repeat split; reflexivity|].
    destruct (proto_eq c Hc ltac:(rewrite HN; apply Hser) par_count Ntt v (rl x) ltac:(rewrite HN; apply rl_length)) as (m & F1 & _ & _ & _ & F2 & _).
    exists (m :: ms). cbn [parts map mapM fst snd]. fold (parts c vxs). unfold P at 1. rewrite F1. cbn [bind]. rewrite E1. split; [reflexivity|]. split; [cbn [length]; congruence|].
    rewrite F2. cbn [bind]. rewrite E3. reflexivity.
  Qed.
  Lemma level_w32 : Z.of_nat l mod W32 = Z.of_nat l.
  Proof. apply Z.mod_small. destruct Hser as (_ & H). pose proof (al_lt _ _ _ _ _ _ A). change W32 with (2 ^ 3 * 2 ^ 29). lia. Qed.
  Lemma allow_parts (xs : list (bool * Rn N)) : map allow_vt (map (fun vx => P Ntt c false (snd vx)) xs) = map (fun vx => P Ntt c true (snd vx)) xs.
  Proof. rewrite map_map. apply map_ext. intros vx. apply P_allow. Qed.
  Lemma level_le_max : (Z.of_nat (max_level par) <? Z.of_nat l) = false.
  Proof. apply Z.ltb_ge. pose proof (at_level_bound isp cands par l lv c G A). lia. Qed.
  Lemma roundtrip_none expand (vxs : list (bool * Rn N)) : (2 <= length vxs)%nat -> exists m, ct_to_proto (mkCt par None (parts c vxs) l) = Val m /\ ct_from_proto expand m par = Val (mkCt par None (parts c (map (fun vx => (true, snd vx)) vxs)) l).
  Proof.
    intros Hlen. destruct (to_proto_parts vxs) as (ms & E1 & E2 & E3).
    unfold ct_to_proto. cbn [ct_c ct_seed ct_level]. rewrite level_w32.
    destruct (parts c vxs) as [|p0 ps] eqn:Ep; [apply (f_equal (@length _)) in Ep; rewrite parts_length in Ep; cbn [length] in Ep; lia|]. rewrite E1. cbn [bind].
    eexists. split; [reflexivity|]. unfold ct_from_proto. cbn [cp_c cp_seed cp_level length Nat.eqb negb]. rewrite E2, level_le_max.
    destruct (Nat.eqb_spec (length vxs) 0); [lia|]. destruct (Nat.eqb_spec (length vxs) 1); [lia|]. cbn [orb andb]. rewrite Nat2Z.id, (al_par_context isp cands par l lv c A). cbn [bind]. rewrite E3. cbn [bind]. rewrite allow_parts. unfold parts. rewrite map_map. reflexivity.
  Qed.
  Lemma roundtrip_some expand sd (vxs : list (bool * Rn N)) v x (a : Rn N) : length sd = 32%nat -> (1 <= length vxs)%nat -> poly_from_seed expand Ntt c sd = Val (P Ntt c false a) ->
    exists m, ct_to_proto (mkCt par (Some sd) (parts c (vxs ++ [(v, x)])) l) = Val m /\ ct_from_proto expand m par = Val (mkCt par (Some sd) (parts c (map (fun vx => (true, snd vx)) vxs ++ [(true, a)])) l).
  Proof.
    intros Hsd Hlen Ha. destruct (to_proto_parts vxs) as (ms & E1 & E2 & E3).
    unfold ct_to_proto. cbn [ct_c ct_seed ct_level]. rewrite level_w32.
    assert (Ep : parts c (vxs ++ [(v, x)]) = parts c vxs ++ [P Ntt c v x]) by (unfold parts; rewrite map_app; reflexivity).
    assert (Er : mapM poly_to_proto (removelast (parts c (vxs ++ [(v, x)]))) = Val ms) by (rewrite Ep, removelast_last; exact E1).
    destruct (parts c (vxs ++ [(v, x)])) as [|p0 ps] eqn:Eq; [symmetry in Ep; apply app_eq_nil in Ep; destruct Ep; discriminate|]. rewrite Er. cbn [bind].
    eexists. split; [reflexivity|]. unfold ct_from_proto. cbn [cp_c cp_seed cp_level]. rewrite Hsd, E2, level_le_max. cbn [Nat.eqb negb]. rewrite andb_false_r, orb_false_r.
    destruct (Nat.eqb_spec (length vxs) 0); [lia|]. rewrite Nat2Z.id, (al_par_context isp cands par l lv c A). cbn [bind]. rewrite E3. cbn [bind]. unfold seed_of_bytes, len. rewrite Hsd. cbn [Z.of_nat]. change (Z.pos (Pos.of_succ_nat 31) =? 32) with true. cbn [bind]. rewrite Ha. cbn [bind].
    rewrite map_app, allow_parts. cbn [map]. rewrite P_allow. unfold parts. rewrite map_app, map_map. reflexivity.
  Qed.
End Level.

(** ** Closing lemmas *)
Set Default Proof Using "Type".
Section Props.
  Context (isp : Z -> bool) (cands : Z -> list Z) (par : params).
  Notation N := (pa_degree par).
  Lemma with_vt_parts sd c (vxs : list (bool * Rn N)) l : with_vt (mkCt par sd (parts c vxs) l) = mkCt par sd (parts c (map (fun vx => (true, snd vx)) vxs)) l.
  Proof. unfold with_vt. cbn [ct_par ct_seed ct_c ct_level]. f_equal. unfold parts. rewrite !map_map. reflexivity. Qed.
  Lemma seed_coeffs expand (R : repn) c sd p : poly_from_seed expand R c sd = Val p -> p_coeffs p = expand sd (c_moduli c) (c_degree c).
  Proof. unfold poly_from_seed, poly_random. destruct R; cbn [bind]; try (intros E; injection E as <-; reflexivity). destruct (shoup_rows c _) as [s| |]; cbn [bind]; try discriminate. intros E. injection E as <-. reflexivity. Qed.
  Lemma P_coeffs_eq c (v v' : bool) (x y : Rn N) : p_coeffs (P Ntt c v x) = p_coeffs (P Ntt c v' y) -> P Ntt c v x = P Ntt c v y.
  Proof. unfold P, poly_of. cbn [p_coeffs]. intros ->. reflexivity. Qed.
  Theorem ct_roundtrip_all : oracles isp cands -> is_params isp cands par -> serializable par -> forall l, (l <= max_level par)%nat ->
    forall expand ct xs, expands_well expand -> is_ct par l ct xs -> (2 <= length xs)%nat -> seed_faithful expand ct ->
    exists m, ct_to_proto ct = Val m /\ ct_from_proto expand m par = Val (with_vt ct) /\ ct_eqb (with_vt ct) ct = true.
  Proof.
    intros Ho Hp Hser l Hl expand ct xs Hx Hct Hlen Hf. pose proof (params_good isp cands par Ho Hp) as G. destruct (at_level_ex isp cands par l Ho G Hl) as (lv & c & A).
    destruct (ct_parts isp cands Ho par G l lv c A ct xs Hct) as (vxs & Ect & Exs). subst xs. rewrite !map_length in Hlen.
    assert (E : exists m, ct_to_proto ct = Val m /\ ct_from_proto expand m par = Val (with_vt ct)); [|destruct E as (m & E1 & E2); exists m; split; [exact E1|split; [exact E2|apply with_vt_eqb]]].
    destruct (ct_seed ct) as [sd|] eqn:Es; try rewrite Es in Ect.
    - destruct (Hf sd Es) as (Lsd & front & last & c' & E1 & E2 & E3). rewrite Ect in E2, E1. cbn [ct_par ct_level ct_c] in E2, E1. rewrite (al_par_context isp cands par l lv c A) in E2. injection E2 as <-.
      destruct (P_seed c (good_ok _ (al_good _ _ _ _ _ _ A)) N (al_deg _ _ _ _ _ _ A) Ntt expand sd Hx) as (a & Ea).
      assert (Hv : vxs <> []) by (intros ->; cbn [length] in Hlen; lia). destruct (exists_last Hv) as (ys & (v & y) & ->). rewrite app_length in Hlen. cbn [length] in Hlen.
      unfold parts in E1. rewrite map_app in E1. cbn [map fst snd] in E1. apply app_inj_tail in E1. destruct E1 as (_ & El).
      destruct (roundtrip_some isp cands Ho par G l lv c A Hser expand sd ys v y a Lsd ltac:(lia) Ea) as (m & F1 & F2). exists m. split; [rewrite Ect; exact F1|]. rewrite F2, Ect, with_vt_parts. do 2 f_equal.
      unfold parts. rewrite !map_app. f_equal. cbn [map fst snd]. f_equal. apply seed_coeffs in Ea. apply (P_coeffs_eq c true v). rewrite El, E3, <- Ea. reflexivity.
    - destruct (roundtrip_none isp cands Ho par G l lv c A Hser expand vxs Hlen) as (m & F1 & F2). rewrite <- Ect in F1. exists m. split; [exact F1|]. rewrite F2, Ect, with_vt_parts. reflexivity.
  Qed.
  Lemma set_nth_last {A} (front : list A) a b : set_nth (front ++ [a]) (length front) b = front ++ [b].
  Proof. induction front as [|x front IH]; [reflexivity|]. cbn [app length set_nth]. rewrite IH. reflexivity. Qed.
  Theorem overwrite_all : oracles isp cands -> is_params isp cands par -> serializable par -> forall l, (l <= max_level par)%nat ->
    forall expand ct xs sd p, expands_well expand -> is_ct par l ct xs -> (2 <= length xs)%nat -> seed_faithful expand ct -> ct_seed ct = Some sd ->
    (exists front last, ct_c ct = front ++ [last] /\ p_coeffs p <> p_coeffs last) ->
    exists m, ct_to_proto (ct_overwrite ct (length xs - 1) p) = Val m /\ ct_from_proto expand m par = Val (with_vt ct) /\ ct_eqb (with_vt ct) (ct_overwrite ct (length xs - 1) p) = false.
  Proof.
    intros Ho Hp Hser l Hl expand ct xs sd p Hx Hct Hlen Hf Es (front & last & Ec & Hne). destruct (ct_roundtrip_all Ho Hp Hser l Hl expand ct xs Hx Hct Hlen Hf) as (m & E1 & E2 & _).
    assert (Lf : (length xs - 1 = length front)%nat). { destruct Hct as (_ & _ & H). apply Forall2_len2 in H. rewrite Ec, app_length in H. cbn [length] in H. lia. }
    assert (Eo : ct_c (ct_overwrite ct (length xs - 1) p) = front ++ [p]). { unfold ct_overwrite. cbn [ct_c]. rewrite Ec, Lf. apply set_nth_last. }
    exists m. split; [|split; [exact E2|]].
    - rewrite <- E1. unfold ct_to_proto. rewrite Eo, Ec. unfold ct_overwrite. cbn [ct_seed ct_level]. rewrite Es. pose proof (removelast_last front p) as R1. pose proof (removelast_last front last) as R2. destruct front as [|f0 fr]; cbn [app] in *; rewrite R1, R2; reflexivity.
    - destruct (ct_eqb (with_vt ct) _) eqn:E; [|reflexivity]. exfalso. apply ct_eqb_all in E. destruct E as (_ & _ & _ & _ & _ & _ & H). rewrite Eo in H. cbn [with_vt ct_c] in H. rewrite Ec, map_app in H. cbn [map] in H.
      apply Forall2_app_inv_l in H. destruct H as (l1 & l2 & _ & H2 & Eq). inversion H2 as [|u w us ws Huw Hn]; subst. inversion Hn; subst. apply app_inj_tail in Eq. destruct Eq as (_ & <-). destruct Huw as (_ & _ & _ & Huw & _). cbn [p_coeffs] in Huw. congruence.
  Qed.
  Theorem zero_serial_all : forall expand, exists m, ct_to_proto (ct_zero par) = Val m /\ ct_from_proto expand m par = Err (InvalidCiphertextPolynomialCount 0 false).
  Proof. intros expand. eexists. split; [reflexivity|]. reflexivity. Qed.
  (** Fresh encryptions. *)
  Theorem fresh_faithful_all : oracles isp cands -> is_params isp cands par -> forall l, (l <= max_level par)%nat ->
    forall expand sk sd rng pt m, expands_well expand -> words rng -> is_sk par sk -> is_pt par l pt m -> canonical (pa_t par) m -> pa_t par <= level_modulus par l -> length sd = 32%nat ->
    exists ct, sk_encrypt expand sk pt sd rng = Val ct /\ ct_seed ct = Some sd /\ seed_faithful expand ct.
  Proof.
    intros Ho Hp l Hl expand sk sd rng pt m Hx Hw (Esk & Ls & Hi) Hpt Hm HtQ Lsd. pose proof (params_good isp cands par Ho Hp) as G. destruct (at_level_ex isp cands par l Ho G Hl) as (lv & c & A).
    destruct (pt_P isp cands Ho par G l lv c A pt m Hpt) as (x & -> & <-).
    destruct (sk_encrypt_P isp cands par l lv c Ho G A expand sk Ls sd rng (pt_enc pt) (p_vt (pt_poly pt)) x Hx Hw Esk Hi Hm HtQ) as (a & Ea & b & -> & Hph).
    eexists. split; [reflexivity|]. split; [reflexivity|]. intros sd' E. cbn [ct_seed] in E. injection E as <-. split; [exact Lsd|].
    exists [P Ntt c true b], (P Ntt c true a), c. cbn [ct_c ct_par ct_level]. split; [reflexivity|]. split; [apply (al_par_context isp cands par l lv c A)|].
    apply seed_coeffs in Ea. rewrite <- Ea. reflexivity.
  Qed.
End Props.
