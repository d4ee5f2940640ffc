(** Properties C42 and C46 for every ciphertext a program can hold. *)
From Verif Require Import Outcome BasicSpec OutcomeLemmas ZqModel ZqProofs NumTheory NttModel PolySpec PolyRing NttPure NttStages NttProofs CbdModel CbdSpec CbdProofs.
From Verif Require Import TranscodeModel PrimesModel RnsModel RnsSpec RnsProofs RqModel RqSpec RqCtx RqRows RqProofs RingRn RqOps RqIO RqPropLemmas ParamsModel BfvSpec ParamsProofs BuildProofs ParamsPropLemmas PlainModel CipherModel OpsModel SchemeSpec CipherSpec PlainProofs RnPoly CipherProofs EncryptProofs CipherPropLemmas LinearPropLemmas SerialPropLemmas MulPropLemmas CtDot DotPropLemmas KeysModel KeysSpec KeysProofs KeySwitchProofs KeyNoiseProofs KeyOpsProofs KeyPropLemmas EvalSpec EvalKeyProofs EvalOpsProofs EvalExpandProofs RgswPropLemmas WireSpec WireProofs WireKeysProofs WireOpsProofs WirePropLemmas ReachSpec ShapeProofs ReachProofs.
From Coq Require Import Znumtheory.

Section Props.
  Context (isp : Z -> bool) (cands : Z -> list Z) (par : params).
  Set Default Proof Using "Type".
  Theorem reach_all : oracles isp cands -> is_params isp cands par -> serializable par -> forall expand, expands_well expand -> forall ct, reach isp cands expand par ct ->
    any_ct par ct /\ seed_faithful expand ct /\ (ct_seed ct <> None -> length (ct_c ct) = 2%nat).
  Proof.
    intros Ho Hp Hser expand Hx ct H. pose proof (params_good isp cands par Ho Hp) as G. destruct (reach_ok isp cands Ho par G Hp expand ct Hser Hx H) as (H1 & H2 & H3). split; [exact (some_any isp cands Ho par G ct H1)|]. split; assumption.
  Qed.
  Theorem reach_roundtrip_all : oracles isp cands -> is_params isp cands par -> serializable par -> forall expand, expands_well expand -> forall ct, reach isp cands expand par ct -> (2 <= length (ct_c ct))%nat ->
    exists m, ct_to_proto ct = Val m /\ ct_from_proto expand m par = Val (with_vt ct) /\ ct_eqb (with_vt ct) ct = true.
  Proof.
    intros Ho Hp Hser expand Hx ct H H2. destruct (reach_all Ho Hp Hser expand Hx ct H) as ((l & n & Hl & xs & Hct & Hn) & Hf & _).
    apply (ct_roundtrip_all isp cands par Ho Hp Hser l Hl expand ct xs Hx Hct); [|exact Hf]. destruct Hct as (_ & _ & F). apply Forall2_len2 in F. lia.
  Qed.
  (** The ciphertexts of one part or none come back as errors. *)
  Theorem reach_short_all : oracles isp cands -> is_params isp cands par -> serializable par -> forall expand, expands_well expand -> forall ct, reach isp cands expand par ct -> (length (ct_c ct) < 2)%nat ->
    exists m, ct_to_proto ct = Val m /\ ct_from_proto expand m par = Err (InvalidCiphertextPolynomialCount (Z.of_nat (length (ct_c ct))) false).
  Proof.
    intros Ho Hp Hser expand Hx ct H H2. destruct (reach_all Ho Hp Hser expand Hx ct H) as ((l & n & Hl & xs & Hct & Hn) & _ & Hs). pose proof (params_good isp cands par Ho Hp) as G. destruct (at_level_ex isp cands par l Ho G Hl) as (lv & c & A).
    destruct (ct_parts isp cands Ho par G l lv c A ct xs Hct) as (vxs & Ect & _). assert (Es : ct_seed ct = None) by (destruct (ct_seed ct); [specialize (Hs ltac:(discriminate)); lia|reflexivity]). rewrite Es in Ect. rewrite Ect in H2 |- *. cbn [ct_c] in *. rewrite parts_length in H2 |- *.
    destruct vxs as [|(v & x) [|? ?]]; [eexists; split; reflexivity| |cbn [length] in H2; lia]. destruct (to_proto_parts isp cands Ho par G l lv c A Hser [(v, x)]) as (ms & F1 & F2 & _). unfold ct_to_proto. cbn [ct_c ct_seed ct_level parts map] in F1 |- *. rewrite F1. cbn [bind]. eexists. split; [reflexivity|]. unfold ct_from_proto, len. cbn [cp_c cp_seed length Nat.eqb negb]. rewrite F2. reflexivity.
  Qed.
  Theorem reach_result_all : oracles isp cands -> is_params isp cands par -> serializable par -> forall expand, expands_well expand -> forall ins r, Forall (reach isp cands expand par) ins -> result isp cands par ins r ->
    ct_seed r = None \/ In r ins.
  Proof.
    intros Ho Hp Hser expand Hx ins r Hi Hr. apply (result_seed isp cands par ins r Hr). eapply Forall_impl; [|exact Hi]. intros a Ha. exact (proj2 (proj2 (reach_all Ho Hp Hser expand Hx a Ha))).
  Qed.
  Theorem stale_all : oracles isp cands -> is_params isp cands par -> serializable par -> forall expand, expands_well expand -> forall l1 l2 k, key_shape par l1 l2 k -> base_fits k ->
    forall ct r sd, any_ct par ct -> ct_seed ct = Some sd -> length sd = 32%nat -> relinearizes k ct = Val r ->
    ct_seed r = Some sd /\ (~ seed_faithful expand r -> exists m r', ct_to_proto r = Val m /\ ct_from_proto expand m par = Val r' /\ ct_eqb r' r = false).
  Proof.
    intros Ho Hp Hser expand Hx l1 l2 k Hk Hf ct r sd Hct Es Lsd H. pose proof (relin_seed k ct r H) as (E1 & _). rewrite Es in E1. split; [exact E1|]. intros Hn. pose proof (params_good isp cands par Ho Hp) as G. pose proof Hk as (_ & _ & _ & Hl & _).
    destruct (safe_val _ _ _ (relinearizes_safe_all isp cands par Ho Hp l1 l2 k Hk Hf ct Hct) H) as (xs & Hr & Lx). destruct (at_level_ex isp cands par l1 Ho G Hl) as (lv & c & A). pose proof (good_ok _ (al_good _ _ _ _ _ _ A)) as Hc. pose proof (al_deg _ _ _ _ _ _ A) as Hd.
    destruct (ct_parts isp cands Ho par G l1 lv c A r xs Hr) as (vxs & Er & Ex). rewrite E1 in Er. assert (Lv : length vxs = 2%nat) by (rewrite <- Lx, <- Ex, !map_length; reflexivity). destruct vxs as [|(v0 & x0) [|(v1 & x1) [|? ?]]]; try discriminate.
    destruct (P_seed c Hc (pa_degree par) Hd Ntt expand sd Hx) as (a & Ea).
    set (r0 := mkCt par (Some sd) (parts c [(v0, x0); (false, a)]) l1). pose proof (parts_ct isp cands Ho par G l1 lv c A (Some sd) [(v0, x0); (false, a)]) as Hr0. fold r0 in Hr0.
    assert (Hfa : p_coeffs (P Ntt c false a) = expand sd (c_moduli c) (c_degree c)) by (unfold poly_from_seed in Ea; injection Ea as Ea; unfold P, poly_of; cbn [p_coeffs]; symmetry; exact Ea).
    assert (Hf0 : seed_faithful expand r0). { intros sd' E. cbn [r0 ct_seed] in E. injection E as <-. split; [exact Lsd|]. exists [P Ntt c v0 x0], (P Ntt c false a), c. split; [reflexivity|]. split; [exact (al_par_context isp cands par l1 lv c A)|exact Hfa]. }
    destruct (overwrite_all isp cands par Ho Hp Hser l1 Hl expand r0 _ sd (P Ntt c v1 x1) Hx Hr0 (le_n 2) Hf0 eq_refl) as (m & F1 & F2 & F3).
    { exists [P Ntt c v0 x0], (P Ntt c false a). split; [reflexivity|]. intros E. apply Hn. rewrite Er. intros sd' E'. cbn [ct_seed] in E'. injection E' as <-. split; [exact Lsd|]. exists [P Ntt c v0 x0], (P Ntt c v1 x1), c. split; [reflexivity|]. split; [exact (al_par_context isp cands par l1 lv c A)|]. rewrite E. exact Hfa. }
    assert (Eo : ct_overwrite r0 (length (map rl (map snd [(v0, x0); (false, a)])) - 1) (P Ntt c v1 x1) = r) by (rewrite Er; reflexivity). rewrite Eo in F1, F3. exists m, (with_vt r0). auto.
  Qed.
End Props.
(** Which operations drop the seed whatever the ciphertexts. *)
Theorem dropped_all : forall r,
  (forall a b, ct_c a <> [] -> ct_c b <> [] -> ct_add a b = Val r \/ ct_sub a b = Val r \/ ct_mul a b = Val r -> ct_seed r = None) /\
  (forall a, ct_neg a = Val r \/ ct_switch_down a = Val r -> ct_seed r = None) /\
  (forall a l, l <> ct_level a -> ct_switch_to_level a l = Val r -> ct_seed r = None) /\
  (forall a pt, ct_add_pt a pt = Val r \/ ct_sub_pt a pt = Val r \/ pt_sub_ct pt a = Val r \/ ct_mul_pt a pt = Val r -> ct_seed r = None) /\
  (forall cts pts, dot_product_scalar cts pts = Val r -> ct_seed r = None) /\
  (forall m a b, mult_multiply m a b = Val r -> ct_seed r = None) /\
  (forall g a, galois_apply g a = Val r -> ct_seed r = None) /\
  (forall g a, ct_mul_rgsw a g = Val r \/ rgsw_mul_ct g a = Val r -> ct_seed r = None).
Proof.
  intros r. repeat match goal with |- _ /\ _ => split end.
  - intros a b Ha Hb [H|[H|H]]; [exact (add_seed_ne a b r H Ha Hb)|exact (sub_seed_ne a b r H Ha Hb)|]. unfold ct_mul in H. destruct (is_empty a) eqn:Ea; [unfold is_empty in Ea; destruct (ct_c a); [congruence|discriminate]|]. destruct (ct_eqb b a).
    + do 4 (apply bind_inv in H; destruct H as (? & _ & H)). injection H as <-. reflexivity.
    + do 7 (apply bind_inv in H; destruct H as (? & _ & H)). injection H as <-. reflexivity.
  - intros a [H|H]; [exact (neg_seed a r H)|exact (down_seed a r H)].
  - intros a l Hl H. unfold ct_switch_to_level in H. destruct (_ || _) eqn:El; [discriminate|]. apply Bool.orb_false_iff in El. destruct El as (El & _). apply Nat.ltb_ge in El.
    assert (GI : forall n a r, iterM n ct_switch_down a = Val r -> n <> O -> ct_seed r = None).
    { clear. induction n as [|n IH]; intros a r H Hn; [congruence|]. cbn [iterM] in H. apply bind_inv in H. destruct H as (b & E & H). destruct n as [|n]; [cbn [iterM] in H; injection H as <-; exact (down_seed _ _ E)|]. apply (IH b r H). discriminate. }
    apply (GI _ _ _ H). lia.
  - intros a pt [H|[H|[H|H]]]; [exact (op_pt_seed _ a pt r H)|exact (op_pt_seed _ a pt r H)| |exact (mul_pt_seed a pt r H)]. unfold pt_sub_ct in H. apply bind_inv in H. destruct H as (x & _ & H). exact (neg_seed x r H).
  - exact (fun cts pts => dot_seed cts pts r).
  - exact (fun m a b => multiply_seed m a b r).
  - exact (fun g a => galois_seed g a r).
  - intros g a [H|H]; [exact (rgsw_seed a g r H)|exact (rgsw_seed a g r H)].
Qed.
(** Sums with the zero ciphertext and switches to the current level return their operand as it is. *)
Theorem identity_all : forall par ct sd, ct_par ct = par -> ct_seed ct = Some sd -> ct_c ct <> [] ->
  ct_add ct (ct_zero par) = Val ct /\ ct_add (ct_zero par) ct = Val ct /\ ct_sub ct (ct_zero par) = Val ct /\ ((ct_level ct <= max_level par)%nat -> ct_switch_to_level ct (ct_level ct) = Val ct).
Proof.
  intros par ct sd Hp Hs Hc. assert (He : is_empty ct = false) by (unfold is_empty; destruct (ct_c ct); [congruence|reflexivity]).
  unfold ct_add, ct_sub, ct_switch_to_level. rewrite He, Hp. unfold par_same. cbn [ct_zero ct_par is_empty ct_c length Nat.eqb]. rewrite Z.eqb_refl. cbn [guard bind]. repeat (split; [reflexivity|]).
  intros Hl. rewrite Nat.ltb_irrefl. destruct (Nat.ltb_spec (max_level par) (ct_level ct)); [lia|]. cbn [orb]. rewrite Nat.sub_diag. reflexivity.
Qed.
