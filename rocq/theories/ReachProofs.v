(** Everything reachable is a ciphertext of the parameters, and its seed, if any, is faithful. *)
From Verif Require Import Outcome BasicSpec OutcomeLemmas ZqModel ZqProofs NumTheory NttModel PolySpec PolyRing NttPure NttStages NttProofs CbdModel CbdSpec CbdProofs.
From Verif Require Import TranscodeModel PrimesModel RnsModel RnsSpec RnsProofs RqModel RqSpec RqCtx RqRows RqProofs RingRn RqOps RqIO RqPropLemmas ParamsModel BfvSpec ParamsProofs BuildProofs ParamsPropLemmas PlainModel CipherModel OpsModel SchemeSpec CipherSpec PlainProofs RnPoly CipherProofs EncryptProofs CipherPropLemmas LinearPropLemmas SerialPropLemmas MulPropLemmas CtDot DotPropLemmas KeysModel KeysSpec KeysProofs KeySwitchProofs KeyNoiseProofs KeyOpsProofs KeyPropLemmas EvalSpec EvalKeyProofs EvalOpsProofs EvalExpandProofs RgswPropLemmas WireSpec WireProofs WireKeysProofs WireOpsProofs WirePropLemmas ReachSpec ShapeProofs.
From Coq Require Import Znumtheory.
Set Default Proof Using "Type".

Lemma reach_ind2 isp cands expand par (Q : ciphertext -> Prop) : (forall ct, created expand par ct -> Q ct) ->
  (forall ins ct, Forall (reach isp cands expand par) ins -> Forall Q ins -> result isp cands par ins ct -> Q ct) -> forall ct, reach isp cands expand par ct -> Q ct.
Proof.
  intros H1 H2. fix IH 2. intros ct [ct' Hc|ins ct' Hins Hr]; [exact (H1 ct' Hc)|]. apply (H2 ins ct' Hins); [|exact Hr]. clear Hr. induction Hins as [|a ins Ha Hins IHi]; constructor; [exact (IH a Ha)|exact IHi].
Qed.
Lemma safe_val {A} (m : M A) (Q : A -> Prop) a : safe m Q -> m = Val a -> Q a.
Proof. intros H ->. exact H. Qed.
Lemma no_err_inv {A} (m : M A) a : no_err m = Val a -> m = Val a.
Proof. destruct m; cbn [no_err]; congruence. Qed.
Lemma add_seed a b r : ct_add a b = Val r -> ct_seed r = None \/ In r [a; b].
Proof.
  intros H. unfold ct_add in H. apply bind_inv in H. destruct H as (? & _ & H). destruct (is_empty a); [injection H as <-; right; right; left; reflexivity|]. destruct (is_empty b); [injection H as <-; right; left; reflexivity|].
  unfold ct_op2 in H. do 3 (apply bind_inv in H; destruct H as (? & _ & H)). injection H as <-. left. reflexivity.
Qed.
Lemma add_seed_ne a b r : ct_add a b = Val r -> ct_c a <> [] -> ct_c b <> [] -> ct_seed r = None.
Proof.
  intros H Ha Hb. unfold ct_add, is_empty in H. apply bind_inv in H. destruct H as (? & _ & H). destruct (ct_c a) as [|? ?] eqn:Ea; [congruence|]. destruct (ct_c b) as [|? ?] eqn:Eb; [congruence|]. cbn [length Nat.eqb] in H.
  unfold ct_op2 in H. do 3 (apply bind_inv in H; destruct H as (? & _ & H)). injection H as <-. reflexivity.
Qed.
Lemma sub_seed_ne a b r : ct_sub a b = Val r -> ct_c a <> [] -> ct_c b <> [] -> ct_seed r = None.
Proof.
  intros H Ha Hb. unfold ct_sub, is_empty in H. apply bind_inv in H. destruct H as (? & _ & H). destruct (ct_c a) as [|? ?] eqn:Ea; [congruence|]. destruct (ct_c b) as [|? ?] eqn:Eb; [congruence|]. cbn [length Nat.eqb] in H.
  unfold ct_op2 in H. do 3 (apply bind_inv in H; destruct H as (? & _ & H)). injection H as <-. reflexivity.
Qed.
Lemma neg_seed a r : ct_neg a = Val r -> ct_seed r = None.
Proof. intros H. unfold ct_neg in H. apply bind_inv in H. destruct H as (? & _ & H). injection H as <-. reflexivity. Qed.
Lemma sub_seed a b r : ct_sub a b = Val r -> ct_seed r = None \/ In r [a; b].
Proof.
  intros H. unfold ct_sub in H. apply bind_inv in H. destruct H as (? & _ & H). destruct (is_empty a); [left; exact (neg_seed _ _ H)|]. destruct (is_empty b); [injection H as <-; right; left; reflexivity|].
  unfold ct_op2 in H. do 3 (apply bind_inv in H; destruct H as (? & _ & H)). injection H as <-. left. reflexivity.
Qed.
Lemma op_pt_seed f a pt r : ct_op_pt f a pt = Val r -> ct_seed r = None.
Proof.
  intros H. unfold ct_op_pt in H. do 5 (apply bind_inv in H; destruct H as (? & _ & H)). destruct (ct_c a); [discriminate|]. apply bind_inv in H. destruct H as (? & _ & H). injection H as <-. reflexivity.
Qed.
Lemma mul_pt_seed a pt r : ct_mul_pt a pt = Val r -> ct_seed r = None.
Proof.
  intros H. unfold ct_mul_pt in H. apply bind_inv in H. destruct H as (? & _ & H). destruct (is_empty a); [injection H as <-; reflexivity|]. do 3 (apply bind_inv in H; destruct H as (? & _ & H)). injection H as <-. reflexivity.
Qed.
Lemma mul_seed a b r : ct_mul a b = Val r -> ct_seed r = None \/ In r [a; b].
Proof.
  intros H. unfold ct_mul in H. destruct (is_empty a); [injection H as <-; right; left; reflexivity|]. destruct (ct_eqb b a).
  - do 4 (apply bind_inv in H; destruct H as (? & _ & H)). injection H as <-. left. reflexivity.
  - do 7 (apply bind_inv in H; destruct H as (? & _ & H)). injection H as <-. left. reflexivity.
Qed.
Lemma dot_seed cts pts r : dot_product_scalar cts pts = Val r -> ct_seed r = None.
Proof.
  intros H. unfold dot_product_scalar in H. destruct cts as [|first cts]; [discriminate|]. destruct pts as [|pt pts]; [discriminate|]. destruct (negb _); [discriminate|]. apply bind_inv in H. destruct H as (? & _ & H). apply bind_inv in H. destruct H as (? & _ & H). cbv zeta in H.
  do 2 (apply bind_inv in H; destruct H as (? & _ & H)). destruct (_ <? _); [apply bind_inv in H; destruct H as (? & _ & H)|do 2 (apply bind_inv in H; destruct H as (? & _ & H))]; injection H as <-; reflexivity.
Qed.
Lemma down_seed a r : ct_switch_down a = Val r -> ct_seed r = None.
Proof. intros H. unfold ct_switch_down in H. destruct (Nat.leb _ _); [discriminate|]. apply bind_inv in H. destruct H as (? & _ & H). injection H as <-. reflexivity. Qed.
Lemma level_seed a l r : ct_switch_to_level a l = Val r -> ct_seed r = None \/ r = a.
Proof.
  intros H. unfold ct_switch_to_level in H. destruct (_ || _); [discriminate|]. assert (G : forall n a r, iterM n ct_switch_down a = Val r -> n <> O -> ct_seed r = None).
  { clear. induction n as [|n IH]; intros a r H Hn; [congruence|]. cbn [iterM] in H. apply bind_inv in H. destruct H as (b & E & H). destruct n as [|n]; [cbn [iterM] in H; injection H as <-; exact (down_seed _ _ E)|]. apply (IH b r H). discriminate. }
  destruct (l - ct_level a)%nat as [|n] eqn:En; [cbn [iterM] in H; injection H as <-; right; reflexivity|]. left. apply (G _ _ _ H). discriminate.
Qed.
Lemma multiply_seed m a b r : mult_multiply m a b = Val r -> ct_seed r = None.
Proof.
  intros H. unfold mult_multiply in H. do 2 (apply bind_inv in H; destruct H as (? & _ & H)). destruct (negb _); [discriminate|]. destruct (negb _); [discriminate|]. destruct (ct_c a) as [|? [|? [|? ?]]]; try discriminate. destruct (ct_c b) as [|? [|? [|? ?]]]; try discriminate.
  do 13 (apply bind_inv in H; destruct H as (? & _ & H)). cbv zeta in H. destruct (m_switch m); [exact (down_seed _ _ H)|injection H as <-; reflexivity].
Qed.
Lemma validate_two_inv par l ct u : validate_two par l ct = Val u -> length (ct_c ct) = 2%nat.
Proof. intros H. unfold validate_two in H. apply bind_inv in H. destruct H as (? & _ & H). destruct (Nat.eqb_spec (length (ct_c ct)) 2); [assumption|discriminate]. Qed.
Lemma galois_seed g ct r : galois_apply g ct = Val r -> ct_seed r = None.
Proof. intros H. unfold galois_apply in H. cbv zeta in H. do 9 (apply bind_inv in H; destruct H as (? & _ & H)). injection H as <-. reflexivity. Qed.
Lemma galois_into_seed g ct out r : galois_apply_into g ct out = Val r -> ct_seed r = None /\ ct_c r <> [] /\ ct_c ct <> [].
Proof.
  intros H. unfold galois_apply_into in H. cbv zeta in H. apply bind_inv in H. destruct H as (u & Hv & H). apply validate_two_inv in Hv. do 8 (apply bind_inv in H; destruct H as (? & _ & H)). injection H as <-. split; [reflexivity|]. split; [discriminate|]. intros E. rewrite E in Hv. discriminate.
Qed.
Lemma rows_seed ek ct r : rotates_rows ek ct = Val r -> ct_seed r = None.
Proof. intros H. unfold rotates_rows in H. apply bind_inv in H. destruct H as (? & _ & H). destruct (negb _); [discriminate|]. apply bind_inv in H. destruct H as (? & _ & H). apply (galois_into_seed _ _ _ _ H). Qed.
Lemma columns_seed ek ct i r : rotates_columns_by ek ct i = Val r -> ct_seed r = None.
Proof. intros H. unfold rotates_columns_by in H. apply bind_inv in H. destruct H as (? & _ & H). destruct (negb _); [discriminate|]. do 2 (apply bind_inv in H; destruct H as (? & _ & H)). apply (galois_into_seed _ _ _ _ H). Qed.
Lemma inner_seed ek ct r : computes_inner_sum ek ct = Val r -> ct_seed r = None.
Proof.
  intros H. unfold computes_inner_sum in H. do 2 (apply bind_inv in H; destruct H as (? & _ & H)). destruct (negb _); [discriminate|]. apply bind_inv in H. destruct H as (st & _ & H). apply bind_inv in H. destruct H as (st' & H1 & H). injection H as <-.
  unfold rot_add in H1. apply bind_inv in H1. destruct H1 as (g & _ & H1). apply bind_inv in H1. destruct H1 as (tmp & Ht & H1). apply bind_inv in H1. destruct H1 as (out & Ha & H1). injection H1 as <-. cbn [fst]. destruct (galois_into_seed _ _ _ _ Ht) as (_ & N1 & N2). exact (add_seed_ne _ _ _ Ha N2 N1).
Qed.
Lemma Forall_set {A} (Q : A -> Prop) l i x : Forall Q l -> Q x -> Forall Q (set_nth l i x).
Proof. intros H Hx. revert i. induction H as [|a l Ha H IH]; intros [|i]; cbn [set_nth]; constructor; auto. Qed.
Lemma expands_seed ek ct size rs : expands ek ct size = Val rs -> Forall (fun r => ct_seed r = None \/ r = ct) rs.
Proof.
  intros H. unfold expands in H. apply bind_inv in H. destruct H as (? & _ & H). destruct (_ =? _); [discriminate|]. destruct (_ <? _); [discriminate|]. cbv zeta in H. destruct (Nat.eqb _ _); [injection H as <-; constructor; [right; reflexivity|constructor]|].
  apply bind_inv in H. destruct H as (b & _ & H). destruct b; [|discriminate]. apply bind_inv in H. destruct H as (st & Hst & H). injection H as <-. set (Q := fun r => ct_seed r = None \/ r = ct).
  assert (G : Forall Q (fst st)); [|apply Forall_firstn, G]. assert (H0 : Forall Q (fst (ct :: repeat (ct_zero (ct_par ct)) (Nat.pow 2 (Z.to_nat (Z.log2_up size)) - 1), ct_zero (ct_par ct)))).
  { cbn [fst]. constructor; [right; reflexivity|]. apply Forall_forall. intros y Hy. apply repeat_spec in Hy. subst y. left. reflexivity. }
  revert Hst H0. generalize (ct :: repeat (ct_zero (ct_par ct)) (Nat.pow 2 (Z.to_nat (Z.log2_up size)) - 1), ct_zero (ct_par ct)). generalize (seq 0 (Z.to_nat (Z.log2_up size))). intros ls. induction ls as [|l ls IH]; intros s0 H H0; cbn [foldM] in H; [injection H as <-; exact H0|].
  apply bind_inv in H. destruct H as (s1 & H1 & H). apply (IH s1 H). clear H IH. unfold expand_round in H1. do 3 (apply bind_inv in H1; destruct H1 as (? & _ & H1)). cbv zeta in H1. apply bind_inv in H1. destruct H1 as (? & _ & H1). revert H1 H0. generalize (seq 0 (2 ^ l)). intros js. revert s0. induction js as [|j js IH]; intros s0 H H0; cbn [foldM] in H; [injection H as <-; exact H0|].
  apply bind_inv in H. destruct H as (s2 & H2 & H). apply (IH s2 H). clear H IH. unfold expand_one in H2. apply bind_inv in H2. destruct H2 as (low & _ & H2). apply bind_inv in H2. destruct H2 as (sub & Hs & H2). destruct (galois_into_seed _ _ _ _ Hs) as (_ & N1 & N2). apply bind_inv in H2. destruct H2 as (out & Hout & H2). apply bind_inv in H2. destruct H2 as (low' & Hl & H2). injection H2 as <-. cbn [fst].
  apply Forall_set; [|left; exact (add_seed_ne _ _ _ Hl N2 N1)]. destruct (Nat.ltb _ _); [|injection Hout as <-; exact H0]. apply bind_inv in Hout. destruct Hout as (? & _ & Hout). apply bind_inv in Hout. destruct Hout as (t & Ht & Hout). do 4 (apply bind_inv in Hout; destruct Hout as (? & _ & Hout)). injection Hout as <-.
  apply Forall_set; [exact H0|]. left. cbn [ct_overwrite ct_seed]. exact (sub_seed_ne _ _ _ Ht N2 N1).
Qed.
Lemma rgsw_seed ct g r : ct_mul_rgsw ct g = Val r -> ct_seed r = None.
Proof. intros H. unfold ct_mul_rgsw in H. do 7 (apply bind_inv in H; destruct H as (? & _ & H)). cbv zeta in H. do 4 (apply bind_inv in H; destruct H as (? & _ & H)). injection H as <-. reflexivity. Qed.
Lemma relin_seed k ct r : relinearizes k ct = Val r -> ct_seed r = ct_seed ct /\ length (ct_c ct) = 3%nat.
Proof.
  intros H. unfold relinearizes in H. apply bind_inv in H. destruct H as (? & _ & H). destruct (ct_c ct) as [|? [|? [|? [|? ?]]]]; try discriminate. destruct (negb _); [discriminate|]. do 5 (apply bind_inv in H; destruct H as (? & _ & H)). injection H as <-. split; reflexivity.
Qed.
(** An operation returns a ciphertext without a seed or one of its operands; only relinearization copies the seed of an operand of three parts. *)
Theorem result_seed isp cands par ins r : result isp cands par ins r -> Forall (fun a => ct_seed a <> None -> length (ct_c a) = 2%nat) ins -> ct_seed r = None \/ In r ins.
Proof.
  intros [a b r' H|a b r' H|a r' H|a pt r' _ H|a pt r' _ H|a pt r' _ H|a pt r' _ H|a b r' H|cts pts r' _ H|m a b r' _ H|a r' H|a l r' H|k l1 l2 a r' _ _ H|g l1 l2 a r' _ _ H|ek l a r' _ _ H|ek l a i r' _ _ H|ek l a r' _ _ H|ek l a size rs r' _ _ H Hin|a l g r' _ _ _ H] Hs.
  - exact (add_seed _ _ _ H).
  - exact (sub_seed _ _ _ H).
  - left. exact (neg_seed _ _ H).
  - left. exact (op_pt_seed _ _ _ _ H).
  - left. exact (op_pt_seed _ _ _ _ H).
  - left. unfold pt_sub_ct in H. apply bind_inv in H. destruct H as (x & _ & H). exact (neg_seed _ _ H).
  - left. exact (mul_pt_seed _ _ _ H).
  - exact (mul_seed _ _ _ H).
  - left. exact (dot_seed _ _ _ H).
  - left. exact (multiply_seed _ _ _ _ H).
  - left. exact (down_seed _ _ H).
  - destruct (level_seed _ _ _ H) as [E|E]; [left; exact E|right; left; symmetry; exact E].
  - left. destruct (relin_seed _ _ _ H) as (E & L). apply Forall_inv in Hs. rewrite E. destruct (ct_seed a) as [sd|]; [|reflexivity]. rewrite L in Hs. discriminate Hs. discriminate.
  - left. exact (galois_seed _ _ _ H).
  - left. exact (rows_seed _ _ _ H).
  - left. exact (columns_seed _ _ _ _ H).
  - left. exact (inner_seed _ _ _ H).
  - pose proof (expands_seed _ _ _ _ H) as F. rewrite Forall_forall in F. destruct (F r' Hin) as [E|E]; [left; exact E|right; left; symmetry; exact E].
  - left. exact (rgsw_seed _ _ _ H).
Qed.

Section Shape.
  Context (isp : Z -> bool) (cands : Z -> list Z) (Ho : oracles isp cands) (par : params) (G : good_params isp cands par) (Hp : is_params isp cands par).
  Notation N := (pa_degree par).
  Notation shaped := (some_parts isp cands par).
  Set Default Proof Using "All".
  Lemma mk_shaped l lv c sd (vxs : list (bool * Rn N)) : at_level isp cands par l lv c -> shaped (mkCt par sd (parts c vxs) l).
  Proof. intros A. exists l, lv, c, vxs. split; [exact A|reflexivity]. Qed.
  Lemma all_shaped l lv c sd ps : at_level isp cands par l lv c -> all_P c N ps -> shaped (mkCt par sd ps l).
  Proof. intros A (vxs & ->). apply (mk_shaped l lv c sd vxs A). Qed.
  Lemma two_level a b : shaped a -> shaped b -> ct_level a = ct_level b -> exists l lv c (vxs vys : list (bool * Rn N)), at_level isp cands par l lv c /\ a = mkCt par (ct_seed a) (parts c vxs) l /\ b = mkCt par (ct_seed b) (parts c vys) l.
  Proof.
    intros (l & lv & c & vxs & A & Ea) (l' & lv' & c' & vys & A' & Eb) E. rewrite Ea, Eb in E. cbn [ct_level] in E. subst l'. destruct (at_level_unique _ _ _ _ _ _ _ _ A A') as (<- & <-). exists l, lv, c, vxs, vys. auto.
  Qed.
  Lemma op2_shaped f a b r : (forall l lv c v w (x y : Rn N) p, at_level isp cands par l lv c -> f (P Ntt c v x) (P Ntt c w y) = Val p -> exists u (z : Rn N), p = P Ntt c u z) ->
    shaped a -> shaped b -> ct_op2 f a b = Val r -> shaped r.
  Proof.
    intros Hf Ha Hb H. unfold ct_op2 in H. apply bind_inv in H. destruct H as (? & El & H). apply guard_inv in El. apply Nat.eqb_eq in El. apply bind_inv in H. destruct H as (? & _ & H). apply bind_inv in H. destruct H as (ps & Hps & H). injection H as <-.
    destruct (two_level a b Ha Hb El) as (l & lv & c & vxs & vys & A & Ea & Eb). rewrite Ea, Eb in Hps. rewrite Ea. cbn [ct_c ct_par ct_level] in *. apply (all_shaped l lv c); [exact A|]. clear -Hps Hf A Ho G Hp.
    apply (all_P_Forall c (good_ok _ (al_good _ _ _ _ _ _ A)) N (al_deg _ _ _ _ _ _ A)). revert ps vys Hps. induction vxs as [|(v & x) vxs IH]; intros ps [|(w & y) vys] H; cbn [parts map map2M fst snd] in H; try discriminate; [injection H as <-; constructor..|].
    apply bind_inv in H. destruct H as (p & E1 & H). apply bind_inv in H. destruct H as (ps' & E2 & H). injection H as <-. constructor; [exact (Hf l lv c v w x y p A E1)|exact (IH ps' vys E2)].
  Qed.
  Lemma neg_shaped a r : shaped a -> ct_neg a = Val r -> shaped r.
  Proof. intros (l & lv & c & vxs & A & ->) H. rewrite (ct_neg_P isp cands par l lv c Ho G A) in H. injection H as <-. apply (mk_shaped l lv c _ _ A). Qed.
  Lemma add_ok l lv c v w (x y : Rn N) p : at_level isp cands par l lv c -> poly_add (P Ntt c v x) (P Ntt c w y) = Val p -> exists u (z : Rn N), p = P Ntt c u z.
  Proof. intros A H. rewrite (P_add c (good_ok _ (al_good _ _ _ _ _ _ A)) N (al_deg _ _ _ _ _ _ A)) in H by discriminate. injection H as <-. eauto. Qed.
  Lemma sub_ok l lv c v w (x y : Rn N) p : at_level isp cands par l lv c -> poly_sub (P Ntt c v x) (P Ntt c w y) = Val p -> exists u (z : Rn N), p = P Ntt c u z.
  Proof. intros A H. rewrite (P_sub c (good_ok _ (al_good _ _ _ _ _ _ A)) N (al_deg _ _ _ _ _ _ A)) in H by discriminate. injection H as <-. eauto. Qed.
  Lemma add_shaped a b r : shaped a -> shaped b -> ct_add a b = Val r -> shaped r.
  Proof.
    intros Ha Hb H. unfold ct_add in H. apply bind_inv in H. destruct H as (? & _ & H). destruct (is_empty a); [injection H as <-; exact Hb|]. destruct (is_empty b); [injection H as <-; exact Ha|]. exact (op2_shaped poly_add a b r add_ok Ha Hb H).
  Qed.
  Lemma sub_shaped a b r : shaped a -> shaped b -> ct_sub a b = Val r -> shaped r.
  Proof.
    intros Ha Hb H. unfold ct_sub in H. apply bind_inv in H. destruct H as (? & _ & H). destruct (is_empty a); [exact (neg_shaped b r Hb H)|]. destruct (is_empty b); [injection H as <-; exact Ha|]. exact (op2_shaped poly_sub a b r sub_ok Ha Hb H).
  Qed.
  Lemma to_poly_shaped pt m : usable_pt par pt -> to_poly pt = Val m -> exists l lv c v (x : Rn N), at_level isp cands par l lv c /\ pt_level pt = Val l /\ m = P Ntt c v x.
  Proof.
    intros (l & y & Hl & Hpt & HtQ) H. destruct (at_level_ex isp cands par l Ho G Hl) as (lv & c & A). destruct (pt_P isp cands Ho par G l lv c A pt y Hpt) as (x & E & Ex). rewrite E in H |- *. unfold P in H |- *. rewrite (to_poly_eq isp cands par G l lv c A _ _ (rl x) (rl_length x) HtQ) in H.
    assert (L : length (map (fun a => level_modulus par l * a / pa_t par) (coeffs_of par l (rl x))) = N) by (rewrite map_length; unfold coeffs_of; rewrite ?map_length; apply rl_length).
    exists l, lv, c, false, (mkR _ L). split; [exact A|]. split; [exact (pt_level_eq isp cands par l lv c A _ _ (rl x))|]. injection H as <-. reflexivity.
  Qed.
  Lemma op_pt_shaped f a pt r : (forall l lv c v w (x y : Rn N) p, at_level isp cands par l lv c -> f (P Ntt c v x) (P Ntt c w y) = Val p -> exists u (z : Rn N), p = P Ntt c u z) ->
    shaped a -> usable_pt par pt -> ct_op_pt f a pt = Val r -> shaped r.
  Proof.
    intros Hf (l & lv & c & vxs & A & ->) Hpt H. unfold ct_op_pt in H. do 2 (apply bind_inv in H; destruct H as (? & _ & H)). apply bind_inv in H. destruct H as (lp & Elp & H). apply bind_inv in H. destruct H as (? & El & H). apply guard_inv in El. apply Nat.eqb_eq in El. cbn [ct_level] in El.
    apply bind_inv in H. destruct H as (m & Em & H). destruct (to_poly_shaped pt m Hpt Em) as (l' & lv' & c' & v & xx & A' & El' & ->). rewrite Elp in El'. injection El' as <-. subst lp. destruct (at_level_unique _ _ _ _ _ _ _ _ A A') as (<- & <-). cbn [ct_c ct_par ct_level] in H.
    destruct vxs as [|(w & y) vxs]; cbn [parts map fst snd] in H; [discriminate|]. apply bind_inv in H. destruct H as (p & Ep & H). injection H as <-. destruct (Hf _ _ _ _ _ _ _ _ A Ep) as (u & z & ->). exact (mk_shaped l lv c None ((u, z) :: vxs) A).
  Qed.
  Lemma mul_pt_shaped a pt r : shaped a -> any_pt par pt -> ct_mul_pt a pt = Val r -> shaped r.
  Proof.
    intros (l & lv & c & vxs & A & ->) (l' & m & Hl' & Hpt) H. destruct vxs as [|vx vxs].
    - unfold ct_mul_pt in H. apply bind_inv in H. destruct H as (? & _ & H). cbn [parts map is_empty ct_c length Nat.eqb ct_par ct_level] in H. injection H as <-. exact (mk_shaped l lv c None [] A).
    - destruct (at_level_ex isp cands par l' Ho G Hl') as (lv' & c' & A'). destruct (pt_P isp cands Ho par G l' lv' c' A' pt m Hpt) as (x & E & _). rewrite E in H. pose proof H as H'. unfold ct_mul_pt in H'. apply bind_inv in H'. destruct H' as (? & _ & H'). cbn [is_empty ct_c parts map length Nat.eqb ct_level] in H'.
      unfold P in H' at 1. rewrite (pt_level_eq isp cands par l' lv' c' A') in H'. cbn [bind] in H'. apply bind_inv in H'. destruct H' as (? & El & _). apply guard_inv in El. apply Nat.eqb_eq in El. subst l'. destruct (at_level_unique _ _ _ _ _ _ _ _ A A') as (<- & <-).
      rewrite (ct_mul_pt_P isp cands par l lv c Ho G A) in H by discriminate. match type of H with Val ?y = Val _ => replace r with y by congruence end. apply (mk_shaped l lv c _ _ A).
  Qed.
  Lemma level_at l lv c : at_level isp cands par l lv c -> no_err (context_level_at par l) = Val lv.
  Proof. intros A. unfold context_level_at. rewrite (al_lv _ _ _ _ _ _ A). reflexivity. Qed.
  Lemma mul_core_shaped l lv c (vxs vys : list (bool * Rn N)) sa sb p r : at_level isp cands par l lv c -> mapM (poly_scale (mp_extender (lv_mul lv))) (parts c vxs) = Val sa -> mapM (poly_scale (mp_extender (lv_mul lv))) (parts c vys) = Val sb ->
    mul_parts (mp_to (lv_mul lv)) sa sb = Val p -> mapM (poly_scale (mp_down (lv_mul lv))) p = Val r -> all_P c N r.
  Proof.
    intros A E1 E2 E3 E4. destruct (mul_basis isp cands Ho par G l lv c A) as (ext & Gt & Ed & _ & _ & _ & _ & _ & _ & Eu & Edn). pose proof (good_ok _ (al_good _ _ _ _ _ _ A)) as Hc. pose proof (good_ok _ Gt) as Ht. pose proof (al_deg _ _ _ _ _ _ A) as Hd.
    assert (F1 : all_P (mp_to (lv_mul lv)) N sa) by (eapply (scale_all_P c _ Hc Ht N); [exact Hd|exact Ed|exact Eu|eexists; reflexivity|exact E1]).
    assert (F2 : all_P (mp_to (lv_mul lv)) N sb) by (eapply (scale_all_P c _ Hc Ht N); [exact Hd|exact Ed|exact Eu|eexists; reflexivity|exact E2]).
    pose proof (mul_parts_P _ Ht N Ed sa sb p F1 F2 E3) as F3. eapply (scale_all_P _ c Ht Hc N); [exact Ed|exact Hd|exact Edn|exact F3|exact E4].
  Qed.
  Lemma mul_shaped a b r : shaped a -> shaped b -> ct_mul a b = Val r -> shaped r.
  Proof.
    intros Ha Hb H. unfold ct_mul in H. destruct (is_empty a); [injection H as <-; exact Ha|]. destruct (ct_eqb b a) eqn:Eab.
    - assert (Elev : ct_level b = ct_level a) by (unfold ct_eqb in Eab; apply andb_prop in Eab; destruct Eab as (_ & Eab); apply Nat.eqb_eq, Eab). clear Hb. destruct Ha as (l & lv & c & vxs & A & Ea). rewrite Ea in H, Elev. cbn [ct_par ct_level ct_c] in H, Elev. rewrite (level_at l lv c A) in H. cbn [bind] in H.
      apply bind_inv in H. destruct H as (sa & E1 & H). apply no_err_inv in E1. apply bind_inv in H. destruct H as (p & E2 & H). apply bind_inv in H. destruct H as (q & E3 & H). apply no_err_inv in E3. injection H as <-. rewrite ?Elev.
      apply (all_shaped l lv c); [exact A|]. exact (mul_core_shaped l lv c vxs vxs sa sa p q A E1 E1 E2 E3).
    - apply bind_inv in H. destruct H as (? & _ & H). apply bind_inv in H. destruct H as (? & El & H). apply guard_inv in El. apply Nat.eqb_eq in El. destruct (two_level a b Ha Hb El) as (l & lv & c & vxs & vys & A & Ea & Eb). rewrite Ea, Eb in H. cbn [ct_par ct_level ct_c] in H. rewrite (level_at l lv c A) in H. cbn [bind] in H.
      apply bind_inv in H. destruct H as (sa & E1 & H). apply no_err_inv in E1. apply bind_inv in H. destruct H as (sb & E1' & H). apply no_err_inv in E1'. apply bind_inv in H. destruct H as (p & E2 & H). apply bind_inv in H. destruct H as (q & E3 & H). apply no_err_inv in E3. injection H as <-.
      apply (all_shaped l lv c); [exact A|]. exact (mul_core_shaped l lv c vxs vys sa sb p q A E1 E1' E2 E3).
  Qed.
  Lemma down_shaped a r : shaped a -> ct_switch_down a = Val r -> shaped r.
  Proof.
    intros (l & lv & c & vxs & A & ->) H. assert (Hl : (S l <= max_level par)%nat). { unfold ct_switch_down in H. cbn [ct_par ct_level] in H. destruct (Nat.leb_spec (max_level par) l); [discriminate|lia]. }
    destruct (at_level_ex isp cands par (S l) Ho G Hl) as (lv' & c' & A'). rewrite (ct_switch_down_P isp cands par l lv c Ho G A lv' c' _ _ A') in H. injection H as <-. apply (mk_shaped (S l) lv' c' _ _ A').
  Qed.
  Lemma iter_shaped n : forall a r, shaped a -> iterM n ct_switch_down a = Val r -> shaped r.
  Proof. induction n as [|n IH]; intros a r Ha H; cbn [iterM] in H; [injection H as <-; exact Ha|]. apply bind_inv in H. destruct H as (b & E & H). exact (IH b r (down_shaped a b Ha E) H). Qed.
  Lemma level_shaped a l r : shaped a -> ct_switch_to_level a l = Val r -> shaped r.
  Proof. intros Ha H. unfold ct_switch_to_level in H. destruct (_ || _); [discriminate|]. exact (iter_shaped _ a r Ha H). Qed.
  Lemma dot_valid first cts pt0 pts c u u' : Forall shaped (first :: cts) -> Forall (any_pt par) (pt0 :: pts) -> length (first :: cts) = length (pt0 :: pts) -> ct_validate_for first (ct_par first) = Val u -> par_context (ct_par first) (ct_level first) = Val c ->
    dp_validate first c (combine (first :: cts) (pt0 :: pts)) = Val u' -> exists ct, dot_product_scalar (first :: cts) (pt0 :: pts) = Val ct /\ shaped ct.
  Proof.
    intros Hcts Hpts Elen Hv Ec Hdp.
    pose proof Hcts as Hcts'. apply Forall_inv in Hcts'. destruct Hcts' as (l & lv & c0 & vxs & A & Ef). rewrite Ef in Hv, Hdp, Ec. cbn [ct_par ct_level] in Hv, Hdp, Ec. rewrite (al_par_context isp cands par l lv c0 A) in Ec. injection Ec as <-.
    assert (Hk : (2 <= length vxs)%nat). { unfold ct_validate_for in Hv. cbn [ct_par ct_level] in Hv. destruct (negb _); [discriminate|]. rewrite (al_par_context isp cands par l lv c0 A) in Hv. cbn [bind] in Hv. unfold ct_validate_context in Hv. cbn [ct_c] in Hv. rewrite parts_length in Hv. destruct (Nat.ltb_spec (length vxs) 2); [discriminate|lia]. }
    set (first' := mkCt par (ct_seed first) (parts c0 vxs) l) in *.
    assert (exists zs : list (ciphertext * list (list Z) * plaintext * list Z), map (fun '(ct, _, _, _) => ct) zs = first :: cts /\ map (fun '(_, _, pt, _) => pt) zs = pt0 :: pts /\ Forall (fun '(ct, xs, pt, m) => is_ct par l ct xs /\ length xs = length vxs /\ is_pt par l pt m) zs) as (zs & E1 & E2 & HF).
    { assert (El : ct_level first' = l) by reflexivity. assert (Elc : length (ct_c first') = length vxs) by apply parts_length. assert (Ef' : first = first') by exact Ef. clear Ef Hv. clearbody first'. assert (GG : forall cts pts u, Forall shaped cts -> Forall (any_pt par) pts -> dp_validate first' c0 (combine cts pts) = Val u -> length cts = length pts -> exists zs : list (ciphertext * list (list Z) * plaintext * list Z), map (fun '(ct, _, _, _) => ct) zs = cts /\ map (fun '(_, _, pt, _) => pt) zs = pts /\ Forall (fun '(ct, xs, pt, m) => is_ct par l ct xs /\ length xs = length vxs /\ is_pt par l pt m) zs); [|rewrite Ef' in Hcts |- *; exact (GG _ _ _ Hcts Hpts Hdp Elen)].
      clear Hcts Hpts Hdp Elen. intros cts1. induction cts1 as [|ct cts1 IH]; intros pts1 u0 Hcts Hpts Hdp Elen; (destruct pts1 as [|pt pts1]; [try discriminate|try discriminate]).
      - exists []. repeat split; constructor.
      - cbn [combine dp_validate] in Hdp. apply bind_inv in Hdp. destruct Hdp as (? & V1 & Hdp). apply bind_inv in Hdp. destruct Hdp as (? & V2 & Hdp). apply bind_inv in Hdp. destruct Hdp as (? & V3 & Hdp). pose proof (Forall_inv Hcts) as Hct. pose proof (Forall_inv_tail Hcts) as Hcts'. pose proof (Forall_inv Hpts) as Hpt. pose proof (Forall_inv_tail Hpts) as Hpts'.
        destruct (IH pts1 _ Hcts' Hpts' Hdp ltac:(cbn [length] in Elen; lia)) as (zs & F1 & F2 & F3). destruct Hpt as (l' & m & Hl' & Hpt). assert (l' = l).
        { destruct (at_level_ex isp cands par l' Ho G Hl') as (lv' & c' & A'). destruct (pt_P isp cands Ho par G l' lv' c' A' pt m Hpt) as (x' & E & _). rewrite E in V2. unfold pt_validate_for_context, pt_validate_context in V2. destruct (negb _); [discriminate|]. unfold P in V2 at 1. rewrite (pt_level_eq isp cands par l' lv' c' A') in V2. cbn [bind] in V2. rewrite El in V2. destruct (Nat.eqb_spec l' l); [assumption|discriminate]. }
        subst l'. destruct Hct as (l2 & lv2 & c2 & vys & A2 & Ect). assert (l2 = l /\ length vys = length vxs) as (-> & Ly).
        { rewrite Ect in V1, V3. split.
          - unfold ct_validate_for_context, ct_validate_context in V1. cbn [ct_par ct_c ct_level] in V1. destruct (negb _); [discriminate|]. destruct (Nat.ltb _ _); [discriminate|]. rewrite El in V1. destruct (Nat.eqb_spec l2 l); [assumption|discriminate].
          - cbn [ct_c] in V3. rewrite parts_length, Elc in V3. destruct (Nat.eqb_spec (length vys) (length vxs)); [assumption|discriminate]. }
        exists ((ct, map rl (map snd vys), pt, m) :: zs). cbn [map]. rewrite F1, F2. split; [reflexivity|]. split; [reflexivity|]. constructor; [|exact F3]. split; [rewrite Ect; apply (parts_ct isp cands Ho par G l lv2 c2 A2)|]. split; [rewrite !map_length; exact Ly|exact Hpt]. }
    assert (Hne : zs <> []) by (intros ->; discriminate). destruct (dot_all isp cands par Ho Hp l (at_level_bound isp cands par l lv c0 G A) (length vxs) zs Hne Hk HF) as (ct & E & _ & Hct & _). rewrite E1, E2 in E. exists ct. split; [exact E|].
    apply (any_some isp cands Ho par G). eexists l, _. split; [exact (at_level_bound isp cands par l lv c0 G A)|]. eexists. split; [exact Hct|reflexivity].
  Qed.
  Lemma dot_shaped cts pts r : Forall shaped cts -> Forall (any_pt par) pts -> dot_product_scalar cts pts = Val r -> shaped r.
  Proof.
    intros Hcts Hpts H. destruct cts as [|first cts]; [discriminate|]. destruct pts as [|pt0 pts]; [discriminate|]. pose proof H as HV. unfold dot_product_scalar in H.
    destruct (Nat.eqb_spec (length (first :: cts)) (length (pt0 :: pts))) as [Elen|]; [|discriminate]. cbn [negb] in H. apply bind_inv in H. destruct H as (? & Hv & H). apply bind_inv in H. destruct H as (c & Ec & H). cbv zeta in H. apply bind_inv in H. destruct H as (? & Hdp & _).
    destruct (dot_valid first cts pt0 pts c _ _ Hcts Hpts Elen Hv Ec Hdp) as (ct & E & Hs). rewrite HV in E. injection E as <-. exact Hs.
  Qed.
  (** Multiplicators *)
  Definition mult_ok (m : multiplicator) : Prop := exists l lv c f1 f2 f3, at_level isp cands par l lv c /\ m_par m = par /\ m_level m = l /\ m_base m = c /\ ctx_ok (m_mul m) /\ c_degree (m_mul m) = N /\
    poly_scaler_new c (m_mul m) f1 = Val (m_lhs m) /\ poly_scaler_new c (m_mul m) f2 = Val (m_rhs m) /\ poly_scaler_new (m_mul m) c f3 = Val (m_down m) /\
    match m_rk m with None => True | Some rk => safe_key par l c rk end.
  Lemma multiplier_ok m : multiplier isp cands par m -> mult_ok m.
  Proof.
    induction 1 as [lhs rhs basis post l m Hl H|m l1 l2 rk m' _ IH Hk Hf H|m m' _ IH H].
    - destruct (at_level_ex isp cands par l Ho G Hl) as (lv & c & A). unfold mult_new in H. rewrite (al_par_context isp cands par l lv c A) in H. cbn [bind] in H. apply bind_inv in H. destruct H as (mc & Emc & H). destruct (context_new_good isp (proj1 Ho) cands (proj2 Ho) _ _ _ Emc) as (Gm & _ & Dm).
      apply bind_inv in H. destruct H as (el & E1 & H). apply bind_inv in H. destruct H as (er & E2 & H). apply bind_inv in H. destruct H as (ds & E3 & H). injection H as <-. exists l, lv, c, lhs, rhs, post. cbn [m_par m_level m_base m_mul m_lhs m_rhs m_down m_rk]. pose proof (good_ok _ Gm). auto 12.
    - destruct IH as (l & lv & c & f1 & f2 & f3 & A & E1 & E2 & E3 & E4 & E5 & E6 & E7 & E8 & _). unfold mult_enable_relin in H. rewrite E1 in H. apply bind_inv in H. destruct H as (c1 & Ec & H). destruct (ctx_eqb c1 (m_base m)) eqn:Ecc; [|discriminate]. cbn [negb] in H. injection H as <-.
      exists l, lv, c, f1, f2, f3. cbn [m_par m_level m_base m_mul m_lhs m_rhs m_down m_rk]. repeat (split; [first [assumption|reflexivity]|]). pose proof Hk as (_ & Kl & _ & Hl1 & _). rewrite Kl in Ec. destruct (at_level_ex isp cands par l1 Ho G Hl1) as (lv1 & c1' & A1). rewrite (al_par_context isp cands par l1 lv1 c1' A1) in Ec. injection Ec as <-.
      rewrite E3 in Ecc. apply ctx_eqb_true in Ecc. destruct Ecc as (Em & _). rewrite (al_mod _ _ _ _ _ _ A1), (al_mod _ _ _ _ _ _ A) in Em. apply (f_equal (@length Z)) in Em. pose proof (al_lt _ _ _ _ _ _ A) as L0. pose proof (al_lt _ _ _ _ _ _ A1) as L1. unfold level_moduli in Em. rewrite !firstn_length in Em. assert (El : l1 = l) by lia. clear - A Hk Hf El Ho G. rewrite El in Hk. exact (shape_safe isp cands Ho par G l l2 rk lv c A Hk Hf).
    - destruct IH as (l & lv & c & f1 & f2 & f3 & A & E1 & E2 & E3 & E4 & E5 & E6 & E7 & E8 & E9). unfold mult_enable_switch in H. apply bind_inv in H. destruct H as (c1 & _ & H). destruct (ctx_eqb c1 (m_base m)); [discriminate|]. injection H as <-. exists l, lv, c, f1, f2, f3. cbn [m_par m_level m_base m_mul m_lhs m_rhs m_down m_rk]. auto 12.
  Qed.
  Lemma multiply_shaped m a b r : multiplier isp cands par m -> shaped a -> shaped b -> mult_multiply m a b = Val r -> shaped r.
  Proof.
    intros Hm Ha Hb HH. rename HH into H. destruct (multiplier_ok m Hm) as (l & lv & c & f1 & f2 & f3 & A & E1 & E2 & E3 & Hmc & Hmd & S1 & S2 & S3 & Hrk). unfold mult_multiply in H. apply bind_inv in H. destruct H as (u1 & _ & H). apply bind_inv in H. destruct H as (u2 & _ & H). rewrite E1, E2 in H.
    destruct (Nat.eqb_spec (ct_level a) l) as [La|]; [|discriminate]. destruct (Nat.eqb_spec (ct_level b) l) as [Lb|]; [|discriminate]. cbn [negb] in H. pose proof (good_ok _ (al_good _ _ _ _ _ _ A)) as Hc. pose proof (al_deg _ _ _ _ _ _ A) as Hd.
    destruct (some_level isp cands Ho par G l lv c A a Ha La) as (vxs & Ea). destruct (some_level isp cands Ho par G l lv c A b Hb Lb) as (vys & Eb). rewrite Ea, Eb in H. cbn [ct_c] in H. destruct vxs as [|(v0 & x0) [|(v1 & x1) [|? ?]]]; try discriminate. destruct vys as [|(w0 & y0) [|(w1 & y1) [|? ?]]]; try discriminate. cbn [parts map fst snd] in H.
    apply bind_inv in H. destruct H as (p & Q0 & H). destruct (scale_P c _ Hc Hmc N f1 _ v0 x0 p Hd S1 Q0) as (_ & u00 & a00 & ->). apply bind_inv in H. destruct H as (p & Q1 & H). destruct (scale_P c _ Hc Hmc N f1 _ v1 x1 p Hd S1 Q1) as (_ & u01 & a01 & ->).
    apply bind_inv in H. destruct H as (p & Q2 & H). destruct (scale_P c _ Hc Hmc N f2 _ w0 y0 p Hd S2 Q2) as (_ & u10 & a10 & ->). apply bind_inv in H. destruct H as (p & Q3 & H). destruct (scale_P c _ Hc Hmc N f2 _ w1 y1 p Hd S2 Q3) as (_ & u11 & a11 & ->).
    rewrite !(P_mul _ Hmc N Hmd) in H. cbn [bind] in H. rewrite (P_add _ Hmc N Hmd) in H by discriminate. cbn [bind] in H.
    apply bind_inv in H. destruct H as (p & F0 & H). destruct (scale_P _ c Hmc Hc N f3 _ _ _ p Hmd S3 F0) as (_ & t0 & b0 & ->). apply bind_inv in H. destruct H as (p & F1 & H). destruct (scale_P _ c Hmc Hc N f3 _ _ _ p Hmd S3 F1) as (_ & t1 & b1 & ->). apply bind_inv in H. destruct H as (p & F2 & H). destruct (scale_P _ c Hmc Hc N f3 _ _ _ p Hmd S3 F2) as (_ & t2 & b2 & ->).
    apply bind_inv in H. destruct H as (ps & Eps & H). assert (HP : all_P c N ps).
    { destruct (m_rk m) as [rk|]; [|injection Eps as <-; exists [(t0, b0); (t1, b1); (t2, b2)]; reflexivity]. rewrite (P_ntt_pb c Hc N Hd) in Eps. cbn [bind] in Eps. rewrite !P_ctx, (bind_assoc isp cands Ho par G l lv c A) in Eps. apply bind_inv in Eps. destruct Eps as (pr & Epr & Eps).
      destruct Hrk as (_ & _ & HK). destruct (safe_val _ _ _ (proj1 (HK t2 b2)) Epr) as (z0 & z1 & d0 & d1 & ->). cbn [fst snd] in Eps. rewrite !(P_add c Hc N Hd) in Eps by discriminate. cbn [bind] in Eps. injection Eps as <-. exists [((t0 && z0)%bool, (b0 + d0)%R); ((t1 && z1)%bool, (b1 + d1)%R)]. reflexivity. }
    cbv zeta in H. pose proof (all_shaped l lv c None ps A HP) as Hs. destruct (m_switch m); [exact (down_shaped _ r Hs H)|injection H as <-; exact Hs].
  Qed.
  Lemma some_ct_shaped l n ct : (l <= max_level par)%nat -> some_ct par l n ct -> shaped ct.
  Proof. intros Hl H. apply (any_some isp cands Ho par G). exists l, n. auto. Qed.
  Lemma rgsw_shaped l g a r : rgsw_shape par l g -> base_fits (r_ksk0 g) -> base_fits (r_ksk1 g) -> shaped a -> ct_mul_rgsw a g = Val r -> shaped r.
  Proof.
    intros Hg H0 H1 Ha H. pose proof Hg as ((_ & El & _ & Hl & _) & _). destruct (at_level_ex isp cands par l Ho G Hl) as (lv & c & A). pose proof H as H'. unfold ct_mul_rgsw in H'. apply bind_inv in H'. destruct H' as (? & _ & H'). apply bind_inv in H'. destruct H' as (? & La & H'). apply guard_inv in La. apply Nat.eqb_eq in La. rewrite El in La. apply bind_inv in H'. destruct H' as (? & L2 & _). apply guard_inv in L2. apply Nat.eqb_eq in L2.
    destruct (some_level isp cands Ho par G l lv c A a Ha La) as (vxs & Ea). assert (Ha2 : some_ct par l 2 a). { rewrite Ea in L2 |- *. cbn [ct_c] in L2. rewrite parts_length in L2. eexists. split; [apply (parts_ct isp cands Ho par G l lv c A)|]. rewrite !map_length. exact L2. }
    destruct (rgsw_safe_all isp cands par Ho Hp l g Hg H0 H1 a Ha2) as (r' & E & _ & Hr). rewrite H in E. injection E as <-. exact (some_ct_shaped l 2 r Hl Hr).
  Qed.
  Theorem result_shaped ins r : result isp cands par ins r -> Forall shaped ins -> shaped r.
  Proof.
    intros [a b r' H|a b r' H|a r' H|a pt r' Hpt H|a pt r' Hpt H|a pt r' Hpt H|a pt r' Hpt H|a b r' H|cts pts r' Hpts H|m a b r' Hm H|a r' H|a l r' H|k l1 l2 a r' Hk Hf H|g l1 l2 a r' Hk Hf H|ek l a r' Hk Hf H|ek l a i r' Hk Hf H|ek l a r' Hk Hf H|ek l a size rs r' Hk Hf H Hin|a l g r' Hk H0 H1 H] Hs;
      try (pose proof (Forall_inv Hs) as Ha); try (pose proof (Forall_inv (Forall_inv_tail Hs)) as Hb).
    - exact (add_shaped a b r' Ha Hb H).
    - exact (sub_shaped a b r' Ha Hb H).
    - exact (neg_shaped a r' Ha H).
    - exact (op_pt_shaped poly_add a pt r' add_ok Ha Hpt H).
    - exact (op_pt_shaped poly_sub a pt r' sub_ok Ha Hpt H).
    - unfold pt_sub_ct in H. apply bind_inv in H. destruct H as (x & E & H). exact (neg_shaped x r' (op_pt_shaped poly_sub a pt x sub_ok Ha Hpt E) H).
    - exact (mul_pt_shaped a pt r' Ha Hpt H).
    - exact (mul_shaped a b r' Ha Hb H).
    - exact (dot_shaped cts pts r' Hs Hpts H).
    - exact (multiply_shaped m a b r' Hm Ha Hb H).
    - exact (down_shaped a r' Ha H).
    - exact (level_shaped a l r' Ha H).
    - pose proof Hk as (_ & _ & _ & Hl & _). apply (some_ct_shaped l1 2 r' Hl). exact (safe_val _ _ _ (relinearizes_safe_all isp cands par Ho Hp l1 l2 k Hk Hf a (some_any isp cands Ho par G a Ha)) H).
    - pose proof Hk as ((_ & _ & _ & Hl & _) & _). apply (some_ct_shaped l1 2 r' Hl). exact (safe_val _ _ _ (proj1 (galois_safe_all isp cands par Ho Hp l1 l2 g Hk Hf a (some_any isp cands Ho par G a Ha))) H).
    - pose proof Hk as (_ & _ & Hl & _). apply (some_ct_shaped l 2 r' Hl). exact (safe_val _ _ _ (proj1 (ek_safe_all isp cands par Ho Hp l ek Hk Hf a (some_any isp cands Ho par G a Ha))) H).
    - pose proof Hk as (_ & _ & Hl & _). apply (some_ct_shaped l 2 r' Hl). exact (safe_val _ _ _ (proj1 (proj2 (ek_safe_all isp cands par Ho Hp l ek Hk Hf a (some_any isp cands Ho par G a Ha))) i) H).
    - pose proof Hk as (_ & _ & Hl & _). apply (some_ct_shaped l 2 r' Hl). exact (safe_val _ _ _ (proj1 (proj2 (proj2 (ek_safe_all isp cands par Ho Hp l ek Hk Hf a (some_any isp cands Ho par G a Ha))))) H).
    - pose proof (safe_val _ _ _ (proj2 (proj2 (proj2 (ek_safe_all isp cands par Ho Hp l ek Hk Hf a (some_any isp cands Ho par G a Ha)))) size) H) as F. rewrite Forall_forall in F. exact (any_some isp cands Ho par G r' (F r' Hin)).
    - exact (rgsw_shaped l g a r' Hk H0 H1 Ha H).
  Qed.
  (** Created ciphertexts *)
  Definition good_seed (expand : expander) (ct : ciphertext) : Prop := seed_faithful expand ct /\ (ct_seed ct <> None -> length (ct_c ct) = 2%nat).
  Lemma no_seed expand ct : ct_seed ct = None -> good_seed expand ct.
  Proof. intros E. split; [intros sd H; congruence|congruence]. Qed.
  Lemma same_level l lv c l' lv' c' : at_level isp cands par l lv c -> at_level isp cands par l' lv' c' -> ctx_eqb c c' = true -> c' = c.
  Proof.
    intros A A' Ecc. apply ctx_eqb_true in Ecc. destruct Ecc as (Em & _). rewrite (al_mod _ _ _ _ _ _ A'), (al_mod _ _ _ _ _ _ A) in Em. apply (f_equal (@length Z)) in Em. pose proof (al_lt _ _ _ _ _ _ A) as L0. pose proof (al_lt _ _ _ _ _ _ A') as L1. unfold level_moduli in Em. rewrite !firstn_length in Em.
    assert (El : l' = l) by lia. subst l'. destruct (at_level_unique _ _ _ _ _ _ _ _ A A') as (_ & E). symmetry. exact E.
  Qed.
  Theorem created_ok expand ct : serializable par -> expands_well expand -> created expand par ct -> shaped ct /\ good_seed expand ct.
  Proof.
    intros Hser Hx [|sk pt sd rng ct' Hsk Hpt Hsd Hw H|pk pt ru r1 r2 ct' Hpk Hpt W0 W1 W2 H|ps l ct' Hl Hps H|m ct' Hm Hone H].
    - destruct (at_level_ex isp cands par 0 Ho G (Nat.le_0_l _)) as (lv & c & A). split; [exact (mk_shaped 0 lv c None [] A)|apply no_seed; reflexivity].
    - unfold sk_encrypt in H. apply bind_inv in H. destruct H as (? & _ & H). apply bind_inv in H. destruct H as (m & Em & H). destruct (to_poly_shaped pt m Hpt Em) as (l & lv & c & v & xx & A & _ & ->). destruct Hsk as (E1 & E2 & E3).
      destruct (encrypt_poly_P isp cands par l lv c Ho G A expand sk E2 sd rng v xx Hx Hw E1 E3) as (a & Ea & E). rewrite E in H. match type of H with Val ?y = Val _ => replace ct' with y by congruence end. split; [apply (mk_shaped l lv c _ _ A)|]. split; [|intros _; reflexivity].
      intros sd' Es. cbn [ct_seed] in Es. injection Es as <-. split; [exact Hsd|]. cbn [ct_c ct_par ct_level parts map fst snd]. eexists [_], _, c. split; [reflexivity|]. split; [exact (al_par_context isp cands par l lv c A)|].
      unfold poly_from_seed in Ea. injection Ea as Ea. assert (F : p_coeffs (P Ntt c false a) = expand sd (c_moduli c) (c_degree c)) by (unfold P, poly_of; cbn [p_coeffs]; symmetry; exact Ea). exact F.
    - destruct pk as [pp pc]. destruct Hpk as (Ep & n & Hn & Hpc). cbn [pk_par pk_c] in *. subst pp. assert (Spc : shaped pc) by exact (some_ct_shaped 0 n pc (Nat.le_0_l _) Hpc). unfold pk_encrypt in H. cbn [pk_par pk_c] in H. cbv zeta in H. do 2 (apply bind_inv in H; destruct H as (? & _ & H)). apply bind_inv in H. destruct H as (pl & Epl & H). destruct (Nat.ltb _ _); [discriminate|].
      apply bind_inv in H. destruct H as (ctw & Ect & H). destruct (iter_shaped _ _ _ Spc Ect) as (l & lv & c & vxs & A & E). rewrite E in H. cbn [ct_level ct_c] in H. rewrite (al_par_context isp cands par l lv c A) in H. cbn [bind] in H. pose proof (good_ok _ (al_good _ _ _ _ _ _ A)) as Hc. pose proof (al_deg _ _ _ _ _ _ A) as Hd.
      rewrite !(P_small c Hc N Hd Ntt (pa_variance par)) in H by (assumption || exact (var_good isp cands par l lv c Ho G A)). cbn [bind] in H. apply bind_inv in H. destruct H as (m & Em & H). destruct (to_poly_shaped pt m Hpt Em) as (l' & lv' & c' & v & xx & A' & El' & ->).
      apply bind_inv in H. destruct H as (a0 & Ea0 & H). destruct (get_P c Hc N Hd _ _ _ (ex_intro _ vxs eq_refl) Ea0) as (u0 & y0 & ->). rewrite (P_mul c Hc N Hd) in H. cbn [bind] in H. rewrite (P_add c Hc N Hd) in H by discriminate. cbn [bind] in H. apply bind_inv in H. destruct H as (c0 & Ec0 & H).
      assert (Epc : c' = c). { apply (same_level l lv c l' lv' c' A A'). unfold poly_add, poly_op2 in Ec0. destruct (ctx_eqb c c') eqn:Ecc; [reflexivity|]. rewrite !P_ctx, Ecc in Ec0. discriminate. }
      subst c'. rewrite (P_add c Hc N Hd) in Ec0 by discriminate. injection Ec0 as <-. apply bind_inv in H. destruct H as (a1 & Ea1 & H). destruct (get_P c Hc N Hd _ _ _ (ex_intro _ vxs eq_refl) Ea1) as (u1 & y1 & ->). rewrite (P_mul c Hc N Hd) in H. cbn [bind] in H. rewrite (P_add c Hc N Hd) in H by discriminate. cbn [bind] in H.
      match type of H with Val ?y = Val _ => replace ct' with y by congruence end. split; [|apply no_seed; reflexivity]. rewrite !P_allow. apply (all_shaped l lv c); [exact A|]. eexists [(true, _); (true, _)]. reflexivity.
    - destruct (at_level_ex isp cands par l Ho G Hl) as (lv & c & A).
      assert (HP : all_P c N ps). { apply (all_P_Forall c (good_ok _ (al_good _ _ _ _ _ _ A)) N (al_deg _ _ _ _ _ _ A)). eapply Forall_impl; [|exact Hps]. intros p (x & Hpx). destruct (is_poly_P isp cands Ho par G l lv c A p x Hpx) as (y & -> & _). eauto. }
      destruct HP as (vxs & ->). destruct vxs as [|(v0 & x0) [|(v1 & x1) vxs]]; [discriminate..|]. unfold ct_new in H. cbn [parts map fst snd] in H. rewrite P_ctx, (al_level_of isp cands par l lv c A) in H. cbn [bind] in H. destruct (existsb _ _); [discriminate|].
      match type of H with Val ?y = Val _ => replace ct' with y by congruence end. split; [exact (mk_shaped l lv c None ((v0, x0) :: (v1, x1) :: vxs) A)|apply no_seed; reflexivity].
    - destruct (safe_val _ _ _ (ct_read_all isp cands par Ho Hp Hser expand Hx m Hm) H) as (_ & Hl & (n & _ & Hs) & Hf). split; [exact (some_ct_shaped _ n ct' Hl Hs)|]. split; [exact Hf|].
      intros Hsd. unfold ct_from_proto in H. cbv zeta in H. destruct (_ || _); [discriminate|]. destruct (_ <? _); [discriminate|]. apply bind_inv in H. destruct H as (c & _ & H). apply bind_inv in H. destruct H as (cs & Ecs & H). apply mapM_inv_Forall2 in Ecs. apply Forall2_len2 in Ecs. apply bind_inv in H. destruct H as ((sd & cs') & Es & H). injection H as <-. cbn [ct_seed ct_c] in *. rewrite map_length.
      destruct Hone as [E0|E1]; [rewrite E0 in Es; cbn [length Nat.eqb negb] in Es; injection Es as <- <-; congruence|]. destruct (negb _); [|injection Es as <- <-; congruence]. apply bind_inv in Es. destruct Es as (? & _ & Es). apply bind_inv in Es. destruct Es as (? & _ & Es). injection Es as <- <-. rewrite app_length. cbn [length]. lia.
  Qed.
  Theorem reach_ok expand ct : serializable par -> expands_well expand -> reach isp cands expand par ct -> shaped ct /\ good_seed expand ct.
  Proof.
    intros Hser Hx. revert ct. apply reach_ind2; [intros ct; apply (created_ok expand ct Hser Hx)|]. intros ins ct _ HF Hr.
    assert (F1 : Forall shaped ins) by (eapply Forall_impl; [|exact HF]; intros a (H & _); exact H). assert (F2 : Forall (good_seed expand) ins) by (eapply Forall_impl; [|exact HF]; intros a (_ & H); exact H).
    split; [exact (result_shaped ins ct Hr F1)|]. destruct (result_seed isp cands par ins ct Hr) as [E|Hin]; [eapply Forall_impl; [|exact F2]; intros a (_ & H); exact H|apply no_seed, E|]. rewrite Forall_forall in F2. exact (F2 ct Hin).
  Qed.
End Shape.
