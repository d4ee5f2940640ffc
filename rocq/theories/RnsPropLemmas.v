(** Statements of the residue-number-system properties in terms of the constructors. *)
From Verif Require Import Outcome BasicSpec RnsSpec OutcomeLemmas ZqModel ZqProofs NumTheory NttModel RnsModel RnsProofs RnsScalerProofs.
From Coq Require Import Znumtheory.

Lemma rns_accept qs : (exists c, rns_new qs = Val c) <-> rns_basis qs.
Proof.
  split; [intros (c & E); exact (rns_new_inv _ _ E)|].
  intros H. destruct (rns_new_ok qs H) as (c & E & _). eauto.
Qed.

Lemma crt_all qs c : rns_new qs = Val c ->
  (forall x, project c x = Val (residues_of qs x)) /\
  (forall x, bind (project c x) (lift c) = Val (x mod prod_list qs)) /\
  (forall rs, canonical_residues qs rs -> bind (lift c rs) (project c) = Val rs) /\
  (forall rs, canonical_residues qs rs -> exists x, lift c rs = Val x /\ 0 <= x < prod_list qs /\ residues_of qs x = rs).
Proof.
  intros E. destruct (rns_new_good _ _ E) as [G <-]. split; [exact (project_spec c G)|]. split; [|split].
  - intros x. rewrite (project_spec c G). cbn [bind]. apply lift_project, G.
  - intros rs C. rewrite (lift_val c G). cbn [bind]. rewrite (project_spec c G). f_equal.
    eapply project_lift; [exact G|exact C|apply lift_val, G].
  - intros rs C. exists (inner rs (rns_garner c) mod prod_list (rns_u64 c)). rewrite (lift_val c G). split; [reflexivity|].
    destruct (project_lift c G rs _ C (lift_val c G rs)) as [H1 H2]. auto.
Qed.

Lemma garner_all qs c i : rns_new qs = Val c ->
  match get_garner c i with
  | None => (length qs <= i)%nat
  | Some g => (i < length qs)%nat /\ 0 <= g < prod_list qs /\
      forall j, (j < length qs)%nat -> g mod nth j qs 0 = if Nat.eqb i j then 1 else 0
  end.
Proof.
  intros E. destruct (rns_new_good _ _ E) as [G <-]. unfold get_garner.
  destruct (nth_error (rns_garner c) i) as [g|] eqn:En.
  - assert (Hi : (i < length (rns_u64 c))%nat).
    { rewrite <- (gr_lg _ G). apply nth_error_Some. congruence. }
    apply nth_error_nth with (d := 0) in En. subst g. split; [exact Hi|].
    assert (In (nth i (rns_garner c) 0) (rns_garner c)) by (apply nth_In; rewrite (gr_lg _ G); exact Hi).
    pose proof (good_garner _ _ G H) as B. rewrite (gr_product _ G) in B. split; [lia|].
    intros j Hj. destruct (gr_entry _ G i Hi) as (_ & _ & _ & _ & C1 & C0).
    pose proof (basis_nth _ _ (gr_basis _ G) Hj) as Bq.
    destruct (Nat.eqb_spec i j) as [<-|Hn].
    + rewrite C1. apply Z.mod_1_l. lia.
    + rewrite (C0 j Hj) by auto. apply Z.mod_0_l. lia.
  - apply nth_error_None in En. rewrite (gr_lg _ G) in En. exact En.
Qed.

Lemma sum_of_list l : sum_of l = sum_list l.
Proof. induction l as [|a l IH]; cbn [sum_of sum_list fold_right]; [reflexivity|rewrite IH; reflexivity]. Qed.

Lemma inner_active (f : Z -> Z) (h : Z -> Z) qs : forall rs gs, canonical_residues qs rs -> length gs = length qs ->
  (forall i, (i < length qs)%nat -> 0 <= f (nth i gs 0) <= 1 /\ (f (nth i gs 0) = 0 \/ h (nth i qs 0) = nth i qs 0)) ->
  (forall i, (i < length qs)%nat -> 0 <= h (nth i qs 0)) ->
  inner rs (map f gs) <= sum_of (map h qs).
Proof.
  induction qs as [|q qs IH]; intros rs gs C L H H0; inversion C; subst; destruct gs as [|g gs]; cbn [length] in *; try lia;
    cbn [map inner sum_of]; [lia|].
  assert (inner l' (map f gs) <= sum_of (map h qs)).
  { apply IH; [assumption|lia| |].
    - intros i Hi. apply (H (S i)). lia.
    - intros i Hi. apply (H0 (S i)). lia. }
  destruct (H O ltac:(lia)) as (B & D). specialize (H0 O ltac:(lia)). cbn [nth] in *.
  destruct D as [->|D]; [lia|]. rewrite D in *. nia.
Qed.

Lemma canonical_sum qs rs : canonical_residues qs rs -> sum_list rs <= sum_of qs.
Proof. induction 1; cbn [sum_list fold_right sum_of]; [lia|]. fold (sum_list l'). lia. Qed.

Lemma active_load s rs : good_scaler s -> canonical_residues (rns_u64 (sc_from s)) rs ->
  active_sum s rs <= load (f_num (sc_factor s)) (f_den (sc_factor s)) (rns_u64 (sc_from s)).
Proof.
  intros G C. unfold active_sum, load. cbv zeta. set (num := f_num _). set (den := f_den _). set (qs := rns_u64 _) in *.
  pose proof (gs_from _ G) as Gf. pose proof (gs_den _ G) as Hd. fold den in Hd.
  apply Z.add_le_mono.
  - apply inner_active; [exact C|apply (gr_lg _ Gf)| |].
    + intros i Hi. destruct (gr_entry _ Gf i Hi) as (E1 & _ & E3 & _). fold qs in E1.
      pose proof (basis_nth _ _ (gr_basis _ Gf) Hi) as Bq. fold qs in Bq.
      destruct (Z.eqb_spec ((num * nth i (rns_garner (sc_from s)) 0) mod den) 0) as [E|E]; [split; [lia|left; reflexivity]|].
      split; [lia|]. right.
      destruct (Z.eqb_spec ((num * (prod_list qs / nth i qs 0)) mod den) 0) as [F|F]; [|reflexivity].
      exfalso. apply E. rewrite E3. apply Z.mod_divide in F; [|lia]. apply Z.mod_divide; [lia|].
      rewrite (gr_product _ Gf) in E1. fold qs in E1. rewrite <- E1, Z.div_mul in F by lia.
      rewrite Z.mul_assoc. apply Z.divide_mul_l. exact F.
    + intros i Hi. pose proof (basis_nth _ _ (gr_basis _ Gf) Hi) as Bq. fold qs in Bq.
      destruct (_ =? 0); lia.
  - pose proof (vq_bounds s G rs C) as Bv. pose proof (canonical_sum _ _ C).
    fold qs. destruct (_ =? 0); lia.
Qed.

Lemma scaler_all_good from to num den f : let qs := rns_u64 from in let qs' := rns_u64 to in
  good_rns from -> good_rns to -> Z.of_nat (length qs) < 2 ^ 60 ->
  0 <= num -> 0 <= den -> factor_new num den = Val f ->
  exists s, scaler_new from to f = Val s /\
  forall rs, canonical_residues qs rs -> (num = den \/ load num den qs < 2 ^ 65) ->
  exists x y,
    residues_of qs x = rs /\
    (forall k, 0 <= k <= 127 -> (forall q, In q qs -> q * Z.of_nat (length qs) <= 2 ^ (191 - k)) ->
       2 ^ (k + 1) * Z.abs x <= prod_list qs * (2 ^ k + sum_of rs)) /\
    (num = den -> y = x) /\
    2 ^ 127 * Z.abs (den * y - num * x) <= den * (2 ^ 126 + 2 * sum_of rs) /\
    (forall start len, (0 < len)%nat -> (start + len <= length qs')%nat ->
       scale s rs start len = Val (residues_of (firstn len (skipn start qs')) y)).
Proof.
  intros qs qs' G G' Hn Hnum Hden0 Ef. subst qs qs'.
  unfold factor_new in Ef. apply bind_inv in Ef. destruct Ef as (u & Eg & Ef). apply guard_inv in Eg.
  apply negb_true_iff, Z.eqb_neq in Eg.
  assert (Hf : f = mkFactor num den (num =? den)) by congruence. subst f. clear Ef.
  destruct (scaler_new_good from to (mkFactor num den (num =? den)) G G') as (s & Es & Gs & Ef & Et & Efac);
    cbn [f_num f_den f_one]; try lia; try reflexivity.
  exists s. split; [exact Es|]. intros rs C HL.
  exists (xrep s rs), (yq s rs). subst from to.
  pose proof (gs_shift _ Gs) as (Bsh & _ & Msh). pose proof (basis_pos _ (gr_basis _ G)) as HQ2.
  pose proof (rsum_bound s Gs rs C) as R.
  assert (En : f_num (sc_factor s) = num /\ f_den (sc_factor s) = den /\ f_one (sc_factor s) = (num =? den)).
  { rewrite Efac. auto. } destruct En as (En & Ed & Eo).
  split; [|split; [|split; [|split]]].
  - pose proof (Forall2_length_eq _ _ _ C) as L.
    apply nth_ext with (d := 0) (d' := 0); [unfold residues_of; rewrite map_length; lia|].
    unfold residues_of at 1. rewrite map_length. intros i Hi. rewrite nth_residues_of by assumption.
    pose proof (Forall2_nth _ _ _ i 0 0 C Hi) as Br. cbn beta in Br.
    rewrite (xrep_cong s Gs rs C i Hi). apply Z.mod_small. exact Br.
  - intros k Hk Hq. specialize (Msh k ltac:(lia) Hq). pose proof (xrep_bound s Gs rs C) as B.
    rewrite sum_of_list. set (x := Z.abs _) in *. set (Q := prod_list _) in *.
    assert (P1 : 0 < 2 ^ k) by (apply Z.pow_pos_nonneg; lia).
    assert (P2 : 0 < 2 ^ (sc_shift s - k)) by (apply Z.pow_pos_nonneg; lia).
    assert (P3 : 2 ^ sc_shift s = 2 ^ k * 2 ^ (sc_shift s - k)) by (rewrite <- Z.pow_add_r by lia; f_equal; lia).
    rewrite Z.pow_add_r in B |- * by lia. change (2 ^ 1) with 2 in *. rewrite P3 in B.
    set (a := 2 ^ k) in *. set (b := 2 ^ (sc_shift s - k)) in *. set (S := sum_list rs) in *.
    assert (b * (a * 2 * x) <= b * (Q * (a + S))); [|nia].
    assert (Q * S <= b * (Q * S)) by nia. nia.
  - intros ->. apply yq_one; [exact Gs|]. rewrite Eo. apply Z.eqb_refl.
  - rewrite sum_of_list. destruct (Z.eqb_spec num den) as [->|Hne].
    + rewrite (yq_one s Gs rs) by exact Eo. rewrite Z.sub_diag, Z.abs_0, Z.mul_0_r. remember (2 ^ 126) as a. 
      assert (0 < a) by (subst a; reflexivity). nia.
    + pose proof (yq_bounds s Gs rs C Eo) as B. rewrite En, Ed in B. pose proof (vq_bounds s Gs rs C) as V.
      assert ((den - 1) * (sum_list rs + vq s rs) <= den * (2 * sum_list rs)) by nia.
      rewrite Z.mul_add_distr_l. remember (2 ^ 126) as a. remember (2 ^ 127) as b.
      set (S := sum_list rs) in *.
      destruct (Z.abs_spec (den * yq s rs - num * xrep s rs)) as [[_ ->]|[_ ->]]; nia.
  - intros start len Hl Hb. apply (scale_val s Gs rs C start len Hl Hb).
    destruct HL as [->|HL]; [left; rewrite Eo; apply Z.eqb_refl|right].
    pose proof (St_bound s Gs rs C) as B. pose proof (active_load s rs Gs C) as A. rewrite En, Ed in A.
    change (2 ^ 253) with (2 ^ 126 * 2 ^ 127). change (2 ^ 191) with (2 ^ 126 * 2 ^ 65).
    assert (0 < 2 ^ 126) by reflexivity. change (2 ^ 127) with (2 ^ 65 * 2 ^ 62). remember (2 ^ 126) as p. remember (2 ^ 65) as p'.
    change (2 ^ 62) with W62. nia.
Qed.
Lemma scaler_all qs qs' from to num den f :
  rns_new qs = Val from -> rns_new qs' = Val to -> Z.of_nat (length qs) < 2 ^ 60 ->
  0 <= num -> 0 <= den -> factor_new num den = Val f ->
  exists s, scaler_new from to f = Val s /\
  forall rs, canonical_residues qs rs -> (num = den \/ load num den qs < 2 ^ 65) ->
  exists x y,
    residues_of qs x = rs /\
    (forall k, 0 <= k <= 127 -> (forall q, In q qs -> q * Z.of_nat (length qs) <= 2 ^ (191 - k)) ->
       2 ^ (k + 1) * Z.abs x <= prod_list qs * (2 ^ k + sum_of rs)) /\
    (num = den -> y = x) /\
    2 ^ 127 * Z.abs (den * y - num * x) <= den * (2 ^ 126 + 2 * sum_of rs) /\
    (forall start len, (0 < len)%nat -> (start + len <= length qs')%nat ->
       scale s rs start len = Val (residues_of (firstn len (skipn start qs')) y)).
Proof.
  intros E E'. destruct (rns_new_good _ _ E) as [G Eq]. destruct (rns_new_good _ _ E') as [G' Eq'].
  subst qs qs'. exact (scaler_all_good from to num den f G G').
Qed.

Lemma scale_asserts s rs start len :
  length rs <> length (rns_u64 (sc_from s)) \/ len = O \/ (length (rns_u64 (sc_to s)) < start + len)%nat ->
  scale s rs start len = Panic.
Proof.
  intros H. unfold scale.
  destruct (Nat.eqb_spec (length rs) (length (rns_u64 (sc_from s)))); cbn [guard bind]; [|reflexivity].
  destruct (Nat.eqb_spec len 0); cbn [negb guard bind]; [reflexivity|].
  destruct (Nat.leb_spec (start + len) (length (rns_u64 (sc_to s)))); cbn [guard bind]; [lia|reflexivity].
Qed.

(** Beyond the load limit the sign of the correction is misread.  The nine moduli below are the largest
    pairwise coprime ones under 2^62; the input is -1 and the factor is num / Q. *)
Definition bad_qs : list Z :=
  [4611686018427387903; 4611686018427387902; 4611686018427387901; 4611686018427387899; 4611686018427387895;
   4611686018427387893; 4611686018427387889; 4611686018427387887; 4611686018427387883].
Definition bad_num : Z := 471745303102692659414609411928616949916991643249637708229573512141250216928112144033997345753864846289855343201314897561882924540494721559160920202473143890160581459636.
Definition run_scale (qs qs' : list Z) (num den : Z) (rs : list Z) (k : nat) : M (list Z) :=
  from <- rns_new qs ;; to <- rns_new qs' ;; f <- factor_new num den ;;
  s <- scaler_new from to f ;; scale s rs 0 k.

Lemma run_scale_inv qs qs' num den rs k out : run_scale qs qs' num den rs k = Val out ->
  exists from to f s, rns_new qs = Val from /\ rns_new qs' = Val to /\ factor_new num den = Val f /\
    scaler_new from to f = Val s /\ scale s rs 0 k = Val out.
Proof.
  unfold run_scale. intros R.
  apply bind_inv in R. destruct R as (from & E1 & R). apply bind_inv in R. destruct R as (to & E2 & R).
  apply bind_inv in R. destruct R as (f & E3 & R). apply bind_inv in R. destruct R as (s & E4 & R).
  exists from, to, f, s. auto.
Qed.

Lemma bad_run_val : run_scale bad_qs [1153] bad_num (prod_list bad_qs) (residues_of bad_qs (-1)) 1 = Val [1019].
Proof. vm_compute. reflexivity. Qed.
Lemma bad_num_bounds : 0 < bad_num < prod_list bad_qs.
Proof. vm_compute. split; reflexivity. Qed.

Lemma bad_out y : y = 0 \/ y = -1 -> [1019] <> residues_of [1153] y.
Proof. intros [-> | ->]; vm_compute; discriminate. Qed.

Lemma scale_refuted : exists qs qs' num den from to f s out,
  rns_new qs = Val from /\ rns_new qs' = Val to /\ factor_new num den = Val f /\ scaler_new from to f = Val s /\
  scale s (residues_of qs (-1)) 0 (length qs') = Val out /\
  forall y, Z.abs (den * y - num * (-1)) <= den -> out <> residues_of qs' y.
Proof.
  destruct (run_scale_inv _ _ _ _ _ _ _ bad_run_val) as (from & to & f & s & E1 & E2 & E3 & E4 & R).
  exists bad_qs, [1153], bad_num, (prod_list bad_qs), from, to, f, s, [1019].
  split; [exact E1|]. split; [exact E2|]. split; [exact E3|]. split; [exact E4|]. split; [exact R|].
  intros y Hy. apply bad_out. pose proof bad_num_bounds as B. revert B Hy.
  generalize (prod_list bad_qs) bad_num. clear. intros Q N B Hy. nia.
Qed.
