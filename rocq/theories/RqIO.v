(** Equations for switching down several levels, the byte formats and the scaler of polynomials, on canonical representations. *)
From Verif Require Import Outcome BasicSpec OutcomeLemmas ZqModel ZqProofs ZqPow NumTheory TranscodeModel TranscodeProofs NttModel PolySpec PolyRing NttPure NttStages NttProofs.
From Verif Require Import RnsModel RnsSpec RnsProofs RnsScalerProofs RnsPropLemmas RqModel RqSpec RqCtx RqRows RqProofs RingRn RqOps.
From Coq Require Import Znumtheory.

(** ** Switching down several levels *)
(** Dividing by the moduli of a list, one after the other, rounding each time. *)
Definition round_chain (qs : list Z) (x : list Z) : list Z := fold_left (fun x q => map (round_div q) x) qs x.
Lemma round_chain_length qs : forall x, length (round_chain qs x) = length x.
Proof. induction qs as [|q qs IH]; intros x; [reflexivity|]. cbn [round_chain fold_left]. rewrite IH. apply map_length. Qed.
Lemma firstn_removelast {A} (l : list A) i : (i <= length l - 1)%nat -> firstn i (removelast l) = firstn i l.
Proof. intros H. rewrite removelast_firstn_len, firstn_firstn. f_equal. lia. Qed.
Lemma skipn_removelast {A} (l : list A) i d : (i < length l)%nat -> skipn i l = skipn i (removelast l) ++ [last l d].
Proof.
  intros H. assert (Hn : l <> []) by (intros ->; cbn in H; lia). rewrite (app_removelast_last d Hn) at 1.
  assert (length (removelast l) = (length l - 1)%nat) by (rewrite removelast_firstn_len, firstn_length; lia).
  rewrite skipn_app. replace (i - length (removelast l))%nat with O by lia. reflexivity.
Qed.
Lemma iter_switch_eq v i : forall c x, good_ctx c -> length x = c_degree c -> (i < length (c_moduli c))%nat ->
  iterM i switch_down (poly_of PowerBasis c v x) = Val (poly_of PowerBasis (level_of c i) v (round_chain (rev (skipn (length (c_moduli c) - i) (c_moduli c))) x)).
Proof.
  induction i as [|i IH]; intros c x Hg Hx Hi; cbn [iterM level_of].
  - rewrite Nat.sub_0_r, skipn_all. reflexivity.
  - destruct Hg as [c Hc H1 Hn|c c' Hc H2 Hn Hm Ho Hd Hg']; [lia|]. rewrite Hn.
    rewrite (switch_down_eq c (gc_cons c c' Hc H2 Hn Hm Ho Hd Hg') c') by assumption. cbn [bind].
    rewrite IH; [|exact Hg'|rewrite map_length; congruence|rewrite Hm, removelast_firstn_len, firstn_length; lia].
    do 2 f_equal. rewrite Hm. assert (L : length (removelast (c_moduli c)) = (length (c_moduli c) - 1)%nat) by (rewrite removelast_firstn_len, firstn_length; lia).
    rewrite L. replace (length (c_moduli c) - 1 - i)%nat with (length (c_moduli c) - S i)%nat by lia.
    rewrite (skipn_removelast (c_moduli c) (length (c_moduli c) - S i) 0) by lia. rewrite rev_app_distr. cbn [rev app round_chain fold_left]. reflexivity.
Qed.
Theorem switch_down_to_eq v c target i x : good_ctx c -> length x = c_degree c -> (i < length (c_moduli c))%nat ->
  c_degree target = c_degree c -> c_moduli target = firstn (length (c_moduli c) - i) (c_moduli c) ->
  switch_down_to (poly_of PowerBasis c v x) target = Val (poly_of PowerBasis (level_of c i) v (round_chain (rev (skipn (length (c_moduli c) - i) (c_moduli c))) x)).
Proof.
  intros Hg Hx Hi Hd Hm. unfold switch_down_to. cbn [p_ctx poly_of]. rewrite (proj1 (niterations_to_spec c target Hg) i Hi Hd Hm). cbn [bind].
  rewrite iter_switch_eq by assumption. cbn [bind p_ctx poly_of].
  destruct (follow_spec i c Hg Hi) as (_ & _ & Ed & Em & _).
  replace (ctx_eqb (level_of c i) target) with true; [reflexivity|]. symmetry. apply ctx_eqb_true. split; congruence.
Qed.
Theorem switch_down_to_err R0 v c target x : R0 = PowerBasis -> good_ctx c ->
  ~ (exists i, (i < length (c_moduli c))%nat /\ c_degree target = c_degree c /\ c_moduli target = firstn (length (c_moduli c) - i) (c_moduli c)) ->
  switch_down_to (poly_of PowerBasis c v x) target = Err ContextNotReachable.
Proof. intros _ Hg H. unfold switch_down_to. cbn [p_ctx poly_of]. rewrite (proj2 (niterations_to_spec c target Hg) H). reflexivity. Qed.

(** ** The protobuf conversions *)
Section Proto.
  Variables (c : ctx) (Hc : ctx_ok c).
  Notation N := (c_degree c).
  Hypothesis HN : Z.of_nat N < 2 ^ 32.
  Hypothesis Hk : Z.of_nat (length (c_moduli c)) < 2 ^ 29.

  Lemma N_div8 : (8 | Z.of_nat N).
  Proof.
    destruct (N_pow2 c Hc) as (K & HK & E). rewrite E, nat_pow2_Z. exists (2 ^ (Z.of_nat K - 3)). change 8 with (2 ^ 3). rewrite <- Z.pow_add_r by lia. f_equal. lia.
  Qed.
  Lemma ser_row op x : In op (c_ops c) -> length x = N ->
    exists b, serialize_vec (nt_p op) (row PowerBasis op x) = Val b /\ serialization_length (nt_p op) (Z.of_nat N) = Val (len b) /\
      deserialize_vec (nt_p op) b = Val (row PowerBasis op x) /\ 0 <= len b <= 8 * Z.of_nat N.
  Proof.
    intros Hop Hx. destruct (op_ok c Hc op Hop) as (K & w & Hok & Hs). pose proof (ok_m _ _ _ Hok) as Hm.
    pose proof (row_length op K w Hok PowerBasis x ltac:(congruence)) as L. rewrite Hs in L.
    destruct (serialize_round_trip (nt_p op) (row PowerBasis op x) Hm) as (b & E1 & E2 & E3).
    - apply (row_canonical op K w Hok). congruence.
    - unfold len. rewrite L. apply N_div8.
    - unfold len. rewrite L. change W64 with (2 ^ 32 * 2 ^ 32). lia.
    - exists b. unfold len in E2 at 1. rewrite L in E2. split; [exact E1|]. split; [exact E2|]. split; [exact E3|].
      split; [unfold len; lia|]. unfold serialization_length in E2. destruct (guard _) in E2; try discriminate. cbn [bind] in E2.
      destruct (valid_fields _ Hm) as (Hp & _). destruct (pbits_spec _ Hp) as (Hw & _). set (wd := 64 - leading_zeros64 (mod_p (nt_p op) - 1)) in *.
      destruct (chk64 (wd * Z.of_nat N)) as [t| |] eqn:Et; try discriminate. cbn [bind] in E2. assert (t = wd * Z.of_nat N) by (unfold chk64, chk in Et; destruct ((0 <=? wd * Z.of_nat N) && (wd * Z.of_nat N <? W64)); congruence).
      assert (len b = t / 8) by congruence. subst t. rewrite H0. apply Z.le_trans with (64 * Z.of_nat N / 8); [apply Z.div_le_mono; nia|]. replace (64 * Z.of_nat N) with (8 * Z.of_nat N * 8) by ring. rewrite Z.div_mul by lia. lia.
  Qed.
  Lemma ser_rows x : length x = N -> forall ops, (forall op, In op ops -> In op (c_ops c)) ->
    exists bs, map2M (fun v qi => serialize_vec qi v) (map (fun op => row PowerBasis op x) ops) (map nt_p ops) = Val bs /\
      (forall a, 0 <= a -> a + 8 * Z.of_nat N * Z.of_nat (length ops) < W64 ->
        foldM (fun acc q => s <- serialization_length q (Z.of_nat N) ;; chk64 (acc + s)) (map nt_p ops) a = Val (a + len (concat bs))) /\
      parse_rows (map nt_p ops) (Z.of_nat N) (concat bs) = Val (concat (map (fun op => row PowerBasis op x) ops)).
  Proof.
    intros Hx. induction ops as [|op ops IH]; intros Hin.
    - exists []. split; [reflexivity|]. split; [|reflexivity]. intros a _ _. cbn [map foldM concat len length]. f_equal. unfold len. cbn [length]. lia.
    - destruct (ser_row op x (Hin op (or_introl eq_refl)) Hx) as (b & E1 & E2 & E3 & E4).
      destruct (IH ltac:(intros; apply Hin; right; assumption)) as (bs & F1 & F2 & F3). exists (b :: bs). split; [|split].
      + cbn [map map2M]. rewrite E1. cbn [bind]. rewrite F1. reflexivity.
      + intros a Ha Hb. cbn [map foldM length concat] in *. rewrite E2. cbn [bind]. unfold chk64. rewrite bind_chk by nia. rewrite F2 by nia. f_equal. unfold len. rewrite app_length. lia.
      + cbn [map parse_rows concat]. rewrite E2. cbn [bind]. unfold len. rewrite Nat2Z.id.
        rewrite firstn_app, firstn_all, Nat.sub_diag, firstn_O, app_nil_r, skipn_app, skipn_all, Nat.sub_diag, E3. cbn [bind app skipn]. rewrite F3. reflexivity.
  Qed.
  Lemma chunks_rows (F : ntt_op -> list Z) : forall ops, (forall op, In op ops -> length (F op) = N) ->
    fst (chunks_n (length ops) N (concat (map F ops))) = map F ops.
  Proof.
    induction ops as [|op ops IH]; intros H; [reflexivity|]. cbn [map concat length chunks_n]. pose proof (H op (or_introl eq_refl)) as L.
    specialize (IH ltac:(intros; apply H; right; assumption)).
    rewrite skipn_app, firstn_app, <- L, firstn_all, skipn_all, Nat.sub_diag, firstn_O, app_nil_r. cbn [app skipn]. rewrite L.
    destruct (chunks_n (length ops) N (concat (map F ops))) as [a r]. cbn [fst] in IH |- *. f_equal. exact IH.
  Qed.
  Lemma concat_length_rows (F : ntt_op -> list Z) : forall ops, (forall op, In op ops -> length (F op) = N) -> length (concat (map F ops)) = (length ops * N)%nat.
  Proof. induction ops as [|op ops IH]; intros H; [reflexivity|]. cbn [map concat length Nat.mul]. rewrite app_length, IH, H; [reflexivity|left; reflexivity|intros; apply H; right; assumption]. Qed.
  Theorem proto_eq R v x : length x = N -> exists m, poly_to_proto (poly_of R c v x) = Val m /\ rq_repr m = repr_code R /\ rq_degree m = Z.of_nat N /\
    parse_proto m c = Val (R, concat (map (fun op => row PowerBasis op x) (c_ops c))) /\
    (forall vt, poly_from_proto R m c vt = Val (poly_of R c vt x)) /\
    (forall R' vt, R' <> R -> poly_from_proto R' m c vt = Err RepresentationMismatch).
  Proof.
    intros Hx. destruct (ser_rows x Hx (c_ops c) (fun _ h => h)) as (bs & E1 & E2 & E3).
    exists (mkRq (repr_code R) (Z.of_nat N) (concat bs) false).
    assert (Hrl : forall op, In op (c_ops c) -> length (row PowerBasis op x) = N).
    { intros op Hop. destruct (op_ok c Hc op Hop) as (K & w & Hok & Hs). rewrite (row_length op K w Hok); congruence. }
    assert (HP : parse_proto (mkRq (repr_code R) (Z.of_nat N) (concat bs) false) c = Val (R, concat (map (fun op => row PowerBasis op x) (c_ops c)))).
    { unfold parse_proto. cbn [rq_repr rq_degree rq_coeffs].
      rewrite bind_val with (a := R) by (destruct R; reflexivity).
      destruct N_div8 as (d & Ed). pose proof (N_ge8 c Hc). rewrite Ed, Z_mod_mult. rewrite <- Ed.
      replace (Z.of_nat N <? 8) with false by (symmetry; apply Z.ltb_ge; lia). cbn [Z.eqb negb orb].
      rewrite (q_ops c Hc). rewrite E2.
      - cbn [bind]. rewrite Z.add_0_l, Z.eqb_refl. cbn [negb]. rewrite E3. reflexivity.
      - lia.
      - assert (length (c_ops c) = length (c_moduli c)) by (rewrite (moduli_ops c Hc), map_length; reflexivity). rewrite H0. change W64 with (8 * 2 ^ 32 * 2 ^ 29). nia. }
    split; [|split; [|split; [|split; [|split]]]].
    - unfold poly_to_proto. cbn [poly_of p_lazy p_ctx negb guard bind]. change (mkPoly c false v (map (fun op => row R op x) (c_ops c)) (match R with NttShoup => Some (map (fun op => shoup_row op (row R op x)) (c_ops c)) | _ => None end)) with (poly_of R c v x).
      rewrite (into_pb_eq c Hc) by exact Hx. cbn [bind poly_of p_coeffs]. rewrite (q_ops c Hc), E1. cbn [bind]. rewrite Z.mod_small by (split; [lia|exact HN]). reflexivity.
    - reflexivity.
    - reflexivity.
    - exact HP.
    - intros vt. unfold poly_from_proto. rewrite HP. cbn [bind]. unfold repn_eqb. rewrite Z.eqb_refl. cbn [negb].
      unfold pb_from_u64. rewrite concat_length_rows, (q_length c Hc), Nat.eqb_refl by exact Hrl. unfold rows_of. rewrite (q_length c Hc), chunks_rows by exact Hrl. cbn [bind].
      change (mkPoly c false vt (map (fun op => row PowerBasis op x) (c_ops c)) None) with (poly_of PowerBasis c vt x). apply (pb_into_eq c Hc), Hx.
    - intros R' vt Hne. unfold poly_from_proto. rewrite HP. cbn [bind]. replace (repn_eqb R R') with false; [reflexivity|]. destruct R, R'; reflexivity || congruence.
  Qed.
End Proto.

(** ** The scaler *)
Lemma transpose_cols {A} (f : A -> Z -> Z) (ops : list A) v k : k = length ops ->
  transpose k (map (fun a => map (fun op => f op a) ops) v) = map (fun op => map (f op) v) ops.
Proof.
  intros ->. unfold transpose. induction ops as [|op ops IH]; [reflexivity|]. cbn [length seq map]. f_equal.
  - rewrite map_map. apply map_ext. reflexivity.
  - rewrite <- IH. rewrite <- seq_shift, map_map. apply map_ext. intros i. rewrite !map_map. apply map_ext. reflexivity.
Qed.
Lemma Forall2_pick {A B} (P : A -> B -> Prop) l : (forall a, In a l -> exists b, P a b) -> exists r, Forall2 P l r.
Proof.
  induction l as [|a l IH]; intros H; [exists []; constructor|]. destruct (H a (or_introl eq_refl)) as (b & Hb).
  destruct IH as (r & Hr); [intros; apply H; right; assumption|]. exists (b :: r). constructor; assumption.
Qed.
Lemma common_prefix_spec a : forall b, let k := common_prefix a b in (k <= length a)%nat /\ (k <= length b)%nat /\
  Forall2 (fun x y => mod_p x = mod_p y) (firstn k a) (firstn k b).
Proof.
  induction a as [|x a IH]; intros [|y b]; cbn [common_prefix length firstn]; try (repeat split; try lia; constructor).
  destruct (mod_p x =? mod_p y) eqn:E.
  - destruct (IH b) as (H1 & H2 & H3). cbn [firstn]. repeat split; try lia. constructor; [apply Z.eqb_eq, E|exact H3].
  - cbn [firstn]. repeat split; try lia. constructor.
Qed.
Lemma residues_cong qs x y : rns_basis qs -> residues_of qs x = residues_of qs y -> x mod prod_list qs = y mod prod_list qs.
Proof.
  intros Hb E. apply (crt_cong _ _ _ Hb). intros i Hi. assert (nth i (residues_of qs x) 0 = nth i (residues_of qs y) 0) as E' by (rewrite E; reflexivity).
  unfold residues_of in E'. rewrite !(map_nth_lt _ _ i 0) in E' by exact Hi. exact E'.
Qed.
Lemma residues_canonical qs x : rns_basis qs -> canonical_residues qs (residues_of qs x).
Proof.
  intros (_ & _ & H). unfold canonical_residues, residues_of. induction H as [|q qs Hq H IH]; constructor; [apply Z.mod_pos_bound; lia|exact IH].
Qed.

Section Scaler.
  Variables (from to : ctx) (Hf : ctx_ok from) (Ht : ctx_ok to) (Hdeg : c_degree from = c_degree to) (Hops : same_ops from to).
  Notation N := (c_degree from).
  Theorem poly_scale_eq num den f : Z.of_nat (length (c_moduli from)) < 2 ^ 60 -> 0 <= num -> 0 <= den -> factor_new num den = Val f ->
    num = den \/ load num den (c_moduli from) < 2 ^ 65 ->
    exists s, poly_scaler_new from to f = Val s /\
    forall R v x, R <> NttShoup -> length x = N -> exists y, length y = N /\
      Forall2 (scaled_value (c_moduli from) num den) x y /\
      poly_scale s (poly_of R from v x) = Val (poly_of R to v y).
  Proof.
    intros Hl Hnum Hden Ef HL.
    pose proof (co_u64 _ Hf) as Uf. pose proof (co_u64 _ Ht) as Ut.
    destruct (scaler_all_good (c_rns from) (c_rns to) num den f (co_rns _ Hf) (co_rns _ Ht)) as (s & Es & Hs); [rewrite Uf; assumption|assumption..|].
    rewrite Uf, Ut in Hs.
    set (k := if f_one f then common_prefix (c_q from) (c_q to) else O).
    assert (Hk : (k <= length (c_ops from))%nat /\ (k <= length (c_ops to))%nat).
    { unfold k. rewrite <- (q_length from Hf), <- (q_length to Ht). destruct (f_one f); [|lia]. destruct (common_prefix_spec (c_q from) (c_q to)) as (H1 & H2 & _). split; assumption. }
    assert (Eone : f_one f = (num =? den)).
    { unfold factor_new in Ef. apply bind_inv in Ef. destruct Ef as (u & _ & Ef). replace f with (mkFactor num den (num =? den)) by congruence. reflexivity. }
    assert (Hkops : firstn k (c_ops from) = firstn k (c_ops to) /\ (k <> O -> num = den)).
    { unfold k. rewrite Eone. destruct (num =? den) eqn:End; [|split; [reflexivity|lia]]. split; [|intros _; apply Z.eqb_eq, End]. destruct (common_prefix_spec (c_q from) (c_q to)) as (_ & _ & H3). revert H3.
      generalize (common_prefix (c_q from) (c_q to)). intros j H3. rewrite (q_ops from Hf), (q_ops to Ht), !firstn_map in H3.
      assert (G1 : forall o, In o (firstn j (c_ops from)) -> In o (c_ops from)) by (intros o Ho; rewrite <- (firstn_skipn j (c_ops from)); apply in_or_app; left; exact Ho).
      assert (G2 : forall o, In o (firstn j (c_ops to)) -> In o (c_ops to)) by (intros o Ho; rewrite <- (firstn_skipn j (c_ops to)); apply in_or_app; left; exact Ho).
      revert H3 G1 G2. generalize (firstn j (c_ops from)) (firstn j (c_ops to)). induction l as [|o l IH]; intros [|o' l'] H3 G1 G2; inversion H3 as [|? ? ? ? J1 J2]; subst; [reflexivity|].
      f_equal; [apply Hops; [apply G1; left; reflexivity|apply G2; left; reflexivity|exact J1]|]. apply IH; [exact J2|intros; apply G1; right; assumption|intros; apply G2; right; assumption]. }
    destruct Hkops as (Hko & Hkn). assert (Ek : k = if f_one f then common_prefix (c_q from) (c_q to) else O) by reflexivity. clearbody k.
    exists (mkPolyScaler from to k s). split.
    { unfold poly_scaler_new. rewrite Hdeg, Nat.eqb_refl. cbn [negb]. rewrite Es. cbn [bind]. rewrite Ek. reflexivity. }
    intros R v x HR Hx.
    destruct (Forall2_pick (fun a b => scaled_value (c_moduli from) num den a b /\ (num = den -> residues_of (c_moduli from) b = residues_of (c_moduli from) a) /\
        (forall start len, (0 < len)%nat -> (start + len <= length (c_moduli to))%nat -> scale s (residues_of (c_moduli from) a) start len = Val (residues_of (firstn len (skipn start (c_moduli to))) b))) x) as (y & Hy).
    { intros a _. destruct (Hs (residues_of (c_moduli from) a) (residues_canonical _ _ (basis from Hf)) HL) as (x' & y' & E1 & E2 & E3 & E4 & E5). exists y'.
      split; [|split]; [|intros E; rewrite (E3 E); exact E1|exact E5]. exists x'. split; [apply residues_cong; [apply (basis from Hf)|exact E1]|]. split; [exact E2|]. split; [exact E3|exact E4]. }
    assert (Ly : length y = N) by (rewrite <- (Forall2_length_eq _ _ _ Hy); exact Hx).
    exists y. split; [exact Ly|]. split; [clear - Hy; induction Hy as [|? ? ? ? (H & _) ? IH]; constructor; [exact H|exact IH]|].
    unfold poly_scale. cbn [p_ctx p_vt p_coeffs poly_of ps_from ps_to ps_common ps_rns]. rewrite ctx_eqb_refl. cbn [negb]. rewrite (q_length to Ht).
    assert (Hhead : firstn k (map (fun op => row R op x) (c_ops from)) = map (fun op => row R op y) (firstn k (c_ops to))).
    { rewrite firstn_map, Hko. destruct k as [|k']; [reflexivity|]. specialize (Hkn ltac:(lia)). apply map_ext_in. intros op Hop.
      assert (Hin : In op (c_ops from)) by (rewrite <- (firstn_skipn (S k') (c_ops from)), Hko; apply in_or_app; left; exact Hop).
      destruct (op_ok from Hf op Hin) as (K & w & Hok & Hsz). apply (row_cong op K w Hok); [congruence..|].
      assert (G : In (mod_p (nt_p op)) (c_moduli from)) by (rewrite (moduli_ops from Hf); apply (in_map (fun op => mod_p (nt_p op))), Hin).
      clear - Hy Hkn G. induction Hy as [|a b x y (_ & H & _) Hy IH]; constructor; [|exact IH]. specialize (H Hkn). unfold residues_of in H. destruct (In_nth _ _ 0 G) as (i & Hi & Ei).
      assert (E : nth i (map (fun q => b mod q) (c_moduli from)) 0 = nth i (map (fun q => a mod q) (c_moduli from)) 0) by (rewrite H; reflexivity).
      rewrite !(map_nth_lt _ _ i 0) in E by exact Hi. rewrite Ei in E. symmetry. exact E. }
    rewrite Hhead. assert (HS : R = NttShoup \/ match R with NttShoup => Some (map (fun op => shoup_row op (row R op y)) (c_ops to)) | _ => None end = None) by (destruct R; auto).
    destruct HS as [HS|HS]; [contradiction|]. unfold poly_of. rewrite HS. clear HS.
    assert (Hlm : length (c_moduli to) = length (c_ops to)) by (rewrite (moduli_ops to Ht), map_length; reflexivity).
    assert (Hsk : forall op, In op (skipn k (c_ops to)) -> In op (c_ops to)) by (intros op Ho; rewrite <- (firstn_skipn k (c_ops to)); apply in_or_app; right; exact Ho).
    destruct (Nat.ltb k (length (c_ops to))) eqn:Elt.
    - apply Nat.ltb_lt in Elt.
      assert (Epb : match R with PowerBasis => Val (map (fun op => row R op x) (c_ops from)) | _ => bwd_rows v (c_ops from) (map (fun op => row R op x) (c_ops from)) end = Val (map (fun op => row PowerBasis op x) (c_ops from))).
      { destruct R; [reflexivity|apply (bwd_eq from Hf); [discriminate|exact Hx]..]. }
      rewrite Epb. cbn [bind]. rewrite (transpose_rows from Hf) by exact Hx.
      assert (Ecols : mapM (fun col => scale s col k (length (c_ops to) - k)) (map (residues_of (c_moduli from)) x) = Val (map (fun b => map (fun op => b mod mod_p (nt_p op)) (skipn k (c_ops to))) y)).
      { clear - Hy Elt Hlm Ht. induction Hy as [|a b x y (_ & _ & H) Hy IH]; [reflexivity|]. cbn [map mapM]. rewrite H by lia. cbn [bind]. rewrite IH. cbn [bind]. do 2 f_equal.
        rewrite firstn_all2 by (rewrite skipn_length; lia). unfold residues_of. rewrite (moduli_ops to Ht), skipn_map, map_map. reflexivity. }
      rewrite Ecols. cbn [bind]. rewrite (transpose_cols (fun op b => b mod mod_p (nt_p op))) by (rewrite skipn_length; reflexivity).
      assert (Erows : match R with PowerBasis => Val (map (fun op => map (fun b => b mod mod_p (nt_p op)) y) (skipn k (c_ops to))) | _ => fwd_rows v (skipn k (c_ops to)) (map (fun op => map (fun b => b mod mod_p (nt_p op)) y) (skipn k (c_ops to))) end
        = Val (map (fun op => row R op y) (skipn k (c_ops to)))).
      { assert (G : fwd_rows v (skipn k (c_ops to)) (map (fun op => row PowerBasis op y) (skipn k (c_ops to))) = Val (map (fun op => row Ntt op y) (skipn k (c_ops to)))).
        { unfold fwd_rows. rewrite <- (map_id (skipn k (c_ops to))) at 2. apply zip_upd_map. intros op Hop. destruct (op_ok to Ht op (Hsk op Hop)) as (K & w & Hok & Hsz). apply (fwd_row op K w Hok). congruence. }
        destruct R; [reflexivity|exact G..]. }
      rewrite Erows. cbn [bind]. rewrite <- map_app, firstn_skipn. reflexivity.
    - apply Nat.ltb_ge in Elt. cbn [bind]. rewrite app_nil_r. rewrite firstn_all2 by lia. reflexivity.
  Qed.
End Scaler.
