(** The release build of the polynomial operations. *)
From Verif Require Import Outcome BasicSpec OutcomeLemmas ZqModel ZqProofs ZqPow NumTheory NttModel PolySpec PolyRing NttPure NttStages NttProofs.
From Verif Require Import RnsModel RnsSpec RnsProofs RqModel RqSpec RqCtx RqRows RqProofs ParamsModel PlainModel CipherModel KeysModel MbfvModel.
From Verif Require Import ReleaseModel ReleaseProofs ReleaseRnsProofs ReleaseRqModel ReleaseRqSpec.

(** Refinement of the loops. *)
Lemma zip_upd3_rows {A B C} (f : A -> B -> C -> M A) (g : A -> B -> C -> A) : (forall a b c d, f a b c = Val d -> g a b c = d) ->
  forall l l' l'' r, zip_upd3 f l l' l'' = Val r -> zip_rows g l l' l'' = r.
Proof.
  intros H. induction l as [|a l IH]; intros [|b l'] [|c l''] r E; cbn [zip_upd3 zip_rows] in *; try congruence.
  apply bind_inv in E. destruct E as (d & Ed & E). apply bind_inv in E. destruct E as (r' & Er & E). rewrite (H _ _ _ _ Ed), (IH _ _ _ Er). congruence.
Qed.
Lemma zip_upd3_ref {A B C} (f g : A -> B -> C -> M A) : forall l l' l'' r, (forall a b c d, In b l' -> f a b c = Val d -> g a b c = Val d) ->
  zip_upd3 f l l' l'' = Val r -> zip_upd3 g l l' l'' = Val r.
Proof.
  induction l as [|a l IH]; intros [|b l'] [|c l''] r H E; cbn [zip_upd3] in *; try congruence.
  apply bind_inv in E. destruct E as (d & Ed & E). apply bind_inv in E. destruct E as (r' & Er & E). rewrite (H _ _ _ _ (or_introl eq_refl) Ed). cbn [bind].
  rewrite (IH _ _ r'); [exact E| |exact Er]. intros; eapply H; [right; eassumption|assumption].
Qed.
Lemma zip_upd_ref {A B} (f g : A -> B -> M A) : (forall a b d, f a b = Val d -> g a b = Val d) -> forall l l' r, zip_upd f l l' = Val r -> zip_upd g l l' = Val r.
Proof.
  intros H. induction l as [|a l IH]; intros [|b l'] r E; cbn [zip_upd] in *; try congruence.
  apply bind_inv in E. destruct E as (d & Ed & E). apply bind_inv in E. destruct E as (r' & Er & E). rewrite (H _ _ _ Ed). cbn [bind]. rewrite (IH _ _ Er). exact E.
Qed.
Lemma foldM_ref {A S} (f g : S -> A -> M S) : (forall s a t, f s a = Val t -> g s a = Val t) -> forall l s r, foldM f l s = Val r -> foldM g l s = Val r.
Proof.
  intros H. induction l as [|a l IH]; intros s r E; cbn [foldM] in *; [exact E|]. apply bind_inv in E. destruct E as (t & Et & E). rewrite (H _ _ _ Et). cbn [bind]. apply IH, E.
Qed.
Lemma foldM_map {A B S} (f : S -> B -> M S) (h : A -> B) l : forall s, foldM f (map h l) s = foldM (fun s a => f s (h a)) l s.
Proof. induction l as [|a l IH]; intros s; cbn [map foldM]; [reflexivity|]. destruct (f s (h a)); cbn [bind]; [apply IH|reflexivity..]. Qed.

(** What the debug build returns, the release build returns. *)
Lemma rel_op2_ok {R} fv fc gv gc (a b : poly R) r : (forall q x y z, fv q x y = Val z -> gv q x y = z) -> (forall q x y z, fc q x y = Val z -> gc q x y = z) ->
  poly_op2 fv fc a b = Val r -> rel_poly_op2 gv gc a b = Val r.
Proof.
  unfold poly_op2, rel_poly_op2. intros Hv Hc E. cbv zeta in *. apply bind_inv in E. destruct E as (u & -> & E). cbn [bind]. apply bind_inv in E. destruct E as (u' & _ & E).
  apply bind_inv in E. destruct E as (rows & Er & E). erewrite zip_upd3_rows; [exact E| |exact Er]. intros x y q z. cbv beta. destruct (p_vt a && p_vt b); [apply Hv|apply Hc].
Qed.
Lemma rel_poly_add_ok {R} (a b r : poly R) : poly_add a b = Val r -> rel_poly_add a b = Val r.
Proof. apply rel_op2_ok; [apply rel_add_vec_vt_ok|apply rel_add_vec_ok]. Qed.
Lemma rel_poly_sub_ok {R} (a b r : poly R) : poly_sub a b = Val r -> rel_poly_sub a b = Val r.
Proof. apply rel_op2_ok; [apply rel_sub_vec_vt_ok|apply rel_sub_vec_ok]. Qed.
Lemma rel_poly_mul_ok (a b r : poly Ntt) : poly_mul a b = Val r -> rel_poly_mul a b = Val r.
Proof. apply rel_op2_ok; [apply rel_mul_vec_vt_ok|apply rel_mul_vec_ok]. Qed.
Lemma rel_poly_mul_shoup_ok (a : poly Ntt) (b : poly NttShoup) r : poly_mul_shoup a b = Val r -> rel_poly_mul_shoup a b = Val r.
Proof.
  unfold poly_mul_shoup, rel_poly_mul_shoup. intros E. cbv zeta in *. apply bind_inv in E. destruct E as (u & -> & E). cbn [bind]. apply bind_inv in E. destruct E as (u' & _ & E).
  apply bind_inv in E. destruct E as (sh & -> & E). cbn [bind].
  apply bind_inv in E. destruct E as (rows & Er & E). erewrite zip_upd3_rows; [exact E| |exact Er]. intros x y q z. cbv beta. destruct (p_vt a && p_vt b); [apply rel_mul_shoup_vec_vt_ok|apply rel_mul_shoup_vec_ok].
Qed.
Lemma rel_poly_scalar_mul_ok {R} (a : poly R) k r : ctx_ok (p_ctx a) -> poly_scalar_mul a k = Val r -> rel_poly_scalar_mul a k = Val r.
Proof.
  unfold poly_scalar_mul, rel_poly_scalar_mul. intros Hc E. rewrite (project_ops _ Hc) in *. cbn [bind] in *. apply bind_inv in E. destruct E as (rows & Er & E).
  erewrite zip_upd3_ref; [exact E| |exact Er]. intros x s q z Hs. cbv beta. apply in_map_iff in Hs. destruct Hs as (op & <- & Hop). destruct (op_ok _ Hc op Hop) as (K & w & Hok & _).
  pose proof (proj1 (valid_fields _ (ok_m _ _ _ Hok))) as Hp. pose proof (Z.mod_pos_bound k (mod_p (nt_p op)) ltac:(lia)).
  destruct (p_vt a); [apply rel_scalar_mul_vec_vt_ok|apply rel_scalar_mul_vec_ok]; lia.
Qed.
Lemma rel_poly_neg_ok {R} (a r : poly R) : poly_neg a = Val r -> rel_poly_neg a = Val r.
Proof.
  unfold poly_neg, rel_poly_neg. intros E. apply bind_inv in E. destruct E as (u & -> & E). cbn [bind]. apply bind_inv in E. destruct E as (rows & Er & E).
  erewrite zip_upd_ref; [exact E| |exact Er]. intros x q z. cbv beta. intros Ez. f_equal. revert Ez. destruct (p_vt a); [apply rel_neg_vec_vt_ok|apply rel_neg_vec_ok].
Qed.
Lemma rel_pb_into_ntt_ok p r : pb_into_ntt p = Val r -> rel_pb_into_ntt p = Val r.
Proof.
  unfold pb_into_ntt, rel_pb_into_ntt, fwd_rows. intros E. apply bind_inv in E. destruct E as (rows & Er & E).
  erewrite zip_upd_ref; [exact E| |exact Er]. intros x q z. cbv beta. destruct (p_vt p); [apply rel_forward_vt_ok|apply rel_forward_ok].
Qed.
Lemma rel_ntt_into_pb_ok p r : ntt_into_pb p = Val r -> rel_ntt_into_pb p = Val r.
Proof.
  unfold ntt_into_pb, rel_ntt_into_pb, bwd_rows. intros E. apply bind_inv in E. destruct E as (rows & Er & E).
  erewrite zip_upd_ref; [exact E| |exact Er]. intros x q z. cbv beta. destruct (p_vt p); [apply rel_backward_vt_ok|apply rel_backward_ok].
Qed.
Lemma rel_pk_from_shares_ok l r : pk_from_shares l = Val r -> rel_pk_from_shares l = Val r.
Proof.
  destruct l as [|s l]; [discriminate|]. cbn [pk_from_shares rel_pk_from_shares]. intros E. apply bind_inv in E. destruct E as (p & Ep & E).
  unfold rel_poly_sum. rewrite foldM_map. erewrite foldM_ref; [exact E| |exact Ep]. intros x sh y. apply rel_poly_add_ok.
Qed.
Lemma rel_sks_from_shares_ok l r : sks_from_shares l = Val r -> rel_sks_from_shares l = Val r.
Proof.
  destruct l as [|s l]; [discriminate|]. cbn [sks_from_shares rel_sks_from_shares]. intros E. apply bind_inv in E. destruct E as (p & Ep & E).
  unfold rel_poly_sum. rewrite foldM_map. erewrite foldM_ref; [|intros x sh y; apply rel_poly_add_ok|exact Ep]. cbn [bind].
  apply bind_inv in E. destruct E as (c0 & -> & E). cbn [bind]. apply bind_inv in E. destruct E as (c0' & Ec & E). rewrite (rel_poly_add_ok _ _ _ Ec). exact E.
Qed.
Lemma rel_pksw_from_shares_ok l r : pksw_from_shares l = Val r -> rel_pksw_from_shares l = Val r.
Proof.
  destruct l as [|s l]; [discriminate|]. cbn [pksw_from_shares rel_pksw_from_shares]. intros E. apply bind_inv in E. destruct E as ((h0, h1) & Ep & E).
  erewrite foldM_ref; [| |exact Ep].
  - cbn [bind]. apply bind_inv in E. destruct E as (c0' & Ec & E). rewrite (rel_poly_add_ok _ _ _ Ec). exact E.
  - intros x sh y Ey. cbv beta in *. apply bind_inv in Ey. destruct Ey as (y0 & E0 & Ey). apply bind_inv in Ey. destruct Ey as (y1 & E1 & Ey).
    rewrite (rel_poly_add_ok _ _ _ E0). cbn [bind]. rewrite (rel_poly_add_ok _ _ _ E1). exact Ey.
Qed.

(** Operands of two contexts. *)
Lemma zip_rows_nth {A B C} (f : A -> B -> C -> A) : forall l l' l'' i, nth_error (zip_rows f l l' l'') i =
  match nth_error l i, nth_error l' i, nth_error l'' i with Some a, Some b, Some c => Some (f a b c) | o, _, _ => o end.
Proof.
  induction l as [|a l IH]; intros l' l'' i; [destruct l', l'', i; reflexivity|]. destruct l' as [|b l'].
  - cbn [zip_rows]. destruct i; cbn [nth_error]; [reflexivity|]. destruct (nth_error l i); reflexivity.
  - destruct l'' as [|c l'']; cbn [zip_rows]; destruct i; cbn [nth_error]; try reflexivity; [|apply IH].
    destruct (nth_error l i), (nth_error l' i); reflexivity.
Qed.
Lemma zip_rows_length {A B C} (f : A -> B -> C -> A) : forall l l' l'', length (zip_rows f l l' l'') = length l.
Proof. induction l as [|a l IH]; intros [|b l'] [|c l'']; cbn [zip_rows length]; try reflexivity. rewrite IH. reflexivity. Qed.
Lemma Forall2_nth_intro {A B} (P : A -> B -> Prop) : forall l l', length l = length l' -> (forall i a b, nth_error l i = Some a -> nth_error l' i = Some b -> P a b) -> Forall2 P l l'.
Proof.
  induction l as [|a l IH]; intros [|b l'] L H; try discriminate; constructor; [apply (H O); reflexivity|]. apply IH; [cbn in L; lia|]. intros i. apply (H (S i)).
Qed.

Section Mixed.
  Variables (isp : Z -> bool) (cands : Z -> list Z) (c c' : ctx).
  Hypotheses (Hb : built isp cands c) (Hb' : built isp cands c') (Hc : ctx_ok c) (Hc' : ctx_ok c') (Hch : one_chain c c').
  Notation N := (c_degree c).

  Lemma chain_ops i op op' : nth_error (c_ops c) i = Some op -> nth_error (c_ops c') i = Some op' -> op = op'.
  Proof.
    intros E E'. destruct Hch as (Ed & Hm). apply (built_same_ops isp cands c c' Hb Hb' Ed); [eapply nth_error_In; eassumption..|].
    pose proof (map_nth_error (fun op => mod_p (nt_p op)) _ _ E) as M. pose proof (map_nth_error (fun op => mod_p (nt_p op)) _ _ E') as M'.
    rewrite <- (moduli_ops c Hc) in M. rewrite <- (moduli_ops c' Hc') in M'.
    destruct Hm as [(l & Em)|(l & Em)]; rewrite Em in *.
    - rewrite nth_error_app1 in M by (apply nth_error_Some; congruence). congruence.
    - rewrite nth_error_app1 in M' by (apply nth_error_Some; congruence). congruence.
  Qed.

  Lemma rows_mixed R {B} (f : list Z -> B -> modulus -> list Z) (g : ntt_op -> B) x u : length x = N -> length u = N ->
    (forall op, In op (c_ops c) -> f (row R op x) (g op) (nt_p op) = row R op u) ->
    exists z, length z = N /\ zip_rows f (map (fun op => row R op x) (c_ops c)) (map g (c_ops c')) (c_q c) = map (fun op => row R op z) (c_ops c) /\
      mixed c (length (c_moduli c')) z u x.
  Proof.
    intros Hx Hu H. set (rows := zip_rows _ _ _ _).
    assert (Nth : forall i op, nth_error (c_ops c) i = Some op -> nth_error rows i = Some (row R op (if Nat.ltb i (length (c_moduli c')) then u else x))).
    { intros i op E. unfold rows. rewrite zip_rows_nth, (q_ops c Hc). rewrite !(map_nth_error _ _ _ E).
      destruct (Nat.ltb_spec i (length (c_moduli c'))) as [L|L]; rewrite (moduli_ops c' Hc'), map_length in L.
      - destruct (nth_error (c_ops c') i) as [op'|] eqn:E'; [|apply nth_error_None in E'; lia]. rewrite (map_nth_error _ _ _ E').
        rewrite <- (chain_ops _ _ _ E E'). apply (f_equal Some). apply H. eapply nth_error_In; eassumption.
      - rewrite (proj2 (nth_error_None (map g (c_ops c')) i)) by (rewrite map_length; exact L). reflexivity. }
    assert (Len : length rows = length (c_ops c)) by (unfold rows; rewrite zip_rows_length, map_length; reflexivity).
    destruct (rows_exist c Hc R rows) as (z & Lz & _ & Ez).
    { apply Forall2_nth_intro; [symmetry; exact Len|]. intros i op r E Er. rewrite (Nth _ _ E) in Er. injection Er as <-.
      destruct (op_ok c Hc op (nth_error_In _ _ E)) as (K & w & Hok & Hs).
      assert (L : length (if Nat.ltb i (length (c_moduli c')) then u else x) = N) by (destruct (Nat.ltb _ _); assumption).
      split; [rewrite (row_length op K w Hok); congruence|apply (row_canonical op K w Hok); congruence]. }
    exists z. split; [exact Lz|]. split; [symmetry; exact Ez|]. intros i q Eq.
    rewrite (moduli_ops c Hc) in Eq. destruct (nth_error (c_ops c) i) as [op|] eqn:E.
    2:{ apply nth_error_None in E. assert (nth_error (map (fun op => mod_p (nt_p op)) (c_ops c)) i = None) by (apply nth_error_None; rewrite map_length; exact E). congruence. }
    rewrite (map_nth_error _ _ _ E) in Eq. injection Eq as <-. destruct (op_ok c Hc op (nth_error_In _ _ E)) as (K & w & Hok & Hs).
    assert (L : length (if Nat.ltb i (length (c_moduli c')) then u else x) = N) by (destruct (Nat.ltb _ _); assumption).
    apply congruent_lcong. apply (row_cong op K w Hok R); [congruence..|]. pose proof (Nth _ _ E) as En. rewrite <- Ez, (map_nth_error _ _ _ E) in En. congruence.
  Qed.

  Lemma op2_mixed R fv fc F v v' x y : length x = N -> length (F x y) = N -> R <> NttShoup ->
    (forall op, In op (c_ops c) -> fv (nt_p op) (row R op x) (row R op y) = row R op (F x y) /\ fc (nt_p op) (row R op x) (row R op y) = row R op (F x y)) ->
    exists z, length z = N /\ rel_poly_op2 fv fc (poly_of R c v x) (poly_of R c' v' y) = Val (poly_of R c (v && v') z) /\
      mixed c (length (c_moduli c')) z (F x y) x.
  Proof.
    intros Hx Hu HR H.
    destruct (rows_mixed R (fun v1 v2 q => if v && v' then fv q v1 v2 else fc q v1 v2) (fun op => row R op y) x (F x y) Hx Hu) as (z & Lz & Ez & Hz).
    { intros op Hop. destruct (H op Hop). destruct (v && v'); assumption. }
    exists z. split; [exact Lz|]. split; [|exact Hz]. unfold rel_poly_op2. cbv zeta. cbn [p_lazy p_ctx p_vt p_coeffs p_shoup poly_of negb andb guard bind]. rewrite Ez.
    unfold poly_of. destruct R; [reflexivity..|congruence].
  Qed.

  Ltac each_op := let op := fresh "op" in let Hop := fresh "Hop" in intros op Hop; destruct (op_ok c Hc op Hop) as (K & w & Hok & Hs).
  Lemma add_mixed R v v' x y : length x = N -> length y = N -> R <> NttShoup ->
    exists z, length z = N /\ rel_poly_add (poly_of R c v x) (poly_of R c' v' y) = Val (poly_of R c (v && v') z) /\ mixed c (length (c_moduli c')) z (ladd x y) x.
  Proof.
    intros Hx Hy HR. apply (op2_mixed R _ _ ladd); try assumption; [apply ladd_length; assumption|]. each_op.
    rewrite (row_ladd op K w Hok) by congruence. split; [apply rel_add_vec_vt_ok|apply rel_add_vec_ok]; apply (add_vec_spec _ (ok_m _ _ _ Hok));
      try (apply (row_canonical op K w Hok); congruence); rewrite !(row_length op K w Hok); congruence.
  Qed.
  Lemma sub_mixed R v v' x y : length x = N -> length y = N -> R <> NttShoup ->
    exists z, length z = N /\ rel_poly_sub (poly_of R c v x) (poly_of R c' v' y) = Val (poly_of R c (v && v') z) /\ mixed c (length (c_moduli c')) z (lsub x y) x.
  Proof.
    intros Hx Hy HR. apply (op2_mixed R _ _ lsub); try assumption; [apply lsub_length; assumption|]. each_op.
    rewrite (row_lsub op K w Hok) by congruence. split; [apply rel_sub_vec_vt_ok|apply rel_sub_vec_ok]; apply (sub_vec_spec _ (ok_m _ _ _ Hok));
      try (apply (row_canonical op K w Hok); congruence); rewrite !(row_length op K w Hok); congruence.
  Qed.
  Lemma mul_mixed v v' x y : length x = N -> length y = N ->
    exists z, length z = N /\ rel_poly_mul (poly_of Ntt c v x) (poly_of Ntt c' v' y) = Val (poly_of Ntt c (v && v') z) /\ mixed c (length (c_moduli c')) z (nmul N x y) x.
  Proof.
    intros Hx Hy. apply (op2_mixed Ntt _ _ (nmul N)); try assumption; [apply nmul_length; assumption|discriminate|]. each_op.
    rewrite <- Hs. rewrite (row_nmul op K w Hok) by congruence. split; [apply rel_mul_vec_vt_ok|apply rel_mul_vec_ok]; apply (mul_vec_spec _ (ok_m _ _ _ Hok));
      try (apply (row_canonical op K w Hok); congruence); rewrite !(row_length op K w Hok); congruence.
  Qed.
  Lemma mul_shoup_mixed v v' x y : length x = N -> length y = N ->
    exists z, length z = N /\ rel_poly_mul_shoup (poly_of Ntt c v x) (poly_of NttShoup c' v' y) = Val (poly_of Ntt c (v && v') z) /\ mixed c (length (c_moduli c')) z (nmul N x y) x.
  Proof.
    intros Hx Hy.
    destruct (rows_mixed Ntt (fun v1 v2s q => if v && v' then rel_mul_shoup_vec_vt q v1 (fst v2s) (snd v2s) else rel_mul_shoup_vec q v1 (fst v2s) (snd v2s))
      (fun op => (row Ntt op y, shoup_row op (row Ntt op y))) x (nmul N x y) Hx ltac:(apply nmul_length; assumption)) as (z & Lz & Ez & Hz).
    { each_op. cbn [fst snd]. rewrite <- Hs, (row_nmul op K w Hok) by congruence.
      destruct (mul_shoup_vec_spec _ (ok_m _ _ _ Hok) (row Ntt op x) (row Ntt op y) (shoup_row op (row Ntt op y))) as (E1 & E2).
      - apply (row_u64 op K w Hok). congruence.
      - apply (row_canonical op K w Hok). congruence.
      - rewrite !(row_length op K w Hok); congruence.
      - apply (shoup_row_vec op K w Hok). congruence.
      - destruct (v && v'); [apply rel_mul_shoup_vec_vt_ok|apply rel_mul_shoup_vec_ok]; assumption. }
    exists z. split; [exact Lz|]. split; [|exact Hz]. unfold rel_poly_mul_shoup. cbv zeta. cbn [p_lazy p_ctx p_vt p_coeffs p_shoup poly_of negb guard bind unwrap].
    rewrite combine_map. change (fun op => (row NttShoup op y, shoup_row op (row NttShoup op y))) with (fun op => (row Ntt op y, shoup_row op (row Ntt op y))). rewrite Ez. reflexivity.
  Qed.
End Mixed.
