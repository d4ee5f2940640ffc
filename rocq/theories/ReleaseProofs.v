(** The release build computes what the debug build computes, wherever the latter does not panic: zq/mod.rs and the butterflies. *)
From Verif Require Import Outcome OutcomeLemmas ZqModel ZqProofs NttModel ReleaseModel.

Lemma w64_id x : is_u64 x -> w64 x = x.
Proof. intros H. apply Z.mod_small. exact H. Qed.
Lemma w64_u64 x : is_u64 (w64 x).
Proof. apply Z.mod_pos_bound. reflexivity. Qed.
Lemma w128_id x : is_u128 x -> w128 x = x.
Proof. intros H. apply Z.mod_small. exact H. Qed.
Lemma chk64_rel x y : chk64 x = Val y -> w64 x = y.
Proof. intros H. apply chk_inv in H. destruct H as (-> & H). apply w64_id. exact H. Qed.
Lemma chk128_rel x y : chk128 x = Val y -> w128 x = y.
Proof. intros H. apply chk_inv in H. destruct H as (-> & H). apply w128_id. exact H. Qed.
Lemma val_inj {A} (a b : A) : Val a = Val b -> a = b.
Proof. intros H. injection H. auto. Qed.

(** Takes a successful computation apart: the checks become equations between wrapped values. *)
Ltac rel_step H :=
  match type of H with
  | bind (guard _) _ = Val _ => apply bind_inv in H; destruct H as (? & ? & H)
  | bind (chk64 _) _ = Val _ => let E := fresh "E" in apply bind_inv in H; destruct H as (? & E & H); apply chk64_rel in E
  | bind (chk128 _) _ = Val _ => let E := fresh "E" in apply bind_inv in H; destruct H as (? & E & H); apply chk128_rel in E
  | bind _ _ = Val _ => let E := fresh "E" in apply bind_inv in H; destruct H as (? & E & H)
  | Val _ = Val _ => apply val_inj in H
  end.
Ltac rel_steps H := cbv zeta in H; repeat (rel_step H; cbv zeta in H).

Lemma rel_reduce1_ok x p r : reduce1 x p = Val r -> rel_reduce1 x p = r.
Proof. unfold reduce1, rel_reduce1. intros H. rel_steps H. exact H. Qed.
Lemma rel_reduce1_vt_ok x p r : reduce1_vt x p = Val r -> rel_reduce1_vt x p = r.
Proof. unfold reduce1_vt, rel_reduce1_vt. intros H. rel_steps H. destruct (p <=? x); [apply chk64_rel|apply val_inj]; exact H. Qed.
Lemma rel_lazy_reduce_u128_ok m a r : lazy_reduce_u128 m a = Val r -> rel_lazy_reduce_u128 m a = r.
Proof. unfold lazy_reduce_u128, rel_lazy_reduce_u128. intros H. rel_steps H. unfold w64. cbv zeta. subst. reflexivity. Qed.
Lemma rel_lazy_reduce_ok m a r : lazy_reduce m a = Val r -> rel_lazy_reduce m a = r.
Proof. unfold lazy_reduce, rel_lazy_reduce. intros H. rel_steps H. cbv zeta. subst. reflexivity. Qed.
Lemma rel_lazy_reduce_opt_u128_ok m a r : lazy_reduce_opt_u128 m a = Val r -> rel_lazy_reduce_opt_u128 m a = r.
Proof. unfold lazy_reduce_opt_u128, rel_lazy_reduce_opt_u128. intros H. rel_steps H. cbv zeta. subst. reflexivity. Qed.
Lemma rel_lazy_reduce_opt_ok m a r : lazy_reduce_opt m a = Val r -> rel_lazy_reduce_opt m a = r.
Proof. unfold lazy_reduce_opt, rel_lazy_reduce_opt. intros H. rel_steps H. cbv zeta. subst. reflexivity. Qed.

Ltac rel_use :=
  repeat match goal with
  | E : lazy_reduce_u128 _ _ = Val _ |- _ => apply rel_lazy_reduce_u128_ok in E
  | E : lazy_reduce _ _ = Val _ |- _ => apply rel_lazy_reduce_ok in E
  | E : lazy_reduce_opt_u128 _ _ = Val _ |- _ => apply rel_lazy_reduce_opt_u128_ok in E
  | E : lazy_reduce_opt _ _ = Val _ |- _ => apply rel_lazy_reduce_opt_ok in E
  | E : reduce1 _ _ = Val _ |- _ => apply rel_reduce1_ok in E
  | E : reduce1_vt _ _ = Val _ |- _ => apply rel_reduce1_vt_ok in E
  end; subst; reflexivity.

Lemma rel_reduce_u128_ok m a r : reduce_u128 m a = Val r -> rel_reduce_u128 m a = r.
Proof. unfold reduce_u128, rel_reduce_u128. intros H. rel_steps H. rel_use. Qed.
Lemma rel_reduce_u128_vt_ok m a r : reduce_u128_vt m a = Val r -> rel_reduce_u128_vt m a = r.
Proof. unfold reduce_u128_vt, rel_reduce_u128_vt. intros H. rel_steps H. rel_use. Qed.
Lemma rel_reduce_ok m a r : reduce m a = Val r -> rel_reduce m a = r.
Proof. unfold reduce, rel_reduce. intros H. rel_steps H. rel_use. Qed.
Lemma rel_reduce_vt_ok m a r : reduce_vt m a = Val r -> rel_reduce_vt m a = r.
Proof. unfold reduce_vt, rel_reduce_vt. intros H. rel_steps H. rel_use. Qed.
Lemma rel_reduce_opt_u128_ok m a r : reduce_opt_u128 m a = Val r -> rel_reduce_opt_u128 m a = r.
Proof. unfold reduce_opt_u128, rel_reduce_opt_u128. intros H. rel_steps H. rel_use. Qed.
Lemma rel_reduce_opt_u128_vt_ok m a r : reduce_opt_u128_vt m a = Val r -> rel_reduce_opt_u128_vt m a = r.
Proof. unfold reduce_opt_u128_vt, rel_reduce_opt_u128_vt. intros H. rel_steps H. rel_use. Qed.
Lemma rel_reduce_opt_ok m a r : reduce_opt m a = Val r -> rel_reduce_opt m a = r.
Proof. unfold reduce_opt, rel_reduce_opt. intros H. rel_steps H. rel_use. Qed.
Lemma rel_reduce_opt_vt_ok m a r : reduce_opt_vt m a = Val r -> rel_reduce_opt_vt m a = r.
Proof. unfold reduce_opt_vt, rel_reduce_opt_vt. intros H. rel_steps H. rel_use. Qed.

Lemma rel_add_ok m a b r : zq_add m a b = Val r -> rel_add m a b = r.
Proof. unfold zq_add, rel_add. intros H. rel_steps H. rel_use. Qed.
Lemma rel_add_vt_ok m a b r : zq_add_vt m a b = Val r -> rel_add_vt m a b = r.
Proof. unfold zq_add_vt, rel_add_vt. intros H. rel_steps H. rel_use. Qed.
Lemma rel_sub_ok m a b r : zq_sub m a b = Val r -> rel_sub m a b = r.
Proof. unfold zq_sub, rel_sub. intros H. rel_steps H. rel_use. Qed.
Lemma rel_mul_ok m a b r : zq_mul m a b = Val r -> rel_mul m a b = r.
Proof. unfold zq_mul, rel_mul. intros H. rel_steps H. apply rel_reduce_u128_ok in H. subst. reflexivity. Qed.
Lemma rel_mul_vt_ok m a b r : zq_mul_vt m a b = Val r -> rel_mul_vt m a b = r.
Proof. unfold zq_mul_vt, rel_mul_vt. intros H. rel_steps H. rel_use. Qed.
Lemma rel_mul_opt_ok m a b r : zq_mul_opt m a b = Val r -> rel_mul_opt m a b = r.
Proof. unfold zq_mul_opt, rel_mul_opt. intros H. rel_steps H. apply rel_reduce_opt_u128_ok in H. subst. reflexivity. Qed.
Lemma rel_mul_opt_vt_ok m a b r : zq_mul_opt_vt m a b = Val r -> rel_mul_opt_vt m a b = r.
Proof. unfold zq_mul_opt_vt, rel_mul_opt_vt. intros H. rel_steps H. apply rel_reduce_opt_u128_vt_ok in H. subst. reflexivity. Qed.
Lemma rel_neg_ok m a r : zq_neg m a = Val r -> rel_neg m a = r.
Proof. unfold zq_neg, rel_neg. intros H. rel_steps H. rel_use. Qed.
Lemma rel_neg_vt_ok m a r : zq_neg_vt m a = Val r -> rel_neg_vt m a = r.
Proof. unfold zq_neg_vt, rel_neg_vt. intros H. rel_steps H. rel_use. Qed.

(** The modulus of an operation that succeeded is not 0 if the operand was not negative. *)
Lemma rel_shoup_ok m a r : 0 <= a -> shoup m a = Val r -> rel_shoup m a = Val r.
Proof.
  unfold shoup, rel_shoup. intros Ha H. apply bind_inv in H. destruct H as (? & G & H). apply guard_inv, Z.ltb_lt in G.
  rewrite bind_guard by (rewrite negb_true_iff; apply Z.eqb_neq; lia). exact H.
Qed.
Lemma rel_lazy_mul_shoup_ok m a b bs r : lazy_mul_shoup m a b bs = Val r -> rel_lazy_mul_shoup m a b bs = r.
Proof. unfold lazy_mul_shoup, rel_lazy_mul_shoup. intros H. rel_steps H. cbv zeta. subst. reflexivity. Qed.
Lemma rel_mul_shoup_ok m a b bs r : mul_shoup m a b bs = Val r -> rel_mul_shoup m a b bs = r.
Proof. unfold mul_shoup, rel_mul_shoup. intros H. rel_steps H. apply rel_lazy_mul_shoup_ok in E. rel_use. Qed.
Lemma rel_mul_shoup_vt_ok m a b bs r : mul_shoup_vt m a b bs = Val r -> rel_mul_shoup_vt m a b bs = r.
Proof. unfold mul_shoup_vt, rel_mul_shoup_vt. intros H. rel_steps H. apply rel_lazy_mul_shoup_ok in E. rel_use. Qed.
Lemma rel_center_ok m a r : center m a = Val r -> rel_center m a = r.
Proof. unfold center, rel_center. intros H. rel_steps H. exact H. Qed.
Lemma rel_reduce_i64_ok m a r : reduce_i64 m a = Val r -> rel_reduce_i64 m a = r.
Proof. unfold reduce_i64, rel_reduce_i64. intros H. rel_steps H. apply chk_inv in E. destruct E as (-> & _). apply rel_reduce_u128_ok. exact H. Qed.
Lemma rel_reduce_i64_vt_ok m a r : reduce_i64_vt m a = Val r -> rel_reduce_i64_vt m a = r.
Proof. unfold reduce_i64_vt, rel_reduce_i64_vt. intros H. rel_steps H. apply chk_inv in E. destruct E as (-> & _). apply rel_reduce_u128_vt_ok. exact H. Qed.

Lemma rel_pow_loop_ok m a n k : forall x r, pow_loop m a n k x = Val r -> rel_pow_loop m a n k x = r.
Proof.
  induction k as [|k IH]; intros x r H; cbn [pow_loop rel_pow_loop] in *; [apply val_inj; exact H|].
  apply bind_inv in H. destruct H as (y & E & H). apply rel_mul_ok in E. rewrite E. cbv zeta.
  apply bind_inv in H. destruct H as (z & E' & H). apply IH. rewrite <- H. f_equal.
  destruct (Z.land _ 1 =? 1); [apply rel_mul_ok|apply val_inj]; exact E'.
Qed.
Lemma rel_pow_ok m a n r : zq_pow m a n = Val r -> rel_pow m a n = r.
Proof.
  unfold zq_pow, rel_pow. intros H. apply bind_inv in H. destruct H as (? & _ & H).
  destruct (n =? 0); [apply val_inj; exact H|]. destruct (n =? 1); [apply val_inj; exact H|].
  apply bind_inv in H. destruct H as (i & E & H). apply chk_inv in E. destruct E as (-> & E). rewrite Z.mod_small by exact E.
  apply rel_pow_loop_ok. exact H.
Qed.
Lemma rel_inv_ok isp m a r : zq_inv isp m a = Val r -> rel_inv isp m a = r.
Proof.
  unfold zq_inv, rel_inv. destruct (negb (isp (mod_p m)) || (a =? 0)); intros H; [apply val_inj; exact H|].
  rel_steps H. apply rel_pow_ok in E0. subst. reflexivity.
Qed.

(** Vectors. *)
Lemma rel_mapM f g : (forall a r, f a = Val r -> g a = r) -> forall (l r : list Z), mapM f l = Val r -> map g l = r.
Proof.
  intros Hf. induction l as [|a l IH]; intros r H; cbn [mapM map] in *; [apply val_inj; exact H|].
  rel_steps H. apply Hf in E. apply IH in E0. subst. reflexivity.
Qed.
Lemma rel_zip f g : (forall a b r, f a b = Val r -> g a b = r) -> forall a b r, zip_upd f a b = Val r -> zip_rel g a b = r.
Proof.
  intros Hf. induction a as [|x a IH]; intros [|y b] r H; cbn [zip_upd zip_rel] in *; try (apply val_inj; exact H).
  rel_steps H. apply Hf in E. apply IH in E0. subst. reflexivity.
Qed.
Lemma rel_zip3 f g : (forall a b c r, f a b c = Val r -> g a b c = r) -> forall a b c r, zip_upd3 f a b c = Val r -> zip_rel3 g a b c = r.
Proof.
  intros Hf. induction a as [|x a IH]; intros [|y b] [|z c] r H; cbn [zip_upd3 zip_rel3] in *; try (apply val_inj; exact H).
  rel_steps H. apply Hf in E. apply IH in E0. subst. reflexivity.
Qed.
Lemma rel_zip_lists f g : (forall a b r, f a b = Val r -> g a b = r) -> forall a b r, zip_upd f a b = Val r -> zip_lists g a b = r.
Proof.
  intros Hf. induction a as [|x a IH]; intros [|y b] r H; cbn [zip_upd zip_lists] in *; try (apply val_inj; exact H).
  rel_steps H. apply Hf in E. apply IH in E0. subst. reflexivity.
Qed.
Lemma rel_chunked_ok f g : (forall a b r, f a b = Val r -> g a b = r) -> forall a b r, chunked_upd f a b = Val r -> rel_chunked g a b = r.
Proof.
  intros Hf a b r. unfold chunked_upd, rel_chunked. destruct (as_chunks 16 a) as [ac ar]. destruct (as_chunks 16 b) as [bc br].
  intros H. rel_steps H. rewrite (rel_zip_lists _ _ (rel_zip _ _ Hf) _ _ _ E), (rel_zip _ _ Hf _ _ _ E0). exact H.
Qed.
Lemma rel_add_vec_ok m a b r : add_vec m a b = Val r -> rel_add_vec m a b = r.
Proof. unfold add_vec. intros H. rel_steps H. revert H. apply rel_zip. apply rel_add_ok. Qed.
Lemma rel_sub_vec_ok m a b r : sub_vec m a b = Val r -> rel_sub_vec m a b = r.
Proof. unfold sub_vec. intros H. rel_steps H. revert H. apply rel_zip. apply rel_sub_ok. Qed.
Lemma rel_mul_vec_ok m a b r : mul_vec m a b = Val r -> rel_mul_vec m a b = r.
Proof. unfold mul_vec, rel_mul_vec. intros H. rel_steps H. revert H. destruct (mod_opt m); apply rel_zip; [apply rel_mul_opt_ok|apply rel_mul_ok]. Qed.
Lemma rel_mul_vec_vt_ok m a b r : mul_vec_vt m a b = Val r -> rel_mul_vec_vt m a b = r.
Proof. unfold mul_vec_vt, rel_mul_vec_vt. intros H. rel_steps H. revert H. destruct (mod_opt m); apply rel_zip; [apply rel_mul_opt_vt_ok|apply rel_mul_vt_ok]. Qed.
Lemma rel_add_vec_vt_ok m a b r : add_vec_vt m a b = Val r -> rel_add_vec_vt m a b = r.
Proof.
  unfold add_vec_vt. intros H. rel_steps H. revert H. apply rel_chunked_ok. intros ? ? ? H. unfold rel_add_vt. rel_steps H. rel_use.
Qed.
Lemma rel_sub_vec_vt_ok m a b r : sub_vec_vt m a b = Val r -> rel_sub_vec_vt m a b = r.
Proof.
  unfold sub_vec_vt. intros H. rel_steps H. revert H. apply rel_chunked_ok. intros ? ? ? H. rel_steps H. rel_use.
Qed.
Lemma rel_scalar_mul_vec_ok m a b r : 0 <= b -> scalar_mul_vec m a b = Val r -> rel_scalar_mul_vec m a b = Val r.
Proof.
  unfold scalar_mul_vec, rel_scalar_mul_vec. intros Hb H. rel_steps H. rewrite (rel_shoup_ok _ _ _ Hb E). cbn [bind]. f_equal.
  revert H. apply rel_mapM. intros y z. apply rel_mul_shoup_ok.
Qed.
Lemma rel_scalar_mul_vec_vt_ok m a b r : 0 <= b -> scalar_mul_vec_vt m a b = Val r -> rel_scalar_mul_vec_vt m a b = Val r.
Proof.
  unfold scalar_mul_vec_vt, rel_scalar_mul_vec_vt. intros Hb H. rel_steps H. rewrite (rel_shoup_ok _ _ _ Hb E). cbn [bind]. f_equal.
  revert H. apply rel_mapM. intros y z. apply rel_mul_shoup_vt_ok.
Qed.
Lemma rel_shoup_vec_ok m a r : Forall (fun x => 0 <= x) a -> shoup_vec m a = Val r -> rel_shoup_vec m a = Val r.
Proof.
  unfold shoup_vec, rel_shoup_vec. intros Ha. revert r. induction Ha as [|x a Hx Ha IH]; intros r H; cbn [mapM] in *; [exact H|].
  rel_steps H. rewrite (rel_shoup_ok _ _ _ Hx E). cbn [bind]. rewrite (IH _ E0). cbn [bind]. f_equal. exact H.
Qed.
Lemma rel_mul_shoup_vec_ok m a b bs r : mul_shoup_vec m a b bs = Val r -> rel_mul_shoup_vec m a b bs = r.
Proof. unfold mul_shoup_vec. intros H. rel_steps H. revert H. apply rel_zip3. apply rel_mul_shoup_ok. Qed.
Lemma rel_mul_shoup_vec_vt_ok m a b bs r : mul_shoup_vec_vt m a b bs = Val r -> rel_mul_shoup_vec_vt m a b bs = r.
Proof. unfold mul_shoup_vec_vt. intros H. rel_steps H. revert H. apply rel_zip3. apply rel_mul_shoup_vt_ok. Qed.
Lemma rel_lazy_reduce_vec_ok m a r : lazy_reduce_vec m a = Val r -> rel_lazy_reduce_vec m a = r.
Proof. unfold lazy_reduce_vec, rel_lazy_reduce_vec. destruct (mod_opt m); apply rel_mapM; [apply rel_lazy_reduce_opt_ok|apply rel_lazy_reduce_ok]. Qed.
Lemma rel_reduce_vec_ok m a r : reduce_vec m a = Val r -> rel_reduce_vec m a = r.
Proof. apply rel_mapM, rel_reduce_ok. Qed.
Lemma rel_reduce_vec_vt_ok m a r : reduce_vec_vt m a = Val r -> rel_reduce_vec_vt m a = r.
Proof. apply rel_mapM, rel_reduce_vt_ok. Qed.
Lemma rel_center_vec_ok m a r : center_vec m a = Val r -> rel_center_vec m a = r.
Proof. apply rel_mapM, rel_center_ok. Qed.
Lemma rel_reduce_vec_i64_ok m a r : reduce_vec_i64 m a = Val r -> rel_reduce_vec_i64 m a = r.
Proof. apply rel_mapM, rel_reduce_i64_ok. Qed.
Lemma rel_reduce_vec_i64_vt_ok m a r : reduce_vec_i64_vt m a = Val r -> rel_reduce_vec_i64_vt m a = r.
Proof. apply rel_mapM, rel_reduce_i64_vt_ok. Qed.
Lemma rel_neg_vec_ok m a r : neg_vec m a = Val r -> rel_neg_vec m a = r.
Proof. apply rel_mapM, rel_neg_ok. Qed.
Lemma rel_neg_vec_vt_ok m a r : neg_vec_vt m a = Val r -> rel_neg_vec_vt m a = r.
Proof. apply rel_mapM, rel_neg_vt_ok. Qed.

(** Butterflies. *)
Lemma rel_butterfly_ok r1 r1' : (forall x p r, r1 x p = Val r -> r1' x p = r) ->
  forall op x y w ws r, butterfly_gen r1 op x y w ws = Val r -> rel_butterfly r1' op x y w ws = r.
Proof.
  intros Hr op x y w ws r. unfold butterfly_gen, rel_butterfly. intros H. rel_steps H.
  repeat match goal with E : r1 _ _ = Val _ |- _ => apply Hr in E | E : lazy_mul_shoup _ _ _ _ = Val _ |- _ => apply rel_lazy_mul_shoup_ok in E end.
  cbv zeta. subst. reflexivity.
Qed.
Lemma rel_inv_butterfly_ok r1 r1' : (forall x p r, r1 x p = Val r -> r1' x p = r) ->
  forall op x y w ws r, inv_butterfly_gen r1 op x y w ws = Val r -> rel_inv_butterfly r1' op x y w ws = r.
Proof.
  intros Hr op x y w ws r. unfold inv_butterfly_gen, rel_inv_butterfly. intros H. rel_steps H.
  repeat match goal with E : r1 _ _ = Val _ |- _ => apply Hr in E | E : lazy_mul_shoup _ _ _ _ = Val _ |- _ => apply rel_lazy_mul_shoup_ok in E end.
  cbv zeta. subst. reflexivity.
Qed.
Lemma rel_reduce3_ok op a r : reduce3 op a = Val r -> rel_reduce3 op a = r.
Proof. unfold reduce3, rel_reduce3. intros H. rel_steps H. rel_use. Qed.
Lemma rel_reduce3_vt_ok op a r : reduce3_vt op a = Val r -> rel_reduce3_vt op a = r.
Proof. unfold reduce3_vt, rel_reduce3_vt. intros H. rel_steps H. rel_use. Qed.

(** Loops. *)
Lemma rel_map2M {A B C} (f : A -> B -> M C) g : (forall a b c, f a b = Val c -> g a b = c) ->
  forall l l' r, map2M f l l' = Val r -> map2M (fun a b => Val (g a b)) l l' = Val r.
Proof.
  intros Hf. induction l as [|x l IH]; intros [|y l'] r H; cbn [map2M] in *; try exact H.
  rel_steps H. apply Hf in E. rewrite (IH _ _ E0). cbn [bind]. subst. reflexivity.
Qed.
Lemma rel_foldM {A S} (f g : S -> A -> M S) : (forall s a r, f s a = Val r -> g s a = Val r) ->
  forall l s r, foldM f l s = Val r -> foldM g l s = Val r.
Proof.
  intros Hf. induction l as [|a l IH]; intros s r H; cbn [foldM] in *; [exact H|].
  rel_steps H. rewrite (Hf _ _ _ E). cbn [bind]. apply IH. exact H.
Qed.

Lemma rel_fwd_chunk_ok op l w ws c r : fwd_chunk op l w ws c = Val r -> rel_fwd_chunk op l w ws c = Val r.
Proof.
  unfold fwd_chunk, rel_fwd_chunk. intros H. apply bind_inv in H. destruct H as (u & -> & H). cbn [bind]. destruct (Nat.eqb l 1).
  - destruct (firstn l c) as [|x lt]; [discriminate|]. destruct (skipn l c) as [|y rt]; [discriminate|].
    apply bind_inv in H. destruct H as ([x' y'] & E & H). apply (rel_butterfly_ok _ _ rel_reduce1_ok) in E. rewrite E.
    rel_steps H. apply rel_reduce3_ok in E0, E1. subst. reflexivity.
  - apply bind_inv in H. destruct H as (xy & E & H). rewrite (rel_map2M _ _ (fun a b r => rel_butterfly_ok _ _ rel_reduce1_ok op a b w ws r) _ _ _ E).
    exact H.
Qed.
Lemma rel_fwd_chunks_ok op l cs : forall k r, fwd_chunks op l k cs = Val r -> rel_fwd_chunks op l k cs = Val r.
Proof.
  induction cs as [|c cs IH]; intros k r H; cbn [fwd_chunks rel_fwd_chunks] in *; [exact H|].
  apply bind_inv in H. destruct H as (w & -> & H). cbn [bind]. apply bind_inv in H. destruct H as (ws & -> & H). cbn [bind].
  apply bind_inv in H. destruct H as (c' & E & H). rewrite (rel_fwd_chunk_ok _ _ _ _ _ _ E). cbn [bind].
  apply bind_inv in H. destruct H as (rk & E' & H). rewrite (IH _ _ E'). exact H.
Qed.
Lemma rel_fwd_loop_ok op f : forall l k a r, fwd_loop f op l k a = Val r -> rel_fwd_loop f op l k a = Val r.
Proof.
  induction f as [|f IH]; intros l k a r H; cbn [fwd_loop rel_fwd_loop] in *; [exact H|]. destruct (Nat.eqb l 0); [exact H|].
  destruct (as_chunks (2 * l) a) as [cs rr]. apply bind_inv in H. destruct H as ([cs' k'] & E & H).
  rewrite (rel_fwd_chunks_ok _ _ _ _ _ E). cbn [bind]. apply IH. exact H.
Qed.
Lemma rel_forward_ok op a r : ntt_forward op a = Val r -> rel_forward op a = Val r.
Proof. unfold ntt_forward. intros H. apply bind_inv in H. destruct H as (u & _ & H). apply rel_fwd_loop_ok. exact H. Qed.

Lemma rel_bwd_chunk_ok op l w ws c r : bwd_chunk op l w ws c = Val r -> rel_bwd_chunk op l w ws c = Val r.
Proof.
  unfold bwd_chunk, rel_bwd_chunk. intros H. apply bind_inv in H. destruct H as (u & -> & H). cbn [bind]. destruct (Nat.eqb l 1).
  - destruct (firstn l c) as [|x lt]; [discriminate|]. destruct (skipn l c) as [|y rt]; [discriminate|].
    apply bind_inv in H. destruct H as ([x' y'] & E & H). apply (rel_inv_butterfly_ok _ _ rel_reduce1_ok) in E. rewrite E. exact H.
  - apply bind_inv in H. destruct H as (xy & E & H). rewrite (rel_map2M _ _ (fun a b r => rel_inv_butterfly_ok _ _ rel_reduce1_ok op a b w ws r) _ _ _ E).
    exact H.
Qed.
Lemma rel_bwd_chunks_ok op l cs : forall k r, bwd_chunks op l k cs = Val r -> rel_bwd_chunks op l k cs = Val r.
Proof.
  induction cs as [|c cs IH]; intros k r H; cbn [bwd_chunks rel_bwd_chunks] in *; [exact H|].
  apply bind_inv in H. destruct H as (w & -> & H). cbn [bind]. apply bind_inv in H. destruct H as (ws & -> & H). cbn [bind].
  apply bind_inv in H. destruct H as (c' & E & H). rewrite (rel_bwd_chunk_ok _ _ _ _ _ _ E). cbn [bind].
  apply bind_inv in H. destruct H as (rk & E' & H). rewrite (IH _ _ E'). exact H.
Qed.
Lemma rel_bwd_loop_ok op f : forall l k a r, bwd_loop f op l k a = Val r -> rel_bwd_loop f op l k a = Val r.
Proof.
  induction f as [|f IH]; intros l k a r H; cbn [bwd_loop rel_bwd_loop] in *; [exact H|]. destruct (negb _); [exact H|].
  destruct (as_chunks (2 * l) a) as [cs rr]. apply bind_inv in H. destruct H as ([cs' k'] & E & H).
  rewrite (rel_bwd_chunks_ok _ _ _ _ _ E). cbn [bind]. apply IH. exact H.
Qed.
Lemma rel_scale_ok op l r : mapM (fun ai => mul_shoup (nt_p op) ai (nt_size_inv op) (nt_size_inv_shoup op)) l = Val r ->
  map (fun ai => rel_mul_shoup (nt_p op) ai (nt_size_inv op) (nt_size_inv_shoup op)) l = r.
Proof. apply rel_mapM. intros y z. apply rel_mul_shoup_ok. Qed.
Lemma rel_backward_ok op a r : ntt_backward op a = Val r -> rel_backward op a = Val r.
Proof.
  unfold ntt_backward, rel_backward. intros H. apply bind_inv in H. destruct H as (u & _ & H). apply bind_inv in H. destruct H as (b & E & H).
  rewrite (rel_bwd_loop_ok _ _ _ _ _ _ E). cbn [bind]. f_equal. apply rel_scale_ok. exact H.
Qed.

Lemma rel_at_pair_ok f g : (forall x y r, f x y = Val r -> g x y = r) ->
  forall a j l r, at_pair f a j l = Val r -> at_pair (fun x y => Val (g x y)) a j l = Val r.
Proof.
  intros Hf a j l r. unfold at_pair. intros H. apply bind_inv in H. destruct H as (u & -> & H). cbn [bind].
  apply bind_inv in H. destruct H as (x & -> & H). cbn [bind]. apply bind_inv in H. destruct H as (y & -> & H). cbn [bind].
  apply bind_inv in H. destruct H as (xy & E & H). apply Hf in E. rewrite E. exact H.
Qed.
Lemma rel_fwd_vt_block_ok op l ka i r : fwd_vt_block op l ka i = Val r -> rel_fwd_vt_block op l ka i = Val r.
Proof.
  unfold fwd_vt_block, rel_fwd_vt_block. destruct ka as [k a]. intros H. apply bind_inv in H. destruct H as (w & -> & H). cbn [bind].
  apply bind_inv in H. destruct H as (ws & -> & H). cbn [bind]. cbv zeta in *. apply bind_inv in H. destruct H as (b & E & H).
  rewrite (rel_foldM _ _ (fun s j => rel_at_pair_ok _ _ (fun x y => rel_butterfly_ok _ _ rel_reduce1_vt_ok op x y w ws) s j l) _ _ _ E). exact H.
Qed.
Lemma rel_bwd_vt_block_ok op l ka i r : bwd_vt_block op l ka i = Val r -> rel_bwd_vt_block op l ka i = Val r.
Proof.
  unfold bwd_vt_block, rel_bwd_vt_block. destruct ka as [k a]. cbv zeta. intros H. apply bind_inv in H. destruct H as (w & -> & H). cbn [bind].
  apply bind_inv in H. destruct H as (ws & -> & H). cbn [bind]. apply bind_inv in H. destruct H as (b & E & H).
  rewrite (rel_foldM _ _ (fun s j => rel_at_pair_ok _ _ (fun x y => rel_inv_butterfly_ok _ _ rel_reduce1_vt_ok op x y w ws) s j l) _ _ _ E). exact H.
Qed.
Lemma rel_fwd_vt_loop_ok op f : forall l m k a r, fwd_vt_loop f op l m k a = Val r -> rel_fwd_vt_loop f op l m k a = Val r.
Proof.
  induction f as [|f IH]; intros l m k a r H; cbn [fwd_vt_loop rel_fwd_vt_loop] in *; [exact H|]. destruct (Nat.eqb l 0); [exact H|].
  apply bind_inv in H. destruct H as ([k' a'] & E & H). unfold fwd_vt_stage in E.
  rewrite (rel_foldM _ _ (rel_fwd_vt_block_ok op l) _ _ _ E). cbn [bind]. apply IH. exact H.
Qed.
Lemma rel_bwd_vt_loop_ok op f : forall l m k a r, bwd_vt_loop f op l m k a = Val r -> rel_bwd_vt_loop f op l m k a = Val r.
Proof.
  induction f as [|f IH]; intros l m k a r H; cbn [bwd_vt_loop rel_bwd_vt_loop] in *; [exact H|]. destruct (Nat.eqb m 0); [exact H|].
  apply bind_inv in H. destruct H as ([k' a'] & E & H). unfold bwd_vt_stage in E.
  rewrite (rel_foldM _ _ (rel_bwd_vt_block_ok op l) _ _ _ E). cbn [bind]. apply IH. exact H.
Qed.
Lemma rel_forward_vt_lazy_ok op a r : ntt_forward_vt_lazy op a = Val r -> rel_forward_vt_lazy op a = Val r.
Proof. unfold ntt_forward_vt_lazy, rel_forward_vt_lazy. intros H. apply bind_inv in H. destruct H as (u & -> & H). apply rel_fwd_vt_loop_ok. exact H. Qed.
Lemma rel_forward_vt_ok op a r : ntt_forward_vt op a = Val r -> rel_forward_vt op a = Val r.
Proof.
  unfold ntt_forward_vt, rel_forward_vt. intros H. apply bind_inv in H. destruct H as (b & E & H). rewrite (rel_forward_vt_lazy_ok _ _ _ E).
  cbn [bind]. f_equal. revert H. apply rel_mapM. apply rel_reduce3_vt_ok.
Qed.
Lemma rel_backward_vt_ok op a r : ntt_backward_vt op a = Val r -> rel_backward_vt op a = Val r.
Proof.
  unfold ntt_backward_vt, rel_backward_vt. intros H. apply bind_inv in H. destruct H as (u & -> & H). cbn [bind].
  apply bind_inv in H. destruct H as (b & E & H). rewrite (rel_bwd_vt_loop_ok _ _ _ _ _ _ _ E). cbn [bind]. f_equal. apply rel_scale_ok. exact H.
Qed.
