(** Lists, sums and constant polynomials for the examples of private information retrieval. *)
From Verif Require Import Outcome BasicSpec OutcomeLemmas ZqModel ZqProofs NumTheory NttModel PolySpec PolyRing RnsModel RqModel RqSpec RingRn RnPoly TranscodeModel TranscodeProofs CipherSpec PirModel PirSpec.

(** ** Every k-th element *)
Lemma every_nth {A} k (l : list A) : (0 < k)%nat -> forall c j, nth_error (every k c l) j = nth_error l (c + j * k).
Proof.
  intros Hk. induction l as [|x l IH]; intros c j; cbn [every].
  - destruct j; destruct (c + _ * k)%nat; reflexivity.
  - destruct c as [|c].
    + destruct j as [|j]; [reflexivity|]. cbn [nth_error]. rewrite IH. cbn [Nat.mul Nat.add]. replace (k + j * k)%nat with (S (k - 1 + j * k)) by lia. reflexivity.
    + rewrite IH. reflexivity.
Qed.
Lemma skipn_nth_error {A} i (l : list A) : forall j, nth_error (skipn i l) j = nth_error l (i + j).
Proof. revert l. induction i as [|i IH]; intros [|x l] j; cbn [skipn Nat.add nth_error]; try reflexivity; [destruct j; reflexivity|apply IH]. Qed.
Lemma firstn_nth_error {A} i (l : list A) : forall j, (j < i)%nat -> nth_error (firstn i l) j = nth_error l j.
Proof. revert l. induction i as [|i IH]; intros [|x l] [|j] H; cbn [firstn nth_error]; try reflexivity; try lia. apply IH. lia. Qed.
Lemma nth_firstn_lt i (l : list Z) : forall j, (j < i)%nat -> nth j (firstn i l) 0 = nth j l 0.
Proof. revert l. induction i as [|i IH]; intros [|x l] [|j] H; cbn [firstn nth]; try reflexivity; try lia. apply IH. lia. Qed.
Lemma nth_skipn_add i (l : list Z) : forall j, nth j (skipn i l) 0 = nth (i + j) l 0.
Proof. revert l. induction i as [|i IH]; intros [|x l] j; cbn [skipn Nat.add nth]; try reflexivity; [destruct j; reflexivity|apply IH]. Qed.
Lemma set_nth_length {A} (l : list A) : forall i x, length (set_nth l i x) = length l.
Proof. induction l as [|y l IH]; intros [|i] x; cbn [set_nth length]; try reflexivity. rewrite IH. reflexivity. Qed.
Lemma nth_set_nth {A} (l : list A) d : forall i x j, (i < length l)%nat -> nth j (set_nth l i x) d = if Nat.eqb j i then x else nth j l d.
Proof. induction l as [|y l IH]; intros [|i] x [|j] H; cbn [set_nth nth length Nat.eqb] in *; try reflexivity; try lia. apply IH. lia. Qed.
(** A column of a matrix of [d1] rows of [d2] elements. *)
Lemma column_val {A} d1 d2 i (l : list A) : (i < d2)%nat -> length l = (d1 * d2)%nat ->
  exists col, column d2 i l = Val col /\ length col = d1 /\ forall j, nth_error col j = nth_error l (i + j * d2).
Proof.
  intros Hi Hl. unfold column. replace (d2 =? 0)%nat with false by (symmetry; apply Nat.eqb_neq; lia). cbn [negb guard bind]. eexists. split; [reflexivity|].
  assert (E : forall j, nth_error (every d2 0 (skipn i l)) j = nth_error l (i + j * d2)) by (intros j; rewrite every_nth by lia; rewrite skipn_nth_error; reflexivity).
  split; [|exact E]. set (col := every d2 0 (skipn i l)) in *. assert (H1 : ~ (length col < d1)%nat).
  { intros H. assert (H' : nth_error col (length col) = None) by (apply nth_error_None; lia). rewrite E in H'. apply nth_error_None in H'. rewrite Hl in H'. nia. }
  assert (H2 : ~ (d1 < length col)%nat).
  { intros H. apply nth_error_Some in H. apply H. rewrite E. apply nth_error_None. rewrite Hl. nia. }
  lia.
Qed.
Lemma range_val {A} (l : list A) a b : (a <= b <= length l)%nat -> range l a b = Val (skipn a (firstn b l)).
Proof. intros H. unfold range. replace (Nat.leb a b) with true by (symmetry; apply Nat.leb_le; lia). replace (Nat.leb b (length l)) with true by (symmetry; apply Nat.leb_le; lia). reflexivity. Qed.
Lemma list_ext_error {A} (a b : list A) : (forall i, nth_error a i = nth_error b i) -> a = b.
Proof.
  revert b. induction a as [|x a IH]; intros [|y b] H; [reflexivity|discriminate (H 0%nat)|discriminate (H 0%nat)|]. pose proof (H 0%nat) as E. cbn in E. injection E as <-. f_equal. apply IH. intros i. exact (H (S i)).
Qed.

(** ** Constant polynomials *)
Definition const (n : nat) (c : Z) : list Z := c :: repeat 0 (n - 1).
Lemma negacyclic_const_l n c b : (0 < n)%nat -> length b = n -> negacyclic n (const n c) b = map (Z.mul c) b.
Proof.
  intros Hn Hb. assert (Lc : length (const n c) = n) by (unfold const; cbn [length]; rewrite repeat_length; lia). rewrite <- nmul_negacyclic by assumption. unfold const. cbn [nmul].
  assert (E : forall k x, length x = n -> nmul n (repeat 0 k) x = lzero n).
  { induction k as [|k IH]; intros x Lx; [reflexivity|]. cbn [repeat nmul]. rewrite IH by (rewrite lX_length; reflexivity). apply list_ext_Z; [len|]. intros j _. rewrite nth_ladd by len. rewrite nth_lscale, nth_lzero. ring. }
  rewrite E by (rewrite lX_length; reflexivity). apply list_ext_Z; [rewrite map_length; len|]. intros j _. rewrite nth_ladd by len. rewrite nth_lzero, Z.add_0_r. reflexivity.
Qed.
Lemma negacyclic_comm n a b : length a = n -> length b = n -> negacyclic n a b = negacyclic n b a.
Proof.
  intros La Lb. rewrite <- !nmul_negacyclic by assumption. apply nmul_comm; assumption.
Qed.

(** ** Weighted sums *)
Definition wsum (n : nat) (us : list Z) (ps : list (list Z)) : list Z := poly_sum n (zipWith (fun u p => map (Z.mul u) p) us ps).
Lemma fold_add_length n (l : list (list Z)) : Forall (fun p => length p = n) l -> forall a, length a = n -> length (fold_left (zipWith Z.add) l a) = n.
Proof. induction 1 as [|p l Hp _ IH]; intros a Ha; [exact Ha|]. cbn [fold_left]. apply IH. rewrite zipWith_length. lia. Qed.
Lemma fold_add_nth n (l : list (list Z)) : Forall (fun p => length p = n) l -> forall a k, length a = n -> (k < n)%nat ->
  nth k (fold_left (zipWith Z.add) l a) 0 = nth k a 0 + fold_right Z.add 0 (map (fun p => nth k p 0) l).
Proof.
  induction 1 as [|p l Hp _ IH]; intros a k Ha Hk; cbn [fold_left map fold_right]; [lia|]. rewrite IH by (rewrite ?zipWith_length; lia). rewrite (zipWith_nth _ a p 0 0 0) by lia. lia.
Qed.
Lemma scaled_lengths n us ps : Forall (fun p => length p = n) ps -> Forall (fun p => length p = n) (zipWith (fun u p => map (Z.mul u) p) us ps).
Proof. intros H. revert us. induction H as [|p ps Hp _ IH]; intros [|u us]; cbn [zipWith]; constructor; [rewrite map_length; exact Hp|apply IH]. Qed.
Lemma wsum_length n us ps : Forall (fun p => length p = n) ps -> length (wsum n us ps) = n.
Proof. intros H. unfold wsum, poly_sum. apply fold_add_length; [apply scaled_lengths, H|apply repeat_length]. Qed.
Lemma wsum_nth n us ps k : Forall (fun p => length p = n) ps -> (k < n)%nat -> nth k (wsum n us ps) 0 = fold_right Z.add 0 (zipWith (fun u p => u * nth k p 0) us ps).
Proof.
  intros H Hk. unfold wsum, poly_sum. rewrite (fold_add_nth n) by (apply scaled_lengths, H || apply repeat_length || exact Hk). rewrite nth_repeat, Z.add_0_l. f_equal.
  clear Hk. revert us. induction H as [|p ps Hp _ IH]; intros [|u us]; cbn [zipWith map]; try reflexivity. rewrite IH. f_equal. rewrite <- (Z.mul_0_r u) at 1. apply (map_nth (Z.mul u)).
Qed.
(** The weights are 1 at the index [q] and 0 elsewhere, modulo t. *)
Definition selects (t : Z) (q : nat) (us : list Z) : Prop := (q < length us)%nat /\ forall j, (j < length us)%nat -> nth j us 0 mod t = if Nat.eqb j q then 1 mod t else 0.
Lemma zero_weights t us : 0 < t -> (forall j, (j < length us)%nat -> nth j us 0 mod t = 0) -> forall (f : list Z -> Z) ps, fold_right Z.add 0 (zipWith (fun u p => u * f p) us ps) mod t = 0.
Proof.
  intros Ht. induction us as [|u us IH]; intros H f [|p ps]; cbn [zipWith fold_right]; try apply Z.mod_0_l; try lia.
  rewrite Z.add_mod, Z.mul_mod by lia. pose proof (H 0%nat ltac:(cbn [length]; lia)) as E. cbn [nth] in E. rewrite E, Z.mul_0_l, (Z.mod_0_l t) by lia. rewrite IH; [reflexivity|]. intros j Hj. apply (H (S j)). cbn [length]. lia.
Qed.
Lemma select_sum t (f : list Z -> Z) d us ps : 0 < t -> length us = length ps -> forall q, selects t q us -> fold_right Z.add 0 (zipWith (fun u p => u * f p) us ps) mod t = f (nth q ps d) mod t.
Proof.
  intros Ht. revert ps. induction us as [|u us IH]; intros [|p ps] L q (Hq & H); cbn [length] in *; try lia; try discriminate. cbn [zipWith fold_right]. pose proof (H 0%nat ltac:(lia)) as E. cbn [nth] in E. destruct q as [|q].
  - cbn [nth Nat.eqb] in *. rewrite Z.add_mod by lia. rewrite (zero_weights t us Ht) by (intros j Hj; apply (H (S j)); lia). rewrite Z.add_0_r, Z.mod_mod, Z.mul_mod, E, <- Z.mul_mod, Z.mul_1_l by lia. reflexivity.
  - cbn [nth Nat.eqb] in *. rewrite Z.add_mod, Z.mul_mod, E, Z.mul_0_l, (Z.mod_0_l t), Z.add_0_l, Z.mod_mod by lia. apply IH; [lia|]. split; [lia|]. intros j Hj. apply (H (S j)). lia.
Qed.
Lemma wsum_select n t q us ps : 0 < t -> Forall (fun p => length p = n) ps -> length us = length ps -> selects t q us ->
  map (fun a => a mod t) (wsum n us ps) = map (fun a => a mod t) (nth q ps []).
Proof.
  intros Ht HF L Hs. assert (Lq : length (nth q ps []) = n) by (apply (proj1 (Forall_forall _ _) HF), nth_In; rewrite <- L; exact (proj1 Hs)).
  apply list_ext_Z; [rewrite !map_length, (wsum_length n) by exact HF; congruence|]. intros k Hk. rewrite map_length, (wsum_length n) in Hk by exact HF.
  assert (E : forall x : list Z, nth k (map (fun a => a mod t) x) 0 = nth k x 0 mod t) by (intros x; rewrite <- (Z.mod_0_l t) at 1 by lia; apply (map_nth (fun a => a mod t))).
  rewrite !E. rewrite wsum_nth by assumption. apply (select_sum t (fun p => nth k p 0) [] us ps Ht L q Hs).
Qed.

(** ** Rows of bytes *)
Definition row_content (db : list (list Z)) (npp esize i : nat) : list Z := concat (map (fun j => nth (j + i * npp) db (repeat 0 esize)) (seq 0 npp)).
Lemma database_nth esize db i : database esize db -> length (nth i db (repeat 0 esize)) = esize /\ digits 8 (nth i db (repeat 0 esize)).
Proof.
  intros H. destruct (lt_dec i (length db)) as [Hi|Hi].
  - apply (proj1 (Forall_forall _ _) H). apply nth_In. exact Hi.
  - rewrite nth_overflow by lia. split; [apply repeat_length|]. apply Forall_forall. intros b Hb. apply repeat_spec in Hb. subst b. cbn; lia.
Qed.
Lemma row_bytes_val db npp esize i : database esize db -> row_bytes db npp esize i = Val (row_content db npp esize i).
Proof.
  intros H. unfold row_bytes, row_content. erewrite mapM_val; [reflexivity|]. intros j _. cbv beta. destruct (nth_error db (j + i * npp)) as [e|] eqn:E.
  - rewrite (nth_error_nth db _ (repeat 0 esize) E). apply nth_error_In in E. rewrite (proj1 (proj1 (Forall_forall _ _) H e E)), Nat.eqb_refl. reflexivity.
  - apply nth_error_None in E. rewrite nth_overflow by exact E. reflexivity.
Qed.
Lemma concat_uniform_length {A} s (ls : list (list A)) : Forall (fun l => length l = s) ls -> length (concat ls) = (length ls * s)%nat.
Proof. induction 1 as [|l ls Hl _ IH]; [reflexivity|]. cbn [concat length Nat.mul]. rewrite app_length, Hl, IH. reflexivity. Qed.
Lemma concat_slice {A} s (ls : list (list A)) tail : Forall (fun l => length l = s) ls -> forall o, (o < length ls)%nat -> skipn (o * s) (firstn ((o + 1) * s) (concat ls ++ tail)) = nth o ls [].
Proof.
  induction 1 as [|l ls Hl _ IH]; intros o Ho; cbn [length] in Ho; [lia|]. cbn [concat]. rewrite <- app_assoc. destruct o as [|o].
  - cbn [Nat.mul Nat.add skipn nth]. rewrite firstn_app, Nat.add_0_r, Hl, Nat.sub_diag. cbn [firstn]. rewrite app_nil_r, <- Hl. apply firstn_all.
  - cbn [nth]. rewrite <- (IH o ltac:(lia)). replace ((S o + 1) * s)%nat with (length l + (o + 1) * s)%nat by lia. rewrite firstn_app_2, skipn_app. replace (S o * s)%nat with (length l + o * s)%nat by lia.
    rewrite skipn_all2 by lia. cbn [app]. f_equal. lia.
Qed.
Lemma row_content_parts db npp esize i : database esize db -> Forall (fun l => length l = esize) (map (fun j => nth (j + i * npp) db (repeat 0 esize)) (seq 0 npp)).
Proof. intros H. apply Forall_forall. intros l Hl. apply in_map_iff in Hl. destruct Hl as (j & <- & _). apply (database_nth esize db _ H). Qed.
Lemma row_content_length db npp esize i : database esize db -> length (row_content db npp esize i) = (npp * esize)%nat.
Proof. intros H. unfold row_content. rewrite (concat_uniform_length esize) by (apply row_content_parts, H). rewrite map_length, seq_length. reflexivity. Qed.
Lemma row_content_digits db npp esize i : database esize db -> digits 8 (row_content db npp esize i).
Proof.
  intros H. unfold row_content, digits. apply Forall_concat. apply Forall_forall. intros l Hl. apply in_map_iff in Hl. destruct Hl as (j & <- & _). apply (database_nth esize db _ H).
Qed.
Lemma row_content_slice db npp esize i o tail : database esize db -> (o < npp)%nat -> (o + i * npp < length db)%nat ->
  skipn (o * esize) (firstn ((o + 1) * esize) (row_content db npp esize i ++ tail)) = nth (o + i * npp) db [].
Proof.
  intros H Ho Hi. unfold row_content. rewrite (concat_slice esize) by (try apply row_content_parts; try rewrite map_length, seq_length; assumption).
  rewrite (nth_indep _ [] (nth (0 + i * npp) db (repeat 0 esize))) by (rewrite map_length, seq_length; exact Ho). rewrite (map_nth (fun j => nth (j + i * npp) db (repeat 0 esize))), seq_nth by exact Ho. apply nth_indep. exact Hi.
Qed.
