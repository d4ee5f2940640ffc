(** Generic lemmas about the outcome monad, lists and integers. *)
From Verif Require Import Outcome.
From Verif Require Export BasicSpec.

Lemma chk_val lo hi x : lo <= x < hi -> chk lo hi x = Val x.
Proof.
  intros H. unfold chk. destruct (Z.leb_spec lo x); [|lia]. destruct (Z.ltb_spec x hi); [|lia].
  reflexivity.
Qed.

Lemma chk_inv lo hi x y : chk lo hi x = Val y -> y = x /\ lo <= x < hi.
Proof.
  unfold chk. destruct (Z.leb_spec lo x); cbn; [|discriminate].
  destruct (Z.ltb_spec x hi); [|discriminate]. intros [= <-]. lia.
Qed.

Lemma bind_val {A B} (x : M A) (f : A -> M B) a : x = Val a -> bind x f = f a.
Proof. intros ->. reflexivity. Qed.

Lemma bind_inv {A B} (x : M A) (f : A -> M B) b :
  bind x f = Val b -> exists a, x = Val a /\ f a = Val b.
Proof. destruct x; cbn; try discriminate. eauto. Qed.

Lemma bind_chk {B} lo hi x (f : Z -> M B) : lo <= x < hi -> bind (chk lo hi x) f = f x.
Proof. intros H. rewrite (chk_val _ _ _ H). reflexivity. Qed.

Lemma bind_guard {B} b (f : unit -> M B) : b = true -> bind (guard b) f = f tt.
Proof. intros ->. reflexivity. Qed.

Lemma guard_inv b u : guard b = Val u -> b = true.
Proof. destruct b; [reflexivity|discriminate]. Qed.

Lemma mapM_val {A B} (f : A -> M B) (g : A -> B) l :
  (forall a, In a l -> f a = Val (g a)) -> mapM f l = Val (map g l).
Proof.
  induction l as [|a t IH]; intros H; cbn; [reflexivity|].
  rewrite (H a) by (left; reflexivity). cbn. rewrite IH; [reflexivity|].
  intros b Hb. apply H. right. exact Hb.
Qed.

Lemma mapM_val_inv {A B} (f : A -> M B) l r :
  mapM f l = Val r -> Forall2 (fun a b => f a = Val b) l r.
Proof.
  revert r; induction l as [|a t IH]; intros r; cbn.
  - intros [= <-]. constructor.
  - destruct (f a) eqn:E; cbn; try discriminate.
    destruct (mapM f t) eqn:E2; cbn; try discriminate. intros [= <-].
    constructor; auto.
Qed.

Lemma mapM_Forall2 {A B} (f : A -> M B) l r :
  Forall2 (fun a b => f a = Val b) l r -> mapM f l = Val r.
Proof. induction 1 as [|a b l r E _ IH]; cbn; [reflexivity|]. rewrite E, IH. reflexivity. Qed.

Lemma mapM_ext {A B} (f g : A -> M B) l :
  (forall a, In a l -> f a = g a) -> mapM f l = mapM g l.
Proof.
  induction l as [|a t IH]; intros H; cbn; [reflexivity|].
  rewrite (H a) by (left; reflexivity). rewrite IH; [reflexivity|].
  intros b Hb. apply H. right. exact Hb.
Qed.

Lemma zipWith_length {A B C} (f : A -> B -> C) l l' :
  length (zipWith f l l') = Nat.min (length l) (length l').
Proof. revert l'; induction l as [|a t IH]; destruct l'; cbn; auto. Qed.

Lemma zip_upd_val {A B} (P : A -> Prop) (Q : B -> Prop) (f : A -> B -> M A) (g : A -> B -> A) l l' :
  (forall a b, P a -> Q b -> f a b = Val (g a b)) ->
  Forall P l -> Forall Q l' -> length l = length l' ->
  zip_upd f l l' = Val (zipWith g l l').
Proof.
  intros H Hl. revert l'. induction Hl as [|a t Ha _ IH]; intros l' Hl' Hlen; destruct l' as [|b t'];
    try discriminate; cbn; [reflexivity|].
  inversion Hl'; subst. rewrite H by assumption. cbn. rewrite IH; auto.
Qed.

Lemma zip_upd3_val {A B C} (P : A -> Prop) (Q : B -> C -> Prop) (f : A -> B -> C -> M A) (g : A -> B -> A) l l' l'' :
  (forall a b c, P a -> Q b c -> f a b c = Val (g a b)) ->
  Forall P l -> Forall2 Q l' l'' -> length l = length l' ->
  zip_upd3 f l l' l'' = Val (zipWith g l l').
Proof.
  intros H Hl Hq. revert l Hl. induction Hq as [|b c t' t'' Hb _ IH]; intros l Hl Hlen;
    destruct Hl as [|a t Ha Ht]; try discriminate; cbn; [reflexivity|].
  rewrite (H a b c) by assumption. cbn. rewrite IH; auto.
Qed.

Lemma list_eqb_refl l : list_eqb l l = true.
Proof. unfold list_eqb. destruct (list_eq_dec Z.eq_dec l l); congruence. Qed.

Lemma list_eqb_eq l l' : list_eqb l l' = true <-> l = l'.
Proof. unfold list_eqb. destruct (list_eq_dec Z.eq_dec l l'); split; congruence. Qed.

(** chunks *)
Lemma chunks_n_concat {A} m k (l : list A) cs r :
  chunks_n m k l = (cs, r) -> concat cs ++ r = l.
Proof.
  revert l cs r; induction m as [|m IH]; intros l cs r; cbn.
  - intros [= <- <-]. reflexivity.
  - destruct (chunks_n m k (skipn k l)) as [cs' r'] eqn:E. intros [= <- <-].
    cbn. rewrite <- app_assoc, (IH _ _ _ E). apply firstn_skipn.
Qed.

Lemma chunks_n_zip {A B C} (f : A -> B -> C) m k l l' cs r cs' r' :
  chunks_n m k l = (cs, r) -> chunks_n m k l' = (cs', r') ->
  length l = length l' -> (m * k <= length l)%nat ->
  concat (zipWith (zipWith f) cs cs') ++ zipWith f r r' = zipWith f l l'.
Proof.
  revert l l' cs r cs' r'; induction m as [|m IH]; intros l l' cs r cs' r'; cbn.
  - intros [= <- <-] [= <- <-] _ _. reflexivity.
  - destruct (chunks_n m k (skipn k l)) as [c1 r1] eqn:E1.
    destruct (chunks_n m k (skipn k l')) as [c2 r2] eqn:E2.
    intros [= <- <-] [= <- <-] Hl Hm. cbn. rewrite <- app_assoc.
    rewrite (IH _ _ _ _ _ _ E1 E2); [| rewrite !skipn_length; lia | rewrite skipn_length; lia].
    clear. revert l l'; induction k as [|k IH]; intros l l'; cbn; [reflexivity|].
    destruct l as [|a t]; [reflexivity|]. destruct l' as [|b t']; cbn; [|f_equal; apply IH].
    destruct (skipn k t); reflexivity.
Qed.

Lemma Forall_chunks {A} (P : A -> Prop) m k l cs r :
  Forall P l -> chunks_n m k l = (cs, r) -> Forall (Forall P) cs /\ Forall P r.
Proof.
  intros H E. apply chunks_n_concat in E. subst l.
  apply Forall_app in H. destruct H as [H1 H2]. split; [|exact H2].
  clear H2. induction cs as [|c cs IH]; constructor; cbn in H1; apply Forall_app in H1; tauto.
Qed.

Lemma chunks_n_shape {A} m k (l : list A) cs r :
  chunks_n m k l = (cs, r) -> (m * k <= length l)%nat ->
  length cs = m /\ Forall (fun c => length c = k) cs /\ length r = (length l - m * k)%nat.
Proof.
  revert l cs r; induction m as [|m IH]; intros l cs r; cbn.
  - intros [= <- <-] _. cbn. repeat split; [constructor|lia].
  - destruct (chunks_n m k (skipn k l)) as [c1 r1] eqn:E1. intros [= <- <-] Hm.
    destruct (IH _ _ _ E1) as (H1 & H2 & H3); [rewrite skipn_length; lia|].
    rewrite skipn_length in H3. cbn. repeat split; [lia| |lia].
    constructor; [rewrite firstn_length; lia|exact H2].
Qed.

(** bit-level selection *)
Lemma testbit_small a n i : 0 <= a < 2 ^ n -> n <= i -> Z.testbit a i = false.
Proof.
  intros Ha Hi. destruct (Z.eq_dec a 0) as [->|Hne]; [apply Z.bits_0|].
  apply Z.bits_above_log2; [lia|].
  assert (Z.log2 a < n); [|lia]. apply Z.log2_lt_pow2; lia.
Qed.

Lemma land_disjoint a b n : 0 <= n -> 0 <= a < 2 ^ n -> Z.land a (b * 2 ^ n) = 0.
Proof.
  intros Hn Ha. apply Z.bits_inj'. intros i Hi. rewrite Z.land_spec, Z.bits_0.
  destruct (Z.ltb_spec i n).
  - rewrite (Z.mul_pow2_bits_low b n i) by lia. apply andb_false_r.
  - rewrite (testbit_small a n i) by lia. reflexivity.
Qed.

Lemma lor_disjoint_add a b n : 0 <= n -> 0 <= a < 2 ^ n -> Z.lor a (Z.shiftl b n) = a + b * 2 ^ n.
Proof.
  intros Hn Ha. rewrite Z.shiftl_mul_pow2 by lia.
  assert (E := land_disjoint a b n Hn Ha).
  rewrite Z.add_nocarry_lxor by exact E. symmetry. apply Z.lxor_lor. exact E.
Qed.

Lemma zipWith_map_r {A B C D} (f : A -> B -> C) (g : D -> B) l l' :
  zipWith f l (map g l') = zipWith (fun a d => f a (g d)) l l'.
Proof. revert l'; induction l as [|a t IH]; destruct l'; cbn; f_equal; auto. Qed.

Lemma Forall2_length_eq {A B} (P : A -> B -> Prop) l l' : Forall2 P l l' -> length l = length l'.
Proof. induction 1; cbn; congruence. Qed.

Lemma zipWith_nth {A B C} (f : A -> B -> C) l l' d1 d2 d3 i :
  (i < length l)%nat -> (i < length l')%nat ->
  nth i (zipWith f l l') d3 = f (nth i l d1) (nth i l' d2).
Proof.
  revert l' i; induction l as [|a t IH]; intros [|b t'] [|i]; cbn; intros; try lia; auto.
  apply IH; lia.
Qed.
