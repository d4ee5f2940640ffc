(** The ring Z[X]/(X^n+1) on coefficient lists of length n. *)
From Verif Require Import Outcome OutcomeLemmas PolySpec.
From Coq Require Import Ring Eqdep_dec.

Lemma list_ext_Z (a b : list Z) : length a = length b ->
  (forall k, (k < length a)%nat -> nth k a 0 = nth k b 0) -> a = b.
Proof. intros Hl H. apply (nth_ext a b 0 0 Hl H). Qed.

Lemma nth_map_seq {A} (f : nat -> A) n k d : (k < n)%nat -> nth k (map f (seq 0 n)) d = f k.
Proof.
  intros H. rewrite (nth_indep _ d (f 0%nat)) by (rewrite map_length, seq_length; exact H).
  rewrite map_nth, seq_nth by exact H. reflexivity.
Qed.

Lemma sumn_S n f : sumn (S n) f = f 0%nat + sumn n (fun i => f (S i)).
Proof. unfold sumn. cbn [seq map fold_right]. rewrite <- seq_shift, map_map. reflexivity. Qed.

Lemma sumn_ext n f g : (forall i, (i < n)%nat -> f i = g i) -> sumn n f = sumn n g.
Proof.
  intros H. unfold sumn. f_equal. apply map_ext_in. intros i Hi. apply in_seq in Hi. apply H. lia.
Qed.

Lemma sumn_snoc n f : sumn (S n) f = sumn n f + f n.
Proof.
  revert f; induction n as [|n IH]; intros f; [cbn; ring|].
  rewrite sumn_S, IH, (sumn_S n f). ring.
Qed.

Lemma sumn_add n f g : sumn n (fun i => f i + g i) = sumn n f + sumn n g.
Proof.
  revert f g; induction n as [|n IH]; intros f g; [reflexivity|].
  rewrite !sumn_S. cbn beta. rewrite (IH (fun i => f (S i)) (fun i => g (S i))). ring.
Qed.

Lemma sumn_scale n c f : sumn n (fun i => c * f i) = c * sumn n f.
Proof.
  revert f; induction n as [|n IH]; intros f; [cbn; ring|].
  rewrite !sumn_S. cbn beta. rewrite (IH (fun i => f (S i))). ring.
Qed.

Lemma sumn_0 n : sumn n (fun _ => 0) = 0.
Proof. induction n as [|n IH]; [reflexivity|]. rewrite sumn_S, IH. reflexivity. Qed.

(** * Operations on lists *)
Definition ladd (a b : list Z) : list Z := zipWith Z.add a b.
Definition lscale (c : Z) (a : list Z) : list Z := map (fun x => c * x) a.
Definition lopp (a : list Z) : list Z := map Z.opp a.
Definition lzero (n : nat) : list Z := repeat 0 n.
Definition lone (n : nat) : list Z := match n with O => [] | S n' => 1 :: repeat 0 n' end.

(** multiplication by X modulo X^n+1 *)
Definition lX (n : nat) (b : list Z) : list Z :=
  map (fun k => match k with O => - nth (n - 1) b 0 | S k' => nth k' b 0 end) (seq 0 n).

Fixpoint nmul (n : nat) (a b : list Z) : list Z :=
  match a with [] => lzero n | c :: a' => ladd (lscale c b) (nmul n a' (lX n b)) end.

Lemma ladd_length a b n : length a = n -> length b = n -> length (ladd a b) = n.
Proof. intros Ha Hb. unfold ladd. rewrite zipWith_length. lia. Qed.
Lemma lscale_length c a : length (lscale c a) = length a.
Proof. apply map_length. Qed.
Lemma lopp_length a : length (lopp a) = length a.
Proof. apply map_length. Qed.
Lemma lX_length n b : length (lX n b) = n.
Proof. unfold lX. rewrite map_length, seq_length. reflexivity. Qed.
Lemma lzero_length n : length (lzero n) = n.
Proof. apply repeat_length. Qed.
Lemma lone_length n : length (lone n) = n.
Proof. destruct n; cbn; [reflexivity|]. rewrite repeat_length. reflexivity. Qed.

Lemma nmul_length n a b : length b = n -> length (nmul n a b) = n.
Proof.
  revert b; induction a as [|c a IH]; intros b Hb; cbn [nmul]; [apply lzero_length|].
  apply ladd_length; [rewrite lscale_length; exact Hb|apply IH, lX_length].
Qed.

Lemma nth_ladd a b k : length a = length b -> nth k (ladd a b) 0 = nth k a 0 + nth k b 0.
Proof.
  intros Hl. destruct (Nat.lt_ge_cases k (length a)).
  - unfold ladd. apply zipWith_nth; lia.
  - rewrite !nth_overflow; try lia. unfold ladd. rewrite zipWith_length. lia.
Qed.
Lemma nth_lscale c a k : nth k (lscale c a) 0 = c * nth k a 0.
Proof. unfold lscale. rewrite <- (map_nth (fun x => c * x)). rewrite Z.mul_0_r. reflexivity. Qed.
Lemma nth_lopp a k : nth k (lopp a) 0 = - nth k a 0.
Proof. unfold lopp. rewrite <- (map_nth Z.opp). reflexivity. Qed.
Lemma nth_lzero n k : nth k (lzero n) 0 = 0.
Proof. unfold lzero. apply nth_repeat. Qed.
Lemma nth_lX n b k : (k < n)%nat -> nth k (lX n b) 0 = match k with O => - nth (n - 1) b 0 | S k' => nth k' b 0 end.
Proof. intros H. unfold lX. rewrite nth_map_seq by exact H. reflexivity. Qed.

Ltac len := repeat first [rewrite lX_length | rewrite lscale_length | rewrite lopp_length | rewrite lzero_length | rewrite lone_length
   | erewrite ladd_length by len | rewrite nmul_length by len ]; try reflexivity; try assumption; try lia.

Ltac lext := apply list_ext_Z; [len|].

Lemma lX_add n a b : length a = n -> length b = n -> lX n (ladd a b) = ladd (lX n a) (lX n b).
Proof.
  intros Ha Hb. lext. intros k Hk. rewrite lX_length in Hk. rewrite nth_ladd by len.
  rewrite !nth_lX by lia. destruct k; rewrite nth_ladd by lia; ring.
Qed.
Lemma lX_scale n c a : lX n (lscale c a) = lscale c (lX n a).
Proof.
  lext. intros k Hk. rewrite lX_length in Hk. rewrite nth_lscale, !nth_lX by lia. destruct k; rewrite nth_lscale; ring.
Qed.
Lemma lX_zero n : lX n (lzero n) = lzero n.
Proof.
  lext. intros k Hk. rewrite lX_length in Hk. rewrite nth_lX by lia. destruct k; rewrite ?nth_lzero; reflexivity.
Qed.

Lemma ladd_assoc a b c n : length a = n -> length b = n -> length c = n -> ladd (ladd a b) c = ladd a (ladd b c).
Proof. intros Ha Hb Hc. lext. intros k _. rewrite !nth_ladd by len. ring. Qed.
Lemma ladd_comm a b : length a = length b -> ladd a b = ladd b a.
Proof. intros H. lext. intros k _. rewrite !nth_ladd by lia. ring. Qed.
Lemma ladd_zero_l n a : length a = n -> ladd (lzero n) a = a.
Proof. intros H. lext. intros k _. rewrite nth_ladd by len. rewrite nth_lzero. ring. Qed.
Lemma ladd_zero_r n a : length a = n -> ladd a (lzero n) = a.
Proof. intros H. lext. intros k _. rewrite nth_ladd by len. rewrite nth_lzero. ring. Qed.
Lemma ladd_opp n a : length a = n -> ladd a (lopp a) = lzero n.
Proof. intros H. lext. intros k _. rewrite nth_ladd by len. rewrite nth_lzero, nth_lopp. ring. Qed.
Lemma lscale_add c a b : length a = length b -> lscale c (ladd a b) = ladd (lscale c a) (lscale c b).
Proof. intros H. lext. intros k _. rewrite nth_lscale, !nth_ladd by len. rewrite !nth_lscale. ring. Qed.
Lemma lscale_scale c d a : lscale c (lscale d a) = lscale (c * d) a.
Proof. lext. intros k _. rewrite !nth_lscale. ring. Qed.
Lemma lscale_zero c n : lscale c (lzero n) = lzero n.
Proof. lext. intros k _. rewrite nth_lscale, nth_lzero. ring. Qed.
Lemma lscale_1 a : lscale 1 a = a.
Proof. lext. intros k _. rewrite nth_lscale. ring. Qed.
Lemma lscale_m1 a : lscale (-1) a = lopp a.
Proof. lext. intros k _. rewrite nth_lscale, nth_lopp. ring. Qed.

(** linearity on the right *)
Lemma nmul_add_r n a b c : length b = n -> length c = n -> nmul n a (ladd b c) = ladd (nmul n a b) (nmul n a c).
Proof.
  revert b c; induction a as [|x a IH]; intros b c Hb Hc; cbn [nmul].
  - symmetry. apply ladd_zero_l. len.
  - rewrite lX_add, IH, lscale_add by len.
    lext. intros k _. rewrite !nth_ladd by len. ring.
Qed.
Lemma nmul_scale_r n a c b : length b = n -> nmul n a (lscale c b) = lscale c (nmul n a b).
Proof.
  revert b; induction a as [|x a IH]; intros b Hb; cbn [nmul].
  - symmetry. apply lscale_zero.
  - rewrite lX_scale, IH, lscale_add by len.
    lext. intros k _. rewrite !nth_ladd, !nth_lscale by len. ring.
Qed.
Lemma nmul_X_r n a b : length b = n -> nmul n a (lX n b) = lX n (nmul n a b).
Proof.
  revert b; induction a as [|x a IH]; intros b Hb; cbn [nmul].
  - symmetry. apply lX_zero.
  - rewrite lX_add, lX_scale by len. rewrite IH by len. reflexivity.
Qed.
(** linearity on the left *)
Lemma nmul_add_l n a b c : length a = length b -> length c = n -> nmul n (ladd a b) c = ladd (nmul n a c) (nmul n b c).
Proof.
  revert b c; induction a as [|x a IH]; intros [|y b] c Hab Hc; try discriminate; cbn [nmul ladd zipWith].
  - symmetry. apply ladd_zero_l. len.
  - fold (ladd a b). rewrite IH by (cbn in Hab; len).
    lext. intros k _. rewrite !nth_ladd, !nth_lscale by len. ring.
Qed.
Lemma nmul_scale_l n x a b : length b = n -> nmul n (lscale x a) b = lscale x (nmul n a b).
Proof.
  revert b; induction a as [|c a IH]; intros b Hb.
  - symmetry. apply lscale_zero.
  - change (lscale x (c :: a)) with (x * c :: lscale x a). cbn [nmul]. rewrite IH, lscale_add by len. rewrite lscale_scale. reflexivity.
Qed.
Lemma nmul_zero_l n m b : length b = n -> nmul n (lzero m) b = lzero n.
Proof.
  revert b; induction m as [|m IH]; intros b Hb; cbn [nmul lzero repeat]; [reflexivity|].
  fold (lzero m). rewrite IH by len. lext. intros k _. rewrite nth_ladd, nth_lscale, nth_lzero by len. ring.
Qed.

(** powers of X *)
Fixpoint lXn (n i : nat) (b : list Z) : list Z := match i with O => b | S i' => lXn n i' (lX n b) end.
Lemma lXn_length n i b : length b = n -> length (lXn n i b) = n.
Proof. revert b; induction i as [|i IH]; intros b Hb; cbn [lXn]; [exact Hb|apply IH; len]. Qed.
Ltac len ::= repeat first [rewrite lX_length | rewrite lscale_length | rewrite lopp_length | rewrite lzero_length | rewrite lone_length
   | erewrite ladd_length by len | rewrite nmul_length by len | rewrite lXn_length by len ]; try reflexivity; try assumption; try lia.
Lemma lXn_S n i b : lXn n (S i) b = lX n (lXn n i b).
Proof. revert b; induction i as [|i IH]; intros b; cbn [lXn] in *; [reflexivity|]. apply IH. Qed.
Lemma nth_lXn n i b k : length b = n -> (i <= n)%nat -> (k < n)%nat ->
  nth k (lXn n i b) 0 = if Nat.leb i k then nth (k - i) b 0 else - nth (n + k - i) b 0.
Proof.
  intros Hb. revert k. induction i as [|i IH]; intros k Hi Hk.
  - cbn [lXn Nat.leb]. f_equal. lia.
  - rewrite lXn_S, nth_lX by exact Hk. destruct k as [|k].
    + rewrite IH by lia. cbn [Nat.leb]. destruct (Nat.leb_spec i (n - 1)).
      * f_equal. f_equal. lia.
      * lia.
    + rewrite IH by lia. cbn [Nat.leb]. destruct (Nat.leb_spec i k); [f_equal; lia|]. f_equal. f_equal. lia.
Qed.
Lemma lXn_n n b : length b = n -> lXn n n b = lopp b.
Proof.
  intros Hb. apply list_ext_Z; [rewrite lXn_length by exact Hb; len|]. intros k Hk. rewrite lXn_length in Hk by exact Hb.
  rewrite nth_lXn by lia. rewrite nth_lopp. destruct (Nat.leb_spec n k); [lia|]. f_equal. f_equal. lia.
Qed.

Lemma nmul_snoc n a d b : length b = n -> nmul n (a ++ [d]) b = ladd (nmul n a b) (lscale d (lXn n (length a) b)).
Proof.
  revert b; induction a as [|c a IH]; intros b Hb; cbn [app nmul length lXn].
  - rewrite (ladd_zero_r n), (ladd_zero_l n) by len. reflexivity.
  - rewrite IH by len. lext. intros k _. rewrite !nth_ladd by len. ring.
Qed.

Lemma nmul_X_l n b c : length b = n -> length c = n -> nmul n (lX n b) c = lX n (nmul n b c).
Proof.
  intros Hb Hc. destruct n as [|n].
  - destruct b; [|discriminate]. destruct c; [|discriminate]. reflexivity.
  - destruct (exists_last (l := b)) as (b' & d & ->); [intros ->; discriminate|].
    rewrite app_length in Hb. cbn [length] in Hb.
    assert (El : lX (S n) (b' ++ [d]) = - d :: b').
    { apply list_ext_Z; [rewrite lX_length; cbn [length]; lia|]. intros k Hk. rewrite lX_length in Hk.
      rewrite nth_lX by exact Hk. destruct k as [|k].
      - cbn [nth]. rewrite app_nth2 by lia. replace (S n - 1 - length b')%nat with 0%nat by lia. reflexivity.
      - cbn [nth]. rewrite app_nth1 by lia. reflexivity. }
    rewrite El. cbn [nmul]. rewrite <- nmul_X_r by exact Hc. rewrite nmul_snoc by len.
    replace (length b') with n by lia.
    change (lXn (S n) n (lX (S n) c)) with (lXn (S n) (S n) c). rewrite lXn_n by exact Hc.
    lext. intros k _. rewrite !nth_ladd by len. rewrite !nth_lscale, nth_lopp. ring.
Qed.

Lemma nmul_assoc n a b c : length b = n -> length c = n -> nmul n (nmul n a b) c = nmul n a (nmul n b c).
Proof.
  revert b; induction a as [|x a IH]; intros b Hb Hc; cbn [nmul].
  - apply nmul_zero_l. exact Hc.
  - rewrite nmul_add_l by len. rewrite nmul_scale_l by len. rewrite IH by len. rewrite nmul_X_l by len. reflexivity.
Qed.

Lemma nmul_swap n a b c : length c = n -> nmul n a (nmul n b c) = nmul n b (nmul n a c).
Proof.
  revert c; induction a as [|x a IH]; intros c Hc; cbn [nmul].
  - replace (lzero n) with (lscale 0 (lzero n)) at 2 by (apply lscale_zero). rewrite nmul_scale_r by len.
    lext. intros k _. rewrite nth_lzero, nth_lscale. ring.
  - rewrite nmul_add_r, nmul_scale_r by len. rewrite <- nmul_X_r by len. rewrite IH by len. reflexivity.
Qed.

Lemma nth_nmul n a b k : length b = n -> (length a <= n)%nat -> (k < n)%nat ->
  nth k (nmul n a b) 0 = sumn (length a) (fun i => nth i a 0 * nth k (lXn n i b) 0).
Proof.
  intros Hb. revert b Hb. induction a as [|x a IH]; intros b Hb Ha Hk; cbn [nmul length].
  - apply nth_lzero.
  - rewrite nth_ladd, nth_lscale, sumn_S by len. cbn [length] in Ha. rewrite IH by (len; lia). reflexivity.
Qed.

(** The product is the negacyclic convolution of the specification. *)
Lemma nmul_negacyclic n a b : length a = n -> length b = n -> nmul n a b = negacyclic n a b.
Proof.
  intros Ha Hb. apply list_ext_Z.
  - rewrite nmul_length by exact Hb. unfold negacyclic. rewrite map_length, seq_length. reflexivity.
  - intros k Hk. rewrite nmul_length in Hk by exact Hb. rewrite nth_nmul by lia. unfold negacyclic. rewrite nth_map_seq by exact Hk.
    rewrite Ha. apply sumn_ext. intros i Hi. rewrite nth_lXn by lia. reflexivity.
Qed.

Lemma nmul_one_r n a : length a = n -> nmul n a (lone n) = a.
Proof.
  intros Ha. apply list_ext_Z; [rewrite nmul_length by len; congruence|].
  intros k Hk. rewrite nmul_length in Hk by len. rewrite nth_nmul by len. rewrite Ha.
  rewrite (sumn_ext n _ (fun i => if Nat.eqb i k then nth k a 0 else 0)).
  - clear Ha. revert k Hk. generalize (fun k : nat => nth k a 0). intros f.
    induction n as [|n IH]; intros k Hk; [lia|]. rewrite sumn_snoc. destruct (Nat.eq_dec k n) as [->|Hne].
    + rewrite Nat.eqb_refl. rewrite (sumn_ext n _ (fun _ => 0)); [rewrite sumn_0; ring|].
      intros i Hi. destruct (Nat.eqb_spec i n); [lia|reflexivity].
    + rewrite IH by lia. destruct (Nat.eqb_spec n k); [lia|ring].
  - intros i Hi. rewrite nth_lXn by len. destruct n as [|n]; [lia|]. cbn [lone].
    destruct (Nat.eqb_spec i k) as [->|Hne].
    + rewrite Nat.leb_refl, Nat.sub_diag. cbn [nth]. ring.
    + destruct (Nat.leb_spec i k).
      * destruct (k - i)%nat as [|j] eqn:E; [lia|]. cbn [nth]. rewrite nth_repeat. ring.
      * destruct (S n + k - i)%nat as [|j] eqn:E; [lia|]. cbn [nth]. rewrite nth_repeat. ring.
Qed.

Lemma nmul_comm n a b : length a = n -> length b = n -> nmul n a b = nmul n b a.
Proof.
  intros Ha Hb. rewrite <- (nmul_one_r n b Hb) at 1. rewrite nmul_swap by len. rewrite nmul_one_r by exact Ha. reflexivity.
Qed.
Lemma nmul_one_l n a : length a = n -> nmul n (lone n) a = a.
Proof. intros Ha. rewrite nmul_comm by len. apply nmul_one_r, Ha. Qed.

(** Evaluation at a root of X^n+1 is multiplicative. *)
Lemma eval_app a b x : eval (a ++ b) x = eval a x + x ^ Z.of_nat (length a) * eval b x.
Proof.
  induction a as [|c a IH]; cbn [app eval length]; [rewrite Z.pow_0_r; ring|].
  rewrite IH, Nat2Z.inj_succ, Z.pow_succ_r by lia. ring.
Qed.
Lemma eval_ladd a b x : length a = length b -> eval (ladd a b) x = eval a x + eval b x.
Proof.
  revert b; induction a as [|c a IH]; intros [|d b] H; try discriminate; cbn [ladd zipWith eval]; [reflexivity|].
  fold (ladd a b). rewrite IH by (cbn in H; lia). ring.
Qed.
Lemma eval_lscale c a x : eval (lscale c a) x = c * eval a x.
Proof. induction a as [|d a IH]; cbn [lscale map eval]; [ring|]. fold (lscale c a). rewrite IH. ring. Qed.
Lemma eval_lzero n x : eval (lzero n) x = 0.
Proof. induction n as [|n IH]; cbn [lzero repeat eval]; [reflexivity|]. fold (lzero n). rewrite IH. ring. Qed.
Lemma eval_lX n b x : length b = n -> (0 < n)%nat ->
  eval (lX n b) x = x * eval b x - nth (n - 1) b 0 * (x ^ Z.of_nat n + 1).
Proof.
  intros Hb Hn. destruct (exists_last (l := b)) as (b' & d & ->); [intros ->; cbn in Hb; lia|].
  rewrite app_length in Hb. cbn [length] in Hb.
  assert (El : lX n (b' ++ [d]) = - d :: b').
  { apply list_ext_Z; [rewrite lX_length; cbn [length]; lia|]. intros k Hk. rewrite lX_length in Hk.
    rewrite nth_lX by exact Hk. destruct k as [|k].
    - cbn [nth]. rewrite app_nth2 by lia. replace (n - 1 - length b')%nat with 0%nat by lia. reflexivity.
    - cbn [nth]. rewrite app_nth1 by lia. reflexivity. }
  rewrite El. cbn [eval]. rewrite eval_app. cbn [eval]. rewrite app_nth2 by lia. replace (n - 1 - length b')%nat with 0%nat by lia. cbn [nth].
  replace (Z.of_nat n) with (Z.succ (Z.of_nat (length b'))) by lia. rewrite Z.pow_succ_r by lia. ring.
Qed.
