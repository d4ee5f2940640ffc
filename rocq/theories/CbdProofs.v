(** Proofs about the centered binomial sampler. *)
From Verif Require Import Outcome OutcomeLemmas CbdModel CbdSpec.

Definition bits_sum (x : Z) (j : Z) (k : nat) : Z :=
  sumZ (map (fun i => Z.b2z (Z.testbit x (j + Z.of_nat i))) (seq 0 k)).

Lemma sumZ_app l l' : sumZ (l ++ l') = sumZ l + sumZ l'.
Proof. unfold sumZ. induction l as [|a t IH]; cbn [app fold_right]; lia. Qed.

Lemma sumZ_map_ext {A} (f g : A -> Z) l : (forall a, In a l -> f a = g a) -> sumZ (map f l) = sumZ (map g l).
Proof. intros H. f_equal. apply map_ext_in. exact H. Qed.

Lemma sumZ_map_0 {A} (f : A -> Z) l : (forall a, In a l -> f a = 0) -> sumZ (map f l) = 0.
Proof.
  induction l as [|a t IH]; intros H; cbn; [reflexivity|].
  rewrite (H a) by (left; reflexivity). unfold sumZ in IH. rewrite IH; [reflexivity|]. intros b Hb; apply H; right; exact Hb.
Qed.

Lemma bits_sum_shift x j k : 0 <= j -> bits_sum x j k = bits_sum (Z.shiftr x j) 0 k.
Proof.
  intros Hj. apply sumZ_map_ext. intros i _. rewrite Z.shiftr_spec by lia. f_equal. f_equal. lia.
Qed.

Lemma bits_sum_S x j k : bits_sum x j (S k) = Z.b2z (Z.testbit x j) + bits_sum x (j + 1) k.
Proof.
  unfold bits_sum. cbn [seq map]. rewrite <- seq_shift, map_map. unfold sumZ at 1. cbn [fold_right].
  replace (j + Z.of_nat 0) with j by lia. f_equal.
  apply sumZ_map_ext. intros i _. do 2 f_equal. lia.
Qed.

Lemma map_seq_add {A} (f : nat -> A) n s : forall t, map f (seq (s + t) n) = map (fun i => f (s + i)%nat) (seq t n).
Proof.
  induction n as [|n IH]; intros t; cbn [seq map]; [reflexivity|]. f_equal.
  replace (S (s + t)) with (s + S t)%nat by lia. apply IH.
Qed.

(** count_ones of a masked window *)
Lemma count_window x lo k : 0 <= lo -> lo + Z.of_nat k <= 128 ->
  count_ones128 (Z.land x (Z.shiftl (Z.ones (Z.of_nat k)) lo)) = bits_sum x lo k.
Proof.
  intros Hlo Hk. unfold count_ones128. fold (sumZ (map (fun i => Z.b2z (Z.testbit (Z.land x (Z.shiftl (Z.ones (Z.of_nat k)) lo)) (Z.of_nat i))) (seq 0 128))).
  replace 128%nat with (Z.to_nat lo + (k + (128 - Z.to_nat lo - k)))%nat by lia.
  rewrite !seq_app, !map_app, !sumZ_app.
  assert (Hbit : forall i, 0 <= i -> Z.testbit (Z.land x (Z.shiftl (Z.ones (Z.of_nat k)) lo)) i
                 = if (lo <=? i) && (i <? lo + Z.of_nat k) then Z.testbit x i else false).
  { intros i Hi. rewrite Z.land_spec, Z.shiftl_spec by lia.
    destruct (Z.leb_spec lo i); cbn [andb].
    - rewrite Z.testbit_ones_nonneg by lia. destruct (Z.ltb_spec i (lo + Z.of_nat k));
        destruct (Z.ltb_spec (i - lo) (Z.of_nat k)); try lia; rewrite ?andb_true_r, ?andb_false_r; reflexivity.
    - rewrite (Z.testbit_neg_r _ (i - lo)) by lia. apply andb_false_r. }
  rewrite sumZ_map_0, (sumZ_map_0 _ (seq (0 + Z.to_nat lo + k) _)).
  - rewrite Z.add_0_l, Z.add_0_r. unfold bits_sum.
    rewrite <- (Nat.add_0_r (0 + Z.to_nat lo)) at 1.
    rewrite map_seq_add. apply sumZ_map_ext. intros i Hi. apply in_seq in Hi. rewrite Hbit by lia.
    destruct (Z.leb_spec lo (Z.of_nat (0 + Z.to_nat lo + i))); [|lia].
    destruct (Z.ltb_spec (Z.of_nat (0 + Z.to_nat lo + i)) (lo + Z.of_nat k)); [|lia]. cbn [andb].
    do 2 f_equal. lia.
  - intros i Hi. apply in_seq in Hi. rewrite Hbit by lia.
    destruct (Z.ltb_spec (Z.of_nat i) (lo + Z.of_nat k)); [lia|]. rewrite andb_false_r. reflexivity.
  - intros i Hi. apply in_seq in Hi. rewrite Hbit by lia.
    destruct (Z.leb_spec lo (Z.of_nat i)); [lia|]. reflexivity.
Qed.

Lemma cbd_sample_spec v pool : 1 <= v <= 32 ->
  cbd_sample v pool = bits_sum pool 0 (Z.to_nat (2 * v)) - bits_sum pool (2 * v) (Z.to_nat (2 * v)).
Proof.
  intros Hv. unfold cbd_sample.
  assert (E : Z.shiftr (Z.shiftr (W128 - 1) (128 - 4 * v)) (2 * v) = Z.ones (2 * v)).
  { rewrite Z.shiftr_shiftr by lia. replace (128 - 4 * v + 2 * v) with (128 - 2 * v) by lia.
    change (W128 - 1) with (Z.ones 128). rewrite Z.ones_equiv, Z.shiftr_div_pow2 by lia.
    rewrite Z.ones_equiv. symmetry.
    assert (0 < 2 ^ (128 - 2 * v)) by (apply Z.pow_pos_nonneg; lia).
    apply Z.div_unique with (2 ^ (128 - 2 * v) - 1); [lia|].
    replace (2 ^ 128) with (2 ^ (128 - 2 * v) * 2 ^ (2 * v)); [unfold Z.pred; lia|].
    rewrite <- Z.pow_add_r by lia. f_equal. lia. }
  rewrite E.
  assert (E2 : Z.shiftl (Z.ones (2 * v)) (2 * v) mod W128 = Z.shiftl (Z.ones (2 * v)) (2 * v)).
  { apply Z.mod_small. rewrite Z.shiftl_mul_pow2, Z.ones_equiv by lia.
    assert (0 < 2 ^ (2 * v)) by (apply Z.pow_pos_nonneg; lia). split; [unfold Z.pred; nia|].
    apply Z.lt_le_trans with (2 ^ (2 * v) * 2 ^ (2 * v)); [unfold Z.pred; nia|].
    rewrite <- Z.pow_add_r by lia. change W128 with (2 ^ 128). apply Z.pow_le_mono_r; lia. }
  rewrite E2. f_equal.
  - rewrite <- (count_window pool 0) by lia. rewrite Z2Nat.id by lia. rewrite Z.shiftl_0_r. reflexivity.
  - rewrite <- (count_window pool (2 * v)) by lia. rewrite Z2Nat.id by lia. reflexivity.
Qed.

(** [pool] holds the [nb] stream bits starting at position [pos]. *)
Definition pool_ok (rng : nat -> Z) (pool nb pos : Z) : Prop :=
  forall i, 0 <= i < nb -> Z.b2z (Z.testbit pool i) = stream_bit rng (pos + i).

Lemma bits_sum_ones rng pool nb pos : pool_ok rng pool nb pos ->
  forall k j, 0 <= j -> j + Z.of_nat k <= nb -> bits_sum pool j k = ones_at rng (pos + j) k.
Proof.
  intros H k. induction k as [|k IH]; intros j Hj Hk; [reflexivity|].
  rewrite bits_sum_S. cbn [ones_at]. rewrite H by lia. rewrite IH by lia. do 2 f_equal. lia.
Qed.

Lemma cbd_sample_ones rng pool nb pos v : 1 <= v <= 32 -> pool_ok rng pool nb pos -> 4 * v <= nb ->
  cbd_sample v pool = ones_at rng pos (Z.to_nat (2 * v)) - ones_at rng (pos + 2 * v) (Z.to_nat (2 * v)).
Proof.
  intros Hv Hp Hn. rewrite cbd_sample_spec by exact Hv.
  rewrite !(bits_sum_ones rng pool nb pos Hp) by lia. rewrite Z.add_0_r. reflexivity.
Qed.

Lemma word_bit rng k i : is_u64 (rng k) -> 0 <= i < 64 ->
  Z.b2z (Z.testbit (rng k) i) = stream_bit rng (64 * Z.of_nat k + i).
Proof.
  intros _ Hi. unfold stream_bit. rewrite Z.add_comm, Z.mul_comm.
  rewrite Z.div_add, Z_mod_plus_full by lia. rewrite Z.div_small, Z.mod_small by lia.
  rewrite Z.add_0_l, Nat2Z.id. reflexivity.
Qed.

Lemma pool_refill rng pool nb cnt : (forall k, is_u64 (rng k)) -> 0 <= nb <= 64 -> 0 <= pool < 2 ^ nb ->
  pool_ok rng pool nb (64 * Z.of_nat cnt - nb) ->
  let pool' := Z.lor pool (Z.shiftl (rng cnt) nb mod W128) in
  0 <= pool' < 2 ^ (nb + 64) /\ pool_ok rng pool' (nb + 64) (64 * Z.of_nat cnt - nb).
Proof.
  intros Hr Hnb Hpool Hok pool'. specialize (Hr cnt) as Hw. unfold is_u64 in Hw.
  assert (P : 0 < 2 ^ nb) by (apply Z.pow_pos_nonneg; lia).
  assert (Hs : rng cnt * 2 ^ nb < W128).
  { apply Z.lt_le_trans with (W64 * 2 ^ nb); [nia|].
    change W64 with (2 ^ 64). rewrite <- Z.pow_add_r by lia. change W128 with (2 ^ 128). apply Z.pow_le_mono_r; lia. }
  assert (Es : Z.shiftl (rng cnt) nb mod W128 = Z.shiftl (rng cnt) nb).
  { rewrite Z.shiftl_mul_pow2 by lia. apply Z.mod_small. nia. }
  assert (Ep : pool' = pool + rng cnt * 2 ^ nb) by (unfold pool'; rewrite Es; apply lor_disjoint_add; lia).
  split.
  - rewrite Ep, Z.pow_add_r by lia. change (2 ^ 64) with W64. nia.
  - intros i Hi. unfold pool'. rewrite Es, Z.lor_spec.
    destruct (Z.lt_ge_cases i nb).
    + rewrite Z.shiftl_spec_low by lia. rewrite orb_false_r. apply Hok. lia.
    + rewrite (testbit_small pool nb i) by lia. cbn [orb]. rewrite Z.shiftl_spec by lia.
      rewrite word_bit by (try apply Hr; lia). f_equal. lia.
Qed.

Lemma pool_shift rng pool nb pos w : 0 <= w <= nb -> 0 <= pool < 2 ^ nb -> pool_ok rng pool nb pos ->
  0 <= Z.shiftr pool w < 2 ^ (nb - w) /\ pool_ok rng (Z.shiftr pool w) (nb - w) (pos + w).
Proof.
  intros Hw Hp Hok. split.
  - rewrite Z.shiftr_div_pow2 by lia. assert (0 < 2 ^ w) by (apply Z.pow_pos_nonneg; lia).
    split; [apply Z.div_pos; lia|]. apply Z.div_lt_upper_bound; [lia|].
    rewrite <- Z.pow_add_r by lia. replace (w + (nb - w)) with nb by lia. lia.
  - intros i Hi. rewrite Z.shiftr_spec by lia. rewrite Hok by lia. f_equal. lia.
Qed.

Lemma map_seq_shift {A} (f : nat -> A) s n : map f (seq (S s) n) = map (fun i => f (S i)) (seq s n).
Proof. rewrite <- seq_shift, map_map. reflexivity. Qed.

Lemma cbd_small_spec rng v : (forall k, is_u64 (rng k)) -> 1 <= v <= 16 ->
  forall n i pool nb cnt, 0 <= nb <= 64 -> 0 <= pool < 2 ^ nb ->
    64 * Z.of_nat cnt = 4 * v * Z.of_nat i + nb ->
    pool_ok rng pool nb (4 * v * Z.of_nat i) ->
  exists c, cbd_small rng v n pool nb cnt = Val (map (cbd_value rng v) (seq i n), c) /\
     64 * Z.of_nat c - 64 < Z.max (4 * v * Z.of_nat (i + n)) (64 * Z.of_nat cnt - 63) <= 64 * Z.of_nat c.
Proof.
  intros Hr Hv. induction n as [|n IH]; intros i pool nb cnt Hnb Hpool Hpos Hok.
  { cbn [cbd_small seq map]. exists cnt. split; [reflexivity|]. rewrite Nat.add_0_r. lia. }
  cbn [cbd_small seq map].
  assert (Hval : forall pool1 nb1, 4 * v <= nb1 -> pool_ok rng pool1 nb1 (4 * v * Z.of_nat i) ->
          cbd_sample v pool1 = cbd_value rng v i).
  { intros pool1 nb1 Hn1 Hok1. rewrite (cbd_sample_ones rng pool1 nb1 (4 * v * Z.of_nat i)) by (assumption || lia).
    unfold cbd_value, block_start. destruct (Z.leb_spec v 16); [reflexivity|lia]. }
  destruct (Z.ltb_spec nb (4 * v)) as [Hlt|Hge].
  - replace (4 * v * Z.of_nat i) with (64 * Z.of_nat cnt - nb) in Hok by lia.
    destruct (pool_refill rng pool nb cnt Hr Hnb Hpool Hok) as (Hp1 & Hok1).
    set (pool1 := Z.lor pool (Z.shiftl (rng cnt) nb mod W128)) in *.
    replace (64 * Z.of_nat cnt - nb) with (4 * v * Z.of_nat i) in Hok1 by lia.
    rewrite bind_guard by (apply Z.leb_le; lia). unfold chk64. rewrite bind_chk by lia.
    destruct (pool_shift rng pool1 (nb + 64) _ (4 * v) ltac:(lia) Hp1 Hok1) as (Hp2 & Hok2).
    replace (4 * v * Z.of_nat i + 4 * v) with (4 * v * Z.of_nat (S i)) in Hok2 by lia.
    destruct (IH (S i) (Z.shiftr pool1 (4 * v)) (nb + 64 - 4 * v) (S cnt)) as (c & -> & Hc);
      [lia|exact Hp2|lia|exact Hok2|].
    cbn [bind]. rewrite (Hval pool1 (nb + 64)) by (assumption || lia).
    exists c. split; [reflexivity|]. replace (S i + n)%nat with (i + S n)%nat in Hc by lia. nia.
  - rewrite bind_guard by (apply Z.leb_le; lia). unfold chk64. rewrite bind_chk by lia.
    destruct (pool_shift rng pool nb _ (4 * v) ltac:(lia) Hpool Hok) as (Hp2 & Hok2).
    replace (4 * v * Z.of_nat i + 4 * v) with (4 * v * Z.of_nat (S i)) in Hok2 by lia.
    destruct (IH (S i) (Z.shiftr pool (4 * v)) (nb - 4 * v) cnt) as (c & -> & Hc);
      [lia|exact Hp2|lia|exact Hok2|].
    cbn [bind]. rewrite (Hval pool nb) by (assumption || lia).
    exists c. split; [reflexivity|]. replace (S i + n)%nat with (i + S n)%nat in Hc by lia. nia.
Qed.

Lemma cbd_large_spec rng v : (forall k, is_u64 (rng k)) -> 17 <= v <= 32 ->
  forall n i, cbd_large rng v n (2 * i) = (map (cbd_value rng v) (seq i n), (2 * (i + n))%nat).
Proof.
  intros Hr Hv. induction n as [|n IH]; intros i; [cbn [cbd_large seq map]; do 2 f_equal; lia|].
  cbn [cbd_large seq map]. replace (S (S (2 * i))) with (2 * S i)%nat by lia. rewrite IH.
  f_equal; [|lia]. f_equal.
  assert (Hw := Hr (2 * i)%nat). unfold is_u64 in Hw.
  destruct (pool_refill rng (rng (2 * i)%nat) 64 (S (2 * i)) Hr ltac:(lia)) as (_ & Hok).
  { change (2 ^ 64) with W64. lia. }
  { intros j Hj. rewrite word_bit by (try apply Hr; lia). f_equal. lia. }
  rewrite (cbd_sample_ones rng _ (64 + 64) (128 * Z.of_nat i)); [|lia| |lia].
  - unfold cbd_value, block_start. destruct (Z.leb_spec v 16); [lia|reflexivity].
  - replace (128 * Z.of_nat i) with (64 * Z.of_nat (S (2 * i)) - 64) by lia. exact Hok.
Qed.

Lemma sample_vec_cbd_ok rng n v : (forall k, is_u64 (rng k)) -> 1 <= v <= 32 ->
  exists c, sample_vec_cbd rng n v = Val (map (cbd_value rng v) (seq 0 n), c) /\
    (v <= 16 -> 64 * Z.of_nat c - 64 < 4 * v * Z.of_nat n <= 64 * Z.of_nat c) /\
    (17 <= v -> Z.of_nat c = 2 * Z.of_nat n).
Proof.
  intros Hr Hv. unfold sample_vec_cbd.
  destruct (Z.leb_spec 1 v); [|lia]. destruct (Z.leb_spec v 32); [|lia]. cbn [andb negb].
  destruct (Z.leb_spec (4 * v) 64).
  - destruct (cbd_small_spec rng v Hr ltac:(lia) n 0%nat 0 0 0%nat) as (c & E & Hc); try lia.
    { intros i Hi. lia. }
    exists c. split; [exact E|]. split; [|lia]. intros _. cbn [Nat.add] in Hc. lia.
  - pose proof (cbd_large_spec rng v Hr ltac:(lia) n 0%nat) as E. change (2 * 0)%nat with 0%nat in E.
    rewrite E. eexists. split; [reflexivity|]. lia.
Qed.

Lemma ones_at_bounds rng k : forall j, 0 <= ones_at rng j k <= Z.of_nat k.
Proof.
  induction k as [|k IH]; intros j; cbn [ones_at]; [lia|]. specialize (IH (j + 1)).
  unfold stream_bit. destruct (Z.testbit _ _); cbn [Z.b2z]; lia.
Qed.

Lemma cbd_value_bounds rng v i : 0 <= v -> - (2 * v) <= cbd_value rng v i <= 2 * v.
Proof.
  intros Hv. unfold cbd_value.
  pose proof (ones_at_bounds rng (Z.to_nat (2 * v)) (block_start v i)).
  pose proof (ones_at_bounds rng (Z.to_nat (2 * v)) (block_start v i + 2 * v)). lia.
Qed.

Lemma sample_vec_cbd_err rng n v : ~ (1 <= v <= 32) -> sample_vec_cbd rng n v = Err VarianceError.
Proof.
  intros Hv. unfold sample_vec_cbd. destruct (Z.leb_spec 1 v); destruct (Z.leb_spec v 32); cbn [andb negb]; try reflexivity. lia.
Qed.

Lemma blocks_disjoint v i j : 1 <= v <= 32 -> (i < j)%nat -> block_start v i + 4 * v <= block_start v j.
Proof. intros Hv Hij. unfold block_start. destruct (Z.leb_spec v 16); nia. Qed.

(** Exact distribution over all values of the 4v bits. *)
Lemma sumZ_map_app {A} (f : A -> Z) l l' : sumZ (map f (l ++ l')) = sumZ (map f l) + sumZ (map f l').
Proof. rewrite map_app. apply sumZ_app. Qed.

Lemma all_bits_length n : Z.of_nat (length (all_bits n)) = 2 ^ Z.of_nat n.
Proof.
  induction n as [|n IH]; [reflexivity|]. cbn [all_bits].
  rewrite app_length, !map_length, Nat2Z.inj_add, IH, Nat2Z.inj_succ, Z.pow_succ_r by lia. lia.
Qed.

Lemma sumZ_const {A} (c : Z) (l : list A) : sumZ (map (fun _ => c) l) = c * Z.of_nat (length l).
Proof. induction l as [|a t IH]; cbn [map length]; unfold sumZ in *; cbn [fold_right]; lia. Qed.

Lemma sumZ_map_add {A} (f g : A -> Z) l : sumZ (map (fun a => f a + g a) l) = sumZ (map f l) + sumZ (map g l).
Proof. induction l as [|a t IH]; cbn [map]; unfold sumZ in *; cbn [fold_right]; lia. Qed.

Lemma sumZ_map_scal {A} (c : Z) (f : A -> Z) l : sumZ (map (fun a => c * f a) l) = c * sumZ (map f l).
Proof. induction l as [|a t IH]; cbn [map]; unfold sumZ in *; cbn [fold_right]; lia. Qed.

Lemma moments e :
  2 * sumZ (map (dot e) (all_bits (length e))) = 2 ^ Z.of_nat (length e) * sumZ e /\
  4 * sumZ (map (fun b => dot e b * dot e b) (all_bits (length e)))
    = 2 ^ Z.of_nat (length e) * (sumZ e * sumZ e + sumZ (map (fun x => x * x) e)).
Proof.
  induction e as [|e1 e [IH1 IH2]]; [split; reflexivity|].
  set (n := length e) in *. cbn [length]. fold n. cbn [all_bits]. rewrite Nat2Z.inj_succ, Z.pow_succ_r by lia.
  rewrite !sumZ_map_app, !map_map.
  assert (L := all_bits_length n).
  assert (A0 : sumZ (map (fun x => dot (e1 :: e) (false :: x)) (all_bits n)) = sumZ (map (dot e) (all_bits n)))
    by (apply sumZ_map_ext; intros; cbn [dot Z.b2z]; lia).
  assert (A1 : sumZ (map (fun x => dot (e1 :: e) (true :: x)) (all_bits n)) = e1 * 2 ^ Z.of_nat n + sumZ (map (dot e) (all_bits n))).
  { rewrite <- L, <- sumZ_const, <- sumZ_map_add. apply sumZ_map_ext; intros; cbn [dot Z.b2z]; lia. }
  assert (B0 : sumZ (map (fun x => dot (e1 :: e) (false :: x) * dot (e1 :: e) (false :: x)) (all_bits n))
     = sumZ (map (fun b => dot e b * dot e b) (all_bits n)))
    by (apply sumZ_map_ext; intros; cbn [dot Z.b2z]; ring).
  assert (B1 : sumZ (map (fun x => dot (e1 :: e) (true :: x) * dot (e1 :: e) (true :: x)) (all_bits n))
     = e1 * e1 * 2 ^ Z.of_nat n + 2 * e1 * sumZ (map (dot e) (all_bits n)) + sumZ (map (fun b => dot e b * dot e b) (all_bits n))).
  { rewrite <- sumZ_map_scal, <- L, <- sumZ_const, <- !sumZ_map_add. apply sumZ_map_ext; intros; cbn [dot Z.b2z]; ring. }
  split.
  - rewrite A0, A1. change (sumZ (e1 :: e)) with (e1 + sumZ e). nia.
  - rewrite B0, B1. cbn [map]. change (sumZ (e1 :: e)) with (e1 + sumZ e).
    change (sumZ (e1 * e1 :: map (fun x => x * x) e)) with (e1 * e1 + sumZ (map (fun x => x * x) e)). nia.
Qed.

Lemma sumZ_repeat c k : sumZ (repeat c k) = c * Z.of_nat k.
Proof. induction k as [|k IH]; cbn [repeat]; unfold sumZ in *; cbn [fold_right]; lia. Qed.

Lemma map_repeat' {A B} (f : A -> B) a k : map f (repeat a k) = repeat (f a) k.
Proof. induction k as [|k IH]; cbn; congruence. Qed.

Lemma signs_moments v :
  length (signs v) = (4 * v)%nat /\
  sumZ (map (dot (signs v)) (all_bits (4 * v))) = 0 /\
  sumZ (map (fun b => dot (signs v) b * dot (signs v) b) (all_bits (4 * v))) = Z.of_nat v * 2 ^ Z.of_nat (4 * v).
Proof.
  assert (L : length (signs v) = (4 * v)%nat) by (unfold signs; rewrite app_length, !repeat_length; lia).
  split; [exact L|]. destruct (moments (signs v)) as [M1 M2]. rewrite L in M1, M2.
  assert (S0 : sumZ (signs v) = 0) by (unfold signs; rewrite sumZ_app, !sumZ_repeat; lia).
  assert (S1 : sumZ (map (fun x => x * x) (signs v)) = 4 * Z.of_nat v).
  { unfold signs. rewrite map_app, sumZ_app, !map_repeat', !sumZ_repeat. lia. }
  rewrite S0, S1 in *. split; lia.
Qed.

(** The sampled value is [dot signs bits] of its 4v stream bits. *)
Fixpoint stream_bits (rng : nat -> Z) (j : Z) (k : nat) : list bool :=
  match k with
  | O => []
  | S k' => Z.testbit (rng (Z.to_nat (j / 64))) (j mod 64) :: stream_bits rng (j + 1) k'
  end.

Lemma dot_app e e' b b' : length e = length b -> dot (e ++ e') (b ++ b') = dot e b + dot e' b'.
Proof.
  revert b; induction e as [|x e IH]; intros [|y b]; cbn [length app dot]; intros H; try discriminate; [reflexivity|].
  rewrite IH by lia. lia.
Qed.

Lemma dot_const c rng k : forall j, dot (repeat c k) (stream_bits rng j k) = c * ones_at rng j k.
Proof.
  induction k as [|k IH]; intros j; cbn [repeat stream_bits dot ones_at]; [lia|]. rewrite IH. unfold stream_bit. lia.
Qed.

Lemma stream_bits_app rng k k' : forall j, stream_bits rng j (k + k') = stream_bits rng j k ++ stream_bits rng (j + Z.of_nat k) k'.
Proof.
  induction k as [|k IH]; intros j; cbn [Nat.add stream_bits app]; [rewrite Z.add_0_r; reflexivity|].
  rewrite IH. do 3 f_equal. lia.
Qed.

Lemma stream_bits_length rng k : forall j, length (stream_bits rng j k) = k.
Proof. induction k as [|k IH]; intros j; cbn; auto. Qed.

Lemma cbd_value_dot rng v i :
  cbd_value rng (Z.of_nat v) i = dot (signs v) (stream_bits rng (block_start (Z.of_nat v) i) (4 * v)).
Proof.
  unfold cbd_value, signs. replace (4 * v)%nat with (2 * v + 2 * v)%nat by lia. rewrite stream_bits_app.
  rewrite dot_app by (rewrite repeat_length, stream_bits_length; reflexivity).
  rewrite !dot_const. replace (Z.to_nat (2 * Z.of_nat v)) with (2 * v)%nat by lia.
  replace (Z.of_nat (2 * v)) with (2 * Z.of_nat v) by lia. lia.
Qed.
