(** The release build of the arithmetic core: lemmas closing PropsRelease.v. *)
From Verif Require Import Outcome BasicSpec OutcomeLemmas ZqModel ZqProofs ZqPow NumTheory NttModel PolySpec PolyRing NttPure NttStages NttProofs NttPropLemmas.
From Verif Require Import RqProofs BuildProofs.
From Verif Require Import RqModel RqSpec ParamsModel BfvSpec SlotsProofs ParamsProofs ParamsPropLemmas PlainModel SchemeSpec PlainProofs PlainPropLemmas RangeNtt RangeProofs.
From Verif Require Import ReleaseModel ReleaseSpec ReleaseProofs ReleaseNttProofs.
From Coq Require Import Znumtheory.

(** * Scalars *)
Lemma u64_prod a b : is_u64 a -> is_u64 b -> is_u128 (a * b).
Proof. unfold is_u64, is_u128. intros Ha Hb. change W128 with (W64 * W64). nia. Qed.
Lemma w128_id x : is_u128 x -> w128 x = x.
Proof. intros H. apply Z.mod_small. exact H. Qed.

Section Scalars.
  Context (m : modulus) (Hm : valid_modulus m).
  Notation p := (mod_p m).
  Local Lemma Hp : 2 <= p < W62. Proof. apply valid_fields. exact Hm. Qed.
  Lemma rel_reduce_u128_total a : is_u128 a -> rel_reduce_u128 m a = a mod p /\ rel_reduce_u128_vt m a = a mod p.
  Proof. intros Ha. split; [apply rel_reduce_u128_ok, reduce_u128_spec|apply rel_reduce_u128_vt_ok, reduce_u128_vt_spec]; assumption. Qed.
  Lemma rel_mul_total a b : is_u64 a -> is_u64 b -> rel_mul m a b = (a * b) mod p /\ rel_mul_vt m a b = (a * b) mod p.
  Proof.
    intros Ha Hb. pose proof (u64_prod a b Ha Hb) as H. unfold rel_mul, rel_mul_vt. rewrite w128_id by exact H. exact (rel_reduce_u128_total _ H).
  Qed.
  Lemma rel_reduce1_eq x q : is_u64 x -> is_u64 q -> rel_reduce1 x q = (if x <? q then x else x - q) /\ rel_reduce1_vt x q = (if x <? q then x else x - q).
  Proof.
    unfold is_u64. intros Hx Hq. unfold rel_reduce1, rel_reduce1_vt, w64. split.
    - rewrite cond_select_spec; [|exact Hx|apply Z.mod_pos_bound; reflexivity]. destruct (Z.ltb_spec x q); [reflexivity|]. apply Z.mod_small. lia.
    - destruct (Z.leb_spec q x), (Z.ltb_spec x q); try lia. apply Z.mod_small. lia.
  Qed.
  Lemma p_u64 : is_u64 p. Proof. pose proof Hp. assert (W62 < W64) by reflexivity. unfold is_u64. lia. Qed.
  Lemma w64_range x : is_u64 (w64 x). Proof. apply Z.mod_pos_bound. reflexivity. Qed.
  Lemma once_right s : is_u64 s -> ((if s <? p then s else s - p) = s mod p <-> s < 2 * p).
  Proof.
    unfold is_u64. intros Hs. pose proof Hp as Hp. destruct (Z.ltb_spec s p).
    - rewrite Z.mod_small by lia. lia.
    - split.
      + intros E. pose proof (Z.mod_pos_bound s p ltac:(lia)). lia.
      + intros H'. apply Z.mod_unique with 1; lia.
  Qed.
  Lemma rel_add_right a b : 0 <= a -> 0 <= b -> a + b < W64 ->
    (rel_add m a b = (a + b) mod p <-> a + b < 2 * p) /\ (rel_add_vt m a b = (a + b) mod p <-> a + b < 2 * p).
  Proof.
    intros Ha Hb Hab. unfold rel_add, rel_add_vt. assert (H : is_u64 (a + b)) by (unfold is_u64; lia). rewrite !(w64_id _ H).
    destruct (rel_reduce1_eq _ p H p_u64) as (-> & ->). split; apply once_right; exact H.
  Qed.
  Lemma rel_sub_right a b : 0 <= a -> 0 <= b <= a + p -> a + p < W64 -> (rel_sub m a b = (a - b) mod p <-> a < b + p).
  Proof.
    intros Ha Hb Hab. pose proof Hp as Hp. unfold rel_sub. assert (H1 : is_u64 (a + p)) by (unfold is_u64; lia). rewrite (w64_id _ H1).
    assert (H : is_u64 (a + p - b)) by (unfold is_u64 in *; lia). rewrite (w64_id _ H). destruct (rel_reduce1_eq _ p H p_u64) as (-> & _).
    replace ((a - b) mod p) with ((a + p - b) mod p). 2: { replace (a + p - b) with (a - b + 1 * p) by ring. apply Z_mod_plus_full. }
    rewrite (once_right _ H). lia.
  Qed.
  Lemma rel_neg_right a : 0 <= a <= p -> rel_neg m a = (- a) mod p /\ rel_neg_vt m a = (- a) mod p.
  Proof.
    intros Ha. pose proof Hp as Hp. pose proof p_u64 as Hu. unfold rel_neg, rel_neg_vt. assert (H : is_u64 (p - a)) by (unfold is_u64 in *; lia). rewrite (w64_id _ H).
    destruct (rel_reduce1_eq _ p H p_u64) as (-> & ->). replace ((- a) mod p) with ((p - a) mod p). 2: { replace (p - a) with (- a + 1 * p) by ring. apply Z_mod_plus_full. }
    split; apply once_right; [exact H|lia|exact H|lia].
  Qed.
  Lemma rel_mul_shoup_total a b : is_u64 a -> 0 <= b < p -> exists bs, rel_shoup m b = Val bs /\ rel_mul_shoup m a b bs = (a * b) mod p /\ rel_mul_shoup_vt m a b bs = (a * b) mod p.
  Proof.
    intros Ha Hb. exists (shoup_of m b). split; [apply rel_shoup_ok; [lia|apply shoup_spec; assumption]|].
    split; [apply rel_mul_shoup_ok, mul_shoup_spec|apply rel_mul_shoup_vt_ok, mul_shoup_vt_spec]; assumption.
  Qed.
  Lemma mod_u64 x : is_u64 (x mod p).
  Proof. pose proof Hp. pose proof (Z.mod_pos_bound x p ltac:(lia)). pose proof p_u64 as H1. unfold is_u64 in *. lia. Qed.
  (** [pow] needs neither a reduced base nor an exponent below p. *)
  Lemma rel_pow_loop_total a n k : is_u64 a -> 0 <= n -> forall r, is_u64 r -> cong p r (a ^ (n / 2 ^ Z.of_nat k)) -> (k <> 0)%nat ->
    rel_pow_loop m a n k r = a ^ n mod p.
  Proof.
    intros Ha Hn. pose proof Hp as Hp. induction k as [|k IH]; intros r Hr Cr Hk; [contradiction|]. cbn [rel_pow_loop]. clear Hk.
    set (e := n / 2 ^ Z.of_nat k) in *.
    assert (Ee : n / 2 ^ Z.of_nat (S k) = e / 2).
    { unfold e. rewrite Nat2Z.inj_succ, Z.pow_succ_r by lia. rewrite Z.mul_comm. rewrite Z.div_div by lia. reflexivity. }
    assert (He : 0 <= e) by (apply Z.div_pos; lia).
    rewrite Ee in Cr. rewrite Z.shiftr_div_pow2 by lia. fold e.
    assert (Eo : (Z.land e 1 =? 1) = Z.odd e).
    { change 1 with (Z.ones 1). rewrite Z.land_ones by lia. change (Z.ones 1) with 1. change (2 ^ 1) with 2.
      rewrite Zmod_odd. destruct (Z.odd e); reflexivity. }
    rewrite Eo, (proj1 (rel_mul_total r r Hr Hr)).
    set (r' := if Z.odd e then rel_mul m ((r * r) mod p) a else (r * r) mod p).
    assert (Er : r' = a ^ e mod p).
    { assert (C2 : cong p (r * r) (a ^ (e / 2) * a ^ (e / 2))) by (apply cong_mul; exact Cr). unfold r'. rewrite (pow_split a e He). destruct (Z.odd e).
      - rewrite (proj1 (rel_mul_total _ _ (mod_u64 _) Ha)). rewrite Zmult_mod_idemp_l. apply (cong_mul p); [exact C2|reflexivity].
      - rewrite Z.mul_1_r. exact C2. }
    destruct k as [|k].
    - cbn [rel_pow_loop]. rewrite Er. unfold e. rewrite Z.div_1_r. reflexivity.
    - apply IH; [rewrite Er; apply mod_u64| |discriminate]. rewrite Er. unfold cong. apply Z.mod_mod. lia.
  Qed.
  Lemma rel_pow_total a n : is_u64 a -> is_u64 n -> 2 <= n \/ a < p -> rel_pow m a n = a ^ n mod p.
  Proof.
    intros Ha Hn Hc. pose proof Hp as Hp. unfold is_u64 in Ha, Hn. unfold rel_pow. destruct (Z.eqb_spec n 0) as [->|Hn0].
    { rewrite Z.pow_0_r, Z.mod_small by lia. reflexivity. }
    destruct (Z.eqb_spec n 1) as [->|Hn1].
    { rewrite Z.pow_1_r, Z.mod_small by lia. reflexivity. }
    unfold leading_zeros64, nbits. destruct (Z.leb_spec n 0); [lia|].
    replace (62 - (64 - (Z.log2 n + 1))) with (Z.log2 n - 1) by lia.
    assert (1 <= Z.log2 n) by (change 1 with (Z.log2 2); apply Z.log2_le_mono; lia).
    assert (Z.log2 n < 64) by (apply Z.log2_lt_pow2; lia).
    rewrite (Z.mod_small (Z.log2 n - 1)) by (change W32 with (2 ^ 32); lia). replace (Z.log2 n - 1 + 1) with (Z.log2 n) by lia.
    apply rel_pow_loop_total; [exact Ha|lia|exact Ha| |lia].
    replace (n / 2 ^ Z.of_nat (Z.to_nat (Z.log2 n))) with 1; [rewrite Z.pow_1_r; reflexivity|].
    rewrite Z2Nat.id by lia. pose proof (Z.log2_spec n ltac:(lia)) as Hl. rewrite Z.pow_succ_r in Hl by lia.
    apply Z.div_unique with (n - 2 ^ Z.log2 n); lia.
  Qed.
End Scalars.

Theorem scalars_agree : forall m a b s r,
  (reduce1 a b = Val r -> rel_reduce1 a b = r) /\ (reduce1_vt a b = Val r -> rel_reduce1_vt a b = r) /\
  (lazy_reduce_u128 m a = Val r -> rel_lazy_reduce_u128 m a = r) /\ (lazy_reduce m a = Val r -> rel_lazy_reduce m a = r) /\
  (lazy_reduce_opt_u128 m a = Val r -> rel_lazy_reduce_opt_u128 m a = r) /\ (lazy_reduce_opt m a = Val r -> rel_lazy_reduce_opt m a = r) /\
  (reduce_u128 m a = Val r -> rel_reduce_u128 m a = r) /\ (reduce_u128_vt m a = Val r -> rel_reduce_u128_vt m a = r) /\
  (reduce m a = Val r -> rel_reduce m a = r) /\ (reduce_vt m a = Val r -> rel_reduce_vt m a = r) /\
  (reduce_opt_u128 m a = Val r -> rel_reduce_opt_u128 m a = r) /\ (reduce_opt_u128_vt m a = Val r -> rel_reduce_opt_u128_vt m a = r) /\
  (reduce_opt m a = Val r -> rel_reduce_opt m a = r) /\ (reduce_opt_vt m a = Val r -> rel_reduce_opt_vt m a = r) /\
  (zq_add m a b = Val r -> rel_add m a b = r) /\ (zq_add_vt m a b = Val r -> rel_add_vt m a b = r) /\ (zq_sub m a b = Val r -> rel_sub m a b = r) /\
  (zq_mul m a b = Val r -> rel_mul m a b = r) /\ (zq_mul_vt m a b = Val r -> rel_mul_vt m a b = r) /\
  (zq_mul_opt m a b = Val r -> rel_mul_opt m a b = r) /\ (zq_mul_opt_vt m a b = Val r -> rel_mul_opt_vt m a b = r) /\
  (zq_neg m a = Val r -> rel_neg m a = r) /\ (zq_neg_vt m a = Val r -> rel_neg_vt m a = r) /\
  (is_u64 a -> shoup m a = Val r -> rel_shoup m a = Val r) /\ (lazy_mul_shoup m a b s = Val r -> rel_lazy_mul_shoup m a b s = r) /\
  (mul_shoup m a b s = Val r -> rel_mul_shoup m a b s = r) /\ (mul_shoup_vt m a b s = Val r -> rel_mul_shoup_vt m a b s = r) /\
  (center m a = Val r -> rel_center m a = r) /\ (reduce_i64 m a = Val r -> rel_reduce_i64 m a = r) /\ (reduce_i64_vt m a = Val r -> rel_reduce_i64_vt m a = r) /\
  (zq_pow m a b = Val r -> rel_pow m a b = r) /\ (forall isp o, zq_inv isp m a = Val o -> rel_inv isp m a = o).
Proof.
  intros m a b s r. split; [apply rel_reduce1_ok|]. split; [apply rel_reduce1_vt_ok|]. split; [apply rel_lazy_reduce_u128_ok|]. split; [apply rel_lazy_reduce_ok|].
  split; [apply rel_lazy_reduce_opt_u128_ok|]. split; [apply rel_lazy_reduce_opt_ok|]. split; [apply rel_reduce_u128_ok|]. split; [apply rel_reduce_u128_vt_ok|].
  split; [apply rel_reduce_ok|]. split; [apply rel_reduce_vt_ok|]. split; [apply rel_reduce_opt_u128_ok|]. split; [apply rel_reduce_opt_u128_vt_ok|].
  split; [apply rel_reduce_opt_ok|]. split; [apply rel_reduce_opt_vt_ok|]. split; [apply rel_add_ok|]. split; [apply rel_add_vt_ok|]. split; [apply rel_sub_ok|].
  split; [apply rel_mul_ok|]. split; [apply rel_mul_vt_ok|]. split; [apply rel_mul_opt_ok|]. split; [apply rel_mul_opt_vt_ok|]. split; [apply rel_neg_ok|]. split; [apply rel_neg_vt_ok|].
  split; [intros Ha; apply rel_shoup_ok; apply Ha|]. split; [apply rel_lazy_mul_shoup_ok|]. split; [apply rel_mul_shoup_ok|]. split; [apply rel_mul_shoup_vt_ok|].
  split; [apply rel_center_ok|]. split; [apply rel_reduce_i64_ok|]. split; [apply rel_reduce_i64_vt_ok|]. split; [apply rel_pow_ok|]. intros isp o. apply rel_inv_ok.
Qed.
Theorem vectors_agree : forall m a b s c r,
  (add_vec m a b = Val r -> rel_add_vec m a b = r) /\ (add_vec_vt m a b = Val r -> rel_add_vec_vt m a b = r) /\
  (sub_vec m a b = Val r -> rel_sub_vec m a b = r) /\ (sub_vec_vt m a b = Val r -> rel_sub_vec_vt m a b = r) /\
  (mul_vec m a b = Val r -> rel_mul_vec m a b = r) /\ (mul_vec_vt m a b = Val r -> rel_mul_vec_vt m a b = r) /\
  (is_u64 c -> scalar_mul_vec m a c = Val r -> rel_scalar_mul_vec m a c = Val r) /\ (is_u64 c -> scalar_mul_vec_vt m a c = Val r -> rel_scalar_mul_vec_vt m a c = Val r) /\
  (Forall is_u64 a -> shoup_vec m a = Val r -> rel_shoup_vec m a = Val r) /\
  (mul_shoup_vec m a b s = Val r -> rel_mul_shoup_vec m a b s = r) /\ (mul_shoup_vec_vt m a b s = Val r -> rel_mul_shoup_vec_vt m a b s = r) /\
  (lazy_reduce_vec m a = Val r -> rel_lazy_reduce_vec m a = r) /\ (reduce_vec m a = Val r -> rel_reduce_vec m a = r) /\ (reduce_vec_vt m a = Val r -> rel_reduce_vec_vt m a = r) /\
  (center_vec m a = Val r -> rel_center_vec m a = r) /\ (reduce_vec_i64 m a = Val r -> rel_reduce_vec_i64 m a = r) /\ (reduce_vec_i64_vt m a = Val r -> rel_reduce_vec_i64_vt m a = r) /\
  (neg_vec m a = Val r -> rel_neg_vec m a = r) /\ (neg_vec_vt m a = Val r -> rel_neg_vec_vt m a = r).
Proof.
  intros m a b s c r. split; [apply rel_add_vec_ok|]. split; [apply rel_add_vec_vt_ok|]. split; [apply rel_sub_vec_ok|]. split; [apply rel_sub_vec_vt_ok|].
  split; [apply rel_mul_vec_ok|]. split; [apply rel_mul_vec_vt_ok|]. split; [intros Hc; apply rel_scalar_mul_vec_ok; apply Hc|]. split; [intros Hc; apply rel_scalar_mul_vec_vt_ok; apply Hc|].
  split; [intros Ha; apply rel_shoup_vec_ok; eapply Forall_impl; [|exact Ha]; unfold is_u64; intros; lia|]. split; [apply rel_mul_shoup_vec_ok|]. split; [apply rel_mul_shoup_vec_vt_ok|]. split; [apply rel_lazy_reduce_vec_ok|].
  split; [apply rel_reduce_vec_ok|]. split; [apply rel_reduce_vec_vt_ok|]. split; [apply rel_center_vec_ok|]. split; [apply rel_reduce_vec_i64_ok|]. split; [apply rel_reduce_vec_i64_vt_ok|]. split; [apply rel_neg_vec_ok|apply rel_neg_vec_vt_ok].
Qed.
(** In the form of the theorems. *)
Theorem mul_all : forall p m, modulus_new p = Val m ->
  (forall a, is_u128 a -> rel_reduce_u128 m a = a mod p /\ rel_reduce_u128_vt m a = a mod p) /\
  (forall a b, is_u64 a -> is_u64 b -> rel_mul m a b = (a * b) mod p /\ rel_mul_vt m a b = (a * b) mod p) /\
  (forall a b, is_u64 a -> 0 <= b < p -> exists bs, rel_shoup m b = Val bs /\ rel_mul_shoup m a b bs = (a * b) mod p /\ rel_mul_shoup_vt m a b bs = (a * b) mod p) /\
  (forall a k, is_u64 a -> is_u64 k -> 2 <= k \/ a < p -> rel_pow m a k = a ^ k mod p).
Proof.
  intros p m E. destruct (modulus_new_valid _ _ E) as (Hm & ->). split; [exact (rel_reduce_u128_total m Hm)|]. split; [exact (rel_mul_total m Hm)|]. split; [exact (rel_mul_shoup_total m Hm)|exact (rel_pow_total m Hm)].
Qed.
Theorem add_all : forall p m, modulus_new p = Val m ->
  (forall a b, 0 <= a -> 0 <= b -> a + b < 2 ^ 64 -> (rel_add m a b = (a + b) mod p <-> a + b < 2 * p) /\ (rel_add_vt m a b = (a + b) mod p <-> a + b < 2 * p)) /\
  (forall a b, 0 <= a -> 0 <= b <= a + p -> a + p < 2 ^ 64 -> (rel_sub m a b = (a - b) mod p <-> a < b + p)) /\
  (forall a, 0 <= a <= p -> rel_neg m a = (- a) mod p /\ rel_neg_vt m a = (- a) mod p).
Proof.
  intros p m E. destruct (modulus_new_valid _ _ E) as (Hm & ->). change (2 ^ 64) with W64. split; [exact (rel_add_right m Hm)|]. split; [exact (rel_sub_right m Hm)|exact (rel_neg_right m Hm)].
Qed.

(** Sums and differences of any words. *)
Theorem words_all : forall p m, modulus_new p = Val m -> forall a b, is_u64 a -> is_u64 b ->
  (let s := (a + b) mod 2 ^ 64 in rel_add m a b = (if s <? p then s else s - p) /\ rel_add_vt m a b = rel_add m a b) /\
  (let s := (a + p - b) mod 2 ^ 64 in rel_sub m a b = (if s <? p then s else s - p)) /\
  (let s := (p - a) mod 2 ^ 64 in rel_neg m a = (if s <? p then s else s - p) /\ rel_neg_vt m a = rel_neg m a).
Proof.
  intros p m E a b Ha Hb. destruct (modulus_new_valid _ _ E) as (Hm & ->). change (2 ^ 64) with W64. pose proof (p_u64 m Hm) as Hu. cbv zeta.
  split; [|split].
  - unfold rel_add, rel_add_vt. destruct (rel_reduce1_eq (w64 (a + b)) _ (w64_range _) Hu) as (-> & ->). split; reflexivity.
  - unfold rel_sub. replace (w64 (w64 (a + mod_p m) - b)) with ((a + mod_p m - b) mod W64). 2: { unfold w64. rewrite Zminus_mod_idemp_l. reflexivity. }
    apply rel_reduce1_eq; [apply Z.mod_pos_bound; reflexivity|exact Hu].
  - unfold rel_neg, rel_neg_vt. destruct (rel_reduce1_eq (w64 (mod_p m - a)) _ (w64_range _) Hu) as (-> & ->). split; reflexivity.
Qed.
(** Operands of different lengths. *)
Lemma zip_rel_length f a b : length (zip_rel f a b) = length a.
Proof. revert b. induction a as [|x a IH]; intros [|y b]; cbn [zip_rel length]; try reflexivity. rewrite IH. reflexivity. Qed.
Lemma zip_rel_nth f a b : forall i, (i < length a)%nat -> nth i (zip_rel f a b) 0 = if Nat.ltb i (length b) then f (nth i a 0) (nth i b 0) else nth i a 0.
Proof.
  revert b. induction a as [|x a IH]; intros [|y b] i Hi; cbn [length] in Hi; try lia; cbn [zip_rel].
  - reflexivity.
  - destruct i as [|i]; [reflexivity|]. cbn [nth length]. rewrite IH by lia. reflexivity.
Qed.
Theorem lengths_all : forall m a b,
  (length (rel_add_vec m a b) = length a /\ forall i, (i < length a)%nat -> nth i (rel_add_vec m a b) 0 = if Nat.ltb i (length b) then rel_add m (nth i a 0) (nth i b 0) else nth i a 0) /\
  (length (rel_sub_vec m a b) = length a /\ forall i, (i < length a)%nat -> nth i (rel_sub_vec m a b) 0 = if Nat.ltb i (length b) then rel_sub m (nth i a 0) (nth i b 0) else nth i a 0) /\
  (length (rel_mul_vec m a b) = length a /\ forall i, (i < length a)%nat ->
     nth i (rel_mul_vec m a b) 0 = if Nat.ltb i (length b) then (if mod_opt m then rel_mul_opt m (nth i a 0) (nth i b 0) else rel_mul m (nth i a 0) (nth i b 0)) else nth i a 0).
Proof.
  intros m a b. unfold rel_add_vec, rel_sub_vec, rel_mul_vec. split; [|split]; (split; [apply zip_rel_length|]); intros i Hi; rewrite zip_rel_nth by exact Hi; try reflexivity.
  destruct (mod_opt m); reflexivity.
Qed.

(** * Operators *)
Lemma rel_successive_ok m w : forall c x r, successive m w c x = Val r -> rel_successive m w c x = r.
Proof.
  induction c as [|c IH]; intros x r E; cbn [successive rel_successive] in *; [apply val_inj in E; exact E|].
  apply bind_inv in E. destruct E as (nx & E1 & E). apply bind_inv in E. destruct E as (r' & E2 & E). apply val_inj in E. subst r.
  rewrite (rel_mul_ok _ _ _ _ E1), (IH _ _ E2). reflexivity.
Qed.
Section New.
  Context (isp : Z -> bool) (Hisp : prime_oracle isp) (m : modulus) (Hm : valid_modulus m).
  Notation p := (mod_p m).
  Lemma rel_root_ok n lambda cands w : primitive_root_loop isp m n lambda cands = Val w -> rel_primitive_root m n lambda cands = w.
  Proof.
    revert w. induction cands as [|c cs IH]; intros w E; [discriminate|]. cbn [primitive_root_loop rel_primitive_root] in *.
    apply bind_inv in E. destruct E as (root & E1 & E). apply bind_inv in E. destruct E as (b & E2 & E).
    rewrite (rel_pow_ok _ _ _ _ E1). replace (rel_is_primitive_root m root (2 * n)) with b.
    { destruct b; [apply val_inj in E; exact E|exact (IH _ E)]. }
    unfold is_primitive_root in E2. unfold rel_is_primitive_root.
    apply bind_inv in E2. destruct E2 as (u1 & _ & E2). apply bind_inv in E2. destruct E2 as (s & _ & E2). apply bind_inv in E2. destruct E2 as (u2 & _ & E2).
    apply bind_inv in E2. destruct E2 as (x & Ex & E2). rewrite (rel_pow_ok _ _ _ _ Ex). destruct (x =? 1); cbn [andb].
    - apply bind_inv in E2. destruct E2 as (y & Ey & E2). rewrite (rel_pow_ok _ _ _ _ Ey). apply val_inj in E2. symmetry. exact E2.
    - apply val_inj in E2. symmetry. exact E2.
  Qed.
  Lemma rel_root_none n cands : supports_ntt isp p n = Val true -> canonical p cands ->
    (exists w, primitive_root_loop isp m n ((p - 1) / (2 * n)) cands = Val w) \/
    (primitive_root_loop isp m n ((p - 1) / (2 * n)) cands = Panic /\ rel_primitive_root m n ((p - 1) / (2 * n)) cands = 0).
  Proof.
    intros Es Hc. pose proof (proj1 (valid_fields m Hm)) as Hp.
    destruct (supports_ntt_inv isp p _ Hp Es) as (K & HK & EK & Emod & Eisp).
    assert (Hn : 8 <= n) by (rewrite EK; change 8 with (2 ^ 3); apply Z.pow_le_mono_r; lia).
    pose proof (mod_1_ge p (2 * n) ltac:(lia) ltac:(lia) Emod) as Hnp.
    assert (Hlam : 0 <= (p - 1) / (2 * n) < p). { split; [apply Z.div_pos; lia|]. apply Z.div_lt_upper_bound; nia. }
    set (lam := (p - 1) / (2 * n)) in *. clearbody lam.
    induction Hc as [|c cs Hc Hcs IH]; [right; split; reflexivity|]. cbn [primitive_root_loop rel_primitive_root].
    pose proof (zq_pow_spec m c lam Hm Hc Hlam) as E1. rewrite E1, (rel_pow_ok _ _ _ _ E1). cbn [bind].
    pose proof (Z.mod_pos_bound (c ^ lam) p ltac:(lia)) as Hr. set (r := c ^ lam mod p) in *. clearbody r.
    unfold is_primitive_root, rel_is_primitive_root. rewrite bind_guard by (apply Z.ltb_lt; lia).
    replace (Z.shiftr (2 * n) 1) with n. 2: { rewrite Z.shiftr_div_pow2 by lia. change (2 ^ 1) with 2. rewrite Z.mul_comm, Z.div_mul by lia. reflexivity. }
    rewrite Es. cbn [bind]. rewrite bind_guard by reflexivity.
    pose proof (zq_pow_spec m r (2 * n) Hm ltac:(lia) ltac:(lia)) as E2. rewrite E2, (rel_pow_ok _ _ _ _ E2). cbn [bind].
    pose proof (zq_pow_spec m r (2 * n / 2) Hm ltac:(lia) ltac:(split; [apply Z.div_pos; lia|apply Z.div_lt_upper_bound; lia])) as E3. rewrite (rel_pow_ok _ _ _ _ E3).
    destruct (_ =? 1); cbn [andb bind]; [|exact IH]. rewrite E3. cbn [bind]. destruct (negb _); [left; eexists; reflexivity|exact IH].
  Qed.
  (** With a root at hand the debug build constructs an operator; the proof of [ntt_new_total] from there on. *)
  Lemma new_with_root cands size w : canonical p cands -> supports_ntt isp p (Z.of_nat size) = Val true ->
    primitive_root_loop isp m (Z.of_nat size) ((p - 1) / (2 * Z.of_nat size)) cands = Val w ->
    exists op, ntt_new isp cands m size = Val (Some op) /\ rel_ntt_new isp cands m size = Val (Some op).
  Proof.
    intros Hc Es Ew. unfold ntt_new, rel_ntt_new. pose proof (proj1 (valid_fields m Hm)) as Hp. assert (HW : W62 * 4 = W64) by reflexivity.
    destruct (supports_ntt_inv isp p _ Hp Es) as (K & HK & EK & Emod & Eisp).
    assert (Hprime : prime p) by (apply (Hisp p); [unfold is_u64; lia|exact Eisp]).
    rewrite Es. cbn [bind negb].
    assert (Esize : size = (2 ^ K)%nat) by (apply Nat2Z.inj; rewrite nat_pow2_Z; exact EK).
    assert (Hn : 8 <= Z.of_nat size) by (rewrite EK; change 8 with (2 ^ 3); apply Z.pow_le_mono_r; lia).
    pose proof (mod_1_ge p (2 * Z.of_nat size) ltac:(lia) ltac:(lia) Emod) as Hnp.
    destruct (zq_inv_some isp m (Z.of_nat size) Hisp Hm Hprime ltac:(lia)) as (si & Esi & Hsi & Hsi1). rewrite Esi, (rel_inv_ok _ _ _ _ Esi). cbn [bind].
    assert (Hlam : 0 <= (p - 1) / (2 * Z.of_nat size) < p).
    { split; [apply Z.div_pos; lia|]. apply Z.div_lt_upper_bound; nia. }
    destruct (primitive_root_loop_inv isp m (Z.of_nat size) _ cands w Hm Hprime Hc ltac:(lia) Hlam Ew) as (Hw & Hwn).
    unfold primitive_root. rewrite Es. cbn [bind]. rewrite bind_guard by reflexivity. rewrite Ew, (rel_root_ok _ _ _ _ Ew). cbn [bind].
    assert (Hw0 : w <> 0).
    { intros ->. rewrite Z.pow_0_l in Hwn by lia. apply cong_divide in Hwn; [|lia]. apply Z.divide_pos_le in Hwn; lia. }
    destruct (zq_inv_some isp m w Hisp Hm Hprime ltac:(lia)) as (wi & Ewi & Hwi & Hwi1). rewrite Ewi, (rel_inv_ok _ _ _ _ Ewi). cbn [bind].
    pose proof (successive_spec m w Hm Hw size 1 ltac:(lia)) as S1. rewrite S1, (rel_successive_ok _ _ _ _ _ S1). cbn [bind].
    pose proof (successive_spec m wi Hm ltac:(lia) size wi ltac:(lia)) as S2. rewrite S2, (rel_successive_ok _ _ _ _ _ S2). cbn [bind]. clear S1 S2.
    rewrite EK, Esize. rewrite !mapM_get_bitrev by lia. cbn [bind].
    match goal with |- context [shoup_vec m (map ?f ?l)] => assert (C1 : canonical p (map f l)) by (unfold canonical; rewrite Forall_map, Forall_forall; intros; apply Z.mod_pos_bound; lia) end.
    assert (Pos : forall l, canonical p l -> Forall (fun x => 0 <= x) l) by (intros l; apply Forall_impl; intros; lia).
    pose proof (shoup_vec_spec m Hm _ C1) as V1. rewrite V1, (rel_shoup_vec_ok _ _ _ (Pos _ C1) V1). cbn [bind].
    match goal with |- context [shoup_vec m (map ?f ?l)] => assert (C2 : canonical p (map f l)) by (unfold canonical; rewrite Forall_map, Forall_forall; intros; apply Z.mod_pos_bound; lia) end.
    pose proof (shoup_vec_spec m Hm _ C2) as V2. rewrite V2, (rel_shoup_vec_ok _ _ _ (Pos _ C2) V2). cbn [bind].
    unfold chk64. rewrite bind_chk by lia. pose proof (proj1 (shoup_spec m Hm si ltac:(lia))) as V3. rewrite V3, (rel_shoup_ok m si _ ltac:(lia) V3). cbn [bind]. eexists. split; [reflexivity|].
    rewrite w64_id by (unfold is_u64; lia). reflexivity.
  Qed.
  Lemma rel_new_cases cands size : canonical p cands ->
    match ntt_new isp cands m size with
    | Val o => rel_ntt_new isp cands m size = Val o
    | Err e => False
    | Panic => supports_ntt isp p (Z.of_nat size) = Panic /\ rel_ntt_new isp cands m size = Panic \/
               supports_ntt isp p (Z.of_nat size) = Val true /\ rel_ntt_new isp cands m size = Val None
    end.
  Proof.
    intros Hc. destruct (supports_ntt isp p (Z.of_nat size)) as [[|]|e|] eqn:Es.
    - destruct (rel_root_none _ cands Es Hc) as [(w & Ew)|(Ep & E0)].
      + destruct (new_with_root cands size w Hc Es Ew) as (op & -> & E). exact E.
      + pose proof (proj1 (valid_fields m Hm)) as Hp. assert (HW : W62 * 4 = W64) by reflexivity.
        destruct (supports_ntt_inv isp p _ Hp Es) as (K & HK & EK & Emod & Eisp).
        assert (Hprime : prime p) by (apply (Hisp p); [unfold is_u64; lia|exact Eisp]).
        assert (Hn : 8 <= Z.of_nat size) by (rewrite EK; change 8 with (2 ^ 3); apply Z.pow_le_mono_r; lia).
        pose proof (mod_1_ge p (2 * Z.of_nat size) ltac:(lia) ltac:(lia) Emod) as Hnp.
        destruct (zq_inv_some isp m (Z.of_nat size) Hisp Hm Hprime ltac:(lia)) as (si & Esi & Hsi & Hsi1).
        unfold ntt_new, rel_ntt_new. rewrite Es. cbn [bind negb]. rewrite Esi, (rel_inv_ok _ _ _ _ Esi). cbn [bind].
        unfold primitive_root. rewrite Es. cbn [bind]. rewrite bind_guard by reflexivity. rewrite Ep. cbn [bind].
        right. split; [reflexivity|]. rewrite E0. unfold rel_inv. rewrite Z.eqb_refl, orb_true_r. reflexivity.
    - unfold ntt_new, rel_ntt_new. rewrite Es. reflexivity.
    - exfalso. unfold supports_ntt, guard in Es. destruct ((8 <=? Z.of_nat size) && is_power_of_two (Z.of_nat size)); cbn [bind] in Es; [|discriminate].
      cbv zeta in Es. destruct (negb _); cbn [bind] in Es; discriminate.
    - unfold ntt_new, rel_ntt_new. rewrite Es. cbn [bind]. left. split; reflexivity.
  Qed.
End New.

Theorem new_all : forall isp, prime_oracle isp -> forall p m, modulus_new p = Val m -> forall cands, canonical p cands -> forall n,
  match ntt_new isp cands m n with
  | Val o => rel_ntt_new isp cands m n = Val o
  | Err e => False
  | Panic => supports_ntt isp p (Z.of_nat n) = Panic /\ rel_ntt_new isp cands m n = Panic \/
             supports_ntt isp p (Z.of_nat n) = Val true /\ rel_ntt_new isp cands m n = Val None
  end.
Proof. intros isp Hi p m E cands Hc n. destruct (modulus_new_valid _ _ E) as (Hm & Ep). subst p. exact (rel_new_cases isp Hi m Hm cands n Hc). Qed.

(** * Transforms *)
Theorem rel_agree_all : forall op a r,
  (ntt_forward op a = Val r -> rel_forward op a = Val r) /\ (ntt_forward_vt_lazy op a = Val r -> rel_forward_vt_lazy op a = Val r) /\
  (ntt_forward_vt op a = Val r -> rel_forward_vt op a = Val r) /\ (ntt_backward op a = Val r -> rel_backward op a = Val r) /\
  (ntt_backward_vt op a = Val r -> rel_backward_vt op a = Val r).
Proof.
  intros op a r. split; [apply rel_forward_ok|]. split; [apply rel_forward_vt_lazy_ok|]. split; [apply rel_forward_vt_ok|]. split; [apply rel_backward_ok|apply rel_backward_vt_ok].
Qed.
Section Transforms.
  Context (isp : Z -> bool) (Hisp : prime_oracle isp) (p : Z) (m : modulus) (Em : modulus_new p = Val m) (cands : list Z) (Hc : canonical p cands).
  Context (n : nat) (op : ntt_op) (En : ntt_new isp cands m n = Val (Some op)).
  Set Default Proof Using "All".
  Local Lemma op_ok : exists K w, ntt_ok op K w /\ mod_p (nt_p op) = p /\ nt_size op = n.
  Proof.
    destruct (modulus_new_valid _ _ Em) as (Hm & Ep). assert (Hc' : canonical (mod_p m) cands) by (rewrite <- Ep; exact Hc).
    destruct (ntt_new_ok isp Hisp m Hm cands n op Hc' En) as (K & w & Hok & Emm & EN). exists K, w. split; [exact Hok|]. split; congruence.
  Qed.
  Lemma rel_forward_all a : length a = n -> Forall is_u64 a ->
    exists b, ntt_forward op (map (fun x => x mod p) a) = Val b /\
      forall r, rel_forward op a = Val r \/ rel_forward_vt_lazy op a = Val r \/ rel_forward_vt op a = Val r -> map (fun x => x mod p) r = b.
  Proof.
    intros Ha Hu. destruct op_ok as (K & w & Hok & Ep & Es).
    assert (Lb : length (map (fun x => x mod p) a) = nt_size op) by (rewrite map_length; congruence).
    pose proof (p_bounds op K w Hok) as Hp. rewrite Ep in Hp.
    assert (Hb : below (4 * mod_p (nt_p op)) (map (fun x => x mod p) a)).
    { apply Forall_map, Forall_forall. intros x _. pose proof (Z.mod_pos_bound x p ltac:(lia)). rewrite Ep. lia. }
    assert (EN : NTT op (map (fun x => x mod p) a) = NTT op a). { apply NTT_cong. rewrite Ep. apply lcong_map_mod. }
    exists (NTT op a). split; [rewrite (forward_NTT op K w Hok _ Lb Hb), EN; reflexivity|].
    destruct (rel_forward_spec op K w Hok a ltac:(congruence) Hu) as (r1 & E1 & N1 & _). rewrite Ep in N1.
    destruct (rel_forward_vt_lazy_spec op K w Hok a ltac:(congruence) Hu) as (r2 & E2 & N2 & _). rewrite Ep in N2.
    destruct (rel_forward_vt_spec op K w Hok a ltac:(congruence) Hu) as (r3 & E3 & N3 & _). rewrite Ep in N3.
    intros r [E|[E|E]]; [rewrite E1 in E|rewrite E2 in E|rewrite E3 in E]; apply val_inj in E; subst r; assumption.
  Qed.
  Lemma rel_total_all a : length a = n -> Forall is_u64 a ->
    Forall (fun r => exists b, r = Val b /\ length b = n /\ Forall is_u64 b) [rel_forward op a; rel_forward_vt_lazy op a; rel_forward_vt op a] /\
    Forall (fun r => exists b, r = Val b /\ length b = n /\ canonical p b) [rel_backward op a; rel_backward_vt op a].
  Proof.
    intros Ha Hu. destruct op_ok as (K & w & Hok & Ep & Es).
    destruct (rel_forward_spec op K w Hok a ltac:(congruence) Hu) as (r1 & E1 & _ & B1 & L1).
    destruct (rel_forward_vt_lazy_spec op K w Hok a ltac:(congruence) Hu) as (r2 & E2 & _ & B2 & L2).
    destruct (rel_forward_vt_spec op K w Hok a ltac:(congruence) Hu) as (r3 & E3 & _ & B3 & L3).
    destruct (rel_backward_any op K w Hok a ltac:(congruence) Hu) as (r4 & E4 & L4 & C4). rewrite Ep in C4.
    destruct (rel_backward_vt_any op K w Hok a ltac:(congruence) Hu) as (r5 & E5 & L5 & C5). rewrite Ep in C5.
    split; repeat (constructor; [eexists; split; [eassumption|]; split; [congruence|assumption]|]); constructor.
  Qed.
  Lemma backward_residues a : length a = n -> ntt_backward op (map (fun x => x mod p) a) = Val (INTT op a).
  Proof.
    intros Ha. destruct op_ok as (K & w & Hok & Ep & Es). pose proof (p_bounds op K w Hok) as Hp. rewrite Ep in Hp.
    rewrite (backward_INTT op K w Hok); [|rewrite map_length; congruence|apply Forall_map, Forall_forall; intros x _; pose proof (Z.mod_pos_bound x p ltac:(lia)); rewrite Ep; lia].
    f_equal. apply INTT_cong. rewrite Ep. apply lcong_map_mod.
  Qed.
  Lemma rel_backward_all a : length a = n -> small_pairs p a ->
    (rel_backward op a = ntt_backward op (map (fun x => x mod p) (shifted p a)) /\ rel_backward_vt op a = rel_backward op a) /\
    (rel_backward op a = ntt_backward op (map (fun x => x mod p) a) <-> no_wrap p a).
  Proof.
    intros Ha Hs. destruct op_ok as (K & w & Hok & Ep & Es). rewrite <- Ep in Hs. rewrite !backward_residues by (rewrite ?shifted_length; exact Ha).
    rewrite (rel_backward_spec op K w Hok a ltac:(congruence) Hs), (rel_backward_vt_spec op K w Hok a ltac:(congruence) Hs). rewrite Ep. split; [split; reflexivity|].
    pose proof (backward_right op K w Hok a ltac:(congruence)) as H. rewrite Ep in H. rewrite <- H. split; [apply val_inj|intros ->; reflexivity].
  Qed.
End Transforms.

(** * Slots *)
Lemma chunk_is par vt v l c : encode_u64_chunk vt v (mkEnc EncSimd l) par c = bind (slot_coefficients vt v par) (fun b => bind (pb_from_u64 c b vt) pb_into_ntt).
Proof.
  unfold encode_u64_chunk, slot_coefficients. cbn [e_kind]. destruct (place_slots _ _ _); [|reflexivity|reflexivity]. cbn [bind]. destruct (pa_ntt par); reflexivity.
Qed.
Lemma rel_slots_ok par vt v r : slot_coefficients vt v par = Val r -> rel_slot_coefficients vt v par = Val r.
Proof.
  unfold slot_coefficients, rel_slot_coefficients. intros E. apply bind_inv in E. destruct E as (w & Ew & E). rewrite Ew. cbn [bind].
  apply bind_inv in E. destruct E as (op & Eo & E). rewrite Eo. cbn [bind]. destruct vt; [apply rel_backward_vt_ok|apply rel_backward_ok]; exact E.
Qed.
Lemma rel_encode_ok par vt v l c r : encode_u64_chunk vt v (mkEnc EncSimd l) par c = Val r -> rel_encode_slots vt v par c = Val r.
Proof.
  rewrite chunk_is. intros E. apply bind_inv in E. destruct E as (b & Eb & E). unfold rel_encode_slots. rewrite (rel_slots_ok _ _ _ _ Eb). exact E.
Qed.
Lemma nth_firstn_nat (l : list nat) : forall n k, (k < n)%nat -> nth k (firstn n l) O = nth k l O.
Proof. induction l as [|x l IH]; intros [|n] [|k] H; cbn [firstn nth]; try lia; try reflexivity. apply IH. lia. Qed.
Section Slots.
  Context (isp : Z -> bool) (cands : Z -> list Z) (Ho : oracles isp cands) (par : params) (Hp : is_params isp cands par) (Hn : pa_ntt par <> None).
  Notation N := (pa_degree par).
  Notation t := (pa_t par).
  Set Default Proof Using "All".
  Local Lemma slots_op : exists op K w, pa_ntt par = Some op /\ ntt_ok op K w /\ mod_p (nt_p op) = t /\ nt_size op = N.
  Proof.
    pose proof (params_good _ _ par Ho Hp) as G.
    destruct (pa_ntt par) as [op|] eqn:Eop; [|contradiction]. destruct (ntt_facts isp cands par G op Eop) as (mm & Es & Em & En). destruct Ho as (H1 & H2).
    destruct (modulus_new_valid _ _ Em) as (Hmm & Et). assert (Ct : canonical (mod_p mm) (cands t)) by (rewrite <- Et; apply H2).
    destruct (ntt_new_ok isp H1 mm Hmm (cands t) N op Ct En) as (K & w & Hok & Emm & EN). exists op, K, w. split; [reflexivity|]. split; [exact Hok|]. split; congruence.
  Qed.
  Lemma order_exists v : (length v <= N)%nat -> exists w, place_slots (pa_index par) v (repeat 0 N) = Val w /\ in_order par v w /\ (Forall is_u64 v -> Forall is_u64 w).
  Proof.
    intros Lv. pose proof (params_good _ _ par Ho Hp) as G. destruct (index_facts isp cands par G) as (Li & Hnd & Hlt).
    destruct (place_slots_spec (pa_index par) v (repeat 0 N)) as (w & Ew & Lw & Hw & Hwo & HP); [exact Hnd|rewrite repeat_length; exact Hlt|lia|]. rewrite repeat_length in Lw.
    exists w. split; [exact Ew|]. split; [split; [exact Lw|]|].
    - intros i Hi. destruct (Nat.lt_ge_cases i (length v)) as [H|H].
      + rewrite Hw by exact H. unfold pad. rewrite app_nth1 by exact H. reflexivity.
      + unfold pad. rewrite app_nth2 by exact H. rewrite Hwo. 2: { intros Hin. apply (In_nth _ _ O) in Hin. destruct Hin as (k & Hk & E). rewrite firstn_length in Hk.
          rewrite nth_firstn_nat in E by lia. apply (proj1 (NoDup_nth _ O)) in E; [lia|exact Hnd|lia|lia]. }
        rewrite !nth_repeat. reflexivity.
    - intros Hu. apply HP; [exact Hu|]. apply Forall_forall. intros x Hx. apply repeat_spec in Hx. subst x. unfold is_u64. split; [lia|reflexivity].
  Qed.
  Lemma order_unique v w w' : in_order par v w -> in_order par v w' -> w = w'.
  Proof.
    pose proof (params_good _ _ par Ho Hp) as G. destruct (index_facts isp cands par G) as (Li & Hnd & Hlt).
    intros (L & H) (L' & H'). apply list_ext_Z; [congruence|]. intros k Hk. rewrite L in Hk.
    assert (Hin : In k (pa_index par)).
    { assert (Hi : incl (seq 0 N) (pa_index par)); [|apply Hi; apply in_seq; lia]. apply NoDup_length_incl; [exact Hnd|rewrite seq_length; lia|].
      intros x Hx. rewrite Forall_forall in Hlt. specialize (Hlt x Hx). apply in_seq. lia. }
    apply (In_nth _ _ O) in Hin. destruct Hin as (i & Hi & <-). rewrite H, H' by lia. reflexivity.
  Qed.
  Lemma rel_slots_total vt v : (length v <= N)%nat -> Forall is_u64 v -> exists b, rel_slot_coefficients vt v par = Val b /\ length b = N /\ canonical t b.
  Proof.
    intros Lv Hv. destruct slots_op as (op & K & w0 & Eop & Hok & Et & En). destruct (order_exists v Lv) as (w & Ew & (Lw & _) & Hw). specialize (Hw Hv).
    unfold rel_slot_coefficients. rewrite Ew. cbn [bind]. rewrite Eop. cbn [ok_or bind]. rewrite <- Et, <- En. destruct vt.
    - apply (rel_backward_vt_any op K w0 Hok); [congruence|exact Hw].
    - apply (rel_backward_any op K w0 Hok); [congruence|exact Hw].
  Qed.
  Lemma debug_slots vt s w : (length s <= N)%nat -> in_order par s w -> Forall (fun a => 0 <= a < t) w -> forall op K w0, pa_ntt par = Some op -> ntt_ok op K w0 -> mod_p (nt_p op) = t -> nt_size op = N ->
    slot_coefficients vt s par = Val (INTT op w).
  Proof.
    intros Ls Hs Hw op K w0 Eop Hok Et En. destruct (order_exists s Ls) as (w' & Ew & Ho' & _). rewrite (order_unique _ _ _ Ho' Hs) in Ew.
    unfold slot_coefficients. rewrite Ew. cbn [bind]. rewrite Eop. cbn [ok_or bind].
    destruct (bwd_cases op K w0 Hok vt w) as (_ & H2); [rewrite En; apply Hs|eapply Forall_impl; [|exact Hw]; cbv beta; intros; lia|].
    unfold bwd in H2. apply H2. rewrite Et. eapply Forall_impl; [|exact Hw]. cbv beta. intros. lia.
  Qed.
  Lemma rel_slots_shifted vt v w s : (length v <= N)%nat -> in_order par v w -> small_pairs t w ->
    length s = N -> (forall i, (i < N)%nat -> nth i s 0 = nth (nth i (pa_index par) O) (shifted t w) 0 mod t) ->
    rel_slot_coefficients vt v par = slot_coefficients vt s par /\
    (rel_slot_coefficients vt v par = slot_coefficients vt (map (fun a => a mod t) v) par <-> no_wrap t w).
  Proof.
    intros Lv Hv Hs Ls Es. destruct slots_op as (op & K & w0 & Eop & Hok & Et & En). pose proof (params_good _ _ par Ho Hp) as G. pose proof (gp_t _ _ _ G) as Ht.
    destruct (index_facts isp cands par G) as (Li & Hnd & Hlt).
    destruct (order_exists v Lv) as (w' & Ew & Ho' & _). rewrite (order_unique _ _ _ Ho' Hv) in Ew. clear w' Ho'. pose proof (proj1 Hv) as Lw.
    assert (HR : rel_slot_coefficients vt v par = Val (INTT op (shifted t w))).
    { unfold rel_slot_coefficients. rewrite Ew. cbn [bind]. rewrite Eop. cbn [ok_or bind]. rewrite <- Et. destruct vt; [apply (rel_backward_vt_spec op K w0 Hok)|apply (rel_backward_spec op K w0 Hok)]; rewrite ?Et; congruence. }
    assert (Hmod : forall l, Forall (fun a => 0 <= a < t) (map (fun a => a mod t) l)) by (intros l; apply Forall_map, Forall_forall; intros a _; apply Z.mod_pos_bound; lia).
    assert (Hlen : length (shifted t w) = N) by (rewrite shifted_length; exact Lw).
    assert (Hi : forall i, (i < N)%nat -> (nth i (pa_index par) O < N)%nat) by (intros i Hi; rewrite Forall_forall in Hlt; apply Hlt, nth_In; lia).
    assert (nth_mod : forall l k, nth k (map (fun a => a mod t) l) 0 = nth k l 0 mod t). { intros l k. rewrite <- (map_nth (fun a => a mod t)). rewrite Zmod_0_l. reflexivity. }
    assert (D1 : slot_coefficients vt s par = Val (INTT op (shifted t w))).
    { rewrite (debug_slots vt s (map (fun a => a mod t) (shifted t w)) ltac:(lia)) with (K := K) (w0 := w0) (op := op); try assumption; [|split; [rewrite map_length; exact Hlen|]|apply Hmod].
      - f_equal. apply INTT_cong. rewrite Et. apply lcong_map_mod.
      - intros i Hlti. rewrite nth_mod, <- Es by exact Hlti. unfold pad. rewrite Ls, Nat.sub_diag. cbn [repeat]. rewrite app_nil_r. reflexivity. }
    split; [congruence|].
    assert (D2 : slot_coefficients vt (map (fun a => a mod t) v) par = Val (INTT op w)).
    { rewrite (debug_slots vt (map (fun a => a mod t) v) (map (fun a => a mod t) w)) with (K := K) (w0 := w0) (op := op); try assumption; [|rewrite map_length; exact Lv|split; [rewrite map_length; exact Lw|]|apply Hmod].
      - f_equal. apply INTT_cong. rewrite Et. apply lcong_map_mod.
      - intros i Hlti. rewrite nth_mod, (proj2 Hv) by exact Hlti. unfold pad. rewrite map_length. rewrite <- nth_mod, map_app. f_equal. f_equal.
        rewrite map_repeat, Zmod_0_l. reflexivity. }
    rewrite HR, D2. pose proof (backward_right op K w0 Hok w ltac:(congruence)) as H. rewrite Et in H. rewrite <- H. split; [apply val_inj|intros ->; reflexivity].
  Qed.
End Slots.
Theorem slots_all : forall isp cands, oracles isp cands -> forall par, is_params isp cands par -> pa_ntt par <> None -> forall vt v,
  (forall l c, encode_u64_chunk vt v (mkEnc EncSimd l) par c = bind (slot_coefficients vt v par) (fun b => bind (pb_from_u64 c b vt) pb_into_ntt)) /\
  (forall l c r, encode_u64_chunk vt v (mkEnc EncSimd l) par c = Val r -> rel_encode_slots vt v par c = Val r) /\
  (forall b, slot_coefficients vt v par = Val b -> rel_slot_coefficients vt v par = Val b) /\
  ((length v <= pa_degree par)%nat -> Forall is_u64 v -> exists b, rel_slot_coefficients vt v par = Val b /\ length b = pa_degree par /\ canonical (pa_t par) b).
Proof.
  intros isp cands Ho par Hp Hn vt v. split; [intros; apply chunk_is|]. split; [intros l c r; apply rel_encode_ok|]. split; [intros b; apply rel_slots_ok|]. intros Lv Hv. exact (rel_slots_total isp cands Ho par Hp Hn vt v Lv Hv).
Qed.
Theorem slots_shifted_all : forall isp cands, oracles isp cands -> forall par, is_params isp cands par -> pa_ntt par <> None -> forall vt v w s,
  (length v <= pa_degree par)%nat -> in_order par v w -> small_pairs (pa_t par) w ->
  length s = pa_degree par -> (forall i, (i < pa_degree par)%nat -> nth i s 0 = nth (nth i (pa_index par) O) (shifted (pa_t par) w) 0 mod pa_t par) ->
  rel_slot_coefficients vt v par = slot_coefficients vt s par /\
  (rel_slot_coefficients vt v par = slot_coefficients vt (map (fun a => a mod pa_t par) v) par <-> no_wrap (pa_t par) w).
Proof. intros isp cands Ho par Hp Hn. exact (rel_slots_shifted isp cands Ho par Hp Hn). Qed.
