(** Proofs about the model of zq/mod.rs. *)
From Verif Require Import Outcome OutcomeLemmas ZqModel.

(** Moduli produced by [Modulus::new]. *)
Definition valid_modulus (m : modulus) : Prop := exists p, modulus_new p = Val m.

Lemma shiftr_div a n : 0 <= n -> Z.shiftr a n = a / 2 ^ n.
Proof. intros; apply Z.shiftr_div_pow2; assumption. Qed.

Lemma modulus_new_ok p : 2 <= p < W62 ->
  modulus_new p =
  Val (mkModulus p (W128 / p / W64) (W128 / p mod W64) (leading_zeros64 p) (supports_opt p)).
Proof.
  intros Hp. unfold modulus_new.
  rewrite shiftr_div by lia. change (2 ^ 62) with W62.
  rewrite Z.div_small by lia. destruct (Z.ltb_spec p 2); [lia|]. cbn [negb orb Z.eqb].
  change (Z.shiftl 1 128) with W128.
  assert (W128 / p <= W128 / 2) by (apply Z.div_le_compat_l; lia).
  change (W128 / 2) with W127 in *.
  assert (0 <= W128 / p) by (apply Z.div_pos; lia).
  unfold chk128. rewrite bind_chk by lia.
  rewrite shiftr_div by lia. change (2 ^ 64) with W64.
  rewrite (Z.mod_small (W128 / p / W64)); [reflexivity|].
  split; [apply Z.div_pos; lia|]. apply Z.div_lt_upper_bound; lia.
Qed.

Lemma modulus_new_inv p m : modulus_new p = Val m -> 2 <= p < W62.
Proof.
  unfold modulus_new. destruct (Z.ltb_spec p 2); cbn [orb]; [discriminate|].
  destruct (Z.eqb_spec (Z.shiftr p 62) 0) as [E|E]; cbn [negb]; [|discriminate]. intros _.
  rewrite shiftr_div in E by lia. change (2 ^ 62) with W62 in E.
  split; [assumption|]. destruct (Z.lt_ge_cases p W62); [assumption|].
  assert (1 <= p / W62) by (apply Z.div_le_lower_bound; lia). lia.
Qed.

Lemma modulus_new_err p : 0 <= p -> ~ (2 <= p < W62) -> modulus_new p = Err (InvalidModulus p).
Proof.
  intros Hp H. unfold modulus_new. destruct (Z.ltb_spec p 2); [reflexivity|].
  destruct (Z.eqb_spec (Z.shiftr p 62) 0) as [E|E]; [|reflexivity].
  rewrite shiftr_div in E by lia. change (2 ^ 62) with W62 in E.
  assert (1 <= p / W62) by (apply Z.div_le_lower_bound; lia). lia.
Qed.

Lemma valid_fields m : valid_modulus m ->
  2 <= mod_p m < W62 /\
  barrett_hi m = W128 / mod_p m / W64 /\ barrett_lo m = W128 / mod_p m mod W64 /\
  mod_lz m = leading_zeros64 (mod_p m) /\ mod_opt m = supports_opt (mod_p m).
Proof.
  intros [p E]. assert (Hp := modulus_new_inv _ _ E). rewrite (modulus_new_ok p Hp) in E.
  injection E as <-. cbn. repeat split; lia.
Qed.

(** Barrett fields: [B = 2^128 / p = hi * 2^64 + lo], with [hi + lo < 2^64]. *)
Lemma barrett_bounds p : 2 <= p < W62 ->
  let B := W128 / p in
  B = (B / W64) * W64 + B mod W64 /\
  0 <= B / W64 <= W63 /\ 0 <= B mod W64 < W64 /\ B / W64 + B mod W64 < W64 /\
  p * B <= W128 < p * B + p.
Proof.
  intros Hp B.
  assert (HB : W128 = p * B + W128 mod p) by (apply Z.div_mod; lia).
  assert (Hr := Z.mod_pos_bound W128 p ltac:(lia)).
  assert (HB2 : B = W64 * (B / W64) + B mod W64) by (apply Z.div_mod; lia).
  assert (Hr2 := Z.mod_pos_bound B W64 ltac:(lia)).
  assert (0 <= B / W64) by (apply Z.div_pos; [apply Z.div_pos|]; lia).
  set (h := B / W64) in *. set (l := B mod W64) in *.
  assert (h <= W63) by nia.
  (* h = floor (2^64 / p) *)
  assert (Hh : p * h <= W64 < p * h + p).
  { split; [|]; nia. }
  repeat split; try lia. nia.
Qed.

(** The common core of Barrett and Shoup reductions. *)
Lemma quotient_core N b p a :
  0 < p -> 0 < N -> 0 <= b -> 0 <= a <= N ->
  0 <= a * b - (a * (N * b / p) / N) * p < 2 * p.
Proof.
  intros Hp HN Hb Ha.
  set (V := N * b / p).
  assert (HV : N * b = p * V + (N * b) mod p) by (apply Z.div_mod; lia).
  assert (Hr := Z.mod_pos_bound (N * b) p Hp).
  assert (0 <= V) by (apply Z.div_pos; nia).
  set (q := a * V / N).
  assert (Hq : a * V = N * q + (a * V) mod N) by (apply Z.div_mod; lia).
  assert (Hs := Z.mod_pos_bound (a * V) N HN).
  set (r := (N * b) mod p) in *. set (s := (a * V) mod N) in *.
  (* N * (a b - q p) = a (pV + r) - p (aV - s) = a r + p s *)
  assert (E : N * (a * b - q * p) = a * r + p * s) by nia.
  assert (a * r + p * s < N * (2 * p)) by nia.
  assert (0 <= a * r + p * s) by nia.
  nia.
Qed.

Lemma quotient_core_strict N b p a :
  0 < p -> 0 < N -> 0 <= b -> 0 <= a < N ->
  0 <= a * b - (a * (N * b / p) / N) * p < 2 * p.
Proof. intros; apply quotient_core; lia. Qed.

Lemma lazy_ok_mod r a p : 0 < p -> (exists q, r = a - q * p) -> r mod p = a mod p.
Proof.
  intros Hp [q ->]. replace (a - q * p) with (a + (- q) * p) by lia. apply Z_mod_plus_full.
Qed.

(** [lazy_reduce_u128]: never panics on a u128, result congruent and below 2p. *)
Lemma lazy_reduce_u128_spec m a : valid_modulus m -> is_u128 a ->
  exists r, lazy_reduce_u128 m a = Val r /\ 0 <= r < 2 * mod_p m /\ r mod mod_p m = a mod mod_p m.
Proof.
  intros Hm Ha. destruct (valid_fields m Hm) as (Hp & Ehi & Elo & _ & _).
  destruct (barrett_bounds _ Hp) as (HB & Hhi & Hlo & Hsum & HpB).
  rewrite <- Ehi, <- Elo in *. set (p := mod_p m) in *. set (B := W128 / p) in *.
  set (hi := barrett_hi m) in *. set (lo := barrett_lo m) in *. unfold is_u128 in Ha.
  assert (Hcore := quotient_core W128 1 p a ltac:(lia) ltac:(lia) ltac:(lia) ltac:(lia)).
  rewrite !Z.mul_1_r in Hcore. fold B in Hcore.
  set (q0 := a * B / W128) in *.
  unfold lazy_reduce_u128. fold p hi lo.
  rewrite !shiftr_div by lia. change (2 ^ 64) with W64.
  assert (Hal := Z.mod_pos_bound a W64 ltac:(lia)).
  assert (Hah : 0 <= a / W64 < W64) by (split; [apply Z.div_pos|apply Z.div_lt_upper_bound]; lia).
  rewrite (Z.mod_small (a / W64)) by lia.
  assert (Ea : a = W64 * (a / W64) + a mod W64) by (apply Z.div_mod; lia).
  set (al := a mod W64) in *. set (ah := a / W64) in *.
  unfold chk128.
  rewrite bind_chk by nia.
  rewrite bind_chk by nia.
  rewrite bind_chk by nia.
  assert (0 <= al * hi + ah * lo <= (W64 - 1) * (W64 - 1)) by nia.
  rewrite bind_chk by nia.
  assert (Hll : 0 <= al * lo / W64 < W64)
    by (split; [apply Z.div_pos; nia|apply Z.div_lt_upper_bound; nia]).
  rewrite shiftr_div by lia. change (2 ^ 64) with W64.
  rewrite bind_chk by nia.
  rewrite bind_chk by nia.
  rewrite shiftr_div by lia. change (2 ^ 64) with W64.
  (* the quotient is exactly a * B / 2^128 *)
  assert (Eq : (al * hi + ah * lo + al * lo / W64) / W64 + ah * hi = q0).
  { unfold q0. rewrite HB. clear Hcore.
    replace (a * (hi * W64 + lo)) with (al * lo + ((al * hi + ah * lo) + (ah * hi) * W64) * W64) by (rewrite Ea; ring).
    change W128 with (W64 * W64). rewrite <- Z.div_div by lia.
    rewrite Z.div_add by lia.
    replace (al * lo / W64 + (al * hi + ah * lo + ah * hi * W64))
      with ((al * hi + ah * lo + al * lo / W64) + (ah * hi) * W64) by ring.
    rewrite Z.div_add by lia. reflexivity. }
  rewrite Eq.
  assert (Hq0 : 0 <= q0) by (apply Z.div_pos; nia).
  assert (q0 * p <= a) by nia.
  rewrite bind_chk by nia.
  rewrite bind_chk by nia.
  rewrite bind_chk by nia.
  set (r := a - q0 * p) in *.
  rewrite (Z.mod_small r W64) by lia.
  assert (Emod : r mod p = a mod p) by (apply lazy_ok_mod; [lia|exists q0; reflexivity]).
  rewrite bind_guard by (apply Z.ltb_lt; lia).
  rewrite bind_guard.
  2:{ apply Z.eqb_eq. rewrite Emod. symmetry. apply Z.mod_small.
      assert (H1 := Z.mod_pos_bound a p ltac:(lia)). lia. }
  exists r. split; [reflexivity|]. split; [lia|exact Emod].
Qed.

Lemma lazy_reduce_spec m a : valid_modulus m -> is_u64 a ->
  exists r, lazy_reduce m a = Val r /\ 0 <= r < 2 * mod_p m /\ r mod mod_p m = a mod mod_p m.
Proof.
  intros Hm Ha. destruct (valid_fields m Hm) as (Hp & Ehi & Elo & _ & _).
  destruct (barrett_bounds _ Hp) as (HB & Hhi & Hlo & Hsum & HpB).
  rewrite <- Ehi, <- Elo in *. set (p := mod_p m) in *. set (B := W128 / p) in *.
  set (hi := barrett_hi m) in *. set (lo := barrett_lo m) in *. unfold is_u64 in Ha.
  assert (Hcore := quotient_core W128 1 p a ltac:(lia) ltac:(lia) ltac:(lia) ltac:(lia)).
  rewrite !Z.mul_1_r in Hcore. fold B in Hcore.
  set (q0 := a * B / W128) in *.
  unfold lazy_reduce. fold p hi lo. unfold chk128.
  rewrite bind_chk by nia. rewrite bind_chk by nia.
  rewrite !shiftr_div by lia. change (2 ^ 64) with W64.
  assert (Hll : 0 <= a * lo / W64 < W64)
    by (split; [apply Z.div_pos; nia|apply Z.div_lt_upper_bound; nia]).
  rewrite bind_chk by nia.
  assert (Eq : (a * hi + a * lo / W64) / W64 = q0).
  { unfold q0. rewrite HB. replace (a * (hi * W64 + lo)) with (a * lo + (a * hi) * W64) by ring.
    change W128 with (W64 * W64). rewrite <- Z.div_div by lia. rewrite Z.div_add by lia. f_equal; ring. }
  rewrite ?shiftr_div by lia. change (2 ^ 64) with W64. rewrite Eq.
  assert (Hq0 : 0 <= q0) by (apply Z.div_pos; nia).
  assert (q0 * p <= a) by nia.
  rewrite bind_chk by nia. rewrite bind_chk by nia.
  set (r := a - q0 * p) in *.
  rewrite (Z.mod_small r W64) by lia.
  assert (Emod : r mod p = a mod p) by (apply lazy_ok_mod; [lia|exists q0; reflexivity]).
  rewrite bind_guard by (apply Z.ltb_lt; lia).
  rewrite bind_guard by (apply Z.eqb_eq; exact Emod).
  exists r. split; [reflexivity|]. split; [lia|exact Emod].
Qed.

(** [const_time_cond_select] *)
Lemma cond_select_spec t f c : is_u64 t -> is_u64 f -> const_time_cond_select t f c = if c then t else f.
Proof.
  unfold is_u64, const_time_cond_select. intros Ht Hf. destruct c.
  - assert (Hx : 0 <= Z.lxor t f < 2 ^ 64).
    { split; [rewrite Z.lxor_nonneg; lia|].
      destruct (Z.eq_dec (Z.lxor t f) 0) as [->|]; [lia|].
      apply Z.log2_lt_pow2; [assert (0 <= Z.lxor t f) by (rewrite Z.lxor_nonneg; lia); lia|].
      eapply Z.le_lt_trans; [apply Z.log2_lxor; lia|].
      apply Z.max_lub_lt.
      - destruct (Z.eq_dec t 0) as [->|]; [cbn; lia|]. apply Z.log2_lt_pow2; lia.
      - destruct (Z.eq_dec f 0) as [->|]; [cbn; lia|]. apply Z.log2_lt_pow2; lia. }
    change (W64 - 1) with (Z.ones 64). rewrite Z.land_ones by lia.
    rewrite Z.mod_small by exact Hx.
    rewrite Z.lxor_assoc, Z.lxor_nilpotent, Z.lxor_0_r. reflexivity.
  - rewrite Z.land_0_r, Z.lxor_0_l. reflexivity.
Qed.

Lemma reduce1_spec x p : 0 < p < W62 * 2 -> 0 <= x < 2 * p -> reduce1 x p = Val (x mod p).
Proof.
  intros Hp Hx. unfold reduce1.
  rewrite shiftr_div by lia. change (2 ^ 63) with W63. rewrite Z.div_small by lia.
  rewrite bind_guard by reflexivity.
  unfold chk64. rewrite bind_chk by lia. rewrite bind_guard by (apply Z.ltb_lt; lia).
  assert (Er : const_time_cond_select x ((x - p) mod W64) (x <? p) = x mod p).
  { rewrite cond_select_spec; [| unfold is_u64; lia | apply Z.mod_pos_bound; lia].
    destruct (Z.ltb_spec x p).
    - symmetry; apply Z.mod_small; lia.
    - rewrite Z.mod_small by lia.
      replace x with ((x - p) + 1 * p) at 2 by lia. rewrite Z_mod_plus_full, Z.mod_small; lia. }
  rewrite Er. rewrite bind_guard; [reflexivity|].
  rewrite Z.eqb_refl. destruct (Z.eqb_spec p 0); [lia|reflexivity].
Qed.

Lemma reduce1_vt_spec x p : 0 < p < W62 * 2 -> 0 <= x < 2 * p -> reduce1_vt x p = Val (x mod p).
Proof.
  intros Hp Hx. unfold reduce1_vt.
  rewrite shiftr_div by lia. change (2 ^ 63) with W63. rewrite Z.div_small by lia.
  rewrite bind_guard by reflexivity.
  unfold chk64. rewrite bind_chk by lia. rewrite bind_guard by (apply Z.ltb_lt; lia).
  destruct (Z.leb_spec p x).
  - rewrite chk_val by lia. f_equal.
    replace x with ((x - p) + 1 * p) at 2 by lia. rewrite Z_mod_plus_full, Z.mod_small; lia.
  - rewrite Z.mod_small by lia. reflexivity.
Qed.

(** Both [cfg] variants of [reduce1_vt] coincide, panics included. *)
Lemma reduce1_vt_eq x p : is_u64 x -> 0 <= p < W64 -> p <> 0 -> reduce1_vt x p = reduce1 x p.
Proof.
  intros Hx Hp Hp0. destruct (Z.lt_ge_cases p W63) as [H63|H63].
  - destruct (Z.lt_ge_cases x (2 * p)).
    + unfold is_u64 in Hx. rewrite reduce1_spec, reduce1_vt_spec by lia. reflexivity.
    + unfold reduce1, reduce1_vt. destruct (guard _); cbn [bind]; try reflexivity.
      unfold chk64. rewrite !chk_val by lia. cbn [bind].
      destruct (Z.ltb_spec x (2 * p)); [lia|]. reflexivity.
  - unfold reduce1, reduce1_vt. rewrite shiftr_div by lia. change (2 ^ 63) with W63.
    replace (p / W63) with 1; [reflexivity|]. apply Z.div_unique with (p - W63); lia.
Qed.

Lemma shift62 p : p < W62 -> p < W62 * 2.
Proof. lia. Qed.

Lemma reduce_u128_spec m a : valid_modulus m -> is_u128 a -> reduce_u128 m a = Val (a mod mod_p m).
Proof.
  intros Hm Ha. unfold reduce_u128. destruct (lazy_reduce_u128_spec m a Hm Ha) as (r & -> & Hr & E).
  destruct (valid_fields m Hm) as (Hp & _). cbn [bind]. rewrite reduce1_spec by lia. congruence.
Qed.

Lemma reduce_u128_vt_spec m a : valid_modulus m -> is_u128 a -> reduce_u128_vt m a = Val (a mod mod_p m).
Proof.
  intros Hm Ha. unfold reduce_u128_vt. destruct (lazy_reduce_u128_spec m a Hm Ha) as (r & -> & Hr & E).
  destruct (valid_fields m Hm) as (Hp & _). cbn [bind]. rewrite reduce1_vt_spec by lia. congruence.
Qed.

Lemma reduce_spec m a : valid_modulus m -> is_u64 a -> reduce m a = Val (a mod mod_p m).
Proof.
  intros Hm Ha. unfold reduce. destruct (lazy_reduce_spec m a Hm Ha) as (r & -> & Hr & E).
  destruct (valid_fields m Hm) as (Hp & _). cbn [bind]. rewrite reduce1_spec by lia. congruence.
Qed.

Lemma reduce_vt_spec m a : valid_modulus m -> is_u64 a -> reduce_vt m a = Val (a mod mod_p m).
Proof.
  intros Hm Ha. unfold reduce_vt. destruct (lazy_reduce_spec m a Hm Ha) as (r & -> & Hr & E).
  destruct (valid_fields m Hm) as (Hp & _). cbn [bind]. rewrite reduce1_vt_spec by lia. congruence.
Qed.

(** Scalar operations *)
Section Scalar.
  Context (m : modulus) (Hm : valid_modulus m).
  Let p := mod_p m.

  Local Lemma Hp : 2 <= p < W62.
  Proof. exact (proj1 (valid_fields m Hm)). Qed.

  Lemma zq_add_spec a b : 0 <= a < p -> 0 <= b < p -> zq_add m a b = Val ((a + b) mod p).
  Proof.
    intros Ha Hb. pose proof Hp. unfold zq_add. fold p.
    rewrite bind_guard by (rewrite andb_true_iff, !Z.ltb_lt; lia).
    unfold chk64. rewrite bind_chk by lia. apply reduce1_spec; lia.
  Qed.

  Lemma zq_add_vt_spec a b : 0 <= a < p -> 0 <= b < p -> zq_add_vt m a b = Val ((a + b) mod p).
  Proof.
    intros Ha Hb. pose proof Hp. unfold zq_add_vt. fold p.
    rewrite bind_guard by (rewrite andb_true_iff, !Z.ltb_lt; lia).
    unfold chk64. rewrite bind_chk by lia. apply reduce1_vt_spec; lia.
  Qed.

  Lemma sub_mod a b : (a + p - b) mod p = (a - b) mod p.
  Proof. replace (a + p - b) with ((a - b) + 1 * p) by lia. apply Z_mod_plus_full. Qed.

  Lemma zq_sub_spec a b : 0 <= a < p -> 0 <= b < p -> zq_sub m a b = Val ((a - b) mod p).
  Proof.
    intros Ha Hb. pose proof Hp. unfold zq_sub. fold p.
    rewrite bind_guard by (rewrite andb_true_iff, !Z.ltb_lt; lia).
    unfold chk64. rewrite !bind_chk by lia. rewrite reduce1_spec by lia.
    rewrite sub_mod. reflexivity.
  Qed.

  Lemma zq_neg_spec a : 0 <= a < p -> zq_neg m a = Val ((- a) mod p).
  Proof.
    intros Ha. pose proof Hp. unfold zq_neg. fold p.
    rewrite bind_guard by (rewrite Z.ltb_lt; lia).
    unfold chk64. rewrite bind_chk by lia. rewrite reduce1_spec by lia.
    replace (p - a) with ((- a) + 1 * p) by lia. rewrite Z_mod_plus_full. reflexivity.
  Qed.

  Lemma zq_neg_vt_spec a : 0 <= a < p -> zq_neg_vt m a = Val ((- a) mod p).
  Proof.
    intros Ha. pose proof Hp. unfold zq_neg_vt. fold p.
    rewrite bind_guard by (rewrite Z.ltb_lt; lia).
    unfold chk64. rewrite bind_chk by lia. rewrite reduce1_vt_spec by lia.
    replace (p - a) with ((- a) + 1 * p) by lia. rewrite Z_mod_plus_full. reflexivity.
  Qed.

  Lemma mul_bound a b : 0 <= a < p -> 0 <= b < p -> 0 <= a * b < W128.
  Proof. pose proof Hp. intros; nia. Qed.

  Lemma zq_mul_spec a b : 0 <= a < p -> 0 <= b < p -> zq_mul m a b = Val ((a * b) mod p).
  Proof.
    intros Ha Hb. pose proof (mul_bound a b Ha Hb). unfold zq_mul. fold p.
    rewrite bind_guard by (rewrite andb_true_iff, !Z.ltb_lt; lia).
    unfold chk128. rewrite bind_chk by lia. apply reduce_u128_spec; assumption.
  Qed.

  Lemma zq_mul_vt_spec a b : 0 <= a < p -> 0 <= b < p -> zq_mul_vt m a b = Val ((a * b) mod p).
  Proof.
    intros Ha Hb. pose proof (mul_bound a b Ha Hb). unfold zq_mul_vt. fold p.
    rewrite bind_guard by (rewrite andb_true_iff, !Z.ltb_lt; lia).
    unfold chk128. rewrite bind_chk by lia. apply reduce_u128_vt_spec; assumption.
  Qed.

  (** signed reduction *)
  Lemma i64_arg a : is_i64 a -> let s := Z.shiftl p 64 + a in - W127 <= s < W127 /\ s mod W128 = s /\ is_u128 s /\ s mod p = a mod p.
  Proof.
    intros Ha s. pose proof Hp. unfold is_i64 in Ha.
    assert (Es : s = p * W64 + a) by (unfold s; rewrite Z.shiftl_mul_pow2 by lia; reflexivity).
    assert (0 <= s < W127) by lia. unfold is_u128.
    split; [lia|]. split; [apply Z.mod_small; lia|]. split; [lia|].
    rewrite Es. replace (p * W64 + a) with (a + W64 * p) by ring. apply Z_mod_plus_full.
  Qed.

  Lemma reduce_i64_spec a : is_i64 a -> reduce_i64 m a = Val (a mod p).
  Proof.
    intros Ha. destruct (i64_arg a Ha) as (H1 & H2 & H3 & H4). unfold reduce_i64. fold p.
    unfold chki128. rewrite bind_chk by exact H1. rewrite H2, reduce_u128_spec by assumption.
    fold p. rewrite H4. reflexivity.
  Qed.

  Lemma reduce_i64_vt_spec a : is_i64 a -> reduce_i64_vt m a = Val (a mod p).
  Proof.
    intros Ha. destruct (i64_arg a Ha) as (H1 & H2 & H3 & H4). unfold reduce_i64_vt. fold p.
    unfold chki128. rewrite bind_chk by exact H1. rewrite H2, reduce_u128_vt_spec by assumption.
    fold p. rewrite H4. reflexivity.
  Qed.

  (** Shoup *)
  Definition shoup_of (b : Z) : Z := b * W64 / p.

  Lemma shoup_spec b : 0 <= b < p -> shoup m b = Val (shoup_of b) /\ 0 <= shoup_of b < W64.
  Proof.
    intros Hb. pose proof Hp. unfold shoup, shoup_of. fold p.
    rewrite bind_guard by (rewrite Z.ltb_lt; lia).
    rewrite Z.shiftl_mul_pow2 by lia. change (2 ^ 64) with W64.
    rewrite (Z.mod_small (b * W64)) by lia.
    assert (0 <= b * W64 / p < W64) by (split; [apply Z.div_pos|apply Z.div_lt_upper_bound]; nia).
    rewrite Z.mod_small by lia. split; [reflexivity|lia].
  Qed.

  Lemma lazy_mul_shoup_spec a b : is_u64 a -> 0 <= b < p ->
    exists r, lazy_mul_shoup m a b (shoup_of b) = Val r /\ 0 <= r < 2 * p /\ r mod p = (a * b) mod p.
  Proof.
    intros Ha Hb. pose proof Hp. destruct (shoup_spec b Hb) as (Es & Hs). unfold is_u64 in Ha.
    unfold lazy_mul_shoup. fold p.
    rewrite bind_guard by (rewrite Z.ltb_lt; lia).
    rewrite Es. cbn [bind]. rewrite bind_guard by apply Z.eqb_refl.
    assert (Hcore := quotient_core W64 b p a ltac:(lia) ltac:(lia) ltac:(lia) ltac:(lia)).
    rewrite (Z.mul_comm W64 b) in Hcore. fold (shoup_of b) in Hcore.
    unfold chk128. rewrite bind_chk by nia. rewrite shiftr_div by lia. change (2 ^ 64) with W64.
    set (q := a * shoup_of b / W64) in *.
    assert (0 <= q) by (apply Z.div_pos; nia).
    rewrite bind_chk by nia. rewrite bind_chk by nia. rewrite bind_chk by nia.
    unfold chk64. rewrite bind_chk by lia.
    rewrite (Z.mod_small (a * b - q * p)) by lia.
    rewrite bind_guard by (rewrite Z.ltb_lt; lia).
    eexists; split; [reflexivity|]. split; [lia|].
    apply lazy_ok_mod; [lia|exists q; reflexivity].
  Qed.

  Lemma mul_shoup_spec a b : is_u64 a -> 0 <= b < p -> mul_shoup m a b (shoup_of b) = Val ((a * b) mod p).
  Proof.
    intros Ha Hb. pose proof Hp. unfold mul_shoup.
    destruct (lazy_mul_shoup_spec a b Ha Hb) as (r & -> & Hr & E). cbn [bind]. fold p.
    rewrite reduce1_spec by lia. congruence.
  Qed.

  Lemma mul_shoup_vt_spec a b : is_u64 a -> 0 <= b < p -> mul_shoup_vt m a b (shoup_of b) = Val ((a * b) mod p).
  Proof.
    intros Ha Hb. pose proof Hp. unfold mul_shoup_vt.
    destruct (lazy_mul_shoup_spec a b Ha Hb) as (r & -> & Hr & E). cbn [bind]. fold p.
    rewrite reduce1_vt_spec by lia. congruence.
  Qed.

  (** centering *)
  Lemma center_spec a : 0 <= a < p -> center m a = Val (if p / 2 <=? a then a - p else a).
  Proof.
    intros Ha. pose proof Hp. unfold center. fold p.
    rewrite bind_guard by (rewrite Z.ltb_lt; lia). f_equal.
    rewrite shiftr_div by lia. change (2 ^ 1) with 2.
    assert (Hw := Z.mod_pos_bound (a - p) W64 ltac:(lia)).
    rewrite cond_select_spec by (unfold is_u64; lia).
    unfold to_i64. destruct (Z.leb_spec (p / 2) a).
    - rewrite Z.mod_mod by lia.
      assert (E : (a - p) mod W64 = a - p + W64).
      { replace (a - p) with ((a - p + W64) + (-1) * W64) at 1 by lia.
        rewrite Z_mod_plus_full. apply Z.mod_small. lia. }
      rewrite E. destruct (Z.ltb_spec (a - p + W64) W63); lia.
    - rewrite Z.mod_small by lia. destruct (Z.ltb_spec a W63); lia.
  Qed.
End Scalar.

(** Optimised (NFLlib) reduction *)
Lemma lz_bounds p : 2 <= p < W62 ->
  let s := leading_zeros64 p in 2 <= s <= 62 /\ 2 ^ (63 - s) <= p < 2 ^ (64 - s).
Proof.
  intros Hp s. unfold s, leading_zeros64, nbits. destruct (Z.leb_spec p 0); [lia|].
  assert (Hlog := Z.log2_spec p ltac:(lia)).
  assert (1 <= Z.log2 p) by (change 1 with (Z.log2 2); apply Z.log2_le_mono; lia).
  assert (Z.log2 p < 62) by (apply Z.log2_lt_pow2; [lia|change (2^62) with W62; lia]).
  replace (63 - (64 - (Z.log2 p + 1))) with (Z.log2 p) by lia.
  replace (64 - (64 - (Z.log2 p + 1))) with (Z.succ (Z.log2 p)) by lia. lia.
Qed.

Lemma supports_opt_ineq p : 2 <= p < W62 -> supports_opt p = true ->
  exists k, k = 2 ^ leading_zeros64 p /\ 4 <= k <= W62 /\ W63 <= p * k < W64 /\
            (k * k * k + 1) * W64 < k * k * k * (k + 1) * p.
Proof.
  intros Hp H. destruct (lz_bounds p Hp) as (Hs & Hb). set (s := leading_zeros64 p) in *.
  exists (2 ^ s). split; [reflexivity|].
  assert (2 ^ 2 <= 2 ^ s) by (apply Z.pow_le_mono_r; lia).
  assert (2 ^ s <= 2 ^ 62) by (apply Z.pow_le_mono_r; lia).
  change (2 ^ 2) with 4 in *. change (2 ^ 62) with W62 in *.
  split; [lia|].
  assert (E1 : 2 ^ (64 - s) * 2 ^ s = W64) by (rewrite <- Z.pow_add_r by lia; replace (64 - s + s) with 64 by lia; reflexivity).
  assert (E2 : 2 ^ (63 - s) * 2 ^ s = W63) by (rewrite <- Z.pow_add_r by lia; replace (63 - s + s) with 63 by lia; reflexivity).
  split; [nia|].
  unfold supports_opt in H. fold s in H. destruct (Z.ltb_spec s 1); [lia|].
  apply Z.ltb_lt in H. rewrite !Z.shiftl_mul_pow2 in H by lia. rewrite !Z.mul_1_l in H.
  replace (3 * s) with (s + s + s) in H by lia. rewrite !Z.pow_add_r in H by lia.
  exact H.
Qed.

Lemma opt_barrett p : 2 <= p < W62 -> supports_opt p = true ->
  let k := 2 ^ leading_zeros64 p in
  let B := W128 / p in
  B / W64 = k /\ p * (k * W64 + B mod W64) <= W128 /\
  (B mod W64) * (k * k - k + 1) < W64 * (k * k - k).
Proof.
  intros Hp H k B. destruct (supports_opt_ineq p Hp H) as (k' & Ek & Hk & Hpk & Hin).
  fold k in Ek. subst k'.
  destruct (barrett_bounds p Hp) as (HB & Hhi & Hlo & Hsum & HpB). fold B in HB, Hhi, Hlo, Hsum, HpB.
  set (hi := B / W64) in *. set (lo := B mod W64) in *.
  (* divide the inequality by k+1: k^3+1 = (k+1)(k^2-k+1) *)
  set (c := k * k - k + 1) in *.
  assert (Hc : 0 < c) by (unfold c; clear -Hk; nia).
  assert (Hin2 : c * W64 < k * k * k * p).
  { apply (Z.mul_lt_mono_pos_l (k + 1)); [lia|].
    replace ((k + 1) * (c * W64)) with ((k * k * k + 1) * W64) by (unfold c; ring).
    replace ((k + 1) * (k * k * k * p)) with (k * k * k * (k + 1) * p) by ring. exact Hin. }
  assert (Hk1 : W64 < (k + 1) * p).
  { apply (Z.mul_lt_mono_pos_l c); [lia|].
    replace (c * ((k + 1) * p)) with (k * k * k * p + p) by (unfold c; ring). lia. }
  assert (Ehi : hi = k).
  { assert (k <= hi).
    { apply Z.nlt_ge. intros Hlt. assert (B <= k * W64 - 1) by lia.
      assert (p * B <= p * (k * W64 - 1)) by (apply Z.mul_le_mono_nonneg_l; lia).
      replace (p * (k * W64 - 1)) with (p * k * W64 - p) in * by ring. lia. }
    assert (hi < k + 1); [|lia].
    { apply Z.nle_gt. intros Hge. assert ((k + 1) * W64 <= B) by lia.
      assert (p * ((k + 1) * W64) <= p * B) by (apply Z.mul_le_mono_nonneg_l; lia).
      replace (p * ((k + 1) * W64)) with ((k + 1) * p * W64) in * by ring. lia. } }
  split; [exact Ehi|]. rewrite Ehi in *. rewrite <- HB. split; [lia|].
  assert (Hpl : p * lo <= W64 * (W64 - p * k)).
  { rewrite HB in HpB. replace (p * (k * W64 + lo)) with (p * k * W64 + p * lo) in HpB by ring. lia. }
  destruct (Z.eq_dec lo 0) as [->|Hlo0].
  { rewrite Z.mul_0_l. assert (0 < k * k - k) by (clear -Hk; nia). lia. }
  assert (A1 : lo * (c * W64) < lo * (k * k * k * p)) by (apply Z.mul_lt_mono_pos_l; lia).
  assert (A2 : lo * (k * k * k * p) <= k * k * k * (W64 * (W64 - p * k))).
  { replace (lo * (k * k * k * p)) with (k * k * k * (p * lo)) by ring.
    apply Z.mul_le_mono_nonneg_l; [|exact Hpl]. apply Z.mul_nonneg_nonneg; [apply Z.mul_nonneg_nonneg|]; lia. }
  assert (A3 : lo * c < k * k * k * (W64 - p * k)).
  { apply (Z.mul_lt_mono_pos_r W64); [lia|].
    replace (lo * c * W64) with (lo * (c * W64)) by ring.
    replace (k * k * k * (W64 - p * k) * W64) with (k * k * k * (W64 * (W64 - p * k))) by ring. lia. }
  assert (A4 : k * (c * W64) < k * (k * k * k * p)) by (apply Z.mul_lt_mono_pos_l; lia).
  replace (k * k * k * (W64 - p * k)) with (k * k * k * W64 - k * (k * k * k * p)) in A3 by ring.
  replace (W64 * (k * k - k)) with (k * k * k * W64 - k * (c * W64)) by (unfold c; ring). lia.
Qed.

Lemma lazy_reduce_opt_u128_spec m a : valid_modulus m -> mod_opt m = true ->
  0 <= a < mod_p m * mod_p m ->
  exists r, lazy_reduce_opt_u128 m a = Val r /\ 0 <= r < 2 * mod_p m /\ r mod mod_p m = a mod mod_p m.
Proof.
  intros Hm Hopt Ha. destruct (valid_fields m Hm) as (Hp & Ehi & Elo & Elz & Eopt).
  rewrite Eopt in Hopt. destruct (opt_barrett _ Hp Hopt) as (Hhi & HpB & Hlo).
  destruct (supports_opt_ineq _ Hp Hopt) as (k & Ek & Hk & Hpk & _).
  destruct (barrett_bounds _ Hp) as (_ & _ & Hlob & _ & HpB2).
  rewrite <- Ek in *. rewrite <- Elo in *. clear Ehi.
  destruct (lz_bounds _ Hp) as (Hs & _).
  set (p := mod_p m) in *. set (lo := barrett_lo m) in *.
  unfold lazy_reduce_opt_u128. fold p lo.
  unfold chk128. assert (p * p < W62 * W62) by nia. rewrite bind_chk by lia.
  rewrite bind_guard by (apply Z.ltb_lt; lia).
  rewrite shiftr_div by lia. change (2 ^ 64) with W64.
  rewrite Z.shiftl_mul_pow2 by lia. rewrite Elz, <- Ek.
  (* a * k < 2^128 / k *)
  assert (Hak : a * (k * k) < W128).
  { apply Z.le_lt_trans with ((p * k) * (p * k)).
    - replace (p * k * (p * k)) with (p * p * (k * k)) by ring.
      apply Z.mul_le_mono_nonneg_r; [apply Z.mul_nonneg_nonneg; lia|lia].
    - change W128 with (W64 * W64). apply Z.mul_lt_mono_nonneg; lia. }
  assert (Hak1 : 0 <= a * k) by (apply Z.mul_nonneg_nonneg; lia).
  assert (Hak2 : a * k * 4 <= a * (k * k)).
  { replace (a * (k * k)) with (a * k * k) by ring. apply Z.mul_le_mono_nonneg_l; lia. }
  rewrite (Z.mod_small (a * k)) by lia.
  assert (Ea : a = W64 * (a / W64) + a mod W64) by (apply Z.div_mod; lia).
  assert (Hal := Z.mod_pos_bound a W64 ltac:(lia)).
  assert (Hah : 0 <= a / W64) by (apply Z.div_pos; lia).
  set (ah := a / W64) in *. set (al := a mod W64) in *.
  assert (Hahk : ah < W62) by lia.
  assert (0 <= lo * ah <= W64 * ah) by (split; [apply Z.mul_nonneg_nonneg; lia|apply Z.mul_le_mono_nonneg_r; lia]).
  rewrite bind_chk by lia.
  rewrite bind_chk by lia.
  rewrite shiftr_div by lia. change (2 ^ 64) with W64.
  set (T := lo * ah + a * k).
  assert (HT : T = W64 * (T / W64) + T mod W64) by (apply Z.div_mod; lia).
  assert (HTm := Z.mod_pos_bound T W64 ltac:(lia)).
  assert (0 <= T) by (unfold T; lia).
  assert (Hq : 0 <= T / W64) by (apply Z.div_pos; lia).
  set (q := T / W64) in *. set (tm := T mod W64) in *.
  (* W128 * (a - q p) = ... *)
  assert (EB : W128 / p = k * W64 + lo).
  { rewrite <- Hhi, Elo. rewrite (Z.div_mod (W128 / p) W64) at 1 by lia. lia. }
  rewrite EB in HpB2. set (B := k * W64 + lo) in *.
  (* q * W64 * W64 = (lo*ah + a*k - tm) * W64 = a*B - lo*al - tm*W64 *)
  assert (EqB : q * W128 = a * B - lo * al - tm * W64).
  { unfold B. assert (E0 : q * W64 = lo * ah + a * k - tm) by (unfold T in HT; lia).
    replace (q * W128) with (q * W64 * W64) by ring. rewrite E0.
    replace (a * (k * W64 + lo)) with (a * k * W64 + lo * a) by ring.
    rewrite Ea at 3. ring. }
  assert (Hlal : 0 <= lo * al <= lo * W64) by (split; [apply Z.mul_nonneg_nonneg; lia|apply Z.mul_le_mono_nonneg_l; lia]).
  assert (E1 : W128 * (a - q * p) = a * (W128 - p * B) + p * (lo * al) + p * (tm * W64)).
  { replace (W128 * (a - q * p)) with (W128 * a - (q * W128) * p) by ring. rewrite EqB. ring. }
  assert (B1 : 0 <= a * (W128 - p * B) <= a * p) by (split; [apply Z.mul_nonneg_nonneg|apply Z.mul_le_mono_nonneg_l]; lia).
  assert (B2 : 0 <= p * (lo * al) <= p * (lo * W64)) by (split; [apply Z.mul_nonneg_nonneg|apply Z.mul_le_mono_nonneg_l]; lia).
  assert (Hp0 : 0 < p) by lia. assert (Htm : 0 <= tm * W64 < W128) by lia.
  assert (B3 : 0 <= p * (tm * W64) < p * W128) by (clear -Hp0 Htm; split; [apply Z.mul_nonneg_nonneg|apply Z.mul_lt_mono_pos_l]; lia).
  assert (Hlow : 0 <= a - q * p) by (clear -E1 B1 B2 B3; lia).
  assert (Hup : a - q * p < 2 * p).
  { assert (B4 : a + lo * W64 <= W128).
    { set (c := k * k - k + 1) in *. assert (0 < c) by (unfold c; clear -Hk; nia).
      apply (Z.mul_le_mono_pos_r _ _ c); [lia|].
      assert (a * c <= a * (k * k)) by (apply Z.mul_le_mono_nonneg_l; unfold c; lia).
      replace ((a + lo * W64) * c) with (a * c + lo * c * W64) by ring.
      assert (lo * c <= W64 * (k * k - k)) by lia.
      replace (W128 * c) with (W128 + W64 * (k * k - k) * W64) by (unfold c; ring). lia. }
    assert (B5 : p * (a + lo * W64) <= p * W128) by (apply Z.mul_le_mono_nonneg_l; lia).
    replace (p * (a + lo * W64)) with (a * p + p * (lo * W64)) in B5 by ring. clear -B1 B2 B3 B5 E1. lia. }
  assert (Hqp0 : 0 <= q * p) by (apply Z.mul_nonneg_nonneg; lia).
  assert (Hpp : p * p < W128) by lia.
  clear - Hp Ha Hup Hlow Hqp0 Hpp Hm Elo.
  rewrite bind_chk by lia. rewrite bind_chk by lia.
  rewrite (Z.mod_small (a - q * p)) by lia.
  assert (Emod : (a - q * p) mod p = a mod p) by (apply lazy_ok_mod; [lia|exists q; reflexivity]).
  rewrite bind_guard by (apply Z.ltb_lt; lia).
  rewrite bind_guard.
  2:{ apply Z.eqb_eq. rewrite Emod. symmetry. apply Z.mod_small.
      assert (H3 := Z.mod_pos_bound a p ltac:(lia)). lia. }
  eexists; split; [reflexivity|]. split; [lia|exact Emod].
Qed.

Lemma lazy_reduce_opt_spec m a : valid_modulus m -> mod_opt m = true -> is_u64 a ->
  exists r, lazy_reduce_opt m a = Val r /\ 0 <= r < 2 * mod_p m /\ r mod mod_p m = a mod mod_p m.
Proof.
  intros Hm Hopt Ha. destruct (valid_fields m Hm) as (Hp & Ehi & Elo & Elz & Eopt).
  rewrite Eopt in Hopt.
  destruct (supports_opt_ineq _ Hp Hopt) as (k & Ek & Hk & Hpk & Hin).
  destruct (lz_bounds _ Hp) as (Hs & _).
  set (p := mod_p m) in *. unfold is_u64 in Ha.
  assert (Hk1 : W64 < (k + 1) * p).
  { set (c := k * k - k + 1) in *. assert (0 < c) by (unfold c; clear -Hk; nia).
    apply (Z.mul_lt_mono_pos_l ((k + 1) * c)); [apply Z.mul_pos_pos; lia|].
    replace ((k + 1) * c * W64) with ((k * k * k + 1) * W64) by (unfold c; ring).
    replace ((k + 1) * c * ((k + 1) * p)) with (k * k * k * (k + 1) * p + (k + 1) * p) by (unfold c; ring).
    assert (0 < (k + 1) * p) by (apply Z.mul_pos_pos; lia). lia. }
  unfold lazy_reduce_opt. fold p. rewrite Elz.
  rewrite shiftr_div by lia.
  assert (E : 2 ^ (64 - leading_zeros64 p) * k = W64).
  { rewrite Ek. rewrite <- Z.pow_add_r by lia. replace (64 - _ + _) with 64 by lia. reflexivity. }
  set (D := 2 ^ (64 - leading_zeros64 p)) in *. assert (0 < D) by (apply Z.pow_pos_nonneg; lia).
  assert (Hq : 0 <= a / D) by (apply Z.div_pos; lia).
  assert (Ea : a = D * (a / D) + a mod D) by (apply Z.div_mod; lia).
  assert (Har := Z.mod_pos_bound a D ltac:(lia)).
  set (q := a / D) in *. set (t := a mod D) in *.
  assert (p < D) by (apply (Z.mul_lt_mono_pos_r k); lia).
  assert (Hqk : q < k).
  { apply (Z.mul_lt_mono_pos_l D); lia. }
  assert (Hlow0 : 0 <= q * p <= D * q).
  { split; [apply Z.mul_nonneg_nonneg; lia|]. rewrite (Z.mul_comm D). apply Z.mul_le_mono_nonneg_l; lia. }
  assert (Hlow : q * p <= a) by lia.
  assert (Hup : a - q * p < 2 * p).
  { apply (Z.mul_lt_mono_pos_l k); [lia|].
    assert (k * t < k * D) by (apply Z.mul_lt_mono_pos_l; lia).
    assert (Eka : k * (a - q * p) = q * (W64 - p * k) + k * t).
    { rewrite Ea at 1. rewrite <- E. ring. }
    assert (q * (W64 - p * k) <= (k - 1) * (W64 - p * k)) by (apply Z.mul_le_mono_nonneg_r; lia).
    assert ((k - 1) * (W64 - p * k) <= (k - 1) * (p - 1)) by (apply Z.mul_le_mono_nonneg_l; lia).
    rewrite Eka. replace (k * (2 * p)) with (p * k + k * p) by ring. 
    replace ((k - 1) * (p - 1)) with (k * p - k - p + 1) in * by ring. lia. }
  unfold chk128. rewrite bind_chk by lia. rewrite bind_chk by lia.
  rewrite (Z.mod_small (a - q * p)) by lia.
  assert (Emod : (a - q * p) mod p = a mod p) by (apply lazy_ok_mod; [lia|exists q; reflexivity]).
  rewrite bind_guard by (apply Z.ltb_lt; lia).
  rewrite bind_guard by (apply Z.eqb_eq; exact Emod).
  eexists; split; [reflexivity|]. split; [lia|exact Emod].
Qed.

Lemma reduce_opt_u128_spec m a : valid_modulus m -> mod_opt m = true ->
  0 <= a < mod_p m * mod_p m -> reduce_opt_u128 m a = Val (a mod mod_p m).
Proof.
  intros Hm Ho Ha. unfold reduce_opt_u128. rewrite Ho. cbn [guard bind].
  destruct (lazy_reduce_opt_u128_spec m a Hm Ho Ha) as (r & -> & Hr & E).
  destruct (valid_fields m Hm) as (Hp & _). cbn [bind]. rewrite reduce1_spec by lia. congruence.
Qed.

Lemma reduce_opt_u128_vt_spec m a : valid_modulus m -> mod_opt m = true ->
  0 <= a < mod_p m * mod_p m -> reduce_opt_u128_vt m a = Val (a mod mod_p m).
Proof.
  intros Hm Ho Ha. unfold reduce_opt_u128_vt. rewrite Ho. cbn [guard bind].
  destruct (lazy_reduce_opt_u128_spec m a Hm Ho Ha) as (r & -> & Hr & E).
  destruct (valid_fields m Hm) as (Hp & _). cbn [bind]. rewrite reduce1_vt_spec by lia. congruence.
Qed.

Lemma reduce_opt_spec m a : valid_modulus m -> mod_opt m = true -> is_u64 a ->
  reduce_opt m a = Val (a mod mod_p m) /\ reduce_opt_vt m a = Val (a mod mod_p m).
Proof.
  intros Hm Ho Ha. unfold reduce_opt, reduce_opt_vt.
  destruct (lazy_reduce_opt_spec m a Hm Ho Ha) as (r & -> & Hr & E).
  destruct (valid_fields m Hm) as (Hp & _). cbn [bind].
  rewrite reduce1_spec, reduce1_vt_spec by lia. split; congruence.
Qed.

Lemma zq_mul_opt_spec m a b : valid_modulus m -> mod_opt m = true ->
  0 <= a < mod_p m -> 0 <= b < mod_p m ->
  zq_mul_opt m a b = Val ((a * b) mod mod_p m) /\ zq_mul_opt_vt m a b = Val ((a * b) mod mod_p m).
Proof.
  intros Hm Ho Ha Hb. pose proof (mul_bound m Hm a b Ha Hb). unfold zq_mul_opt, zq_mul_opt_vt.
  rewrite !Ho. rewrite !(bind_guard true) by reflexivity.
  rewrite !bind_guard by (rewrite andb_true_iff, !Z.ltb_lt; lia).
  unfold chk128. rewrite !bind_chk by lia.
  rewrite reduce_opt_u128_spec, reduce_opt_u128_vt_spec by (try assumption; nia). tauto.
Qed.


Lemma canonical_map_mod p l : 0 < p -> canonical p (map (fun x => x mod p) l).
Proof. intros Hp. apply Forall_map, Forall_forall. intros x _. apply Z.mod_pos_bound, Hp. Qed.

Lemma canonical_zipWith_mod {A B} p (f : A -> B -> Z) l l' :
  0 < p -> canonical p (zipWith (fun a b => f a b mod p) l l').
Proof.
  intros Hp. revert l'; induction l as [|a t IH]; destruct l'; cbn; constructor.
  - apply Z.mod_pos_bound, Hp.
  - apply IH.
Qed.

Lemma same_length_true {A B} (a : list A) (b : list B) : length a = length b -> same_length a b = true.
Proof. intros E. unfold same_length. apply Nat.eqb_eq. exact E. Qed.

Lemma chunked_upd_val (P Q : Z -> Prop) f g a b :
  (forall x y, P x -> Q y -> f x y = Val (g x y)) ->
  Forall P a -> Forall Q b -> length a = length b ->
  chunked_upd f a b = Val (zipWith g a b).
Proof.
  intros Hf Ha Hb Hl. unfold chunked_upd, as_chunks. rewrite <- Hl.
  set (n := (length a / 16)%nat).
  destruct (chunks_n n 16 a) as [ac ar] eqn:Ea. destruct (chunks_n n 16 b) as [bc br] eqn:Eb.
  assert (Hn : (n * 16 <= length a)%nat)
    by (unfold n; rewrite Nat.mul_comm; apply Nat.mul_div_le; lia).
  destruct (chunks_n_shape _ _ _ _ _ Ea Hn) as (La & Fa & Ra).
  destruct (chunks_n_shape _ _ _ _ _ Eb) as (Lb & Fb & Rb); [lia|].
  destruct (Forall_chunks _ _ _ _ _ _ Ha Ea) as (Pa & Pr).
  destruct (Forall_chunks _ _ _ _ _ _ Hb Eb) as (Qa & Qr).
  rewrite (zip_upd_val (fun c => Forall P c /\ length c = 16%nat) (fun c => Forall Q c /\ length c = 16%nat)
             (zip_upd f) (zipWith g)); cycle 1.
  - intros c c' [Hc Lc] [Hc' Lc']. apply (zip_upd_val P Q); auto. lia.
  - clear -Pa Fa. induction Pa as [|c cs Hc _ IH]; constructor; inversion Fa; subst; auto.
  - clear -Qa Fb. induction Qa as [|c cs Hc _ IH]; constructor; inversion Fb; subst; auto.
  - lia.
  - cbn [bind]. rewrite (zip_upd_val P Q f g) by (auto; lia). cbn [bind]. f_equal.
    eapply chunks_n_zip; eauto.
Qed.

Section Vectors.
  Context (m : modulus) (Hm : valid_modulus m).
  Let p := mod_p m.

  Lemma add_vec_spec a b : canonical p a -> canonical p b -> length a = length b ->
    add_vec m a b = Val (zipWith (fun x y => (x + y) mod p) a b) /\
    add_vec_vt m a b = Val (zipWith (fun x y => (x + y) mod p) a b).
  Proof.
    intros Ha Hb Hl. pose proof (Hp m Hm). fold p in H. unfold add_vec, add_vec_vt.
    rewrite !bind_guard by (apply same_length_true; exact Hl). split.
    - eapply zip_upd_val; eauto. intros x y Hx Hy. apply zq_add_spec; assumption.
    - eapply chunked_upd_val; eauto. intros x y Hx Hy. cbn beta in *.
      unfold chk64. rewrite bind_chk by lia. apply reduce1_vt_spec; fold p; lia.
  Qed.

  Lemma sub_vec_spec a b : canonical p a -> canonical p b -> length a = length b ->
    sub_vec m a b = Val (zipWith (fun x y => (x - y) mod p) a b) /\
    sub_vec_vt m a b = Val (zipWith (fun x y => (x - y) mod p) a b).
  Proof.
    intros Ha Hb Hl. pose proof (Hp m Hm). fold p in H. unfold sub_vec, sub_vec_vt.
    rewrite !bind_guard by (apply same_length_true; exact Hl). split.
    - eapply zip_upd_val; eauto. intros x y Hx Hy. apply zq_sub_spec; assumption.
    - eapply chunked_upd_val; eauto. intros x y Hx Hy. cbn beta in *. fold p.
      unfold chk64. rewrite bind_chk by lia. rewrite bind_chk by lia.
      rewrite reduce1_vt_spec by lia. f_equal.
      replace (p + x - y) with ((x - y) + 1 * p) by lia. apply Z_mod_plus_full.
  Qed.

  Lemma mul_vec_spec a b : canonical p a -> canonical p b -> length a = length b ->
    mul_vec m a b = Val (zipWith (fun x y => (x * y) mod p) a b) /\
    mul_vec_vt m a b = Val (zipWith (fun x y => (x * y) mod p) a b).
  Proof.
    intros Ha Hb Hl. unfold mul_vec, mul_vec_vt.
    rewrite !bind_guard by (apply same_length_true; exact Hl).
    destruct (mod_opt m) eqn:Ho; split; eapply zip_upd_val; eauto; intros x y Hx Hy; cbn beta in *.
    - apply zq_mul_opt_spec; assumption.
    - apply zq_mul_opt_spec; assumption.
    - apply zq_mul_spec; assumption.
    - apply zq_mul_vt_spec; assumption.
  Qed.

  Lemma neg_vec_spec a : canonical p a ->
    neg_vec m a = Val (map (fun x => (- x) mod p) a) /\ neg_vec_vt m a = Val (map (fun x => (- x) mod p) a).
  Proof.
    intros Ha. unfold canonical in Ha. rewrite Forall_forall in Ha.
    split; apply mapM_val; intros x Hx.
    - apply zq_neg_spec; auto. - apply zq_neg_vt_spec; auto.
  Qed.

  Lemma scalar_mul_vec_spec a b : Forall is_u64 a -> 0 <= b < p ->
    scalar_mul_vec m a b = Val (map (fun x => (x * b) mod p) a) /\
    scalar_mul_vec_vt m a b = Val (map (fun x => (x * b) mod p) a).
  Proof.
    intros Ha Hb. rewrite Forall_forall in Ha. unfold scalar_mul_vec, scalar_mul_vec_vt.
    destruct (shoup_spec m Hm b Hb) as (-> & _). cbn [bind].
    split; apply mapM_val; intros x Hx; [apply mul_shoup_spec|apply mul_shoup_vt_spec]; auto.
  Qed.

  Lemma shoup_vec_spec a : canonical p a -> shoup_vec m a = Val (map (shoup_of m) a).
  Proof.
    intros Ha. unfold canonical in Ha. rewrite Forall_forall in Ha. apply mapM_val. intros x Hx.
    apply shoup_spec; auto.
  Qed.

  Lemma mul_shoup_vec_spec a b bs : Forall is_u64 a -> canonical p b -> length a = length b ->
    shoup_vec m b = Val bs ->
    mul_shoup_vec m a b bs = Val (zipWith (fun x y => (x * y) mod p) a b) /\
    mul_shoup_vec_vt m a b bs = Val (zipWith (fun x y => (x * y) mod p) a b).
  Proof.
    intros Ha Hb Hl Hs. rewrite (shoup_vec_spec b Hb) in Hs. injection Hs as <-.
    unfold mul_shoup_vec, mul_shoup_vec_vt.
    rewrite (shoup_vec_spec b Hb). cbn [bind].
    assert (F2 : Forall2 (fun y ys => 0 <= y < p /\ ys = shoup_of m y) b (map (shoup_of m) b)).
    { clear -Hb. induction Hb; cbn; constructor; auto. }
    split; (rewrite bind_guard by (apply same_length_true; exact Hl));
      (rewrite bind_guard by (apply same_length_true; rewrite map_length; exact Hl));
      (rewrite bind_guard by apply list_eqb_refl);
      eapply zip_upd3_val; eauto; intros x y ys Hx [Hy ->].
    - apply mul_shoup_spec; auto. - apply mul_shoup_vt_spec; auto.
  Qed.

  Lemma reduce_vec_spec a : Forall is_u64 a ->
    reduce_vec m a = Val (map (fun x => x mod p) a) /\ reduce_vec_vt m a = Val (map (fun x => x mod p) a).
  Proof.
    intros Ha. rewrite Forall_forall in Ha.
    split; apply mapM_val; intros x Hx; [apply reduce_spec|apply reduce_vt_spec]; auto.
  Qed.

  Lemma reduce_vec_i64_spec a : Forall is_i64 a ->
    reduce_vec_i64 m a = Val (map (fun x => x mod p) a) /\ reduce_vec_i64_vt m a = Val (map (fun x => x mod p) a).
  Proof.
    intros Ha. rewrite Forall_forall in Ha.
    split; apply mapM_val; intros x Hx; [apply reduce_i64_spec|apply reduce_i64_vt_spec]; auto.
  Qed.

  Lemma lazy_reduce_vec_spec a : Forall is_u64 a ->
    exists r, lazy_reduce_vec m a = Val r /\
      Forall2 (fun x y => 0 <= y < 2 * p /\ y mod p = x mod p) a r.
  Proof.
    intros Ha. unfold lazy_reduce_vec. destruct (mod_opt m) eqn:Ho.
    - induction Ha as [|x t Hx _ (r & E & F)]; [exists []; split; [reflexivity|constructor]|].
      destruct (lazy_reduce_opt_spec m x Hm Ho Hx) as (y & Ey & Hy). exists (y :: r).
      cbn [mapM]. rewrite Ey. cbn [bind]. rewrite E. split; [reflexivity|constructor; auto].
    - induction Ha as [|x t Hx _ (r & E & F)]; [exists []; split; [reflexivity|constructor]|].
      destruct (lazy_reduce_spec m x Hm Hx) as (y & Ey & Hy). exists (y :: r).
      cbn [mapM]. rewrite Ey. cbn [bind]. rewrite E. split; [reflexivity|constructor; auto].
  Qed.
End Vectors.

(** From the constructor to the lemmas above. *)
Lemma by_modulus (P : modulus -> Z -> Prop) :
  (forall m, valid_modulus m -> P m (mod_p m)) -> forall p m, modulus_new p = Val m -> P m p.
Proof.
  intros H p m E. assert (Hm : valid_modulus m) by (exists p; exact E).
  pose proof (modulus_new_inv p m E) as Hp. specialize (H m Hm).
  rewrite (modulus_new_ok p Hp) in E. injection E as <-. exact H.
Qed.

Lemma modulus_new_valid p m : modulus_new p = Val m -> valid_modulus m /\ p = mod_p m.
Proof. apply (by_modulus (fun m p => valid_modulus m /\ p = mod_p m)). intros; split; [assumption|reflexivity]. Qed.
Ltac use_modulus m := let p := fresh in let E := fresh in let Hm := fresh "Hm" in
  intros p m E; destruct (modulus_new_valid _ _ E) as (Hm & ->); clear E.

Lemma center_range m a : valid_modulus m -> 0 <= a < mod_p m ->
  exists c, center m a = Val c /\ c mod mod_p m = a mod mod_p m /\
    - mod_p m <= 2 * c + mod_p m mod 2 /\ 2 * c + mod_p m mod 2 < mod_p m.
Proof.
  intros Hm Ha. rewrite (center_spec m Hm a Ha). pose proof (valid_fields m Hm) as (Hp & _).
  set (p := mod_p m) in *. eexists. split; [reflexivity|].
  assert (p = 2 * (p / 2) + p mod 2) by (apply Z_div_mod_eq_full). pose proof (Z.mod_pos_bound p 2 ltac:(lia)).
  destruct (Z.leb_spec (p / 2) a).
  - split; [|lia]. rewrite <- (Z_mod_plus_full (a - p) 1 p). f_equal. ring.
  - split; [reflexivity|lia].
Qed.

Lemma center_refuted : exists p m a c, modulus_new p = Val m /\ 0 <= a < p /\ center m a = Val c /\ 2 * c < - p.
Proof.
  exists 5. destruct (modulus_new 5) as [m| |] eqn:E; [|discriminate E|discriminate E].
  exists m, 2, (-3). injection E as <-. repeat split; vm_compute; reflexivity || congruence.
Qed.

Lemma opt_all : forall p m, modulus_new p = Val m -> supports_opt p = true ->
  (forall a, 0 <= a < p * p -> reduce_opt_u128 m a = Val (a mod p) /\ reduce_opt_u128_vt m a = Val (a mod p)) /\
  (forall a, is_u64 a -> reduce_opt m a = Val (a mod p) /\ reduce_opt_vt m a = Val (a mod p)) /\
  (forall a b, 0 <= a < p -> 0 <= b < p ->
     zq_mul_opt m a b = zq_mul m a b /\ zq_mul_opt_vt m a b = zq_mul m a b /\ zq_mul_opt m a b = Val ((a * b) mod p)).
Proof.
  use_modulus m. intros Ho.
  pose proof (valid_fields m Hm) as (_ & _ & _ & _ & Eo). rewrite <- Eo in Ho.
  split; [|split].
  - intros a Ha. split; [apply reduce_opt_u128_spec|apply reduce_opt_u128_vt_spec]; assumption.
  - intros a Ha. apply reduce_opt_spec; assumption.
  - intros a b Ha Hb. rewrite (zq_mul_spec m Hm a b Ha Hb). destruct (zq_mul_opt_spec m a b Hm Ho Ha Hb) as (-> & ->). auto.
Qed.

Lemma shoup_all : forall p m, modulus_new p = Val m -> forall a b bs, is_u64 a -> 0 <= b < p -> shoup m b = Val bs ->
  bs = b * 2 ^ 64 / p /\
  mul_shoup m a b bs = Val ((a * b) mod p) /\ mul_shoup_vt m a b bs = Val ((a * b) mod p) /\
  exists r, lazy_mul_shoup m a b bs = Val r /\ 0 <= r < 2 * p /\ r mod p = (a * b) mod p.
Proof.
  use_modulus m. intros a b bs Ha Hb E.
  destruct (shoup_spec m Hm b Hb) as (E' & _). rewrite E' in E. injection E as <-.
  split; [reflexivity|]. split; [apply mul_shoup_spec; assumption|]. split; [apply mul_shoup_vt_spec; assumption|].
  apply lazy_mul_shoup_spec; assumption.
Qed.
