(** Exponentiation and inversion (zq/mod.rs:556-590). *)
From Verif Require Import Outcome OutcomeLemmas ZqModel ZqProofs NumTheory.
From Coq Require Import Znumtheory.


Lemma prime_oracle_exists : exists isp, prime_oracle isp.
Proof.
  exists (fun p => if prime_dec p then true else false). intros p _.
  destruct (prime_dec p); split; congruence.
Qed.

Lemma zq_mul_mod m x y : valid_modulus m -> zq_mul m (x mod mod_p m) (y mod mod_p m) = Val ((x * y) mod mod_p m).
Proof.
  intros Hm. pose proof (proj1 (valid_fields m Hm)).
  rewrite zq_mul_spec by (try assumption; apply Z.mod_pos_bound; lia).
  rewrite <- Zmult_mod. reflexivity.
Qed.

Lemma pow_loop_spec m a n k : valid_modulus m -> 0 <= a < mod_p m -> 0 <= n ->
  pow_loop m a n k (a ^ (n / 2 ^ Z.of_nat k) mod mod_p m) = Val (a ^ n mod mod_p m).
Proof.
  intros Hm Ha Hn. induction k as [|k IH].
  - cbn [pow_loop]. rewrite Z.div_1_r. reflexivity.
  - cbn [pow_loop]. rewrite zq_mul_mod by exact Hm. cbn [bind].
    set (e := n / 2 ^ Z.of_nat k).
    assert (Ee : n / 2 ^ Z.of_nat (S k) = e / 2).
    { unfold e. rewrite Nat2Z.inj_succ, Z.pow_succ_r by lia. rewrite Z.mul_comm.
      rewrite Z.div_div by lia. reflexivity. }
    assert (He : 0 <= e) by (apply Z.div_pos; lia).
    rewrite Ee. rewrite Z.shiftr_div_pow2 by lia. fold e.
    assert (Eo : (Z.land e 1 =? 1) = Z.odd e).
    { change 1 with (Z.ones 1). rewrite Z.land_ones by lia. change (Z.ones 1) with 1. change (2 ^ 1) with 2.
      rewrite Zmod_odd. destruct (Z.odd e); reflexivity. }
    rewrite Eo. fold e in IH. rewrite (pow_split a e He) in IH. destruct (Z.odd e).
    + assert (Em : forall x, zq_mul m (x mod mod_p m) a = Val ((x * a) mod mod_p m)).
      { intros x. rewrite <- (Z.mod_small a (mod_p m) Ha) at 1. apply zq_mul_mod, Hm. }
      rewrite Em. exact IH.
    + cbn [bind]. rewrite Z.mul_1_r in IH. exact IH.
Qed.

Lemma zq_pow_spec m a n : valid_modulus m -> 0 <= a < mod_p m -> 0 <= n < mod_p m ->
  zq_pow m a n = Val (a ^ n mod mod_p m).
Proof.
  intros Hm Ha Hn. pose proof (proj1 (valid_fields m Hm)) as Hp. unfold zq_pow.
  rewrite bind_guard by (rewrite andb_true_iff, !Z.ltb_lt; lia).
  destruct (Z.eqb_spec n 0) as [->|Hn0].
  { rewrite Z.pow_0_r, Z.mod_small by lia. reflexivity. }
  destruct (Z.eqb_spec n 1) as [->|Hn1].
  { rewrite Z.pow_1_r, Z.mod_small by lia. reflexivity. }
  unfold leading_zeros64, nbits. destruct (Z.leb_spec n 0); [lia|].
  replace (62 - (64 - (Z.log2 n + 1))) with (Z.log2 n - 1) by lia.
  assert (1 <= Z.log2 n) by (change 1 with (Z.log2 2); apply Z.log2_le_mono; lia).
  assert (Z.log2 n < 64) by (apply Z.log2_lt_pow2; lia).
  rewrite bind_chk by lia. replace (Z.log2 n - 1 + 1) with (Z.log2 n) by lia.
  assert (E : n / 2 ^ Z.of_nat (Z.to_nat (Z.log2 n)) = 1).
  { rewrite Z2Nat.id by lia. pose proof (Z.log2_spec n ltac:(lia)) as Hl.
    rewrite Z.pow_succ_r in Hl by lia. symmetry.
    apply Z.div_unique with (n - 2 ^ Z.log2 n); lia. }
  pose proof (pow_loop_spec m a n (Z.to_nat (Z.log2 n)) Hm Ha ltac:(lia)) as HL.
  rewrite E, Z.pow_1_r, Z.mod_small in HL by lia. exact HL.
Qed.

Lemma zq_inv_some isp m a : prime_oracle isp -> valid_modulus m -> prime (mod_p m) -> 0 < a < mod_p m ->
  exists r, zq_inv isp m a = Val (Some r) /\ 0 < r < mod_p m /\ (a * r) mod mod_p m = 1.
Proof.
  intros Ho Hm Hpr Ha. pose proof (proj1 (valid_fields m Hm)) as Hp. unfold zq_inv.
  assert (E : isp (mod_p m) = true) by (apply Ho; [unfold is_u64; lia|exact Hpr]).
  rewrite E. cbn [negb orb]. destruct (Z.eqb_spec a 0); [lia|].
  unfold chk64. rewrite bind_chk by lia. rewrite zq_pow_spec by (try assumption; lia). cbn [bind].
  set (r := a ^ (mod_p m - 2) mod mod_p m).
  assert (Hr : 0 <= r < mod_p m) by (apply Z.mod_pos_bound; lia).
  assert (Er : (a * r) mod mod_p m = 1).
  { unfold r. rewrite Zmult_mod_idemp_r. pose proof (fermat_inv _ _ Hpr Ha) as F.
    unfold cong in F. rewrite F. apply Z.mod_small. lia. }
  rewrite zq_mul_spec by (try assumption; lia). cbn [bind]. rewrite Er. cbn [Z.eqb guard bind Pos.eqb].
  exists r. split; [reflexivity|]. split; [|exact Er].
  assert (r <> 0); [|lia]. intros E0. rewrite E0, Z.mul_0_r, Zmod_0_l in Er. discriminate.
Qed.

Lemma zq_inv_none isp m a : prime_oracle isp -> valid_modulus m ->
  (~ prime (mod_p m) \/ a = 0) -> zq_inv isp m a = Val None.
Proof.
  intros Ho Hm H. pose proof (proj1 (valid_fields m Hm)) as Hp. unfold zq_inv. destruct H as [H| ->].
  - destruct (isp (mod_p m)) eqn:E; [|reflexivity]. exfalso. apply H. apply Ho; [unfold is_u64; lia|exact E].
  - rewrite Z.eqb_refl, orb_true_r. reflexivity.
Qed.

Lemma inv_all : forall isp, prime_oracle isp -> forall p m, modulus_new p = Val m -> forall a, 0 <= a < p ->
  (prime p -> a <> 0 -> exists r, zq_inv isp m a = Val (Some r) /\ 0 < r < p /\ (a * r) mod p = 1) /\
  (~ prime p \/ a = 0 -> zq_inv isp m a = Val None).
Proof.
  intros isp Ho. use_modulus m. intros a Ha. split.
  - intros Hp Hz. apply zq_inv_some; try assumption. lia.
  - apply zq_inv_none; assumption.
Qed.
