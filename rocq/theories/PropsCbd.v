(** Property C12: centered binomial sampling (fhe-util/src/lib.rs). *)
From Verif Require Import Outcome BasicSpec CbdModel CbdSpec CbdProofs.

(** Every sample is the declared function of the generator's bit stream; the number of 64-bit words
    consumed is the least possible (v <= 16) or two per sample (v >= 17). *)
Theorem C12_samples : forall rng n v, (forall k, is_u64 (rng k)) -> 1 <= v <= 32 ->
  exists c, sample_vec_cbd rng n v = Val (map (cbd_value rng v) (seq 0 n), c) /\
    (v <= 16 -> 64 * Z.of_nat c - 64 < 4 * v * Z.of_nat n <= 64 * Z.of_nat c) /\
    (17 <= v -> Z.of_nat c = 2 * Z.of_nat n).
Proof. exact sample_vec_cbd_ok. Qed.
Print Assumptions C12_samples.
Theorem C12_error : forall rng n v, ~ (1 <= v <= 32) -> sample_vec_cbd rng n v = Err VarianceError.
Proof. exact sample_vec_cbd_err. Qed.
Print Assumptions C12_error.
Theorem C12_bounds : forall rng v i, 0 <= v -> - (2 * v) <= cbd_value rng v i <= 2 * v.
Proof. exact cbd_value_bounds. Qed.
Print Assumptions C12_bounds.
(** Distinct samples read disjoint windows of 4v bits. *)
Theorem C12_disjoint : forall v i j, 1 <= v <= 32 -> (i < j)%nat -> block_start v i + 4 * v <= block_start v j.
Proof. exact blocks_disjoint. Qed.
Print Assumptions C12_disjoint.
(** A sample is a signed sum of the 4v bits of its window ... *)
Theorem C12_signed_sum : forall rng v i,
  cbd_value rng (Z.of_nat v) i = dot (signs v) (stream_bits rng (block_start (Z.of_nat v) i) (4 * v)).
Proof. exact cbd_value_dot. Qed.
Print Assumptions C12_signed_sum.
(** ... whose sum over all 2^(4v) windows is 0 and whose sum of squares is v * 2^(4v): mean 0, variance v. *)
Theorem C12_moments : forall v,
  length (signs v) = (4 * v)%nat /\
  sumZ (map (dot (signs v)) (all_bits (4 * v))) = 0 /\
  sumZ (map (fun b => dot (signs v) b * dot (signs v) b) (all_bits (4 * v))) = Z.of_nat v * 2 ^ Z.of_nat (4 * v).
Proof. exact signs_moments. Qed.
Print Assumptions C12_moments.
Example C12_ex : (forall k : nat, is_u64 (Z.of_nat (k mod 7) * 1000000007)) /\
  exists c, sample_vec_cbd (fun k => Z.of_nat (k mod 7) * 1000000007) 8 10 = Val ([0; -7; 9; -8; -3; 6; -6; 6], c).
Proof.
  split.
  - intros k. unfold is_u64. pose proof (Nat.mod_upper_bound k 7 ltac:(lia)). lia.
  - eexists. vm_compute. reflexivity.
Qed.
