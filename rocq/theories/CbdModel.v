(** Model of [sample_vec_cbd], crates/fhe-util/src/lib.rs:22-66.
    The generator is an arbitrary stream of 64-bit words: the k-th call of [next_u64] returns
    [rng k]; functions return the number of words consumed so far. *)
From Verif Require Import Outcome.

(** [u128::count_ones]. *)
Definition count_ones128 (x : Z) : Z :=
  fold_right Z.add 0 (map (fun i => Z.b2z (Z.testbit x (Z.of_nat i))) (seq 0 128)).

(** lib.rs:36-40: the closure [sample], [v] being the variance. *)
Definition cbd_sample (v pool : Z) : Z :=
  let number_bits := 4 * v in
  let mask_add := Z.shiftr (Z.shiftr (W128 - 1) (128 - number_bits)) (2 * v) in
  let mask_sub := Z.shiftl mask_add (2 * v) mod W128 in
  count_ones128 (Z.land pool mask_add) - count_ones128 (Z.land pool mask_sub).

(** lib.rs:44-55, variances 1..=16. *)
Fixpoint cbd_small (rng : nat -> Z) (v : Z) (n : nat) (pool nb : Z) (cnt : nat) : M (list Z * nat) :=
  match n with
  | O => Val ([], cnt)
  | S n' =>
      let number_bits := 4 * v in
      let '(pool, nb, cnt) :=
        if nb <? number_bits
        then (Z.lor pool (Z.shiftl (rng cnt) nb mod W128), nb + 64, S cnt)
        else (pool, nb, cnt) in
      guard (number_bits <=? nb) ;;;
      let s := cbd_sample v pool in
      nb' <- chk64 (nb - number_bits) ;;
      '(r, c) <- cbd_small rng v n' (Z.shiftr pool number_bits) nb' cnt ;;
      Val (s :: r, c)
  end.

(** lib.rs:57-62, variances 17..=32. *)
Fixpoint cbd_large (rng : nat -> Z) (v : Z) (n : nat) (cnt : nat) : list Z * nat :=
  match n with
  | O => ([], cnt)
  | S n' =>
      let pool := Z.lor (rng cnt) (Z.shiftl (rng (S cnt)) 64 mod W128) in
      let '(r, c) := cbd_large rng v n' (S (S cnt)) in
      (cbd_sample v pool :: r, c)
  end.

(** lib.rs:22-66 [sample_vec_cbd]. *)
Definition sample_vec_cbd (rng : nat -> Z) (size : nat) (variance : Z) : M (list Z * nat) :=
  if negb ((1 <=? variance) && (variance <=? 32)) then Err VarianceError
  else if 4 * variance <=? 64 then cbd_small rng variance size 0 0 0
  else Val (cbd_large rng variance size 0).
