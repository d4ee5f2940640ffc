(** Specification of the centered binomial sampler, independent of the implementation. *)
From Verif Require Import Outcome.

(** Bit [j] of the generator's output stream: words are read least significant bit first. *)
Definition stream_bit (rng : nat -> Z) (j : Z) : Z :=
  Z.b2z (Z.testbit (rng (Z.to_nat (j / 64))) (j mod 64)).

(** Number of ones among the [k] stream bits starting at [j]. *)
Fixpoint ones_at (rng : nat -> Z) (j : Z) (k : nat) : Z :=
  match k with O => 0 | S k' => stream_bit rng j + ones_at rng (j + 1) k' end.

(** First bit used by sample [i]: samples with variance up to 16 use consecutive blocks of 4v
    bits, larger variances use the first 4v bits of consecutive blocks of 128. *)
Definition block_start (v : Z) (i : nat) : Z :=
  if v <=? 16 then 4 * v * Z.of_nat i else 128 * Z.of_nat i.

(** The i-th sample: 2v bits counted positively, the next 2v negatively. *)
Definition cbd_value (rng : nat -> Z) (v : Z) (i : nat) : Z :=
  ones_at rng (block_start v i) (Z.to_nat (2 * v))
  - ones_at rng (block_start v i + 2 * v) (Z.to_nat (2 * v)).

(** The sampler as a function of a list of 4v bits: first half positive, second half negative. *)
Definition signs (v : nat) : list Z := repeat 1 (2 * v) ++ repeat (-1) (2 * v).
Fixpoint dot (e : list Z) (b : list bool) : Z :=
  match e, b with e1 :: e', b1 :: b' => e1 * Z.b2z b1 + dot e' b' | _, _ => 0 end.
Fixpoint all_bits (n : nat) : list (list bool) :=
  match n with O => [[]] | S n' => map (cons false) (all_bits n') ++ map (cons true) (all_bits n') end.
Definition sumZ (l : list Z) : Z := fold_right Z.add 0 l.
