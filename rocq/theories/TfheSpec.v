(** What a plan of the crate [tfhe-ntt] is required to do, and how two transforms of one size and modulus compare. *)
From Verif Require Import Outcome BasicSpec PolySpec RqSpec TfheModel.

(** [f] sends the coefficients of a polynomial, each below [B], to its values at the odd powers of [psi], a root of
    X^(2^k) + 1 modulo [p], in bit-reversed order. *)
Definition evaluates (p : Z) (k : nat) (psi B : Z) (f : list Z -> M (list Z)) : Prop :=
  psi ^ Z.of_nat (2 ^ k) mod p = p - 1 /\
  forall a, length a = (2 ^ k)%nat -> Forall (fun x => 0 <= x < B) a ->
    exists b, f a = Val b /\ length b = (2 ^ k)%nat /\
      forall i, (i < 2 ^ k)%nat -> nth i b 0 = eval a (psi ^ (2 * bitrev k (Z.of_nat i) + 1)) mod p.

(** The contract of a plan: [fwd] evaluates, and [inv] followed by [normalize] undoes it. *)
Definition plan_contract (p : Z) (k : nat) (psi B : Z) (pl : plan) : Prop :=
  evaluates p k psi B (pl_fwd pl) /\
  forall a b, length a = (2 ^ k)%nat -> Forall (fun x => 0 <= x < p) a -> pl_fwd pl a = Val b ->
    exists c, pl_inv pl b = Val c /\ pl_normalize pl c = Val a.

(** The slot of one transform in which the value of slot [i] of another one is found, if the root of the latter is
    the [e]-th power of the root of the former. *)
Definition moved_slot (k : nat) (e : Z) (i : nat) : nat :=
  Z.to_nat (bitrev k ((e * (2 * bitrev k (Z.of_nat i) + 1) mod (2 * Z.of_nat (2 ^ k)) - 1) / 2)).

(** How two transforms modulo [p] of size 2^k with inverses compare: the second forward transform is the first one after
    the automorphism X -> X^e, the second inverse transform is the first one followed by X -> X^f, slots written with the
    first and read with the second are permuted, and the two agree on all inputs, in either direction, only for e = 1. *)
Definition related (p : Z) (k : nat) (e f : Z) (fwd1 bwd1 fwd2 bwd2 : list Z -> M (list Z)) : Prop :=
  (forall a, length a = (2 ^ k)%nat -> canonical p a -> fwd2 a = fwd1 (map (fun x => x mod p) (automorphism (2 ^ k) e a))) /\
  (forall b, length b = (2 ^ k)%nat -> canonical p b ->
     exists a, bwd1 b = Val a /\ bwd2 b = Val (map (fun x => x mod p) (automorphism (2 ^ k) f a))) /\
  (forall s, length s = (2 ^ k)%nat -> canonical p s -> exists a b, bwd1 s = Val a /\ fwd2 a = Val b /\ length b = (2 ^ k)%nat /\
     forall i, (i < 2 ^ k)%nat -> (moved_slot k e i < 2 ^ k)%nat /\ nth i b 0 = nth (moved_slot k e i) s 0) /\
  (e = 1 <-> forall a, length a = (2 ^ k)%nat -> canonical p a -> fwd1 a = fwd2 a) /\
  (e = 1 <-> forall b, length b = (2 ^ k)%nat -> canonical p b -> bwd1 b = bwd2 b).
Definition units (k : nat) (e f : Z) : Prop :=
  0 < e < 2 * Z.of_nat (2 ^ k) /\ 0 < f < 2 * Z.of_nat (2 ^ k) /\ e * f mod (2 * Z.of_nat (2 ^ k)) = 1.
