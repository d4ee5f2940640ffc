(** Properties C14-C17: the number-theoretic transform (ntt/native.rs). *)
From Verif Require Import Outcome BasicSpec ZqModel ZqProofs ZqPow NumTheory NttModel PolySpec NttPropLemmas.
From Coq Require Import Znumtheory.

(** C14: when does an operator exist. *)
Theorem C14_supported : forall isp, prime_oracle isp -> forall p n, 2 <= p < 2 ^ 62 ->
  (supports_ntt isp p n = Val true <->
   exists k, 3 <= k /\ n = 2 ^ k /\ prime p /\ p mod (2 * n) = 1).
Proof. exact supports_all. Qed.
Print Assumptions C14_supported.
Theorem C14_new_none : forall isp, prime_oracle isp -> forall p m, modulus_new p = Val m -> forall cands size,
  supports_ntt isp p (Z.of_nat size) = Val false -> ntt_new isp cands m size = Val None.
Proof. exact new_none_all. Qed.
Print Assumptions C14_new_none.
Theorem C14_new_some : forall isp, prime_oracle isp -> forall p m, modulus_new p = Val m -> forall cands size,
  canonical p cands -> supports_ntt isp p (Z.of_nat size) = Val true ->
  (exists c, In c cands /\ c ^ ((p - 1) / 2) mod p = p - 1) ->
  exists op, ntt_new isp cands m size = Val (Some op).
Proof. exact new_some_all. Qed.
Print Assumptions C14_new_some.
Example C14_new_ex : exists isp m op, prime_oracle isp /\ modulus_new 1153 = Val m /\
  supports_ntt isp 1153 16 = Val true /\ ntt_new isp [0; 1; 5] m 16 = Val (Some op).
Proof. exact ntt_new_example. Qed.

(** C14: the transforms are mutually inverse, total on canonical vectors, and canonical. *)
Theorem C14_inverse : forall isp, prime_oracle isp -> forall p m, modulus_new p = Val m -> forall cands, canonical p cands ->
  forall n op, ntt_new isp cands m n = Val (Some op) -> forall a, length a = n -> canonical p a ->
  (exists b, ntt_forward op a = Val b /\ length b = n /\ canonical p b /\ ntt_backward op b = Val a) /\
  (exists b, ntt_backward op a = Val b /\ length b = n /\ canonical p b /\ ntt_forward op b = Val a).
Proof. exact inverse_all. Qed.
Print Assumptions C14_inverse.
(** C14: other lengths are refused. *)
Theorem C14_length : forall op a, length a <> nt_size op ->
  ntt_forward op a = Panic /\ ntt_backward op a = Panic.
Proof. exact length_all. Qed.
Print Assumptions C14_length.
Example C14_ex : exists m op, modulus_new 1153 = Val m /\ ntt_new (Z.eqb 1153) [0; 1; 5] m 8 = Val (Some op) /\
  ntt_forward op [1; 2; 3; 4; 5; 6; 7; 1152] = Val [880; 834; 964; 126; 754; 35; 727; 300] /\
  ntt_backward op [880; 834; 964; 126; 754; 35; 727; 300] = Val [1; 2; 3; 4; 5; 6; 7; 1152].
Proof. eexists. eexists. examples. Qed.

(** C15: the forward transform evaluates at the odd powers of a primitive 2n-th root of unity, in
    bit-reversed order; those are the roots of X^n + 1 modulo p, each exactly once. *)
Theorem C15_evaluation : forall isp, prime_oracle isp -> forall p m, modulus_new p = Val m -> forall cands, canonical p cands ->
  forall k op, ntt_new isp cands m (2 ^ k)%nat = Val (Some op) ->
  let n := (2 ^ k)%nat in
  exists psi, 0 <= psi < p /\ psi ^ Z.of_nat n mod p = p - 1 /\
    (forall a, length a = n -> canonical p a -> exists b, ntt_forward op a = Val b /\ length b = n /\
       forall i, (i < n)%nat -> nth i b 0 = eval a (psi ^ (2 * bitrev k (Z.of_nat i) + 1)) mod p) /\
    (forall i, (i < n)%nat -> (psi ^ (2 * bitrev k (Z.of_nat i) + 1)) ^ Z.of_nat n mod p = p - 1) /\
    (forall x, x ^ Z.of_nat n mod p = p - 1 ->
       exists! i, (i < n)%nat /\ x mod p = psi ^ (2 * bitrev k (Z.of_nat i) + 1) mod p).
Proof. exact evaluation_all. Qed.
Print Assumptions C15_evaluation.
Example C15_ex : exists m op, modulus_new 1153 = Val m /\ ntt_new (Z.eqb 1153) [0; 1; 5] m (2 ^ 3) = Val (Some op) /\
  nth 1 (nt_omegas op) 0 = 1086 ^ 4 mod 1153 /\ 1086 ^ 8 mod 1153 = 1152 /\
  ntt_forward op [0; 1; 0; 0; 0; 0; 0; 0] = Val (map (fun e => 1086 ^ e mod 1153) [1; 9; 5; 13; 3; 11; 7; 15]).
Proof. eexists. eexists. examples. Qed.

(** C16: pointwise product in NTT form is the product modulo X^n + 1. *)
Theorem C16_convolution : forall isp, prime_oracle isp -> forall p m, modulus_new p = Val m -> forall cands, canonical p cands ->
  forall n op, ntt_new isp cands m n = Val (Some op) -> forall a b, length a = n -> length b = n -> canonical p a -> canonical p b ->
  exists fa fb fc, ntt_forward op a = Val fa /\ ntt_forward op b = Val fb /\ mul_vec m fa fb = Val fc /\
    ntt_backward op fc = Val (map (fun x => x mod p) (negacyclic n a b)).
Proof. exact convolution_all. Qed.
Print Assumptions C16_convolution.
Example C16_ex : map (fun x => x mod 1153) (negacyclic 8 [0; 0; 0; 0; 0; 0; 0; 1] [0; 5; 0; 0; 0; 0; 0; 0]) = [1148; 0; 0; 0; 0; 0; 0; 0].
Proof. examples. Qed.

(** C17: variable-time and lazy variants. *)
Theorem C17_variants : forall isp, prime_oracle isp -> forall p m, modulus_new p = Val m -> forall cands, canonical p cands ->
  forall n op, ntt_new isp cands m n = Val (Some op) -> forall a, length a = n ->
  (Forall (fun x => 0 <= x < 4 * p) a ->
     exists b l, ntt_forward op a = Val b /\ ntt_forward_vt op a = Val b /\ canonical p b /\ length b = n /\
       ntt_forward_vt_lazy op a = Val l /\ Forall (fun x => 0 <= x < 4 * p) l /\ map (fun x => x mod p) l = b /\
       ntt_forward op (map (fun x => x mod p) a) = Val b) /\
  (Forall (fun x => 0 <= x < 2 * p) a ->
     exists b, ntt_backward op a = Val b /\ ntt_backward_vt op a = Val b /\ canonical p b /\ length b = n /\
       ntt_backward op (map (fun x => x mod p) a) = Val b).
Proof. exact variants_all. Qed.
Print Assumptions C17_variants.
Example C17_ex : exists m op, modulus_new 1153 = Val m /\ ntt_new (Z.eqb 1153) [0; 1; 5] m 8 = Val (Some op) /\
  ntt_forward_vt op [1; 2; 3; 4; 5; 6; 7; 4611] = ntt_forward op [1; 2; 3; 4; 5; 6; 7; 1152] /\
  ntt_backward_vt op [1; 2; 3; 4; 5; 6; 7; 2305] = ntt_backward op [1; 2; 3; 4; 5; 6; 7; 1152].
Proof. eexists. eexists. examples. Qed.
