(** Property C60: the transform operator of the feature tfhe-ntt, and transforms with different roots.

    A plan is required to meet [plan_contract] (TfheSpec.v); [related], [units], [moved_slot]: TfheSpec.v. *)
From Verif Require Import Outcome BasicSpec PolySpec NumTheory ZqModel NttModel RqSpec TfheModel TfheSpec TfhePropLemmas TfheExamples.
(** C60: an operator is constructed exactly if the native one is, and holds it and the plan. *)
Theorem C60_new : forall isp plan_new cands m size,
  (forall t, tfhe_new isp plan_new cands m size = Val (Some t) <-> ntt_new isp cands m size = Val (Some (tf_native t)) /\ tf_plan t = plan_new size (mod_p m)) /\
  (tfhe_new isp plan_new cands m size = Val None <-> ntt_new isp cands m size = Val None) /\
  (tfhe_new isp plan_new cands m size = Panic <-> ntt_new isp cands m size = Panic).
Proof. exact tfhe_new_all. Qed.
Print Assumptions C60_new.
(** C60: the comparison, which looks at the native operators only, tells operators apart. *)
Theorem C60_equal : forall isp plan_new p1 m1 cands1 size1 p2 m2 cands2 size2 t1 t2, prime_oracle isp ->
  modulus_new p1 = Val m1 -> modulus_new p2 = Val m2 -> canonical p1 cands1 -> canonical p2 cands2 ->
  tfhe_new isp plan_new cands1 m1 size1 = Val (Some t1) -> tfhe_new isp plan_new cands2 m2 size2 = Val (Some t2) ->
  tf_native t1 = tf_native t2 -> t1 = t2.
Proof. exact equal_all. Qed.
Print Assumptions C60_equal.
(** C60: without a plan the operator is the native one. *)
Theorem C60_fallback : forall t a, tf_plan t = None ->
  tfhe_forward t a = ntt_forward (tf_native t) a /\ tfhe_forward_vt t a = ntt_forward_vt (tf_native t) a /\
  tfhe_forward_vt_lazy t a = ntt_forward_vt_lazy (tf_native t) a /\
  tfhe_backward t a = ntt_backward (tf_native t) a /\ tfhe_backward_vt t a = ntt_backward_vt (tf_native t) a.
Proof. exact fallback_all. Qed.
Print Assumptions C60_fallback.
(** C60: with a plan it computes what the native operator computes for other candidates; what is proved for all candidates holds for it. *)
Theorem C60_simulates : forall isp, prime_oracle isp -> forall p m, modulus_new p = Val m -> forall cands, canonical p cands ->
  forall plan_new k t pl psi B, tfhe_new isp plan_new cands m (2 ^ k)%nat = Val (Some t) -> tf_plan t = Some pl ->
  p <= B <= 4 * p -> plan_contract p k psi B pl ->
  exists cands' op, canonical p cands' /\ ntt_new isp cands' m (2 ^ k)%nat = Val (Some op) /\
    (forall a, length a = (2 ^ k)%nat -> Forall (fun x => 0 <= x < B) a ->
       exists b l, ntt_forward op a = Val b /\ tfhe_forward t a = Val b /\ tfhe_forward_vt t a = Val b /\ tfhe_forward_vt_lazy t a = Val b /\
         ntt_forward_vt_lazy op a = Val l /\ map (fun x => x mod p) l = b) /\
    (forall b, length b = (2 ^ k)%nat -> canonical p b ->
       exists a, ntt_backward op b = Val a /\ tfhe_backward t b = Val a /\ tfhe_backward_vt t b = Val a).
Proof. exact simulates_all. Qed.
Print Assumptions C60_simulates.
(** C60: the transforms with a plan are inverse to each other. *)
Theorem C60_inverse : forall isp, prime_oracle isp -> forall p m, modulus_new p = Val m -> forall cands, canonical p cands ->
  forall plan_new k t pl psi, tfhe_new isp plan_new cands m (2 ^ k)%nat = Val (Some t) -> tf_plan t = Some pl -> plan_contract p k psi p pl ->
  forall a, length a = (2 ^ k)%nat -> canonical p a ->
  (exists b, tfhe_forward t a = Val b /\ length b = (2 ^ k)%nat /\ canonical p b /\ tfhe_backward t b = Val a) /\
  (exists b, tfhe_backward t a = Val b /\ length b = (2 ^ k)%nat /\ canonical p b /\ tfhe_forward t b = Val a).
Proof. exact tfhe_inverse_all. Qed.
Print Assumptions C60_inverse.
(** C60: the product in transformed form is the product modulo X^n + 1. *)
Theorem C60_convolution : forall isp, prime_oracle isp -> forall p m, modulus_new p = Val m -> forall cands, canonical p cands ->
  forall plan_new k t pl psi, tfhe_new isp plan_new cands m (2 ^ k)%nat = Val (Some t) -> tf_plan t = Some pl -> plan_contract p k psi p pl ->
  forall a b, length a = (2 ^ k)%nat -> length b = (2 ^ k)%nat -> canonical p a -> canonical p b ->
  exists fa fb fc, tfhe_forward t a = Val fa /\ tfhe_forward t b = Val fb /\ mul_vec m fa fb = Val fc /\
    tfhe_backward t fc = Val (map (fun x => x mod p) (negacyclic (2 ^ k) a b)).
Proof. exact tfhe_convolution_all. Qed.
Print Assumptions C60_convolution.
(** C60: how it compares with the native operator: equal exactly if the plan evaluates at the powers of the same root. *)
Theorem C60_builds : forall isp, prime_oracle isp -> forall p m, modulus_new p = Val m -> forall cands, canonical p cands ->
  forall plan_new k t pl psi, tfhe_new isp plan_new cands m (2 ^ k)%nat = Val (Some t) -> tf_plan t = Some pl -> plan_contract p k psi p pl ->
  exists e f, units k e f /\ related p k e f (ntt_forward (tf_native t)) (ntt_backward (tf_native t)) (tfhe_forward t) (tfhe_backward t) /\
    (e = 1 <-> evaluates p k psi p (ntt_forward (tf_native t))).
Proof. exact builds_all. Qed.
Print Assumptions C60_builds.
(** C60: native operators for different candidates compare in the same way. *)
Theorem C60_roots : forall isp, prime_oracle isp -> forall p m, modulus_new p = Val m -> forall cands1 cands2, canonical p cands1 -> canonical p cands2 ->
  forall k op1 op2, ntt_new isp cands1 m (2 ^ k)%nat = Val (Some op1) -> ntt_new isp cands2 m (2 ^ k)%nat = Val (Some op2) ->
  exists e f, units k e f /\ related p k e f (ntt_forward op1) (ntt_backward op1) (ntt_forward op2) (ntt_backward op2).
Proof. exact natives_all. Qed.
Print Assumptions C60_roots.
(** C60: the comment in [eq], that both compute the same result, does not follow from the contract. *)
Theorem C60_same_refuted : ~ (forall isp, prime_oracle isp -> forall p m, modulus_new p = Val m -> forall cands, canonical p cands ->
  forall plan_new k t pl psi, tfhe_new isp plan_new cands m (2 ^ k)%nat = Val (Some t) -> tf_plan t = Some pl -> plan_contract p k psi (4 * p) pl ->
  forall a, length a = (2 ^ k)%nat -> canonical p a -> tfhe_forward t a = ntt_forward (tf_native t) a).
Proof. exact same_refuted. Qed.
Print Assumptions C60_same_refuted.
(** C60: [forward_vt_lazy] after [lazy_reduce_vec] needs a plan that is right below 2p. *)
Theorem C60_lazy : forall isp, prime_oracle isp -> forall p m, modulus_new p = Val m -> forall cands, canonical p cands ->
  forall plan_new k t pl psi B, tfhe_new isp plan_new cands m (2 ^ k)%nat = Val (Some t) -> tf_plan t = Some pl -> 2 * p <= B -> plan_contract p k psi B pl ->
  forall v, length v = (2 ^ k)%nat -> Forall is_u64 v ->
  exists r b, lazy_reduce_vec m v = Val r /\ tfhe_forward_vt_lazy t r = Val b /\ length b = (2 ^ k)%nat /\
    forall i, (i < 2 ^ k)%nat -> nth i b 0 = eval v (psi ^ (2 * bitrev k (Z.of_nat i) + 1)) mod p.
Proof. exact lazy_all. Qed.
Print Assumptions C60_lazy.
(** C60: a plan that is right for reduced vectors only is not enough. *)
Theorem C60_lazy_refuted : ~ (forall isp, prime_oracle isp -> forall p m, modulus_new p = Val m -> forall cands, canonical p cands ->
  forall plan_new k t pl psi, tfhe_new isp plan_new cands m (2 ^ k)%nat = Val (Some t) -> tf_plan t = Some pl -> plan_contract p k psi p pl ->
  forall v r, length v = (2 ^ k)%nat -> Forall is_u64 v -> lazy_reduce_vec m v = Val r -> exists b, tfhe_forward_vt_lazy t r = Val b).
Proof. exact lazy_refuted. Qed.
Print Assumptions C60_lazy_refuted.
(** Operators modulo 1153: without a plan, with a plan for the same root, and for another root. *)
Example C60_plans_ex : exists isp m cands, prime_oracle isp /\ modulus_new 1153 = Val m /\ canonical 1153 cands /\
  (exists plan_new t, tfhe_new isp plan_new cands m (2 ^ 3)%nat = Val (Some t) /\ tf_plan t = None) /\
  (exists plan_new t pl, tfhe_new isp plan_new cands m (2 ^ 3)%nat = Val (Some t) /\ tf_plan t = Some pl /\ plan_contract 1153 3 1086 (4 * 1153) pl /\
     evaluates 1153 3 1086 1153 (ntt_forward (tf_native t))) /\
  (exists plan_new t pl, tfhe_new isp plan_new cands m (2 ^ 3)%nat = Val (Some t) /\ tf_plan t = Some pl /\ plan_contract 1153 3 170 (4 * 1153) pl /\
     tfhe_forward t [0; 1; 0; 0; 0; 0; 0; 0] <> ntt_forward (tf_native t) [0; 1; 0; 0; 0; 0; 0; 0]).
Proof. exact plans_ex. Qed.
Print Assumptions C60_plans_ex.
(** Two operators modulo 1153: slots written with one and read with the other. *)
Example C60_roots_ex : exists m op1 op2, modulus_new 1153 = Val m /\ ntt_new (Z.eqb 1153) [5] m (2 ^ 3) = Val (Some op1) /\ ntt_new (Z.eqb 1153) [14] m (2 ^ 3) = Val (Some op2) /\
  ntt_root op1 = 1086 /\ ntt_root op2 = 170 /\ 1086 ^ 3 mod 1153 = 170 /\ 170 ^ 11 mod 1153 = 1086 /\ 3 * 11 mod 16 = 1 /\
  (a <- ntt_backward op1 [10; 11; 12; 13; 14; 15; 16; 17] ;; ntt_forward op2 a) = Val [14; 15; 17; 16; 11; 10; 12; 13] /\
  map (moved_slot 3 3) (seq 0 8) = [4; 5; 7; 6; 1; 0; 2; 3]%nat.
Proof. exact roots_ex. Qed.
Print Assumptions C60_roots_ex.
