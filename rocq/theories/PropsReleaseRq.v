(** Property C65: the release build of the operations on polynomials, on operands of different contexts.

    [rel_*]: the release build (ReleaseRqModel.v); without the prefix: the debug build (RqModel.v, MbfvModel.v), which panics on contexts that
    differ (C20_mismatch, C20_mul_mismatch).  [mixed c k z u x]: [z] is [u] modulo the first [k] moduli of [c] and [x] modulo the others. *)
From Verif Require Import Outcome BasicSpec PolySpec RqModel RqSpec ParamsModel BfvSpec PlainModel CipherModel KeysModel MbfvModel.
From Verif Require Import ReleaseModel ReleaseRqModel ReleaseRqSpec ReleaseRqProofs ReleaseRqPropLemmas RqPropLemmas ExampleParams ReleaseRqExamples.
(** C65: whatever the debug build returns, the release build returns: sums, differences, negations, products, conversions, aggregations. *)
Theorem C65_agree :
  (forall R (a b r : poly R), (poly_add a b = Val r -> rel_poly_add a b = Val r) /\ (poly_sub a b = Val r -> rel_poly_sub a b = Val r) /\
     (poly_neg a = Val r -> rel_poly_neg a = Val r)) /\
  (forall (a b r : poly Ntt) (s : poly NttShoup), (poly_mul a b = Val r -> rel_poly_mul a b = Val r) /\ (poly_mul_shoup a s = Val r -> rel_poly_mul_shoup a s = Val r)) /\
  (forall isp cands, oracles isp cands -> forall R (a r : poly R) k, is_context isp cands (p_ctx a) -> poly_scalar_mul a k = Val r -> rel_poly_scalar_mul a k = Val r) /\
  (forall (a : poly PowerBasis) (b : poly Ntt), (pb_into_ntt a = Val b -> rel_pb_into_ntt a = Val b) /\ (ntt_into_pb b = Val a -> rel_ntt_into_pb b = Val a)) /\
  (forall l r, pk_from_shares l = Val r -> rel_pk_from_shares l = Val r) /\
  (forall l r, sks_from_shares l = Val r -> rel_sks_from_shares l = Val r) /\
  (forall l r, pksw_from_shares l = Val r -> rel_pksw_from_shares l = Val r).
Proof. exact rel_rq_agree_all. Qed.
Print Assumptions C65_agree.
(** C65: the operands are of two levels of one chain.  The result is of the level of the left operand; it is right modulo the moduli common to both and is the left operand modulo the others. *)
Theorem C65_mixed : forall isp cands, oracles isp cands -> forall c c', is_context isp cands c -> is_context isp cands c' -> one_chain c c' ->
  (forall R (a b : poly R) x y, R <> NttShoup -> p_ctx a = c -> p_ctx b = c' -> represents a x -> represents b y ->
    (exists z, returns (rel_poly_add a b) c z /\ mixed c (length (c_moduli c')) z (zipWith Z.add x y) x) /\
    (exists z, returns (rel_poly_sub a b) c z /\ mixed c (length (c_moduli c')) z (zipWith Z.sub x y) x)) /\
  (forall (a b : poly Ntt) (s : poly NttShoup) x y w, p_ctx a = c -> p_ctx b = c' -> p_ctx s = c' -> represents a x -> represents b y -> represents s w ->
    (exists z, returns (rel_poly_mul a b) c z /\ mixed c (length (c_moduli c')) z (negacyclic (c_degree c) x y) x) /\
    (exists z, returns (rel_poly_mul_shoup a s) c z /\ mixed c (length (c_moduli c')) z (negacyclic (c_degree c) x w) x)).
Proof. exact rel_rq_mixed_all. Qed.
Print Assumptions C65_mixed.
(** C65: when the left operand is of the lower level (has the fewer moduli), the result is the right one at this level. *)
Theorem C65_down : forall isp cands, oracles isp cands -> forall c c', is_context isp cands c -> is_context isp cands c' ->
  c_degree c = c_degree c' -> (exists l, c_moduli c' = c_moduli c ++ l) ->
  (forall R (a b : poly R) x y, R <> NttShoup -> p_ctx a = c -> p_ctx b = c' -> represents a x -> represents b y ->
    returns (rel_poly_add a b) c (zipWith Z.add x y) /\ returns (rel_poly_sub a b) c (zipWith Z.sub x y)) /\
  (forall (a b : poly Ntt) (s : poly NttShoup) x y w, p_ctx a = c -> p_ctx b = c' -> p_ctx s = c' -> represents a x -> represents b y -> represents s w ->
    returns (rel_poly_mul a b) c (negacyclic (c_degree c) x y) /\ returns (rel_poly_mul_shoup a s) c (negacyclic (c_degree c) x w)).
Proof. exact rel_rq_down_all. Qed.
Print Assumptions C65_down.
(** C65: a sum is right exactly when the right operand is zero modulo the moduli that only the left operand has. *)
Theorem C65_up : forall isp cands, oracles isp cands -> forall c c', is_context isp cands c -> is_context isp cands c' -> one_chain c c' ->
  forall R (a b : poly R) x y, R <> NttShoup -> p_ctx a = c -> p_ctx b = c' -> represents a x -> represents b y ->
  (returns (rel_poly_add a b) c (zipWith Z.add x y) <->
   forall i q, (length (c_moduli c') <= i)%nat -> nth_error (c_moduli c) i = Some q -> Forall (fun v => v mod q = 0) y).
Proof. exact rel_rq_up_all. Qed.
Print Assumptions C65_up.
(** C65: modulo each modulus of the first operand, a sum of many is the sum of the operands that have this modulus. *)
Theorem C65_sum : forall isp cands, oracles isp cands -> forall c, is_context isp cands c -> forall R, R <> NttShoup ->
  forall (p : poly R) x (l : list (poly R)) ys, p_ctx p = c -> represents p x ->
  Forall2 (fun p y => is_context isp cands (p_ctx p) /\ one_chain c (p_ctx p) /\ represents p y) l ys ->
  exists z, returns (rel_poly_sum p l) c z /\
    forall i q, nth_error (c_moduli c) i = Some q -> congruent q z (sum_at i x (combine (map (fun p => length (c_moduli (p_ctx p))) l) ys)).
Proof. exact rel_sum_all. Qed.
Print Assumptions C65_sum.
(** C65: shares of several levels are aggregated to a public key by the release build, whereas the debug build panics. *)
Theorem C65_public_key : forall isp cands, oracles isp cands -> forall c, is_context isp cands c ->
  forall share rest x ys lvl, p_ctx (pks_p0 share) = c -> p_ctx (pks_crp share) = c -> represents (pks_p0 share) x -> level_of_context (pks_par share) c = Val lvl ->
  Forall2 (good_share isp cands c) (map pks_p0 rest) ys ->
  (exists p0 z, rel_pk_from_shares (share :: rest) = Val (mkPk (pks_par share) (mkCt (pks_par share) None [p0; pks_crp share] lvl)) /\ p_ctx p0 = c /\ represents p0 z /\
     forall i q, nth_error (c_moduli c) i = Some q -> congruent q z (sum_at i x (combine (map (fun sh => length (c_moduli (p_ctx (pks_p0 sh)))) rest) ys))) /\
  ((exists sh, In sh rest /\ p_ctx (pks_p0 sh) <> c) -> pk_from_shares (share :: rest) = Panic).
Proof. exact rel_pk_shares_all. Qed.
Print Assumptions C65_public_key.
(** C65: the same for the shares of a switch to other secret keys, and so for those of a decryption. *)
Theorem C65_key_switch : forall isp cands, oracles isp cands -> forall c, is_context isp cands c ->
  forall share rest c0 c1 x h ys lvl, ct_c (sks_ct share) = [c0; c1] -> p_ctx c0 = c -> p_ctx c1 = c -> represents c0 x ->
  p_ctx (sks_h share) = c -> represents (sks_h share) h -> level_of_context (sks_par share) c = Val lvl ->
  Forall2 (good_share isp cands c) (map sks_h rest) ys ->
  (exists p0 z, rel_sks_from_shares (share :: rest) = Val (mkCt (sks_par share) None [p0; c1] lvl) /\ p_ctx p0 = c /\ represents p0 z /\
     forall i q, nth_error (c_moduli c) i = Some q -> congruent q z (zipWith Z.add x (sum_at i h (combine (map (fun sh => length (c_moduli (p_ctx (sks_h sh)))) rest) ys)))) /\
  ((exists sh, In sh rest /\ p_ctx (sks_h sh) <> c) -> sks_from_shares (share :: rest) = Panic).
Proof. exact rel_sks_shares_all. Qed.
Print Assumptions C65_key_switch.
(** C65: the same for the shares of a switch to a public key. *)
Theorem C65_public_key_switch : forall isp cands, oracles isp cands -> forall c, is_context isp cands c ->
  forall share rest x a0 a1 ys0 ys1 lvl, p_ctx (pksw_c0 share) = c -> represents (pksw_c0 share) x ->
  p_ctx (pksw_h0 share) = c -> represents (pksw_h0 share) a0 -> p_ctx (pksw_h1 share) = c -> represents (pksw_h1 share) a1 -> level_of_context (pksw_par share) c = Val lvl ->
  Forall2 (good_share isp cands c) (map pksw_h0 rest) ys0 -> Forall2 (good_share isp cands c) (map pksw_h1 rest) ys1 ->
  (exists p0 p1 z0 z1, rel_pksw_from_shares (share :: rest) = Val (mkCt (pksw_par share) None [p0; p1] lvl) /\ p_ctx p0 = c /\ p_ctx p1 = c /\ represents p0 z0 /\ represents p1 z1 /\
     forall i q, nth_error (c_moduli c) i = Some q ->
       congruent q z0 (zipWith Z.add x (sum_at i a0 (combine (map (fun sh => length (c_moduli (p_ctx (pksw_h0 sh)))) rest) ys0))) /\
       congruent q z1 (sum_at i a1 (combine (map (fun sh => length (c_moduli (p_ctx (pksw_h1 sh)))) rest) ys1))) /\
  ((exists sh, In sh rest /\ (p_ctx (pksw_h0 sh) <> c \/ p_ctx (pksw_h1 sh) <> c)) -> pksw_from_shares (share :: rest) = Panic).
Proof. exact rel_pksw_shares_all. Qed.
Print Assumptions C65_public_key_switch.
(** C65: lazy coefficients stop the release build too (these checks are not debug assertions). *)
Theorem C65_lazy :
  (forall R (a b : poly R), p_lazy a = true \/ p_lazy b = true -> rel_poly_add a b = Panic /\ rel_poly_sub a b = Panic) /\
  (forall (a b : poly Ntt), p_lazy a = true \/ p_lazy b = true -> rel_poly_mul a b = Panic) /\
  (forall (a : poly Ntt) (b : poly NttShoup), p_lazy b = true -> rel_poly_mul_shoup a b = Panic) /\
  (forall R (a : poly R), p_lazy a = true -> rel_poly_neg a = Panic).
Proof. exact rel_rq_lazy_all. Qed.
Print Assumptions C65_lazy.
(** C65: the levels of parameters are contexts of one chain. *)
Theorem C65_levels : forall isp cands par, oracles isp cands -> is_params isp cands par -> forall l l', (l <= max_level par)%nat -> (l' <= max_level par)%nat ->
  exists c c', par_context par l = Val c /\ par_context par l' = Val c' /\ is_context isp cands c /\ is_context isp cands c' /\ one_chain c c' /\
    level_of_context par c = Val l /\ length (c_moduli c) = (length (pa_moduli par) - l)%nat /\ length (c_moduli c') = (length (pa_moduli par) - l')%nat.
Proof. exact rel_levels_all. Qed.
Print Assumptions C65_levels.
Example C65_hypotheses_ex : exists par c c', is_params isp_bfv cands_bfv par /\ is_context isp_bfv cands_bfv c /\ is_context isp_bfv cands_bfv c' /\ one_chain c c' /\
  length (c_moduli c) = 3%nat /\ length (c_moduli c') = 1%nat /\ level_of_context par c = Val 0%nat /\
  (forall x, length x = c_degree c -> exists (p : poly Ntt), p_ctx p = c /\ represents p x) /\ (forall y, length y = c_degree c' -> exists (p : poly Ntt), good_share isp_bfv cands_bfv c p y /\ p_ctx p = c').
Proof. exact rel_levels_ex. Qed.
(** Moduli 97 and 193 on one side and 97 on the other: sums, differences and products in both orders. *)
Example C65_ex : rel_rq_run_ex = Val [[17757; 18719; 3; 0; 0; 0; 0; 17370]; [6; 95; 3; 0; 0; 0; 0; 7]; [966; 18719; 3; 0; 0; 0; 0; 1351]; [4; 2; 94; 0; 0; 0; 0; 7];
    [15248; 5595; 16408; 0; 0; 0; 0; 17370]; [19; 66; 15; 0; 0; 0; 0; 7]] /\
  (17757 mod 97 = 6 /\ 17757 mod 193 = 1) /\ (15248 mod 97 = 19 /\ 15248 mod 193 = 1) /\
  (c <- ctx_ex ;; c1 <- ctx1_ex ;; p <- pb_from_i64 c [1; -2; 3] false ;; q <- pb_from_i64 c1 [5; 0; 0; 0; 0; 0; 0; 7] false ;; poly_add p q) = Panic.
Proof. exact rel_rq_ex. Qed.
(** Two members switch an encryption of 1, 2, 16, one at level 0 and the other at level 1: the debug build panics; the release build returns, for
    both orders of the shares, a ciphertext that decrypts to something else. *)
Example C65_levels_ex : bind levels_ex sks_from_shares = Panic /\ levels_run_ex = Val ([12; 3; 3; 15; 8; 5; 12; 12], [13; 3; 13; 3; 2; 9; 6; 2]).
Proof. exact levels_ex_ok. Qed.
