(** Property C59: the release build of the arithmetic core.

    [rel_*]: the release build (ReleaseModel.v); without the prefix: the debug build.  [small_pairs], [shifted], [no_wrap], [in_order]: ReleaseSpec.v. *)
From Verif Require Import Outcome BasicSpec PolySpec NumTheory ZqModel NttModel RqModel RqSpec ParamsModel BfvSpec PlainModel SchemeSpec ExampleParams ParamsPropLemmas ReleaseModel ReleaseSpec ReleasePropLemmas ReleaseExamples.
(** C59: whenever the debug build returns a value, for any operands and any modulus, the release build returns the same one. *)
Theorem C59_scalars : forall m a b s r,
  (reduce1 a b = Val r -> rel_reduce1 a b = r) /\ (reduce1_vt a b = Val r -> rel_reduce1_vt a b = r) /\
  (lazy_reduce_u128 m a = Val r -> rel_lazy_reduce_u128 m a = r) /\ (lazy_reduce m a = Val r -> rel_lazy_reduce m a = r) /\
  (lazy_reduce_opt_u128 m a = Val r -> rel_lazy_reduce_opt_u128 m a = r) /\ (lazy_reduce_opt m a = Val r -> rel_lazy_reduce_opt m a = r) /\
  (reduce_u128 m a = Val r -> rel_reduce_u128 m a = r) /\ (reduce_u128_vt m a = Val r -> rel_reduce_u128_vt m a = r) /\
  (reduce m a = Val r -> rel_reduce m a = r) /\ (reduce_vt m a = Val r -> rel_reduce_vt m a = r) /\
  (reduce_opt_u128 m a = Val r -> rel_reduce_opt_u128 m a = r) /\ (reduce_opt_u128_vt m a = Val r -> rel_reduce_opt_u128_vt m a = r) /\
  (reduce_opt m a = Val r -> rel_reduce_opt m a = r) /\ (reduce_opt_vt m a = Val r -> rel_reduce_opt_vt m a = r) /\
  (zq_add m a b = Val r -> rel_add m a b = r) /\ (zq_add_vt m a b = Val r -> rel_add_vt m a b = r) /\ (zq_sub m a b = Val r -> rel_sub m a b = r) /\
  (zq_mul m a b = Val r -> rel_mul m a b = r) /\ (zq_mul_vt m a b = Val r -> rel_mul_vt m a b = r) /\
  (zq_mul_opt m a b = Val r -> rel_mul_opt m a b = r) /\ (zq_mul_opt_vt m a b = Val r -> rel_mul_opt_vt m a b = r) /\
  (zq_neg m a = Val r -> rel_neg m a = r) /\ (zq_neg_vt m a = Val r -> rel_neg_vt m a = r) /\
  (is_u64 a -> shoup m a = Val r -> rel_shoup m a = Val r) /\ (lazy_mul_shoup m a b s = Val r -> rel_lazy_mul_shoup m a b s = r) /\
  (mul_shoup m a b s = Val r -> rel_mul_shoup m a b s = r) /\ (mul_shoup_vt m a b s = Val r -> rel_mul_shoup_vt m a b s = r) /\
  (center m a = Val r -> rel_center m a = r) /\ (reduce_i64 m a = Val r -> rel_reduce_i64 m a = r) /\ (reduce_i64_vt m a = Val r -> rel_reduce_i64_vt m a = r) /\
  (zq_pow m a b = Val r -> rel_pow m a b = r) /\ (forall isp o, zq_inv isp m a = Val o -> rel_inv isp m a = o).
Proof. exact scalars_agree. Qed.
Print Assumptions C59_scalars.
(** C59: so do the functions on vectors. *)
Theorem C59_vectors : forall m a b s c r,
  (add_vec m a b = Val r -> rel_add_vec m a b = r) /\ (add_vec_vt m a b = Val r -> rel_add_vec_vt m a b = r) /\
  (sub_vec m a b = Val r -> rel_sub_vec m a b = r) /\ (sub_vec_vt m a b = Val r -> rel_sub_vec_vt m a b = r) /\
  (mul_vec m a b = Val r -> rel_mul_vec m a b = r) /\ (mul_vec_vt m a b = Val r -> rel_mul_vec_vt m a b = r) /\
  (is_u64 c -> scalar_mul_vec m a c = Val r -> rel_scalar_mul_vec m a c = Val r) /\ (is_u64 c -> scalar_mul_vec_vt m a c = Val r -> rel_scalar_mul_vec_vt m a c = Val r) /\
  (Forall is_u64 a -> shoup_vec m a = Val r -> rel_shoup_vec m a = Val r) /\
  (mul_shoup_vec m a b s = Val r -> rel_mul_shoup_vec m a b s = r) /\ (mul_shoup_vec_vt m a b s = Val r -> rel_mul_shoup_vec_vt m a b s = r) /\
  (lazy_reduce_vec m a = Val r -> rel_lazy_reduce_vec m a = r) /\ (reduce_vec m a = Val r -> rel_reduce_vec m a = r) /\ (reduce_vec_vt m a = Val r -> rel_reduce_vec_vt m a = r) /\
  (center_vec m a = Val r -> rel_center_vec m a = r) /\ (reduce_vec_i64 m a = Val r -> rel_reduce_vec_i64 m a = r) /\ (reduce_vec_i64_vt m a = Val r -> rel_reduce_vec_i64_vt m a = r) /\
  (neg_vec m a = Val r -> rel_neg_vec m a = r) /\ (neg_vec_vt m a = Val r -> rel_neg_vec_vt m a = r).
Proof. exact vectors_agree. Qed.
Print Assumptions C59_vectors.
(** C59: reductions, products and powers are right for all words, reduced or not. *)
Theorem C59_products : forall p m, modulus_new p = Val m ->
  (forall a, is_u128 a -> rel_reduce_u128 m a = a mod p /\ rel_reduce_u128_vt m a = a mod p) /\
  (forall a b, is_u64 a -> is_u64 b -> rel_mul m a b = (a * b) mod p /\ rel_mul_vt m a b = (a * b) mod p) /\
  (forall a b, is_u64 a -> 0 <= b < p -> exists bs, rel_shoup m b = Val bs /\ rel_mul_shoup m a b bs = (a * b) mod p /\ rel_mul_shoup_vt m a b bs = (a * b) mod p) /\
  (forall a k, is_u64 a -> is_u64 k -> 2 <= k \/ a < p -> rel_pow m a k = a ^ k mod p).
Proof. exact mul_all. Qed.
Print Assumptions C59_products.
(** C59: sums, differences and opposites are right on more than reduced words, and not on all. *)
Theorem C59_sums : forall p m, modulus_new p = Val m ->
  (forall a b, 0 <= a -> 0 <= b -> a + b < 2 ^ 64 -> (rel_add m a b = (a + b) mod p <-> a + b < 2 * p) /\ (rel_add_vt m a b = (a + b) mod p <-> a + b < 2 * p)) /\
  (forall a b, 0 <= a -> 0 <= b <= a + p -> a + p < 2 ^ 64 -> (rel_sub m a b = (a - b) mod p <-> a < b + p)) /\
  (forall a, 0 <= a <= p -> rel_neg m a = (- a) mod p /\ rel_neg_vt m a = (- a) mod p).
Proof. exact add_all. Qed.
Print Assumptions C59_sums.
(** Values for p = 1153. *)
Example C59_scalars_ex : exists m, modulus_new 1153 = Val m /\ zq_mul m 5 1152 = Val 1148 /\ rel_mul m 5 1152 = 1148 /\
  zq_mul m (W64 - 1) (W64 - 1) = Panic /\ rel_mul m (W64 - 1) (W64 - 1) = ((W64 - 1) * (W64 - 1)) mod 1153 /\
  zq_pow m 5 (W64 - 1) = Panic /\ rel_pow m 5 (W64 - 1) = 5 ^ ((W64 - 1) mod 1152) mod 1153 /\
  zq_add m 1153 1152 = Panic /\ rel_add m 1153 1152 = 1152 /\ zq_add m 1153 1153 = Panic /\ rel_add m 1153 1153 = 1153.
Proof. exact scalars_ex. Qed.
Print Assumptions C59_scalars_ex.
(** C59: what sums, differences and opposites of any words are. *)
Theorem C59_words : forall p m, modulus_new p = Val m -> forall a b, is_u64 a -> is_u64 b ->
  (let s := (a + b) mod 2 ^ 64 in rel_add m a b = (if s <? p then s else s - p) /\ rel_add_vt m a b = rel_add m a b) /\
  (let s := (a + p - b) mod 2 ^ 64 in rel_sub m a b = (if s <? p then s else s - p)) /\
  (let s := (p - a) mod 2 ^ 64 in rel_neg m a = (if s <? p then s else s - p) /\ rel_neg_vt m a = rel_neg m a).
Proof. exact words_all. Qed.
Print Assumptions C59_words.
(** C59: operands of different lengths, which the debug build refuses. *)
Theorem C59_lengths : forall m a b,
  (length (rel_add_vec m a b) = length a /\ forall i, (i < length a)%nat -> nth i (rel_add_vec m a b) 0 = if Nat.ltb i (length b) then rel_add m (nth i a 0) (nth i b 0) else nth i a 0) /\
  (length (rel_sub_vec m a b) = length a /\ forall i, (i < length a)%nat -> nth i (rel_sub_vec m a b) 0 = if Nat.ltb i (length b) then rel_sub m (nth i a 0) (nth i b 0) else nth i a 0) /\
  (length (rel_mul_vec m a b) = length a /\ forall i, (i < length a)%nat ->
     nth i (rel_mul_vec m a b) 0 = if Nat.ltb i (length b) then (if mod_opt m then rel_mul_opt m (nth i a 0) (nth i b 0) else rel_mul m (nth i a 0) (nth i b 0)) else nth i a 0).
Proof. exact lengths_all. Qed.
Print Assumptions C59_lengths.
(** Words that wrap, and lengths 17 and 33, on which the variable-time sum takes the wrong element. *)
Example C59_lengths_ex : exists m, modulus_new 1153 = Val m /\
  nth 16 (rel_add_vec m (repeat 0 17) (map Z.of_nat (seq 0 33))) 0 = 16 /\ nth 16 (rel_add_vec_vt m (repeat 0 17) (map Z.of_nat (seq 0 33))) 0 = 32 /\
  rel_add_vec m [1; 2; 3] [1] = [2; 2; 3] /\ add_vec m [1; 2; 3] [1] = Panic /\ rel_add m (W64 - 1) 5 = 4 /\ rel_sub m 0 1154 = W64 - 1154 /\ rel_neg m (W64 - 1) = 1.
Proof. exact lengths_ex. Qed.
Print Assumptions C59_lengths_ex.
(** C59: the release build constructs the same operators; it returns none where the debug build panics because no candidate yields a root. *)
Theorem C59_operators : forall isp, prime_oracle isp -> forall p m, modulus_new p = Val m -> forall cands, canonical p cands -> forall n,
  match ntt_new isp cands m n with
  | Val o => rel_ntt_new isp cands m n = Val o
  | Err e => False
  | Panic => supports_ntt isp p (Z.of_nat n) = Panic /\ rel_ntt_new isp cands m n = Panic \/
             supports_ntt isp p (Z.of_nat n) = Val true /\ rel_ntt_new isp cands m n = Val None
  end.
Proof. exact new_all. Qed.
Print Assumptions C59_operators.
(** Operators modulo 1153. *)
Example C59_operators_ex : exists m op, modulus_new 1153 = Val m /\ ntt_new (Z.eqb 1153) [0; 1; 5] m 8 = Val (Some op) /\ rel_ntt_new (Z.eqb 1153) [0; 1; 5] m 8 = Val (Some op) /\
  ntt_new (Z.eqb 1153) [0; 1] m 8 = Panic /\ rel_ntt_new (Z.eqb 1153) [0; 1] m 8 = Val None /\
  ntt_new (Z.eqb 1153) [5] m 12 = Panic /\ rel_ntt_new (Z.eqb 1153) [5] m 12 = Panic /\ ntt_new (Z.eqb 1153) [5] m 128 = Val None /\ rel_ntt_new (Z.eqb 1153) [5] m 128 = Val None.
Proof. exact new_ex. Qed.
Print Assumptions C59_operators_ex.
(** C59: whenever the debug build transforms, the release build computes the same. *)
Theorem C59_transforms : forall op a r,
  (ntt_forward op a = Val r -> rel_forward op a = Val r) /\ (ntt_forward_vt_lazy op a = Val r -> rel_forward_vt_lazy op a = Val r) /\
  (ntt_forward_vt op a = Val r -> rel_forward_vt op a = Val r) /\ (ntt_backward op a = Val r -> rel_backward op a = Val r) /\
  (ntt_backward_vt op a = Val r -> rel_backward_vt op a = Val r).
Proof. exact rel_agree_all. Qed.
Print Assumptions C59_transforms.
(** C59: the transforms of the release build panic on no words. *)
Theorem C59_total : forall isp, prime_oracle isp -> forall p m, modulus_new p = Val m -> forall cands, canonical p cands ->
  forall n op, ntt_new isp cands m n = Val (Some op) -> forall a, length a = n -> Forall is_u64 a ->
    Forall (fun r => exists b, r = Val b /\ length b = n /\ Forall is_u64 b) [rel_forward op a; rel_forward_vt_lazy op a; rel_forward_vt op a] /\
    Forall (fun r => exists b, r = Val b /\ length b = n /\ canonical p b) [rel_backward op a; rel_backward_vt op a].
Proof. exact rel_total_all. Qed.
Print Assumptions C59_total.
(** C59: the forward transforms are right for all words, up to a multiple of p. *)
Theorem C59_forward : forall isp, prime_oracle isp -> forall p m, modulus_new p = Val m -> forall cands, canonical p cands ->
  forall n op, ntt_new isp cands m n = Val (Some op) -> forall a, length a = n -> Forall is_u64 a ->
    exists b, ntt_forward op (map (fun x => x mod p) a) = Val b /\
      forall r, rel_forward op a = Val r \/ rel_forward_vt_lazy op a = Val r \/ rel_forward_vt op a = Val r -> map (fun x => x mod p) r = b.
Proof. exact rel_forward_all. Qed.
Print Assumptions C59_forward.
(** C59: the inverse transforms, if neighbours add up to less than 4p, transform the shifted values; they are right exactly if none is shifted. *)
Theorem C59_backward : forall isp, prime_oracle isp -> forall p m, modulus_new p = Val m -> forall cands, canonical p cands ->
  forall n op, ntt_new isp cands m n = Val (Some op) -> forall a, length a = n -> small_pairs p a ->
    (rel_backward op a = ntt_backward op (map (fun x => x mod p) (shifted p a)) /\ rel_backward_vt op a = rel_backward op a) /\
    (rel_backward op a = ntt_backward op (map (fun x => x mod p) a) <-> no_wrap p a).
Proof. exact rel_backward_all. Qed.
Print Assumptions C59_backward.
(** Transforms modulo 1153. *)
Example C59_transforms_ex : exists m op, modulus_new 1153 = Val m /\ ntt_new (Z.eqb 1153) [0; 1; 5] m 8 = Val (Some op) /\
  Forall is_u64 big_in /\ ntt_forward op big_in = Panic /\
  (exists r, rel_forward op big_in = Val r /\ Val (map (fun x => x mod 1153) r) = ntt_forward op (map (fun x => x mod 1153) big_in)) /\
  small_pairs 1153 even_in /\ no_wrap 1153 even_in /\ ntt_backward op even_in = Panic /\ rel_backward op even_in = ntt_backward op [1; 0; 0; 0; 0; 0; 0; 0] /\
  small_pairs 1153 odd_in /\ ~ no_wrap 1153 odd_in /\ ntt_backward op odd_in = Panic /\
  rel_backward op odd_in = ntt_backward op [W63 mod 1153; (2307 - W63) mod 1153; 0; 0; 0; 0; 0; 0] /\ rel_backward op odd_in <> ntt_backward op [0; 1; 0; 0; 0; 0; 0; 0].
Proof. exact transforms_ex. Qed.
Print Assumptions C59_transforms_ex.
(** C59: the slot encoder of the release build agrees with the debug build and panics on no slots. *)
Theorem C59_slots : forall isp cands, oracles isp cands -> forall par, is_params isp cands par -> pa_ntt par <> None -> forall vt v,
  (forall l c, encode_u64_chunk vt v (mkEnc EncSimd l) par c = bind (slot_coefficients vt v par) (fun b => bind (pb_from_u64 c b vt) pb_into_ntt)) /\
  (forall l c r, encode_u64_chunk vt v (mkEnc EncSimd l) par c = Val r -> rel_encode_slots vt v par c = Val r) /\
  (forall b, slot_coefficients vt v par = Val b -> rel_slot_coefficients vt v par = Val b) /\
  ((length v <= pa_degree par)%nat -> Forall is_u64 v -> exists b, rel_slot_coefficients vt v par = Val b /\ length b = pa_degree par /\ canonical (pa_t par) b).
Proof. exact slots_all. Qed.
Print Assumptions C59_slots.
(** C59: on slots that the debug build refuses it encodes the shifted ones, without notice; the result is right exactly if none is shifted. *)
Theorem C59_slots_shifted : forall isp cands, oracles isp cands -> forall par, is_params isp cands par -> pa_ntt par <> None -> forall vt v w s,
  (length v <= pa_degree par)%nat -> in_order par v w -> small_pairs (pa_t par) w ->
  length s = pa_degree par -> (forall i, (i < pa_degree par)%nat -> nth i s 0 = nth (nth i (pa_index par) O) (shifted (pa_t par) w) 0 mod pa_t par) ->
  rel_slot_coefficients vt v par = slot_coefficients vt s par /\
  (rel_slot_coefficients vt v par = slot_coefficients vt (map (fun a => a mod pa_t par) v) par <-> no_wrap (pa_t par) w).
Proof. exact slots_shifted_all. Qed.
Print Assumptions C59_slots_shifted.
(** Slots 0, 0, 35, 0, ... modulo 17: the release build encodes 9, 0, 9, 0, ... . *)
Example C59_slots_ex : exists par, is_params isp_bfv cands_bfv par /\ pa_ntt par <> None /\ pa_t par = 17 /\ pa_degree par = 8%nat /\
  in_order par wrong_in wrong_order /\ small_pairs 17 wrong_order /\ ~ no_wrap 17 wrong_order /\
  (forall i, (i < 8)%nat -> nth i wrong_slots 0 = nth (nth i (pa_index par) O) (shifted 17 wrong_order) 0 mod 17) /\
  forall vt, slot_coefficients vt wrong_in par = Panic /\ rel_slot_coefficients vt wrong_in par = slot_coefficients vt wrong_slots par /\
    rel_slot_coefficients vt wrong_in par <> slot_coefficients vt [0; 0; 1] par.
Proof. exact slots_ex. Qed.
Print Assumptions C59_slots_ex.
