(** Property C56: variable-time code sees only public data (LeakModel.v).

    [fst (t_f x)]: the variable-time operations that the run of [f] on [x] executes, with the values they work on.  [silent]: there are none.
    [private p], [public p]: the flag of the polynomial forbids or permits variable-time computations.  [pt_alike], [ct_alike],
    [share_alike]: the same parameters, contexts and flags, and the same coefficients of the public polynomials.  [same_trace],
    [runs_alike R]: two runs that give values execute the same variable-time operations on the same data, with results related by [R];
    [observes l o data x]: [x] executes the operation [o] on [data] if all of [l] hold, and nothing otherwise.
    [same_trace_if R]: if their results are related by [R].  [key_events k t]: the trace [t] can be computed from the key [k].
    [is_sk], [is_poly], [is_pt], [is_ekb], [expands_well], [words]: as in PropsKeys.v and PropsEval.v. *)
From Verif Require Import Outcome BasicSpec PolySpec ZqModel NttModel CbdModel TranscodeModel RnsModel RnsSpec RqModel RqSpec ParamsModel BfvSpec PlainModel CipherModel OpsModel SchemeSpec CipherSpec KeysModel KeysSpec EvalSpec MbfvModel.
From Verif Require Import ExampleParams CipherExamples KeyExamples LeakModel LeakSpec LeakPropLemmas LeakExamples.
(** C56: the instrumented programs compute what the programs of the other files compute. *)
Theorem C56_programs :
  ((forall vt v e par, snd (t_encode_u64 vt v e par) = encode_u64 vt v e par) /\ (forall v e par, snd (t_encode_big v e par) = encode_big v e par) /\ (forall v e par, snd (t_encode_i64 v e par) = encode_i64 v e par) /\
   (forall pt e, snd (t_decode_u64 pt e) = decode_u64 pt e) /\ (forall pt e, snd (t_decode_big pt e) = decode_big pt e) /\ (forall pt e, snd (t_decode_i64 pt e) = decode_i64 pt e)) /\
  ((forall x sk pt sd r, snd (t_sk_encrypt x sk pt sd r) = sk_encrypt x sk pt sd r) /\ (forall sk ct, snd (t_sk_decrypt sk ct) = sk_decrypt sk ct) /\ (forall sk ct, snd (t_measure_noise sk ct) = measure_noise sk ct) /\
   (forall x sk sd r, snd (t_pk_new x sk sd r) = pk_new x sk sd r) /\ (forall pk pt ru r1 r2, snd (t_pk_encrypt pk pt ru r1 r2) = pk_encrypt pk pt ru r1 r2)) /\
  ((forall x d sk f l1 l2 sd r, snd (t_ksk_new x d sk f l1 l2 sd r) = ksk_new x d sk f l1 l2 sd r) /\ (forall x d sk l1 l2 sd r, snd (t_relin_new x d sk l1 l2 sd r) = relin_new x d sk l1 l2 sd r) /\
   (forall x d sk e l1 l2 sd r, snd (t_galois_new x d sk e l1 l2 sd r) = galois_new x d sk e l1 l2 sd r) /\ (forall x d b sds r, snd (t_ek_build x d b sds r) = ek_build x d b sds r) /\
   (forall x d sk pt sd0 sd1 r0 r1, snd (t_rgsw_encrypt x d sk pt sd0 sd1 r0 r1) = rgsw_encrypt x d sk pt sd0 sd1 r0 r1)) /\
  ((forall a b, snd (t_ct_add a b) = ct_add a b) /\ (forall a b, snd (t_ct_sub a b) = ct_sub a b) /\ (forall a, snd (t_ct_neg a) = ct_neg a) /\ (forall a b, snd (t_ct_add_pt a b) = ct_add_pt a b) /\ (forall a b, snd (t_ct_sub_pt a b) = ct_sub_pt a b) /\
   (forall a b, snd (t_pt_sub_ct a b) = pt_sub_ct a b) /\ (forall a b, snd (t_ct_mul_pt a b) = ct_mul_pt a b) /\ (forall a b, snd (t_ct_mul a b) = ct_mul a b) /\ (forall a b, snd (t_dot_product_scalar a b) = dot_product_scalar a b) /\
   (forall a, snd (t_ct_switch_down a) = ct_switch_down a) /\ (forall a l, snd (t_ct_switch_to_level a l) = ct_switch_to_level a l)) /\
  ((forall k p, snd (t_key_switch k p) = key_switch k p) /\ (forall k ct, snd (t_relinearizes k ct) = relinearizes k ct) /\ (forall g ct, snd (t_galois_apply g ct) = galois_apply g ct)) /\
  ((forall sk crp r, snd (t_pk_share_new sk crp r) = pk_share_new sk crp r) /\ (forall sk crp r, snd (t_gen_new sk crp r) = gen_new sk crp r) /\ (forall g r0 r1, snd (t_gen_round1 g r0 r1) = gen_round1 g r0 r1) /\
   (forall g s r0 r1, snd (t_gen_round2 g s r0 r1) = gen_round2 g s r0 r1) /\ (forall a b ct r, snd (t_sks_new a b ct r) = sks_new a b ct r) /\ (forall sk ct r, snd (t_dec_share_new sk ct r) = dec_share_new sk ct r) /\
   (forall l, snd (t_sks_from_shares l) = sks_from_shares l) /\ (forall l, snd (t_dec_from_shares l) = dec_from_shares l) /\ (forall sk pk ct ru r0 r1, snd (t_pksw_new sk pk ct ru r0 r1) = pksw_new sk pk ct ru r0 r1)).
Proof. exact programs_all. Qed.
Print Assumptions C56_programs.
(** C56: what the traces record: each variable-time operation, if and only if its operands are public, with all their coefficients; *)
Theorem C56_observed :
  (forall p, observes [p_vt p] VtForward [p_coeffs p] (t_pb_into_ntt p) /\ observes [p_vt p] VtForward [p_coeffs p] (t_pb_into_ntt_shoup p)) /\
  (forall p, observes [p_vt p] VtBackward [p_coeffs p] (t_ntt_into_pb p)) /\
  (forall c v vt, observes [vt] VtReduce [[v]] (t_pb_from_u64 c v vt) /\ observes [vt] VtReduceI64 [[v]] (t_pb_from_i64 c v vt)) /\
  (forall p, observes [p_vt p] VtSwitchDown [p_coeffs p] (t_switch_down p)) /\
  (forall c v, fst (t_ntt_lazy_constant c v) = [Vt VtLazyForward [[v]]]) /\
  (forall R (a b : poly R), observes [p_vt a; p_vt b] VtAdd [p_coeffs a; p_coeffs b] (t_add a b) /\ observes [p_vt a; p_vt b] VtSub [p_coeffs a; p_coeffs b] (t_sub a b)) /\
  (forall a b, observes [p_vt a; p_vt b] VtMul [p_coeffs a; p_coeffs b] (t_mul a b)) /\
  (forall a b, observes [p_vt a; p_vt b] VtMulShoup [p_coeffs a; p_coeffs b] (t_mul_shoup a b)) /\
  (forall R (a : poly R), (forall k, observes [p_vt a] VtScalarMul [p_coeffs a; [[k]]] (t_scalar_mul a k)) /\ observes [p_vt a] VtNeg [p_coeffs a] (t_neg a)) /\
  (forall ps qs, observes (map (fun pq => p_vt (fst pq) && p_vt (snd pq)) (combine ps qs)) VtReduceU128 (map p_coeffs ps ++ map p_coeffs qs) (t_dot_product ps qs)) /\
  (forall s, (forall p : poly PowerBasis, fst (t_scale s p) = []) /\ (forall p : poly Ntt, observes [p_vt p] VtBackward [p_coeffs p] (t_scale s p))).
Proof. exact observed_all. Qed.
Print Assumptions C56_observed.
(** C56: nothing that was executed is forgotten. *)
Theorem C56_sequence : forall A B (x : T A) (f : A -> T B),
  (forall a, snd x = Val a -> fst (bindT x f) = fst x ++ fst (f a)) /\ ((forall a, snd x <> Val a) -> fst (bindT x f) = fst x) /\ fst (no_errT x) = fst x.
Proof. exact sequence_all. Qed.
Print Assumptions C56_sequence.
(** C56: encoding executes no variable-time operation unless asked for, and plaintexts encoded so are private and alike. *)
Theorem C56_encode : forall par e,
  (forall v, silent (t_encode_u64 false v e par) /\ silent (t_encode_big v e par) /\ silent (t_encode_i64 v e par)) /\
  (forall v vt pt, encode_u64 vt v e par = Val pt -> p_vt (pt_poly pt) = vt) /\
  (forall v w a b, encode_u64 false v e par = Val a \/ encode_big v e par = Val a \/ encode_i64 v e par = Val a ->
     encode_u64 false w e par = Val b \/ encode_big w e par = Val b \/ encode_i64 w e par = Val b -> private (pt_poly a) /\ pt_alike a b).
Proof. exact encode_all. Qed.
Print Assumptions C56_encode.
(** C56: neither does decoding a private plaintext. *)
Theorem C56_decode : forall pt e, private (pt_poly pt) -> silent (t_decode_u64 pt e) /\ silent (t_decode_big pt e) /\ silent (t_decode_i64 pt e).
Proof. exact decode_all. Qed.
Print Assumptions C56_decode.
(** C56: the functions that take the secret key execute no variable-time operation: decryption, whose plaintexts are private, the noise, encryption of private plaintexts, public keys. *)
Theorem C56_secret_key : forall sk, (forall ct, silent (t_sk_decrypt sk ct) /\ silent (t_measure_noise sk ct) /\ (forall pt, sk_decrypt sk ct = Val pt -> private (pt_poly pt))) /\
  (forall expand pt sd rng, private (pt_poly pt) -> silent (t_sk_encrypt expand sk pt sd rng)) /\ (forall expand sd rng, silent (t_pk_new expand sk sd rng)).
Proof. exact secret_all. Qed.
Print Assumptions C56_secret_key.
(** C56: encryption depends neither on the key, the noise nor a private plaintext. *)
Theorem C56_encrypt : forall a b, pt_alike a b ->
  (forall expand sk sk' sd sd' rng rng', sk_alike sk sk' -> same_trace (t_sk_encrypt expand sk a sd rng) (t_sk_encrypt expand sk' b sd' rng')) /\
  (forall pk ru r1 r2 ru' r1' r2', same_trace (t_pk_encrypt pk a ru r1 r2) (t_pk_encrypt pk b ru' r1' r2')).
Proof. exact encrypt_all. Qed.
Print Assumptions C56_encrypt.
(** C56: generation of keys and RGSW encryption execute variable-time operations, on data that depends on the published key only: *)
Theorem C56_keys : forall isp cands par, oracles isp cands -> is_params isp cands par -> forall expand derive, expands_well expand -> forall sk sk', is_sk par sk -> is_sk par sk' -> forall l1 l2, (l1 <= max_level par)%nat -> (l2 <= l1)%nat ->
  (forall sd sd' rngs rngs', (forall i, words (rngs i)) -> (forall i, words (rngs' i)) ->
    (forall from from' f f', is_poly par l2 from f -> is_poly par l2 from' f' -> poly_alike from from' -> same_trace_if eq (t_ksk_new expand derive sk from l1 l2 sd rngs) (t_ksk_new expand derive sk' from' l1 l2 sd' rngs')) /\
    same_trace_if eq (t_relin_new expand derive sk l1 l2 sd rngs) (t_relin_new expand derive sk' l1 l2 sd' rngs') /\
    (forall e, 0 <= e -> Z.odd e = true -> same_trace_if eq (t_galois_new expand derive sk e l1 l2 sd rngs) (t_galois_new expand derive sk' e l1 l2 sd' rngs'))) /\
  (forall b cols sds sds' rngs rngs', is_ekb par sk l1 l2 b cols -> (forall e i, words (rngs e i)) -> (forall e i, words (rngs' e i)) ->
    same_trace_if eq (t_ek_build expand derive b sds rngs) (t_ek_build expand derive (mkEkb sk' (eb_ct_level b) (eb_level b) (eb_inner_sum b) (eb_row b) (eb_expansion b) (eb_columns b) (eb_rot b)) sds' rngs')) /\
  (forall pt pt' m m' sd0 sd1 sd0' sd1' rngs0 rngs1 rngs0' rngs1', is_pt par l1 pt m -> is_pt par l1 pt' m' -> pt_alike pt pt' ->
    (forall i, words (rngs0 i)) -> (forall i, words (rngs1 i)) -> (forall i, words (rngs0' i)) -> (forall i, words (rngs1' i)) ->
    same_trace_if eq (t_rgsw_encrypt expand derive sk pt sd0 sd1 rngs0 rngs1) (t_rgsw_encrypt expand derive sk' pt' sd0' sd1' rngs0' rngs1')).
Proof. exact keys_all. Qed.
Print Assumptions C56_keys.
(** C56: they can be computed from the key. *)
Theorem C56_key_simulator : forall isp cands par, oracles isp cands -> is_params isp cands par -> forall expand derive, expands_well expand -> forall sk, is_sk par sk -> forall l1 l2, (l1 <= max_level par)%nat -> (l2 <= l1)%nat ->
  forall rngs, (forall i, words (rngs i)) ->
  (forall from f sd k, is_poly par l2 from f -> private from -> ksk_new expand derive sk from l1 l2 sd rngs = Val k -> key_events k (fst (t_ksk_new expand derive sk from l1 l2 sd rngs))) /\
  (forall sd k, relin_new expand derive sk l1 l2 sd rngs = Val k -> key_events k (fst (t_relin_new expand derive sk l1 l2 sd rngs))) /\
  (forall e sd g, 0 <= e -> Z.odd e = true -> galois_new expand derive sk e l1 l2 sd rngs = Val g -> key_events (g_ksk g) (fst (t_galois_new expand derive sk e l1 l2 sd rngs))) /\
  (forall pt m sd0 sd1 rngs1 r, is_pt par l1 pt m -> private (pt_poly pt) -> (forall i, words (rngs1 i)) -> rgsw_encrypt expand derive sk pt sd0 sd1 rngs rngs1 = Val r ->
    exists t0 t1, key_events (r_ksk0 r) t0 /\ key_events (r_ksk1 r) t1 /\ fst (t_rgsw_encrypt expand derive sk pt sd0 sd1 rngs rngs1) = t0 ++ t1).
Proof. exact simulator_all. Qed.
Print Assumptions C56_key_simulator.
(** C56: operations on ciphertexts and plaintexts; the product also depends on the equality of its operands. *)
Theorem C56_operations : forall a b, ct_alike a b ->
  (forall a' b', ct_alike a' b' -> runs_alike ct_alike (t_ct_add a a') (t_ct_add b b') /\ runs_alike ct_alike (t_ct_sub a a') (t_ct_sub b b') /\
     (ct_eqb a' a = ct_eqb b' b -> runs_alike ct_alike (t_ct_mul a a') (t_ct_mul b b'))) /\
  runs_alike ct_alike (t_ct_neg a) (t_ct_neg b) /\
  (forall m m', pt_alike m m' -> runs_alike ct_alike (t_ct_add_pt a m) (t_ct_add_pt b m') /\ runs_alike ct_alike (t_ct_sub_pt a m) (t_ct_sub_pt b m') /\
     runs_alike ct_alike (t_pt_sub_ct m a) (t_pt_sub_ct m' b) /\ runs_alike ct_alike (t_ct_mul_pt a m) (t_ct_mul_pt b m')) /\
  runs_alike ct_alike (t_ct_switch_down a) (t_ct_switch_down b) /\ (forall l, runs_alike ct_alike (t_ct_switch_to_level a l) (t_ct_switch_to_level b l)).
Proof. exact operations_all. Qed.
Print Assumptions C56_operations.
(** C56: dot products. *)
Theorem C56_dot_product : forall cts cts' pts pts', Forall2 ct_alike cts cts' -> Forall2 pt_alike pts pts' -> runs_alike ct_alike (t_dot_product_scalar cts pts) (t_dot_product_scalar cts' pts').
Proof. exact dot_product_all. Qed.
Print Assumptions C56_dot_product.
(** C56: relinearization and automorphisms, if the part that is switched is public. *)
Theorem C56_switching : forall a b, ct_alike a b -> (forall k, part_public 2 a -> runs_alike ct_alike (t_relinearizes k a) (t_relinearizes k b)) /\ (forall g, part_public 1 a -> runs_alike ct_alike (t_galois_apply g a) (t_galois_apply g b)).
Proof. exact switching_all. Qed.
Print Assumptions C56_switching.
(** C56: key switching gives public polynomials only if its operand and the key are public. *)
Theorem C56_key_switch_flags : forall k p r, key_switch k p = Val r -> p_vt (fst r) = p_vt p && forallb p_vt (k_c0 k) && forallb p_vt (k_c1 k) /\ p_vt (snd r) = p_vt (fst r).
Proof. exact switch_flags_all. Qed.
Print Assumptions C56_key_switch_flags.
(** C56: but it transforms its operand in variable time whatever the flag says; *)
Theorem C56_key_switch_exposes : forall k p r, k_log_base k = 0 -> key_switch k p = Val r ->
  forall i row, nth_error (p_coeffs p) i = Some row -> (i < length (k_c0 k))%nat -> (i < length (k_c1 k))%nat -> In (Vt VtLazyForward [[row]]) (fst (t_key_switch k p)).
Proof. exact switch_exposes_all. Qed.
Print Assumptions C56_key_switch_exposes.
(** so that a rotation of a product with a private plaintext depends on the plaintext. *)
Theorem C56_galois_refuted : exists par sk ct m1 m2 a b g u v, is_params isp_bfv cands_bfv par /\ is_sk par sk /\
  encode_u64 false [1] enc_ex par = Val m1 /\ encode_u64 false [2] enc_ex par = Val m2 /\ pt_alike m1 m2 /\
  ct_mul_pt ct m1 = Val a /\ ct_mul_pt ct m2 = Val b /\ ct_alike a b /\ fst (t_ct_mul_pt ct m1) = fst (t_ct_mul_pt ct m2) /\
  galois_new expand_ex derive_ex sk 3 0 0 sd_ex rngs_ex = Val g /\ galois_apply g a = Val u /\ galois_apply g b = Val v /\
  fst (t_galois_apply g a) <> fst (t_galois_apply g b).
Proof. exact rotate_refuted. Qed.
Print Assumptions C56_galois_refuted.
(** And the product shows whether two ciphertexts with private parts are equal. *)
Theorem C56_mul_refuted : exists par sk ct m1 m2 a b u v, is_params isp_bfv cands_bfv par /\ is_sk par sk /\
  encode_u64 false [1] enc_ex par = Val m1 /\ encode_u64 false [2] enc_ex par = Val m2 /\ pt_alike m1 m2 /\
  ct_add_pt ct m1 = Val a /\ ct_add_pt ct m2 = Val b /\ ct_alike a b /\ fst (t_ct_add_pt ct m1) = fst (t_ct_add_pt ct m2) /\
  ct_mul a a = Val u /\ ct_mul a b = Val v /\ fst (t_ct_mul a a) <> fst (t_ct_mul a b).
Proof. exact square_refuted. Qed.
Print Assumptions C56_mul_refuted.
(** C56: the shares of the multiparty protocols, *)
Theorem C56_multiparty : forall sk sk', sk_alike sk sk' ->
  (forall crp rng rng', same_trace (t_pk_share_new sk crp rng) (t_pk_share_new sk' crp rng')) /\
  (forall crp rng, silent (t_gen_new sk crp rng)) /\
  (forall crp u u' r0 r1 r0' r1', private u -> private u' -> p_ctx u = p_ctx u' -> same_trace (t_gen_round1 (mkGen sk crp u) r0 r1) (t_gen_round1 (mkGen sk' crp u') r0' r1')) /\
  (forall crp u s r0 r1, silent (t_gen_round2 (mkGen sk crp u) s r0 r1)) /\
  (forall ct rng, silent (t_sks_new sk sk' ct rng) /\ silent (t_dec_share_new sk ct rng)) /\
  (forall pk a b ru r0 r1 ru' r0' r1', ct_alike a b -> same_trace (t_pksw_new sk pk a ru r0 r1) (t_pksw_new sk' pk b ru' r0' r1')).
Proof. exact multiparty_all. Qed.
Print Assumptions C56_multiparty.
(** their aggregation, *)
Theorem C56_shares : forall l l', Forall2 share_alike l l' -> runs_alike ct_alike (t_sks_from_shares l) (t_sks_from_shares l') /\ runs_alike pt_alike (t_dec_from_shares l) (t_dec_from_shares l').
Proof. exact shares_all. Qed.
Print Assumptions C56_shares.
(** and the secret of the generator of relinearization key shares. *)
Theorem C56_share_generator : forall sk crp rng g, gen_new sk crp rng = Val g -> gen_sk g = sk /\ gen_crp g = crp /\ private (gen_u g) /\ par_context (sk_par sk) 0 = Val (p_ctx (gen_u g)).
Proof. exact gen_u_all. Qed.
Print Assumptions C56_share_generator.
(** The number of variable-time operations: encoding in variable time, in constant time; encryption; a sum of new ciphertexts; one with a sum of a ciphertext and a plaintext; that sum; a relinearization key; a product; its relinearization; decryption. *)
Example C56_counts_ex : count_ex = Val [3; 0; 0; 2; 1; 0; 2; 13; 13; 0]%nat.
Proof. exact count_ex_counts. Qed.
Print Assumptions C56_counts_ex.
