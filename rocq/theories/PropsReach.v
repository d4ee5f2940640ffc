(** Properties C42 (ciphertext serialization) and C46 (no stale seeds) for every ciphertext a program can hold
    (fhe/src/bfv/ciphertext.rs, fhe/src/bfv/ops/*.rs, fhe/src/bfv/keys/*.rs).

    [reach isp cands expand par ct]: [ct] results from encryptions, from [Ciphertext::new] or [Ciphertext::zero], from reading
    messages, or from any sequence of operations on such ciphertexts (ReachSpec.v lists them).  [result ins r]: one operation
    applied to the ciphertexts [ins] gives [r].  [seed_faithful expand ct]: the last part of [ct] is the expansion of its seed,
    if it has one.  [any_ct par ct]: a ciphertext of some level of the parameters, with any number of parts. *)
From Verif Require Import Outcome BasicSpec PolySpec NttModel RnsModel RqModel RqSpec ParamsModel BfvSpec PlainModel CipherModel OpsModel SchemeSpec CipherSpec KeysModel KeysSpec EvalSpec WireSpec ReachSpec ReachPropLemmas CipherExamples ExampleParams ReachExamples.

(** C42 and C46: every reachable ciphertext is a ciphertext of the parameters and its seed, if any, is that of its second and last part. *)
Theorem C42_reachable_shape : forall isp cands par, oracles isp cands -> is_params isp cands par -> serializable par -> forall expand, expands_well expand -> forall ct, reach isp cands expand par ct ->
  any_ct par ct /\ seed_faithful expand ct /\ (ct_seed ct <> None -> length (ct_c ct) = 2%nat).
Proof. exact reach_all. Qed.
Print Assumptions C42_reachable_shape.
(** C42: every reachable ciphertext of two parts or more survives serialization. *)
Theorem C42_reachable : forall isp cands par, oracles isp cands -> is_params isp cands par -> serializable par -> forall expand, expands_well expand -> forall ct, reach isp cands expand par ct -> (2 <= length (ct_c ct))%nat ->
  exists m, ct_to_proto ct = Val m /\ ct_from_proto expand m par = Val (with_vt ct) /\ ct_eqb (with_vt ct) ct = true.
Proof. exact reach_roundtrip_all. Qed.
Print Assumptions C42_reachable.
(** C42 fails for the others: the serialization of a reachable ciphertext of one part or none is rejected. *)
Theorem C42_short_refuted : forall isp cands par, oracles isp cands -> is_params isp cands par -> serializable par -> forall expand, expands_well expand -> forall ct, reach isp cands expand par ct -> (length (ct_c ct) < 2)%nat ->
  exists m, ct_to_proto ct = Val m /\ ct_from_proto expand m par = Err (InvalidCiphertextPolynomialCount (Z.of_nat (length (ct_c ct))) false).
Proof. exact reach_short_all. Qed.
Print Assumptions C42_short_refuted.
(** C46: operations on reachable ciphertexts return either a ciphertext without seed or one of their operands. *)
Theorem C46_reachable : forall isp cands par, oracles isp cands -> is_params isp cands par -> serializable par -> forall expand, expands_well expand -> forall ins r, Forall (reach isp cands expand par) ins -> result isp cands par ins r ->
  ct_seed r = None \/ In r ins.
Proof. exact reach_result_all. Qed.
Print Assumptions C46_reachable.
(** C46: which operations drop the seed, whatever their operands. *)
Theorem C46_dropped : forall r,
  (forall a b, ct_c a <> [] -> ct_c b <> [] -> ct_add a b = Val r \/ ct_sub a b = Val r \/ ct_mul a b = Val r -> ct_seed r = None) /\
  (forall a, ct_neg a = Val r \/ ct_switch_down a = Val r -> ct_seed r = None) /\
  (forall a l, l <> ct_level a -> ct_switch_to_level a l = Val r -> ct_seed r = None) /\
  (forall a pt, ct_add_pt a pt = Val r \/ ct_sub_pt a pt = Val r \/ pt_sub_ct pt a = Val r \/ ct_mul_pt a pt = Val r -> ct_seed r = None) /\
  (forall cts pts, dot_product_scalar cts pts = Val r -> ct_seed r = None) /\
  (forall m a b, mult_multiply m a b = Val r -> ct_seed r = None) /\
  (forall g a, galois_apply g a = Val r -> ct_seed r = None) /\
  (forall g a, ct_mul_rgsw a g = Val r \/ rgsw_mul_ct g a = Val r -> ct_seed r = None).
Proof. exact dropped_all. Qed.
Print Assumptions C46_dropped.
(** C46 fails for relinearizations of ciphertexts of three parts with a seed, which only come from messages that this library does not write: the seed stays, and serialization replaces the second part by its expansion. *)
Theorem C46_relinearization_refuted : forall isp cands par, oracles isp cands -> is_params isp cands par -> serializable par -> forall expand, expands_well expand -> forall l1 l2 k, key_shape par l1 l2 k -> base_fits k ->
  forall ct r sd, any_ct par ct -> ct_seed ct = Some sd -> length sd = 32%nat -> relinearizes k ct = Val r ->
  ct_seed r = Some sd /\ (~ seed_faithful expand r -> exists m r', ct_to_proto r = Val m /\ ct_from_proto expand m par = Val r' /\ ct_eqb r' r = false).
Proof. exact stale_all. Qed.
Print Assumptions C46_relinearization_refuted.
(** C46 read literally fails for operations that change nothing: sums with the zero ciphertext and switches to the current level return their operand with its seed (which is still that of its last part). *)
Theorem C46_identity_refuted : forall par ct sd, ct_par ct = par -> ct_seed ct = Some sd -> ct_c ct <> [] ->
  ct_add ct (ct_zero par) = Val ct /\ ct_add (ct_zero par) ct = Val ct /\ ct_sub ct (ct_zero par) = Val ct /\ ((ct_level ct <= max_level par)%nat -> ct_switch_to_level ct (ct_level ct) = Val ct).
Proof. exact identity_all. Qed.
Print Assumptions C46_identity_refuted.
Example C42_reachable_ex : exists par, is_params isp_bfv cands_bfv par /\ serializable par /\ expands_well expand_ex /\
  exists c0 c1 c2 c2', Forall (reach isp_bfv cands_bfv expand_ex par) [c0; c1; c2; c2'] /\ map (fun c => length (ct_c c)) [c0; c1; c2; c2'] = [0; 1; 2; 2]%nat /\ ct_seed c2 = Some sd_ex /\ ct_seed c2' = None.
Proof. exact reach_ex. Qed.
(** A message with a seed and two polynomials: three parts when read, two after relinearization, the seed is still there, and what comes back from its serialization differs. *)
Example C46_relinearization_ex : stale_ex = Val (3, 2, true, false).
Proof. vm_compute. reflexivity. Qed.
