(** Property C49: circuits.  A [circuit] (CircuitSpec.v) is any composition of the homomorphic operations on the ciphertexts, plaintexts and keys of an environment.
    [run] makes the calls of the code, [meaning] is the polynomial they stand for, [slot_meaning] the vector of slots, and
    [estimate] the level, the number of parts and a bound of the noise of the result. *)
From Verif Require Import Outcome BasicSpec PolySpec ZqModel NttModel CbdModel CbdSpec RnsModel RnsSpec RqModel RqSpec ParamsModel BfvSpec PlainModel CipherModel OpsModel SchemeSpec CipherSpec KeysModel KeysSpec EvalSpec RgswSpec CircuitSpec CircuitProofs CircuitPropLemmas.
From Verif Require Import ParamsPropLemmas ExampleParams CipherExamples CircuitExamples.
(** C49: the calls succeed, and their result encrypts the polynomial of the circuit with at most the estimated noise. *)
Theorem C49_circuit : forall isp cands par, oracles isp cands -> is_params isp cands par -> supported par -> forall sk, is_sk par sk -> forall V, env_ok isp cands par sk V ->
  forall c l k B, estimate par sk V c = Some (l, k, B) ->
  (l <= max_level par)%nat /\ exists ct, run V c = Val ct /\ length (ct_c ct) = k /\ encrypts par sk l ct (meaning (pa_degree par) V c) B.
Proof. exact circuit_all. Qed.
Print Assumptions C49_circuit.
(** C49: when the estimated noise is small, decryption gives the polynomial of the circuit modulo t. *)
Theorem C49_decrypt : forall isp cands par, oracles isp cands -> is_params isp cands par -> supported par -> decryptable par -> forall sk, is_sk par sk -> forall V, env_ok isp cands par sk V ->
  forall c l k B, estimate par sk V c = Some (l, k, B) -> small_noise par l B ->
  exists ct pt, run V c = Val ct /\ sk_decrypt sk ct = Val pt /\ is_pt par l pt (map (fun a => a mod (pa_t par)) (meaning (pa_degree par) V c)) /\ pt_enc pt = None.
Proof. exact circuit_decrypt_all. Qed.
Print Assumptions C49_decrypt.
(** C49: and decoding gives the slots that the circuit computes from the slots of its inputs. *)
Theorem C49_slots : forall isp cands par, oracles isp cands -> is_params isp cands par -> pa_ntt par <> None -> supported par -> decryptable par -> forall sk, is_sk par sk -> forall V, env_ok isp cands par sk V -> slots_ok par V ->
  forall c l k B, slotwise c = true -> estimate par sk V c = Some (l, k, B) -> small_noise par l B ->
  exists ct pt, run V c = Val ct /\ sk_decrypt sk ct = Val pt /\ decode_u64 pt (Some (mkEnc EncSimd l)) = Val (slot_meaning (pa_degree par) (pa_t par) V c).
Proof. exact circuit_slots_all. Qed.
Print Assumptions C49_slots.
(** C49: plaintexts of an environment come from encoding. *)
Theorem C49_plain : forall isp cands par, oracles isp cands -> is_params isp cands par -> pa_ntt par <> None -> forall l, (l <= max_level par)%nat -> (pa_t par) <= level_modulus par l ->
  forall v, Forall (fun a => 0 <= a < (pa_t par)) v -> (length v <= (pa_degree par))%nat ->
  exists pt m, encode_u64 false v (mkEnc EncSimd l) par = Val pt /\ plain_ok par (mkPlain pt l m v) /\ encodes par l m v.
Proof. exact fresh_plain_all. Qed.
Print Assumptions C49_plain.
(** C49: ciphertexts of an environment come from encryption with the secret or the public key. *)
Theorem C49_input : forall isp cands par, oracles isp cands -> is_params isp cands par -> forall expand, expands_well expand -> forall sk, is_sk par sk -> forall p, plain_ok par p -> (pa_t par) <= level_modulus par (p_level p) ->
  (forall sd rng, words rng -> exists ct, sk_encrypt expand sk (p_pt p) sd rng = Val ct /\ length (ct_c ct) = 2%nat /\ input_ok par sk (mkInput ct (p_level p) (p_message p) (p_slots p) (2 * pa_variance par))) /\
  (forall pk l0 B ru r1 r2, (l0 <= p_level p)%nat -> is_pk par sk l0 pk B -> words ru -> words r1 -> words r2 -> exists ct, pk_encrypt pk (p_pt p) ru r1 r2 = Val ct /\ length (ct_c ct) = 2%nat /\
     input_ok par sk (mkInput ct (p_level p) (p_message p) (p_slots p) (pk_noise par (norm1 (sk_coeffs sk)) (dropped_noise (norm1 (sk_coeffs sk)) 2 (dropped (pa_moduli par) l0 (p_level p - l0)) B)))).
Proof. exact fresh_input_all. Qed.
Print Assumptions C49_input.
(** C49: relinearization keys and multiplicators come from [RelinearizationKey::new] and [Multiplicator::default]. *)
Theorem C49_relin_key : forall isp cands par, oracles isp cands -> is_params isp cands par -> forall expand derive, expands_well expand -> forall sk, is_sk par sk -> forall l1 l2, (l1 <= max_level par)%nat -> (l2 <= l1)%nat -> (l2 < max_level par)%nat ->
  forall sd rngs, (forall i, words (rngs i)) ->
  exists k, relin_new expand derive sk l1 l2 sd rngs = Val k /\ k_log_base k = 0 /\ rkey_ok par sk (mkRkey k l1 l2 (2 * pa_variance par)) /\
    (supported par -> mul_room par l1 2 -> complete_draws cands -> forall switch, (switch = true -> (l1 < max_level par)%nat) -> exists m, mkey_ok isp cands par sk (mkMkey m (mkRkey k l1 l2 (2 * pa_variance par)) switch)).
Proof. exact fresh_rkey_all. Qed.
Print Assumptions C49_relin_key.
(** C49: evaluation keys come from the builder. *)
Theorem C49_eval_key : forall isp cands par, oracles isp cands -> is_params isp cands par -> forall expand derive, expands_well expand -> forall sk, is_sk par sk -> forall l1 l2, (l1 <= max_level par)%nat -> (l2 <= l1)%nat ->
  forall b cols sds rngs, is_ekb par sk l1 l2 b cols -> (forall e i, words (rngs e i)) ->
  exists ek has, ek_build expand derive b sds rngs = Val ek /\ ekey_ok par sk (mkEkey ek l1 l2 has (2 * pa_variance par)) /\ forall e, has e = true <-> asked (pa_degree par) b cols e.
Proof. exact fresh_ekey_all. Qed.
Print Assumptions C49_eval_key.
(** C49: RGSW ciphertexts come from encryption. *)
Theorem C49_rgsw : forall isp cands par, oracles isp cands -> is_params isp cands par -> forall expand derive, expands_well expand -> forall sk, is_sk par sk -> forall p, plain_ok par p ->
  forall sd0 sd1 rngs0 rngs1, (forall i, words (rngs0 i)) -> (forall i, words (rngs1 i)) ->
  exists r, rgsw_encrypt expand derive sk (p_pt p) sd0 sd1 rngs0 rngs1 = Val r /\ gkey_ok par sk (mkGkey r (p_level p) (p_message p) (p_slots p) (2 * pa_variance par)) /\
    k_log_base (r_ksk0 r) = key_base par (p_level p) /\ k_log_base (r_ksk1 r) = key_base par (p_level p).
Proof. exact fresh_gkey_all. Qed.
Print Assumptions C49_rgsw.
(** C49: an environment and three circuits that meet all the hypotheses above. *)
Theorem C49_hypotheses_ex : exists par, is_params isp_bfv cands_bfv par /\ pa_ntt par <> None /\ supported par /\ decryptable par /\ pa_degree par = 8%nat /\ pa_t par = 17 /\
  exists sk, is_sk par sk /\ exists V, env_ok isp_bfv cands_bfv par sk V /\ slots_ok par V /\
    map i_slots (inputs V) = [[1; 2; 16; 4; 5; 6; 7; 8]; [3; 1; 4; 1; 5; 9]] /\
    (slotwise slots_circuit = true /\ slot_meaning 8 17 V slots_circuit = repeat 16 8 /\ exists B, estimate par sk V slots_circuit = Some (0%nat, 2%nat, B) /\ small_noise par 0 B) /\
    (slot_meaning 8 17 V switched_circuit = [14; 15; 4; 13; 9; 14; 0; 0] /\ exists B, estimate par sk V switched_circuit = Some (1%nat, 2%nat, B) /\ small_noise par 1 B) /\
    (exists B, estimate par sk V expanded_circuit = Some (0%nat, 2%nat, B) /\ small_noise par 0 B).
Proof. exact circuit_hypotheses_ex. Qed.
Print Assumptions C49_hypotheses_ex.
(** C49: and what the theorems say of them. *)
Theorem C49_ex : exists par sk V, env_ok isp_bfv cands_bfv par sk V /\ map i_slots (inputs V) = [[1; 2; 16; 4; 5; 6; 7; 8]; [3; 1; 4; 1; 5; 9]] /\
  (exists ct pt, run V slots_circuit = Val ct /\ sk_decrypt sk ct = Val pt /\ decode_u64 pt (Some (mkEnc EncSimd 0)) = Val (repeat 16 8)) /\
  (exists ct pt, run V switched_circuit = Val ct /\ sk_decrypt sk ct = Val pt /\ decode_u64 pt (Some (mkEnc EncSimd 1)) = Val [14; 15; 4; 13; 9; 14; 0; 0]) /\
  (exists ct pt, run V expanded_circuit = Val ct /\ sk_decrypt sk ct = Val pt).
Proof. exact circuit_run_ex. Qed.
Print Assumptions C49_ex.
