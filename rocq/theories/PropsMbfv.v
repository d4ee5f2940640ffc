(** Property C44: the multiparty protocols.  [relin_protocol], [pk_protocol], [dec_protocol], [sks_protocol] and [pksw_protocol] (MbfvSpec.v) run the
    share of each member and aggregate the shares; groups have any number of members. *)
From Verif Require Import Outcome BasicSpec PolySpec ZqModel NttModel CbdModel TranscodeModel RnsModel RnsSpec RqModel RqSpec ParamsModel BfvSpec PlainModel CipherModel OpsModel SchemeSpec CipherSpec KeysModel KeysSpec EvalSpec MbfvModel MbfvSpec MbfvPropLemmas.
From Verif Require Import ParamsPropLemmas ExampleParams CipherExamples KeyExamples MbfvExamples DefaultExamples.
(** C44: the aggregated public key shares are a public key for the sum of the secret keys, whose second part is the common random polynomial. *)
Theorem C44_public_key : forall isp cands par, oracles isp cands -> is_params isp cands par -> forall ps crp a, ps <> [] -> Forall (fun p => is_sk par (fst p) /\ words (snd p)) ps -> is_poly par 0 crp a ->
  exists pk, pk_protocol ps crp = Val pk /\ is_pk par (sum_sks par (map fst ps)) 0 pk (group_noise par (length ps)) /\ nth_error (ct_c (pk_c pk)) 1 = Some crp.
Proof. exact group_pk_all. Qed.
Print Assumptions C44_public_key.
(** C44: the aggregated relinearization shares are a relinearization key for the sum of the secret keys. *)
Theorem C44_relinearization_key : forall isp cands par, oracles isp cands -> is_params isp cands par -> forall ps crps xs, (1 < length (pa_moduli par))%nat -> ps <> [] -> Forall (member_ok par) ps -> length crps = length (pa_moduli par) -> Forall2 (is_poly par 0) crps xs ->
  let S := sum_sks par (map me_sk ps) in
  exists rk, relin_protocol ps crps = Val rk /\ k_log_base rk = 0 /\
    is_ksk par S 0 0 rk (negacyclic (pa_degree par) (sk_coeffs S) (sk_coeffs S)) (relin_protocol_noise par (norm1 (sk_coeffs S)) (length ps)).
Proof. exact group_relin_all. Qed.
Print Assumptions C44_relinearization_key.
(** C44: that key relinearizes ciphertexts of three parts under the sum of the secret keys. *)
Theorem C44_relinearization : forall isp cands par, oracles isp cands -> is_params isp cands par -> forall ps crps xs, (1 < length (pa_moduli par))%nat -> ps <> [] -> Forall (member_ok par) ps -> length crps = length (pa_moduli par) -> Forall2 (is_poly par 0) crps xs ->
  let S := sum_sks par (map me_sk ps) in is_sk par S ->
  exists rk, relin_protocol ps crps = Val rk /\ forall ct m B, encrypts par S 0 ct m B -> length (ct_c ct) = 3%nat ->
    exists ct', relinearizes rk ct = Val ct' /\ encrypts2 par S 0 ct' m (B + switch_noise par 0 0 (relin_protocol_noise par (norm1 (sk_coeffs S)) (length ps))).
Proof. exact group_relin_use_all. Qed.
Print Assumptions C44_relinearization.
(** C44: the aggregated decryption shares give the message. *)
Theorem C44_decryption : forall isp cands par, oracles isp cands -> is_params isp cands par -> forall l, (l <= max_level par)%nat -> supported par -> group_decryptable par -> forall ps ct m B, ps <> [] -> Forall (fun p => is_sk par (fst p) /\ words (snd p)) ps ->
  encrypts2 par (sum_sks par (map fst ps)) l ct m B -> small_noise par l (B + group_noise par (length ps)) ->
  exists pt, dec_protocol ps ct = Val pt /\ is_pt par l pt (map (fun a => a mod (pa_t par)) m) /\ pt_enc pt = None.
Proof. exact group_dec_all. Qed.
Print Assumptions C44_decryption.
(** C44: a plaintext modulus below 2^200 and at most half of the product of the moduli leaves room for decryption by a group. *)
Theorem C44_room : forall isp cands par, oracles isp cands -> is_params isp cands par -> (pa_t par) < 2 ^ 200 -> 2 * (pa_t par) <= level_modulus par 0 -> group_decryptable par.
Proof. exact group_room_all. Qed.
Print Assumptions C44_room.
(** C44: whenever one key can decrypt, so can a group. *)
Theorem C44_room_single : forall isp cands par, oracles isp cands -> is_params isp cands par -> decryptable par -> group_decryptable par.
Proof. exact decryptable_group_all. Qed.
Print Assumptions C44_room_single.
(** C34: a plaintext modulus between 2^64 and 2^200, at most half of the product of the moduli, leaves room for decryption with one key. *)
Theorem C34_room : forall isp cands par, oracles isp cands -> is_params isp cands par -> 2 ^ 64 <= (pa_t par) < 2 ^ 200 -> 2 * (pa_t par) <= level_modulus par 0 -> decryptable par.
Proof. exact big_room_all. Qed.
Print Assumptions C34_room.
(** C44: what is encrypted with the public key of a group is decrypted by the group, at every level. *)
Theorem C44_roundtrip : forall isp cands par, oracles isp cands -> is_params isp cands par -> supported par -> group_decryptable par -> forall ps crp a, ps <> [] -> Forall (fun p => is_sk par (fst p) /\ words (snd p)) ps -> is_poly par 0 crp a ->
  forall S, S = sum_sks par (map fst ps) -> is_sk par S ->
  exists pk, pk_protocol ps crp = Val pk /\ forall l, (l <= max_level par)%nat ->
    small_noise par l (pk_noise par (norm1 (sk_coeffs S)) (dropped_noise (norm1 (sk_coeffs S)) 2 (dropped (pa_moduli par) 0 l) (group_noise par (length ps))) + group_noise par (length ps)) ->
    forall pt m ru r1 r2 ds, words ru -> words r1 -> words r2 -> is_pt par l pt m -> canonical (pa_t par) m -> Forall (fun p => words (snd p)) ds -> map fst ds = map fst ps ->
    exists ct pt', pk_encrypt pk pt ru r1 r2 = Val ct /\ dec_protocol ds ct = Val pt' /\ is_pt par l pt' m.
Proof. exact group_roundtrip_all. Qed.
Print Assumptions C44_roundtrip.
(** C44: aggregated secret key switch shares re-encrypt under the sum of the output keys. *)
Theorem C44_secret_key_switch : forall isp cands par, oracles isp cands -> is_params isp cands par -> forall l, (l <= max_level par)%nat -> forall ps ct m B, ps <> [] -> Forall (fun p => is_sk par (fst (fst p)) /\ is_sk par (snd (fst p)) /\ words (snd p)) ps ->
  encrypts2 par (sum_sks par (map (fun p => fst (fst p)) ps)) l ct m B ->
  exists ct', sks_protocol ps ct = Val ct' /\ encrypts2 par (sum_sks par (map (fun p => snd (fst p)) ps)) l ct' m (B + group_noise par (length ps)).
Proof. exact group_sks_all. Qed.
Print Assumptions C44_secret_key_switch.
(** C44: aggregated public key switch shares re-encrypt under the target key, for a public key of the level of the ciphertext or before. *)
Theorem C44_public_key_switch : forall isp cands par, oracles isp cands -> is_params isp cands par -> forall l0 l, (l0 <= l)%nat -> (l <= max_level par)%nat -> forall ps sk pk ct m B Bp, ps <> [] ->
  Forall (fun p => is_sk par (fst p) /\ words (fst (fst (snd p))) /\ words (snd (fst (snd p))) /\ words (snd (snd p))) ps -> is_sk par sk -> is_pk par sk l0 pk Bp ->
  encrypts2 par (sum_sks par (map fst ps)) l ct m B ->
  exists ct', pksw_protocol ps pk ct = Val ct' /\
    encrypts2 par sk l ct' m (pksw_noise par (norm1 (sk_coeffs sk)) (length ps) B (dropped_noise (norm1 (sk_coeffs sk)) 2 (dropped (pa_moduli par) l0 (l - l0)) Bp)).
Proof. exact group_pksw_all. Qed.
Print Assumptions C44_public_key_switch.
(** C44: a group without members is an error, for every aggregation. *)
Theorem C44_no_shares : pk_from_shares [] = Err NoShares /\ r1_from_shares [] = Err NoShares /\ relin_from_shares [] = Err NoShares /\ sks_from_shares [] = Err NoShares /\ dec_from_shares [] = Err NoShares /\ pksw_from_shares [] = Err NoShares.
Proof. exact no_shares_all. Qed.
Print Assumptions C44_no_shares.
(** The common random polynomials of the library are polynomials as required above. *)
Theorem C44_common_random : forall isp cands par, oracles isp cands -> is_params isp cands par -> 
  (forall l rows, (l <= max_level par)%nat -> Forall2 (fun q r => length r = (pa_degree par) /\ canonical q r) (level_moduli (pa_moduli par) l) rows -> exists p x, crp_new_leveled par l rows = Val p /\ is_poly par l p x) /\
  (forall rows, (forall i, Forall2 (fun q r => length r = (pa_degree par) /\ canonical q r) (pa_moduli par) (rows i)) ->
    exists ps xs, crp_new_vec par rows = Val ps /\ length ps = length (pa_moduli par) /\ Forall2 (is_poly par 0) ps xs).
Proof. exact crp_all. Qed.
Print Assumptions C44_common_random.
(** Relinearization keys need at least two moduli, and as many common random polynomials as there are moduli. *)
Theorem C44_relinearization_errors : forall isp cands par, oracles isp cands -> is_params isp cands par -> forall sk crps rng, is_sk par sk ->
  (length (pa_moduli par) = 1%nat -> gen_new sk crps rng = Err KeySwitchingNotSupported) /\
  (length (pa_moduli par) <> 1%nat -> length crps <> length (pa_moduli par) -> gen_new sk crps rng = Err (InvalidCrpCount (Z.of_nat (length crps)) (Z.of_nat (length (pa_moduli par))))).
Proof. exact relin_errors_all. Qed.
Print Assumptions C44_relinearization_errors.
(** Secret key switch shares need ciphertexts of two parts and the same parameters everywhere. *)
Theorem C44_secret_key_switch_errors : forall par, forall sk1 sk2 ct rng, (sk_par sk1 = par -> sk_par sk2 = par -> ct_par ct = par -> length (ct_c ct) <> 2%nat -> sks_new sk1 sk2 ct rng = Err (InvalidPolynomialCount (Z.of_nat (length (ct_c ct))) 2)) /\
  (par_eqb (sk_par sk1) (sk_par sk2) = false \/ par_eqb (sk_par sk2) (ct_par ct) = false -> sks_new sk1 sk2 ct rng = Err ParameterMismatch).
Proof. exact sks_errors_all. Qed.
Print Assumptions C44_secret_key_switch_errors.
(** A public key of a later level than the ciphertext is rejected. *)
Theorem C44_public_key_level : forall isp cands par, oracles isp cands -> is_params isp cands par -> forall l0 l, (l < l0)%nat -> (l0 <= max_level par)%nat -> forall sk pk xs ct ru r0 r1, sk_par sk = par -> pk_par pk = par -> is_ct par l0 (pk_c pk) xs -> ct_par ct = par -> ct_level ct = l ->
  pksw_new sk pk ct ru r0 r1 = Err NoMoreContext.
Proof. exact pksw_above_all. Qed.
Print Assumptions C44_public_key_level.
(** The public key switch reads only two parts of a ciphertext, and does not reject longer ones. *)
Theorem C44_three_parts_ignored : forall ps pk ct, pksw_protocol ps pk ct = pksw_protocol ps pk (mkCt (ct_par ct) (ct_seed ct) (firstn 2 (ct_c ct)) (ct_level ct)).
Proof. exact pksw_two_parts_all. Qed.
Print Assumptions C44_three_parts_ignored.
(** C44 fails for public key switches of ciphertexts of three parts: for all parameters and every message there is such a ciphertext, which decrypts to the message before the switch and to zero after it. *)
Theorem C44_three_parts_refuted : forall isp cands par, oracles isp cands -> is_params isp cands par -> supported par -> decryptable par -> small_noise par 0 (2 * group_noise par 1) -> forall m ru r1 r2, length m = (pa_degree par) -> canonical (pa_t par) m -> words ru -> words r1 -> words r2 ->
  exists sk pk ct ct' pt pt', is_sk par sk /\ is_pk par sk 0 pk 0 /\ length (ct_c ct) = 3%nat /\ encrypts par sk 0 ct m 0 /\ sk_decrypt sk ct = Val pt /\ is_pt par 0 pt m /\
    pksw_protocol [(sk, (ru, r1, r2))] pk ct = Val ct' /\ sk_decrypt sk ct' = Val pt' /\ is_pt par 0 pt' (repeat 0 (pa_degree par)).
Proof. exact pksw_three_all. Qed.
Print Assumptions C44_three_parts_refuted.
(** C44 fails for common random polynomials of another level, which the library generates: the public key share stops the program. *)
Theorem C44_leveled_crp_refuted : forall isp cands par, oracles isp cands -> is_params isp cands par -> forall l, (0 < l <= max_level par)%nat -> forall crp a sk rng, is_poly par l crp a -> is_sk par sk -> words rng -> pk_share_new sk crp rng = Panic.
Proof. exact crp_level_all. Qed.
Print Assumptions C44_leveled_crp_refuted.
(** A group that meets the hypotheses of these theorems, with noises that leave room. *)
Example C44_hypotheses_ex : exists par, is_params isp_bfv cands_bfv par /\ supported par /\ decryptable par /\ group_decryptable par /\ pa_t par < 2 ^ 200 /\ 2 * pa_t par <= level_modulus par 0 /\ (1 < length (pa_moduli par))%nat /\
  exists sk1 sk2, is_sk par sk1 /\ is_sk par sk2 /\ is_sk par (sum_sks par [sk1; sk2]) /\ member_ok par (member_ex sk1 0) /\ member_ok par (member_ex sk2 100) /\
  (exists (crp : poly Ntt) a, is_poly par 0 crp a) /\ (exists (crps : list (poly Ntt)) xs, length crps = length (pa_moduli par) /\ Forall2 (is_poly par 0) crps xs) /\
  let S := norm1 (sk_coeffs (sum_sks par [sk1; sk2])) in
  small_noise par 0 (pk_noise par S (dropped_noise S 2 (dropped (pa_moduli par) 0 0) (group_noise par 2)) + group_noise par 2) /\
  small_noise par 0 (2 * pa_variance par + switch_noise par 0 0 (relin_protocol_noise par S 2)) /\
  small_noise par 0 (pksw_noise par S 2 (2 * pa_variance par) (2 * pa_variance par)) /\ small_noise par 0 (2 * group_noise par 1).
Proof. exact mbfv_hypotheses_ex. Qed.
(** Two members: public key, decryption, switch to the keys of two others, switch to a public key. *)
Example C44_run_ex : mbfv_ex = Val ([1; 2; 16; 0; 0; 0; 0; 0], [1; 2; 16; 0; 0; 0; 0; 0], [1; 2; 16; 0; 0; 0; 0; 0]).
Proof. vm_compute. reflexivity. Qed.
(** Two members: relinearization key, relinearization, decryption. *)
Example C44_relin_ex : group_relin_ex = Val ([1; 2; 16; 0; 0; 0; 0; 0], 2).
Proof. vm_compute. reflexivity. Qed.
Example C34_room_ex : exists par, is_params isp_bfv cands_bfv par /\ 2 ^ 64 <= pa_t par < 2 ^ 200 /\ 2 * pa_t par <= level_modulus par 0 /\ decryptable par.
Proof. exact big_params. Qed.
