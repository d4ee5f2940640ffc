(** Property C48: [BfvParameters::default_parameters_128].  [default_rows] (DefaultSpec.v) are the degrees and moduli it offers, [defaults isp cands nb rows ps]
    says that [ps] has exactly one parameter set per row for which the largest prime of [nb] bits that is 1 modulo 2n is usable. *)
From Verif Require Import Outcome BasicSpec PolySpec ZqModel NttModel RnsModel RnsSpec RqModel RqSpec ParamsModel BfvSpec PlainModel CipherModel SchemeSpec CipherSpec DefaultModel DefaultSpec DefaultPropLemmas KeysModel KeysSpec EvalSpec MbfvModel MbfvSpec DefaultGroup.
From Verif Require Import ParamsPropLemmas ExampleParams CipherExamples DefaultExamples.
(** C48: for 1 to 63 bits, the parameter sets of the rows with a usable plaintext modulus, or an error when there is none. *)
Theorem C48_default_parameters : forall isp cands, oracles isp cands -> complete_draws cands -> forall ids nb, 1 <= nb <= 63 ->
  exists ps, defaults isp cands nb default_rows ps /\ default_parameters_128 isp cands ids nb = match ps with [] => Err (ParNoDefault nb) | _ => Val ps end.
Proof. exact default_all. Qed.
Print Assumptions C48_default_parameters.
(** C48: for 14 to 62 bits there is at least one parameter set. *)
Theorem C48_available : forall isp cands, oracles isp cands -> complete_draws cands -> forall ids nb, 14 <= nb <= 62 ->
  exists ps, default_parameters_128 isp cands ids nb = Val ps /\ ps <> [] /\ defaults isp cands nb default_rows ps.
Proof. exact default_some_all. Qed.
Print Assumptions C48_available.
(** C48: for 1 to 13 bits and for 63 bits there is none, and the result is an error. *)
Theorem C48_unavailable : forall isp cands, oracles isp cands -> complete_draws cands -> forall ids nb, 1 <= nb <= 13 \/ nb = 63 ->
  default_parameters_128 isp cands ids nb = Err (ParNoDefault nb).
Proof. exact default_none_all. Qed.
Print Assumptions C48_unavailable.
(** C48: a plaintext modulus shorter than the first modulus leaves room for decryption. *)
Theorem C48_decryptable : forall isp cands nb row par, In row default_rows -> default_params isp cands nb row par -> nb < nbits (hd 0 (snd row)) -> supported par /\ decryptable par.
Proof. exact default_decryptable_all. Qed.
Print Assumptions C48_decryptable.
(** C48: with at least six bits less than the first modulus, every message encrypted with the secret key decrypts. *)
Theorem C48_roundtrip : forall isp cands, oracles isp cands -> forall nb row par, In row default_rows -> default_params isp cands nb row par -> nb + 6 <= nbits (hd 0 (snd row)) ->
  forall expand sk sd rng pt m, expands_well expand -> words rng -> is_sk par sk -> is_pt par 0 pt m -> canonical (pa_t par) m ->
  exists ct pt', sk_encrypt expand sk pt sd rng = Val ct /\ sk_decrypt sk ct = Val pt' /\ is_pt par 0 pt' m.
Proof. exact default_roundtrip_all. Qed.
Print Assumptions C48_roundtrip.
(** C48: whatever the ciphertext, decryption gives coefficients below t and below the decryption base. *)
Theorem C48_decryption_bound : forall isp cands par, oracles isp cands -> is_params isp cands par -> forall l, (l <= max_level par)%nat -> supported par -> pa_t par <= level_modulus par l ->
  forall sk ct xs, is_sk par sk -> is_ct par l ct xs -> (2 <= length xs)%nat ->
  exists pt m, sk_decrypt sk ct = Val pt /\ is_pt par l pt m /\ canonical (pa_t par) m /\ canonical (decryption_base par) m.
Proof. exact decrypt_bound_all. Qed.
Print Assumptions C48_decryption_bound.
(** C48 fails at the ends: 0 bits and 64 bits or more panic instead of giving an error. *)
Theorem C48_panics_refuted : forall isp cands ids nb, nb = 0 \/ 64 <= nb -> default_parameters_128 isp cands ids nb = Panic.
Proof. exact default_panics_all. Qed.
Print Assumptions C48_panics_refuted.
(** C48 fails for these bits and degrees: the row has usable plaintext moduli, but it is left out because only the largest prime is tried, and that one is a modulus of the row. *)
Theorem C48_gap_refuted : forall isp cands, oracles isp cands -> complete_draws cands -> forall nb n, In (nb, n) [(36, 4096); (37, 4096); (43, 8192); (44, 8192); (48, 16384); (49, 16384)] ->
  (exists qs p, In (n, qs) default_rows /\ wanted nb (2 * n) (2 ^ nb - 1) p /\ usable_t qs p) /\
  forall ids, exists ps, default_parameters_128 isp cands ids nb = Val ps /\ Forall (fun par => Z.of_nat (pa_degree par) <> n) ps.
Proof. exact default_gap_all. Qed.
Print Assumptions C48_gap_refuted.
(** C48 fails for 42 to 62 bits: some parameter set that is returned has a plaintext modulus above its first modulus, and no ciphertext whatsoever decrypts to a message with a coefficient above that modulus. *)
Theorem C48_wide_refuted : forall isp cands, oracles isp cands -> complete_draws cands -> forall ids nb, 42 <= nb <= 62 ->
  exists ps row par, default_parameters_128 isp cands ids nb = Val ps /\ In par ps /\ In row default_rows /\ default_params isp cands nb row par /\ hd 0 (pa_moduli par) < pa_t par /\
  forall sk ct xs m, is_sk par sk -> is_ct par 0 ct xs -> (2 <= length xs)%nat -> canonical (pa_t par) m -> Exists (fun a => hd 0 (pa_moduli par) <= a) m ->
  exists pt, sk_decrypt sk ct = Val pt /\ ~ is_pt par 0 pt m.
Proof. exact default_wide_all. Qed.
Print Assumptions C48_wide_refuted.
(** C48: this is so for every returned set whose plaintext modulus has more bits than its first modulus. *)
Theorem C48_undecryptable_refuted : forall isp cands, oracles isp cands -> forall nb row par, In row default_rows -> default_params isp cands nb row par -> nbits (hd 0 (snd row)) < nb ->
  hd 0 (snd row) < pa_t par /\
  forall sk ct xs m, is_sk par sk -> is_ct par 0 ct xs -> (2 <= length xs)%nat -> canonical (pa_t par) m -> Exists (fun a => hd 0 (snd row) <= a) m ->
  exists pt, sk_decrypt sk ct = Val pt /\ ~ is_pt par 0 pt m.
Proof. exact default_undecryptable_all. Qed.
Print Assumptions C48_undecryptable_refuted.
(** C48: decryption by a group (of one member or more) needs no such condition: it works on every default set, at every level, as long as the noise is small. *)
Theorem C48_group : forall isp cands, oracles isp cands -> forall nb row par, In row default_rows -> default_params isp cands nb row par ->
  forall l ps ct m B, (l <= max_level par)%nat -> ps <> [] -> Forall (fun p => is_sk par (fst p) /\ words (snd p)) ps -> 0 <= B ->
  encrypts2 par (sum_sks par (map fst ps)) l ct m B -> small_noise par l (B + group_noise par (length ps)) ->
  exists pt, dec_protocol ps ct = Val pt /\ is_pt par l pt (map (fun a => a mod pa_t par) m).
Proof. exact default_group_all. Qed.
Print Assumptions C48_group.
(** C48: on the sets with two moduli or more, whatever the size of the plaintext modulus, what the secret key encrypts is decrypted by a group of its owner alone (compare [C48_wide_refuted]). *)
Theorem C48_group_roundtrip : forall isp cands, oracles isp cands -> forall nb row par, In row default_rows -> default_params isp cands nb row par -> (1 < length (snd row))%nat ->
  forall expand sk sd rng rng' pt m, expands_well expand -> words rng -> words rng' -> is_sk par sk -> is_pt par 0 pt m -> canonical (pa_t par) m ->
  exists ct pt', sk_encrypt expand sk pt sd rng = Val ct /\ dec_protocol [(sk, rng')] ct = Val pt' /\ is_pt par 0 pt' m.
Proof. exact default_group_roundtrip_all. Qed.
Print Assumptions C48_group_roundtrip.
(** The hypotheses of the round trip and of the refutation can be met. *)
Example C48_hypotheses_ex : exists row par, In row default_rows /\ default_params isp_bfv cands_bfv 20 row par /\ 20 + 6 <= nbits (hd 0 (snd row)) /\ expands_well expand_ex /\ words rng_ex /\
  exists sk pt m, is_sk par sk /\ is_pt par 0 pt m /\ canonical (pa_t par) m.
Proof. exact default_hypotheses_ex. Qed.
Example C48_wide_ex : exists row par, In row default_rows /\ default_params isp_bfv cands_bfv 50 row par /\ nbits (hd 0 (snd row)) < 50 /\
  exists sk ct xs m, is_sk par sk /\ is_ct par 0 ct xs /\ (2 <= length xs)%nat /\ canonical (pa_t par) m /\ Exists (fun a => hd 0 (snd row) <= a) m.
Proof. exact default_wide_ex. Qed.
Example C48_oracles_ex : oracles isp_bfv cands_bfv /\ complete_draws cands_bfv.
Proof. split; [exact oracles_bfv|exact cands_bfv_complete]. Qed.
(** A set on which one key cannot decrypt and its owner's group can. *)
Example C48_group_ex : exists row par, In row default_rows /\ default_params isp_bfv cands_bfv 50 row par /\ nbits (hd 0 (snd row)) < 50 /\ (1 < length (snd row))%nat /\ expands_well expand_ex /\ words rng_ex /\
  exists sk pt m, is_sk par sk /\ is_pt par 0 pt m /\ canonical (pa_t par) m.
Proof. exact default_group_ex. Qed.
