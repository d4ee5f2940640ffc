(** Property C63: reading what was written by a program that uses other roots of unity.

    The roots of unity of the transforms are found by a search among pseudo-random candidates ([cands]); another version of
    the library, of its random generator, or a build with another transform may find others.  [same_numbers] (PortSpec.v)
    relates parameter sets of the same degree, moduli, variance and plaintext modulus, made with any two correct primality
    tests and any two sequences of candidates; [key_under] is the secret key of the same coefficients, and
    [decrypt_elsewhere] writes a ciphertext and a key with one parameter set, and reads and decrypts with the other. *)
From Verif Require Import Outcome BasicSpec PolySpec ZqModel NttModel CbdModel CbdSpec TranscodeModel RnsModel RnsSpec RqModel RqSpec ParamsModel BfvSpec PlainModel CipherModel OpsModel SchemeSpec CipherSpec EvalSpec BytesModel BytesSpec.
From Verif Require Import PrimeCert ExampleParams CipherExamples PortSpec PortPropLemmas PortExamples PortSlots PortSlotsEx.
(** C63: the bytes of a parameter set are accepted everywhere, give a parameter set with the same numbers, and are the bytes of that one too. *)
Theorem C63_parameters : forall isp cands isp' cands', oracles isp cands -> oracles isp' cands' -> complete_draws cands' -> forall par, is_params isp cands par -> fits (params_to_bytes par) ->
  forall id, exists par', params_from_bytes isp' cands' id (params_to_bytes par) = Val par' /\ is_params isp' cands' par' /\ same_numbers par par' /\ params_to_bytes par' = params_to_bytes par.
Proof. exact port_params_all. Qed.
Print Assumptions C63_parameters.
(** C63: the bytes of a polynomial, in any representation, do not depend on the roots; read elsewhere they give the same polynomial. *)
Theorem C63_polynomial : forall isp cands isp' cands', oracles isp cands -> oracles isp' cands' -> forall c c', is_context isp cands c -> is_context isp' cands' c' ->
  c_moduli c = c_moduli c' -> c_degree c = c_degree c' -> Z.of_nat (c_degree c) < 2 ^ 32 -> Z.of_nat (length (c_moduli c)) < 2 ^ 29 ->
  forall R (p : poly R) x, p_ctx p = c -> represents p x -> exists b, poly_to_bytes p = Val b /\
    (forall (p' : poly R), p_ctx p' = c' -> represents p' x -> poly_to_bytes p' = Val b) /\
    (fits b -> exists p', poly_from_bytes R b c' = Val p' /\ p_ctx p' = c' /\ represents p' x).
Proof. exact port_poly_all. Qed.
Print Assumptions C63_polynomial.
(** C63: secret keys are read elsewhere with the same coefficients. *)
Theorem C63_secret_key : forall par par', same_numbers par par' -> forall sk, is_sk par sk -> is_sk par' (key_under par' sk) /\ sk_to_bytes (key_under par' sk) = sk_to_bytes sk /\ (fits (sk_to_bytes sk) -> sk_from_bytes (sk_to_bytes sk) par' = Val (key_under par' sk)).
Proof. exact port_sk_all. Qed.
Print Assumptions C63_secret_key.
(** C63: ciphertexts without a seed are read elsewhere with the same parts. *)
Theorem C63_ciphertext : forall isp cands par isp' cands' par', oracles isp cands -> is_params isp cands par -> oracles isp' cands' -> is_params isp' cands' par' -> same_numbers par par' -> serializable par -> forall l, (l <= max_level par)%nat ->
  forall expand ct xs, expands_well expand -> is_ct par l ct xs -> (2 <= length xs)%nat -> ct_seed ct = None ->
  exists b, ct_to_bytes ct = Val b /\ (fits b -> exists ct', ct_from_bytes expand b par' = Val ct' /\ is_ct par' l ct' xs /\ ct_seed ct' = None).
Proof. exact port_ct_all. Qed.
Print Assumptions C63_ciphertext.
(** C63: hence they encrypt the same message with the same noise, and decrypt elsewhere to the same polynomial. *)
Theorem C63_decrypt : forall isp cands par isp' cands' par', oracles isp cands -> is_params isp cands par -> oracles isp' cands' -> is_params isp' cands' par' -> same_numbers par par' -> serializable par -> supported par -> decryptable par -> forall l, (l <= max_level par)%nat ->
  forall expand sk ct m B, expands_well expand -> is_sk par sk -> encrypts par sk l ct m B -> small_noise par l B -> ct_seed ct = None ->
  exists b, ct_to_bytes ct = Val b /\ (fits b -> exists ct', ct_from_bytes expand b par' = Val ct' /\ encrypts par' (key_under par' sk) l ct' m B /\
    exists pt pt', sk_decrypt sk ct = Val pt /\ sk_decrypt (key_under par' sk) ct' = Val pt' /\
      is_pt par l pt (map (fun a => a mod (pa_t par)) m) /\ is_pt par' l pt' (map (fun a => a mod (pa_t par)) m)).
Proof. exact port_decrypt_all. Qed.
Print Assumptions C63_decrypt.
(** C63: of a ciphertext with a seed, all parts but the last are the same; the last one has the same words, in the transformed representation, and these are another polynomial when the roots differ. *)
Theorem C63_seeded : forall isp cands par isp' cands' par', oracles isp cands -> is_params isp cands par -> oracles isp' cands' -> is_params isp' cands' par' -> same_numbers par par' -> serializable par -> forall l, (l <= max_level par)%nat ->
  forall expand ct xs x sd, expands_well expand -> is_ct par l ct (xs ++ [x]) -> (1 <= length xs)%nat -> ct_seed ct = Some sd -> seed_faithful expand ct ->
  exists b, ct_to_bytes ct = Val b /\ (fits b -> exists ct' y, ct_from_bytes expand b par' = Val ct' /\ is_ct par' l ct' (xs ++ [y]) /\ ct_seed ct' = Some sd /\
    (forall p p', nth_error (ct_c ct) (length xs) = Some p -> nth_error (ct_c ct') (length xs) = Some p' -> p_coeffs p' = p_coeffs p)).
Proof. exact port_seeded_all. Qed.
Print Assumptions C63_seeded.
(** C63: transformed polynomials of the two contexts have the same words exactly when, modulo each modulus, one is the image of the other by an automorphism X -> X^e; the exponents depend on the contexts only. *)
Theorem C63_words : forall isp cands isp' cands', oracles isp cands -> oracles isp' cands' -> forall c c', is_context isp cands c -> is_context isp' cands' c' -> c_moduli c = c_moduli c' -> c_degree c = c_degree c' ->
  exists es, length es = length (c_moduli c) /\ Forall (fun e => Z.odd e = true /\ 0 < e < 2 * Z.of_nat (c_degree c)) es /\
  forall (p p' : poly Ntt) x y, p_ctx p = c -> represents p x -> p_ctx p' = c' -> represents p' y ->
  (p_coeffs p' = p_coeffs p <-> Forall2 (fun q e => forall k, nth k y 0 mod q = nth k (automorphism (c_degree c) e x) 0 mod q) (c_moduli c) es).
Proof. exact port_words_all. Qed.
Print Assumptions C63_words.
(** C63: when the roots are the same, the contexts of the level are equal and every ciphertext is read elsewhere with the same parts. *)
Theorem C63_same_roots : forall isp cands par isp' cands' par', oracles isp cands -> is_params isp cands par -> oracles isp' cands' -> is_params isp' cands' par' -> same_numbers par par' -> serializable par -> forall l, (l <= max_level par)%nat -> par_context par l = par_context par' l ->
  forall expand ct xs, expands_well expand -> is_ct par l ct xs -> (2 <= length xs)%nat -> seed_faithful expand ct ->
  exists b, ct_to_bytes ct = Val b /\ (fits b -> exists ct', ct_from_bytes expand b par' = Val ct' /\ is_ct par' l ct' xs /\ ct_seed ct' = ct_seed ct).
Proof. exact port_same_roots_all. Qed.
Print Assumptions C63_same_roots.
(** C63 fails for fresh encryptions by a secret key, which have a seed: here the message read elsewhere is wrong. *)
Theorem C63_seeded_refuted : exists par par' sk pt ct pt' m m', is_params isp_bfv cands_bfv par /\ is_params isp_bfv cands_cubes par' /\ same_numbers par par' /\
  sk_random par rng_ex = Val sk /\ encode_u64 false m (mkEnc EncPoly 0) par = Val pt /\ sk_encrypt expand_ex sk pt sd_ex rng_ex = Val ct /\
  decrypt_elsewhere expand_ex sk ct par' = Val pt' /\ decode_u64 pt' (Some (mkEnc EncPoly 0)) = Val m' /\ firstn (length m) m' <> m.
Proof. exact port_seeded_refuted_all. Qed.
Print Assumptions C63_seeded_refuted.
(** C63 fails for public keys, which have a seed too: what a public key read elsewhere encrypts does not decrypt to its message. *)
Theorem C63_public_key_refuted : exists par par' sk pk b pk' pt ct pt' m m', is_params isp_bfv cands_bfv par /\ is_params isp_bfv cands_cubes par' /\ same_numbers par par' /\
  sk_random par rng_ex = Val sk /\ pk_new expand_ex sk sd_ex rng_ex = Val pk /\ pk_to_bytes pk = Val b /\ pk_from_bytes expand_ex b par' = Val pk' /\
  encode_u64 false m (mkEnc EncPoly 0) par' = Val pt /\ pk_encrypt pk' pt rng_ex rng_ex rng_ex = Val ct /\ sk_decrypt (key_under par' sk) ct = Val pt' /\ decode_u64 pt' (Some (mkEnc EncPoly 0)) = Val m' /\ firstn (length m) m' <> m.
Proof. exact port_pk_refuted_all. Qed.
Print Assumptions C63_public_key_refuted.
(** C63: read elsewhere, the slots of a ciphertext are those written, with the columns rotated by a step and the rows swapped or not; the step and the swap depend on the two parameter sets only, and there is none when the transforms of the plaintext modulus agree. *)
Theorem C63_slots : forall isp cands par isp' cands' par', oracles isp cands -> is_params isp cands par -> oracles isp' cands' -> is_params isp' cands' par' -> same_numbers par par' -> serializable par -> pa_ntt par <> None -> pa_ntt par' <> None ->
  exists i (sw : bool), (i < (pa_degree par) / 2)%nat /\ (pa_ntt par = pa_ntt par' -> i = O /\ sw = false) /\
  let change v := if sw then swapped_rows (pa_degree par) (rotated_columns (pa_degree par) i v) else rotated_columns (pa_degree par) i v in
  forall l, (l <= max_level par)%nat -> (pa_t par) <= level_modulus par l ->
  forall expand sk ct v B, expands_well expand -> is_sk par sk -> Forall (fun a => 0 <= a < (pa_t par)) v -> encrypts_slots par sk l ct v B -> ct_seed ct = None ->
  exists b, ct_to_bytes ct = Val b /\ (fits b -> exists ct', ct_from_bytes expand b par' = Val ct' /\ encrypts_slots par' (key_under par' sk) l ct' (change (pad (pa_degree par) v)) B /\
    (supported par -> decryptable par -> small_noise par l B -> exists pt, sk_decrypt (key_under par' sk) ct' = Val pt /\ decode_u64 pt (Some (mkEnc EncSimd l)) = Val (change (pad (pa_degree par) v)))).
Proof. exact port_slots_all. Qed.
Print Assumptions C63_slots.
(** C63 fails for slots: the polynomial of a plaintext is the same elsewhere, its slots are not. *)
Theorem C63_slots_refuted : exists par par' sk pk pt ct pt' m m', is_params isp_bfv cands_bfv par /\ is_params isp_bfv cands_cubes par' /\ same_numbers par par' /\
  sk_random par rng_ex = Val sk /\ pk_new expand_ex sk sd_ex rng_ex = Val pk /\ encode_u64 false m (mkEnc EncSimd 0) par = Val pt /\ pk_encrypt pk pt rng_ex rng_ex rng_ex = Val ct /\
  decrypt_elsewhere expand_ex sk ct par' = Val pt' /\ decode_u64 pt' (Some (mkEnc EncSimd 0)) = Val m' /\ firstn (length m) m' <> m.
Proof. exact port_slots_refuted_all. Qed.
Print Assumptions C63_slots_refuted.
Example C63_hypotheses_ex : oracles isp_bfv cands_bfv /\ oracles isp_bfv cands_cubes /\ complete_draws cands_cubes /\ expands_well expand_ex /\
  exists par par', is_params isp_bfv cands_bfv par /\ is_params isp_bfv cands_cubes par' /\ same_numbers par par' /\ serializable par /\ supported par /\ decryptable par /\ roots_differ par par' = true /\ fits (params_to_bytes par) /\
    exists sk pk pt ct pt', is_sk par sk /\ pk_new expand_ex sk sd_ex rng_ex = Val pk /\ encode_u64 false [1; 2; 16] (mkEnc EncPoly 0) par = Val pt /\ pk_encrypt pk pt rng_ex rng_ex rng_ex = Val ct /\ ct_seed ct = None /\
      decrypt_elsewhere expand_ex sk ct par' = Val pt' /\ decode_u64 pt' (Some (mkEnc EncPoly 0)) = Val [1; 2; 16; 0; 0; 0; 0; 0].
Proof. exact port_hypotheses_ex. Qed.
Example C63_slots_ex : exists par par', is_params isp_bfv cands_bfv par /\ is_params isp_bfv cands_cubes par' /\ same_numbers par par' /\ serializable par /\ supported par /\ decryptable par /\ pa_ntt par <> None /\ pa_ntt par' <> None /\ pa_t par <= level_modulus par 0 /\
  exists sk ct B pt', is_sk par sk /\ encrypts_slots par sk 0 ct [1; 2; 16] B /\ ct_seed ct = None /\
    decrypt_elsewhere expand_ex sk ct par' = Val pt' /\ decode_u64 pt' (Some (mkEnc EncSimd 0)) = Val (rotated_columns (pa_degree par) 1 (pad (pa_degree par) [1; 2; 16])).
Proof. exact port_slots_ex. Qed.
