(** Property C55: the byte strings of [to_bytes] and [from_bytes] (BytesModel.v).

    [byte_string b]: the elements of [b] are bytes; [fits b]: [b] has less than 2^64 bytes, as every [Vec<u8>].  [varint_of l v]: the
    definition of varints in the protobuf format.  [at_address id par]: the parameters [par] with another identity.  [safe r P], [key_shape],
    [pk_shape], [ek_shape], [rgsw_shape], [some_ct]: as in PropsWire.v; [reach]: as in PropsReach.v. *)
From Verif Require Import Outcome BasicSpec PolySpec ZqModel NttModel CbdModel TranscodeModel RnsModel RnsSpec RqModel RqSpec ParamsModel BfvSpec PlainModel CipherModel OpsModel SchemeSpec CipherSpec KeysModel KeysSpec EvalSpec RgswSpec WireSpec ReachSpec.
From Verif Require Import PrimeCert ExampleParams CipherExamples KeyExamples WireExamples BytesModel BytesSpec BytesPropLemmas BytesExamples.
(** C55: numbers are written as varints of at most ten bytes, and every varint of at most ten bytes is read, minimal or not. *)
Theorem C55_varint : forall v, is_u64 v ->
  (varint_of (put_varint v) v /\ (length (put_varint v) <= 10)%nat) /\ (forall l r, varint_of l v -> (length l <= 10)%nat -> get_varint (l ++ r) = Some (v, r)).
Proof. exact varint_all. Qed.
Print Assumptions C55_varint.
(** The examples of the protobuf documentation. *)
Example C55_format_ex : put_varint 150 = [150; 1] /\ put_varint 300 = [172; 2] /\ varint_of [172; 2] 300 /\ put_field (1, Varint 150) = [8; 150; 1] /\ put_field (2, Bytes [116; 101; 115; 116; 105; 110; 103]) = [18; 7; 116; 101; 115; 116; 105; 110; 103] /\
  get_varint [172; 130; 0] = Some (300, []) /\ get_varint [255; 255; 255; 255; 255; 255; 255; 255; 255; 2] = None /\ map zigzag [0; -1; 1; -2; 2147483647; -2147483648] = [0; 1; 2; 3; 4294967294; 4294967295].
Proof. exact format_ex. Qed.
Print Assumptions C55_format_ex.
(** C55: parameters survive, except for their identity: operations compare parameters by address. *)
Theorem C55_parameters : forall isp cands, oracles isp cands -> forall par, is_params isp cands par -> byte_string (params_to_bytes par) /\
  (fits (params_to_bytes par) -> forall id, params_from_bytes isp cands id (params_to_bytes par) = Val (at_address id par)).
Proof. exact params_bytes_all. Qed.
Print Assumptions C55_parameters.
(** The string of a parameter set, and another string with the same meaning. *)
Example C55_parameters_ex : params_string_ex = Val [8; 8; 18; 6; 241; 254; 63; 209; 253; 63; 24; 17; 32; 10] /\
  params_from_bytes isp_bfv cands_bfv 1 [8; 8; 18; 6; 241; 254; 63; 209; 253; 63; 24; 17; 32; 10] = par_ex /\ params_from_bytes isp_bfv cands_bfv 1 [8; 8; 16; 241; 254; 63; 16; 209; 253; 63; 32; 3; 32; 10; 24; 17] = par_ex.
Proof. exact params_ex. Qed.
Print Assumptions C55_parameters_ex.
(** C55: polynomials survive, in their representation only. *)
Theorem C55_polynomial : forall isp cands, oracles isp cands -> forall c, is_context isp cands c -> Z.of_nat (c_degree c) < 2 ^ 32 -> Z.of_nat (length (c_moduli c)) < 2 ^ 29 ->
  forall R (p : poly R), p_ctx p = c -> well_formed p -> exists b, poly_to_bytes p = Val b /\ byte_string b /\
    (fits b -> (p_vt p = false -> poly_from_bytes R b c = Val p) /\ (forall R', R' <> R -> poly_from_bytes R' b c = Err RepresentationMismatch)).
Proof. exact poly_bytes_all. Qed.
Print Assumptions C55_polynomial.
(** C55: every reachable ciphertext of two parts or more survives. *)
Theorem C55_ciphertext : forall isp cands par, oracles isp cands -> is_params isp cands par -> serializable par -> forall expand, expands_well expand -> forall ct, reach isp cands expand par ct -> (2 <= length (ct_c ct))%nat ->
  exists b, ct_to_bytes ct = Val b /\ (fits b -> ct_from_bytes expand b par = Val (with_vt ct)) /\ ct_eqb (with_vt ct) ct = true.
Proof. exact ct_bytes_all. Qed.
Print Assumptions C55_ciphertext.
(** C55: the strings of the other reachable ciphertexts are rejected. *)
Theorem C55_short_ciphertext : forall isp cands par, oracles isp cands -> is_params isp cands par -> serializable par -> forall expand, expands_well expand -> forall ct, reach isp cands expand par ct -> (length (ct_c ct) < 2)%nat ->
  exists b, ct_to_bytes ct = Val b /\ (fits b -> ct_from_bytes expand b par = Err (InvalidCiphertextPolynomialCount (Z.of_nat (length (ct_c ct))) false)).
Proof. exact ct_short_bytes_all. Qed.
Print Assumptions C55_short_ciphertext.
(** C55: secret keys survive. *)
Theorem C55_secret_key : forall par, forall sk, is_sk par sk -> byte_string (sk_to_bytes sk) /\ (fits (sk_to_bytes sk) -> sk_from_bytes (sk_to_bytes sk) par = Val sk).
Proof. exact sk_bytes_all. Qed.
Print Assumptions C55_secret_key.
(** C55: new public keys survive. *)
Theorem C55_public_key : forall isp cands par, oracles isp cands -> is_params isp cands par -> serializable par -> forall expand, expands_well expand -> forall sk, is_sk par sk -> forall sd rng, length sd = 32%nat -> words rng ->
  exists pk b, pk_new expand sk sd rng = Val pk /\ pk_to_bytes pk = Val b /\ (fits b -> pk_from_bytes expand b par = Val pk).
Proof. exact pk_bytes_all. Qed.
Print Assumptions C55_public_key.
(** C55: key-switching keys of any content survive, as relinearization keys; *)
Theorem C55_key : forall isp cands par, oracles isp cands -> is_params isp cands par -> serializable par -> forall expand derive, expands_well expand -> forall l1 l2 k, key_shape par l1 l2 k -> key_faithful expand derive k ->
  exists b, relin_to_bytes k = Val b /\ (fits b -> relin_from_bytes expand derive b par = Val k).
Proof. exact relin_bytes_all. Qed.
Print Assumptions C55_key.
(** C55: so do new relinearization keys, *)
Theorem C55_relinearization_key : forall isp cands par, oracles isp cands -> is_params isp cands par -> supported par -> serializable par -> forall expand derive, expands_well expand -> forall sk, is_sk par sk ->
  forall l1 l2, (l1 <= max_level par)%nat -> (l2 < max_level par)%nat -> forall sd rngs, length sd = 32%nat -> (forall i, words (rngs i)) ->
  exists k b, relin_new expand derive sk l1 l2 sd rngs = Val k /\ relin_to_bytes k = Val b /\ (fits b -> relin_from_bytes expand derive b par = Val k).
Proof. exact relin_new_bytes_all. Qed.
Print Assumptions C55_relinearization_key.
(** C55: new evaluation keys, up to the order of their maps, *)
Theorem C55_evaluation_key : forall isp cands par, oracles isp cands -> is_params isp cands par -> serializable par -> forall expand derive, expands_well expand -> forall sk, is_sk par sk -> forall l1 l2, (l1 <= max_level par)%nat -> (l2 <= l1)%nat ->
  forall b cols sds rngs, is_ekb par sk l1 l2 b cols -> (forall e, length (sds e) = 32%nat) -> (forall e i, words (rngs e i)) ->
  exists ek s, ek_build expand derive b sds rngs = Val ek /\ ek_to_bytes ek = Val s /\ (fits s -> exists ek', ek_from_bytes expand derive s par = Val ek' /\ same_ek ek' ek).
Proof. exact ek_bytes_all. Qed.
Print Assumptions C55_evaluation_key.
(** C55: and new RGSW ciphertexts. *)
Theorem C55_rgsw : forall isp cands par, oracles isp cands -> is_params isp cands par -> serializable par -> forall expand derive, expands_well expand -> forall sk, is_sk par sk -> forall l, (l <= max_level par)%nat ->
  forall pt m, is_pt par l pt m -> forall sd0 sd1 rngs0 rngs1, length sd0 = 32%nat -> length sd1 = 32%nat -> (forall i, words (rngs0 i)) -> (forall i, words (rngs1 i)) ->
  exists r b, rgsw_encrypt expand derive sk pt sd0 sd1 rngs0 rngs1 = Val r /\ rgsw_to_bytes r = Val b /\ (fits b -> rgsw_from_bytes expand derive b par = Val r).
Proof. exact rgsw_bytes_all. Qed.
Print Assumptions C55_rgsw.
(** The lengths of such strings, and what is read back. *)
Example C55_strings_ex : strings_ex = Val ([10; 84; 82; 133; 138; 266], [true; true; true; true; true; true]).
Proof. exact strings_ex_eq. Qed.
Print Assumptions C55_strings_ex.
(** C55: no string of bytes makes the code panic: parameters, *)
Theorem C55_read_parameters : forall isp cands, oracles isp cands -> complete_draws cands -> forall id b, byte_string b -> safe (params_from_bytes isp cands id b) (is_params isp cands).
Proof. exact params_read_all. Qed.
Print Assumptions C55_read_parameters.
(** polynomials, *)
Theorem C55_read_polynomial : forall isp cands, oracles isp cands -> forall c, is_context isp cands c -> Z.of_nat (length (c_moduli c)) < 2 ^ 29 -> forall R b, byte_string b -> poly_from_bytes R b c <> Panic.
Proof. exact poly_read_bytes_all. Qed.
Print Assumptions C55_read_polynomial.
(** ciphertexts, *)
Theorem C55_read_ciphertext : forall isp cands par, oracles isp cands -> is_params isp cands par -> serializable par -> forall expand, expands_well expand -> forall b, byte_string b ->
  safe (ct_from_bytes expand b par) (fun ct => (ct_level ct <= max_level par)%nat /\ (exists n, (2 <= n)%nat /\ some_ct par (ct_level ct) n ct) /\ seed_faithful expand ct).
Proof. exact ct_read_bytes_all. Qed.
Print Assumptions C55_read_ciphertext.
(** secret keys, *)
Theorem C55_read_secret_key : forall par, forall b, safe (sk_from_bytes b par) (fun sk => sk_par sk = par /\ length (sk_coeffs sk) = pa_degree par).
Proof. exact sk_read_bytes_all. Qed.
Print Assumptions C55_read_secret_key.
(** public keys, *)
Theorem C55_read_public_key : forall isp cands par, oracles isp cands -> is_params isp cands par -> serializable par -> forall expand, expands_well expand -> forall b, byte_string b -> safe (pk_from_bytes expand b par) (pk_shape par).
Proof. exact pk_read_bytes_all. Qed.
Print Assumptions C55_read_public_key.
(** relinearization keys, *)
Theorem C55_read_relinearization_key : forall isp cands par, oracles isp cands -> is_params isp cands par -> serializable par -> forall expand derive, expands_well expand -> forall b, byte_string b -> safe (relin_from_bytes expand derive b par) (fun k => exists l1 l2, key_shape par l1 l2 k).
Proof. exact relin_read_bytes_all. Qed.
Print Assumptions C55_read_relinearization_key.
(** evaluation keys *)
Theorem C55_read_evaluation_key : forall isp cands par, oracles isp cands -> is_params isp cands par -> serializable par -> forall expand derive, expands_well expand -> forall b, byte_string b -> safe (ek_from_bytes expand derive b par) (fun ek => ek_shape par (ek_ct_level ek) ek).
Proof. exact ek_read_bytes_all. Qed.
Print Assumptions C55_read_evaluation_key.
(** and RGSW ciphertexts. *)
Theorem C55_read_rgsw : forall isp cands par, oracles isp cands -> is_params isp cands par -> serializable par -> forall expand derive, expands_well expand -> forall b, byte_string b -> safe (rgsw_from_bytes expand derive b par) (fun r => rgsw_shape par (k_level (r_ksk0 r)) r).
Proof. exact rgsw_read_bytes_all. Qed.
Print Assumptions C55_read_rgsw.
(** Strings that are rejected. *)
Example C55_rejects_ex : rejects_ex = Val (repeat true 8).
Proof. exact rejects_ex_eq. Qed.
Print Assumptions C55_rejects_ex.
(** C55: strings are not unique: a field with another number changes nothing. *)
Theorem C55_unknown_field : forall ct b, ct_to_bytes ct = Val b -> forall tag v, 4 <= tag < 2 ^ 29 -> is_u64 v -> let s := b ++ put_varint (8 * tag) ++ put_varint v in
  fits s -> s <> b /\ forall expand par, ct_from_bytes expand s par = ct_from_bytes expand b par.
Proof. exact unknown_all. Qed.
Print Assumptions C55_unknown_field.
(** C55: the coefficients of a secret key may come in several pieces, which are put together, *)
Theorem C55_merge : forall par a b, Forall is_i64 a -> Forall is_i64 b -> length (a ++ b) = pa_degree par -> let s := sk_to_bytes (mkSk par a) ++ sk_to_bytes (mkSk par b) in
  fits s -> sk_from_bytes s par = Val (mkSk par (a ++ b)).
Proof. exact merge_all. Qed.
Print Assumptions C55_merge.
(** A secret key in two pieces: the length of the string and the coefficients. *)
Example C55_pieces_ex : pieces_ex = Val [12; 1; -1; 0; 2; 0; 0; -3; 1].
Proof. exact pieces_ex_eq. Qed.
Print Assumptions C55_pieces_ex.
(** C55: and a flag appended to the string of a polynomial changes nothing. *)
Theorem C55_flag : forall R (p : poly R) b, poly_to_bytes p = Val b -> forall v, is_u64 v -> let s := b ++ put_varint (8 * 4) ++ put_varint v in
  fits s -> forall R' c, poly_from_bytes R' s c = poly_from_bytes R' b c.
Proof. exact flag_all. Qed.
Print Assumptions C55_flag.
(** Parameters, ciphertexts and strings that meet the hypotheses above. *)
Example C55_hypotheses_ex : exists par, is_params isp_bfv cands_bfv par /\ serializable par /\ expands_well expand_ex /\ byte_string [10; 5; 1] /\ is_u64 300 /\
  exists c0 c1 c2 c2', Forall (reach isp_bfv cands_bfv expand_ex par) [c0; c1; c2; c2'] /\ map (fun c => length (ct_c c)) [c0; c1; c2; c2'] = [0; 1; 2; 2]%nat.
Proof. exact bytes_hypotheses_ex. Qed.
Print Assumptions C55_hypotheses_ex.
