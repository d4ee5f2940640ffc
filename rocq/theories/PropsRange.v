(** Property C57: encoders and decoders panic on the values outside their range, and only on those.

    [too_large par e v]: some slot is at least 2t, or, at the last level, some coefficient is at least four times its modulus.
    [available par e]: the level of [e] exists, and its kind does.  [decoded_as pt o e]: [pt] is decoded as [e] if [o] is asked for.
    [signed t a]: the representative of [a] modulo t nearest to 0; [decode_base], [is_pt], [pad]: SchemeSpec.v. *)
From Verif Require Import Outcome BasicSpec PolySpec NttModel RqModel RqSpec ParamsModel BfvSpec PlainModel SchemeSpec ExampleParams ParamsPropLemmas RangeSpec RangePropLemmas RangeExamples.
(** C57: the encoders of [u64] values panic exactly on available encodings of values that are too large. *)
Theorem C57_encode : forall isp cands, oracles isp cands -> forall par, is_params isp cands par -> forall e vt v, Forall is_u64 v ->
  (e_kind e = EncSimd -> e_level e = max_level par -> pa_t par <= 4 * level_modulus par (e_level e)) ->
  (encode_vec_u64 vt v e par = Panic <-> available par e /\ too_large par e v) /\
  (encode_u64 vt v e par = Panic <-> (length v <= pa_degree par)%nat /\ available par e /\ too_large par e v).
Proof. exact encode_panics_all. Qed.
Print Assumptions C57_encode.
(** The outcomes of fifteen calls with t = 17 (0: a plaintext; 1: an error; 2: a panic). *)
Example C57_encode_ex : exists par, is_params isp_bfv cands_bfv par /\ range_run (Val par) = [0; 2; 2; 0; 2; 2; 0; 0; 2; 1; 1; 2; 1; 0; 0] /\
  available par (mkEnc EncSimd 0) /\ too_large par (mkEnc EncSimd 0) [34] /\ ~ too_large par (mkEnc EncSimd 0) [33] /\ available par (mkEnc EncPoly 1) /\ too_large par (mkEnc EncPoly 1) [0; 4193732] /\
  ~ too_large par (mkEnc EncPoly 0) [W64 - 1] /\ pa_t par <= 4 * level_modulus par 1.
Proof. exact range_ex. Qed.
Print Assumptions C57_encode_ex.
(** C57: all other values are encoded: coefficients as they are, slots by their residues. *)
Theorem C57_accepted : forall isp cands, oracles isp cands -> forall par, is_params isp cands par -> forall e vt v, Forall is_u64 v -> (length v <= pa_degree par)%nat -> available par e ->
  (e_kind e = EncSimd -> e_level e = max_level par -> pa_t par <= 4 * level_modulus par (e_level e)) -> ~ too_large par e v ->
  match e_kind e with
  | EncPoly => exists pt, encode_u64 vt v e par = Val pt /\ pt_enc pt = Some e /\ is_pt par (e_level e) pt (pad (pa_degree par) v)
  | EncSimd => exists pt, encode_u64 vt v e par = Val pt /\ encode_u64 vt (map (fun a => a mod pa_t par) v) e par = Val pt
  end.
Proof. exact accepted_all. Qed.
Print Assumptions C57_accepted.
(** C57: slots at the last level, if its modulus is below t/4: the coefficients of the polynomial with these slots decide. *)
Theorem C57_encode_low : forall isp cands, oracles isp cands -> forall par, is_params isp cands par -> pa_ntt par <> None ->
  forall vt v, (length v <= pa_degree par)%nat -> Forall (fun a => 0 <= a < 2 * pa_t par) v ->
  exists pt b, encode_u64 vt v (mkEnc EncSimd 0) par = Val pt /\ decode_u64 (mkPt par None (pt_poly pt)) (Some (mkEnc EncPoly 0)) = Val b /\
    (encode_u64 vt v (mkEnc EncSimd (max_level par)) par = Panic <-> Exists (fun a => 4 * level_modulus par (max_level par) <= a) b).
Proof. exact encode_low_all. Qed.
Print Assumptions C57_encode_low.
(** Parameters with slots. *)
Example C57_encode_low_ex : exists par, is_params isp_bfv cands_bfv par /\ pa_moduli par = [1048433; 1048273] /\ pa_t par = 17 /\ pa_degree par = 8%nat /\ pa_ntt par <> None.
Proof. exact params_exist. Qed.
Print Assumptions C57_encode_low_ex.
(** C57: the encoder of large integers never panics on coefficients, and on slots that are too large only if all of them fit 64 bits. *)
Theorem C57_encode_big : forall isp cands, oracles isp cands -> forall par, is_params isp cands par -> forall e v, Forall (fun a => 0 <= a) v ->
  (e_kind e = EncSimd -> e_level e = max_level par -> pa_t par <= 4 * level_modulus par (e_level e)) ->
  (encode_big v e par = Panic <-> (length v <= pa_degree par)%nat /\ available par e /\ e_kind e = EncSimd /\ Forall is_u64 v /\ too_large par e v).
Proof. exact encode_big_panics_all. Qed.
Print Assumptions C57_encode_big.
(** C57: the encoder of [i64] values panics only if the modulus of the last level is below t/4; there it does, on a single value. *)
Theorem C57_encode_signed : forall isp cands, oracles isp cands -> forall par, is_params isp cands par ->
  (forall e v, Forall is_i64 v -> 2 ^ 64 <= pa_t par \/ e_level e <> max_level par \/ pa_t par <= 4 * level_modulus par (e_level e) -> encode_i64 v e par <> Panic) /\
  (pa_t par < 2 ^ 64 -> 4 * level_modulus par (max_level par) < pa_t par -> encode_i64 [-1] (mkEnc EncPoly (max_level par)) par = Panic).
Proof. exact encode_signed_all. Qed.
Print Assumptions C57_encode_signed.
(** Such parameters. *)
Example C57_encode_signed_ex : exists par, is_params isp_bfv cands_bfv par /\ pa_t par < 2 ^ 64 /\ 4 * level_modulus par (max_level par) < pa_t par.
Proof. exact low_ex. Qed.
Print Assumptions C57_encode_signed_ex.
(** C57: decoding to unsigned values never panics; decoding to [i64] panics exactly on coefficients outside the range, which needs t >= 2^64. *)
Theorem C57_decode : forall isp cands, oracles isp cands -> forall par, is_params isp cands par -> forall l pt m o, (l <= max_level par)%nat -> is_pt par l pt m ->
  decode_big pt o <> Panic /\ decode_u64 pt o <> Panic /\
  (decode_i64 pt o = Panic <-> 2 ^ 64 <= pa_t par /\ exists e, decoded_as pt o e /\ e_kind e = EncPoly /\ Exists (fun a => ~ is_i64 (signed (pa_t par) (a mod decode_base par l))) m).
Proof. exact decode_panics_all. Qed.
Print Assumptions C57_decode.
(** C57: so it cannot if t <= 2^64, and it can otherwise. *)
Theorem C57_decode_signed : forall isp cands, oracles isp cands -> forall par, is_params isp cands par ->
  (pa_t par <= 2 ^ 64 -> forall l pt m o, (l <= max_level par)%nat -> is_pt par l pt m -> decode_i64 pt o <> Panic) /\
  (2 ^ 64 < pa_t par -> forall l, (l <= max_level par)%nat -> pa_t par <= level_modulus par l ->
   exists pt, encode_big [2 ^ 63] (mkEnc EncPoly l) par = Val pt /\ decode_big pt None = Val (pad (pa_degree par) [2 ^ 63]) /\ decode_i64 pt None = Panic).
Proof. exact decode_signed_all. Qed.
Print Assumptions C57_decode_signed.
(** Such parameters. *)
Example C57_decode_signed_ex : exists par, is_params isp_bfv cands_bfv par /\ 2 ^ 64 < pa_t par /\ pa_t par <= level_modulus par 0.
Proof. exact above_ex. Qed.
Print Assumptions C57_decode_signed_ex.
