(** Properties C32 and C33: plaintexts (fhe/src/bfv/encoding.rs, plaintext.rs, plaintext_vec.rs).

    [level_modulus par l] is the ciphertext modulus Q of level [l]; [pad n v] completes [v] with zeros; [signed t a] is the
    representative of [a] modulo [t] in [floor(t/2) - t, floor(t/2)).  [o] is the encoding given to the decoder, if any. *)
From Verif Require Import Outcome BasicSpec PolySpec ZqModel NttModel TranscodeModel RnsModel RnsSpec RqModel RqSpec ParamsModel BfvSpec PrimeCert ExampleParams PlainModel CipherModel SchemeSpec PlainPropLemmas.
From Coq Require Import Znumtheory Permutation.

(** The round trip as stated, for values below t, needs the modulus of the level to be at least t: see [C32_low_level_refuted]. *)
(** C32: unsigned and big-integer values below t, both encodings, every level with t <= Q. *)
Theorem C32_unsigned : forall isp cands, oracles isp cands -> forall par, is_params isp cands par -> forall l, (l <= max_level par)%nat -> pa_t par <= level_modulus par l ->
  forall e v, e_level e = l -> usable par e -> (length v <= pa_degree par)%nat -> Forall (fun a => 0 <= a < pa_t par) v ->
  (exists pt, encode_big v e par = Val pt /\ forall o, o = None \/ o = Some e ->
     decode_big pt o = Val (pad (pa_degree par) v) /\ (Forall is_u64 v -> decode_u64 pt o = Val (pad (pa_degree par) v))) /\
  (Forall is_u64 v -> forall vt, exists pt, encode_u64 vt v e par = Val pt /\ forall o, o = None \/ o = Some e ->
     decode_big pt o = Val (pad (pa_degree par) v) /\ decode_u64 pt o = Val (pad (pa_degree par) v)).
Proof. exact roundtrip_unsigned_all. Qed.
Print Assumptions C32_unsigned.
(** C32: signed values, any 64-bit integers: decoded as the signed representative modulo t; unchanged inside [floor(t/2) - t, floor(t/2)). *)
Theorem C32_signed : forall isp cands, oracles isp cands -> forall par, is_params isp cands par -> forall l, (l <= max_level par)%nat -> pa_t par <= level_modulus par l ->
  forall e v, e_level e = l -> usable par e -> (length v <= pa_degree par)%nat -> Forall is_i64 v ->
  exists pt, encode_i64 v e par = Val pt /\ forall o, o = None \/ o = Some e ->
    decode_i64 pt o = Val (pad (pa_degree par) (map (signed (pa_t par)) v)) /\
    decode_big pt o = Val (pad (pa_degree par) (map (fun a => a mod pa_t par) v)) /\
    (Forall (fun a => pa_t par / 2 - pa_t par <= a < pa_t par / 2) v -> decode_i64 pt o = Val (pad (pa_degree par) v)).
Proof. exact roundtrip_signed_all. Qed.
Print Assumptions C32_signed.
(** C32: vectors longer than N are cut into plaintexts that decode to consecutive pieces. *)
Theorem C32_vectors : forall isp cands, oracles isp cands -> forall par, is_params isp cands par -> forall l, (l <= max_level par)%nat -> pa_t par <= level_modulus par l ->
  forall e v, e_level e = l -> usable par e -> Forall (fun a => 0 <= a < pa_t par) v -> Forall is_u64 v -> forall vt,
  exists pts ws, encode_vec_u64 vt v e par = Val pts /\ length pts = Nat.max ((length v + pa_degree par - 1) / pa_degree par) 1 /\   mapM (fun pt => decode_u64 pt (Some e)) pts = Val ws /\ concat ws = pad (length pts * pa_degree par) v.
Proof. exact encode_vec_all. Qed.
Print Assumptions C32_vectors.
(** C32: values not reduced modulo t, polynomial encoding: they are first reduced modulo the decoding base. *)
Theorem C32_unreduced : forall isp cands, oracles isp cands -> forall par, is_params isp cands par -> forall l, (l <= max_level par)%nat ->
  forall v, (length v <= pa_degree par)%nat ->
  let e := mkEnc EncPoly l in
  let w := map (fun a => (a mod decode_base par l) mod pa_t par) v in
  (exists pt, encode_big v e par = Val pt /\ decode_big pt (Some e) = Val (pad (pa_degree par) w)) /\
  (Forall is_u64 v -> (l < max_level par)%nat \/ Forall (fun a => 0 <= a < level_modulus par l) v -> forall vt,
   exists pt, encode_u64 vt v e par = Val pt /\ decode_big pt (Some e) = Val (pad (pa_degree par) w)).
Proof. exact unreduced_all. Qed.
Print Assumptions C32_unreduced.
(** C32: hence values below the decoding base come back modulo t. *)
Theorem C32_unreduced_small : forall isp cands, oracles isp cands -> forall par, is_params isp cands par -> forall l, (l <= max_level par)%nat ->
  forall v, (length v <= pa_degree par)%nat -> Forall (fun a => 0 <= a < decode_base par l) v ->
  let e := mkEnc EncPoly l in
  exists pt, encode_big v e par = Val pt /\ decode_big pt (Some e) = Val (pad (pa_degree par) (map (fun a => a mod pa_t par) v)).
Proof. exact unreduced_ok_all. Qed.
Print Assumptions C32_unreduced_small.
(** C32 fails for larger values: whenever t is below the first modulus, some vector of 64-bit words does not decode to its reduction modulo t. *)
Theorem C32_unreduced_refuted : forall isp cands, oracles isp cands -> forall par, is_params isp cands par ->
  pa_t par < hd 0 (pa_moduli par) -> pa_t par < 2 ^ 64 -> (1 <= max_level par)%nat ->
  exists v pt, Forall is_u64 v /\ (length v <= pa_degree par)%nat /\ encode_u64 false v (mkEnc EncPoly 0) par = Val pt /\
    decode_u64 pt None <> Val (pad (pa_degree par) (map (fun a => a mod pa_t par) v)).
Proof. exact unreduced_bad_all. Qed.
Print Assumptions C32_unreduced_refuted.
(** C32 fails at the levels whose modulus is below t, even for values below t. *)
Theorem C32_low_level_refuted : forall isp cands, oracles isp cands -> forall par, is_params isp cands par -> forall l, (l <= max_level par)%nat -> level_modulus par l < pa_t par ->
  exists v pt, Forall (fun a => 0 <= a < pa_t par) v /\ (length v <= pa_degree par)%nat /\ encode_big v (mkEnc EncPoly l) par = Val pt /\
    decode_big pt None <> Val (pad (pa_degree par) v).
Proof. exact low_level_bad_all. Qed.
Print Assumptions C32_low_level_refuted.
(** C32: what the encoders refuse. *)
Theorem C32_encode_errors : forall isp cands, oracles isp cands -> forall par, is_params isp cands par -> forall e vt v,
  ((pa_degree par < length v)%nat -> encode_u64 vt v e par = Err (TooManyValues (len v) (Z.of_nat (pa_degree par))) /\
     encode_big v e par = Err (TooManyValues (len v) (Z.of_nat (pa_degree par))) /\
     (Forall is_i64 v -> encode_i64 v e par = Err (TooManyValues (len v) (Z.of_nat (pa_degree par))))) /\
  ((length v <= pa_degree par)%nat -> e_kind e = EncSimd -> pa_ntt par = None -> encode_u64 vt v e par = Err SimdUnavailable /\ encode_big v e par = Err SimdUnavailable) /\
  ((length v <= pa_degree par)%nat -> usable par e -> (max_level par < e_level e)%nat ->
     encode_u64 vt v e par = Err (InvalidLevel (Z.of_nat (e_level e)) 0 (Z.of_nat (max_level par))) /\
     encode_big v e par = Err (InvalidLevel (Z.of_nat (e_level e)) 0 (Z.of_nat (max_level par)))).
Proof. exact encode_errors_all. Qed.
Print Assumptions C32_encode_errors.
(** C32: decoding with another encoding than the stored one, or with none at all, is an error. *)
Theorem C32_decode_errors : forall pt : plaintext,
  (forall a b, pt_enc pt = Some a -> a <> b -> decode_big pt (Some b) = Err EncodingMismatch /\ decode_u64 pt (Some b) = Err EncodingMismatch) /\
  (pt_enc pt = None -> decode_big pt None = Err MissingEncoding /\ decode_u64 pt None = Err MissingEncoding).
Proof. exact decode_errors_all. Qed.
Print Assumptions C32_decode_errors.
Example C32_ex :
  bind par_ex (fun par => bind (encode_u64 false [1; 2; 16] (mkEnc EncSimd 1) par) (fun pt => decode_u64 pt None)) = Val [1; 2; 16; 0; 0; 0; 0; 0] /\
  bind par_ex (fun par => bind (encode_i64 [-1; 7; 8; -9; 30] (mkEnc EncSimd 0) par) (fun pt => decode_i64 pt None)) = Val [-1; 7; -9; -9; -4; 0; 0; 0] /\
  bind par_ex (fun par => bind (encode_big [1; 2; 16] (mkEnc EncPoly 0) par) (fun pt => decode_big pt (Some (mkEnc EncPoly 0)))) = Val [1; 2; 16; 0; 0; 0; 0; 0] /\
  bind par_ex (fun par => bind (encode_u64 true [18; 1048433] (mkEnc EncPoly 0) par) (fun pt => decode_u64 pt None)) = Val [1; 0; 0; 0; 0; 0; 0; 0] /\
  1048433 mod 17 = 9.
Proof. vm_compute. repeat split; reflexivity. Qed.
Example C32_low_level_ex : exists par, is_params isp_bfv cands_bfv par /\ (1 <= max_level par)%nat /\ level_modulus par 1 < pa_t par.
Proof. exact low_level_exists. Qed.

(** C33: the polynomial added to a ciphertext represents floor(Q * m / t), for a plaintext polynomial with values below the decoding base, at every level with t <= Q. *)
Theorem C33_scaling : forall isp cands, oracles isp cands -> forall par, is_params isp cands par -> forall l, (l <= max_level par)%nat -> pa_t par <= level_modulus par l ->
  forall pt m, is_pt par l pt m -> Forall (fun a => 0 <= a < decode_base par l) m ->
  exists c, par_context par l = Val c /\ returns (to_poly pt) c (map (fun a => level_modulus par l * (a mod pa_t par) / pa_t par) m).
Proof. exact scaling_all. Qed.
Print Assumptions C33_scaling.
Example C33_ex :
  bind par_ex (fun par => bind (encode_u64 false [1; 2; 16; 18] (mkEnc EncPoly 1) par) (fun pt => bind (to_poly pt) (fun p => bind (ntt_into_pb p) poly_to_big))) =
  Val [1048433 * 1 / 17; 1048433 * 2 / 17; 1048433 * 16 / 17; 1048433 * 1 / 17; 0; 0; 0; 0].
Proof. vm_compute. reflexivity. Qed.
