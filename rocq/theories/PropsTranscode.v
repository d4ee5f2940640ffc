(** Properties C08-C11: bit packing (fhe-util/src/lib.rs) and residue vector serialization (zq/mod.rs). *)
From Verif Require Import Outcome BasicSpec ZqModel ZqProofs TranscodeModel TranscodeProofs.

(** C08: packing to bytes and back.  The size hypothesis excludes overflow of the bit count in usize. *)
Theorem C08_bytes : forall a w, 0 < w <= 64 -> digits w a -> len a * w + 8 <= 2 ^ 64 ->
  exists bytes, transcode_to_bytes a w = Val bytes /\ digits 8 bytes /\
    len bytes = (len a * w + 7) / 8 /\
    digits_value 8 bytes = digits_value w a /\
    exists k, transcode_from_bytes bytes w = Val (a ++ repeat 0 k) /\ Z.of_nat k * w < 7 + w /\ ((8 | len a * w) -> k = 0%nat).
Proof. exact bytes_all. Qed.
Print Assumptions C08_bytes.
Theorem C08_bytes_exact : forall a w, 0 < w <= 64 -> digits w a -> len a * w + 8 <= 2 ^ 64 -> (8 | len a * w) ->
  exists bytes, transcode_to_bytes a w = Val bytes /\ len bytes = len a * w / 8 /\ transcode_from_bytes bytes w = Val a.
Proof. exact bytes_round_trip_exact. Qed.
Print Assumptions C08_bytes_exact.
(** C08, decoding direction: any byte string is accepted and keeps its value. *)
Theorem C08_from_bytes : forall b w, 0 < w <= 64 -> digits 8 b -> len b * 8 < 2 ^ 64 ->
  exists out, transcode_from_bytes b w = Val out /\ digits w out /\
    digits_value w out = digits_value 8 b /\ len out = div_ceil (len b * 8) w.
Proof. exact transcode_from_bytes_spec. Qed.
Print Assumptions C08_from_bytes.
Example C08_ex : digits 13 [8191; 0; 5] /\ transcode_to_bytes [8191; 0; 5] 13 = Val [255; 31; 0; 20; 0] /\
  transcode_from_bytes [255; 31; 0; 20; 0] 13 = Val [8191; 0; 5; 0].
Proof. split; [repeat constructor; vm_compute; congruence|split; vm_compute; reflexivity]. Qed.

(** C09 *)
Theorem C09_value : forall a w_in w_out, 0 < w_in <= 64 -> 0 < w_out <= 64 -> digits w_in a -> len a * w_in < 2 ^ 64 ->
  exists out, transcode_bidirectional a w_in w_out = Val out /\ digits w_out out /\
    digits_value w_out out = digits_value w_in a /\ len out = (len a * w_in + w_out - 1) / w_out.
Proof. exact transcode_bidirectional_spec. Qed.
Print Assumptions C09_value.
Theorem C09_round_trip : forall a w_in w_out, 0 < w_in <= 64 -> 0 < w_out <= 64 -> digits w_in a -> len a * w_in + w_out <= 2 ^ 64 ->
  exists b, transcode_bidirectional a w_in w_out = Val b /\
    exists k, transcode_bidirectional b w_out w_in = Val (a ++ repeat 0 k).
Proof. exact bidirectional_round_trip. Qed.
Print Assumptions C09_round_trip.
Example C09_ex : digits 10 [1023; 1; 512] /\ transcode_bidirectional [1023; 1; 512] 10 7 = Val [127; 15; 0; 0; 2].
Proof. split; [repeat constructor; vm_compute; congruence|vm_compute; reflexivity]. Qed.

(** C10 *)
Theorem C10_serialize : forall p m, modulus_new p = Val m -> forall a, canonical p a -> (8 | len a) -> len a * 64 + 8 <= 2 ^ 64 ->
  exists bytes, serialize_vec m a = Val bytes /\ digits 8 bytes /\
    serialization_length m (len a) = Val (len bytes) /\ deserialize_vec m bytes = Val a.
Proof. exact serialize_all. Qed.
Print Assumptions C10_serialize.
Example C10_ex : exists m, modulus_new 17 = Val m /\ canonical 17 [16; 1; 2; 3; 4; 5; 6; 7] /\
   serialize_vec m [16; 1; 2; 3; 4; 5; 6; 7] = Val [48; 136; 65; 138; 57] /\ deserialize_vec m [48; 136; 65; 138; 57] = Val [16; 1; 2; 3; 4; 5; 6; 7].
Proof. eexists. split; [vm_compute; reflexivity|]. split; [repeat constructor; vm_compute; congruence|]. examples. Qed.

(** C11 is false: nothing compares the decoded values with p.  What is true: they fit in the bit width of p-1. *)
Theorem C11_canonical_refuted : exists p m bytes v x, modulus_new p = Val m /\ digits 8 bytes /\
  deserialize_vec m bytes = Val v /\ In x v /\ p <= x.
Proof. exact deserialize_refuted. Qed.
Print Assumptions C11_canonical_refuted.
Theorem C11_canonical_partial : forall p m, modulus_new p = Val m -> forall bytes, digits 8 bytes -> len bytes * 8 < 2 ^ 64 ->
  exists v, deserialize_vec m bytes = Val v /\ Forall (fun x => 0 <= x < 2 * p) v.
Proof. exact deserialize_bound. Qed.
Print Assumptions C11_canonical_partial.
Example C11_ex : exists m, modulus_new 17 = Val m /\ deserialize_vec m [255; 255; 255; 255; 255] = Val (repeat 31 8).
Proof. eexists. examples. Qed.
