(** Property C66: the release build of bit packing, of the serialization of residues and of the sampler.

    [rel_*]: the release build (ReleaseUtilModel.v), where the check that a value fits the width is gone; without the prefix: the debug build
    (TranscodeModel.v, CbdModel.v).  [digits w l]: all elements of [l] are of [w] bits; [digits_value]: the integer they spell. *)
From Verif Require Import Outcome BasicSpec ZqModel TranscodeModel CbdModel ReleaseModel ReleaseUtilModel ReleaseUtilPropLemmas.
(** C66: values of more than [w] bits, on which the debug build panics, are packed truncated: the bytes spell the values modulo 2^w, and unpacking gives these. *)
Theorem C66_to_bytes : forall a w, Forall is_u64 a -> 0 < w <= 64 -> len a * w + 8 <= 2 ^ 64 ->
  exists bytes, rel_transcode_to_bytes a w = Val bytes /\ digits 8 bytes /\ len bytes = (len a * w + 7) / 8 /\
    digits_value 8 bytes = digits_value w (map (fun v => v mod 2 ^ w) a) /\
    (exists k, rel_transcode_from_bytes bytes w = Val (map (fun v => v mod 2 ^ w) a ++ repeat 0 k) /\ Z.of_nat k * w < 7 + w /\ ((8 | len a * w) -> k = 0%nat)) /\
    (digits w a -> transcode_to_bytes a w = Val bytes) /\ (~ digits w a -> transcode_to_bytes a w = Panic).
Proof. exact rel_util_to_bytes_all. Qed.
Print Assumptions C66_to_bytes.
(** C66: unpacking is the same in both builds. *)
Theorem C66_from_bytes : forall b w, digits 8 b -> len b * 8 < 2 ^ 64 -> rel_transcode_from_bytes b w = transcode_from_bytes b w.
Proof. exact rel_util_from_bytes_all. Qed.
Print Assumptions C66_from_bytes.
(** C66: the same as C66_to_bytes for packing from any width to any other. *)
Theorem C66_bidirectional : forall a w_in w_out, Forall is_u64 a -> 0 < w_in <= 64 -> 0 < w_out <= 64 -> len a * w_in < 2 ^ 64 ->
  exists out, rel_transcode_bidirectional a w_in w_out = Val out /\ digits w_out out /\ len out = (len a * w_in + w_out - 1) / w_out /\
    digits_value w_out out = digits_value w_in (map (fun v => v mod 2 ^ w_in) a) /\
    (digits w_in a -> transcode_bidirectional a w_in w_out = Val out) /\ (~ digits w_in a -> transcode_bidirectional a w_in w_out = Panic).
Proof. exact rel_util_bidirectional_all. Qed.
Print Assumptions C66_bidirectional.
(** C66: serialization of a vector of words for a modulus: reading back gives the words modulo the power of two [2^w] with [p <= 2^w < 2p]; when all are below it, both builds return the same bytes and reading back gives the vector; otherwise the debug build panics. *)
Theorem C66_serialize : forall p m, modulus_new p = Val m -> exists w, p <= 2 ^ w < 2 * p /\
  forall a, Forall is_u64 a -> (8 | len a) -> len a * 64 + 8 <= 2 ^ 64 ->
  exists bytes, rel_serialize_vec m a = Val bytes /\ digits 8 bytes /\ 8 * len bytes = len a * w /\ rel_deserialize_vec m bytes = Val (map (fun v => v mod 2 ^ w) a) /\
    (Forall (fun v => v < 2 ^ w) a -> serialize_vec m a = Val bytes /\ rel_deserialize_vec m bytes = Val a) /\
    (~ Forall (fun v => v < 2 ^ w) a -> serialize_vec m a = Panic).
Proof. exact rel_util_serialize_all. Qed.
Print Assumptions C66_serialize.
(** C66: so for every modulus the release build gives two different vectors, one of them canonical, the same bytes. *)
Theorem C66_collision : forall p m, modulus_new p = Val m -> exists a b bytes, a <> b /\ canonical p a /\ Forall is_u64 b /\ length a = length b /\
  rel_serialize_vec m a = Val bytes /\ rel_serialize_vec m b = Val bytes /\ serialize_vec m a = Val bytes /\ serialize_vec m b = Panic.
Proof. exact rel_util_collision_all. Qed.
Print Assumptions C66_collision.
(** C66: the sampler of the centred binomial distribution is the same in both builds, for every stream, size and variance. *)
Theorem C66_sampler : forall rng n v, rel_sample_vec_cbd rng n v = sample_vec_cbd rng n v.
Proof. exact rel_util_cbd_all. Qed.
Print Assumptions C66_sampler.
(** The hypotheses of the theorems above hold, and both outcomes occur: 17 packed in 4 bits becomes 1. *)
Example C66_ex : Forall is_u64 [17; 3; 5] /\ ~ digits 4 [17; 3; 5] /\ digits 4 [1; 3; 5] /\ len [17; 3; 5] * 4 + 8 <= 2 ^ 64 /\
  rel_transcode_to_bytes [17; 3; 5] 4 = Val [49; 5] /\ transcode_to_bytes [17; 3; 5] 4 = Panic /\ transcode_to_bytes [1; 3; 5] 4 = Val [49; 5] /\
  rel_transcode_from_bytes [49; 5] 4 = Val [1; 3; 5; 0] /\
  rel_transcode_bidirectional [17; 3; 5] 4 6 = Val [49; 20] /\ transcode_bidirectional [17; 3; 5] 4 6 = Panic /\
  rel_sample_vec_cbd (fun k => Z.of_nat k + 12345) 3 2 = sample_vec_cbd (fun k => Z.of_nat k + 12345) 3 2.
Proof.
  split; [repeat apply Forall_cons; try (split; [discriminate|reflexivity]); apply Forall_nil|].
  split; [intros D; apply Forall_inv in D; destruct D as [_ D]; discriminate D|].
  split; [repeat apply Forall_cons; try (split; [discriminate|reflexivity]); apply Forall_nil|].
  split; [discriminate|]. repeat (split; [vm_compute; reflexivity|]). vm_compute. reflexivity.
Qed.
Example C66_modulus_ex : exists m, modulus_new 17 = Val m /\ rel_serialize_vec m [33; 16; 0; 0; 0; 0; 0; 1] = Val [1; 2; 0; 0; 8] /\
  rel_deserialize_vec m [1; 2; 0; 0; 8] = Val [1; 16; 0; 0; 0; 0; 0; 1] /\ serialize_vec m [33; 16; 0; 0; 0; 0; 0; 1] = Panic /\ serialize_vec m [1; 16; 0; 0; 0; 0; 0; 1] = Val [1; 2; 0; 0; 8].
Proof. eexists. repeat (split; [vm_compute; reflexivity|]). vm_compute. reflexivity. Qed.
