(** Statements about the release build of bit packing, of the serialization of residues and of the sampler. *)
From Verif Require Import Outcome BasicSpec OutcomeLemmas ZqModel ZqProofs TranscodeModel TranscodeProofs CbdModel CbdSpec CbdProofs ReleaseModel ReleaseUtilModel ReleaseUtilProofs.

Lemma rel_util_to_bytes_all : forall a w, Forall is_u64 a -> 0 < w <= 64 -> len a * w + 8 <= 2 ^ 64 ->
  exists bytes, rel_transcode_to_bytes a w = Val bytes /\ digits 8 bytes /\ len bytes = (len a * w + 7) / 8 /\
    digits_value 8 bytes = digits_value w (map (fun v => v mod 2 ^ w) a) /\
    (exists k, rel_transcode_from_bytes bytes w = Val (map (fun v => v mod 2 ^ w) a ++ repeat 0 k) /\ Z.of_nat k * w < 7 + w /\ ((8 | len a * w) -> k = 0%nat)) /\
    (digits w a -> transcode_to_bytes a w = Val bytes) /\ (~ digits w a -> transcode_to_bytes a w = Panic).
Proof.
  intros a w Ha Hw Hs. assert (H0 : 0 <= len a) by (unfold len; lia). rewrite rel_to_bytes_cut by (try exact Hw; change (2 ^ 64) with W64 in Hs; lia).
  destruct (bytes_all (cut w a) w Hw (cut_digits w a ltac:(lia)) ltac:(rewrite cut_len; exact Hs)) as (b & E & Hb & Hl & Hv & k & Ek & Hk & Hd). rewrite cut_len in Hl, Hd.
  exists b. split; [exact E|]. split; [exact Hb|]. split; [exact Hl|]. split; [exact Hv|]. split.
  - exists k. split; [|split; assumption]. rewrite rel_from_bytes_eq; [exact Ek|exact Hb|]. rewrite Hl. pose proof (Z.div_mod (len a * w + 7) 8 ltac:(lia)). pose proof (Z.mod_pos_bound (len a * w + 7) 8 ltac:(lia)). change (2 ^ 64) with W64 in Hs. lia.
  - split; [|intros H; apply to_bytes_panic; assumption]. intros H. rewrite <- E. rewrite cut_id by exact H. reflexivity.
Qed.
Lemma rel_util_from_bytes_all : forall b w, digits 8 b -> len b * 8 < 2 ^ 64 -> rel_transcode_from_bytes b w = transcode_from_bytes b w.
Proof. exact rel_from_bytes_eq. Qed.
Lemma rel_util_bidirectional_all : forall a w_in w_out, Forall is_u64 a -> 0 < w_in <= 64 -> 0 < w_out <= 64 -> len a * w_in < 2 ^ 64 ->
  exists out, rel_transcode_bidirectional a w_in w_out = Val out /\ digits w_out out /\ len out = (len a * w_in + w_out - 1) / w_out /\
    digits_value w_out out = digits_value w_in (map (fun v => v mod 2 ^ w_in) a) /\
    (digits w_in a -> transcode_bidirectional a w_in w_out = Val out) /\ (~ digits w_in a -> transcode_bidirectional a w_in w_out = Panic).
Proof.
  intros a w w' Ha Hw Hw' Hs. rewrite rel_bidirectional_cut by assumption.
  destruct (transcode_bidirectional_spec (cut w a) w w' Hw Hw' (cut_digits w a ltac:(lia)) ltac:(rewrite cut_len; exact Hs)) as (b & E & Hb & Hv & Hl). rewrite cut_len in Hl.
  exists b. split; [exact E|]. split; [exact Hb|]. split; [exact Hl|]. split; [exact Hv|].
  split; [|intros H; apply bidirectional_panic; assumption]. intros H. rewrite <- E. rewrite cut_id by exact H. reflexivity.
Qed.
Lemma rel_util_serialize_all : forall p m, modulus_new p = Val m -> exists w, p <= 2 ^ w < 2 * p /\
  forall a, Forall is_u64 a -> (8 | len a) -> len a * 64 + 8 <= 2 ^ 64 ->
  exists bytes, rel_serialize_vec m a = Val bytes /\ digits 8 bytes /\ 8 * len bytes = len a * w /\ rel_deserialize_vec m bytes = Val (map (fun v => v mod 2 ^ w) a) /\
    (Forall (fun v => v < 2 ^ w) a -> serialize_vec m a = Val bytes /\ rel_deserialize_vec m bytes = Val a) /\
    (~ Forall (fun v => v < 2 ^ w) a -> serialize_vec m a = Panic).
Proof.
  use_modulus m. pose proof (proj1 (valid_fields m Hm)) as Hp. destruct (pbits_spec _ Hp) as (Hw & Hpw). pose proof (pbits_upper _ Hp) as Hu. cbv zeta in Hu.
  unfold rel_serialize_vec, rel_deserialize_vec, serialize_vec. exists (64 - leading_zeros64 (mod_p m - 1)).
  set (w := 64 - leading_zeros64 (mod_p m - 1)) in *. split; [split; [exact Hpw|exact Hu]|]. intros a Ha (k & Hk) Hs. assert (H0 : 0 <= len a) by (unfold len; lia).
  destruct (rel_util_to_bytes_all a w Ha ltac:(lia) ltac:(nia)) as (b & E & Hb & Hl & _ & (j & Ej & _ & Hj) & H1 & H2).
  assert (Hd : (8 | len a * w)) by (exists (k * w); rewrite Hk; ring). rewrite (Hj Hd) in Ej. cbn [repeat] in Ej. rewrite app_nil_r in Ej.
  assert (Hf : Forall (fun v => v < 2 ^ w) a <-> digits w a).
  { unfold digits. rewrite !Forall_forall. rewrite Forall_forall in Ha. split; intros H x Hx; specialize (H x Hx); specialize (Ha x Hx); unfold is_u64 in Ha; lia. }
  exists b. split; [exact E|]. split; [exact Hb|]. split.
  { rewrite Hl. destruct Hd as (q & Hq). rewrite Hq. replace (q * 8 + 7) with (7 + q * 8) by ring. rewrite Z.div_add by lia. change (7 / 8) with 0. lia. }
  split; [exact Ej|]. split.
  - intros H. apply Hf in H. split; [apply H1, H|]. rewrite Ej, cut_id by exact H. reflexivity.
  - intros H. apply H2. intros D. apply H, Hf, D.
Qed.
Lemma rel_util_cbd_all : forall rng n v, rel_sample_vec_cbd rng n v = sample_vec_cbd rng n v.
Proof. exact rel_sample_vec_cbd_eq. Qed.
(** For every modulus, two different vectors of words, one of canonical residues, have the same serialization in the release build. *)
Lemma rel_util_collision_all : forall p m, modulus_new p = Val m -> exists a b bytes, a <> b /\ canonical p a /\ Forall is_u64 b /\ length a = length b /\
  rel_serialize_vec m a = Val bytes /\ rel_serialize_vec m b = Val bytes /\ serialize_vec m a = Val bytes /\ serialize_vec m b = Panic.
Proof.
  use_modulus m. pose proof (proj1 (valid_fields m Hm)) as Hp. destruct (pbits_spec _ Hp) as (Hw & Hpw). pose proof (pbits_upper _ Hp) as Hu. cbv zeta in Hu.
  unfold rel_serialize_vec, serialize_vec. set (w := 64 - leading_zeros64 (mod_p m - 1)) in *.
  assert (P0 : 0 < 2 ^ w) by (apply Z.pow_pos_nonneg; lia).
  assert (Ha : Forall is_u64 (repeat 0 8)) by (repeat constructor; lia).
  assert (Hb : Forall is_u64 (2 ^ w :: repeat 0 7)) by (constructor; [unfold is_u64; lia|repeat constructor; lia]).
  assert (La : len (repeat 0 8) = 8) by reflexivity. assert (Lb : len (2 ^ w :: repeat 0 7) = 8) by reflexivity.
  destruct (rel_util_to_bytes_all (repeat 0 8) w Ha ltac:(lia) ltac:(rewrite La; lia)) as (x & Ex & _ & _ & _ & _ & Dx & _).
  exists (repeat 0 8), (2 ^ w :: repeat 0 7), x. split; [intros Q; apply (f_equal (hd 0)) in Q; cbn [repeat hd] in Q; lia|]. split; [repeat constructor; lia|]. split; [exact Hb|]. split; [reflexivity|].
  split; [exact Ex|]. split; [|split].
  - rewrite <- Ex. rewrite !rel_to_bytes_cut by (rewrite ?La, ?Lb; lia). cbn [repeat map]. rewrite Z.mod_same, Z.mod_0_l by lia. reflexivity.
  - apply Dx. repeat constructor; lia.
  - apply to_bytes_panic; [lia|exact Hb|]. intros D. apply Forall_inv in D. lia.
Qed.
