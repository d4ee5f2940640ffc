(** Proofs about the release build of bit packing and sampling. *)
From Verif Require Import Outcome BasicSpec OutcomeLemmas ZqModel ZqProofs TranscodeModel TranscodeProofs CbdModel CbdSpec CbdProofs ReleaseModel ReleaseUtilModel.

Notation cut w a := (map (fun v => v mod 2 ^ w) a).
Lemma cut_digits w a : 0 < w -> digits w (cut w a).
Proof. intros Hw. apply Forall_forall. intros d Hd. apply in_map_iff in Hd. destruct Hd as (v & <- & _). apply Z.mod_pos_bound, Z.pow_pos_nonneg; lia. Qed.
Lemma cut_id w a : digits w a -> cut w a = a.
Proof. induction 1 as [|d a Hd Ha IH]; [reflexivity|]. cbn [map]. rewrite Z.mod_small, IH by exact Hd. reflexivity. Qed.
Lemma cut_len w a : len (cut w a) = len a.
Proof. unfold len. rewrite map_length. reflexivity. Qed.
Lemma tloop_map w_in w_out (load load' : Z -> M Z) emit (f : Z -> Z) : (forall v, load v = load' (f v)) ->
  forall fuel rest cv n out, tloop fuel w_in w_out load emit rest cv n out = tloop fuel w_in w_out load' emit (map f rest) cv n out.
Proof.
  intros H. induction fuel as [|k IH]; intros rest cv n out; destruct rest as [|v rest]; try reflexivity. cbn [tloop map]. rewrite H.
  destruct (n <? w_out).
  - destruct (load' (f v)) as [x| |]; try reflexivity. cbn [bind]. destruct (drain _ _ _ _ _ _) as [((cv2, n2), out2)| |]; try reflexivity. cbn [bind]. apply IH.
  - cbn [bind]. destruct (drain _ _ _ _ _ _) as [((cv2, n2), out2)| |]; try reflexivity. cbn [bind]. rewrite IH. reflexivity.
Qed.
Lemma load_cut w v : 0 < w <= 64 -> Val (Z.land v (Z.shiftr (W64 - 1) (64 - w))) = (guard (nbits (v mod 2 ^ w) <=? w) ;;; Val (Z.land (v mod 2 ^ w) (Z.shiftr (W64 - 1) (64 - w)))).
Proof.
  intros Hw. rewrite load_masked by (try exact Hw; apply Z.mod_pos_bound, Z.pow_pos_nonneg; lia). rewrite mask_ones by exact Hw. rewrite land_mask by lia. reflexivity.
Qed.
Lemma div_ceil_range a b : 0 < b <= 64 -> 0 < a -> 1 <= div_ceil a b <= a.
Proof.
  intros Hb Ha. unfold div_ceil. split.
  - apply Z.div_le_lower_bound; lia.
  - apply Z.div_le_upper_bound; nia.
Qed.

Lemma rel_to_bytes_cut a w : 0 < w <= 64 -> len a * w < W64 -> rel_transcode_to_bytes a w = transcode_to_bytes (cut w a) w.
Proof.
  intros Hw Hs. assert (0 <= len a) by (unfold len; lia). assert (Hz : 0 <= len a * w) by (apply Z.mul_nonneg_nonneg; lia). unfold rel_transcode_to_bytes, transcode_to_bytes. destruct ((0 <? w) && (w <=? 64)) eqn:E; [|reflexivity]. cbn [guard bind].
  rewrite cut_len. unfold chk64. rewrite bind_chk by lia. cbv zeta. unfold w64. rewrite (Z.mod_small (len a * w)) by lia. rewrite map_length.
  rewrite (tloop_map w 8 (fun v => Val (Z.land v (Z.shiftr (W64 - 1) (64 - w)))) (fun v => guard (nbits v <=? w) ;;; Val (Z.land v (Z.shiftr (W64 - 1) (64 - w)))) _ (fun v => v mod 2 ^ w) (fun v => load_cut w v Hw)).
  destruct (tloop_spec w 8 (fun v => guard (nbits v <=? w) ;;; Val (Z.land v (Z.shiftr (W64 - 1) (64 - w))))
              (fun cv => cv mod W8) Hw ltac:(lia) (fun v Hv => load_masked w v Hw Hv)
              (fun cv _ => eq_refl) (2 * length a)%nat (cut w a) [] 0 0 [] ltac:(rewrite map_length; lia) (cut_digits w a ltac:(lia)) ltac:(lia) (tinv_init _ _))
    as (cv & n & out & E' & Hn & Hinv). rewrite E'. cbn [bind]. destruct (Z.ltb_spec 0 n) as [H0|H0]; [|reflexivity].
  destruct Hinv as (_ & _ & _ & Hl & _). cbn [app] in Hl. rewrite cut_len in Hl. assert (0 < len a * w) by (unfold len in *; nia).
  destruct (div_ceil_range (len a * w) 8 ltac:(lia) ltac:(assumption)) as (D1 & D2). rewrite Z.mod_small by lia. reflexivity.
Qed.
Lemma rel_from_bytes_eq b w : digits 8 b -> len b * 8 < W64 -> rel_transcode_from_bytes b w = transcode_from_bytes b w.
Proof.
  intros Hb Hs. assert (0 <= len b) by (unfold len; lia). unfold rel_transcode_from_bytes, transcode_from_bytes. destruct ((0 <? w) && (w <=? 64)) eqn:E; [|reflexivity]. cbn [guard bind].
  apply andb_true_iff in E. rewrite Z.ltb_lt, Z.leb_le in E. unfold chk64. rewrite bind_chk by lia. cbv zeta. unfold w64. rewrite (Z.mod_small (len b * 8)) by lia.
  destruct (tloop_spec 8 w (fun v => Val v) (fun cv => Z.land cv (Z.shiftr (W64 - 1) (64 - w)) mod W64)
              ltac:(lia) E (fun v _ => eq_refl) (fun cv Hcv => emit_masked w cv E (proj1 Hcv))
              (2 * length b * Z.to_nat w)%nat b [] 0 0 [] ltac:(nia) Hb ltac:(lia) (tinv_init _ _)) as (cv & n & out & E' & Hn & Hinv). rewrite E'. cbn [bind].
  destruct (Z.ltb_spec 0 n) as [H0|H0]; [|reflexivity]. destruct Hinv as (_ & _ & _ & Hl & _). cbn [app] in Hl. assert (0 < len b * 8) by (unfold len in *; nia).
  destruct (div_ceil_range (len b * 8) w ltac:(lia) ltac:(assumption)) as (D1 & D2). rewrite Z.mod_small by lia. reflexivity.
Qed.
Lemma rel_bidirectional_cut a w_in w_out : 0 < w_in <= 64 -> 0 < w_out <= 64 -> len a * w_in < W64 -> rel_transcode_bidirectional a w_in w_out = transcode_bidirectional (cut w_in a) w_in w_out.
Proof.
  intros Hw Hwo Hs. assert (0 <= len a) by (unfold len; lia). assert (Hz : 0 <= len a * w_in) by (apply Z.mul_nonneg_nonneg; lia). unfold rel_transcode_bidirectional, transcode_bidirectional. destruct ((0 <? w_in) && (w_in <=? 64)); [|reflexivity]. cbn [guard bind].
  destruct ((0 <? w_out) && (w_out <=? 64)); [|reflexivity]. cbn [guard bind].
  rewrite cut_len. unfold chk64. rewrite bind_chk by lia. cbv zeta. unfold w64. rewrite (Z.mod_small (len a * w_in)) by lia. rewrite map_length.
  rewrite (tloop_map w_in w_out (fun v => Val (Z.land v (Z.shiftr (W64 - 1) (64 - w_in)))) (fun v => guard (nbits v <=? w_in) ;;; Val (Z.land v (Z.shiftr (W64 - 1) (64 - w_in)))) _ (fun v => v mod 2 ^ w_in) (fun v => load_cut w_in v Hw)).
  destruct (tloop_spec w_in w_out (fun v => guard (nbits v <=? w_in) ;;; Val (Z.land v (Z.shiftr (W64 - 1) (64 - w_in))))
              (fun cv => Z.land cv (Z.shiftr (W64 - 1) (64 - w_out)) mod W64) Hw Hwo
              (fun v Hv => load_masked w_in v Hw Hv) (fun cv Hcv => emit_masked w_out cv Hwo (proj1 Hcv))
              (2 * length a)%nat (cut w_in a) [] 0 0 [] ltac:(rewrite map_length; lia) (cut_digits w_in a ltac:(lia)) ltac:(lia) (tinv_init _ _))
    as (cv & n & out & E' & Hn & Hinv). rewrite E'. cbn [bind]. destruct (Z.ltb_spec 0 n) as [H0|H0]; [|reflexivity].
  destruct Hinv as (_ & _ & _ & Hl & _). cbn [app] in Hl. rewrite cut_len in Hl. assert (0 < len a * w_in) by (unfold len in *; nia).
  destruct (div_ceil_range (len a * w_in) w_out ltac:(lia) ltac:(assumption)) as (D1 & D2). rewrite Z.mod_small by lia. reflexivity.
Qed.

(** The debug build panics exactly on the values that do not fit. *)
Lemma drain_val w emit : 0 < w -> forall fuel cv n out, 0 <= n <= Z.of_nat fuel -> exists cv' n' out', drain fuel w emit cv n out = Val (cv', n', out') /\ 0 <= n' < w.
Proof.
  intros Hw. induction fuel as [|k IH]; intros cv n out Hn; cbn [drain]; destruct (Z.leb_spec w n).
  - lia.
  - do 3 eexists. split; [reflexivity|lia].
  - apply IH. lia.
  - do 3 eexists. split; [reflexivity|lia].
Qed.
Lemma tloop_panic w_in w_out load emit v post : 0 < w_in -> 0 < w_out -> load v = Panic ->
  forall pre, (forall x, In x pre -> exists y, load x = Val y) -> forall fuel cv n out, (length pre < fuel)%nat -> 0 <= n < w_out -> tloop fuel w_in w_out load emit (pre ++ v :: post) cv n out = Panic.
Proof.
  intros Hi Ho Hv. induction pre as [|x pre IH]; intros Hp fuel cv n out Hf Hn; (destruct fuel as [|fuel]; [cbn in Hf; lia|]); cbn [app tloop]; destruct (Z.ltb_spec n w_out); try lia.
  - rewrite Hv. reflexivity.
  - destruct (Hp x (or_introl eq_refl)) as (y & ->). cbn [bind].
    destruct (drain_val w_out emit Ho (Z.to_nat (n + w_in)) (Z.lor cv (Z.shiftl y n mod W128)) (n + w_in) out ltac:(lia)) as (cv' & n' & out' & -> & Hn'). cbn [bind].
    apply IH; [intros; apply Hp; right; assumption|cbn in Hf; lia|exact Hn'].
Qed.
Lemma split_bad w a : Forall is_u64 a -> ~ digits w a -> exists pre v post, a = pre ++ v :: post /\ digits w pre /\ 2 ^ w <= v.
Proof.
  induction 1 as [|x a Hx Ha IH]; intros H; [destruct H; constructor|]. destruct (Z_lt_le_dec x (2 ^ w)) as [L|L].
  - destruct IH as (pre & v & post & -> & Hp & Hv); [intros D; apply H; constructor; [unfold is_u64 in Hx; lia|exact D]|]. exists (x :: pre), v, post. split; [reflexivity|]. split; [constructor; [unfold is_u64 in Hx; lia|exact Hp]|exact Hv].
  - exists [], x, a. split; [reflexivity|]. split; [constructor|exact L].
Qed.
Lemma load_bad w v : 0 < w <= 64 -> 2 ^ w <= v -> (guard (nbits v <=? w) ;;; Val (Z.land v (Z.shiftr (W64 - 1) (64 - w)))) = Panic.
Proof.
  intros Hw Hv. assert (0 < 2 ^ w) by (apply Z.pow_pos_nonneg; lia). assert (E : (nbits v <=? w) = false); [|rewrite E; reflexivity].
  apply Z.leb_gt. unfold nbits. destruct (Z.leb_spec v 0); [lia|]. pose proof (Z.log2_le_pow2 v w ltac:(lia)). lia.
Qed.
Lemma to_bytes_panic a w : 0 < w <= 64 -> Forall is_u64 a -> ~ digits w a -> transcode_to_bytes a w = Panic.
Proof.
  intros Hw Ha Hd. destruct (split_bad w a Ha Hd) as (pre & v & post & -> & Hp & Hv). unfold transcode_to_bytes. rewrite bind_guard by (rewrite andb_true_iff, Z.ltb_lt, Z.leb_le; lia).
  unfold chk64, chk. destruct (_ && _); [|reflexivity]. cbn [bind]. cbv zeta. rewrite (tloop_panic w 8 _ _ v post); [reflexivity|lia|lia|apply load_bad; assumption| |rewrite app_length; cbn [length]; lia|lia].
  intros x Hx. exists x. apply load_masked; [exact Hw|]. exact (proj1 (Forall_forall _ _) Hp x Hx).
Qed.
Lemma bidirectional_panic a w w' : 0 < w <= 64 -> 0 < w' <= 64 -> Forall is_u64 a -> ~ digits w a -> transcode_bidirectional a w w' = Panic.
Proof.
  intros Hw Hw' Ha Hd. destruct (split_bad w a Ha Hd) as (pre & v & post & -> & Hp & Hv). unfold transcode_bidirectional. rewrite !bind_guard by (rewrite andb_true_iff, Z.ltb_lt, Z.leb_le; lia).
  unfold chk64, chk. destruct (_ && _); [|reflexivity]. cbn [bind]. cbv zeta. rewrite (tloop_panic w w' _ _ v post); [reflexivity|lia|lia|apply load_bad; assumption| |rewrite app_length; cbn [length]; lia|lia].
  intros x Hx. exists x. apply load_masked; [exact Hw|]. exact (proj1 (Forall_forall _ _) Hp x Hx).
Qed.

(** The sampler. *)
Lemma rel_cbd_small_ok rng v : 1 <= v <= 16 -> forall n pool nb cnt, 0 <= nb <= 64 -> cbd_small rng v n pool nb cnt = Val (rel_cbd_small rng v n pool nb cnt).
Proof.
  intros Hv. induction n as [|n IH]; intros pool nb cnt Hn; cbn [cbd_small rel_cbd_small]; [reflexivity|]. cbv zeta. unfold chk64, w64.
  destruct (Z.ltb_spec nb (4 * v)) as [L|L].
  - rewrite bind_guard by (apply Z.leb_le; lia). rewrite bind_chk by lia. rewrite (Z.mod_small (nb + 64)) by lia. rewrite (Z.mod_small (nb + 64 - 4 * v)) by lia.
    rewrite IH by lia. cbn [bind]. destruct (rel_cbd_small _ _ _ _ _ _). reflexivity.
  - rewrite bind_guard by (apply Z.leb_le; lia). rewrite bind_chk by lia. rewrite (Z.mod_small (nb - 4 * v)) by lia.
    rewrite IH by lia. cbn [bind]. destruct (rel_cbd_small _ _ _ _ _ _). reflexivity.
Qed.
Lemma rel_sample_vec_cbd_eq rng n v : rel_sample_vec_cbd rng n v = sample_vec_cbd rng n v.
Proof.
  unfold rel_sample_vec_cbd, sample_vec_cbd. destruct (Z.leb_spec 1 v); [|reflexivity]. destruct (Z.leb_spec v 32); [|reflexivity]. cbn [andb negb].
  destruct (Z.leb_spec (4 * v) 64); [|reflexivity]. symmetry. apply rel_cbd_small_ok; lia.
Qed.
