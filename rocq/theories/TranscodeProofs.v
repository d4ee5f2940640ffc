(** Proofs about bit packing. *)
From Verif Require Import Outcome OutcomeLemmas ZqModel ZqProofs TranscodeModel.

Lemma digits_value_app w l l' : 0 <= w ->
  digits_value w (l ++ l') = digits_value w l + 2 ^ (w * len l) * digits_value w l'.
Proof.
  intros Hw. unfold len. induction l as [|d t IH]; cbn [app digits_value].
  - rewrite Z.mul_0_r, Z.pow_0_r. lia.
  - rewrite IH. cbn [length]. rewrite Nat2Z.inj_succ.
    replace (w * Z.succ (Z.of_nat (length t))) with (w + w * Z.of_nat (length t)) by lia.
    rewrite Z.pow_add_r by lia. ring.
Qed.

Lemma digits_value_nonneg w l : 0 <= w -> digits w l -> 0 <= digits_value w l.
Proof.
  intros Hw. induction 1 as [|d t Hd _ IH]; cbn [digits_value]; [lia|].
  assert (0 < 2 ^ w) by (apply Z.pow_pos_nonneg; lia). nia.
Qed.

Lemma digits_value_bound w l : 0 <= w -> digits w l -> digits_value w l < 2 ^ (w * len l).
Proof.
  intros Hw. unfold len. induction 1 as [|d t Hd _ IH]; cbn [digits_value length].
  - rewrite Z.mul_0_r. cbn; lia.
  - rewrite Nat2Z.inj_succ. replace (w * Z.succ (Z.of_nat (length t))) with (w + w * Z.of_nat (length t)) by lia.
    rewrite Z.pow_add_r by lia. nia.
Qed.

(** Digits are determined by the value, up to trailing zeros. *)
Lemma digits_unique w l l' : 0 < w -> digits w l -> digits w l' -> (length l <= length l')%nat ->
  digits_value w l = digits_value w l' -> l' = l ++ repeat 0 (length l' - length l).
Proof.
  intros Hw Hl. revert l'. assert (H2 : 0 < 2 ^ w) by (apply Z.pow_pos_nonneg; lia).
  induction Hl as [|d t Hd _ IH]; intros l' Hl' Hlen E.
  - cbn [app length digits_value] in *. rewrite Nat.sub_0_r. clear Hlen.
    induction Hl' as [|d' t' Hd' Ht' IH']; cbn [repeat length]; [reflexivity|].
    cbn [digits_value] in E. pose proof (digits_value_nonneg w t' ltac:(lia) Ht').
    assert (d' = 0) by nia. assert (digits_value w t' = 0) by nia. subst d'.
    f_equal. apply IH'. lia.
  - destruct l' as [|d' t']; cbn [length] in Hlen; [lia|]. inversion Hl' as [|? ? Hd' Ht']; subst.
    cbn [digits_value] in E.
    assert (d = d').
    { assert (E2 : (d + 2 ^ w * digits_value w t) mod 2 ^ w = (d' + 2 ^ w * digits_value w t') mod 2 ^ w) by congruence.
      rewrite (Z.mul_comm (2 ^ w)), (Z.mul_comm (2 ^ w) (digits_value w t')), !Z_mod_plus_full in E2.
      rewrite !Z.mod_small in E2 by lia. exact E2. }
    subst d'. cbn [app length Nat.sub]. f_equal. apply IH; [exact Ht'|lia|].
    assert (2 ^ w * digits_value w t = 2 ^ w * digits_value w t') by lia. nia.
Qed.

Lemma digits_app w l l' : digits w l -> digits w l' -> digits w (l ++ l').
Proof. intros; apply Forall_app; split; assumption. Qed.

Lemma len_app {A} (l l' : list A) : len (l ++ l') = len l + len l'.
Proof. unfold len. rewrite app_length. lia. Qed.

(** masks *)
Lemma mask_ones w : 0 < w <= 64 -> Z.shiftr (W64 - 1) (64 - w) = Z.ones w.
Proof.
  intros Hw. rewrite Z.shiftr_div_pow2 by lia. rewrite Z.ones_equiv. symmetry.
  assert (E : 2 ^ w * 2 ^ (64 - w) = W64) by (rewrite <- Z.pow_add_r by lia; replace (w + (64 - w)) with 64 by lia; reflexivity).
  assert (0 < 2 ^ (64 - w)) by (apply Z.pow_pos_nonneg; lia).
  apply Z.div_unique with (2 ^ (64 - w) - 1); [lia|]. unfold Z.pred. lia.
Qed.

Lemma land_mask v w : 0 <= w -> Z.land v (Z.ones w) = v mod 2 ^ w.
Proof. intros. apply Z.land_ones; assumption. Qed.

(** the drained state invariant *)
Definition tinv (w_in w_out : Z) (done : list Z) (cv n : Z) (out : list Z) : Prop :=
  0 <= n /\ 0 <= cv < 2 ^ n /\ digits w_out out /\
  n + w_out * len out = w_in * len done /\
  digits_value w_out out + 2 ^ (w_out * len out) * cv = digits_value w_in done.

Lemma drain_spec w emit w_in done :
  0 < w -> (forall cv, 0 <= cv < W128 -> emit cv = cv mod 2 ^ w) ->
  forall fuel cv n out, n <= Z.of_nat fuel -> n <= 128 -> tinv w_in w done cv n out ->
  exists cv' n' out', drain fuel w emit cv n out = Val (cv', n', out') /\
    n' < w /\ tinv w_in w done cv' n' out'.
Proof.
  intros Hw Hemit fuel. induction fuel as [|f IH]; intros cv n out Hn Hn128 Hinv; cbn [drain];
    destruct (Z.leb_spec w n) as [Hle|Hgt]; try (destruct Hinv as (H0 & _); lia).
  - do 3 eexists. split; [reflexivity|]. split; assumption.
  - destruct Hinv as (H0 & Hcv & Hd & Hlen & Hval).
    assert (Hcv128 : cv < W128).
    { apply Z.lt_le_trans with (2 ^ n); [lia|]. change W128 with (2 ^ 128). apply Z.pow_le_mono_r; lia. }
    rewrite Hemit by lia. rewrite Z.shiftr_div_pow2 by lia.
    assert (Hpw : 0 < 2 ^ w) by (apply Z.pow_pos_nonneg; lia).
    assert (Ecv : cv = 2 ^ w * (cv / 2 ^ w) + cv mod 2 ^ w) by (apply Z.div_mod; lia).
    assert (Hm := Z.mod_pos_bound cv (2 ^ w) Hpw).
    apply IH; [lia|lia|]. unfold tinv. split; [lia|]. split.
    { split; [apply Z.div_pos; lia|]. apply Z.div_lt_upper_bound; [lia|].
      rewrite <- Z.pow_add_r by lia. replace (w + (n - w)) with n by lia. lia. }
    split; [apply digits_app; [exact Hd|constructor; [lia|constructor]]|].
    rewrite len_app. change (len [cv mod 2 ^ w]) with 1. split; [lia|].
    rewrite digits_value_app by lia. cbn [digits_value].
    replace (w * (len out + 1)) with (w * len out + w) by lia.
    rewrite Z.pow_add_r by (unfold len; lia). rewrite <- Hval. rewrite Ecv at 3. ring.
  - do 3 eexists. split; [reflexivity|]. split; assumption.
Qed.

Lemma tloop_spec w_in w_out load emit :
  0 < w_in <= 64 -> 0 < w_out <= 64 ->
  (forall v, 0 <= v < 2 ^ w_in -> load v = Val v) ->
  (forall cv, 0 <= cv < W128 -> emit cv = cv mod 2 ^ w_out) ->
  forall fuel rest done cv n out, (length rest <= fuel)%nat -> digits w_in rest ->
  n < w_out -> tinv w_in w_out done cv n out ->
  exists cv' n' out', tloop fuel w_in w_out load emit rest cv n out = Val (cv', n', out') /\
    n' < w_out /\ tinv w_in w_out (done ++ rest) cv' n' out'.
Proof.
  intros Hwi Hwo Hload Hemit fuel. induction fuel as [|f IH]; intros rest done cv n out Hf Hr Hn Hinv.
  - destruct rest; cbn [length] in Hf; [|lia]. cbn [tloop]. rewrite app_nil_r. eauto 6.
  - destruct rest as [|v rest]; [cbn [tloop]; rewrite app_nil_r; eauto 6|].
    cbn [tloop]. inversion Hr as [|? ? Hv Hr']; subst.
    destruct (Z.ltb_spec n w_out); [|lia]. rewrite (Hload v Hv). cbn [bind].
    destruct Hinv as (H0 & Hcv & Hd & Hlen & Hval).
    assert (Hvn : v * 2 ^ n < W128).
    { apply Z.lt_le_trans with (2 ^ w_in * 2 ^ n).
      - apply Z.mul_lt_mono_pos_r; [apply Z.pow_pos_nonneg|]; lia.
      - rewrite <- Z.pow_add_r by lia. change W128 with (2 ^ 128). apply Z.pow_le_mono_r; lia. }
    assert (Hpn : 0 < 2 ^ n) by (apply Z.pow_pos_nonneg; lia).
    assert (Es : Z.shiftl v n mod W128 = Z.shiftl v n).
    { rewrite Z.shiftl_mul_pow2 by lia. apply Z.mod_small. nia. }
    rewrite Es, lor_disjoint_add by lia.
    destruct (drain_spec w_out emit w_in (done ++ [v]) ltac:(lia) Hemit (Z.to_nat (n + w_in))
                (cv + v * 2 ^ n) (n + w_in) out) as (cv2 & n2 & out2 & Ed & Hn2 & Hinv2); [lia|lia| |].
    { unfold tinv. split; [lia|]. split.
      { rewrite Z.pow_add_r by lia. nia. }
      split; [exact Hd|]. rewrite len_app. change (len [v]) with 1. split; [lia|].
      rewrite digits_value_app by lia. cbn [digits_value]. rewrite <- Hval, <- Hlen.
      rewrite (Z.add_comm n), Z.pow_add_r by (unfold len; lia). ring. }
    rewrite Ed. cbn [bind].
    destruct (IH rest (done ++ [v]) cv2 n2 out2) as (cv3 & n3 & out3 & E3 & Hn3 & Hinv3);
      [cbn [length] in Hf; lia|exact Hr'|exact Hn2|exact Hinv2|].
    rewrite <- app_assoc in Hinv3. eauto 8.
Qed.

Lemma div_ceil_bounds a b : 0 < b -> 0 <= a -> div_ceil a b * b - b < a <= div_ceil a b * b.
Proof.
  intros Hb Ha. unfold div_ceil.
  assert (E := Z.div_mod (a + b - 1) b ltac:(lia)). assert (R := Z.mod_pos_bound (a + b - 1) b Hb). lia.
Qed.

Lemma final_len n w_out k total : 0 < w_out -> 0 <= k -> 0 <= n < w_out -> n + w_out * k = total ->
  div_ceil total w_out = if 0 <? n then k + 1 else k.
Proof.
  intros Hw Hk Hn E. destruct (Z.ltb_spec 0 n); unfold div_ceil; subst total.
  - replace (n + w_out * k + w_out - 1) with ((n - 1) + (k + 1) * w_out) by ring.
    rewrite Z.div_add by lia. rewrite Z.div_small; lia.
  - assert (n = 0) by lia. subst. replace (0 + w_out * k + w_out - 1) with ((w_out - 1) + k * w_out) by ring.
    rewrite Z.div_add by lia. rewrite Z.div_small; lia.
Qed.

Lemma tinv_init w_in w_out : tinv w_in w_out [] 0 0 [].
Proof. unfold tinv, len; cbn. repeat split; try lia. constructor. Qed.

(** Closing the loop: pushing the last partial digit. *)
Lemma tinv_final w_in w_out a cv n out :
  0 < w_out <= 64 -> tinv w_in w_out a cv n out -> n < w_out ->
  let out' := if 0 <? n then out ++ [cv] else out in
  digits w_out out' /\ digits_value w_out out' = digits_value w_in a /\
  len out' = div_ceil (len a * w_in) w_out /\
  (0 < n -> len out = div_ceil (len a * w_in) w_out - 1) /\ (n <= 0 -> cv = 0) /\ cv < 2 ^ w_out.
Proof.
  intros Hw (H0 & Hcv & Hd & Hlen & Hval) Hn out'.
  assert (Hcw : cv < 2 ^ w_out).
  { apply Z.lt_le_trans with (2 ^ n); [lia|]. apply Z.pow_le_mono_r; lia. }
  assert (El := final_len n w_out (len out) (len a * w_in) ltac:(lia) ltac:(unfold len; lia) ltac:(lia) ltac:(lia)).
  rewrite El. unfold out'. destruct (Z.ltb_spec 0 n) as [Hpos|Hz].
  - repeat split; try lia.
    + apply digits_app; [exact Hd|constructor; [lia|constructor]].
    + rewrite digits_value_app by lia. cbn [digits_value]. rewrite <- Hval. ring.
    + rewrite len_app. reflexivity.
  - assert (n = 0) by lia. subst n. change (2 ^ 0) with 1 in Hcv. assert (cv = 0) by lia. subst cv.
    repeat split; try lia. exact Hd.
Qed.

Lemma pow_le64 w : 0 < w <= 64 -> 2 ^ w <= W64.
Proof. intros. change W64 with (2 ^ 64). apply Z.pow_le_mono_r; lia. Qed.

Lemma load_masked w v : 0 < w <= 64 -> 0 <= v < 2 ^ w ->
  (guard (nbits v <=? w) ;;; Val (Z.land v (Z.shiftr (W64 - 1) (64 - w)))) = Val v.
Proof.
  intros Hw Hv. rewrite mask_ones by exact Hw. rewrite land_mask by lia. rewrite Z.mod_small by lia.
  rewrite bind_guard; [reflexivity|]. apply Z.leb_le. unfold nbits. destruct (Z.leb_spec v 0); [lia|].
  assert (Z.log2 v < w) by (apply Z.log2_lt_pow2; lia). lia.
Qed.

Lemma emit_masked w cv : 0 < w <= 64 -> 0 <= cv ->
  Z.land cv (Z.shiftr (W64 - 1) (64 - w)) mod W64 = cv mod 2 ^ w.
Proof.
  intros Hw Hcv. rewrite mask_ones by exact Hw. rewrite land_mask by lia.
  assert (B := Z.mod_pos_bound cv (2 ^ w) ltac:(apply Z.pow_pos_nonneg; lia)).
  apply Z.mod_small. pose proof (pow_le64 w Hw). lia.
Qed.

Lemma transcode_to_bytes_spec a w : 0 < w <= 64 -> digits w a -> len a * w < W64 ->
  exists out, transcode_to_bytes a w = Val out /\ digits 8 out /\
    digits_value 8 out = digits_value w a /\ len out = div_ceil (len a * w) 8.
Proof.
  intros Hw Ha Hsz. unfold transcode_to_bytes.
  rewrite bind_guard by (rewrite andb_true_iff, Z.ltb_lt, Z.leb_le; lia).
  unfold chk64. rewrite bind_chk by (unfold len in *; lia).
  destruct (tloop_spec w 8 (fun v => guard (nbits v <=? w) ;;; Val (Z.land v (Z.shiftr (W64 - 1) (64 - w))))
              (fun cv => cv mod W8) Hw ltac:(lia) (fun v Hv => load_masked w v Hw Hv)
              (fun cv _ => eq_refl) (2 * length a)%nat a [] 0 0 [] ltac:(lia) Ha ltac:(lia) (tinv_init _ _))
    as (cv & n & out & E & Hn & Hinv).
  rewrite E. cbn [bind app] in *.
  destruct (tinv_final w 8 a cv n out ltac:(lia) Hinv Hn) as (F1 & F2 & F3 & F4 & F5 & F6).
  destruct Hinv as (H0 & Hcv & _). change (2 ^ 8) with W8 in F6.
  destruct (Z.ltb_spec 0 n).
  - rewrite bind_guard by (apply Z.ltb_lt; lia). rewrite bind_guard by (apply Z.eqb_eq; lia).
    rewrite Z.mod_small by lia. eauto.
  - rewrite bind_guard by (apply Z.eqb_eq; lia). rewrite bind_guard by (apply Z.eqb_eq; lia). eauto.
Qed.

Lemma transcode_from_bytes_spec b w : 0 < w <= 64 -> digits 8 b -> len b * 8 < W64 ->
  exists out, transcode_from_bytes b w = Val out /\ digits w out /\
    digits_value w out = digits_value 8 b /\ len out = div_ceil (len b * 8) w.
Proof.
  intros Hw Hb Hsz. unfold transcode_from_bytes.
  rewrite bind_guard by (rewrite andb_true_iff, Z.ltb_lt, Z.leb_le; lia).
  unfold chk64. rewrite bind_chk by (unfold len in *; lia).
  destruct (tloop_spec 8 w (fun v => Val v) (fun cv => Z.land cv (Z.shiftr (W64 - 1) (64 - w)) mod W64)
              ltac:(lia) Hw (fun v _ => eq_refl) (fun cv Hcv => emit_masked w cv Hw (proj1 Hcv))
              (2 * length b * Z.to_nat w)%nat b [] 0 0 [] ltac:(nia) Hb ltac:(lia) (tinv_init _ _))
    as (cv & n & out & E & Hn & Hinv).
  rewrite E. cbn [bind app] in *.
  destruct (tinv_final 8 w b cv n out Hw Hinv Hn) as (F1 & F2 & F3 & F4 & F5 & F6).
  destruct Hinv as (H0 & Hcv & _). pose proof (pow_le64 w Hw).
  destruct (Z.ltb_spec 0 n).
  - rewrite bind_guard by (apply Z.eqb_eq; lia). rewrite Z.mod_small by lia. eauto.
  - rewrite bind_guard by (apply Z.eqb_eq; lia). rewrite bind_guard by (apply Z.eqb_eq; lia). eauto.
Qed.

Lemma transcode_bidirectional_spec a w_in w_out : 0 < w_in <= 64 -> 0 < w_out <= 64 ->
  digits w_in a -> len a * w_in < W64 ->
  exists out, transcode_bidirectional a w_in w_out = Val out /\ digits w_out out /\
    digits_value w_out out = digits_value w_in a /\ len out = div_ceil (len a * w_in) w_out.
Proof.
  intros Hwi Hw Ha Hsz. unfold transcode_bidirectional.
  rewrite bind_guard by (rewrite andb_true_iff, Z.ltb_lt, Z.leb_le; lia).
  rewrite bind_guard by (rewrite andb_true_iff, Z.ltb_lt, Z.leb_le; lia).
  unfold chk64. rewrite bind_chk by (unfold len in *; lia).
  destruct (tloop_spec w_in w_out (fun v => guard (nbits v <=? w_in) ;;; Val (Z.land v (Z.shiftr (W64 - 1) (64 - w_in))))
              (fun cv => Z.land cv (Z.shiftr (W64 - 1) (64 - w_out)) mod W64) Hwi Hw
              (fun v Hv => load_masked w_in v Hwi Hv) (fun cv Hcv => emit_masked w_out cv Hw (proj1 Hcv))
              (2 * length a)%nat a [] 0 0 [] ltac:(lia) Ha ltac:(lia) (tinv_init _ _))
    as (cv & n & out & E & Hn & Hinv).
  rewrite E. cbn [bind app] in *.
  destruct (tinv_final w_in w_out a cv n out Hw Hinv Hn) as (F1 & F2 & F3 & F4 & F5 & F6).
  destruct Hinv as (H0 & Hcv & _). pose proof (pow_le64 w_out Hw).
  destruct (Z.ltb_spec 0 n).
  - rewrite bind_guard by (apply Z.ltb_lt; lia). rewrite bind_guard by (apply Z.eqb_eq; lia).
    rewrite Z.mod_small by lia. eauto.
  - rewrite bind_guard by (apply Z.eqb_eq; lia). rewrite bind_guard by (apply Z.eqb_eq; lia). eauto.
Qed.

(** Round trips *)
Lemma digits_recover w l l' : 0 < w -> digits w l -> digits w l' ->
  digits_value w l = digits_value w l' -> len l <= len l' ->
  l' = l ++ repeat 0 (Z.to_nat (len l' - len l)).
Proof.
  intros Hw H H' E Hlen. unfold len in *.
  rewrite (digits_unique w l l' Hw H H' ltac:(lia) E) at 1. do 2 f_equal. lia.
Qed.

Lemma bytes_round_trip a w : 0 < w <= 64 -> digits w a -> len a * w + 8 <= W64 ->
  exists bytes, transcode_to_bytes a w = Val bytes /\ digits 8 bytes /\
    len bytes = div_ceil (len a * w) 8 /\
    transcode_from_bytes bytes w =
      Val (a ++ repeat 0 (Z.to_nat (div_ceil (8 * div_ceil (len a * w) 8) w - len a))).
Proof.
  intros Hw Ha Hsz.
  destruct (transcode_to_bytes_spec a w Hw Ha ltac:(lia)) as (b & E & Hb & Hv & Hl).
  exists b. split; [exact E|]. split; [exact Hb|]. split; [exact Hl|].
  pose proof (div_ceil_bounds (len a * w) 8 ltac:(lia) ltac:(unfold len; lia)) as Hc.
  destruct (transcode_from_bytes_spec b w Hw Hb ltac:(lia)) as (a' & E' & Ha' & Hv' & Hl').
  rewrite E'. f_equal.
  pose proof (div_ceil_bounds (len b * 8) w ltac:(lia) ltac:(unfold len; lia)) as Hc'.
  replace (8 * div_ceil (len a * w) 8) with (len b * 8) by lia. rewrite <- Hl'.
  apply (digits_recover w); [lia|exact Ha|exact Ha'|congruence|]. nia.
Qed.

Lemma bytes_round_trip_exact a w : 0 < w <= 64 -> digits w a -> len a * w + 8 <= W64 ->
  (8 | len a * w) ->
  exists bytes, transcode_to_bytes a w = Val bytes /\ len bytes = len a * w / 8 /\
    transcode_from_bytes bytes w = Val a.
Proof.
  intros Hw Ha Hsz [k Hk].
  destruct (bytes_round_trip a w Hw Ha Hsz) as (b & E & Hb & Hl & E').
  exists b. split; [exact E|].
  assert (Ek : div_ceil (len a * w) 8 = k).
  { unfold div_ceil. rewrite Hk. replace (k * 8 + 8 - 1) with (7 + k * 8) by lia. rewrite Z.div_add by lia. cbn; lia. }
  split; [rewrite Hl, Ek, Hk, Z.div_mul; lia|]. rewrite E'. f_equal.
  rewrite Ek. replace (div_ceil (8 * k) w) with (len a).
  { rewrite Z.sub_diag. cbn. apply app_nil_r. }
  unfold div_ceil. replace (8 * k + w - 1) with ((w - 1) + len a * w) by lia.
  rewrite Z.div_add by lia. rewrite Z.div_small; lia.
Qed.

Lemma bidirectional_round_trip a w_in w_out : 0 < w_in <= 64 -> 0 < w_out <= 64 ->
  digits w_in a -> len a * w_in + w_out <= W64 ->
  exists b, transcode_bidirectional a w_in w_out = Val b /\
    exists k, transcode_bidirectional b w_out w_in = Val (a ++ repeat 0 k).
Proof.
  intros Hwi Hwo Ha Hsz.
  destruct (transcode_bidirectional_spec a w_in w_out Hwi Hwo Ha ltac:(lia)) as (b & E & Hb & Hv & Hl).
  exists b. split; [exact E|].
  pose proof (div_ceil_bounds (len a * w_in) w_out ltac:(lia) ltac:(unfold len; lia)) as Hc.
  destruct (transcode_bidirectional_spec b w_out w_in Hwo Hwi Hb ltac:(lia)) as (a' & E' & Ha' & Hv' & Hl').
  pose proof (div_ceil_bounds (len b * w_out) w_in ltac:(lia) ltac:(unfold len; lia)) as Hc'.
  rewrite E'. eexists. f_equal.
  apply (digits_recover w_in); [lia|exact Ha|exact Ha'|congruence|]. nia.
Qed.

(** Residue vectors *)
Lemma pbits_spec p : 2 <= p < W62 -> let w := 64 - leading_zeros64 (p - 1) in 0 < w <= 62 /\ p <= 2 ^ w.
Proof.
  intros Hp w. unfold w, leading_zeros64, nbits. destruct (Z.leb_spec (p - 1) 0); [lia|].
  replace (64 - (64 - (Z.log2 (p - 1) + 1))) with (Z.succ (Z.log2 (p - 1))) by lia.
  pose proof (Z.log2_spec (p - 1) ltac:(lia)). pose proof (Z.log2_nonneg (p - 1)).
  assert (Z.log2 (p - 1) < 62) by (apply Z.log2_lt_pow2; [lia|change (2^62) with W62; lia]). lia.
Qed.

Lemma serialize_round_trip m a : valid_modulus m -> canonical (mod_p m) a -> (8 | len a) ->
  len a * 64 + 8 <= W64 ->
  exists bytes, serialize_vec m a = Val bytes /\
    serialization_length m (len a) = Val (len bytes) /\
    deserialize_vec m bytes = Val a.
Proof.
  intros Hm Ha [k Hk] Hsz. pose proof (proj1 (valid_fields m Hm)) as Hp.
  destruct (pbits_spec _ Hp) as (Hw & Hpw). unfold serialize_vec, deserialize_vec, serialization_length.
  set (w := 64 - leading_zeros64 (mod_p m - 1)) in *.
  assert (H0 : 0 <= len a) by (unfold len; lia).
  destruct (bytes_round_trip_exact a w ltac:(lia)) as (b & E & Hl & E').
  - eapply Forall_impl; [|exact Ha]. cbn beta. lia.
  - nia.
  - exists (k * w). lia.
  - exists b. split; [exact E|]. split; [|exact E'].
    rewrite bind_guard by (apply Z.eqb_eq; rewrite Hk; apply Z.mod_mul; lia).
    unfold chk64. rewrite bind_chk by nia. rewrite Hl, Z.mul_comm. reflexivity.
Qed.

Lemma bytes_all : forall a w, 0 < w <= 64 -> digits w a -> len a * w + 8 <= 2 ^ 64 ->
  exists bytes, transcode_to_bytes a w = Val bytes /\ digits 8 bytes /\
    len bytes = (len a * w + 7) / 8 /\
    digits_value 8 bytes = digits_value w a /\
    exists k, transcode_from_bytes bytes w = Val (a ++ repeat 0 k) /\ Z.of_nat k * w < 7 + w /\ ((8 | len a * w) -> k = 0%nat).
Proof.
  intros a w Hw Ha Hsz. change (2 ^ 64) with W64 in Hsz.
  destruct (bytes_round_trip a w Hw Ha Hsz) as (b & Eb & Hb & Hl & E).
  destruct (transcode_to_bytes_spec a w Hw Ha ltac:(lia)) as (b' & Eb' & _ & Hv & _).
  rewrite Eb in Eb'. injection Eb' as <-.
  exists b. split; [exact Eb|]. split; [exact Hb|].
  split; [rewrite Hl; unfold div_ceil; f_equal; lia|]. split; [exact Hv|].
  eexists. split; [exact E|]. rewrite <- Hl.
  assert (H0 : 0 <= len a) by (unfold len; lia). assert (H1 : 0 <= len b) by (unfold len; lia).
  pose proof (div_ceil_bounds (len a * w) 8 ltac:(lia) ltac:(nia)) as Hd. rewrite <- Hl in Hd.
  pose proof (div_ceil_bounds (8 * len b) w ltac:(lia) ltac:(lia)) as Hd2.
  set (x := div_ceil (8 * len b) w) in *. clearbody x.
  assert (Hx : len a <= x) by (clear - Hd Hd2 Hw; nia).
  split; [rewrite Z2Nat.id by lia; clear - Hd Hd2 Hw Hx; nia|].
  intros [q Hq]. assert (x = len a); [|lia]. assert (8 * len b = len a * w) by lia. clear - H Hd2 Hw Hx. nia.
Qed.

Lemma pbits_upper p : 2 <= p < W62 -> let w := 64 - leading_zeros64 (p - 1) in 2 ^ w < 2 * p.
Proof.
  intros Hp w. unfold w, leading_zeros64, nbits. destruct (Z.leb_spec (p - 1) 0); [lia|].
  replace (64 - (64 - (Z.log2 (p - 1) + 1))) with (Z.succ (Z.log2 (p - 1))) by lia.
  pose proof (Z.log2_spec (p - 1) ltac:(lia)). pose proof (Z.log2_nonneg (p - 1)).
  rewrite Z.pow_succ_r by lia. lia.
Qed.

Lemma serialize_all : forall p m, modulus_new p = Val m -> forall a, canonical p a -> (8 | len a) -> len a * 64 + 8 <= 2 ^ 64 ->
  exists bytes, serialize_vec m a = Val bytes /\ digits 8 bytes /\
    serialization_length m (len a) = Val (len bytes) /\ deserialize_vec m bytes = Val a.
Proof.
  use_modulus m. intros a Ha Hd Hsz.
  destruct (serialize_round_trip m a Hm Ha Hd Hsz) as (b & E1 & E2 & E3). exists b.
  split; [exact E1|]. split; [|split; assumption].
  pose proof (proj1 (valid_fields m Hm)) as Hp. destruct (pbits_spec _ Hp) as (Hw & Hpw). change (2 ^ 64) with W64 in Hsz.
  unfold serialize_vec in E1. destruct (transcode_to_bytes_spec a (64 - leading_zeros64 (mod_p m - 1)) ltac:(lia)) as (b' & E & H & _).
  - eapply Forall_impl; [|exact Ha]. cbn beta. lia.
  - assert (0 <= len a) by (unfold len; lia). nia.
  - rewrite E1 in E. injection E as <-. exact H.
Qed.

Lemma deserialize_refuted : exists p m bytes v x, modulus_new p = Val m /\ digits 8 bytes /\
  deserialize_vec m bytes = Val v /\ In x v /\ p <= x.
Proof.
  exists 17. destruct (modulus_new 17) as [m| |] eqn:E; [|discriminate E|discriminate E].
  exists m, [255; 255; 255; 255; 255], (repeat 31 8), 31. injection E as <-.
  split; [reflexivity|]. split; [repeat constructor; vm_compute; congruence|].
  split; [vm_compute; reflexivity|]. split; [left; reflexivity|vm_compute; congruence].
Qed.

Lemma deserialize_bound : forall p m, modulus_new p = Val m -> forall bytes, digits 8 bytes -> len bytes * 8 < 2 ^ 64 ->
  exists v, deserialize_vec m bytes = Val v /\ Forall (fun x => 0 <= x < 2 * p) v.
Proof.
  use_modulus m. intros b Hb Hsz.
  pose proof (proj1 (valid_fields m Hm)) as Hp. destruct (pbits_spec _ Hp) as (Hw & Hpw). pose proof (pbits_upper _ Hp) as Hu.
  destruct (transcode_from_bytes_spec b (64 - leading_zeros64 (mod_p m - 1)) ltac:(lia) Hb Hsz) as (v & E & Hv & _).
  exists v. split; [exact E|]. eapply Forall_impl; [|exact Hv]. cbn beta. cbv zeta in Hu. lia.
Qed.
