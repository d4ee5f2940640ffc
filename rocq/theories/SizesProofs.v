(** Lengths of byte strings. *)
From Verif Require Import Outcome BasicSpec OutcomeLemmas ZqModel ZqProofs NumTheory NttModel PolySpec PolyRing NttPure NttStages NttProofs CbdModel CbdSpec CbdProofs.
From Verif Require Import TranscodeModel PrimesModel RnsModel RnsSpec RnsProofs RqModel RqSpec RqCtx RqRows RqProofs RingRn RqOps RqIO RqPropLemmas ParamsModel BfvSpec ParamsProofs BuildProofs ParamsPropLemmas PlainModel CipherModel OpsModel SchemeSpec CipherSpec PlainProofs RnPoly CipherProofs EncryptProofs CipherPropLemmas LinearPropLemmas SerialPropLemmas MulPropLemmas CtDot DotPropLemmas KeysModel KeysSpec KeysProofs KeySwitchProofs KeyNoiseProofs KeyOpsProofs KeyPropLemmas EvalSpec EvalKeyProofs EvalOpsProofs EvalExpandProofs RgswPropLemmas WireSpec WireProofs WireKeysProofs WireOpsProofs WirePropLemmas ReachSpec ShapeProofs ReachProofs.
From Coq Require Import Znumtheory.
From Coq Require Import Permutation.
From Verif Require Import RgswSpec WireSpec WireProofs WirePropLemmas KeySerialPropLemmas ReachSpec ReachPropLemmas BytesModel BytesSpec BytesProofs BytesMessages BytesReadProofs BytesParams.

From Verif Require Import TranscodeProofs SizesSpec.

(** ** Numbers and fields *)
Lemma number_size_pos v : 1 <= number_size v.
Proof. unfold number_size. pose proof (Z.div_pos (Z.log2 v) 7 (Z.log2_nonneg v) ltac:(lia)). lia. Qed.
Lemma number_size_mono a b : a <= b -> number_size a <= number_size b.
Proof. intros H. unfold number_size. pose proof (Z.div_le_mono _ _ 7 ltac:(lia) (Z.log2_le_mono _ _ H)). lia. Qed.
Lemma number_size_small v : v < 128 -> number_size v = 1.
Proof.
  intros H. unfold number_size. rewrite Z.div_small; [reflexivity|]. split; [apply Z.log2_nonneg|]. destruct (Z_lt_le_dec 0 v) as [Hv|Hv]; [apply (Z.log2_lt_pow2 v 7 Hv); exact H|rewrite Z.log2_nonpos by exact Hv; lia].
Qed.
Lemma number_size_big v : 128 <= v -> number_size v = 1 + number_size (v / 128).
Proof.
  intros H. unfold number_size. change 128 with (2 ^ 7) in *. rewrite <- Z.shiftr_div_pow2 by lia. rewrite Z.log2_shiftr by lia.
  assert (H7 : 7 <= Z.log2 v) by (apply Z.log2_le_pow2; lia). rewrite Z.max_r by lia. replace (Z.log2 v) with (Z.log2 v - 7 + 1 * 7) at 1 by lia. rewrite Z.div_add by lia. lia.
Qed.
Lemma len_app {A} (a b : list A) : len (a ++ b) = len a + len b.
Proof. unfold len. rewrite app_length. lia. Qed.
Lemma len_nonneg {A} (a : list A) : 0 <= len a.
Proof. unfold len. lia. Qed.
Lemma len_put_varint_loop n v : 0 <= v < 2 * 128 ^ Z.of_nat n -> len (put_varint_loop (S n) v) = number_size v.
Proof.
  revert v. induction n as [|n IH]; intros v Hv.
  - change (2 * 128 ^ Z.of_nat 0) with 2 in Hv. cbn [put_varint_loop]. rewrite (proj2 (Z.ltb_lt v 128)) by lia. rewrite number_size_small by lia. reflexivity.
  - rewrite Nat2Z.inj_succ, Z.pow_succ_r in Hv by lia. set (m := S n) in *. cbn [put_varint_loop]. destruct (v <? 128) eqn:E; [apply Z.ltb_lt in E; rewrite number_size_small by lia; reflexivity|apply Z.ltb_ge in E].
    rewrite number_size_big by lia. specialize (IH (v / 128) ltac:(split; [apply Z.div_pos; lia|apply Z.div_lt_upper_bound; lia])). rewrite <- IH. unfold len. cbn [length]. lia.
Qed.
Lemma len_put_varint v : is_u64 v -> len (put_varint v) = number_size v.
Proof. intros Hv. apply (len_put_varint_loop 9). exact Hv. Qed.
Lemma len_key k : 0 <= k < 128 -> len (put_varint k) = 1.
Proof. intros H. rewrite len_put_varint by (unfold is_u64; lia). apply number_size_small. lia. Qed.
Lemma len_int tag v : 1 <= tag <= 15 -> is_u64 v -> len (put_fields (int_field tag v)) = int_size v.
Proof.
  intros Ht Hv. unfold int_field, int_size. destruct (v =? 0); [reflexivity|]. cbn [put_fields flat_map]. rewrite app_nil_r. unfold put_field. cbn [fst snd]. rewrite len_app, len_key by lia. rewrite len_put_varint by exact Hv. reflexivity.
Qed.
Lemma len_part tag b : 1 <= tag <= 15 -> fits b -> len (put_field (tag, Bytes b)) = part_size (len b).
Proof.
  intros Ht Hb. unfold put_field, part_size. cbn [fst snd]. rewrite !len_app, len_key by lia. rewrite len_put_varint by (unfold fits in Hb; unfold is_u64; lia). unfold len. lia.
Qed.
Lemma len_string tag b : 1 <= tag <= 15 -> fits b -> b <> [] -> len (put_fields (bytes_field tag b)) = part_size (len b).
Proof. intros Ht Hb Hn. destruct b as [|x b]; [contradiction|]. unfold bytes_field. cbn [put_fields flat_map]. rewrite app_nil_r. apply len_part; assumption. Qed.
Lemma len_repeated tag s bs : 1 <= tag <= 15 -> 0 <= s < 2 ^ 64 -> Forall (fun b => len b = s) bs -> len (put_fields (repeated_field tag bs)) = len bs * part_size s.
Proof.
  intros Ht Hs H. induction H as [|b bs Hb _ IH]; [reflexivity|]. cbn [repeated_field map put_fields flat_map]. fold (repeated_field tag bs). fold (put_fields (repeated_field tag bs)). rewrite len_app, IH. rewrite len_part by (unfold fits; unfold len in Hb; lia). rewrite Hb. unfold len. cbn [length]. lia.
Qed.
Lemma len_message tag fs : 1 <= tag <= 15 -> fits (put_fields fs) -> len (put_fields (message_field tag (Some fs))) = part_size (len (put_fields fs)).
Proof. intros Ht Hb. unfold message_field. cbn [put_fields flat_map]. rewrite app_nil_r. apply len_part; assumption. Qed.
Lemma len_varints vs : Forall is_u64 vs -> len (flat_map put_varint vs) = sum_of (map number_size vs).
Proof. intros H. induction H as [|v vs Hv _ IH]; [reflexivity|]. cbn [flat_map map sum_of]. rewrite len_app, IH, len_put_varint by exact Hv. reflexivity. Qed.
Lemma len_packed tag vs : 1 <= tag <= 15 -> Forall is_u64 vs -> vs <> [] -> fits (put_fields (packed_field tag vs)) -> len (put_fields (packed_field tag vs)) = part_size (sum_of (map number_size vs)).
Proof.
  intros Ht Hv Hn Hf. unfold packed_field in *. destruct vs as [|v vs]; [contradiction|]. cbn [put_fields flat_map] in *. rewrite app_nil_r in *. rewrite <- len_varints by exact Hv. cbn [flat_map]. apply len_part; [exact Ht|].
  unfold fits, put_field in Hf. unfold fits. cbn [fst snd] in Hf. rewrite !app_length in Hf. rewrite app_length. lia.
Qed.
Lemma part_fits tag b r : fits (put_field (tag, Bytes b) ++ r) -> fits b.
Proof. unfold fits, put_field. cbn [fst snd]. rewrite !app_length. lia. Qed.
Lemma part_size_mono a b : a <= b -> part_size a <= part_size b.
Proof. intros H. unfold part_size. pose proof (number_size_mono a b H). lia. Qed.
Lemma int_size_nonneg v : 0 <= int_size v.
Proof. unfold int_size. destruct (v =? 0); [lia|]. pose proof (number_size_pos v). lia. Qed.

(** ** Polynomials *)
Lemma bits_of_modulus m : valid_modulus m -> 64 - leading_zeros64 (mod_p m - 1) = Z.log2_up (mod_p m) /\ 0 < Z.log2_up (mod_p m) <= 62.
Proof.
  intros Hm. destruct (valid_fields _ Hm) as (Hp & _). pose proof (pbits_spec _ Hp) as H. cbv zeta in H. assert (E : 64 - leading_zeros64 (mod_p m - 1) = Z.log2_up (mod_p m)); [|rewrite E in H; split; [exact E|apply H]].
  unfold leading_zeros64, nbits. destruct (Z.leb_spec (mod_p m - 1) 0); [lia|]. rewrite Z.log2_up_eqn by lia. replace (Z.pred (mod_p m)) with (mod_p m - 1) by lia. lia.
Qed.
Lemma coeffs_size_cons n q qs : coeffs_size n (q :: qs) = Z.of_nat n * Z.log2_up q / 8 + coeffs_size n qs.
Proof. reflexivity. Qed.
Section Poly.
  Variables (c : ctx) (Hc : ctx_ok c).
  Notation N := (c_degree c).
  Hypothesis HN : Z.of_nat N < 2 ^ 32.
  Hypothesis Hk : Z.of_nat (length (c_moduli c)) < 2 ^ 29.
  Set Default Proof Using "All".
  Lemma ser_len op x b : In op (c_ops c) -> length x = N -> serialize_vec (nt_p op) (row PowerBasis op x) = Val b ->
    len b = Z.of_nat N * Z.log2_up (mod_p (nt_p op)) / 8 /\ 8 * len b <= 62 * Z.of_nat N /\ Z.of_nat N <= 8 * len b.
  Proof.
    intros Hop Hx E. destruct (op_ok c Hc op Hop) as (K & w & Hok & Hs). pose proof (ok_m _ _ _ Hok) as Hm. destruct (bits_of_modulus _ Hm) as (Eb & Hb).
    destruct (ser_row c Hc HN op x Hop Hx) as (b' & E1 & E2 & _). rewrite E in E1. injection E1 as <-.
    assert (El : len b = Z.of_nat N * Z.log2_up (mod_p (nt_p op)) / 8).
    { unfold serialization_length in E2. destruct (guard _) in E2; try discriminate. cbn [bind] in E2. rewrite Eb in E2. destruct (chk64 (Z.log2_up (mod_p (nt_p op)) * Z.of_nat N)) as [t| |] eqn:Et; try discriminate. cbn [bind] in E2.
      assert (t = Z.log2_up (mod_p (nt_p op)) * Z.of_nat N) by (unfold chk64, chk in Et; destruct ((0 <=? _) && _) in Et; congruence). assert (t / 8 = len b) by congruence. subst t. rewrite <- H0, Z.mul_comm. reflexivity. }
    split; [exact El|]. rewrite El. destruct (N_div8 c Hc) as (d & Ed). rewrite Ed. replace (d * 8 * Z.log2_up (mod_p (nt_p op))) with (d * Z.log2_up (mod_p (nt_p op)) * 8) by ring. rewrite Z.div_mul by lia. split; nia.
  Qed.
  Lemma ser_rows_len x : length x = N -> forall ops, (forall op, In op ops -> In op (c_ops c)) ->
    forall bs, map2M (fun v qi => serialize_vec qi v) (map (fun op => row PowerBasis op x) ops) (map nt_p ops) = Val bs ->
    len (concat bs) = coeffs_size N (map mod_p (map nt_p ops)) /\ 8 * len (concat bs) <= 62 * Z.of_nat N * Z.of_nat (length ops) /\ Z.of_nat N * Z.of_nat (length ops) <= 8 * len (concat bs).
  Proof.
    intros Hx. induction ops as [|op ops IH]; intros Hin bs E; cbn [map map2M] in E; [injection E as <-; repeat split; cbn; lia|].
    apply bind_inv in E. destruct E as (b & Eb & E). apply bind_inv in E. destruct E as (bs' & Ebs & E). injection E as <-. destruct (ser_len op x b (Hin op (or_introl eq_refl)) Hx Eb) as (H1 & H2 & H3). destruct (IH ltac:(intros; apply Hin; right; assumption) bs' Ebs) as (K1 & K2 & K3).
    cbn [concat map length]. rewrite len_app, coeffs_size_cons, H1, K1. rewrite <- H1, <- K1. nia.
  Qed.
  Lemma poly_len R v x : length x = N -> exists m, poly_to_proto (poly_of R c v x) = Val m /\ len (rq_encode m) = poly_size N (c_moduli c) /\ 0 <= poly_size N (c_moduli c) < 2 ^ 64.
  Proof.
    intros Hx. destruct (proto_eq c Hc HN Hk R v x Hx) as (m & E & Er & Ed & _). exists m. split; [exact E|]. pose proof (N_ge8 c Hc) as H8.
    unfold poly_to_proto in E. cbn [p_lazy poly_of negb] in E. rewrite bind_guard in E by reflexivity. rewrite (into_pb_eq c Hc R v x Hx) in E. cbn [bind p_coeffs poly_of p_ctx] in E. rewrite (co_q c Hc) in E. apply bind_inv in E. destruct E as (bs & E & Em). 
    destruct (ser_rows_len x Hx (c_ops c) (fun _ h => h) bs E) as (L1 & L2 & L3). rewrite <- (co_q c Hc), <- (co_moduli c Hc) in L1. assert (Lo : length (c_moduli c) = length (c_ops c)) by (rewrite (co_moduli c Hc), (co_q c Hc), !map_length; reflexivity).
    assert (Hn : (1 <= length (c_ops c))%nat) by (pose proof (co_ne c Hc); destruct (c_ops c); [contradiction|cbn [length]; lia]).
    assert (Hfit : 8 * len (concat bs) < 62 * 2 ^ 61) by (rewrite <- Lo in L2; nia). assert (Hpos : 1 <= len (concat bs)) by nia.
    injection Em as <-. cbn [rq_repr rq_degree] in *. unfold rq_encode, rq_fields. cbn [rq_repr rq_degree rq_coeffs rq_vt]. rewrite !put_fields_app, !len_app.
    rewrite (len_int 1) by (lia || (apply Z.mod_pos_bound; lia)). rewrite (len_int 2) by (lia || (rewrite Ed; unfold is_u64; lia)). rewrite (len_int 4) by (lia || (unfold is_u64; lia)). rewrite Ed.
    rewrite len_string; [|lia|unfold fits; unfold len in Hfit; lia|intros E0; rewrite E0 in Hpos; cbn in Hpos; lia]. rewrite L1. replace (int_size (repr_code R mod 2 ^ 64)) with 2 by (destruct R; reflexivity). change (int_size 0) with 0.
    assert (Eq : 2 + (int_size (Z.of_nat N) + (part_size (coeffs_size N (c_moduli c)) + 0)) = poly_size N (c_moduli c)) by (unfold poly_size; lia). split; [exact Eq|]. rewrite <- Eq.
    assert (Hi : 0 <= int_size (Z.of_nat N) <= 6). { unfold int_size. destruct (Z.of_nat N =? 0); [lia|]. pose proof (number_size_pos (Z.of_nat N)). pose proof (number_size_mono (Z.of_nat N) (2 ^ 32) ltac:(lia)) as H9. change (number_size (2 ^ 32)) with 5 in H9. lia. }
    assert (Hq : part_size (coeffs_size N (c_moduli c)) <= 11 + len (concat bs)). { unfold part_size. rewrite <- L1. pose proof (number_size_mono (len (concat bs)) (2 ^ 64) ltac:(lia)) as H9. change (number_size (2 ^ 64)) with 10 in H9. lia. }
    assert (Hq' : 0 <= part_size (coeffs_size N (c_moduli c))). { unfold part_size. rewrite <- L1. pose proof (number_size_pos (len (concat bs))). lia. } lia.
  Qed.
End Poly.

(** ** Parameters *)
Set Default Proof Using "Type".
Section Good.
  Variables (isp : Z -> bool) (cands : Z -> list Z) (Ho : oracles isp cands) (par : params) (G : good_params isp cands par) (Hser : serializable par).
  Set Default Proof Using "All".
  Lemma polys_len l R (ps : list (poly R)) : (l <= max_level par)%nat -> Forall (fun p => exists x, is_poly par l p x) ps -> exists ms, mapM poly_to_proto ps = Val ms /\ length ms = length ps /\ Forall (fun b => len b = level_poly_size par l) (map rq_encode ms).
  Proof.
    intros Hl H. destruct (at_level_ex isp cands par l Ho G Hl) as (lv & c & A). pose proof (good_ok _ (al_good _ _ _ _ _ _ A)) as Hc. pose proof (al_deg _ _ _ _ _ _ A) as Hd. pose proof (al_mod _ _ _ _ _ _ A) as Hm.
    induction H as [|p ps (x & Ep & Lx & Er) _ (ms & E1 & E2 & E3)]; [exists []; repeat split; constructor|]. rewrite (al_par_context isp cands par l lv c A) in Ep. injection Ep as Ep. rewrite <- Ep in *.
    destruct (poly_len c Hc ltac:(rewrite Hd; apply Hser) (par_count isp cands Ho par G l lv c A Hser) R (p_vt p) x Lx) as (m & F1 & F2 & _). exists (m :: ms). cbn [mapM]. rewrite Er, F1. cbn [bind]. rewrite E1. cbn [bind]. split; [reflexivity|]. split; [cbn [length]; congruence|]. cbn [map]. constructor; [|exact E3]. rewrite F2, Hd, Hm. reflexivity.
  Qed.
  Lemma level_poly_bound l : (l <= max_level par)%nat -> 0 <= level_poly_size par l < 2 ^ 64.
  Proof.
    intros Hl. destruct (at_level_ex isp cands par l Ho G Hl) as (lv & c & A). pose proof (good_ok _ (al_good _ _ _ _ _ _ A)) as Hc. pose proof (al_deg _ _ _ _ _ _ A) as Hd. pose proof (al_mod _ _ _ _ _ _ A) as Hm.
    destruct (poly_len c Hc ltac:(rewrite Hd; apply Hser) (par_count isp cands Ho par G l lv c A Hser) Ntt false (repeat 0 (c_degree c)) ltac:(apply repeat_length)) as (_ & _ & _ & H). rewrite Hd, Hm in H. exact H.
  Qed.
  Lemma lvl_small l : (l <= max_level par)%nat -> Z.of_nat l mod W32 = Z.of_nat l.
  Proof. intros Hl. destruct (at_level_ex isp cands par l Ho G Hl) as (lv & c & A). apply (level_w32 isp cands Ho par G l lv c A Hser). Qed.
  Lemma level_u64 l : (l <= max_level par)%nat -> is_u64 (Z.of_nat l).
  Proof. intros Hl. pose proof (lvl_small l Hl) as E. pose proof (Z.mod_pos_bound (Z.of_nat l) W32 ltac:(reflexivity)) as H. rewrite E in H. unfold is_u64. assert (W32 = 2 ^ 32) by reflexivity. lia. Qed.

  (** *** Ciphertexts *)
  Lemma ct_wire_len ct l : ct_level ct = l -> (l <= max_level par)%nat -> Forall (fun p => exists x, is_poly par l p x) (ct_c ct) -> ct_seed_ok ct -> (ct_seed ct <> None -> (1 <= length (ct_c ct))%nat) ->
    exists w, ct_to_wire ct = Val w /\ len (put_fields (ct_fields w)) = ct_size par l (length (ct_c ct)) (is_some (ct_seed ct)).
  Proof.
    intros El Hl Hps Hsd Hne. unfold ct_to_wire, ct_to_proto. rewrite El.
    assert (Hw : forall ms (sd : list Z) (n : nat), Forall (fun b => len b = level_poly_size par l) (map rq_encode ms) -> length ms = n -> (sd = [] \/ length sd = 32%nat) ->
      len (put_fields (ct_fields (mkCw (map rq_encode ms) sd (Z.of_nat l mod W32)))) = Z.of_nat n * part_size (level_poly_size par l) + seed_size (negb (Nat.eqb (length sd) 0)) + int_size (Z.of_nat l)).
    { intros ms sd n Hms En Hs. unfold ct_fields. cbn [cw_c cw_seed cw_level]. rewrite !put_fields_app, !len_app. rewrite (lvl_small l Hl). rewrite (len_repeated 1 (level_poly_size par l)) by (lia || exact (level_poly_bound l Hl) || exact Hms). rewrite (len_int 3) by (lia || exact (level_u64 l Hl)). unfold len at 1. rewrite map_length, En.
      assert (Es : len (put_fields (bytes_field 2 sd)) = seed_size (negb (Nat.eqb (length sd) 0))). { destruct Hs as [->|Hs]; [reflexivity|]. rewrite len_string; [unfold len; rewrite Hs; reflexivity|lia|unfold fits; rewrite Hs; reflexivity|intros E; rewrite E in Hs; discriminate]. } rewrite Es. lia. }
    destruct (ct_seed ct) as [sd|] eqn:Es.
    - specialize (Hne ltac:(discriminate)). pose proof (Hsd sd Es) as Ls. destruct (ct_c ct) as [|p ps] eqn:Ec; [cbn [length] in Hne; lia|]. assert (Hr : Forall (fun p => exists x, is_poly par l p x) (removelast (p :: ps))).
      { rewrite (app_removelast_last p (l := p :: ps)) in Hps by discriminate. apply Forall_app in Hps. apply Hps. }
      destruct (polys_len l Ntt _ Hl Hr) as (ms & E1 & E2 & E3). rewrite E1. cbn [bind cp_c cp_seed cp_level]. eexists. split; [reflexivity|]. rewrite (Hw ms sd (length (removelast (p :: ps))) E3 E2 (or_intror Ls)). unfold ct_size. cbn [is_some]. rewrite Ls. cbn [Nat.eqb negb].
      assert (Lr : length (removelast (p :: ps)) = (length (p :: ps) - 1)%nat). { pose proof (f_equal (@length _) (app_removelast_last p (l := p :: ps) ltac:(discriminate))) as H. rewrite app_length in H. cbn [length] in *. lia. } rewrite Lr. reflexivity.
    - destruct (polys_len l Ntt _ Hl Hps) as (ms & E1 & E2 & E3). assert (Em : match ct_c ct with [] => Val [] | _ :: _ => mapM poly_to_proto (ct_c ct) end = Val ms) by (destruct (ct_c ct); [rewrite <- E1; reflexivity|exact E1]).
      assert (Ex : (cs <- match ct_c ct with [] => Val [] | _ :: _ => mapM poly_to_proto (ct_c ct) end ;; Val (mkCtp cs match ct_c ct with [] => [] | _ :: _ => [] end (Z.of_nat l mod W32))) = Val (mkCtp ms [] (Z.of_nat l mod W32))) by (rewrite Em; cbn [bind]; destruct (ct_c ct); reflexivity).
      exists (mkCw (map rq_encode ms) [] (Z.of_nat l mod W32)). split.
      + destruct (ct_c ct) as [|p ps]; cbn [bind] in Ex |- *; [|].
        * injection Em as <-. reflexivity.
        * rewrite Em. reflexivity.
      + rewrite (Hw ms [] (length (ct_c ct)) E3 E2 (or_introl eq_refl)). reflexivity.
  Qed.

  (** *** Keys *)
  Lemma ksk_wire_len l1 l2 k : key_shape par l1 l2 k -> exists w, ksk_to_wire k = Val w /\ len (put_fields (ksk_fields w)) = key_size par l1 l2 (k_log_base k) (is_some (k_seed k)).
  Proof.
    intros (E1 & E2 & E3 & H1 & H2 & E4 & E5 & Hb & Hd & L0 & L1 & F0 & F1 & Hsd).
    assert (Hps : forall ps : list (poly NttShoup), Forall (fun p => p_vt p = true /\ exists x, is_poly par l2 p x) ps -> Forall (fun p => exists x, is_poly par l2 p x) ps) by (intros ps H; eapply Forall_impl; [|exact H]; intros p (_ & Hp); exact Hp).
    destruct (polys_len l2 NttShoup _ H2 (Hps _ F0)) as (m0 & A1 & A2 & A3). destruct (polys_len l2 NttShoup _ H2 (Hps _ F1)) as (m1 & B1 & B2 & B3).
    assert (Hw : forall ms (sd : list Z), Forall (fun b => len b = level_poly_size par l2) (map rq_encode ms) -> (sd = [] \/ length sd = 32%nat) ->
      len (put_fields (ksk_fields (mkKw (map rq_encode m0) (map rq_encode ms) sd (Z.of_nat l1 mod W32) (Z.of_nat l2 mod W32) (k_log_base k mod W32)))) =
      (key_count par l1 (k_log_base k) + len ms) * part_size (level_poly_size par l2) + seed_size (negb (Nat.eqb (length sd) 0)) + int_size (Z.of_nat l1) + int_size (Z.of_nat l2) + int_size (k_log_base k)).
    { intros ms sd Hms Hs. unfold ksk_fields. cbn [kw_c0 kw_c1 kw_seed kw_ct_level kw_level kw_log_base]. rewrite !put_fields_app, !len_app. rewrite (lvl_small l1 H1), (lvl_small l2 H2), (Z.mod_small (k_log_base k) W32) by (assert (W32 = 2 ^ 32) by reflexivity; lia).
      rewrite !(len_repeated _ (level_poly_size par l2)) by (lia || exact (level_poly_bound l2 H2) || assumption). rewrite (len_int 4) by (lia || exact (level_u64 l1 H1)). rewrite (len_int 5) by (lia || exact (level_u64 l2 H2)). rewrite (len_int 6) by (lia || (unfold is_u64; lia)).
      assert (Es : len (put_fields (bytes_field 3 sd)) = seed_size (negb (Nat.eqb (length sd) 0))). { destruct Hs as [->|Hs]; [reflexivity|]. rewrite len_string; [unfold len; rewrite Hs; reflexivity|lia|unfold fits; rewrite Hs; reflexivity|intros E; rewrite E in Hs; discriminate]. }
      rewrite Es. unfold len at 1 2. rewrite !map_length, A2, L0. unfold len. lia. }
    unfold ksk_to_wire, ksk_to_proto. rewrite A1, E2, E3. destruct (k_seed k) as [sd|] eqn:Es.
    - cbn [bind kp_c0 kp_c1 kp_seed kp_ct_level kp_level kp_log_base]. eexists. split; [reflexivity|]. pose proof (Hsd sd eq_refl) as Ls. rewrite (Hw [] sd (Forall_nil _) (or_intror Ls)). rewrite Ls. unfold key_size. cbn [is_some Nat.eqb negb]. unfold len. cbn [length]. lia.
    - rewrite B1. cbn [bind kp_c0 kp_c1 kp_seed kp_ct_level kp_level kp_log_base]. eexists. split; [reflexivity|]. rewrite (Hw m1 [] B3 (or_introl eq_refl)). unfold key_size. cbn [is_some length Nat.eqb negb]. unfold len. rewrite B2. lia.
  Qed.
  Lemma galois_wire_len l1 l2 g : gk_shape par l1 l2 g -> exists w, galois_to_wire g = Val w /\
    (fits (put_fields (galois_fields w)) -> len (put_fields (galois_fields w)) = galois_size par l1 l2 (k_log_base (g_ksk g)) (se_exponent (g_element g)) (is_some (k_seed (g_ksk g)))).
  Proof.
    intros (Hk & c & e & Ec & He & Hodd & Es). destruct (ksk_wire_len l1 l2 _ Hk) as (w & E & El). pose proof Hk as (_ & _ & _ & Hl & _). destruct (at_level_ex isp cands par l1 Ho G Hl) as (lv & c1 & A). rewrite (al_par_context isp cands par l1 lv c1 A) in Ec. injection Ec as <-.
    pose proof (N31 isp cands Ho par G) as HN. pose proof (al_deg _ _ _ _ _ _ A) as Hd. rewrite <- Hd in HN. pose proof (good_ok _ (al_good _ _ _ _ _ _ A)) as Hc. pose proof (al_N8 isp cands par l1 lv c1 A) as H8. rewrite <- Hd in H8.
    destruct (subst_new_ok c1 e Hc HN He Hodd) as (i & Ei & _ & Hi). rewrite Es in Ei. injection Ei as <-. pose proof (so_exp _ _ _ Hi) as Ee. pose proof (so_range _ _ _ Hi) as Hr.
    assert (Hx : 0 <= se_exponent (g_element g) < W32) by (rewrite Ee; assert (W32 = 2 ^ 32) by reflexivity; lia).
    unfold galois_to_wire. rewrite E. cbn [bind]. eexists. split; [reflexivity|]. rewrite (Z.mod_small _ W32) by exact Hx. unfold galois_fields. cbn [gw_ksk gw_exponent option_map]. rewrite !put_fields_app, !len_app. intros Hf.
    assert (Hfk : fits (put_fields (ksk_fields w))). { cbn [message_field put_fields flat_map] in Hf. rewrite <- !app_assoc in Hf. exact (part_fits _ _ _ Hf). }
    rewrite len_message by (lia || exact Hfk). rewrite (len_int 2) by (lia || (unfold is_u64; assert (W32 = 2 ^ 32) by reflexivity; lia)). rewrite El. reflexivity.
  Qed.
  Lemma galois_wires_len l1 l2 (gs : list (Z * galois_key)) : Forall (fun eg => gk_shape par l1 l2 (snd eg)) gs -> exists ws, mapM (fun eg => galois_to_wire (snd eg)) gs = Val ws /\
    (fits (put_fields (repeated_field 2 (map (fun g => put_fields (galois_fields g)) ws))) -> len (put_fields (repeated_field 2 (map (fun g => put_fields (galois_fields g)) ws))) =
      sum_of (map (fun eg => part_size (galois_size par l1 l2 (k_log_base (g_ksk (snd eg))) (se_exponent (g_element (snd eg))) (is_some (k_seed (g_ksk (snd eg)))))) gs)).
  Proof.
    intros H. induction H as [|(e, g) gs Hg _ (ws & E & El)]; [exists []; split; [reflexivity|intros _; reflexivity]|]. destruct (galois_wire_len l1 l2 g Hg) as (w & Ew & Lw). exists (w :: ws). cbn [mapM snd]. rewrite Ew. cbn [bind]. rewrite E. cbn [bind]. split; [reflexivity|].
    cbn [map repeated_field put_fields flat_map sum_of snd]. intros Hf. pose proof (part_fits _ _ _ Hf) as Hf1. rewrite len_app, len_part by (lia || exact Hf1). rewrite Lw by exact Hf1. f_equal. apply El. destruct (fits_app _ _ Hf) as (_ & Hf2). exact Hf2.
  Qed.
  Lemma ek_len l1 ek : ek_shape par l1 ek -> NoDup (map fst (ek_gk ek)) -> (ek_level ek <= max_level par)%nat -> exists b, ek_to_bytes ek = Val b /\ (fits b -> len b = ek_size par l1 (ek_level ek) (ek_public ek)).
  Proof.
    intros (Ep & El & Hl & _ & _ & Hg) Hn Hl2. assert (HF : Forall (fun eg => gk_shape par l1 (ek_level ek) (snd eg)) (ek_gk ek)). { apply Forall_forall. intros (e, g) Hi. apply (lookup_In _ Hn) in Hi. exact (proj2 (Hg e g Hi)). }
    destruct (galois_wires_len l1 (ek_level ek) _ HF) as (ws & E & Lw). unfold ek_to_bytes. rewrite E. cbn [bind]. eexists. split; [reflexivity|]. unfold ek_fields. cbn [ew_gk ew_ct_level ew_level]. rewrite El. rewrite (lvl_small l1 Hl), (lvl_small _ Hl2). rewrite !put_fields_app. intros Hf. destruct (fits_app _ _ Hf) as (Hf1 & _).
    rewrite !len_app, (Lw Hf1). rewrite (len_int 3) by (lia || exact (level_u64 l1 Hl)). rewrite (len_int 4) by (lia || exact (level_u64 _ Hl2)). unfold ek_size, ek_public. rewrite map_map. cbn [fst snd]. lia.
  Qed.
End Good.
