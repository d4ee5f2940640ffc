(** The database, the keys, the query and its expansion in the examples of private information retrieval. *)
From Verif Require Import Outcome BasicSpec OutcomeLemmas ZqModel ZqProofs NumTheory NttModel PolySpec PolyRing NttPure NttStages NttProofs CbdModel CbdSpec CbdProofs.
From Verif Require Import TranscodeModel TranscodeProofs PrimesModel RnsModel RnsSpec RnsProofs RqModel RqSpec RqCtx RqRows RqProofs RingRn RqOps RqIO RqPropLemmas ParamsModel BfvSpec ParamsProofs BuildProofs ParamsPropLemmas PlainModel CipherModel OpsModel SchemeSpec CipherSpec PlainProofs PlainPropLemmas RnPoly CipherProofs EncryptProofs CipherPropLemmas LinearPropLemmas.
From Verif Require Import SerialPropLemmas DotPropLemmas MulPropLemmas KeysModel KeysSpec KeyPropLemmas EvalSpec EvalPropLemmas WireSpec KeySerialPropLemmas PolyEncProofs PirModel PirSpec PirLists.
From Coq Require Import Permutation Znumtheory Zpow_facts.
From Verif Require Import BasicSpec.
Set Default Proof Using "Type".

Lemma digits_value_zeros w k : digits_value w (repeat 0 k) = 0.
Proof. induction k as [|k IH]; [reflexivity|]. cbn [repeat digits_value]. rewrite IH. lia. Qed.
Lemma digits_value_pad w n v : 0 <= w -> digits_value w (pad n v) = digits_value w v.
Proof. intros Hw. unfold pad. rewrite digits_value_app by exact Hw. rewrite digits_value_zeros. lia. Qed.
Lemma digits_pad w n v : 0 <= w -> digits w v -> digits w (pad n v).
Proof. intros Hw H. unfold pad. apply digits_app; [exact H|]. apply Forall_forall. intros b Hb. apply repeat_spec in Hb. subst b. assert (0 < 2 ^ w) by (apply Z.pow_pos_nonneg; lia). cbn; lia. Qed.
Lemma ceiling_bound a b : 0 < b -> a <= b * ceiling a b < a + b.
Proof. intros Hb. unfold ceiling. pose proof (Z.div_mod (a + b - 1) b ltac:(lia)) as E. pose proof (Z.mod_pos_bound (a + b - 1) b Hb). lia. Qed.

Section Pir.
  Context (isp : Z -> bool) (cands : Z -> list Z) (par : params) (Ho : oracles isp cands) (Hp : is_params isp cands par) (HP : pir_params par).
  Set Default Proof Using "All".
  Notation N := (pa_degree par).
  Notation t := (pa_t par).
  Notation w := (Z.log2 (pa_t par)).
  Notation G := (params_good isp cands par Ho Hp).

  Lemma pir_levels : max_level par = 2%nat.
  Proof. destruct (gp_levels _ _ _ G) as (plain & _ & E & _). unfold max_level. rewrite E. destruct HP as (-> & _). reflexivity. Qed.
  Lemma pir_w : 1 <= w <= 63 /\ 2 ^ w <= t /\ 2 <= t < 2 ^ 64.
  Proof.
    pose proof (gp_t _ _ _ G) as Ht. destruct HP as (_ & _ & _ & _ & _ & Hlt). split; [|split; [apply Z.log2_spec; lia|lia]]. split; [apply (Z.log2_le_mono 2); lia|]. assert (w < 64) by (apply Z.log2_lt_pow2; lia). lia.
  Qed.
  Lemma pir_N : exists K, (3 <= K <= 16)%nat /\ N = (2 ^ K)%nat /\ Z.of_nat N = 2 ^ Z.of_nat K /\ 8 <= Z.of_nat N <= 65536.
  Proof.
    destruct (gp_deg _ _ _ G) as (K & HK & EN & _). exists K. split; [exact HK|]. split; [exact EN|]. assert (E : Z.of_nat N = 2 ^ Z.of_nat K) by (rewrite EN, Nat2Z.inj_pow; reflexivity). split; [exact E|]. rewrite E.
    split; [apply (Z.pow_le_mono_r 2 3); lia|apply (Z.pow_le_mono_r 2 _ 16); lia].
  Qed.
  Lemma pir_plain_bits : plain_bits par = Val w.
  Proof.
    unfold plain_bits. pose proof (gp_small _ _ _ G) as Hs. pose proof pir_w as (_ & _ & Ht). destruct (pa_small par) as [m|]; [|lia]. cbn [unwrap bind]. destruct Hs as (Hm & _). apply modulus_new_valid in Hm. rewrite <- (proj2 Hm). reflexivity.
  Qed.
  Lemma level_fits l : (l <= 2)%nat -> t <= level_modulus par l.
  Proof.
    intros Hl. destruct HP as (L3 & _ & Hdec & _ & _ & Hlt). unfold decryptable, decryption_base in Hdec. replace (t <? 2 ^ 64) with true in Hdec by (symmetry; apply Z.ltb_lt; exact Hlt). pose proof pir_w as (_ & _ & Ht).
    pose proof (gp_friendly _ _ _ G) as Hf. unfold level_modulus, level_moduli. destruct (pa_moduli par) as [|q0 [|q1 [|q2 [|? ?]]]]; try discriminate L3. cbn [hd length] in *.
    assert (0 <= t / 2 ^ 40) by (apply Z.div_pos; lia). assert (Hq : Forall (fun q => 1 <= q) [q0; q1; q2]) by (eapply Forall_impl; [|exact Hf]; intros q (Hq & _); apply prime_ge_2 in Hq; lia).
    apply Forall_cons_iff in Hq. destruct Hq as (H0 & Hq). apply Forall_cons_iff in Hq. destruct Hq as (H1 & Hq). apply Forall_cons_iff in Hq. destruct Hq as (H2 & _).
    destruct l as [|[|[|l]]]; [| | |lia]; cbn [Nat.sub firstn prod_list fold_right]; assert (Hq0 : t <= q0) by lia; assert (M1 : q0 <= q0 * q1) by nia; assert (M2 : q0 * q1 <= q0 * q1 * q2) by nia; lia.
  Qed.

  (** ** The database *)
  Section Database.
    Context (isqrt : nat -> nat) (esize : nat) (db : list (list Z)) (d1 d2 : nat) (Hdb : database esize db) (Hne : db <> []) (Hes : (0 < esize)%nat) (Hfit : 8 * Z.of_nat esize <= w * Z.of_nat N) (Hlay : layout isqrt par esize db d1 d2).
    Notation npp := (Z.to_nat (per_row par esize)).
    Notation rows := (row_count par esize db).
    Lemma per_row_range : 1 <= per_row par esize <= w * Z.of_nat N /\ 8 * Z.of_nat esize * per_row par esize <= w * Z.of_nat N.
    Proof.
      unfold per_row. set (b := 8 * Z.of_nat esize) in *. assert (Hb : 8 <= b) by (unfold b; lia). split; [split; [apply Z.div_le_lower_bound; lia|apply Z.div_le_upper_bound; [lia|]; pose proof pir_w; pose proof pir_N as (K & _ & _ & _ & HN); nia]|]. apply Z.mul_div_le. lia.
    Qed.
    Lemma wN_bound : w * Z.of_nat N <= 63 * 65536.
    Proof. pose proof pir_w as ((? & ?) & _). pose proof pir_N as (K & _ & _ & _ & HN). nia. Qed.
    Lemma npp_val : elements_per_plaintext N w esize = Val npp.
    Proof.
      pose proof wN_bound. unfold elements_per_plaintext, chk64. rewrite chk_val by lia. cbn [bind]. rewrite chk_val by lia. cbn [bind]. replace (Z.of_nat esize * 8 =? 0) with false by (symmetry; apply Z.eqb_neq; lia). cbn [negb guard bind].
      unfold per_row. rewrite (Z.mul_comm 8). reflexivity.
    Qed.
    Lemma rows_range : 1 <= rows /\ rows <= Z.of_nat d1 * Z.of_nat d2 /\ (0 < d2)%nat /\ rows = ceiling (Z.of_nat (length db)) (per_row par esize).
    Proof.
      destruct Hlay as (_ & Hd1 & E2 & _). pose proof (proj1 per_row_range) as Hpr. assert (Hl : 1 <= Z.of_nat (length db)) by (destruct db; [congruence|cbn [length]; lia]).
      pose proof (ceiling_bound (Z.of_nat (length db)) (per_row par esize) ltac:(lia)) as Hr. fold (row_count par esize db) in Hr. assert (H1 : 1 <= rows) by nia. pose proof (ceiling_bound rows (Z.of_nat d1) ltac:(lia)) as H2. rewrite <- E2 in H2.
      split; [exact H1|]. split; [lia|]. split; [nia|reflexivity].
    Qed.
    Lemma dims_bound : (d1 + d2 <= N)%nat /\ (0 < d1)%nat /\ (0 < d2)%nat /\ Z.of_nat d1 * Z.of_nat d2 <= 2 ^ 32.
    Proof.
      pose proof rows_range as (_ & _ & H2 & _). destruct Hlay as (_ & Hd1 & _ & Hd). pose proof pir_N as (K & _ & _ & _ & HN). repeat (split; [assumption|]). nia.
    Qed.
    Lemma encode_row q : exists v, transcode_from_bytes (row_content db npp esize q) w = Val v /\ (length v <= N)%nat /\ digits w v /\ digits_value w v = digits_value 8 (row_content db npp esize q).
    Proof.
      pose proof pir_w as (Hw & _). pose proof per_row_range as ((H1 & _) & H2). pose proof wN_bound as Hb. assert (Lb : len (row_content db npp esize q) * 8 <= w * Z.of_nat N) by (unfold len; rewrite row_content_length by exact Hdb; rewrite Nat2Z.inj_mul, Z2Nat.id by lia; lia).
      destruct (transcode_from_bytes_spec (row_content db npp esize q) w ltac:(lia) (row_content_digits _ _ _ _ Hdb) ltac:(lia)) as (v & E & Hd & Hv & Hl). exists v. split; [exact E|]. split; [|split; assumption].
      unfold len, div_ceil in Hl. apply Nat2Z.inj_le. rewrite Hl. apply Z.lt_succ_r, Z.div_lt_upper_bound; [lia|]. unfold len in Lb. nia.
    Qed.
    Lemma encode_digits vt v : (length v <= N)%nat -> digits w v -> exists pt, encode_u64 vt v (mkEnc EncPoly 1) par = Val pt /\ is_pt par 1 pt (pad N v).
    Proof.
      intros Lv Hd. pose proof pir_w as (Hw & Hp2 & Ht). destruct (encode_poly_all isp cands par Ho Hp 1 ltac:(rewrite pir_levels; lia) (level_fits 1 ltac:(lia)) vt v Lv) as (pt & E & Hpt & _).
      - eapply Forall_impl; [|exact Hd]. cbv beta. intros; lia.
      - eapply Forall_impl; [|exact Hd]. cbv beta. unfold is_u64. intros; lia.
      - eauto.
    Qed.
    Lemma encode_database_val : exists pre vs, encode_database isqrt db par 1 = Val (pre, (d1, d2)) /\ length pre = (d1 * d2)%nat /\ Forall2 (is_pt par 1) pre vs /\ Forall (fun v => length v = N /\ digits w v) vs /\
      forall q, Z.of_nat q < rows -> digits_value w (nth q vs []) = digits_value 8 (row_content db npp esize q).
    Proof.
      pose proof pir_w as (Hw & _). pose proof rows_range as (R1 & R2 & R3 & R4). pose proof dims_bound as (D1 & D2 & D3 & D4). pose proof per_row_range as ((P1 & _) & _).
      destruct (encode_digits true [] ltac:(cbn [length]; lia) (Forall_nil _)) as (zero & Ez & Hz).
      assert (HR : forall n a, exists pts vs, mapM (fun i => b <- row_bytes db npp esize i ;; v <- transcode_from_bytes b w ;; no_err (encode_u64 true v (mkEnc EncPoly 1) par)) (seq a n) = Val pts /\ length pts = n /\
        Forall2 (is_pt par 1) pts vs /\ Forall (fun v => length v = N /\ digits w v) vs /\ forall q, (q < n)%nat -> digits_value w (nth q vs []) = digits_value 8 (row_content db npp esize (a + q))).
      { induction n as [|n IH]; intros a; [exists [], []; repeat split; try constructor; intros; lia|]. destruct (IH (S a)) as (pts & vs & E & L & F & Fv & Hq). destruct (encode_row a) as (v & Ev & Lv & Hd & Hv). destruct (encode_digits true v Lv Hd) as (pt & Ept & Hpt).
        exists (pt :: pts), (pad N v :: vs). cbn [seq mapM]. rewrite (row_bytes_val _ _ _ _ Hdb). cbn [bind]. rewrite Ev. cbn [bind]. rewrite Ept. cbn [no_err bind]. rewrite E. cbn [bind]. split; [reflexivity|]. split; [cbn [length]; lia|]. split; [constructor; assumption|].
        split; [constructor; [split; [apply pad_length, Lv|apply digits_pad; [lia|exact Hd]]|exact Fv]|]. intros [|q] Hlt; cbn [nth]; [rewrite digits_value_pad, Nat.add_0_r by lia; exact Hv|]. rewrite Hq by lia. do 2 f_equal. lia. }
      destruct (HR (Z.to_nat rows) 0%nat) as (pts & vs & E & L & F & Fv & Hq). exists (pts ++ repeat zero (Z.to_nat (Z.of_nat d1 * Z.of_nat d2 - rows))), (vs ++ repeat (pad N []) (Z.to_nat (Z.of_nat d1 * Z.of_nat d2 - rows))).
      split; [|split; [|split; [|split]]].
      - unfold encode_database. assert (Eh : exists e, hd_error db = Some e /\ length e = esize) by (destruct db as [|e tl]; [congruence|]; exists e; split; [reflexivity|]; apply Forall_cons_iff in Hdb; exact (proj1 (proj1 Hdb))). destruct Eh as (e & Eh & Le). rewrite Eh. cbn [unwrap bind]. rewrite Le.
        rewrite pir_plain_bits. cbn [bind]. rewrite npp_val. cbn [bind]. unfold div_ceilM at 1. rewrite Z2Nat.id by lia. replace (per_row par esize =? 0) with false by (symmetry; apply Z.eqb_neq; lia). cbn [negb guard bind].
        change ((len db + per_row par esize - 1) / per_row par esize) with rows. destruct Hlay as (Ed1 & _ & Ed2 & _). rewrite <- Ed1. unfold div_ceilM. replace (Z.of_nat d1 =? 0) with false by (symmetry; apply Z.eqb_neq; lia). cbn [negb guard bind].
        change ((rows + Z.of_nat d1 - 1) / Z.of_nat d1) with (ceiling rows (Z.of_nat d1)). rewrite <- Ed2. unfold chk64. rewrite chk_val by lia. cbn [bind]. rewrite Ez. cbn [no_err bind]. rewrite E. cbn [bind]. replace (rows <=? Z.of_nat d1 * Z.of_nat d2) with true by (symmetry; apply Z.leb_le; lia). cbn [guard bind]. rewrite Nat2Z.id. reflexivity.
      - rewrite app_length, repeat_length, L. apply Nat2Z.inj. rewrite Nat2Z.inj_add, Nat2Z.inj_mul, !Z2Nat.id by lia. lia.
      - apply Forall2_app; [exact F|]. induction (Z.to_nat (Z.of_nat d1 * Z.of_nat d2 - rows)) as [|k IH]; constructor; assumption.
      - apply Forall_app. split; [exact Fv|]. apply Forall_forall. intros v Hv. apply repeat_spec in Hv. subst v. split; [apply pad_length; cbn [length]; lia|apply digits_pad; [lia|constructor]].
      - intros q Hlt. rewrite app_nth1 by (rewrite <- (Forall2_length_eq _ _ _ F), L; lia). rewrite Hq by lia. reflexivity.
    Qed.
  End Database.

  (** ** The keys *)
  Lemma expansion_level_val dims : (0 < dims <= N)%nat -> exists L, expansion_level dims = Val L /\ Z.of_nat L = Z.log2_up (Z.of_nat dims) /\ (2 ^ L <= N)%nat /\ Z.of_nat L <= Z.log2 (Z.of_nat N) /\ Z.of_nat L <= 16 /\ (dims <= 2 ^ L)%nat.
  Proof.
    intros Hd. pose proof pir_N as (K & HK & EN & EZ & HN). pose proof (Z.log2_up_nonneg (Z.of_nat dims)) as H0. assert (HL : Z.log2_up (Z.of_nat dims) <= Z.of_nat K) by (rewrite <- (Z.log2_up_pow2 (Z.of_nat K)), <- EZ by lia; apply Z.log2_up_le_mono; lia).
    exists (Z.to_nat (Z.log2_up (Z.of_nat dims))). unfold expansion_level, chk64. rewrite chk_val by (split; [apply Z.pow_nonneg; lia|apply Z.le_lt_trans with (2 ^ 16); [apply Z.pow_le_mono_r; lia|reflexivity]]). cbn [bind]. rewrite Z.log2_pow2 by lia.
    split; [reflexivity|]. rewrite Z2Nat.id by lia. split; [reflexivity|]. split; [rewrite EN; apply Nat.pow_le_mono_r; lia|]. split; [rewrite EZ, Z.log2_pow2 by lia; exact HL|]. split; [lia|].
    apply Nat2Z.inj_le. rewrite Nat2Z.inj_pow, Z2Nat.id by lia. apply Z.log2_up_le_pow2; lia.
  Qed.
  Lemma same_ek_is_ek sk l1 l2 a b es B : same_ek a b -> is_ek par sk l1 l2 b es B -> is_ek par sk l1 l2 a es B.
  Proof.
    intros (E1 & E2 & E3 & E4 & E5 & E6) (F1 & F2 & F3 & F4 & F5 & F6 & F7). split; [congruence|]. split; [congruence|]. split; [congruence|]. split; [intros i e; rewrite E6; apply F4|]. split; [rewrite E4; exact F5|]. split; [intros e; rewrite E5; apply F6|]. intros e g. rewrite E5. apply F7.
  Qed.
  Section Keys.
    Context (expand : expander) (derive : deriver) (Hx : expands_well expand) (sk : secret_key) (Hsk : is_sk par sk) (d : pir_draws) (Hd : draws_ok d).
    Notation v2 := (2 * pa_variance par).
    Lemma expansion_key_val dims : (0 < dims <= N)%nat -> exists ek es, pir_expansion_key expand derive sk dims d = Val ek /\ is_ek par sk 1 0 ek es v2 /\ proper_exponents N es /\ round_exponents N (Z.to_nat (Z.log2_up (Z.of_nat dims))) es.
    Proof.
      intros Hdim. destruct (expansion_level_val dims Hdim) as (L & EL & EL' & _ & HLN & _). unfold pir_expansion_key. rewrite EL. cbn [bind]. pose proof pir_levels as Hml. destruct Hd as (_ & Hseed & Hek & _). destruct HP as (_ & _ & _ & Hser & _).
      destruct (proj1 (proj2 (builder_new_all isp cands par Ho Hp sk Hsk) 1%nat 0%nat) ltac:(lia)) as (rot & E1 & Hb). rewrite E1. cbn [bind].
      destruct (proj1 (proj2 (proj2 (proj2 (proj2 (builder_enable_all par sk Hsk 1%nat 0%nat _ [] Hb))))) L HLN) as (b' & E2 & Hb' & Hask). rewrite E2. cbn [bind]. specialize (Hask (Nat.le_0_l _)).
      destruct (ek_roundtrip_all isp cands par Ho Hp Hser expand derive Hx sk Hsk 1%nat 0%nat ltac:(lia) ltac:(lia) b' [] (d_ek_seeds d) (d_ek d) Hb' Hseed Hek) as (ek & m & E3 & _ & _ & E4 & HR).
      destruct (build_all isp cands par Ho Hp expand derive Hx sk Hsk 1%nat 0%nat ltac:(lia) ltac:(lia) b' [] (d_ek_seeds d) (d_ek d) Hb' Hek) as (ek0 & E5 & His & Hpe). rewrite E3 in E5. injection E5 as <-.
      rewrite E3. cbn [bind]. rewrite E4. cbn [bind]. destruct (HR (ep_gk m) (Permutation_refl _)) as (ek' & E6 & Hsame). exists ek', (asked N b' []). split; [rewrite (proj1 Hsk); destruct m; exact E6|]. split; [exact (same_ek_is_ek sk _ _ _ _ _ _ Hsame His)|]. split; [exact Hpe|].
      intros k Hk. apply Hask. right. exists k. split; [lia|reflexivity].
    Qed.
    Lemma relin_key_val : exists rk, pir_relin_key expand derive sk d = Val rk /\ k_log_base rk = 0 /\ is_ksk par sk 1 1 rk (map (Z.mul (level_ratio par 1 1)) (negacyclic N (sk_coeffs sk) (sk_coeffs sk))) v2.
    Proof.
      pose proof pir_levels as Hml. destruct Hd as (_ & _ & _ & Hseed & Hrk & _). destruct HP as (_ & Hsup & _ & Hser & _). destruct (relin_roundtrip_all isp cands par Ho Hp Hsup Hser expand derive Hx sk Hsk 1%nat 1%nat ltac:(lia) ltac:(lia) (d_rk_seed d) (d_rk d) Hseed Hrk) as (k & m & E1 & _ & _ & E2 & E3).
      destruct (proj1 (relin_new_all isp cands par Ho Hp expand derive Hx sk Hsk 1%nat 1%nat ltac:(lia) ltac:(lia) (d_rk_seed d) (d_rk d) Hrk) ltac:(lia)) as (k0 & E4 & Hb & Hk). rewrite E1 in E4. injection E4 as <-.
      exists k. unfold pir_relin_key. rewrite E1. cbn [bind]. rewrite E2. cbn [bind]. rewrite (proj1 Hsk), E3. auto.
    Qed.

    (** ** The query *)
    Lemma with_vt_encrypts l ct m B : encrypts par sk l ct m B -> encrypts par sk l (with_vt ct) m B.
    Proof.
      intros (xs & e & (E1 & E2 & F) & H). exists xs, e. split; [|exact H]. split; [exact E1|]. split; [exact E2|]. cbn [with_vt ct_c]. clear H. induction F as [|p x ps xs (Hc & Hl & Hr) _ IH]; cbn [map]; constructor; [|exact IH].
      split; [exact Hc|]. split; [exact Hl|]. cbn [p_ctx p_vt]. rewrite Hr. reflexivity.
    Qed.
    Lemma wire_encrypts l ct m B k : (l <= 2)%nat -> seed_faithful expand ct -> length (ct_c ct) = k -> encrypts par sk l ct m B -> exists pr ct', ct_to_proto ct = Val pr /\ ct_from_proto expand pr par = Val ct' /\ length (ct_c ct') = k /\ encrypts par sk l ct' m B.
    Proof.
      intros Hl Hf Lk He. pose proof pir_levels as Hml. destruct HP as (_ & _ & _ & Hser & _). pose proof He as (xs & e & Hct & Hlen & _). destruct (ct_roundtrip_all isp cands par Ho Hp Hser l ltac:(lia) expand ct xs Hx Hct Hlen Hf) as (pr & E1 & E2 & _).
      exists pr, (with_vt ct). split; [exact E1|]. split; [exact E2|]. split; [cbn [with_vt ct_c]; rewrite map_length; exact Lk|apply with_vt_encrypts, He].
    Qed.
    Section Query.
      Context (d1 d2 q : nat) (H1 : (0 < d1)%nat) (H2 : (0 < d2)%nat) (HN : (d1 + d2 <= N)%nat) (Hq : (q < d1 * d2)%nat).
      Notation dims := (d1 + d2)%nat.
      Notation L := (Z.log2_up (Z.of_nat dims)).
      Lemma query_values_val : exists v, query_values t d1 d2 q = Val v /\ length v = dims /\ canonical t v /\
        selects t (q / d2) (firstn d1 (map (Z.mul (2 ^ L)) v)) /\ selects t (q mod d2) (skipn d1 (map (Z.mul (2 ^ L)) v)).
      Proof.
        destruct (expansion_level_val dims ltac:(lia)) as (l & El & El' & _ & _ & Hl16 & _). pose proof pir_w as (_ & _ & Ht). unfold query_values. rewrite El. cbn [bind]. rewrite El'.
        assert (Hg : Z.gcd (2 ^ L) t = 1).
        { rewrite Z.gcd_comm. apply Zgcd_1_rel_prime, rel_prime_Zpower_r; [apply Z.log2_up_nonneg|]. apply rel_prime_sym, prime_rel_prime; [exact prime_2|]. intros (z & Ez). destruct HP as (_ & _ & _ & _ & Hodd & _). rewrite Ez, Z.odd_mul, andb_false_r in Hodd. discriminate. }
        destruct (mod_inverse_some (2 ^ L) t ltac:(lia) Hg) as (inv & -> & Hinv & Hc). cbn [ok_or bind]. replace (Nat.eqb d2 0) with false by (symmetry; apply Nat.eqb_neq; lia). cbn [negb guard bind].
        assert (Ha : (q / d2 < d1)%nat) by (apply Nat.div_lt_upper_bound; lia). assert (Hb : (q mod d2 < d2)%nat) by (apply Nat.mod_upper_bound; lia). set (a := (q / d2)%nat) in *. set (b := (q mod d2)%nat) in *.
        unfold put. rewrite repeat_length. replace (Nat.ltb a dims) with true by (symmetry; apply Nat.ltb_lt; lia). cbn [guard bind]. rewrite set_nth_length, repeat_length. replace (Nat.ltb (d1 + b) dims) with true by (symmetry; apply Nat.ltb_lt; lia). cbn [guard bind].
        eexists. split; [reflexivity|]. set (v := set_nth _ _ _). assert (Lv : length v = dims) by (unfold v; rewrite !set_nth_length, repeat_length; reflexivity). split; [exact Lv|].
        assert (Ev : forall j, (j < dims)%nat -> nth j v 0 = if (Nat.eqb j a || Nat.eqb j (d1 + b))%bool then inv else 0).
        { intros j Hj. unfold v. rewrite nth_set_nth by (rewrite set_nth_length, repeat_length; lia). destruct (Nat.eqb_spec j (d1 + b)) as [->|Hn]; [rewrite orb_true_r; reflexivity|]. rewrite orb_false_r. rewrite nth_set_nth by (rewrite repeat_length; lia). destruct (Nat.eqb j a); [reflexivity|apply nth_repeat]. }
        split; [apply Forall_nth; intros j d0 Hj; rewrite (nth_indep _ d0 0) by exact Hj; rewrite Ev by lia; destruct (_ || _)%bool; lia|].
        assert (Em : forall j, nth j (map (Z.mul (2 ^ L)) v) 0 = 2 ^ L * nth j v 0) by (intros j; rewrite <- (Z.mul_0_r (2 ^ L)) at 1; apply (map_nth (Z.mul (2 ^ L)))).
        assert (E1 : (2 ^ L * inv) mod t = 1 mod t) by (rewrite Z.mul_comm; exact Hc).
        split; (split; [rewrite ?firstn_length, ?skipn_length, map_length, Lv; lia|]); intros j Hj; rewrite ?firstn_length, ?skipn_length, map_length, Lv in Hj.
        - rewrite nth_firstn_lt by lia. rewrite Em, Ev by lia. replace (Nat.eqb j (d1 + b)) with false by (symmetry; apply Nat.eqb_neq; lia). rewrite orb_false_r. destruct (Nat.eqb j a); [exact E1|]. rewrite Z.mul_0_r. apply Z.mod_0_l. lia.
        - rewrite nth_skipn_add, Em, Ev by lia. replace (Nat.eqb (d1 + j) a) with false by (symmetry; apply Nat.eqb_neq; lia). cbn [orb]. destruct (Nat.eqb_spec j b) as [->|Hn]; [rewrite Nat.eqb_refl; exact E1|]. replace (Nat.eqb (d1 + j) (d1 + b)) with false by (symmetry; apply Nat.eqb_neq; lia). rewrite Z.mul_0_r. apply Z.mod_0_l. lia.
      Qed.
      (** The expanded query: the weights of the rows and of the columns, as constants. *)
      Lemma expanded_query_val ek es : is_ek par sk 1 0 ek es v2 -> proper_exponents N es -> round_exponents N (Z.to_nat L) es ->
        exists pr query ex us, pir_query expand sk d1 d2 q d = Val pr /\ ct_from_proto expand pr par = Val query /\ expands ek query (Z.of_nat dims) = Val ex /\ length ex = dims /\ length us = dims /\
          selects t (q / d2) (firstn d1 us) /\ selects t (q mod d2) (skipn d1 us) /\
          forall i r, nth_error ex i = Some r -> encrypts2 par sk 1 r (const N (nth i us 0)) (expanded_noise par (norm1 (sk_coeffs sk)) dims).
      Proof.
        intros Hek Hpe Hre. destruct query_values_val as (v & Ev & Lv & Hv & S1 & S2). pose proof pir_levels as Hml. pose proof pir_w as (_ & _ & Ht). pose proof (gp_var _ _ _ G) as Hvar. unfold pir_query. rewrite (proj1 Hsk), Ev. cbn [bind].
        destruct (encode_poly_all isp cands par Ho Hp 1 ltac:(lia) (level_fits 1 ltac:(lia)) false v ltac:(lia) Hv ltac:(eapply Forall_impl; [|exact Hv]; cbv beta; unfold is_u64; intros; lia)) as (pt & Ept & Hpt & _). rewrite Ept. cbn [bind].
        assert (Hc : canonical t (pad N v)) by (unfold pad; apply Forall_app; split; [exact Hv|]; apply Forall_forall; intros z Hz; apply repeat_spec in Hz; lia).
        destruct Hd as (_ & _ & _ & _ & _ & _ & Hqs & Hqr). destruct (sk_encrypt_all isp cands par Ho Hp 1%nat ltac:(lia) expand sk (d_q_seed d) (d_q d) pt _ Hx Hqr Hsk Hpt Hc (level_fits 1 ltac:(lia))) as (ct & Ect & He & _ & Lct).
        destruct (fresh_faithful_all isp cands par Ho Hp 1%nat ltac:(lia) expand sk (d_q_seed d) (d_q d) pt _ Hx Hqr Hsk Hpt Hc (level_fits 1 ltac:(lia)) Hqs) as (ct0 & Ect0 & _ & Hf). rewrite Ect in Ect0. injection Ect0 as <-. rewrite Ect. cbn [bind].
        destruct (wire_encrypts 1%nat ct _ _ 2%nat ltac:(lia) Hf Lct He) as (pr & query & Epr & Equ & Lq & Hqe).
        destruct (expansion_level_val dims ltac:(lia)) as (l & _ & El & HlN & _ & _ & Hld). assert (El' : Z.to_nat L = l) by lia.
        destruct (expands_all isp cands par Ho Hp sk Hsk 1%nat 0%nat ltac:(lia) ltac:(lia) ek es v2 ltac:(lia) Hek Hpe query (pad N v) v2 (pad_length N v ltac:(lia)) (conj Lq Hqe) (Z.of_nat dims)) as (HE & _). destruct (HE ltac:(lia) Hre) as (ex & Eex & Lex & Hex).
        exists pr, query, ex, (map (Z.mul (2 ^ L)) v). split; [exact Epr|]. split; [exact Equ|]. split; [exact Eex|]. split; [lia|]. split; [rewrite map_length; exact Lv|]. split; [exact S1|]. split; [exact S2|].
        intros i r Hi. specialize (Hex i r Hi). assert (Hil : (i < dims)%nat) by (assert (nth_error ex i <> None) by congruence; apply nth_error_Some in H; lia).
        rewrite El' in Hex. rewrite expanded_constant in Hex; [|lia|lia|intros j Hj; unfold pad; rewrite app_nth2, nth_repeat by lia; reflexivity].
        assert (Em : forall c j, nth j (map (Z.mul c) v) 0 = c * nth j v 0) by (intros c j; rewrite <- (Z.mul_0_r c) at 1; apply (map_nth (Z.mul c))).
        unfold expanded_noise. unfold galois_noise in Hex. rewrite <- El. rewrite El in Hex. unfold const. replace (nth i (map (Z.mul (2 ^ Z.of_nat l)) v) 0) with (Z.of_nat (2 ^ l) * nth i (pad N v) 0); [rewrite <- El in Hex; exact Hex|].
        unfold pad. rewrite app_nth1 by lia. rewrite Nat2Z.inj_pow, Em. reflexivity.
      Qed.
    End Query.
  End Keys.

  (** ** Dot products with plaintexts *)
  Section Dots.
    Context (sk : secret_key) (Hsk : is_sk par sk).
    Lemma encrypts_weaken l ct m B B' : B <= B' -> encrypts par sk l ct m B -> encrypts par sk l ct m B'.
    Proof. intros H (xs & e & H1 & H2 & H3 & H4 & H5 & H6). exists xs, e. repeat (split; [assumption|]). split; [exact (bounded_weaken _ _ _ H H5)|exact H6]. Qed.
    Lemma norm1_digits v : length v = N -> digits w v -> norm1 v <= Z.of_nat N * (2 ^ w - 1).
    Proof.
      intros <-. unfold norm1. induction 1 as [|a v Ha _ IH]; cbn [fold_right length]; [lia|]. rewrite Nat2Z.inj_succ. lia.
    Qed.
    Lemma dot_parts_length n k zs : Forall (fun z => length (fst z) = k) zs -> length (dot_parts n k zs) = k.
    Proof.
      intros H. unfold dot_parts. assert (E : forall acc, length acc = k -> length (fold_left (fun acc z => add_parts acc (map (fun x => negacyclic n x (snd z)) (fst z))) zs acc) = k); [|apply E, repeat_length].
      induction H as [|z zs Hz _ IH]; intros acc Ha; [exact Ha|]. cbn [fold_left]. apply IH. unfold add_parts. rewrite map_length, combine_length, map_length. lia.
    Qed.
    Lemma weighted_dot qv us B col vs : 0 <= B -> Forall2 (fun ct u => encrypts2 par sk 1 ct (const N u) B) qv us -> Forall2 (is_pt par 1) col vs -> Forall (fun v => length v = N /\ digits w v) vs -> length qv = length col -> qv <> [] ->
      exists ct, dot_product_scalar qv col = Val ct /\ ct_seed ct = None /\ encrypts2 par sk 1 ct (wsum N us vs) (column_noise par (length qv) B).
    Proof.
      intros HB HQ HC HV HL Hne. pose proof pir_levels as Hml. pose proof pir_w as (Hw & _). destruct pir_N as (K & _ & _ & _ & HN).
      assert (HZ : exists zs zs', qv = map (fun '(ct, _, _, _, _) => ct) zs /\ col = map (fun '(_, _, _, pt, _) => pt) zs /\ Forall (fun '(ct, m, B, pt, n) => encrypts par sk 1 ct m B /\ length (ct_c ct) = 2%nat /\ is_pt par 1 pt n) zs /\
        map (fun '(_, m, _, _, n) => negacyclic N m n) zs = zipWith (fun u p => map (Z.mul u) p) us vs /\ dot_noise (map (fun '(_, _, B, _, n) => (n, B)) zs) <= column_noise par (length qv) B /\
        qv = map (fun '(ct, _, _, _) => ct) zs' /\ col = map (fun '(_, _, pt, _) => pt) zs' /\ Forall (fun '(ct, xs, pt, m) => is_ct par 1 ct xs /\ length xs = 2%nat /\ is_pt par 1 pt m) zs').
      { clear Hne. revert col vs HC HV HL. induction HQ as [|ct u qv us (L2 & He) _ IH]; intros col vs HC HV HL; inversion HC as [|pt v col' vs' Hpt HC' E1 E2]; subst; try discriminate HL.
        - exists [], []. unfold column_noise. cbn [map dot_noise fold_right length zipWith]. repeat split; try constructor; lia.
        - apply Forall_cons_iff in HV. destruct HV as ((Lv & Hv) & HV). destruct (IH col' vs' HC' HV ltac:(cbn in HL; lia)) as (zs & zs' & -> & -> & F & Em & Hn & Eq' & Ec' & F'). pose proof He as (xs & e & Hct & _).
          assert (Lx : length xs = 2%nat) by (rewrite <- (Forall2_length_eq _ _ _ (proj2 (proj2 Hct))); exact L2).
          exists ((ct, const N u, B, pt, v) :: zs), ((ct, xs, pt, v) :: zs'). cbn [map zipWith dot_noise fold_right fst snd]. rewrite <- Eq', <- Ec', Em. rewrite negacyclic_const_l by (lia || exact Lv).
          repeat (split; [reflexivity || (constructor; [auto|assumption])|]). split; [|split; [reflexivity|split; [reflexivity|constructor; [auto|assumption]]]].
          pose proof (norm1_digits v Lv Hv) as Hnv. unfold column_noise in *. cbn [length]. rewrite Nat2Z.inj_succ. unfold dot_noise in Hn. nia. }
      destruct HZ as (zs & zs' & Eq & Ec & F & Em & Hn & Eq' & Ec' & F').
      assert (Hz : zs <> []) by (intros ->; apply Hne; exact Eq). assert (Hz' : zs' <> []) by (intros ->; apply Hne; exact Eq').
      destruct (enc_dot_all isp cands par Ho Hp 1%nat ltac:(lia) 2%nat sk zs Hsk Hz F) as (ct & E & He). destruct (dot_all isp cands par Ho Hp 1%nat ltac:(lia) 2%nat zs' Hz' (le_n 2) F') as (ct' & E' & Es & Hct & _).
      rewrite <- Eq, <- Ec in E. rewrite <- Eq', <- Ec', E in E'. injection E' as <-. exists ct. split; [exact E|]. split; [exact Es|]. split.
      - rewrite (Forall2_length_eq _ _ _ (proj2 (proj2 Hct))). apply dot_parts_length. apply Forall_forall. intros z Hin. apply in_map_iff in Hin. destruct Hin as ((((c0 & xs) & pt) & m) & <- & Hin). apply (proj1 (Forall_forall _ _) F') in Hin. apply Hin.
      - unfold wsum. rewrite <- Em. exact (encrypts_weaken _ _ _ _ _ Hn He).
    Qed.
  End Dots.
End Pir.
