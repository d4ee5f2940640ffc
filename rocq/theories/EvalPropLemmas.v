(** Closing lemmas for the properties C39 and C40. *)
From Verif Require Import Outcome BasicSpec OutcomeLemmas NumTheory NttModel PolySpec PolyRing NttProofs RnsSpec RqModel RqSpec RqCtx RqOps RqPropLemmas RingRn ParamsModel BfvSpec ParamsProofs BuildProofs ParamsPropLemmas PlainModel CipherModel OpsModel SchemeSpec CipherSpec PlainProofs PlainPropLemmas RnPoly CipherProofs EncryptProofs CipherPropLemmas KeysModel KeysSpec KeyOpsProofs KeyPropLemmas EvalSpec RotProofs EvalKeyProofs EvalOpsProofs EvalSumProofs EvalExpandProofs.
Set Default Proof Using "Type".

Section Props.
  Context (isp : Z -> bool) (cands : Z -> list Z) (par : params).
  Notation N := (pa_degree par).
  Notation t := (pa_t par).
  Theorem galois_new_all : oracles isp cands -> is_params isp cands par -> forall expand derive, expands_well expand -> forall sk, is_sk par sk -> forall l1 l2, (l1 <= max_level par)%nat -> (l2 <= l1)%nat ->
    forall e sd rngs, 0 <= e < 2 * Z.of_nat N -> Z.odd e = true -> (forall i, words (rngs i)) -> exists g, galois_new expand derive sk e l1 l2 sd rngs = Val g /\ is_gk par sk l1 l2 e g (2 * pa_variance par).
  Proof.
    intros Ho Hp expand derive Hx sk (Es & Ls & Hi) l1 l2 H1 H2 e sd rngs He Hodd Hr. pose proof (params_good isp cands par Ho Hp) as G. destruct (at_level_ex isp cands par l1 Ho G H1) as (lv1 & c1 & A1). destruct (at_level_ex isp cands par l2 Ho G ltac:(lia)) as (lv2 & c2 & A2).
    apply (galois_new_is isp cands Ho par G l1 lv1 c1 A1 l2 lv2 c2 A2 H2 sk Ls); assumption.
  Qed.
  Theorem galois_apply_all : oracles isp cands -> is_params isp cands par -> forall sk, is_sk par sk -> forall l1 l2, (l1 <= max_level par)%nat -> (l2 <= l1)%nat ->
    forall e g B, 0 <= B -> 0 <= e < 2 * Z.of_nat N -> Z.odd e = true -> is_gk par sk l1 l2 e g B ->
    forall ct m B', encrypts2 par sk l1 ct m B' -> length m = N -> exists r, galois_apply g ct = Val r /\ encrypts2 par sk l1 r (automorphism N e m) (B' + 1 + galois_noise par sk l1 l2 B).
  Proof.
    intros Ho Hp sk (Es & Ls & Hi) l1 l2 H1 H2 e g B HB He Hodd Hg ct m B' Hct Lm. pose proof (params_good isp cands par Ho Hp) as G. destruct (at_level_ex isp cands par l1 Ho G H1) as (lv1 & c1 & A1). destruct (at_level_ex isp cands par l2 Ho G ltac:(lia)) as (lv2 & c2 & A2).
    destruct (is_gk_R isp cands Ho par G l1 lv1 c1 A1 l2 lv2 c2 A2 H2 sk Ls e g B HB He Hodd Hg) as (i & k & -> & Hk & Hs). change m with (rl (mkR m Lm)) in Hct. apply (enc_encrypts2 isp cands Ho par G l1 lv1 c1 A1 sk Ls) in Hct.
    destruct (enc_galois isp cands Ho par G l1 lv1 c1 A1 _ e i k _ (N31 isp cands Ho par G) Hk Hs ct _ B' Hct) as ((r & E & Hr) & _). exists r. split; [exact E|]. apply (enc_encrypts2 isp cands Ho par G l1 lv1 c1 A1 sk Ls) in Hr. rewrite raut_spec, Z2Nat.id in Hr by (lia || (pose proof (al_N8 isp cands par l1 lv1 c1 A1); lia)). exact Hr.
  Qed.
  Theorem builder_new_all : oracles isp cands -> is_params isp cands par -> forall sk, is_sk par sk ->
    (exists rot, ekb_new sk = Val (mkEkb sk 0 0 false false 0 [] rot) /\ is_ekb par sk 0 0 (mkEkb sk 0 0 false false 0 [] rot) []) /\
    forall l1 l2, ((l2 <= l1 <= max_level par)%nat -> exists rot, ekb_new_leveled sk l1 l2 = Val (mkEkb sk l1 l2 false false 0 [] rot) /\ is_ekb par sk l1 l2 (mkEkb sk l1 l2 false false 0 [] rot) []) /\
      ((max_level par < l1)%nat -> ekb_new_leveled sk l1 l2 = Err (InvalidLevel (Z.of_nat l1) 0 (Z.of_nat (max_level par)))) /\
      ((l1 <= max_level par)%nat -> (l1 < l2)%nat -> ekb_new_leveled sk l1 l2 = Err (InvalidLevel (Z.of_nat l2) 0 (Z.of_nat l1))).
  Proof.
    intros Ho Hp sk (Es & Ls & Hi). pose proof (params_good isp cands par Ho Hp) as G. destruct (rot_table isp cands Ho par G) as (rot & Er & Hr). split.
    - exists rot. unfold ekb_new. rewrite Es, Er. split; [reflexivity|]. apply (ekb_new_ok isp cands Ho par G); assumption.
    - intros l1 l2. unfold ekb_new_leveled. rewrite Es. split; [|split].
      + intros H. exists rot. rewrite (proj2 (Nat.ltb_ge _ _)) by lia. rewrite (proj2 (Nat.ltb_ge _ _)) by lia. rewrite Er. split; [reflexivity|]. apply (ekb_new_ok isp cands Ho par G); assumption.
      + intros H. rewrite (proj2 (Nat.ltb_lt _ _)) by lia. reflexivity.
      + intros H H'. rewrite (proj2 (Nat.ltb_ge _ _)) by lia. rewrite (proj2 (Nat.ltb_lt _ _)) by lia. reflexivity.
  Qed.
  Theorem build_all : oracles isp cands -> is_params isp cands par -> forall expand derive, expands_well expand -> forall sk, is_sk par sk -> forall l1 l2, (l1 <= max_level par)%nat -> (l2 <= l1)%nat ->
    forall b cols sds rngs, is_ekb par sk l1 l2 b cols -> (forall e i, words (rngs e i)) ->
    exists ek, ek_build expand derive b sds rngs = Val ek /\ is_ek par sk l1 l2 ek (asked N b cols) (2 * pa_variance par) /\ proper_exponents N (asked N b cols).
  Proof.
    intros Ho Hp expand derive Hx sk (Es & Ls & Hi) l1 l2 H1 H2 b cols sds rngs Hb Hr. pose proof (params_good isp cands par Ho Hp) as G. destruct (at_level_ex isp cands par l1 Ho G H1) as (lv1 & c1 & A1). destruct (at_level_ex isp cands par l2 Ho G ltac:(lia)) as (lv2 & c2 & A2).
    destruct (ek_build_R isp cands Ho par G l1 lv1 c1 A1 l2 lv2 c2 A2 H2 sk Ls expand derive b cols sds rngs Hx Es Hi Hr Hb) as (ek & E & Hek). exists ek. split; [exact E|]. split; [exact Hek|]. intros e He. exact (asked_odd isp cands Ho par G b cols e l1 l2 sk Hb He).
  Qed.
  Theorem columns_all : oracles isp cands -> is_params isp cands par -> pa_ntt par <> None -> forall sk, is_sk par sk -> forall l1 l2, (l1 <= max_level par)%nat -> (l2 <= l1)%nat -> t <= level_modulus par l1 ->
    forall ek es B, 0 <= B -> is_ek par sk l1 l2 ek es B -> proper_exponents N es -> forall ct v B', Forall (fun a => 0 <= a < t) v -> encrypts_slots par sk l1 ct v B' -> forall i,
    (is_step N i -> es (column_exponent N i) -> exists r, rotates_columns_by ek ct i = Val r /\ encrypts_slots par sk l1 r (rotated_columns N (Z.to_nat i) (pad N v)) (B' + 1 + galois_noise par sk l1 l2 B)) /\
    (~ (is_step N i /\ es (column_exponent N i)) -> rotates_columns_by ek ct i = Err EkUnsupported).
  Proof.
    intros Ho Hp Hs sk (Es & Ls & Hi) l1 l2 H1 H2 HtQ ek es B HB Hek Hes ct v B' Hv Hct i. pose proof (params_good isp cands par Ho Hp) as G. destruct (at_level_ex isp cands par l1 Ho G H1) as (lv1 & c1 & A1). destruct (at_level_ex isp cands par l2 Ho G ltac:(lia)) as (lv2 & c2 & A2).
    destruct (pa_ntt par) as [op|] eqn:Eop; [|congruence]. destruct (root_ex isp cands Ho par Hp G l1 lv1 c1 A1 op Eop HtQ) as (psi & Hpsi). destruct (encrypts_slots_enc isp cands Ho par Hp G l1 lv1 c1 A1 op Eop HtQ sk Ls psi ct v B' Hpsi Hv Hct) as (m & Hm & Em). split.
    - intros Hst He. destruct (columns_enc isp cands Ho par G l1 lv1 c1 A1 l2 lv2 c2 A2 H2 sk Ls ek es B HB Hek Hes ct m B' i Hm Hst He) as (r & E & Hr). exists r. split; [exact E|]. apply (enc_encrypts_slots isp cands Ho par Hp G l1 lv1 c1 A1 op Eop HtQ sk Ls psi r _ _ Hpsi) in Hr.
      replace i with (Z.of_nat (Z.to_nat i)) in Hr at 1 by (apply Z2Nat.id; unfold is_step in Hst; lia). rewrite (proj1 (slots_galois isp cands Ho par Hp G l1 lv1 c1 A1 op Eop HtQ psi m Hpsi)), Em in Hr by (unfold is_step in Hst; lia). exact Hr.
    - intros Hn. exact (columns_refused isp cands Ho par G l1 lv1 c1 A1 l2 lv2 c2 A2 H2 sk Ls ek es B HB Hek Hes ct m B' i Hm Hn).
  Qed.
  Theorem rows_all : oracles isp cands -> is_params isp cands par -> pa_ntt par <> None -> forall sk, is_sk par sk -> forall l1 l2, (l1 <= max_level par)%nat -> (l2 <= l1)%nat -> t <= level_modulus par l1 ->
    forall ek es B, 0 <= B -> is_ek par sk l1 l2 ek es B -> proper_exponents N es -> forall ct v B', Forall (fun a => 0 <= a < t) v -> encrypts_slots par sk l1 ct v B' ->
    (es (row_exponent N) -> exists r, rotates_rows ek ct = Val r /\ encrypts_slots par sk l1 r (swapped_rows N (pad N v)) (B' + 1 + galois_noise par sk l1 l2 B)) /\
    (~ es (row_exponent N) -> rotates_rows ek ct = Err EkUnsupported).
  Proof.
    intros Ho Hp Hs sk (Es & Ls & Hi) l1 l2 H1 H2 HtQ ek es B HB Hek Hes ct v B' Hv Hct. pose proof (params_good isp cands par Ho Hp) as G. destruct (at_level_ex isp cands par l1 Ho G H1) as (lv1 & c1 & A1). destruct (at_level_ex isp cands par l2 Ho G ltac:(lia)) as (lv2 & c2 & A2).
    destruct (pa_ntt par) as [op|] eqn:Eop; [|congruence]. destruct (root_ex isp cands Ho par Hp G l1 lv1 c1 A1 op Eop HtQ) as (psi & Hpsi). destruct (encrypts_slots_enc isp cands Ho par Hp G l1 lv1 c1 A1 op Eop HtQ sk Ls psi ct v B' Hpsi Hv Hct) as (m & Hm & Em). split.
    - intros He. destruct (rows_enc isp cands Ho par G l1 lv1 c1 A1 l2 lv2 c2 A2 H2 sk Ls ek es B HB Hek Hes ct m B' Hm He) as (r & E & Hr). exists r. split; [exact E|]. apply (enc_encrypts_slots isp cands Ho par Hp G l1 lv1 c1 A1 op Eop HtQ sk Ls psi r _ _ Hpsi) in Hr.
      rewrite (proj2 (slots_galois isp cands Ho par Hp G l1 lv1 c1 A1 op Eop HtQ psi m Hpsi)), Em in Hr. exact Hr.
    - intros Hn. exact (rows_refused isp cands Ho par G l1 lv1 c1 A1 l2 lv2 c2 A2 H2 sk Ls ek es B HB Hek Hes ct m B' Hm Hn).
  Qed.
  Lemma sums_iff (es : Z -> Prop) : oracles isp cands -> is_params isp cands par -> sums_enabled par es <-> sum_exponents N es.
  Proof.
    intros Ho Hp. pose proof (params_good isp cands par Ho Hp) as G. unfold sums_enabled, sum_exponents. rewrite Forall_forall. destruct (steps_eq isp cands Ho par G) as (K & HK & EN & Est). destruct (deg_pow isp cands Ho par G) as (K' & _ & EN' & _ & _ & Eh). assert (K' = K) as -> by (apply (Nat.pow_inj_r 2); lia). rewrite Eh, nat_pow2_Z, Est.
    split; intros (Hr & H); (split; [exact Hr|]).
    - intros k Hk Hlt. apply H. apply in_map_iff. exists (Z.to_nat k). rewrite Z2Nat.id by lia. split; [reflexivity|]. apply in_seq. apply Z.pow_lt_mono_r_iff in Hlt; lia.
    - intros i Hi. apply in_map_iff in Hi. destruct Hi as (k & <- & Hk). apply in_seq in Hk. apply H; [lia|]. apply Z.pow_lt_mono_r; lia.
  Qed.
  Theorem inner_sum_all : oracles isp cands -> is_params isp cands par -> pa_ntt par <> None -> forall sk, is_sk par sk -> forall l1 l2, (l1 <= max_level par)%nat -> (l2 <= l1)%nat -> t <= level_modulus par l1 ->
    forall ek es B, 0 <= B -> is_ek par sk l1 l2 ek es B -> proper_exponents N es -> forall ct v B', Forall (fun a => 0 <= a < t) v -> encrypts_slots par sk l1 ct v B' ->
    (sum_exponents N es -> exists r, computes_inner_sum ek ct = Val r /\ encrypts_slots par sk l1 r (repeat (sum_of v mod t) N) (Z.of_nat N * (B' + 2 + galois_noise par sk l1 l2 B) - 2 - galois_noise par sk l1 l2 B)) /\
    (~ sum_exponents N es -> computes_inner_sum ek ct = Err EkUnsupported).
  Proof.
    intros Ho Hp Hs sk (Es & Ls & Hi) l1 l2 H1 H2 HtQ ek es B HB Hek Hes ct v B' Hv Hct. rewrite <- (sums_iff es Ho Hp). pose proof (params_good isp cands par Ho Hp) as G. destruct (at_level_ex isp cands par l1 Ho G H1) as (lv1 & c1 & A1). destruct (at_level_ex isp cands par l2 Ho G ltac:(lia)) as (lv2 & c2 & A2).
    destruct (pa_ntt par) as [op|] eqn:Eop; [|congruence]. destruct (root_ex isp cands Ho par Hp G l1 lv1 c1 A1 op Eop HtQ) as (psi & Hpsi). destruct (encrypts_slots_enc isp cands Ho par Hp G l1 lv1 c1 A1 op Eop HtQ sk Ls psi ct v B' Hpsi Hv Hct) as (m & Hm & Em). split.
    - intros He. destruct (sum_enc isp cands Ho par G l1 lv1 c1 A1 l2 lv2 c2 A2 H2 sk Ls ek es B HB Hek Hes ct m B' Hm He) as (r & E & Hr). exists r. split; [exact E|]. apply (enc_encrypts_slots isp cands Ho par Hp G l1 lv1 c1 A1 op Eop HtQ sk Ls psi r _ _ Hpsi) in Hr.
      rewrite (slots_sum isp cands Ho par Hp G l1 lv1 c1 A1 op Eop HtQ psi m Hpsi), Em, sum_of_pad in Hr. exact Hr.
    - intros Hn. exact (sum_refused isp cands Ho par G l1 lv1 c1 A1 l2 lv2 c2 A2 H2 sk Ls ek es B HB Hek Hes ct m B' Hm Hn).
  Qed.
  (** What decryption and decoding return. *)
  Theorem slots_decrypt_all : oracles isp cands -> is_params isp cands par -> pa_ntt par <> None -> supported par -> decryptable par -> forall sk, is_sk par sk -> forall l, (l <= max_level par)%nat -> t <= level_modulus par l ->
    forall ct v B, Forall (fun a => 0 <= a < t) v -> Forall is_u64 v -> (length v <= N)%nat -> encrypts_slots par sk l ct v B -> small_noise par l B ->
    exists pt, sk_decrypt sk ct = Val pt /\ decode_u64 pt (Some (mkEnc EncSimd l)) = Val (pad N v).
  Proof.
    intros Ho Hp Hs Hsup Hdec sk Hsk l Hl HtQ ct v B Hv Hu Lv (pt & m & E & Hpt & Hm & _ & Hct) Hn. set (e := mkEnc EncSimd l) in *. assert (Hus : usable par e) by (intros _; exact Hs).
    destruct (encoded_all isp cands par Ho Hp l Hl HtQ e v eq_refl Hus Lv) as (E1 & _). destruct (E1 Hv Hu false) as (pt0 & m0 & E0 & _ & _ & He). rewrite E in E0. injection E0 as <-.
    destruct (decrypt_same isp cands par Ho Hp l Hl Hsup Hdec sk ct m B e pt Hsk Hct Hn Hm Hpt He) as (pt' & Ed & _ & D & _). exists pt'. split; [exact Ed|]. rewrite D.
    destruct (roundtrip_unsigned_all isp cands Ho par Hp l Hl HtQ e v eq_refl Hus Lv Hv) as (_ & R). destruct (R Hu false) as (pt1 & E1' & R'). rewrite E in E1'. injection E1' as <-. apply R'. auto.
  Qed.
  Theorem expands_all : oracles isp cands -> is_params isp cands par -> forall sk, is_sk par sk -> forall l1 l2, (l1 <= max_level par)%nat -> (l2 <= l1)%nat ->
    forall ek es B, 0 <= B -> is_ek par sk l1 l2 ek es B -> proper_exponents N es -> forall ct m B', length m = N -> encrypts2 par sk l1 ct m B' -> forall size,
    let L := Z.to_nat (Z.log2_up size) in let D := galois_noise par sk l1 l2 B in
    (0 < size <= Z.of_nat N -> round_exponents N L es -> exists cts, expands ek ct size = Val cts /\ Z.of_nat (length cts) = size /\
      forall i r, nth_error cts i = Some r -> encrypts2 par sk l1 r (expanded N (2 ^ L) i m) (2 ^ Z.of_nat L * (B' + D + 3) - D - 3)) /\
    (0 < size <= Z.of_nat N -> ~ round_exponents N L es -> expands ek ct size = Err EkUnsupported) /\
    (size = 0 \/ Z.of_nat N < size -> expands ek ct size = Err (InvalidExpansionSize size)).
  Proof.
    intros Ho Hp sk (Es & Ls & Hi) l1 l2 H1 H2 ek es B HB Hek Hes ct m B' Lm Hct size L D. pose proof (params_good isp cands par Ho Hp) as G. destruct (at_level_ex isp cands par l1 Ho G H1) as (lv1 & c1 & A1). destruct (at_level_ex isp cands par l2 Ho G ltac:(lia)) as (lv2 & c2 & A2).
    change m with (rl (mkR m Lm)) in Hct. apply (enc_encrypts2 isp cands Ho par G l1 lv1 c1 A1 sk Ls) in Hct. repeat apply conj.
    - intros Hs Hen. destruct (proj1 (expands_enc isp cands Ho par G l1 lv1 c1 A1 l2 lv2 c2 A2 H2 sk Ls ek es B HB Hek Hes ct _ B' size Hct Hs) Hen) as (cts & E & Lc & H). exists cts. split; [exact E|]. split; [lia|]. intros i r Hr.
      assert (Hlt : (i < length cts)%nat) by (apply nth_error_Some; congruence). destruct (H i ltac:(lia)) as (r' & Er' & Hr'). rewrite Hr in Er'. injection Er' as <-. apply (enc_encrypts2 isp cands Ho par G l1 lv1 c1 A1 sk Ls) in Hr'. unfold piece in Hr'. fold L in Hr'.
      destruct (deg_pow isp cands Ho par G) as (K & HK & EN & _). destruct (log2_up_facts isp cands Ho par G l1 lv1 c1 A1 l2 lv2 c2 A2 H2 sk Ls ek es B HB Hek Hes K size EN Hs) as (HL & _). fold L in HL.
      rewrite comp_expanded in Hr'; [exact Hr'|apply Nat.neq_0_lt_0, Nat.pow_nonzero; lia|exists (2 ^ (K - L))%nat; rewrite EN, <- Nat.pow_add_r; f_equal; lia].
    - intros Hs Hen. exact (proj2 (expands_enc isp cands Ho par G l1 lv1 c1 A1 l2 lv2 c2 A2 H2 sk Ls ek es B HB Hek Hes ct _ B' size Hct Hs) Hen).
    - intros Hs. unfold expands. rewrite (validate_enc isp cands Ho par G l1 lv1 c1 A1 l2 lv2 c2 A2 H2 sk Ls ek es B HB Hek Hes ct _ B' Hct). cbn [bind]. destruct (Z.eqb_spec size 0) as [->|Hne]; [reflexivity|]. destruct Hek as (-> & _). unfold degree_of. rewrite (proj2 (Z.ltb_lt _ _)) by lia. reflexivity.
  Qed.
End Props.
Theorem builder_enable_all : forall par sk, is_sk par sk -> forall l1 l2 b cols, is_ekb par sk l1 l2 b cols ->
  (is_ekb par sk l1 l2 (enable_inner_sum b) cols /\ forall e, asked (pa_degree par) (enable_inner_sum b) cols e <-> asked (pa_degree par) b cols e \/ e = row_exponent (pa_degree par) \/ exists k, 0 <= k /\ 2 ^ k < Z.of_nat ((pa_degree par) / 2) /\ e = column_exponent (pa_degree par) (2 ^ k)) /\
  (is_ekb par sk l1 l2 (enable_row_rotation b) cols /\ forall e, asked (pa_degree par) (enable_row_rotation b) cols e <-> asked (pa_degree par) b cols e \/ e = row_exponent (pa_degree par)) /\
  (forall i, is_step (pa_degree par) i -> exists b', enable_column_rotation b i = Val b' /\ is_ekb par sk l1 l2 b' (i :: cols) /\ forall e, asked (pa_degree par) b' (i :: cols) e <-> asked (pa_degree par) b cols e \/ e = column_exponent (pa_degree par) i) /\
  (forall i, ~ is_step (pa_degree par) i -> enable_column_rotation b i = Err (InvalidRotationStep i)) /\
  (forall L, Z.of_nat L <= Z.log2 (Z.of_nat (pa_degree par)) -> exists b', enable_expansion b L = Val b' /\ is_ekb par sk l1 l2 b' cols /\
     (eb_expansion b <= L -> forall e, asked (pa_degree par) b' cols e <-> asked (pa_degree par) b cols e \/ exists k, k < L /\ e = expansion_exponent (pa_degree par) k)%nat) /\
  (forall L, Z.log2 (Z.of_nat (pa_degree par)) < Z.of_nat L -> enable_expansion b L = Err (InvalidLevel (Z.of_nat L) 0 (Z.log2 (Z.of_nat (pa_degree par))))).
Proof.
  intros par sk (Es & _) l1 l2 b cols (E1 & E2 & E3 & Hr & Hx & Hc & HI). split; [split|split; [split|split; [|split; [|split]]]].
  - split; [exact E1|]. split; [exact E2|]. split; [exact E3|]. split; [exact Hr|]. auto.
  - intros e. unfold asked, enable_inner_sum. cbn [eb_row eb_inner_sum eb_expansion]. split.
    + intros [H|[(_ & H)|[(_ & H)|H]]]; auto.
    + intros [[H|[(_ & H)|[(_ & H)|H]]]|[H|H]]; auto 7.
  - split; [exact E1|]. split; [exact E2|]. split; [exact E3|]. split; [exact Hr|]. auto.
  - intros e. unfold asked, enable_row_rotation. cbn [eb_row eb_inner_sum eb_expansion]. split.
    + intros [H|[(_ & H)|[H|H]]]; auto.
    + intros [[H|[(_ & H)|[H|H]]]|H]; auto 7.
  - intros i Hi. unfold enable_column_rotation. rewrite (proj2 (Hr i (column_exponent (pa_degree par) i)) (conj Hi eq_refl)). eexists. split; [reflexivity|].
    assert (HI' : forall e, In e (set_insert (eb_columns b) (column_exponent (pa_degree par) i)) <-> exists j, In j (i :: cols) /\ e = column_exponent (pa_degree par) j).
    { intros e. rewrite In_set_insert, HI. split; [intros [->|(j & Hj & ->)]; [exists i|exists j]; cbn [In]; auto|]. intros (j & [<-|Hj] & ->); [left; reflexivity|right; eauto]. }
    split; [split; [exact E1|]; split; [exact E2|]; split; [exact E3|]; split; [exact Hr|]; split; [exact Hx|]; split; [constructor; assumption|exact HI']|]. intros e. unfold asked. cbn [eb_row eb_inner_sum eb_expansion]. split.
    + intros [(j & [<-|Hj] & ->)|H]; [auto|left; left; eauto|left; right; exact H].
    + intros [[(j & Hj & ->)|H]| ->]; [left; exists j; cbn [In]; auto|right; exact H|left; exists i; cbn [In]; auto].
  - intros i Hi. unfold enable_column_rotation. destruct (lookup (eb_rot b) i) as [e|] eqn:El; [|reflexivity]. apply Hr in El. tauto.
  - intros L HL. unfold enable_expansion. rewrite E1, Es. unfold degree_of. rewrite (proj2 (Z.ltb_ge _ _)) by exact HL. eexists. split; [reflexivity|]. split; [split; [reflexivity|]; split; [exact E2|]; split; [exact E3|]; split; [exact Hr|]; auto|].
    intros Hle e. unfold asked. cbn [eb_row eb_inner_sum eb_expansion]. split.
    + intros [H|[H|[H|H]]]; auto 7.
    + intros [[H|[H|[H|(k & Hk & ->)]]]|H]; auto 7. right. right. right. exists k. split; [lia|reflexivity].
  - intros L HL. unfold enable_expansion. rewrite E1, Es. unfold degree_of. rewrite (proj2 (Z.ltb_lt _ _)) by exact HL. reflexivity.
Qed.
(** The message is the constant 2^L m_i when the coefficients of index 2^L and above are 0, in particular when 2^L = N. *)
Theorem expanded_constant : forall n s i m, (i < s)%nat -> (s <= n)%nat -> (forall j, (s <= j)%nat -> nth j m 0 = 0) -> expanded n s i m = Z.of_nat s * nth i m 0 :: repeat 0 (n - 1).
Proof.
  intros n s i m Hi Hs Hz. apply list_ext_Z; [unfold expanded; rewrite map_length, seq_length; cbn [length]; rewrite repeat_length; lia|]. unfold expanded at 1. rewrite map_length, seq_length. intros j Hj. unfold expanded. rewrite nth_map_seq by exact Hj. destruct j as [|j].
  - rewrite Nat.mod_0_l, Nat.add_0_r by lia. reflexivity.
  - cbn [nth]. rewrite nth_repeat. destruct (Nat.eqb_spec (S j mod s) 0) as [E|E]; [|reflexivity]. rewrite Hz; [lia|]. apply Nat.mod_divides in E; [|lia]. destruct E as (q & E). destruct q; nia.
Qed.
(** Testing for a level that needs a shift of 64 bits or more panics. *)
Theorem supports_shift_panics : forall ek L, (64 < L)%nat -> ek_level ek <> length (pa_moduli (ek_par ek)) -> supports_expansion ek L = Panic.
Proof.
  intros ek L HL Hne. unfold supports_expansion. rewrite (proj2 (Nat.eqb_neq L 0)), (proj2 (Nat.eqb_neq _ _) Hne) by lia. generalize (Z.of_nat L <=? Z.log2 (degree_of (ek_par ek))).
  assert (H : forall k a b, (a <= 64 < a + k)%nat -> foldM (fun ret l => d <- shrM (degree_of (ek_par ek)) (Z.of_nat l) ;; Val (ret && has (ek_gk ek) (d + 1))) (seq a k) b = Panic).
  { induction k as [|k IH]; intros a b Ha; [lia|]. cbn [seq foldM]. destruct (Nat.eq_dec a 64) as [->|Hn]; [reflexivity|]. unfold shrM. rewrite chk_val by lia. cbn [bind]. apply IH. lia. }
  intros b. apply H. lia.
Qed.
Section Refutations.
  Context (isp : Z -> bool) (cands : Z -> list Z) (par : params).
  Notation N := (pa_degree par).
  Notation t := (pa_t par).
  (** X^2 expanded into two ciphertexts: the first encrypts 2 X^2, where the property says the constant 0. *)
  Theorem expands_not_constant : oracles isp cands -> is_params isp cands par -> supported par -> decryptable par -> 2 < t -> forall sk, is_sk par sk -> forall l1 l2, (l1 <= max_level par)%nat -> (l2 <= l1)%nat ->
    forall ek es B, 0 <= B -> is_ek par sk l1 l2 ek es B -> proper_exponents N es -> round_exponents N 1 es -> forall ct B', encrypts2 par sk l1 ct (0 :: 0 :: 1 :: repeat 0 (N - 3)) B' -> small_noise par l1 (2 * B' + galois_noise par sk l1 l2 B + 3) ->
    exists r r' pt, expands ek ct 2 = Val [r; r'] /\ sk_decrypt sk r = Val pt /\ is_pt par l1 pt (0 :: 0 :: 2 :: repeat 0 (N - 3)).
  Proof.
    intros Ho Hp Hsup Hdec Ht sk Hsk l1 l2 H1 H2 ek es B HB Hek Hes Hen ct B' Hct Hn. pose proof (params_good isp cands par Ho Hp) as G. destruct (at_level_ex isp cands par l1 Ho G H1) as (lv1 & c1 & A1). pose proof (al_N8 isp cands par l1 lv1 c1 A1) as HN. assert (Lm0 : length (0 :: 0 :: 1 :: repeat 0 (N - 3)) = N) by (cbn [length]; rewrite repeat_length; lia).
    destruct (expands_all isp cands par Ho Hp sk Hsk l1 l2 H1 H2 ek es B HB Hek Hes ct (0 :: 0 :: 1 :: repeat 0 (N - 3)) B' Lm0 Hct 2) as (H & _). destruct (H ltac:(lia) Hen) as (cts & E & Lc & Hr). destruct cts as [|r [|r' [|? ?]]]; cbn [length] in Lc; try lia.
    specialize (Hr 0%nat r eq_refl). change (Z.to_nat (Z.log2_up 2)) with 1%nat in Hr. change (2 ^ 1)%nat with 2%nat in Hr. change (2 ^ Z.of_nat 1) with 2 in Hr. destruct Hr as (_ & Hr).
    replace (2 * (B' + galois_noise par sk l1 l2 B + 3) - galois_noise par sk l1 l2 B - 3) with (2 * B' + galois_noise par sk l1 l2 B + 3) in Hr by ring. destruct (decrypt_all isp cands par Ho Hp l1 H1 Hsup Hdec sk r _ _ Hsk Hr Hn) as (pt & Ed & Hpt & _).
    exists r, r', pt. split; [exact E|]. split; [exact Ed|]. assert (Ex : expanded N 2 0 (0 :: 0 :: 1 :: repeat 0 (N - 3)) = 0 :: 0 :: 2 :: repeat 0 (N - 3)).
    { apply list_ext_Z; [unfold expanded; rewrite map_length, seq_length; cbn [length]; rewrite repeat_length; lia|]. unfold expanded at 1. rewrite map_length, seq_length. intros j Hj. unfold expanded. rewrite nth_map_seq by exact Hj. cbn [plus]. destruct j as [|[|[|j]]]; [reflexivity..|]. cbn [nth]. rewrite !nth_repeat. destruct (Nat.eqb _ 0); reflexivity. }
    rewrite Ex in Hpt. cbn [map] in Hpt. rewrite Z.mod_0_l, Z.mod_small in Hpt by lia. replace (map (fun a => a mod t) (repeat 0 (N - 3))) with (repeat 0 (N - 3)) in Hpt; [exact Hpt|]. generalize (N - 3)%nat. induction n as [|n IH]; [reflexivity|]. cbn [repeat map]. rewrite <- IH, Z.mod_0_l by lia. reflexivity.
  Qed.
  (** A key built for inner sums alone also swaps the rows, and rotates the columns by one. *)
  Theorem sum_key_rotates : oracles isp cands -> is_params isp cands par -> pa_ntt par <> None -> forall expand derive, expands_well expand -> forall sk, is_sk par sk -> forall l1 l2, (l1 <= max_level par)%nat -> (l2 <= l1)%nat -> t <= level_modulus par l1 ->
    forall sds rngs, (forall e i, words (rngs e i)) -> exists b ek, ekb_new_leveled sk l1 l2 = Val b /\ ek_build expand derive (enable_inner_sum b) sds rngs = Val ek /\
    forall ct v B', Forall (fun a => 0 <= a < t) v -> encrypts_slots par sk l1 ct v B' -> exists r r', rotates_columns_by ek ct 1 = Val r /\ rotates_rows ek ct = Val r'.
  Proof.
    intros Ho Hp Hs expand derive Hx sk Hsk l1 l2 H1 H2 HtQ sds rngs Hr. pose proof (params_good isp cands par Ho Hp) as G. destruct (at_level_ex isp cands par l1 Ho G H1) as (lv1 & c1 & A1). pose proof (al_N8 isp cands par l1 lv1 c1 A1) as HN.
    destruct (builder_new_all isp cands par Ho Hp sk Hsk) as (_ & Hb). destruct (proj1 (Hb l1 l2) ltac:(lia)) as (rot & Eb & Hekb). eexists. destruct (builder_enable_all par sk Hsk l1 l2 _ [] Hekb) as ((Hsum & Has) & _).
    destruct (build_all isp cands par Ho Hp expand derive Hx sk Hsk l1 l2 H1 H2 _ [] sds rngs Hsum Hr) as (ek & Eek & Hek & Hes). exists ek. split; [exact Eb|]. split; [exact Eek|]. intros ct v B' Hv Hct. pose proof (gp_var _ _ _ G) as Hvar.
    assert (Hst : is_step N 1) by (unfold is_step; assert (4 <= N / 2)%nat by (apply Nat.div_le_lower_bound; lia); lia).
    destruct (proj1 (columns_all isp cands par Ho Hp Hs sk Hsk l1 l2 H1 H2 HtQ ek _ (2 * pa_variance par) ltac:(lia) Hek Hes ct v B' Hv Hct 1)) as (r & E & _); [exact Hst|apply Has; right; right; exists 0; split; [lia|]; split; [change (2 ^ 0) with 1; unfold is_step in Hst; lia|reflexivity]|].
    destruct (proj1 (rows_all isp cands par Ho Hp Hs sk Hsk l1 l2 H1 H2 HtQ ek _ (2 * pa_variance par) ltac:(lia) Hek Hes ct v B' Hv Hct)) as (r' & E' & _); [apply Has; auto|]. eauto.
  Qed.
End Refutations.
