(** Evaluation keys: their construction, rotations, inner sums and expansions, on messages. *)
From Verif Require Import Outcome BasicSpec OutcomeLemmas ZqModel ZqProofs ZqPow NumTheory NttModel PolySpec PolyRing NttPure NttStages NttProofs NttPropLemmas CbdModel CbdSpec CbdProofs.
From Verif Require Import TranscodeModel PrimesModel RnsModel RnsSpec RnsProofs RqModel RqSpec RqCtx RqRows RqProofs RingRn RqOps RqIO RqPropLemmas ParamsModel BfvSpec ParamsProofs SlotsProofs BuildProofs ParamsPropLemmas PlainModel CipherModel OpsModel SchemeSpec CipherSpec PlainProofs PlainPropLemmas RnPoly CipherProofs EncryptProofs CipherPropLemmas KeysModel KeysSpec KeysProofs KeySwitchProofs KeyNoiseProofs KeyOpsProofs KeyPropLemmas EvalSpec RotProofs EvalKeyProofs.
From Coq Require Import Znumtheory.
Set Default Proof Using "Type".

Section Norms.
  Context {N : nat}.
  Add Ring Rn_norms : (Rn_ring N).
  Lemma rnorm_rX k (x : Rn N) : rnorm (rX N k * x)%R <= rnorm x.
  Proof.
    induction k as [|k IH]; [change (rX N 0) with (r1 N); replace (r1 N * x)%R with x by ring; lia|].
    etransitivity; [|exact IH]. rewrite rX_S. replace (rX N 1 * rX N k * x)%R with (rX N 1 * (rX N k * x))%R by ring. set (y := (rX N k * x)%R).
    change (rX N 1) with (rshift (r1 N)). rewrite <- rshift_mul. apply rnorm_le; [apply rnorm_nonneg|]. intros j Hj. unfold rshift. rewrite rl_mkR. unfold lX. rewrite nth_map_seq by exact Hj. destruct j; [rewrite Z.abs_opp|]; apply rnorm_nth.
  Qed.
  Lemma rscaled_rX Q t k (m : Rn N) : 0 < t -> rnorm (rscaled Q t m * rX N k - rscaled Q t (m * rX N k))%R <= 1.
  Proof.
    intros Ht. destruct (rscaled_spec Q t m Ht) as (r & Hr & Er). destruct (rscaled_spec Q t (m * rX N k)%R Ht) as (r' & Hr' & Er').
    assert (E : (rZ N t * (rscaled Q t m * rX N k - rscaled Q t (m * rX N k)) = r' - rX N k * r)%R).
    { replace (rZ N t * (rscaled Q t m * rX N k - rscaled Q t (m * rX N k)))%R with ((rZ N t * rscaled Q t m) * rX N k - rZ N t * rscaled Q t (m * rX N k))%R by ring. rewrite Er, Er'. ring. }
    apply (f_equal rnorm) in E. rewrite rnorm_scale_eq in E. pose proof (rnorm_sub N r' (rX N k * r)%R). pose proof (rnorm_rX k r). pose proof (canonical_norm t r Ht Hr). pose proof (canonical_norm t r' Ht Hr').
    set (x := rnorm (rscaled Q t m * rX N k - rscaled Q t (m * rX N k))%R) in *. rewrite Z.abs_eq in E by lia. nia.
  Qed.
End Norms.

Section Keys.
  Context (isp : Z -> bool) (cands : Z -> list Z) (Ho : oracles isp cands) (par : params) (G : good_params isp cands par).
  Context (l1 : nat) (lv1 : level_ctx) (c1 : ctx) (A1 : at_level isp cands par l1 lv1 c1).
  Context (l2 : nat) (lv2 : level_ctx) (c2 : ctx) (A2 : at_level isp cands par l2 lv2 c2).
  Context (Hle : (l2 <= l1)%nat).
  Context (sk : secret_key) (Hl : length (sk_coeffs sk) = pa_degree par).
  Notation N := (pa_degree par).
  Notation t := (pa_t par).
  Notation Q := (prod_list (level_moduli (pa_moduli par) l1)).
  Notation s := (mkR (sk_coeffs sk) Hl).
  Add Ring Rn_ekeys : (Rn_ring N).
  Set Default Proof Using "All".
  Local Lemma HcK : ctx_ok c1. Proof. exact (good_ok _ (al_good _ _ _ _ _ _ A1)). Qed.
  Local Lemma HdK : c_degree c1 = N. Proof. exact (al_deg _ _ _ _ _ _ A1). Qed.
  Local Lemma N0 : (0 < N)%nat. Proof. pose proof (al_N8 isp cands par l1 lv1 c1 A1). lia. Qed.
  Definition gk_noise (B : Z) : Z := divided_noise (norm1 (sk_coeffs sk)) (level_ratio par l1 l2) (switch_noise par l1 (key_base par l2) B).

  Lemma is_gk_R e g B : 0 <= B -> 0 <= e < 2 * Z.of_nat N -> Z.odd e = true -> is_gk par sk l1 l2 e g B ->
    exists i k, g = mkGk i k /\ subst_ok N e i /\ sw_key par l1 c1 k s (@raut N (Z.to_nat e) s) (gk_noise B).
  Proof.
    intros HB He Hodd ((c & Ec & Ei) & Eb & HK). rewrite (al_par_context isp cands par l1 lv1 c1 A1) in Ec. injection Ec as <-. destruct g as [i k]. cbn [g_element g_ksk] in *. exists i, k. split; [reflexivity|].
    destruct (subst_new_ok c1 e HcK ltac:(rewrite HdK; exact (N31 isp cands Ho par G)) (proj1 He) Hodd) as (i' & Ei' & _ & Hi). rewrite Ei in Ei'. injection Ei' as <-. rewrite HdK, Z.mod_small in Hi by lia. split; [exact Hi|].
    replace e with (Z.of_nat (Z.to_nat e)) in HK at 1 by (apply Z2Nat.id; lia). change (sk_coeffs sk) with (rl s) in HK at 1. rewrite <- raut_spec, rl_map_Z in HK by exact N0.
    apply (is_ksk_R isp cands Ho par G l1 lv1 c1 A1 l2 lv2 c2 A2 sk Hl) in HK. rewrite Eb, rscale_mul in HK. pose proof (kskR_sw isp cands Ho par G l1 lv1 c1 A1 l2 lv2 c2 A2 Hle _ k s _ B HB HK) as H. rewrite rnorm1_norm1 in H. exact H.
  Qed.
  Lemma galois_new_is expand derive e sd rngs : expands_well expand -> sk_par sk = par -> Forall is_i64 (sk_coeffs sk) -> 0 <= e < 2 * Z.of_nat N -> Z.odd e = true -> (forall i, words (rngs i)) ->
    exists g, galois_new expand derive sk e l1 l2 sd rngs = Val g /\ is_gk par sk l1 l2 e g (2 * pa_variance par).
  Proof.
    intros Hx Es Hi64 He Hodd Hr. destruct (galois_new_R isp cands Ho par G l1 lv1 c1 A1 l2 lv2 c2 A2 Hle expand derive Hx sk Hl Es Hi64 e sd rngs (N31 isp cands Ho par G) (proj1 He) Hodd Hr) as (i & k & E & Ei & _ & HK).
    exists (mkGk i k). split; [exact E|]. rewrite Z.mod_small in HK by lia. rewrite <- rscale_mul in HK. pose proof (gp_var _ _ _ G) as Hv. apply (R_is_ksk isp cands Ho par G l1 lv1 c1 A1 l2 lv2 c2 A2 sk Hl) in HK; [|lia]. destruct HK as (HK & Eb).
    split; [exists c1; split; [apply (al_par_context isp cands par l1 lv1 c1 A1)|exact Ei]|]. split; [exact Eb|]. cbn [g_ksk]. rewrite <- rl_map_Z, raut_spec, Z2Nat.id in HK by (exact N0 || lia). exact HK.
  Qed.
  (** The monomials *)
  Lemma neg_monomial k : (2 ^ k <= N)%nat -> (2 ^ k <> 0)%nat -> set_nth (repeat 0 N) (Z.to_nat (degree_of par - 2 ^ Z.of_nat k)) (-1) = rl (rX N (2 * N - 2 ^ k)).
  Proof.
    intros Hk H0. pose proof N0. assert (Ei : Z.to_nat (degree_of par - 2 ^ Z.of_nat k) = (N - 2 ^ k)%nat) by (unfold degree_of; rewrite <- nat_pow2_Z; lia). rewrite Ei.
    replace (2 * N - 2 ^ k)%nat with (N + (N - 2 ^ k))%nat by lia. rewrite rX_add, rX_n. apply list_ext_Z; [rewrite set_nth_length, repeat_length, rl_length; reflexivity|]. rewrite set_nth_length, repeat_length. intros j Hj.
    rewrite nth_set_nth by (rewrite repeat_length; lia). rewrite nth_repeat. replace (- r1 N * rX N (N - 2 ^ k))%R with (- rX N (N - 2 ^ k))%R by ring. rewrite nth_ropp, nth_rX_small by lia.
    destruct (Nat.eqb_spec j (N - 2 ^ k)), (Nat.eqb_spec (N - 2 ^ k) j); try lia.
  Qed.
  Lemma pow_le_N K k : N = (2 ^ K)%nat -> (k <= K)%nat -> (2 ^ k <= N)%nat /\ (2 ^ k <> 0)%nat.
  Proof. intros -> Hk. split; [apply Nat.pow_le_mono_r; lia|apply Nat.pow_nonzero; lia]. Qed.
  Lemma monomials_eq K : N = (2 ^ K)%nat -> (K <= 16)%nat -> Z.log2 (degree_of par) = Z.of_nat K ->
    expansion_monomials par c1 = Val (map (fun k => P NttShoup c1 true (rX N (2 * N - 2 ^ k))) (seq 0 K)).
  Proof.
    intros EN HK El. unfold expansion_monomials. rewrite El, Nat2Z.id. rewrite <- (map_id (seq 0 K)) at 1. apply mapM_map. intros k Hk. apply in_seq in Hk. destruct (pow_le_N K k EN ltac:(lia)) as (H1 & H2).
    assert (Hz : 2 ^ Z.of_nat k <= degree_of par) by (unfold degree_of; rewrite <- nat_pow2_Z; lia). assert (0 < 2 ^ Z.of_nat k) by (apply Z.pow_pos_nonneg; lia). pose proof (N31 isp cands Ho par G) as H31. fold (degree_of par) in H31.
    unfold chk64. rewrite chk_val by (assert (2 ^ 31 < W64) by reflexivity; lia). cbn [bind]. rewrite bind_guard by (apply Z.ltb_lt; lia). rewrite (neg_monomial k H1 H2).
    rewrite (P_from_i64 c1 HcK N HdK _ true (rl_length _)).
    - cbn [bind]. rewrite (P_pb_shoup c1 HcK N HdK). repeat f_equal; apply rl_inj; apply rl_mkR.
    - apply Forall_forall. intros z Hz'. apply (In_nth _ _ 0) in Hz'. destruct Hz' as (j & Hj & <-). rewrite rl_length in Hj. rewrite nth_rX by exact Hj. unfold is_i64. destruct (Nat.eqb ((2 * N - 2 ^ k) mod N) j); [unfold monomial_sign; match goal with |- context [if ?b then 1 else -1] => destruct b end|]; split; reflexivity || discriminate.
  Qed.
  Lemma monomials_is K : N = (2 ^ K)%nat -> Forall2 (is_poly par l1) (map (fun k => P NttShoup c1 true (rX N (2 * N - 2 ^ k))) (seq 0 K)) (map (fun k => monomial N (2 * Z.of_nat N - 2 ^ Z.of_nat k)) (seq 0 K)).
  Proof.
    intros EN. assert (H : forall ks, Forall (fun k => (k <= K)%nat) ks -> Forall2 (is_poly par l1) (map (fun k => P NttShoup c1 true (rX N (2 * N - 2 ^ k))) ks) (map (fun k => monomial N (2 * Z.of_nat N - 2 ^ Z.of_nat k)) ks)).
    { induction 1 as [|k ks Hk H IH]; cbn [map]; constructor; [|exact IH]. destruct (pow_le_N K k EN Hk) as (H1 & H2). pose proof (P_is_poly isp cands Ho par G l1 lv1 c1 A1 NttShoup true (rX N (2 * N - 2 ^ k))) as HP.
      rewrite rX_monomial in HP by exact N0. replace (Z.of_nat (2 * N - 2 ^ k)) with (2 * Z.of_nat N - 2 ^ Z.of_nat k) in HP by (rewrite <- nat_pow2_Z; lia). exact HP. }
    apply H. apply Forall_forall. intros k Hk. apply in_seq in Hk. lia.
  Qed.
  Theorem ek_build_R expand derive b cols sds rngs : expands_well expand -> sk_par sk = par -> Forall is_i64 (sk_coeffs sk) -> (forall e i, words (rngs e i)) -> is_ekb par sk l1 l2 b cols ->
    exists ek, ek_build expand derive b sds rngs = Val ek /\ is_ek par sk l1 l2 ek (asked N b cols) (2 * pa_variance par).
  Proof.
    intros Hx Es Hi64 Hr Hb. destruct (deg_pow isp cands Ho par G) as (K & HK & EN & _ & El & _). destruct (build_idx_ok isp cands Ho par G sk l1 l2 b cols Hb) as (idx & Ei & HI). pose proof (fun e => asked_odd isp cands Ho par G b cols e l1 l2 sk Hb) as Hodd. destruct Hb as (E1 & E2 & E3 & Hrot & _).
    destruct (build_map (fun e => galois_new expand derive sk e l1 l2 (sds e) (rngs e)) (fun e g => is_gk par sk l1 l2 e g (2 * pa_variance par)) idx) with (m := @nil (Z * galois_key)) as (gk & Eg & Hgk & Hgk').
    { intros e He. apply HI, Hodd in He. destruct He as (He & Ho'). apply galois_new_is; auto. }
    eexists. split.
    - unfold ek_build. rewrite E1, E2, E3, Es. unfold build_idx in Ei. cbv zeta in *. apply bind_inv in Ei. destruct Ei as (ix1 & Ei1 & Ei2). rewrite Ei1. cbn [bind]. rewrite Ei2. cbn [bind]. rewrite (al_par_context isp cands par l1 lv1 c1 A1). cbn [bind]. rewrite (monomials_eq K EN ltac:(lia) El). cbn [bind]. rewrite Eg. reflexivity.
    - split; [reflexivity|]. split; [reflexivity|]. split; [reflexivity|]. split; [exact Hrot|]. cbn [ek_monomials ek_gk]. split; [|split].
      + fold (degree_of par). rewrite El, Nat2Z.id. apply monomials_is, EN.
      + intros e. rewrite Hgk, HI. cbn [lookup]. split; [auto|intros [H|H]; [exact H|congruence]].
      + intros e g Hlk. apply Hgk' in Hlk. destruct Hlk as [H|H]; [exact H|discriminate].
  Qed.

  (** ** Using a key *)
  Context (ek : eval_key) (es : Z -> Prop) (B : Z) (HB : 0 <= B) (HE : is_ek par sk l1 l2 ek es B) (Hes : forall e, es e -> 0 <= e < 2 * Z.of_nat N /\ Z.odd e = true).
  Notation D := (gk_noise B).
  Notation enc := (enc par l1 c1 s).
  Lemma ek_lookup e : es e -> exists i k, lookup (ek_gk ek) e = Some (mkGk i k) /\ subst_ok N e i /\ sw_key par l1 c1 k s (@raut N (Z.to_nat e) s) D.
  Proof.
    intros He. destruct HE as (_ & _ & _ & _ & _ & H1 & H2). pose proof (proj1 (H1 e) He) as Hn. destruct (lookup (ek_gk ek) e) as [g|] eqn:El; [|congruence]. pose proof (H2 e g El) as Hg. destruct (Hes e He) as (Hr & Hodd).
    destruct (is_gk_R e g B HB Hr Hodd Hg) as (i & k & -> & Hi & Hk). exists i, k. auto.
  Qed.
  Lemma ek_has e : has (ek_gk ek) e = true <-> es e.
  Proof. rewrite has_lookup. destruct HE as (_ & _ & _ & _ & _ & H1 & _). symmetry. apply H1. Qed.
  Lemma ek_rot_step i : is_step N i -> lookup (ek_rot ek) i = Some (column_exponent N i).
  Proof. intros Hi. destruct HE as (_ & _ & _ & Hr & _). apply Hr. auto. Qed.
  Lemma validate_enc ct m B' : enc ct m B' -> validate_two (ek_par ek) (ek_ct_level ek) ct = Val tt.
  Proof.
    intros (sd & v0 & v1 & x0 & x1 & e & -> & _). destruct HE as (E1 & E2 & _). rewrite E1, E2. unfold validate_two. rewrite (ct_validate_eq isp cands Ho par G l1 lv1 c1 A1) by (cbn [length]; lia). cbn [bind ct_c ct_level]. rewrite parts_length, !Nat.eqb_refl. reflexivity.
  Qed.
  Lemma enc_par ct m B' : enc ct m B' -> ct_par ct = par.
  Proof. intros (sd & v0 & v1 & x0 & x1 & e & -> & _). reflexivity. Qed.
  Lemma zero_any : any_out par c1 (ct_zero par).
  Proof. intros o0 o1 H. discriminate. Qed.
  Lemma apply_enc e : es e -> exists g, lookup (ek_gk ek) e = Some g /\ forall ct m B', enc ct m B' -> forall out, any_out par c1 out -> exists r, galois_apply_into g ct out = Val r /\ enc r (@raut N (Z.to_nat e) m) (B' + 1 + D).
  Proof.
    intros He. destruct (ek_lookup e He) as (i & k & El & Hi & Hk). exists (mkGk i k). split; [exact El|]. intros ct m B' Hct. apply (enc_galois isp cands Ho par G l1 lv1 c1 A1 s e i k D (N31 isp cands Ho par G) Hi Hk ct m B' Hct).
  Qed.
  Theorem columns_enc ct m B' i : enc ct m B' -> is_step N i -> es (column_exponent N i) -> exists r, rotates_columns_by ek ct i = Val r /\ enc r (@raut N (Z.to_nat (column_exponent N i)) m) (B' + 1 + D).
  Proof.
    intros Hct Hi He. unfold rotates_columns_by. rewrite (validate_enc ct m B' Hct). cbn [bind]. unfold supports_column_rotation_by. rewrite (ek_rot_step i Hi). rewrite (proj2 (ek_has _) He). cbn [negb ok_or bind].
    destruct (apply_enc _ He) as (g & -> & Hg). cbn [ok_or bind]. rewrite (enc_par ct m B' Hct). apply (Hg ct m B' Hct), zero_any.
  Qed.
  Theorem columns_refused ct m B' i : enc ct m B' -> ~ (is_step N i /\ es (column_exponent N i)) -> rotates_columns_by ek ct i = Err EkUnsupported.
  Proof.
    intros Hct Hn. unfold rotates_columns_by. rewrite (validate_enc ct m B' Hct). cbn [bind]. assert (E : supports_column_rotation_by ek i = false); [|rewrite E; reflexivity]. unfold supports_column_rotation_by.
    destruct (lookup (ek_rot ek) i) as [e|] eqn:El; [|reflexivity]. destruct HE as (_ & _ & _ & Hr & _). apply Hr in El. destruct El as (Hi & ->). destruct (has (ek_gk ek) (column_exponent N i)) eqn:Eh; [|reflexivity]. apply ek_has in Eh. tauto.
  Qed.
  Lemma row_exp : 2 * degree_of (ek_par ek) - 1 = row_exponent N.
  Proof. destruct HE as (-> & _). reflexivity. Qed.
  Theorem rows_enc ct m B' : enc ct m B' -> es (row_exponent N) -> exists r, rotates_rows ek ct = Val r /\ enc r (@raut N (Z.to_nat (row_exponent N)) m) (B' + 1 + D).
  Proof.
    intros Hct He. unfold rotates_rows, supports_row_rotation. rewrite (validate_enc ct m B' Hct), row_exp, (proj2 (ek_has _) He). cbn [bind negb]. destruct (apply_enc _ He) as (g & -> & Hg). cbn [ok_or bind]. rewrite (enc_par ct m B' Hct). apply (Hg ct m B' Hct), zero_any.
  Qed.
  Theorem rows_refused ct m B' : enc ct m B' -> ~ es (row_exponent N) -> rotates_rows ek ct = Err EkUnsupported.
  Proof.
    intros Hct Hn. unfold rotates_rows, supports_row_rotation. rewrite (validate_enc ct m B' Hct), row_exp. cbn [bind]. destruct (has (ek_gk ek) (row_exponent N)) eqn:Eh; [|reflexivity]. apply ek_has in Eh. tauto.
  Qed.
  (** Inner sums *)
  Definition sum_step (m : Rn N) (e : Z) : Rn N := (m + @raut N (Z.to_nat e) m)%R.
  Lemma rot_add_enc e st m B' : es e -> enc (fst st) m B' -> any_out par c1 (snd st) -> exists st', rot_add ek st e = Val st' /\ enc (fst st') (sum_step m e) (2 * B' + 2 + D) /\ any_out par c1 (snd st').
  Proof.
    intros He Hct Hout. unfold rot_add. destruct (apply_enc _ He) as (g & -> & Hg). cbn [ok_or bind]. destruct (Hg _ _ _ Hct _ Hout) as (tmp & -> & Ht). cbn [bind]. destruct (enc_add isp cands Ho par G l1 lv1 c1 A1 s _ _ _ _ _ _ Hct Ht) as (r & -> & Hr). cbn [bind].
    eexists. split; [reflexivity|]. cbn [fst snd]. split; [|apply (enc_any isp cands Ho par G l1 lv1 c1 A1 s tmp _ _ Ht)]. replace (2 * B' + 2 + D) with (B' + (B' + 1 + D) + 1) by ring. exact Hr.
  Qed.
  Lemma fold_rot steps : Forall (fun i => is_step N i /\ es (column_exponent N i)) steps -> forall st m B', enc (fst st) m B' -> any_out par c1 (snd st) ->
    exists st', foldM (fun st i => e <- ok_or (lookup (ek_rot ek) i) EkMissing ;; rot_add ek st e) steps st = Val st' /\
      enc (fst st') (fold_left sum_step (map (column_exponent N) steps) m) (2 ^ Z.of_nat (length steps) * (B' + 2 + D) - 2 - D) /\ any_out par c1 (snd st').
  Proof.
    induction 1 as [|i steps (Hi & He) H IH]; intros st m B' Hct Hout; cbn [foldM map fold_left].
    - exists st. split; [reflexivity|]. split; [|exact Hout]. cbn [length]. change (2 ^ Z.of_nat 0) with 1. replace (1 * (B' + 2 + D) - 2 - D) with B' by ring. exact Hct.
    - rewrite (ek_rot_step i Hi). cbn [ok_or bind]. destruct (rot_add_enc _ st m B' He Hct Hout) as (st1 & -> & H1 & H2). cbn [bind]. destruct (IH st1 _ _ H1 H2) as (st' & E & H3 & H4). exists st'. split; [exact E|]. split; [|exact H4].
      cbn [length]. rewrite Nat2Z.inj_succ, Z.pow_succ_r by lia. replace (2 * 2 ^ Z.of_nat (length steps) * (B' + 2 + D) - 2 - D) with (2 ^ Z.of_nat (length steps) * (2 * B' + 2 + D + 2 + D) - 2 - D) by ring. exact H3.
  Qed.
  Lemma supports_fold steps : Forall (is_step N) steps -> forall b, exists b', foldM (fun ret i => e <- unwrap (lookup (ek_rot ek) i) ;; Val (ret && has (ek_gk ek) e)) steps b = Val b' /\ (b' = true <-> b = true /\ Forall (fun i => es (column_exponent N i)) steps).
  Proof.
    induction 1 as [|i steps Hi H IH]; intros b; cbn [foldM]; [exists b; split; [reflexivity|]; split; [auto|tauto]|]. rewrite (ek_rot_step i Hi). cbn [unwrap bind]. destruct (IH (b && has (ek_gk ek) (column_exponent N i))) as (b' & E & Hb). exists b'. split; [exact E|]. rewrite Hb, andb_true_iff, ek_has. split.
    - intros ((H1 & H2) & H3). split; [exact H1|]. constructor; assumption.
    - intros (H1 & H2). pose proof (Forall_inv H2). pose proof (Forall_inv_tail H2). auto.
  Qed.
  Definition sums_enabled : Prop := es (row_exponent N) /\ Forall (fun i => es (column_exponent N i)) (steps_of par).
  Lemma supports_sum : exists b, supports_inner_sum ek = Val b /\ (b = true <-> sums_enabled).
  Proof.
    unfold supports_inner_sum. rewrite row_exp. destruct HE as (E1 & _). rewrite E1. destruct (supports_fold (steps_of par)) with (b := has (ek_gk ek) (row_exponent N)) as (b & E & Hb); [apply Forall_forall; exact (steps_step isp cands Ho par G)|]. exists b. split; [exact E|]. rewrite Hb, ek_has. reflexivity.
  Qed.
  Theorem sum_enc ct m B' : enc ct m B' -> sums_enabled -> exists r, computes_inner_sum ek ct = Val r /\
    enc r (sum_step (fold_left sum_step (map (column_exponent N) (steps_of par)) m) (row_exponent N)) (Z.of_nat N * (B' + 2 + D) - 2 - D).
  Proof.
    intros Hct Hen. unfold computes_inner_sum. rewrite (validate_enc ct m B' Hct). cbn [bind]. destruct supports_sum as (b & -> & Hb). cbn [bind]. rewrite (proj2 Hb Hen). cbn [negb]. rewrite (enc_par ct m B' Hct), row_exp. destruct Hen as (Hrow & Hst).
    destruct (fold_rot (steps_of par)) with (st := (ct, ct_zero par)) (m := m) (B' := B') as (st & -> & H1 & H2); [|exact Hct|exact zero_any|].
    - rewrite Forall_forall in Hst |- *. intros i Hi. split; [apply (steps_step isp cands Ho par G i Hi)|apply Hst, Hi].
    - cbn [bind]. destruct (rot_add_enc _ st _ _ Hrow H1 H2) as (st' & -> & H3 & _). cbn [bind]. eexists. split; [reflexivity|]. destruct (steps_eq isp cands Ho par G) as (K & HK & EN & Est).
      rewrite Est in H3 at 2. rewrite map_length, seq_length in H3. assert (EZ : Z.of_nat N = 2 * 2 ^ Z.of_nat (K - 1)) by (rewrite EN, nat_pow2_Z, <- Z.pow_succ_r by lia; f_equal; lia). rewrite EZ.
      replace (2 * 2 ^ Z.of_nat (K - 1) * (B' + 2 + D) - 2 - D) with (2 * (2 ^ Z.of_nat (K - 1) * (B' + 2 + D) - 2 - D) + 2 + D) by ring. exact H3.
  Qed.
  Theorem sum_refused ct m B' : enc ct m B' -> ~ sums_enabled -> computes_inner_sum ek ct = Err EkUnsupported.
  Proof.
    intros Hct Hen. unfold computes_inner_sum. rewrite (validate_enc ct m B' Hct). cbn [bind]. destruct supports_sum as (b & -> & Hb). cbn [bind]. destruct b; [|reflexivity]. exfalso. apply Hen, Hb. reflexivity.
  Qed.
End Keys.
Set Default Proof Using "Type".
