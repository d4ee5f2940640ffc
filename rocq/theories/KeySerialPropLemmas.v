(** Closing lemmas for the property about the serialization of keys. *)
From Verif Require Import Outcome BasicSpec OutcomeLemmas ZqModel ZqProofs NumTheory NttModel PolySpec PolyRing NttPure NttStages NttProofs CbdModel CbdSpec CbdProofs.
From Verif Require Import TranscodeModel TranscodeProofs PrimesModel RnsModel RnsSpec RnsProofs RqModel RqSpec RqCtx RqRows RqProofs RingRn RqOps RqIO RqPropLemmas ParamsModel BfvSpec ParamsProofs BuildProofs ParamsPropLemmas PlainModel CipherModel OpsModel SchemeSpec CipherSpec PlainProofs RnPoly CipherProofs EncryptProofs CipherPropLemmas LinearPropLemmas SerialPropLemmas KeysModel KeysSpec KeysProofs KeySwitchProofs KeyNoiseProofs KeyOpsProofs KeyPropLemmas EvalSpec EvalKeyProofs EvalOpsProofs EvalExpandProofs EvalPropLemmas RgswSpec RgswPropLemmas WireSpec WireProofs WireKeysProofs WireOpsProofs WirePropLemmas.
From Coq Require Import Znumtheory Permutation.
Set Default Proof Using "Type".

(** The flags and the second halves of new keys. *)
Definition made (expand : expander) (derive : deriver) (sd : seed) (k : ksk) : Prop :=
  k_seed k = Some sd /\ generate_c1 expand derive (k_ctx k) sd (length (k_c1 k)) = Val (k_c1 k) /\ Forall (fun p => p_vt p = true) (k_c0 k).
Lemma mapM_len {A B} (f : A -> M B) l : forall r, mapM f l = Val r -> length r = length l.
Proof. induction l as [|a l IH]; intros r; cbn [mapM]; [intros E; injection E as <-; reflexivity|]. intros E. apply bind_inv in E. destruct E as (b & _ & E). apply bind_inv in E. destruct E as (bs & Eb & E). injection E as <-. cbn [length]. f_equal. apply IH, Eb. Qed.
Lemma mapM_all {A B} (f : A -> M B) (Q : B -> Prop) l : (forall a b, f a = Val b -> Q b) -> forall r, mapM f l = Val r -> Forall Q r.
Proof. intros H. induction l as [|a l IH]; intros r; cbn [mapM]; [intros E; injection E as <-; constructor|]. intros E. apply bind_inv in E. destruct E as (b & Eb & E). apply bind_inv in E. destruct E as (bs & Ebs & E). injection E as <-. constructor; [exact (H _ _ Eb)|apply IH, Ebs]. Qed.
Lemma pb_shoup_vt p q : pb_into_ntt_shoup p = Val q -> p_vt q = p_vt p.
Proof. unfold pb_into_ntt_shoup. intros E. apply bind_inv in E. destruct E as (rows & _ & E). apply bind_inv in E. destruct E as (sh & _ & E). unfold from_parts in E. cbn [p_shoup bind] in E. injection E as <-. reflexivity. Qed.
Lemma entry_vt v s from rng c1i g b : ksk_entry v s from rng c1i g = Val b -> p_vt b = true.
Proof.
  unfold ksk_entry. intros E. do 7 (apply bind_inv in E; destruct E as (? & _ & E)). apply pb_shoup_vt in E. exact E.
Qed.
Lemma c0_vt sk from c1 rngs c0 : generate_c0 sk from c1 rngs = Val c0 -> Forall (fun p => p_vt p = true) c0.
Proof.
  unfold generate_c0. destruct c1 as [|c10 c1]; [discriminate|]. intros E. do 3 (apply bind_inv in E; destruct E as (? & _ & E)). revert E. apply mapM_all. intros a b E. apply bind_inv in E. destruct E as (g & _ & E). apply entry_vt in E. exact E.
Qed.
Lemma c0_decomposition_vt sk from c1 rngs lb c0 : generate_c0_decomposition sk from c1 rngs lb = Val c0 -> Forall (fun p => p_vt p = true) c0.
Proof.
  unfold generate_c0_decomposition. destruct c1 as [|c10 c1]; [discriminate|]. intros E. apply bind_inv in E; destruct E as (? & _ & E). revert E. apply mapM_all. intros a b E. apply bind_inv in E. destruct E as (g & _ & E). apply entry_vt in E. exact E.
Qed.
Lemma made_of expand derive c sd n c0 c1 par l1 cc l2 lb : generate_c1 expand derive c sd n = Val c1 -> Forall (fun p => p_vt p = true) c0 -> made expand derive sd (mkKsk par (Some sd) c0 c1 l1 cc l2 c lb).
Proof.
  intros E F. split; [reflexivity|]. split; [|exact F]. cbn [k_ctx k_c1]. assert (L : length c1 = n) by (unfold generate_c1 in E; apply mapM_len in E; rewrite seq_length in E; exact E). rewrite L. exact E.
Qed.
Lemma ksk_new_made expand derive sk from l1 l2 sd rngs k : ksk_new expand derive sk from l1 l2 sd rngs = Val k -> made expand derive sd k.
Proof.
  unfold ksk_new. cbv zeta. intros E. apply bind_inv in E. destruct E as (c & _ & E). apply bind_inv in E. destruct E as (cc & _ & E). destruct (negb (ctx_eqb (p_ctx from) c)); [discriminate|].
  assert (G0 : forall n, bind (generate_c1 expand derive c sd n) (fun c1 => bind (generate_c0 sk from c1 rngs) (fun c0 => Val (mkKsk (sk_par sk) (Some sd) c0 c1 l1 cc l2 c 0))) = Val k -> made expand derive sd k).
  { intros n E'. apply bind_inv in E'. destruct E' as (c1 & E1 & E'). apply bind_inv in E'. destruct E' as (c0 & E0 & E'). injection E' as <-. eapply made_of; [exact E1|]. eapply c0_vt, E0. }
  destruct (c_moduli c) as [|q [|q' qs]]; [exact (G0 _ E)| |exact (G0 _ E)].
  apply bind_inv in E. destruct E as (lm & _ & E). apply bind_inv in E. destruct E as (n & _ & E). apply bind_inv in E. destruct E as (c1 & E1 & E). apply bind_inv in E. destruct E as (c0 & E0 & E). injection E as <-. eapply made_of; [exact E1|]. eapply c0_decomposition_vt, E0.
Qed.
Lemma relin_new_made expand derive sk l1 l2 sd rngs k : relin_new expand derive sk l1 l2 sd rngs = Val k -> made expand derive sd k.
Proof.
  unfold relin_new. intros E. do 2 (apply bind_inv in E; destruct E as (? & _ & E)). match type of E with (if ?b then _ else _) = _ => destruct b; [discriminate|] end. do 5 (apply bind_inv in E; destruct E as (? & _ & E)). apply ksk_new_made in E. exact E.
Qed.
Lemma galois_new_made expand derive sk e l1 l2 sd rngs g : galois_new expand derive sk e l1 l2 sd rngs = Val g -> made expand derive sd (g_ksk g).
Proof. unfold galois_new. intros E. do 7 (apply bind_inv in E; destruct E as (? & _ & E)). apply bind_inv in E. destruct E as (k & Ek & E). injection E as <-. apply ksk_new_made in Ek. exact Ek. Qed.
Lemma rgsw_new_made expand derive sk pt sd0 sd1 rngs0 rngs1 r : rgsw_encrypt expand derive sk pt sd0 sd1 rngs0 rngs1 = Val r -> made expand derive sd0 (r_ksk0 r) /\ made expand derive sd1 (r_ksk1 r).
Proof. unfold rgsw_encrypt. intros E. do 7 (apply bind_inv in E; destruct E as (? & _ & E)). apply bind_inv in E. destruct E as (k0 & E0 & E). apply bind_inv in E. destruct E as (k1 & E1 & E). injection E as <-. split; [apply ksk_new_made in E0; exact E0|apply ksk_new_made in E1; exact E1]. Qed.

Section Good.
  Context (isp : Z -> bool) (cands : Z -> list Z) (Ho : oracles isp cands) (par : params) (G : good_params isp cands par).
  Notation N := (pa_degree par).
  Set Default Proof Using "All".
  (** New keys have the shape of keys. *)
  Lemma made_shape expand derive sd sk l1 l2 k f B : length sd = 32%nat -> (l1 <= max_level par)%nat -> (l2 <= max_level par)%nat -> is_ksk par sk l1 l2 k f B -> k_log_base k = key_base par l2 -> made expand derive sd k -> key_shape par l1 l2 k.
  Proof.
    intros Lsd H1 H2 (E1 & E2 & E3 & E4 & E5 & Hlev & _ & gs & bs & xs & Hg & F0 & F1 & L0 & L1 & _) Eb (Es & Ec1 & Fv).
    assert (Hbase : 0 <= k_log_base k < 2 ^ 32 /\ (k_log_base k <> 0 -> l1 = max_level par /\ l2 = max_level par) /\ Z.of_nat (length gs) = key_count par l1 (k_log_base k)).
    { unfold key_count. destruct Hg as [(E0 & W)|(Hb & q & Eq & ->)].
      - rewrite E0. cbn [Z.eqb]. destruct W as (W & _). split; [lia|]. split; [intros H; contradiction|lia].
      - assert (k_log_base k <> 0) by lia. destruct Hlev as [Hlev|Hlev]; [contradiction|]. assert (Em : l1 = max_level par) by (apply (single_iff isp cands par l1 G H1); rewrite Eq; reflexivity). split; [lia|]. split; [intros _; lia|].
        destruct (Z.eqb_spec (k_log_base k) 0) as [Ez|Ez]; [contradiction|]. unfold digit_weights. rewrite map_length, seq_length. destruct (hd_moduli isp cands Ho par G) as (q' & qs & Eqs & Hq). assert (q = q') by (unfold level_moduli in Eq; rewrite Eqs in Eq; destruct (length (q' :: qs) - l1)%nat; [discriminate|]; cbn [firstn] in Eq; injection Eq as <- _; reflexivity). subst q'. rewrite Eqs. cbn [hd].
        rewrite Z2Nat.id; [reflexivity|]. unfold digit_count. apply Z.div_pos; [|lia]. pose proof (Z.log2_up_nonneg q). lia. }
    destruct Hbase as (Hb & Hd & Hn). apply Forall2_len2 in F0 as L0'. apply Forall2_len2 in F1 as L1'.
    assert (HF : forall ps ys, Forall2 (@is_poly NttShoup par l2) ps ys -> Forall (fun p => p_vt p = true) ps -> Forall (fun p => p_vt p = true /\ exists x, is_poly par l2 p x) ps).
    { intros ps ys H. induction H as [|p y ps ys Hp H IH]; intros Hv; constructor; inversion Hv; subst; eauto. }
    split; [exact E1|]. split; [exact E2|]. split; [exact E3|]. split; [exact H1|]. split; [exact H2|]. split; [exact E4|]. split; [exact E5|]. split; [exact Hb|]. split; [exact Hd|]. split; [rewrite <- Hn; lia|]. split; [rewrite <- Hn; lia|].
    split; [exact (HF _ _ F0 Fv)|]. split; [|intros s' H; rewrite Es in H; injection H as <-; exact Lsd]. apply (HF _ _ F1). revert Ec1. apply mapM_all. intros i b E. apply bind_inv in E. destruct E as (a & _ & E). injection E as <-. reflexivity.
  Qed.
  Lemma made_faithful expand derive sd k : made expand derive sd k -> key_faithful expand derive k.
  Proof.
    intros (Es & Ec & _) sd' E. rewrite Es in E. injection E as <-. revert Ec. unfold generate_c1. generalize (k_c1 k) at 2 4 as ps. generalize (length (k_c1 k)) as n. generalize 0%nat as i.
    intros i n. revert i. induction n as [|n IH]; intros i ps; cbn [seq mapM]; [intros E; injection E as <-; constructor|]. intros E. apply bind_inv in E. destruct E as (b & Eb & E). apply bind_inv in E. destruct E as (bs & Ebs & E). injection E as <-. constructor; [|apply IH; exact Ebs].
    apply bind_inv in Eb. destruct Eb as (a & Ea & Eb). injection Eb as <-. cbn [allow_vt p_coeffs]. apply seed_coeffs in Ea. exact Ea.
  Qed.

  Context (Hser : serializable par) (expand : expander) (Hx : expands_well expand) (derive : deriver).
  Lemma level_small l : (l <= max_level par)%nat -> Z.of_nat l mod W32 = Z.of_nat l.
  Proof. intros Hl. destruct (at_level_ex isp cands par l Ho G Hl) as (lv & c & A). apply (level_w32 isp cands Ho par G l lv c A Hser). Qed.
  Lemma shoup_coeffs_eq c v v' (x y : Rn N) : p_coeffs (P NttShoup c v x) = p_coeffs (P NttShoup c v' y) -> P NttShoup c v x = P NttShoup c v y.
  Proof.
    unfold P, poly_of. cbn [p_coeffs]. intros E. assert (Es : map (fun op => shoup_row op (row NttShoup op (rl x))) (c_ops c) = map (fun op => shoup_row op (row NttShoup op (rl y))) (c_ops c)).
    { apply map_ext_in. intros op Hop. pose proof (ext_in_map E op Hop) as E1. cbv beta in E1. rewrite E1. reflexivity. }
    rewrite E, Es. reflexivity.
  Qed.
  Lemma to_proto_shoups l lv c (A : at_level isp cands par l lv c) (vxs : list (bool * Rn N)) : exists ms, mapM poly_to_proto (shoups c vxs) = Val ms /\ length ms = length vxs /\ 
    mapM (fun b => poly_from_proto NttShoup b c false) ms = Val (map (fun vx => P NttShoup c false (snd vx)) vxs).
  Proof.
    pose proof (good_ok _ (al_good _ _ _ _ _ _ A)) as Hc. pose proof (al_deg _ _ _ _ _ _ A) as HN.
    induction vxs as [|(v & x) vxs (ms & E1 & E2 & E3)]; [exists []; repeat split; reflexivity|].
    destruct (proto_eq c Hc ltac:(rewrite HN; apply Hser) (par_count isp cands Ho par G l lv c A Hser) NttShoup v (rl x) ltac:(rewrite HN; apply rl_length)) as (m & F1 & _ & _ & _ & F2 & _).
    exists (m :: ms). cbn [shoups map mapM fst snd]. fold (shoups c vxs). unfold P at 1. rewrite F1. cbn [bind]. rewrite E1. split; [reflexivity|]. split; [cbn [length]; congruence|].
    rewrite F2. cbn [bind]. rewrite E3. reflexivity.
  Qed.
  Lemma seeded_c1 l lv c (A : at_level isp cands par l lv c) sd (xs : list (Rn N)) : forall i, Forall2 (fun i p => p_coeffs p = expand (derive sd i) (c_moduli c) (c_degree c)) (seq i (length xs)) (shoups c (map (pair true) xs)) ->
    mapM (fun i => a <- poly_from_seed expand NttShoup c (derive sd i) ;; Val (allow_vt a)) (seq i (length xs)) = Val (shoups c (map (pair true) xs)).
  Proof.
    pose proof (good_ok _ (al_good _ _ _ _ _ _ A)) as Hc. pose proof (al_deg _ _ _ _ _ _ A) as HN.
    induction xs as [|x xs IH]; intros i H; cbn [length seq mapM]; [reflexivity|]. cbn [length seq map shoups] in H. inversion H as [|? ? ? ? Hp Hr]; subst. cbn [fst snd] in Hp. destruct (P_seed c Hc N HN NttShoup expand (derive sd i) Hx) as (a & Ea). rewrite Ea. cbn [bind]. rewrite (IH (S i) Hr). cbn [bind map shoups fst snd]. do 2 f_equal.
    rewrite P_allow. apply (shoup_coeffs_eq c true true). apply seed_coeffs in Ea. rewrite Hp, <- Ea. reflexivity.
  Qed.
  Theorem ksk_roundtrip l1 l2 k : key_shape par l1 l2 k -> key_faithful expand derive k -> exists m, ksk_to_proto k = Val m /\ ksk_from_proto expand derive m par = Val k.
  Proof.
    intros Hk Hf. destruct (shape_read_ksk isp cands Ho par G l1 l2 k Hk) as (lv1 & c1 & lv2 & c2 & A1 & A2 & (sd & x0 & x1 & lb & -> & L0 & L1 & Hb & Hd & Hsd)).
    pose proof (at_level_bound isp cands par _ _ _ G A1) as Hl1. pose proof (at_level_bound isp cands par _ _ _ G A2) as Hl2.
    destruct (to_proto_shoups l2 lv2 c2 A2 (map (pair true) x0)) as (m0 & F0 & Lm0 & R0). destruct (to_proto_shoups l2 lv2 c2 A2 (map (pair true) x1)) as (m1 & F1 & Lm1 & R1). rewrite map_length in Lm0, Lm1.
    assert (Hal : forall xs : list (Rn N), map allow_vt (map (fun vx : bool * Rn N => P NttShoup c2 false (snd vx)) (map (pair true) xs)) = shoups c2 (map (pair true) xs)) by (intros xs; unfold shoups; rewrite !map_map; apply map_ext; intros x; apply P_allow).
    assert (Hsize : (if negb (lb =? 0) then if negb (Nat.eqb l2 (max_level par)) || negb (Nat.eqb l1 (max_level par)) then Err InvalidKskDecompositionLevels
             else q <- unwrap (nth_error (pa_moduli par) 0) ;; lm <- log_modulus q ;; div_ceilM lm lb else Val (len (c_moduli c1))) = Val (key_count par l1 lb)).
    { unfold key_count. destruct (Z.eqb_spec lb 0) as [E0|E0]; cbn [negb]; [unfold len; rewrite (al_mod _ _ _ _ _ _ A1); reflexivity|]. destruct (Hd E0) as (-> & ->). rewrite Nat.eqb_refl. cbn [negb orb]. destruct (hd_moduli isp cands Ho par G) as (q & qs & Eq & Hq). rewrite Eq. cbn [nth_error unwrap bind hd]. rewrite log_modulus_eq by lia. cbn [bind]. rewrite div_ceilM_eq by lia. reflexivity. }
    unfold ksk_to_proto. cbn [k_seed k_c0 k_c1 k_ct_level k_level k_log_base]. rewrite F0, (level_small l1 Hl1), (level_small l2 Hl2), (Z.mod_small lb W32) by (assert (W32 = 2 ^ 32) by reflexivity; lia).
    destruct sd as [s|].
    - eexists. split; [reflexivity|]. specialize (Hsd s eq_refl). specialize (Hf s eq_refl). unfold ksk_from_proto. cbn [kp_ct_level kp_level kp_c0 kp_c1 kp_seed kp_log_base]. rewrite !Nat2Z.id, (al_par_context isp cands par l2 lv2 c2 A2), (al_par_context isp cands par l1 lv1 c1 A1). cbn [bind]. rewrite Hsize. cbn [bind].
      replace (len m0) with (key_count par l1 lb) by (unfold len; lia). rewrite Z.eqb_refl. cbn [negb]. replace (Nat.eqb (length s) 0) with false by (rewrite Hsd; reflexivity). replace (len s =? 32) with true by (unfold len; rewrite Hsd; reflexivity). cbn [bind].
      assert (Ec : generate_c1 expand derive c2 s (length m0) = Val (shoups c2 (map (pair true) x1))).
      { unfold generate_c1. replace (length m0) with (length x1) by lia. apply (seeded_c1 l2 lv2 c2 A2 s x1 0%nat). cbn [k_c1 k_ctx] in Hf. unfold shoups in Hf at 1. rewrite !map_length in Hf. exact Hf. }
      rewrite Ec. cbn [bind]. rewrite R0. cbn [bind]. rewrite Hal. do 2 f_equal. unfold shoups. rewrite !map_map. apply map_ext. intros x. apply P_allow.
    - rewrite F1. eexists. split; [reflexivity|]. unfold ksk_from_proto. cbn [kp_ct_level kp_level kp_c0 kp_c1 kp_seed kp_log_base length Nat.eqb]. rewrite !Nat2Z.id, (al_par_context isp cands par l2 lv2 c2 A2), (al_par_context isp cands par l1 lv1 c1 A1). cbn [bind]. rewrite Hsize. cbn [bind].
      replace (len m0) with (key_count par l1 lb) by (unfold len; lia). replace (len m1) with (key_count par l1 lb) by (unfold len; lia). rewrite Z.eqb_refl. cbn [negb bind]. rewrite R1. cbn [bind]. rewrite R0. cbn [bind]. rewrite !Hal. reflexivity.
  Qed.
  Theorem galois_roundtrip l1 l2 g : gk_shape par l1 l2 g -> key_faithful expand derive (g_ksk g) -> exists m, galois_to_proto g = Val m /\ galois_from_proto expand derive m par = Val g.
  Proof.
    intros (Hk & c & e & Ec & He & Hodd & Es) Hf. destruct (ksk_roundtrip l1 l2 _ Hk Hf) as (m & E1 & E2). pose proof Hk as (_ & El & _ & Hl & _). destruct (at_level_ex isp cands par l1 Ho G Hl) as (lv & c1 & A). rewrite (al_par_context isp cands par l1 lv c1 A) in Ec. injection Ec as <-.
    pose proof (N31 isp cands Ho par G) as HN. pose proof (al_deg _ _ _ _ _ _ A) as Hd. rewrite <- Hd in HN. pose proof (good_ok _ (al_good _ _ _ _ _ _ A)) as Hc. pose proof (al_N8 isp cands par l1 lv c1 A) as H8. rewrite <- Hd in H8.
    destruct (subst_new_ok c1 e Hc HN He Hodd) as (i & Ei & _ & Hi). rewrite Es in Ei. injection Ei as <-. pose proof (so_exp _ _ _ Hi) as Ee. pose proof (so_range _ _ _ Hi) as Hr.
    unfold galois_to_proto. rewrite E1. cbn [bind]. eexists. split; [reflexivity|]. unfold galois_from_proto. cbn [gkp_ksk gkp_exponent]. rewrite E2. cbn [bind]. rewrite El, (al_par_context isp cands par l1 lv c1 A). cbn [bind].
    rewrite (Z.mod_small _ W32) by (rewrite Ee; assert (W32 = 2 ^ 32) by reflexivity; lia). rewrite Ee.
    assert (Hsame : subst_new c1 (e mod (2 * Z.of_nat (c_degree c1))) = subst_new c1 e).
    { unfold subst_new. cbv zeta. unfold chk64. rewrite !bind_chk by (assert (W64 = 2 ^ 64) by reflexivity; lia). rewrite Z.mod_mod by lia. reflexivity. }
    rewrite Hsame, Es. cbn [bind]. destruct g; reflexivity.
  Qed.
End Good.

(** *** Maps *)
Lemma lookup_In {X} (l : list (Z * X)) : NoDup (map fst l) -> forall e g, lookup l e = Some g <-> In (e, g) l.
Proof.
  induction l as [|(y, b) l IH]; intros Hn e g; cbn [lookup map fst] in *; [split; [discriminate|intros []]|]. inversion Hn as [|? ? Hy Hl]; subst. destruct (Z.eqb_spec y e) as [->|Hne].
  - split; [intros E; injection E as ->; left; reflexivity|]. intros [H|H]; [injection H as ->; reflexivity|]. exfalso. apply Hy. apply (in_map fst) in H. exact H.
  - rewrite (IH Hl). split; [intros H; right; exact H|]. intros [H|H]; [injection H as -> ->; contradiction|exact H].
Qed.
Lemma lookup_perm {X} (l l' : list (Z * X)) : NoDup (map fst l) -> Permutation l l' -> forall e, lookup l' e = lookup l e.
Proof.
  intros Hn Hp e. assert (Hn' : NoDup (map fst l')) by (eapply Permutation_NoDup; [apply Permutation_map; exact Hp|exact Hn]).
  destruct (lookup l e) as [g|] eqn:E.
  - apply (lookup_In l' Hn'). apply (Permutation_in _ Hp). apply (lookup_In l Hn). exact E.
  - destruct (lookup l' e) as [g'|] eqn:E'; [|reflexivity]. apply (lookup_In l' Hn') in E'. apply Permutation_sym in Hp. apply (Permutation_in _ Hp) in E'. apply (lookup_In l Hn) in E'. congruence.
Qed.
Lemma insert_keys {X} (l : list (Z * X)) x a : NoDup (map fst l) -> NoDup (map fst (insert l x a)).
Proof.
  intros Hn. assert (Hk : forall y, In y (map fst (insert l x a)) <-> y = x \/ In y (map fst l)).
  { clear Hn. induction l as [|(y, b) l IH]; intros z; cbn [insert map fst In]; [split; [intros [H|[]]; left; congruence|intros [H|[]]; left; congruence]|]. destruct (Z.eqb_spec y x) as [->|Hne]; cbn [map fst In]; [split; [intros [H|H]; auto|intros [H|[H|H]]; auto]|]. rewrite IH. tauto. }
  induction l as [|(y, b) l IH]; cbn [insert map fst]; [constructor; [intros []|constructor]|]. inversion Hn as [|? ? Hy Hl]; subst. destruct (Z.eqb_spec y x) as [->|Hne]; cbn [map fst]; [constructor; assumption|]. constructor; [|apply IH; [exact Hl|]].
  - intros H. specialize (Hk y). cbn [insert map fst In] in Hk. destruct (Z.eqb_spec y x) as [E|_]; [contradiction|]. cbn [map fst In] in Hk. assert (Hi : In y (map fst (insert l x a)) -> y = x \/ In y (map fst l)). { clear. induction l as [|(z, b) l IH]; cbn [insert map fst In]; [intros [H|[]]; left; congruence|]. destruct (Z.eqb_spec z x) as [->|Hne]; cbn [map fst In]; [intros [H|H]; auto|]. intros [H|H]; [auto|]. apply IH in H. tauto. }
    apply Hi in H. destruct H as [H|H]; contradiction.
  - intros z. clear. induction l as [|(y, b) l IH]; cbn [insert map fst In]; [split; [intros [H|[]]; left; congruence|intros [H|[]]; left; congruence]|]. destruct (Z.eqb_spec y x) as [->|Hne]; cbn [map fst In]; [split; [intros [H|H]; auto|intros [H|[H|H]]; auto]|]. rewrite IH. tauto.
Qed.
Lemma foldM_inv {A S} (f : S -> A -> M S) (I : S -> Prop) l : (forall s a s', I s -> f s a = Val s' -> I s') -> forall s r, I s -> foldM f l s = Val r -> I r.
Proof. intros H. induction l as [|a l IH]; intros s r Hs E; cbn [foldM] in E; [injection E as <-; exact Hs|]. apply bind_inv in E. destruct E as (s' & E' & E). exact (IH _ _ (H _ _ _ Hs E') E). Qed.

Definition ek_made (expand : expander) (derive : deriver) (sds : Z -> seed) (ek : eval_key) : Prop :=
  NoDup (map fst (ek_gk ek)) /\ (exists c, par_context (ek_par ek) (ek_ct_level ek) = Val c /\ expansion_monomials (ek_par ek) c = Val (ek_monomials ek)) /\ forall e g, lookup (ek_gk ek) e = Some g -> made expand derive (sds e) (g_ksk g).
Lemma ek_build_made expand derive b sds rngs ek : ek_build expand derive b sds rngs = Val ek -> ek_made expand derive sds ek.
Proof.
  unfold ek_build. cbv zeta. intros E. apply bind_inv in E. destruct E as (ix & _ & E). apply bind_inv in E. destruct E as (ix' & _ & E). apply bind_inv in E. destruct E as (c & Ec & E). apply bind_inv in E. destruct E as (ms & Em & E). apply bind_inv in E. destruct E as (gk & Eg & E). injection E as <-.
  apply (foldM_inv _ (fun m => NoDup (map fst m) /\ forall e g, lookup m e = Some g -> made expand derive (sds e) (g_ksk g))) in Eg; [|clear|split; [constructor|intros e g H; discriminate]].
  - destruct Eg as (Hn & Hg). split; [exact Hn|]. split; [exists c; split; [exact Ec|exact Em]|exact Hg].
  - intros m e m' (Hn & Hg) E. apply bind_inv in E. destruct E as (g & Eg & E). injection E as <-. split; [apply insert_keys, Hn|]. intros e' g' H. rewrite lookup_insert in H. destruct (Z.eqb_spec e e') as [->|Hne]; [|apply Hg, H]. injection H as <-. apply galois_new_made in Eg. exact Eg.
Qed.

(** What the code writes fits the fields of the message. *)
Lemma proto_wire c (Hc : ctx_ok c) : Z.of_nat (c_degree c) < 2 ^ 32 -> Z.of_nat (length (c_moduli c)) < 2 ^ 29 -> forall R v x m, length x = c_degree c -> poly_to_proto (poly_of R c v x) = Val m -> wire_rq m.
Proof.
  intros Hdeg Hcnt R v x m Hx E. unfold poly_to_proto in E. cbn [p_lazy poly_of negb] in E. rewrite bind_guard in E by reflexivity. rewrite (into_pb_eq c Hc R v x Hx) in E. cbn [bind p_coeffs poly_of p_ctx] in E. unfold wire_rq, is_u32.
  assert (Hops : forall op, In op (c_ops c) -> In op (c_ops c)) by auto. rewrite (co_q c Hc) in E. revert E. revert Hops. generalize (c_ops c) at 1 3 4 as ops. intros ops Hops E. apply bind_inv in E. destruct E as (bs & E & Em). injection Em as <-. cbn [rq_coeffs rq_degree]. split; [|apply Z.mod_pos_bound; reflexivity].
  revert bs E. induction ops as [|op ops IH]; intros bs E; cbn [map map2M] in E; [injection E as <-; constructor|]. apply bind_inv in E. destruct E as (b & Eb & E). apply bind_inv in E. destruct E as (bs' & Ebs & E). injection E as <-. cbn [concat]. apply Forall_app. split; [|apply IH; [intros; apply Hops; right; assumption|exact Ebs]].
  destruct (op_ok c Hc op (Hops op (or_introl eq_refl))) as (K & w & Hok & Hs). pose proof (ok_m _ _ _ Hok) as Hm. pose proof (row_length op K w Hok PowerBasis x ltac:(congruence)) as L. rewrite Hs in L.
  destruct (valid_fields _ Hm) as (Hp & _). destruct (pbits_spec _ Hp) as (Hw & Hpw). pose proof (row_canonical op K w Hok PowerBasis x ltac:(congruence)) as Hcan. unfold serialize_vec in Eb.
  destruct (transcode_to_bytes_spec (row PowerBasis op x) (64 - leading_zeros64 (mod_p (nt_p op) - 1)) ltac:(lia)) as (b' & E & H & _).
  - eapply Forall_impl; [|exact Hcan]. cbn beta. lia.
  - unfold len. rewrite L. change W64 with (2 ^ 32 * 2 ^ 32). nia.
  - rewrite Eb in E. injection E as <-. exact H.
Qed.

Set Default Proof Using "Type".
Section Props.
  Context (isp : Z -> bool) (cands : Z -> list Z) (par : params).
  Notation N := (pa_degree par).
  Notation t := (pa_t par).

  Theorem sk_roundtrip_all : forall sk, is_sk par sk -> sk_from_proto (sk_to_proto sk) par = Val sk.
  Proof. intros [p cs] (E & L & _). cbn [sk_par sk_coeffs] in *. subst p. unfold sk_to_proto. cbn [sk_coeffs]. apply (sk_read_all par). exact L. Qed.
  Theorem pk_roundtrip_all : oracles isp cands -> is_params isp cands par -> serializable par -> forall expand, expands_well expand -> forall sk, is_sk par sk -> forall sd rng, length sd = 32%nat -> words rng ->
    exists pk m, pk_new expand sk sd rng = Val pk /\ pk_to_proto pk = Val m /\ pk_from_proto expand m par = Val pk.
  Proof.
    intros Ho Hp Hser expand Hx sk (Esk & Ls & Hi) sd rng Lsd Hw. pose proof (params_good isp cands par Ho Hp) as G. destruct (at_level_ex isp cands par 0 Ho G (Nat.le_0_l _)) as (lv & c & A).
    destruct (pk_new_P isp cands par Ho G expand sk Ls sd rng lv c A Hx Hw Esk Hi) as (a & Ea & b & E & _).
    destruct (roundtrip_some isp cands Ho par G 0 lv c A Hser expand sd [(false, b)] false a a Lsd (le_n _) Ea) as (m & E1 & E2). eexists _, (Some m). split; [exact E|]. unfold pk_to_proto. cbn [pk_c]. cbn [app] in E1. match goal with |- context [ct_to_proto ?x] => change (ct_to_proto x) with (ct_to_proto (mkCt par (Some sd) (parts c [(false, b); (false, a)]) 0)) end. rewrite E1. cbn [bind]. split; [reflexivity|].
    unfold pk_from_proto. rewrite E2. cbn [bind ct_level Nat.eqb negb]. unfold map_polys. cbn [ct_par ct_seed ct_c ct_level]. reflexivity.
  Qed.
  (** Any key that a message can hold survives, whatever its content. *)
  Theorem ksk_roundtrip_all : oracles isp cands -> is_params isp cands par -> serializable par -> forall expand derive, expands_well expand -> forall l1 l2 k, key_shape par l1 l2 k -> key_faithful expand derive k ->
    exists m, ksk_to_proto k = Val m /\ ksk_from_proto expand derive m par = Val k.
  Proof. intros Ho Hp Hser expand derive Hx l1 l2 k. apply (ksk_roundtrip isp cands Ho par (params_good isp cands par Ho Hp) Hser expand Hx derive). Qed.
  Theorem ksk_new_roundtrip_all : oracles isp cands -> is_params isp cands par -> serializable par -> forall expand derive, expands_well expand -> forall sk, is_sk par sk ->
    forall l1 l2, (l1 <= max_level par)%nat -> (l2 <= max_level par)%nat -> (l1 = l2 \/ l2 < max_level par)%nat ->
    forall (from : poly PowerBasis) f sd rngs, is_poly par l2 from f -> length sd = 32%nat -> (forall i, words (rngs i)) ->
    exists k m, ksk_new expand derive sk from l1 l2 sd rngs = Val k /\ key_shape par l1 l2 k /\ base_fits k /\ ksk_to_proto k = Val m /\ ksk_from_proto expand derive m par = Val k.
  Proof.
    intros Ho Hp Hser expand derive Hx sk Hsk l1 l2 H1 H2 Hl from f sd rngs Hf Lsd Hr. pose proof (params_good isp cands par Ho Hp) as G. destruct (ksk_new_all isp cands par Ho Hp expand derive Hx sk Hsk l1 l2 H1 H2 Hl from f sd rngs Hf Hr) as (k & Ek & HK & Eb).
    pose proof (ksk_new_made _ _ _ _ _ _ _ _ _ Ek) as Hm. pose proof (made_shape isp cands Ho par G expand derive sd sk l1 l2 k f _ Lsd H1 H2 HK Eb Hm) as Hs.
    destruct (ksk_roundtrip_all Ho Hp Hser expand derive Hx l1 l2 k Hs (made_faithful isp cands Ho par G expand derive sd k Hm)) as (m & E1 & E2). exists k, m. split; [exact Ek|]. split; [exact Hs|]. split; [|split; assumption].
    destruct HK as (_ & _ & _ & _ & _ & _ & _ & gs & _ & _ & [(E0 & _)|(E0 & _)] & _); unfold base_fits; lia.
  Qed.
  Lemma relin_above_new : oracles isp cands -> is_params isp cands par -> supported par -> forall expand derive, expands_well expand -> forall sk, is_sk par sk -> forall l1 l2, (l1 < l2)%nat -> (l2 < max_level par)%nat ->
    forall sd rngs, (forall i, words (rngs i)) -> exists k f, relin_new expand derive sk l1 l2 sd rngs = Val k /\ is_ksk par sk l1 l2 k f (2 * pa_variance par) /\ k_log_base k = key_base par l2.
  Proof.
    intros Ho Hp Hsup expand derive Hx sk (Esk & Ls & Hi) l1 l2 Hlt Hmax sd rngs Hr. pose proof (params_good isp cands par Ho Hp) as G. assert (Hl1 : (l1 <= max_level par)%nat) by lia. assert (Hl2 : (l2 <= max_level par)%nat) by lia.
    destruct (at_level_ex isp cands par l1 Ho G Hl1) as (lv1 & c1 & A1). destruct (at_level_ex isp cands par l2 Ho G Hl2) as (lv2 & c2 & A2). pose proof (single_iff isp cands par l2 G Hl2) as Hs. pose proof (gp_var _ _ _ G) as Hv.
    pose proof (good_ok _ (al_good _ _ _ _ _ _ A1)) as Hc1. pose proof (good_ok _ (al_good _ _ _ _ _ _ A2)) as Hc2. pose proof (al_deg _ _ _ _ _ _ A1) as Hd1. pose proof (al_deg _ _ _ _ _ _ A2) as Hd2. pose proof (al_mod _ _ _ _ _ _ A1) as Hm1. pose proof (al_mod _ _ _ _ _ _ A2) as Hm2.
    pose proof (Qpos isp cands Ho par G l1 lv1 c1 A1) as HQ1. pose proof (Qpos isp cands Ho par G l2 lv2 c2 A2) as HQ2. pose proof (level_supported isp cands Ho par G l1 lv1 c1 A1 Hsup) as (Hs1 & Hs2).
    assert (B1 : built isp cands c1) by (eexists _, _; exact (al_new _ _ _ _ _ _ A1)). assert (B2 : built isp cands c2) by (eexists _, _; exact (al_new _ _ _ _ _ _ A2)).
    pose proof (built_same_ops isp cands c1 c2 B1 B2 ltac:(congruence)) as Hops. set (s := mkR (sk_coeffs sk) Ls).
    set (Q1 := prod_list (level_moduli (pa_moduli par) l1)) in *. set (Q2 := prod_list (level_moduli (pa_moduli par) l2)) in *.
    assert (Ef : factor_new Q2 Q1 = Val (mkFactor Q2 Q1 (Q2 =? Q1))) by (unfold factor_new; replace (Q1 =? 0) with false by (symmetry; apply Z.eqb_neq; lia); reflexivity).
    destruct (poly_scale_eq c1 c2 Hc1 Hc2 ltac:(congruence) Hops Q2 Q1 (mkFactor Q2 Q1 (Q2 =? Q1))) as (sw & Es & Hsw).
    { rewrite Hm1. lia. } { lia. } { lia. } { exact Ef. } { right. rewrite Hm1. pose proof (load_bound Q2 _ (level_range isp cands Ho par G l1 lv1 c1 A1)) as Hlb. fold Q1 in Hlb. lia. }
    destruct (Hsw PowerBasis (false && false) (rl (s * s)%R) ltac:(discriminate) ltac:(rewrite rl_length; congruence)) as (y & Ly & _ & Ey). assert (Ly' : length y = N) by congruence.
    destruct (ksk_new_R isp cands Ho par G l1 lv1 c1 A1 l2 lv2 c2 A2 expand derive sk Ls (false && false) (mkR y Ly') sd rngs Hx Esk Hi Hr) as (k & Ek & HK). { intros H1. apply Hs in H1. lia. }
    exists k, (rl (mkR y Ly')). split.
    - unfold relin_new. rewrite Esk, (al_par_context isp cands par l2 lv2 c2 A2), (al_par_context isp cands par l1 lv1 c1 A1). cbn [bind]. rewrite Hm2. replace (length (level_moduli (pa_moduli par) l2) =? 1)%nat with false by (symmetry; apply Nat.eqb_neq; rewrite Hs; lia).
      rewrite (sk_poly_eq isp cands Ho par G l1 lv1 c1 A1 sk Ls Hi). cbn [bind]. rewrite (P_mul c1 Hc1 N Hd1). cbn [bind]. rewrite (P_ntt_pb c1 Hc1 N Hd1). cbn [bind].
      unfold switcher_new. rewrite (gr_product _ (co_rns _ Hc1)), (gr_product _ (co_rns _ Hc2)), (co_u64 _ Hc1), (co_u64 _ Hc2), Hm1, Hm2. fold Q1 Q2. rewrite Ef. cbn [bind]. rewrite Es. cbn [bind]. fold s. unfold P at 1. rewrite Ey. cbn [bind]. exact Ek.
    - apply (R_is_ksk isp cands Ho par G l1 lv1 c1 A1 l2 lv2 c2 A2 sk Ls); [lia|exact HK].
  Qed.
  Theorem relin_roundtrip_all : oracles isp cands -> is_params isp cands par -> supported par -> serializable par -> forall expand derive, expands_well expand -> forall sk, is_sk par sk ->
    forall l1 l2, (l1 <= max_level par)%nat -> (l2 < max_level par)%nat -> forall sd rngs, length sd = 32%nat -> (forall i, words (rngs i)) ->
    exists k m, relin_new expand derive sk l1 l2 sd rngs = Val k /\ key_shape par l1 l2 k /\ base_fits k /\ relin_to_proto k = Val m /\ relin_from_proto expand derive m par = Val k.
  Proof.
    intros Ho Hp Hsup Hser expand derive Hx sk Hsk l1 l2 H1 H2 sd rngs Lsd Hr. pose proof (params_good isp cands par Ho Hp) as G.
    assert (HK : exists k f, relin_new expand derive sk l1 l2 sd rngs = Val k /\ is_ksk par sk l1 l2 k f (2 * pa_variance par) /\ k_log_base k = key_base par l2).
    { destruct (le_lt_dec l2 l1) as [Hle|Hlt]; [|apply relin_above_new; assumption]. destruct (proj1 (relin_new_all isp cands par Ho Hp expand derive Hx sk Hsk l1 l2 H1 Hle sd rngs Hr) H2) as (k & Ek & Eb & HK). eexists k, _. split; [exact Ek|]. split; [exact HK|]. rewrite Eb. unfold key_base. pose proof (single_iff isp cands par l2 G ltac:(lia)) as Hs.
      destruct (level_moduli (pa_moduli par) l2) as [|q [|q' qs]]; try reflexivity. destruct Hs as (Hs & _). specialize (Hs eq_refl). lia. }
    destruct HK as (k & f & Ek & HK & Eb). pose proof (relin_new_made _ _ _ _ _ _ _ _ Ek) as Hm. pose proof (made_shape isp cands Ho par G expand derive sd sk l1 l2 k f _ Lsd H1 ltac:(lia) HK Eb Hm) as Hs.
    destruct (ksk_roundtrip_all Ho Hp Hser expand derive Hx l1 l2 k Hs (made_faithful isp cands Ho par G expand derive sd k Hm)) as (m & E1 & E2). exists k, (Some m). split; [exact Ek|]. split; [exact Hs|]. unfold relin_to_proto, relin_from_proto. rewrite E1. split; [|split; [reflexivity|exact E2]].
    destruct HK as (_ & _ & _ & _ & _ & _ & _ & gs & _ & _ & [(E0 & _)|(E0 & _)] & _); unfold base_fits; lia.
  Qed.
  Lemma is_gk_shape expand derive sd sk l1 l2 e g B : oracles isp cands -> is_params isp cands par -> length sd = 32%nat -> (l1 <= max_level par)%nat -> (l2 <= max_level par)%nat -> 0 <= e < 2 * Z.of_nat N -> Z.odd e = true -> is_gk par sk l1 l2 e g B -> made expand derive sd (g_ksk g) ->
    gk_shape par l1 l2 g /\ se_exponent (g_element g) = e /\ base_fits (g_ksk g).
  Proof.
    intros Ho Hp Lsd H1 H2 He Hodd ((c & Ec & Es) & Eb & HK) Hm. pose proof (params_good isp cands par Ho Hp) as G. pose proof (made_shape isp cands Ho par G expand derive sd sk l1 l2 _ _ _ Lsd H1 H2 HK Eb Hm) as Hs.
    split; [split; [exact Hs|]; exists c, e; repeat split; try assumption; lia|]. split.
    - destruct (at_level_ex isp cands par l1 Ho G H1) as (lv & c1 & A). rewrite (al_par_context isp cands par l1 lv c1 A) in Ec. injection Ec as <-. pose proof (N31 isp cands Ho par G) as HN. pose proof (al_deg _ _ _ _ _ _ A) as Hd. rewrite <- Hd in HN, He.
      destruct (subst_new_ok c1 e (good_ok _ (al_good _ _ _ _ _ _ A)) HN (proj1 He) Hodd) as (i & Ei & _ & Hi). rewrite Es in Ei. injection Ei as <-. rewrite (so_exp _ _ _ Hi). apply Z.mod_small. exact He.
    - destruct HK as (_ & _ & _ & _ & _ & _ & _ & gs & _ & _ & [(E0 & _)|(E0 & _)] & _); unfold base_fits; lia.
  Qed.
  Theorem galois_roundtrip_all : oracles isp cands -> is_params isp cands par -> serializable par -> forall expand derive, expands_well expand -> forall sk, is_sk par sk ->
    forall l1 l2, (l1 <= max_level par)%nat -> (l2 <= l1)%nat -> forall e sd rngs, 0 <= e < 2 * Z.of_nat N -> Z.odd e = true -> length sd = 32%nat -> (forall i, words (rngs i)) ->
    exists g m, galois_new expand derive sk e l1 l2 sd rngs = Val g /\ gk_shape par l1 l2 g /\ base_fits (g_ksk g) /\ galois_to_proto g = Val m /\ galois_from_proto expand derive m par = Val g.
  Proof.
    intros Ho Hp Hser expand derive Hx sk Hsk l1 l2 H1 H2 e sd rngs He Hodd Lsd Hr. pose proof (params_good isp cands par Ho Hp) as G. destruct (galois_new_all isp cands par Ho Hp expand derive Hx sk Hsk l1 l2 H1 H2 e sd rngs He Hodd Hr) as (g & Eg & HG).
    pose proof (galois_new_made _ _ _ _ _ _ _ _ _ Eg) as Hm. destruct (is_gk_shape expand derive sd sk l1 l2 e g _ Ho Hp Lsd H1 ltac:(lia) He Hodd HG Hm) as (Hs & _ & Hb).
    destruct (galois_roundtrip isp cands Ho par G Hser expand Hx derive l1 l2 g Hs (made_faithful isp cands Ho par G expand derive sd _ Hm)) as (m & E1 & E2). exists g, m. repeat (split; [assumption|]). exact E2.
  Qed.
  Theorem rgsw_roundtrip_all : oracles isp cands -> is_params isp cands par -> serializable par -> forall expand derive, expands_well expand -> forall sk, is_sk par sk -> forall l, (l <= max_level par)%nat ->
    forall pt m, is_pt par l pt m -> forall sd0 sd1 rngs0 rngs1, length sd0 = 32%nat -> length sd1 = 32%nat -> (forall i, words (rngs0 i)) -> (forall i, words (rngs1 i)) ->
    exists r msg, rgsw_encrypt expand derive sk pt sd0 sd1 rngs0 rngs1 = Val r /\ rgsw_shape par l r /\ base_fits (r_ksk0 r) /\ base_fits (r_ksk1 r) /\ rgsw_to_proto r = Val msg /\ rgsw_from_proto expand derive msg par = Val r.
  Proof.
    intros Ho Hp Hser expand derive Hx sk Hsk l Hl pt m Hpt sd0 sd1 rngs0 rngs1 L0 L1 Hr0 Hr1. pose proof (params_good isp cands par Ho Hp) as G. destruct (rgsw_new_all isp cands par Ho Hp expand derive Hx sk Hsk l Hl pt m Hpt sd0 sd1 rngs0 rngs1 Hr0 Hr1) as (r & Er & (K0 & K1) & B0 & B1).
    destruct (rgsw_new_made _ _ _ _ _ _ _ _ _ Er) as (M0 & M1). pose proof (made_shape isp cands Ho par G expand derive sd0 sk l l _ _ _ L0 Hl Hl K0 B0 M0) as S0. pose proof (made_shape isp cands Ho par G expand derive sd1 sk l l _ _ _ L1 Hl Hl K1 B1 M1) as S1.
    destruct (ksk_roundtrip_all Ho Hp Hser expand derive Hx l l _ S0 (made_faithful isp cands Ho par G expand derive sd0 _ M0)) as (m0 & E0 & F0). destruct (ksk_roundtrip_all Ho Hp Hser expand derive Hx l l _ S1 (made_faithful isp cands Ho par G expand derive sd1 _ M1)) as (m1 & E1 & F1).
    exists r, (mkRp (Some m0) (Some m1)). split; [exact Er|]. split; [split; assumption|].
    split; [destruct K0 as (_ & _ & _ & _ & _ & _ & _ & gs & _ & _ & [(Z0 & _)|(Z0 & _)] & _); unfold base_fits; lia|]. split; [destruct K1 as (_ & _ & _ & _ & _ & _ & _ & gs & _ & _ & [(Z0 & _)|(Z0 & _)] & _); unfold base_fits; lia|].
    unfold rgsw_to_proto. rewrite E0. cbn [bind]. rewrite E1. split; [reflexivity|]. unfold rgsw_from_proto. cbn [rp_ksk0 rp_ksk1 ok_or bind]. rewrite F0. cbn [bind]. rewrite F1. cbn [bind]. pose proof S0 as (_ & -> & -> & _). pose proof S1 as (_ & -> & -> & _). rewrite Nat.eqb_refl. cbn [negb orb]. destruct r; reflexivity.
  Qed.
  Theorem ek_roundtrip_all : oracles isp cands -> is_params isp cands par -> serializable par -> forall expand derive, expands_well expand -> forall sk, is_sk par sk -> forall l1 l2, (l1 <= max_level par)%nat -> (l2 <= l1)%nat ->
    forall b cols sds rngs, is_ekb par sk l1 l2 b cols -> (forall e, length (sds e) = 32%nat) -> (forall e i, words (rngs e i)) ->
    exists ek m, ek_build expand derive b sds rngs = Val ek /\ ek_shape par l1 ek /\ ek_fits ek /\ ek_to_proto ek = Val m /\
      forall gs, Permutation gs (ep_gk m) -> exists ek', ek_from_proto expand derive (mkEp gs (ep_ct_level m) (ep_level m)) par = Val ek' /\ same_ek ek' ek.
  Proof.
    intros Ho Hp Hser expand derive Hx sk Hsk l1 l2 H1 H2 b cols sds rngs Hb Lsd Hr. pose proof (params_good isp cands par Ho Hp) as G.
    destruct (build_all isp cands par Ho Hp expand derive Hx sk Hsk l1 l2 H1 H2 b cols sds rngs Hb Hr) as (ek & Eek & (E1 & E2 & E3 & Hrot & Hmon & Hes & Hgk) & Hprop). destruct (ek_build_made _ _ _ _ _ _ Eek) as (Hn & (c & Ec & Em) & Hmade).
    assert (Hk : forall e g, lookup (ek_gk ek) e = Some g -> gk_shape par l1 l2 g /\ se_exponent (g_element g) = e /\ base_fits (g_ksk g)).
    { intros e g Hlk. assert (He : asked N b cols e) by (apply Hes; congruence). destruct (Hprop e He) as (Hr1 & Hodd). apply (is_gk_shape expand derive (sds e) sk l1 l2 e g (2 * pa_variance par) Ho Hp (Lsd e) H1 ltac:(lia) Hr1 Hodd (Hgk e g Hlk) (Hmade e g Hlk)). }
    assert (Hms : exists ms, mapM (fun eg => galois_to_proto (snd eg)) (ek_gk ek) = Val ms /\ Forall2 (fun gm eg => galois_from_proto expand derive gm par = Val (snd eg)) ms (ek_gk ek)).
    { assert (HI : forall e g, In (e, g) (ek_gk ek) -> gk_shape par l1 l2 g /\ key_faithful expand derive (g_ksk g)).
      { intros e g Hin. apply (lookup_In _ Hn) in Hin. split; [apply (Hk e g Hin)|apply (made_faithful isp cands Ho par G expand derive (sds e)), (Hmade e g Hin)]. }
      clear -HI Ho G Hser Hx. induction (ek_gk ek) as [|(e, g) l IH]; [exists []; split; [reflexivity|constructor]|]. destruct IH as (ms & Ems & F); [intros e' g' H; apply (HI e' g'); right; exact H|]. destruct (HI e g (or_introl eq_refl)) as (Hs & Hf).
      destruct (galois_roundtrip isp cands Ho par G Hser expand Hx derive l1 l2 g Hs Hf) as (m & F1 & F2). exists (m :: ms). cbn [mapM snd]. rewrite F1. cbn [bind]. rewrite Ems. split; [reflexivity|]. constructor; [exact F2|exact F]. }
    destruct Hms as (ms & Ems & F). exists ek, (mkEp ms (Z.of_nat l1) (Z.of_nat l2)). split; [exact Eek|].
    split. { split; [exact E1|]. split; [exact E2|]. split; [exact H1|]. split; [exact Hrot|]. split; [exact Hmon|]. intros e g Hlk. destruct (Hk e g Hlk) as (Hs & He & _). rewrite E3. split; assumption. }
    split. { intros e g Hlk. apply (Hk e g Hlk). }
    split. { unfold ek_to_proto. rewrite Ems. cbn [bind]. rewrite E2, E3, (level_small isp cands Ho par G Hser expand Hx derive l1 H1), (level_small isp cands Ho par G Hser expand Hx derive l2 ltac:(lia)). reflexivity. }
    intros gs Hperm. cbn [ep_gk ep_ct_level ep_level] in *. apply Permutation_sym in Hperm. destruct (Permutation_Forall2 Hperm F) as (L & HL & FL).
    assert (HnL : NoDup (map fst L)) by (eapply Permutation_NoDup; [apply Permutation_map; exact HL|exact Hn]).
    assert (HLk : forall e g, In (e, g) L -> se_exponent (g_element g) = e /\ k_ct_level (g_ksk g) = l1 /\ k_level (g_ksk g) = l2).
    { intros e g Hin. apply (Permutation_in _ (Permutation_sym HL)) in Hin. apply (lookup_In _ Hn) in Hin. destruct (Hk e g Hin) as ((Hs & _) & He & _). destruct Hs as (_ & F1 & F2 & _). repeat split; assumption. }
    assert (Hfold : forall acc, exists gk, foldM (fun acc gm =>
      g <- galois_from_proto expand derive gm par ;;
      let k := g_ksk g in
      if negb (Z.of_nat (k_ct_level k) =? Z.of_nat l1) then Err (InvalidLevel (Z.of_nat (k_ct_level k)) (Z.of_nat l1) (Z.of_nat l1))
      else if negb (Z.of_nat (k_level k) =? Z.of_nat l2) then Err (InvalidLevel (Z.of_nat (k_level k)) (Z.of_nat l2) (Z.of_nat l2))
      else Val (insert acc (se_exponent (g_element g)) g)) gs acc = Val gk /\ forall e, lookup gk e = match lookup L e with Some g => Some g | None => lookup acc e end).
    { clear -FL HnL HLk. induction FL as [|gm (e, g) gs L Hg FL IH]; intros acc; cbn [foldM]; [exists acc; split; [reflexivity|intros e; reflexivity]|]. cbn [snd] in Hg. rewrite Hg. cbn [bind]. destruct (HLk e g (or_introl eq_refl)) as (He & -> & ->). rewrite !Z.eqb_refl. cbn [negb bind]. rewrite He.
      cbn [map fst] in HnL. inversion HnL as [|? ? Hni HnL']; subst. destruct (IH HnL' (fun e' g' H => HLk e' g' (or_intror H)) (insert acc (se_exponent (g_element g)) g)) as (gk & Egk & Hgk). exists gk. split; [exact Egk|]. intros e'. rewrite Hgk. cbn [lookup]. rewrite lookup_insert. destruct (Z.eqb_spec (se_exponent (g_element g)) e') as [<-|Hne]; [|reflexivity].
      destruct (lookup L (se_exponent (g_element g))) as [g'|] eqn:El; [|reflexivity]. exfalso. apply Hni. apply (lookup_In _ HnL') in El. apply (in_map fst) in El. exact El. }
    destruct (Hfold []) as (gk & Egk & Hlk). destruct (rot_table isp cands Ho par G) as (rot & Erot & Hrot').
    exists (mkEk par l1 l2 gk rot (ek_monomials ek)). split.
    - unfold ek_from_proto. cbn [ep_gk ep_ct_level ep_level]. cbv zeta in Egk |- *. rewrite Egk. cbn [bind]. rewrite !Nat2Z.id. rewrite E1, E2 in Ec. rewrite Ec. cbn [bind]. rewrite E1 in Em. rewrite Em. cbn [bind]. rewrite Erot. reflexivity.
    - split; [symmetry; exact E1|]. split; [symmetry; exact E2|]. split; [symmetry; exact E3|]. split; [reflexivity|]. cbn [ek_gk ek_rot]. split.
      + intros e. rewrite Hlk. cbn [lookup]. rewrite <- (lookup_perm _ _ Hn HL e). destruct (lookup L e); reflexivity.
      + intros i. destruct (lookup rot i) as [e|] eqn:Ei; destruct (lookup (ek_rot ek) i) as [e'|] eqn:Ei'; try reflexivity.
        * apply Hrot' in Ei. apply Hrot in Ei'. destruct Ei as (_ & ->). destruct Ei' as (_ & ->). reflexivity.
        * apply Hrot' in Ei. apply Hrot in Ei. congruence.
        * apply Hrot in Ei'. apply Hrot' in Ei'. congruence.
  Qed.

  (** *** A size of digits of 64 bits or more: accepted, and every use panics *)
  Theorem wide_base_panics : forall k, ~ base_fits k -> 0 <= k_log_base k -> (exists q qs, c_moduli (k_ct_ctx k) = q :: qs /\ 2 <= q < W62) ->
    forall p : poly PowerBasis, p_ctx p = k_ct_ctx k -> key_switch k p = Panic.
  Proof.
    intros k Hb H0 (q & qs & Eq & Hq) p Ep. unfold base_fits in Hb. unfold key_switch. destruct (Z.eqb_spec (k_log_base k) 0) as [E|E]; [lia|]. cbn [negb]. unfold key_switch_decomposition. rewrite Ep, Eq.
    assert (Hr : ctx_eqb (k_ct_ctx k) (k_ct_ctx k) = true) by (apply ctx_eqb_true; split; reflexivity). rewrite Hr. cbn [negb nth_error unwrap bind]. rewrite log_modulus_eq by lia. cbn [bind]. unfold chk. destruct (Z.ltb_spec (k_log_base k) 64); [lia|]. rewrite andb_false_r. reflexivity.
  Qed.
  Theorem wide_base_all : oracles isp cands -> is_params isp cands par -> serializable par -> forall expand derive, expands_well expand -> forall b, 64 <= b < 2 ^ 32 ->
    exists m k, wire_ksk m /\ relin_from_proto expand derive (Some m) par = Val k /\ key_shape par (max_level par) (max_level par) k /\ k_log_base k = b /\
      forall ct x0 x1 x2, is_ct par (max_level par) ct [x0; x1; x2] -> relinearizes k ct = Panic.
  Proof.
    intros Ho Hp Hser expand derive Hx b Hb. pose proof (params_good isp cands par Ho Hp) as G. set (l := max_level par). destruct (at_level_ex isp cands par l Ho G (le_n _)) as (lv & c & A). pose proof (good_ok _ (al_good _ _ _ _ _ _ A)) as Hc. pose proof (al_deg _ _ _ _ _ _ A) as Hd.
    destruct (hd_moduli isp cands Ho par G) as (q & qs & Eq & Hq).
    assert (Hcount : key_count par l b = 1). { unfold key_count. destruct (Z.eqb_spec b 0); [lia|]. rewrite Eq. cbn [hd]. unfold digit_count. assert (Hlog : 0 < Z.log2_up q <= 62) by (split; [apply Z.log2_up_pos; lia|]; apply Z.log2_up_le_pow2; [lia|]; change (2 ^ 62) with W62; lia). symmetry. apply (Z.div_unique _ b 1 (Z.log2_up q - 1)); lia. }
    destruct (generate_c1_P c Hc N Hd expand derive (repeat 0 32) 1 Hx) as (xs & Lx & Ec1).
    set (k := mkKsk par (Some (repeat 0 32)) (shoups c (map (pair true) [r0 N])) (shoups c (map (pair true) xs)) l c l c b).
    assert (HK : read_ksk par l c l c k). { exists (Some (repeat 0 32)), [r0 N], xs, b. split; [reflexivity|]. rewrite Hcount, Lx. split; [reflexivity|]. split; [reflexivity|]. split; [lia|]. split; [intros _; split; reflexivity|]. intros s E. injection E as <-. reflexivity. }
    pose proof (read_ksk_shape isp cands Ho par G l lv c l lv c k A A HK) as Hs.
    assert (Hmd : made expand derive (repeat 0 32) k). { split; [reflexivity|]. split; [|constructor; [reflexivity|constructor]]. cbn [k k_ctx k_c1]. unfold shoups at 1. rewrite !map_length, Lx. exact Ec1. }
    destruct (ksk_roundtrip_all Ho Hp Hser expand derive Hx l l k Hs (made_faithful isp cands Ho par G expand derive _ k Hmd)) as (m & E1 & E2). exists m, k.
    split. { unfold k, ksk_to_proto in E1. cbn [k_seed k_c0 k_ct_level k_level k_log_base bind] in E1. apply bind_inv in E1. destruct E1 as (m0 & Em0 & E1). injection E1 as <-. unfold wire_ksk. cbn [kp_c0 kp_c1 kp_ct_level kp_level kp_log_base].
      split; [|split; [constructor|]; split; [|split]; apply Z.mod_pos_bound; reflexivity].
      cbn [shoups map fst snd mapM] in Em0. apply bind_inv in Em0. destruct Em0 as (mm & Emm & Em0). cbn [bind] in Em0. injection Em0 as <-. constructor; [|constructor].
      apply (proto_wire c Hc ltac:(rewrite Hd; apply Hser) (par_count isp cands Ho par G l lv c A Hser) NttShoup true (rl (r0 N)) mm ltac:(rewrite Hd; apply rl_length) Emm). }
    split; [exact E2|]. split; [exact Hs|]. split; [reflexivity|]. intros ct x0 x1 x2 Hct. destruct (ct_parts isp cands Ho par G l lv c A ct _ Hct) as (vxs & Ect & Exs). rewrite Ect.
    destruct vxs as [|(v0, y0) [|(v1, y1) [|(v2, y2) [|]]]]; try discriminate. unfold relinearizes. cbn [k_par k]. rewrite (ct_validate_eq isp cands Ho par G l lv c A) by (cbn [length]; lia). cbn [bind ct_c parts map fst snd ct_level k_ct_level]. rewrite Nat.eqb_refl. cbn [negb]. rewrite (P_ntt_pb c Hc N Hd). cbn [bind].
    rewrite wide_base_panics; [reflexivity|unfold base_fits; cbn [k k_log_base]; lia|cbn [k k_log_base]; lia| |apply P_ctx]. cbn [k k_ct_ctx]. rewrite (al_mod _ _ _ _ _ _ A).
    exists q, []. split; [|exact Hq]. pose proof (proj2 (single_iff isp cands par l G (le_n _)) eq_refl) as H1. unfold level_moduli in H1 |- *. rewrite Eq in H1 |- *. destruct (length (q :: qs) - l)%nat; [discriminate|]. cbn [firstn length] in H1 |- *. destruct (firstn n qs); [reflexivity|discriminate].
  Qed.

  (** Any number of parts from two up is accepted for a public key. *)
  Theorem pk_extra_all : oracles isp cands -> is_params isp cands par -> serializable par -> forall expand n, (2 <= n)%nat -> exists m pk, pk_from_proto expand (Some m) par = Val pk /\ length (cp_c m) = n /\ length (ct_c (pk_c pk)) = n.
  Proof.
    intros Ho Hp Hser expand n Hn. pose proof (params_good isp cands par Ho Hp) as G. destruct (at_level_ex isp cands par 0 Ho G (Nat.le_0_l _)) as (lv & c & A).
    destruct (roundtrip_none isp cands Ho par G 0 lv c A Hser expand (repeat (false, r0 N) n) ltac:(rewrite repeat_length; exact Hn)) as (m & E1 & E2). exists m. unfold pk_from_proto. rewrite E2. cbn [bind ct_level Nat.eqb negb]. eexists. split; [reflexivity|].
    split; [|cbn [pk_c map_polys ct_c]; unfold parts; rewrite !map_length, repeat_length; reflexivity]. unfold ct_to_proto in E1. cbn [ct_c ct_seed ct_level] in E1.
    assert (Em : mapM poly_to_proto (parts c (repeat (false, r0 N) n)) = Val (cp_c m)). { destruct (parts c (repeat (false, r0 N) n)) as [|p ps] eqn:Eps; [exfalso; apply (f_equal (@length _)) in Eps; unfold parts in Eps; rewrite map_length, repeat_length in Eps; cbn [length] in Eps; lia|]. apply bind_inv in E1. destruct E1 as (ms & Ems & E1). injection E1 as <-. exact Ems. }
    apply mapM_len in Em. rewrite Em. unfold parts. rewrite map_length, repeat_length. reflexivity.
  Qed.
End Props.
