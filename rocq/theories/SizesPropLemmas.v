(** Closing lemmas for the property about the sizes of byte strings. *)
From Verif Require Import Outcome BasicSpec OutcomeLemmas ZqModel ZqProofs NumTheory NttModel PolySpec PolyRing NttPure NttStages NttProofs CbdModel CbdSpec CbdProofs.
From Verif Require Import TranscodeModel PrimesModel RnsModel RnsSpec RnsProofs RqModel RqSpec RqCtx RqRows RqProofs RingRn RqOps RqIO RqPropLemmas ParamsModel BfvSpec ParamsProofs BuildProofs ParamsPropLemmas PlainModel CipherModel OpsModel SchemeSpec CipherSpec PlainProofs RnPoly CipherProofs EncryptProofs CipherPropLemmas LinearPropLemmas SerialPropLemmas MulPropLemmas CtDot DotPropLemmas KeysModel KeysSpec KeysProofs KeySwitchProofs KeyNoiseProofs KeyOpsProofs KeyPropLemmas EvalSpec EvalKeyProofs EvalOpsProofs EvalExpandProofs RgswPropLemmas WireSpec WireProofs WireKeysProofs WireOpsProofs WirePropLemmas ReachSpec ShapeProofs ReachProofs.
From Coq Require Import Znumtheory.
From Coq Require Import Permutation.
From Verif Require Import RgswSpec WireSpec WireProofs WirePropLemmas KeySerialPropLemmas ReachSpec ReachPropLemmas BytesModel BytesSpec BytesProofs BytesMessages BytesReadProofs BytesParams.

From Verif Require Import TranscodeProofs EvalPropLemmas EvalSumProofs SizesSpec SizesProofs.

Theorem poly_size_all : forall isp cands, oracles isp cands -> forall c, is_context isp cands c -> Z.of_nat (c_degree c) < 2 ^ 32 -> Z.of_nat (length (c_moduli c)) < 2 ^ 29 ->
  forall R (p : poly R), p_ctx p = c -> well_formed p -> exists b, poly_to_bytes p = Val b /\ len b = poly_size (c_degree c) (c_moduli c).
Proof.
  intros isp cands Ho c Hc HN Hk R p Ep Hw. destruct (ctx_of isp cands c Ho Hc) as (_ & Hok). destruct (wf_exists c Hok p Ep Hw) as (x & Lx & _ & E). destruct (poly_len c Hok HN Hk R (p_vt p) x Lx) as (m & E1 & E2 & _). exists (rq_encode m). split; [|exact E2]. unfold poly_to_bytes. rewrite E, E1. reflexivity.
Qed.

Section Props.
  Context (isp : Z -> bool) (cands : Z -> list Z) (par : params).
  Notation N := (pa_degree par).
  Set Default Proof Using "Type".
  (** ** Ciphertexts *)
  Lemma ct_polys l ct xs : is_ct par l ct xs -> Forall (fun p => exists x, is_poly par l p x) (ct_c ct).
  Proof. intros (_ & _ & H). induction H as [|p x ps xs Hp _ IH]; constructor; [exists x; exact Hp|exact IH]. Qed.
  Lemma any_ct_len : oracles isp cands -> is_params isp cands par -> serializable par -> forall ct, any_ct par ct -> ct_seed_ok ct -> (ct_seed ct <> None -> (1 <= length (ct_c ct))%nat) ->
    exists b, ct_to_bytes ct = Val b /\ len b = ct_size par (ct_level ct) (length (ct_c ct)) (is_some (ct_seed ct)).
  Proof.
    intros Ho Hp Hser ct (l & n & Hl & xs & Hct & _) Hs Hne. pose proof Hct as (_ & El & _). destruct (ct_wire_len isp cands Ho par (params_good isp cands par Ho Hp) Hser ct l El Hl (ct_polys l ct xs Hct) Hs Hne) as (w & E & L). exists (put_fields (ct_fields w)). unfold ct_to_bytes. rewrite E, El. split; [reflexivity|exact L].
  Qed.
  Theorem ct_size_all : oracles isp cands -> is_params isp cands par -> serializable par -> forall expand, expands_well expand -> forall ct, reach isp cands expand par ct ->
    exists b, ct_to_bytes ct = Val b /\ len b = ct_size par (ct_level ct) (length (ct_c ct)) (is_some (ct_seed ct)).
  Proof.
    intros Ho Hp Hser expand Hx ct H. destruct (reach_all isp cands par Ho Hp Hser expand Hx ct H) as (Ha & Hf & Hs). apply any_ct_len; try assumption; [intros sd E; exact (proj1 (Hf sd E))|intros E; rewrite (Hs E); lia].
  Qed.
  Lemma encrypts_any sk l ct m B : (l <= max_level par)%nat -> encrypts par sk l ct m B -> any_ct par ct /\ ct_level ct = l.
  Proof. intros Hl (xs & e & Hct & _). split; [exists l, (length xs); split; [exact Hl|]; exists xs; split; [exact Hct|reflexivity]|]. apply Hct. Qed.
  Theorem sk_encrypt_size_all : oracles isp cands -> is_params isp cands par -> serializable par -> forall l, (l <= max_level par)%nat -> pa_t par <= level_modulus par l ->
    forall expand sk sd rng pt m, expands_well expand -> words rng -> is_sk par sk -> length sd = 32%nat -> is_pt par l pt m -> canonical (pa_t par) m ->
    exists ct b, sk_encrypt expand sk pt sd rng = Val ct /\ ct_to_bytes ct = Val b /\ len b = ct_size par l 2 true.
  Proof.
    intros Ho Hp Hser l Hl Ht expand sk sd rng pt m Hx Hw Hsk Lsd Hpt Hm. destruct (sk_encrypt_all isp cands par Ho Hp l Hl expand sk sd rng pt m Hx Hw Hsk Hpt Hm Ht) as (ct & E & He & Es & Lc). destruct (encrypts_any sk l ct m _ Hl He) as (Ha & El).
    destruct (any_ct_len Ho Hp Hser ct Ha) as (b & Eb & L); [intros sd' E'; congruence|intros _; lia|]. exists ct, b. split; [exact E|]. split; [exact Eb|]. rewrite L, El, Lc, Es. reflexivity.
  Qed.
  Theorem pk_encrypt_size_all : oracles isp cands -> is_params isp cands par -> serializable par -> forall l0 l, (l0 <= l)%nat -> (l <= max_level par)%nat -> pa_t par <= level_modulus par l ->
    forall sk pk B ru r1 r2 pt m, is_sk par sk -> is_pk par sk l0 pk B -> words ru -> words r1 -> words r2 -> is_pt par l pt m -> canonical (pa_t par) m ->
    exists ct b, pk_encrypt pk pt ru r1 r2 = Val ct /\ ct_to_bytes ct = Val b /\ len b = ct_size par l 2 false.
  Proof.
    intros Ho Hp Hser l0 l Hl0 Hl Ht sk pk B ru r1 r2 pt m Hsk Hpk W1 W2 W3 Hpt Hm. destruct (pk_encrypt_all isp cands par Ho Hp l0 l Hl0 Hl sk pk B ru r1 r2 pt m Hsk Hpk W1 W2 W3 Hpt Hm Ht) as (ct & E & Es & Lc & He). destruct (encrypts_any sk l ct m _ Hl He) as (Ha & El).
    destruct (any_ct_len Ho Hp Hser ct Ha) as (b & Eb & L); [intros sd' E'; congruence|intros E'; congruence|]. exists ct, b. split; [exact E|]. split; [exact Eb|]. rewrite L, El, Lc, Es. reflexivity.
  Qed.
  Lemma level_moduli_S l : (S l <= max_level par)%nat -> good_params isp cands par -> exists q, level_moduli (pa_moduli par) l = level_moduli (pa_moduli par) (S l) ++ [q] /\ In q (pa_moduli par).
  Proof.
    intros Hl G. assert (Hll : (S l < length (pa_moduli par))%nat). { destruct (gp_levels _ _ _ G) as (? & _ & E & _). unfold max_level in Hl. rewrite E in Hl. lia. }
    unfold level_moduli. remember (length (pa_moduli par) - S l)%nat as k eqn:Ek. replace (length (pa_moduli par) - l)%nat with (S k) by lia. assert (Hk : (k < length (pa_moduli par))%nat) by lia. clear Ek Hl Hll. revert k Hk. induction (pa_moduli par) as [|q qs IH]; intros k Hk; [cbn [length] in Hk; lia|].
    destruct k as [|k]; [exists q; split; [reflexivity|left; reflexivity]|]. cbn [length] in Hk. destruct (IH k ltac:(lia)) as (q' & E & Hi). exists q'. cbn [firstn app] in *. rewrite E. split; [reflexivity|right; exact Hi].
  Qed.
  Theorem switch_size_all : oracles isp cands -> is_params isp cands par -> forall l n (seeded : bool), (S l <= max_level par)%nat -> ((if seeded then 2 else 1) <= n)%nat -> ct_size par (S l) n seeded < ct_size par l n seeded.
  Proof.
    intros Ho Hp l n seeded Hl Hn. pose proof (params_good isp cands par Ho Hp) as G. destruct (level_moduli_S l Hl G) as (q & Eq & Hq). pose proof (gp_friendly _ _ _ G) as Hf. rewrite Forall_forall in Hf. destruct (Hf q Hq) as (Hpr & Hlt & Hmod).
    assert (H8 : 8 <= Z.of_nat N). { destruct (gp_deg _ _ _ G) as (K & HK & -> & _). rewrite Nat2Z.inj_pow. change (Z.of_nat 2) with 2. change 8 with (2 ^ 3). apply Z.pow_le_mono_r; lia. }
    assert (Hq17 : 17 <= q). { apply prime_ge_2 in Hpr. destruct (Z_lt_le_dec q (2 * Z.of_nat N)) as [H|H]; [rewrite Z.mod_small in Hmod by lia; lia|]. destruct (Z.eq_dec q (2 * Z.of_nat N)) as [->|]; [rewrite Z.mod_same in Hmod by lia; lia|lia]. }
    assert (Hb : 5 <= Z.log2_up q). { pose proof (Z.log2_up_le_mono 17 q Hq17) as H. change (Z.log2_up 17) with 5 in H. exact H. }
    assert (Hd : coeffs_size N (level_moduli (pa_moduli par) (S l)) + 5 <= coeffs_size N (level_moduli (pa_moduli par) l)).
    { unfold coeffs_size. rewrite Eq, map_app. rewrite EvalSumProofs.sum_of_app. cbn [map sum_of]. assert (5 <= Z.of_nat N * Z.log2_up q / 8) by (apply Z.div_le_lower_bound; nia). lia. }
    assert (Hps : level_poly_size par (S l) + 5 <= level_poly_size par l). { unfold level_poly_size, poly_size, part_size. pose proof (number_size_mono (coeffs_size N (level_moduli (pa_moduli par) (S l))) (coeffs_size N (level_moduli (pa_moduli par) l)) ltac:(lia)) as H. lia. }
    assert (Hpp : part_size (level_poly_size par (S l)) + 5 <= part_size (level_poly_size par l)). { unfold part_size. pose proof (number_size_mono (level_poly_size par (S l)) (level_poly_size par l) ltac:(lia)). lia. }
    assert (Hi : int_size (Z.of_nat (S l)) <= int_size (Z.of_nat l) + 2).
    { unfold int_size. rewrite (proj2 (Z.eqb_neq (Z.of_nat (S l)) 0)) by lia. destruct (Z.eqb_spec (Z.of_nat l) 0) as [E|E]; [rewrite number_size_small by lia; lia|]. assert (number_size (Z.of_nat (S l)) <= number_size (Z.of_nat l) + 1); [|lia]. unfold number_size.
      pose proof (Z.log2_succ_le (Z.of_nat l)) as H. replace (Z.succ (Z.of_nat l)) with (Z.of_nat (S l)) in H by lia. pose proof (Z.div_le_mono _ _ 7 ltac:(lia) H) as H2. pose proof (Z.div_le_mono (Z.succ (Z.log2 (Z.of_nat l))) (Z.log2 (Z.of_nat l) + 1 * 7) 7 ltac:(lia) ltac:(lia)) as H3. rewrite Z.div_add in H3 by lia. lia. }
    unfold ct_size. set (k := Z.of_nat (if seeded then n - 1 else n)). assert (1 <= k) by (subst k; destruct seeded; lia). nia.
  Qed.
  (** ** Public keys *)
  Theorem pk_size_all : oracles isp cands -> is_params isp cands par -> serializable par -> forall pk, pk_shape par pk -> ct_seed_ok (pk_c pk) ->
    exists b, pk_to_bytes pk = Val b /\ (fits b -> len b = part_size (ct_size par 0 (length (ct_c (pk_c pk))) (is_some (ct_seed (pk_c pk))))).
  Proof.
    intros Ho Hp Hser pk (_ & n & Hn & xs & Hct & Lx) Hs. pose proof Hct as (_ & El & HF). assert (Lc : length (ct_c (pk_c pk)) = n) by (rewrite <- Lx; exact (Forall2_len2 _ _ _ HF)).
    destruct (ct_wire_len isp cands Ho par (params_good isp cands par Ho Hp) Hser (pk_c pk) 0 El (Nat.le_0_l _) (ct_polys 0 _ xs Hct) Hs ltac:(intros _; lia)) as (w & E & L). unfold pk_to_bytes. rewrite E. cbn [bind]. eexists. split; [reflexivity|]. unfold pk_fields. cbn [option_map]. intros Hf. rewrite len_message; [rewrite L; reflexivity|lia|]. cbn [message_field put_fields flat_map] in Hf. exact (part_fits _ _ _ Hf).
  Qed.
  Theorem pk_new_size_all : oracles isp cands -> is_params isp cands par -> serializable par -> forall expand, expands_well expand -> forall sk, is_sk par sk -> forall sd rng, length sd = 32%nat -> words rng ->
    exists pk b, pk_new expand sk sd rng = Val pk /\ pk_to_bytes pk = Val b /\ (fits b -> len b = part_size (ct_size par 0 2 true)).
  Proof.
    intros Ho Hp Hser expand Hx sk Hsk sd rng Lsd Hw. destruct (pk_new_all isp cands par Ho Hp expand sk sd rng Hx Hw Hsk) as (pk & E & (Epar & L2 & xs & e & Hct & Hlx & _) & Es).
    destruct (pk_size_all Ho Hp Hser pk) as (b & Eb & Lb); [split; [exact Epar|]; exists (length xs); split; [exact Hlx|]; exists xs; split; [exact Hct|reflexivity]|intros sd' E'; congruence|]. exists pk, b. split; [exact E|]. split; [exact Eb|]. rewrite L2, Es in Lb. exact Lb.
  Qed.
  (** ** Key-switching keys *)
  Theorem relin_size_all : oracles isp cands -> is_params isp cands par -> serializable par -> forall l1 l2 k, key_shape par l1 l2 k ->
    exists b, relin_to_bytes k = Val b /\ (fits b -> len b = part_size (key_size par l1 l2 (k_log_base k) (is_some (k_seed k)))).
  Proof.
    intros Ho Hp Hser l1 l2 k Hk. destruct (ksk_wire_len isp cands Ho par (params_good isp cands par Ho Hp) Hser l1 l2 k Hk) as (w & E & L). unfold relin_to_bytes. rewrite E. cbn [bind]. eexists. split; [reflexivity|]. unfold relin_fields. cbn [option_map]. intros Hf. rewrite len_message; [rewrite L; reflexivity|lia|]. cbn [message_field put_fields flat_map] in Hf. exact (part_fits _ _ _ Hf).
  Qed.
  Theorem relin_new_size_all : oracles isp cands -> is_params isp cands par -> supported par -> serializable par -> forall expand derive, expands_well expand -> forall sk, is_sk par sk ->
    forall l1 l2, (l1 <= max_level par)%nat -> (l2 < max_level par)%nat -> forall sd rngs, length sd = 32%nat -> (forall i, words (rngs i)) ->
    exists k b, relin_new expand derive sk l1 l2 sd rngs = Val k /\ relin_to_bytes k = Val b /\ (fits b -> len b = part_size (key_size par l1 l2 0 true)).
  Proof.
    intros Ho Hp Hsup Hser expand derive Hx sk Hsk l1 l2 H1 H2 sd rngs Lsd Hr. pose proof (params_good isp cands par Ho Hp) as G.
    assert (H0 : key_base par l2 = 0). { unfold key_base. pose proof (single_iff isp cands par l2 G ltac:(lia)) as Hs. destruct (level_moduli (pa_moduli par) l2) as [|q [|q' qs]]; try reflexivity. destruct Hs as (Hs & _). specialize (Hs eq_refl). lia. }
    assert (HK : exists k f, relin_new expand derive sk l1 l2 sd rngs = Val k /\ is_ksk par sk l1 l2 k f (2 * pa_variance par) /\ k_log_base k = key_base par l2).
    { destruct (le_lt_dec l2 l1) as [Hle|Hlt]; [|apply (relin_above_new isp cands par); assumption]. destruct (proj1 (relin_new_all isp cands par Ho Hp expand derive Hx sk Hsk l1 l2 H1 Hle sd rngs Hr) H2) as (k & Ek & Eb & HK). eexists k, _. split; [exact Ek|]. split; [exact HK|]. rewrite Eb, H0. reflexivity. }
    destruct HK as (k & f & Ek & HK & Eb). pose proof (relin_new_made _ _ _ _ _ _ _ _ Ek) as Hm. pose proof (made_shape isp cands Ho par G expand derive sd sk l1 l2 k f _ Lsd H1 ltac:(lia) HK Eb Hm) as Hs.
    destruct (relin_size_all Ho Hp Hser l1 l2 k Hs) as (b & E & L). exists k, b. split; [exact Ek|]. split; [exact E|]. rewrite Eb, H0 in L. destruct Hm as (Es & _). rewrite Es in L. exact L.
  Qed.
  Lemma rgsw_len l r : oracles isp cands -> is_params isp cands par -> serializable par -> rgsw_shape par l r -> exists b, rgsw_to_bytes r = Val b /\
    (fits b -> len b = part_size (key_size par l l (k_log_base (r_ksk0 r)) (is_some (k_seed (r_ksk0 r)))) + part_size (key_size par l l (k_log_base (r_ksk1 r)) (is_some (k_seed (r_ksk1 r))))).
  Proof.
    intros Ho Hp Hser (H0 & H1). pose proof (params_good isp cands par Ho Hp) as G. destruct (ksk_wire_len isp cands Ho par G Hser l l _ H0) as (w0 & E0 & L0). destruct (ksk_wire_len isp cands Ho par G Hser l l _ H1) as (w1 & E1 & L1).
    unfold rgsw_to_bytes. rewrite E0. cbn [bind]. rewrite E1. cbn [bind]. eexists. split; [reflexivity|]. unfold rgsw_fields. cbn [fst snd option_map]. rewrite put_fields_app. intros Hf. destruct (fits_app _ _ Hf) as (Hf0 & Hf1). cbn [message_field put_fields flat_map] in Hf0, Hf1.
    rewrite len_app, !len_message; [rewrite L0, L1; reflexivity|lia|exact (part_fits _ _ _ Hf1)|lia|exact (part_fits _ _ _ Hf0)].
  Qed.
  Theorem rgsw_size_all : oracles isp cands -> is_params isp cands par -> serializable par -> forall l r, rgsw_shape par l r -> exists b, rgsw_to_bytes r = Val b /\
    (fits b -> len b = part_size (key_size par l l (k_log_base (r_ksk0 r)) (is_some (k_seed (r_ksk0 r)))) + part_size (key_size par l l (k_log_base (r_ksk1 r)) (is_some (k_seed (r_ksk1 r))))).
  Proof. intros Ho Hp Hser l r. apply rgsw_len; assumption. Qed.
  Theorem rgsw_new_size_all : oracles isp cands -> is_params isp cands par -> serializable par -> forall expand derive, expands_well expand -> forall sk, is_sk par sk -> forall l, (l <= max_level par)%nat ->
    forall pt m, is_pt par l pt m -> forall sd0 sd1 rngs0 rngs1, length sd0 = 32%nat -> length sd1 = 32%nat -> (forall i, words (rngs0 i)) -> (forall i, words (rngs1 i)) ->
    exists r b, rgsw_encrypt expand derive sk pt sd0 sd1 rngs0 rngs1 = Val r /\ rgsw_to_bytes r = Val b /\ (fits b -> len b = 2 * part_size (key_size par l l (key_base par l) true)).
  Proof.
    intros Ho Hp Hser expand derive Hx sk Hsk l Hl pt m Hpt sd0 sd1 rngs0 rngs1 L0 L1 Hr0 Hr1. pose proof (params_good isp cands par Ho Hp) as G. destruct (rgsw_new_all isp cands par Ho Hp expand derive Hx sk Hsk l Hl pt m Hpt sd0 sd1 rngs0 rngs1 Hr0 Hr1) as (r & Er & (K0 & K1) & B0 & B1).
    destruct (rgsw_new_made _ _ _ _ _ _ _ _ _ Er) as (M0 & M1). pose proof (made_shape isp cands Ho par G expand derive sd0 sk l l _ _ _ L0 Hl Hl K0 B0 M0) as S0. pose proof (made_shape isp cands Ho par G expand derive sd1 sk l l _ _ _ L1 Hl Hl K1 B1 M1) as S1.
    destruct (rgsw_len l r Ho Hp Hser (conj S0 S1)) as (b & E & L). exists r, b. split; [exact Er|]. split; [exact E|]. intros Hf. rewrite (L Hf), B0, B1. destruct M0 as (-> & _), M1 as (-> & _). cbn [is_some]. lia.
  Qed.
  (** ** Evaluation keys *)
  Theorem ek_size_all : oracles isp cands -> is_params isp cands par -> serializable par -> forall l1 ek, ek_shape par l1 ek -> NoDup (map fst (ek_gk ek)) -> (ek_level ek <= max_level par)%nat ->
    exists b, ek_to_bytes ek = Val b /\ (fits b -> len b = ek_size par l1 (ek_level ek) (ek_public ek)).
  Proof. intros Ho Hp Hser l1 ek. apply (ek_len isp cands Ho par (params_good isp cands par Ho Hp) Hser). Qed.
  Theorem ek_new_size_all : oracles isp cands -> is_params isp cands par -> serializable par -> forall expand derive, expands_well expand -> forall sk, is_sk par sk -> forall l1 l2, (l1 <= max_level par)%nat -> (l2 <= l1)%nat ->
    forall b cols sds rngs, is_ekb par sk l1 l2 b cols -> (forall e, length (sds e) = 32%nat) -> (forall e i, words (rngs e i)) ->
    exists ek s es, ek_build expand derive b sds rngs = Val ek /\ ek_to_bytes ek = Val s /\ NoDup es /\ (forall e, In e es <-> asked N b cols e) /\
      (fits s -> len s = ek_size par l1 l2 (map (fun e => (e, key_base par l2, true)) es)).
  Proof.
    intros Ho Hp Hser expand derive Hx sk Hsk l1 l2 H1 H2 b cols sds rngs Hb Lsd Hr.
    destruct (build_all isp cands par Ho Hp expand derive Hx sk Hsk l1 l2 H1 H2 b cols sds rngs Hb Hr) as (ek & Eek & (E1 & E2 & E3 & Hrot & Hmon & Hes & Hgk) & Hprop). destruct (ek_build_made _ _ _ _ _ _ Eek) as (Hn & _ & Hmade).
    assert (Hk : forall e g, lookup (ek_gk ek) e = Some g -> gk_shape par l1 l2 g /\ se_exponent (g_element g) = e /\ base_fits (g_ksk g)).
    { intros e g Hlk. assert (He : asked N b cols e) by (apply Hes; congruence). destruct (Hprop e He) as (Hr1 & Hodd). apply (is_gk_shape isp cands par expand derive (sds e) sk l1 l2 e g (2 * pa_variance par) Ho Hp (Lsd e) H1 ltac:(lia) Hr1 Hodd (Hgk e g Hlk) (Hmade e g Hlk)). }
    destruct (ek_size_all Ho Hp Hser l1 ek) as (s & Es & Ls); [|exact Hn|rewrite E3; lia|].
    { split; [exact E1|]. split; [exact E2|]. split; [exact H1|]. split; [exact Hrot|]. split; [exact Hmon|]. intros e g Hlk. destruct (Hk e g Hlk) as (Ha & Hb' & _). rewrite E3. split; [exact Hb'|exact Ha]. }
    exists ek, s, (map fst (ek_gk ek)). split; [exact Eek|]. split; [exact Es|]. split; [exact Hn|]. split.
    - intros e. rewrite (Hes e). split.
      + intros Hi. apply in_map_iff in Hi. destruct Hi as ((e' & g) & <- & Hi). cbn [fst]. rewrite (proj2 (lookup_In _ Hn e' g) Hi). discriminate.
      + intros Hl. destruct (lookup (ek_gk ek) e) as [g|] eqn:El; [|contradiction]. apply (lookup_In _ Hn) in El. apply (in_map fst) in El. exact El.
    - intros Hf. rewrite (Ls Hf), E3. f_equal. unfold ek_public. rewrite map_map. apply map_ext_in. intros (e, g) Hi. cbn [fst snd]. apply (lookup_In _ Hn) in Hi. destruct (Hk e g Hi) as (_ & -> & _). destruct (Hgk e g Hi) as (_ & -> & _). destruct (Hmade e g Hi) as (-> & _). reflexivity.
  Qed.
  Lemma sum_perm a b : Permutation a b -> sum_of a = sum_of b.
  Proof. intros H. induction H; cbn [sum_of]; lia. Qed.
  Theorem ek_same_size_all : oracles isp cands -> is_params isp cands par -> serializable par -> forall expand derive, expands_well expand -> forall l1 l2, (l1 <= max_level par)%nat -> (l2 <= l1)%nat ->
    forall sk sk' b b' cols cols' sds sds' rngs rngs', is_sk par sk -> is_sk par sk' -> is_ekb par sk l1 l2 b cols -> is_ekb par sk' l1 l2 b' cols' -> (forall e, length (sds e) = 32%nat) -> (forall e, length (sds' e) = 32%nat) ->
    (forall e i, words (rngs e i)) -> (forall e i, words (rngs' e i)) -> (forall e, asked N b cols e <-> asked N b' cols' e) ->
    exists ek ek' s s', ek_build expand derive b sds rngs = Val ek /\ ek_build expand derive b' sds' rngs' = Val ek' /\ ek_to_bytes ek = Val s /\ ek_to_bytes ek' = Val s' /\ (fits s -> fits s' -> len s = len s').
  Proof.
    intros Ho Hp Hser expand derive Hx l1 l2 H1 H2 sk sk' b b' cols cols' sds sds' rngs rngs' Hsk Hsk' Hb Hb' Ls Ls' Hr Hr' Ha.
    destruct (ek_new_size_all Ho Hp Hser expand derive Hx sk Hsk l1 l2 H1 H2 b cols sds rngs Hb Ls Hr) as (ek & s & es & E1 & E2 & Hn & Hi & L). destruct (ek_new_size_all Ho Hp Hser expand derive Hx sk' Hsk' l1 l2 H1 H2 b' cols' sds' rngs' Hb' Ls' Hr') as (ek' & s' & es' & E1' & E2' & Hn' & Hi' & L').
    exists ek, ek', s, s'. split; [exact E1|]. split; [exact E1'|]. split; [exact E2|]. split; [exact E2'|]. intros Hf Hf'. rewrite (L Hf), (L' Hf'). unfold ek_size. do 2 f_equal. apply sum_perm, Permutation_map, Permutation_map. apply NoDup_Permutation; [exact Hn|exact Hn'|]. intros e. rewrite Hi, Hi'. apply Ha.
  Qed.
  (** ** Secret keys *)
  Theorem sk_size_all : forall sk, is_sk par sk -> sk_coeffs sk <> [] -> fits (sk_to_bytes sk) -> len (sk_to_bytes sk) = sk_size (sk_coeffs sk).
  Proof.
    intros sk (_ & _ & Hi) Hne Hf. unfold sk_to_bytes, sk_fields, sk_to_proto in *. rewrite len_packed; [|lia| |destruct (sk_coeffs sk); [contradiction|discriminate]|exact Hf].
    - unfold sk_size. rewrite map_map. reflexivity.
    - apply Forall_map. eapply Forall_impl; [|exact Hi]. exact zigzag_w64.
  Qed.
  Lemma small_sum cs : Forall (fun c => -64 <= c <= 63) cs -> sum_of (map signed_size cs) = Z.of_nat (length cs).
  Proof.
    intros H. induction H as [|c cs Hc _ IH]; [reflexivity|]. cbn [map sum_of length]. rewrite IH. assert (signed_size c = 1); [|lia]. unfold signed_size. apply number_size_small. destruct (0 <=? c) eqn:E; [apply Z.leb_le in E; lia|apply Z.leb_gt in E; lia].
  Qed.
  Lemma N_fits : oracles isp cands -> is_params isp cands par -> 8 <= Z.of_nat N <= 65536.
  Proof.
    intros Ho Hp. pose proof (params_good isp cands par Ho Hp) as G. destruct (gp_deg _ _ _ G) as (K & HK & -> & _). rewrite Nat2Z.inj_pow. change (Z.of_nat 2) with 2. change 8 with (2 ^ 3). change 65536 with (2 ^ 16). split; apply Z.pow_le_mono_r; lia.
  Qed.
  Lemma sk_fits sk : oracles isp cands -> is_params isp cands par -> is_sk par sk -> sk_coeffs sk <> [] /\ fits (sk_to_bytes sk).
  Proof.
    intros Ho Hp (_ & L & Hi). pose proof (N_fits Ho Hp) as HN. assert (Hne : sk_coeffs sk <> []) by (intros E; rewrite E in L; cbn [length] in L; lia). split; [exact Hne|]. unfold sk_to_bytes, sk_fields, sk_to_proto.
    assert (Hb : len (flat_map put_varint (map zigzag (sk_coeffs sk))) <= 10 * Z.of_nat (length (sk_coeffs sk))).
    { clear L Hne. induction Hi as [|c cs Hc _ IH]; [cbn; lia|]. cbn [map flat_map length]. rewrite len_app, len_put_varint by (apply zigzag_w64; exact Hc). pose proof (number_size_mono (zigzag c) (2 ^ 64) ltac:(pose proof (zigzag_w64 c Hc) as H; unfold is_u64 in H; lia)) as H. change (number_size (2 ^ 64)) with 10 in H. lia. }
    unfold packed_field. destruct (map zigzag (sk_coeffs sk)) as [|z zs] eqn:Ez; [destruct (sk_coeffs sk); [contradiction|discriminate]|]. cbn [put_fields flat_map]. rewrite app_nil_r. rewrite L in Hb.
    assert (Hf : fits (flat_map put_varint (z :: zs))) by (unfold fits; unfold len in Hb; lia). pose proof (len_part 1 (flat_map put_varint (z :: zs)) ltac:(lia) Hf) as Lp. cbn [flat_map] in Lp, Hb. unfold fits. unfold len in Lp at 1. rewrite Lp. unfold part_size.
    pose proof (number_size_mono (len (put_varint z ++ flat_map put_varint zs)) (2 ^ 64) ltac:(lia)) as H. change (number_size (2 ^ 64)) with 10 in H. lia.
  Qed.
  Theorem sk_any_size_all : oracles isp cands -> is_params isp cands par -> forall sk, is_sk par sk -> len (sk_to_bytes sk) = sk_size (sk_coeffs sk).
  Proof. intros Ho Hp sk Hsk. destruct (sk_fits sk Ho Hp Hsk) as (Hne & Hf). exact (sk_size_all sk Hsk Hne Hf). Qed.
  Theorem sk_new_size_all : oracles isp cands -> is_params isp cands par -> pa_variance par <= 31 -> forall rng, words rng -> exists sk, sk_random par rng = Val sk /\ len (sk_to_bytes sk) = part_size (Z.of_nat N).
  Proof.
    intros Ho Hp Hv rng Hw. destruct (sk_random_all isp cands par Ho Hp rng Hw) as (sk & E & Hsk & Hb & _). exists sk. split; [exact E|]. rewrite (sk_any_size_all Ho Hp sk Hsk). unfold sk_size. destruct Hsk as (_ & <- & _). f_equal. apply small_sum.
    eapply Forall_impl; [|exact Hb]. cbv beta. intros c Hc. lia.
  Qed.
  (** With the largest variance, a key may have coefficients of two bytes. *)
  Lemma ones_all rng : forall k j, 0 <= j -> (forall i, j <= i < j + Z.of_nat k -> stream_bit rng i = 1) -> ones_at rng j k = Z.of_nat k.
  Proof. induction k as [|k IH]; intros j Hj H; [reflexivity|]. cbn [ones_at]. rewrite (H j) by lia. rewrite IH by (lia || (intros i Hi; apply H; lia)). lia. Qed.
  Lemma ones_none rng : forall k j, 0 <= j -> (forall i, j <= i < j + Z.of_nat k -> stream_bit rng i = 0) -> ones_at rng j k = 0.
  Proof. induction k as [|k IH]; intros j Hj H; [reflexivity|]. cbn [ones_at]. rewrite (H j) by lia. rewrite IH by (lia || (intros i Hi; apply H; lia)). lia. Qed.
  Definition big_rng (k : nat) : Z := if Nat.even k then 2 ^ 64 - 1 else 0.
  Lemma big_rng_words : words big_rng.
  Proof. intros k. unfold big_rng, is_u64. destruct (Nat.even k); lia. Qed.
  Lemma big_value i : cbd_value big_rng 32 i = 64.
  Proof.
    unfold cbd_value, block_start. change (32 <=? 16) with false. cbn iota. change (Z.to_nat (2 * 32)) with 64%nat.
    assert (Hev : forall j, 128 * Z.of_nat i <= j < 128 * Z.of_nat i + 64 -> Z.to_nat (j / 64) = (2 * i)%nat) by (intros j Hj; replace (j / 64) with (2 * Z.of_nat i); [lia|]; apply (Z.div_unique j 64 _ (j - 128 * Z.of_nat i)); lia).
    assert (Hod : forall j, 128 * Z.of_nat i + 64 <= j < 128 * Z.of_nat i + 128 -> Z.to_nat (j / 64) = S (2 * i)) by (intros j Hj; replace (j / 64) with (2 * Z.of_nat i + 1); [lia|]; apply (Z.div_unique j 64 _ (j - 128 * Z.of_nat i - 64)); lia).
    rewrite ones_all; [|lia|]. rewrite ones_none; [reflexivity|lia|].
    - intros j Hj. unfold stream_bit, big_rng. rewrite Hod by lia. rewrite Nat.even_succ, Nat.odd_mul. cbn [Nat.odd Nat.even negb andb]. rewrite Z.testbit_0_l. reflexivity.
    - intros j Hj. unfold stream_bit, big_rng. rewrite Hev by lia. rewrite Nat.even_mul. cbn [Nat.even orb]. change (2 ^ 64 - 1) with (Z.ones 64). rewrite Z.ones_spec_low; [reflexivity|]. apply Z.mod_pos_bound. lia.
  Qed.
  Theorem sk_big_size_all : oracles isp cands -> is_params isp cands par -> pa_variance par = 32 -> exists rng rng' sk sk', words rng /\ words rng' /\ sk_random par rng = Val sk /\ sk_random par rng' = Val sk' /\ len (sk_to_bytes sk) = part_size (Z.of_nat N) /\ len (sk_to_bytes sk') = part_size (2 * Z.of_nat N).
  Proof.
    intros Ho Hp Hv. exists (fun _ => 0), big_rng. assert (W0 : words (fun _ => 0)) by (intros k; unfold is_u64; lia). destruct (sk_random_all isp cands par Ho Hp _ W0) as (sk & E & Hsk & _). destruct (sk_random_all isp cands par Ho Hp _ big_rng_words) as (sk' & E' & Hsk' & _). exists sk, sk'.
    split; [exact W0|]. split; [exact big_rng_words|]. split; [exact E|]. split; [exact E'|]. rewrite (sk_any_size_all Ho Hp sk Hsk), (sk_any_size_all Ho Hp sk' Hsk'). unfold sk_random in E, E'. rewrite Hv in E, E'.
    destruct (sample_vec_cbd_ok (fun _ => 0) N 32 W0 ltac:(lia)) as (k & S0 & _). destruct (sample_vec_cbd_ok big_rng N 32 big_rng_words ltac:(lia)) as (k' & S1 & _). rewrite S0 in E. rewrite S1 in E'. injection E as <-. injection E' as <-. cbn [sk_coeffs]. unfold sk_size. split; f_equal.
    - rewrite small_sum; [rewrite map_length, seq_length; reflexivity|]. apply Forall_map, Forall_forall. intros i _. assert (cbd_value (fun _ => 0) 32 i = 0); [|lia]. assert (Hs : 0 <= block_start 32 i) by (unfold block_start; change (32 <=? 16) with false; cbn iota; lia). unfold cbd_value. rewrite !ones_none; [reflexivity|lia| |exact Hs|]; intros j Hj; unfold stream_bit; rewrite Z.testbit_0_l; reflexivity.
    - rewrite map_map. rewrite (map_ext _ (fun _ => 2)) by (intros i; rewrite big_value; reflexivity). clear. generalize 0%nat at 1. induction N as [|n IH]; intros j; [reflexivity|]. cbn [seq map sum_of]. rewrite IH. lia.
  Qed.
  (** ** Parameters *)
  Lemma bytes_le_len fuel : forall v, 0 < v -> Z.log2 v / 8 < Z.of_nat fuel -> len (bytes_le fuel v) = Z.log2 v / 8 + 1.
  Proof.
    induction fuel as [|fuel IH]; intros v Hv Hf; [pose proof (Z.div_pos (Z.log2 v) 8 (Z.log2_nonneg v) ltac:(lia)); lia|]. cbn [bytes_le]. destruct (v <? 256) eqn:E; [apply Z.ltb_lt in E|apply Z.ltb_ge in E].
    - rewrite Z.div_small; [reflexivity|]. split; [apply Z.log2_nonneg|]. apply (Z.log2_lt_pow2 v 8 Hv). exact E.
    - assert (H8 : 8 <= Z.log2 v) by (apply Z.log2_le_pow2; [exact Hv|exact E]). assert (El : Z.log2 (v / 256) = Z.log2 v - 8) by (change 256 with (2 ^ 8); rewrite <- Z.shiftr_div_pow2 by lia; rewrite Z.log2_shiftr by lia; lia).
      assert (Ed : Z.log2 v / 8 = (Z.log2 v - 8) / 8 + 1) by (replace (Z.log2 v) with (Z.log2 v - 8 + 1 * 8) at 1 by lia; rewrite Z.div_add by lia; reflexivity).
      specialize (IH (v / 256) ltac:(apply Z.div_str_pos; lia)). rewrite El in IH. specialize (IH ltac:(lia)). unfold len in *. cbn [length]. lia.
  Qed.
  Lemma big_len v : 0 < v -> len (big_to_bytes v) = Z.log2 v / 8 + 1.
  Proof.
    intros Hv. unfold big_to_bytes. apply bytes_le_len; [exact Hv|]. unfold nbits. rewrite (proj2 (Z.leb_gt v 0)) by exact Hv. pose proof (Z.log2_nonneg v). pose proof (Z.div_le_upper_bound (Z.log2 v) 8 (Z.log2 v) ltac:(lia) ltac:(lia)). rewrite Nat2Z.inj_succ, Z2Nat.id by lia. lia.
  Qed.
  Theorem params_size_all : oracles isp cands -> is_params isp cands par -> fits (params_to_bytes par) -> len (params_to_bytes par) = params_size par.
  Proof.
    intros Ho Hp Hf. pose proof (params_good isp cands par Ho Hp) as G. pose proof (N_fits Ho Hp) as HN. pose proof (gp_var _ _ _ G) as Hv. pose proof (gp_t _ _ _ G) as Ht. pose proof (gp_small _ _ _ G) as Hs.
    unfold params_to_bytes, params_fields, params_to_proto in *. cbn [pp_degree pp_moduli pp_variance pp_plain] in *. rewrite (Z.mod_small (Z.of_nat N) W32), (Z.mod_small (pa_variance par) W32) in * by lia. rewrite !put_fields_app in Hf |- *. destruct (fits_app _ _ Hf) as (_ & Hf1). destruct (fits_app _ _ Hf1) as (Hf2 & Hf3). destruct (fits_app _ _ Hf3) as (Hf4 & _).
    rewrite !len_app. rewrite (len_int 1) by (lia || (unfold is_u64; lia)). rewrite (len_int 4) by (lia || (unfold is_u64; lia)). rewrite len_packed; [|lia| |exact (gp_ne _ _ _ G)|exact Hf2].
    2: { eapply Forall_impl; [|exact (gp_friendly _ _ _ G)]. intros q (Hq & Hl & _). apply Znumtheory.prime_ge_2 in Hq. unfold is_u64. lia. }
    unfold params_size. match goal with |- context [len (put_fields (match pa_small par with _ => _ end))] => idtac | |- context [len (put_fields ?x)] => assert (Ep : len (put_fields x) = plain_size (pa_t par)); [|rewrite Ep; lia] end.
    destruct (pa_small par) as [m|]; cbn [put_fields flat_map] in *; rewrite app_nil_r in *.
    - destruct Hs as (Hs & _). destruct (modulus_new_p _ _ Hs) as (Em & Hu). rewrite Em. unfold plain_size. rewrite (proj2 (Z.ltb_lt (pa_t par) (2 ^ 64))) by apply Hu. unfold put_field. cbn [fst snd]. rewrite len_app, len_key by lia. rewrite len_put_varint by exact Hu. reflexivity.
    - destruct Hs as (Hs & _). unfold plain_size. rewrite (proj2 (Z.ltb_ge (pa_t par) (2 ^ 64))) by exact Hs. rewrite <- big_len by lia. apply len_part; [lia|]. rewrite <- (app_nil_r (put_field _)) in Hf4. exact (part_fits _ _ _ Hf4).
  Qed.
  (** Any variance is possible. *)
  Theorem with_variance_all : is_params isp cands par -> forall v, 1 <= v <= 32 -> is_params isp cands (with_variance v par).
  Proof.
    intros (id & b & Hb & E) v Hv. exists id, (mkBuilder (b_degree b) (b_plaintext b) v (b_moduli b) (b_sizes b)). split.
    - destruct Hb as (H1 & H2 & H3 & H4 & H5). unfold is_builder. cbn [b_degree b_plaintext b_variance b_moduli b_sizes]. split; [exact H1|]. split; [exact H2|]. split; [unfold is_u64; lia|]. split; assumption.
    - unfold build in E |- *. cbn [b_degree b_plaintext b_variance b_moduli b_sizes] in *.
      apply bind_inv in E. destruct E as ([] & E1 & E). apply bind_inv in E. destruct E as (small & E2 & E). apply bind_inv in E. destruct E as (ms & E3 & E). apply bind_inv in E. destruct E as ([] & E4 & E). apply bind_inv in E. destruct E as (plain & E5 & E). apply bind_inv in E. destruct E as (ntt & E6 & E). apply bind_inv in E. destruct E as (cps & E7 & E). apply bind_inv in E. destruct E as (ext & E8 & E). apply bind_inv in E. destruct E as (levels & E9 & E). apply bind_inv in E. destruct E as (index & E10 & E).
      assert (Ep : par = mkParams id (Z.to_nat (b_degree b)) ms (map nbits ms) (b_variance b) levels ntt (b_plaintext b) small index) by congruence. clear E.
      assert (Ec : validate_configuration (mkBuilder (b_degree b) (b_plaintext b) v (b_moduli b) (b_sizes b)) = Val tt).
      { unfold validate_configuration in E1 |- *. cbn [b_degree b_plaintext b_variance b_moduli b_sizes]. destruct (negb ((8 <=? b_degree b) && (b_degree b <=? 65536)) || negb (is_power_of_two (b_degree b))); [discriminate|]. destruct (negb ((1 <=? b_variance b) && (b_variance b <=? 32))); [discriminate|]. rewrite (proj2 (Z.leb_le 1 v)), (proj2 (Z.leb_le v 32)) by lia. exact E1. }
      rewrite Ec. cbn [bind]. rewrite E2. cbn [bind]. rewrite E3. cbn [bind]. rewrite E4. cbn [bind]. rewrite E5. cbn [bind]. rewrite E6. cbn [bind]. rewrite E7. cbn [bind]. rewrite E8. cbn [bind]. rewrite E9. cbn [bind]. rewrite E10. cbn [bind]. rewrite Ep. reflexivity.
  Qed.
End Props.
