(** Expansions: the messages of the ciphertexts, round by round. *)
From Verif Require Import Outcome BasicSpec OutcomeLemmas NumTheory NttModel PolySpec PolyRing NttProofs RnsSpec RqModel RqSpec RqCtx RqOps RqPropLemmas RingRn ParamsModel BfvSpec ParamsProofs BuildProofs PlainModel CipherModel OpsModel SchemeSpec CipherSpec PlainProofs RnPoly CipherProofs EncryptProofs CipherPropLemmas KeysModel KeysSpec KeyOpsProofs KeyPropLemmas EvalSpec RotProofs EvalKeyProofs EvalOpsProofs.
Set Default Proof Using "Type".

(** * Sums of ring elements *)
Section Sums.
  Context {N : nat}.
  Add Ring Rn_sums : (Rn_ring N).
  Fixpoint rsum (n : nat) (f : nat -> Rn N) : Rn N := match n with O => r0 N | S k => (rsum k f + f k)%R end.
  Lemma rsum_ext n f g : (forall k, (k < n)%nat -> f k = g k) -> rsum n f = rsum n g.
  Proof. induction n as [|n IH]; intros H; [reflexivity|]. cbn [rsum]. rewrite IH, H by (auto with arith). reflexivity. Qed.
  Lemma rsum_add n f g : rsum n (fun k => (f k + g k)%R) = (rsum n f + rsum n g)%R.
  Proof. induction n as [|n IH]; cbn [rsum]; [ring|]. rewrite IH. ring. Qed.
  Lemma rsum_mul n a f : rsum n (fun k => (a * f k)%R) = (a * rsum n f)%R.
  Proof. induction n as [|n IH]; cbn [rsum]; [ring|]. rewrite IH. ring. Qed.
  Lemma rsum_pairs n f : rsum (2 * n) f = rsum n (fun k => (f (2 * k)%nat + f (2 * k + 1)%nat)%R).
  Proof. induction n as [|n IH]; [reflexivity|]. replace (2 * S n)%nat with (S (S (2 * n))) by lia. cbn [rsum]. rewrite IH. replace (S (2 * n)) with (2 * n + 1)%nat by lia. ring. Qed.
  Lemma raut_rsum e n f : @raut N e (rsum n f) = rsum n (fun k => @raut N e (f k)).
  Proof. induction n as [|n IH]; cbn [rsum]; [apply raut_0|]. rewrite raut_add, IH. reflexivity. Qed.
  Lemma nth_rsum n f j : nth j (rl (rsum n f)) 0 = sumn n (fun k => nth j (rl (f k)) 0).
  Proof. induction n as [|n IH]; cbn [rsum]; [apply nth_r0|]. rewrite nth_radd, IH, sumn_snoc. reflexivity. Qed.
  Lemma sumn_pick n j (f : nat -> Z) : sumn n (fun k => if Nat.eqb k j then f k else 0) = if Nat.ltb j n then f j else 0.
  Proof.
    induction n as [|n IH]; [reflexivity|]. rewrite sumn_snoc, IH. destruct (Nat.eqb_spec n j) as [->|Hne].
    - rewrite (proj2 (Nat.ltb_ge j j)), (proj2 (Nat.ltb_lt j (S j))) by lia. lia.
    - destruct (Nat.ltb_spec j n), (Nat.ltb_spec j (S n)); lia.
  Qed.
  (** The part of [m] of exponents i, i + s, i + 2s, ..., divided by X^i. *)
  Definition comp (s i : nat) (m : Rn N) : Rn N := rsum (N / s) (fun k => (rZ N (nth (i + s * k) (rl m) 0) * rX N (s * k))%R).
  Lemma comp_1 m : comp 1 0 m = m.
  Proof.
    apply rn_ext. intros j Hj. unfold comp. rewrite nth_rsum, Nat.div_1_r. rewrite (sumn_ext N _ (fun k => if Nat.eqb k j then nth k (rl m) 0 else 0)).
    - rewrite sumn_pick, (proj2 (Nat.ltb_lt _ _) Hj). reflexivity.
    - intros k Hk. rewrite Nat.mul_1_l, <- rscale_mul, nth_rscale, nth_rX_small by lia. cbn [plus]. destruct (Nat.eqb k j); lia.
  Qed.
  Context (HN : (0 < N)%nat) (s h : nat) (Hs : (0 < s)%nat) (HNs : N = (s * (2 * h))%nat).
  Notation e := (2 * h + 1)%nat.
  Lemma odd_e : Nat.odd e = true.
  Proof. rewrite Nat.odd_add, Nat.odd_mul. reflexivity. Qed.
  Lemma aut_term a k : @raut N e (rZ N a * rX N (s * k))%R = (rZ N (if Nat.even k then 1 else -1) * (rZ N a * rX N (s * k)))%R.
  Proof using HN Hs HNs.
    rewrite raut_mul, raut_Z, raut_X by (exact HN || exact odd_e). replace (e * (s * k))%nat with (N * k + s * k)%nat by (rewrite HNs at 1; lia). rewrite rX_add, rX_nq. ring.
  Qed.
  Lemma div_s : (N / s = 2 * h)%nat. Proof using HN Hs HNs. rewrite HNs, Nat.mul_comm. apply Nat.div_mul. lia. Qed.
  Lemma div_2s : (N / (2 * s) = h)%nat. Proof using HN Hs HNs. rewrite HNs. replace (s * (2 * h))%nat with (h * (2 * s))%nat by lia. apply Nat.div_mul. lia. Qed.
  Lemma even_2k k : Nat.even (2 * k) = true. Proof. rewrite Nat.even_mul. reflexivity. Qed.
  Lemma odd_2k k : Nat.even (2 * k + 1) = false. Proof. rewrite Nat.even_add, Nat.even_mul. reflexivity. Qed.
  Lemma comp_plus i m : (comp s i m + @raut N e (comp s i m) = rZ N 2 * comp (2 * s) i m)%R.
  Proof using HN Hs HNs.
    unfold comp. rewrite raut_rsum, <- rsum_add, div_s, div_2s, rsum_pairs, <- rsum_mul. apply rsum_ext. intros k _. rewrite !aut_term, even_2k, odd_2k. replace (s * (2 * k))%nat with (2 * s * k)%nat by lia. replace (rZ N 2) with (r1 N + r1 N)%R by (rewrite <- rZ_1, <- rZ_add; reflexivity).
    replace (rZ N (-1)) with (- r1 N)%R by (rewrite <- rZ_1, <- rZ_opp; reflexivity). replace (rZ N 1) with (r1 N) by (symmetry; apply rZ_1). ring.
  Qed.
  Lemma comp_minus i m : ((comp s i m - @raut N e (comp s i m)) * rX N (2 * N - s) = rZ N 2 * comp (2 * s) (s + i) m)%R.
  Proof using HN Hs HNs.
    assert (Hle : (s <= N)%nat) by (destruct h; nia). assert (EX : (rX N s * rX N (2 * N - s) = r1 N)%R) by (rewrite <- rX_add; replace (s + (2 * N - s))%nat with (0 + 2 * N)%nat by lia; rewrite rX_2n; reflexivity).
    assert (E : (comp s i m - @raut N e (comp s i m) = rX N s * (rZ N 2 * comp (2 * s) (s + i) m))%R); [|rewrite E; replace (rX N s * (rZ N 2 * comp (2 * s) (s + i) m) * rX N (2 * N - s))%R with (rX N s * rX N (2 * N - s) * (rZ N 2 * comp (2 * s) (s + i) m))%R by ring; rewrite EX; ring].
    replace (comp s i m - @raut N e (comp s i m))%R with (comp s i m + - r1 N * @raut N e (comp s i m))%R by ring. unfold comp. rewrite raut_rsum, <- rsum_mul, <- rsum_add, div_s, div_2s, rsum_pairs, <- !rsum_mul. apply rsum_ext. intros k _. rewrite !aut_term, even_2k, odd_2k.
    replace (i + s * (2 * k + 1))%nat with (s + i + 2 * s * k)%nat by lia. replace (s * (2 * k + 1))%nat with (s + 2 * s * k)%nat by lia. rewrite rX_add. replace (rZ N 2) with (r1 N + r1 N)%R by (rewrite <- rZ_1, <- rZ_add; reflexivity).
    replace (rZ N (-1)) with (- r1 N)%R by (rewrite <- rZ_1, <- rZ_opp; reflexivity). replace (rZ N 1) with (r1 N) by (symmetry; apply rZ_1). ring.
  Qed.
End Sums.

Lemma comp_expanded N s i (m : Rn N) : (0 < s)%nat -> (exists q, N = s * q)%nat -> rl (rZ N (Z.of_nat s) * comp s i m)%R = expanded N s i (rl m).
Proof.
  intros Hs (q & Eq). assert (Ed : (N / s = q)%nat) by (rewrite Eq, Nat.mul_comm; apply Nat.div_mul; lia). apply list_ext_Z; [rewrite rl_length; unfold expanded; rewrite map_length, seq_length; reflexivity|]. rewrite rl_length. intros j Hj. unfold expanded. rewrite nth_map_seq by exact Hj.
  rewrite <- rscale_mul, nth_rscale. unfold comp. rewrite nth_rsum, Ed. pose proof (Nat.div_mod j s ltac:(lia)) as Hd. pose proof (Nat.mod_upper_bound j s ltac:(lia)) as Hm.
  rewrite (sumn_ext q _ (fun k => if Nat.eqb (s * k) j then nth (i + s * k) (rl m) 0 else 0)).
  2: { intros k Hk. rewrite <- rscale_mul, nth_rscale, nth_rX_small by nia. destruct (Nat.eqb (s * k) j); lia. }
  destruct (Nat.eqb_spec (j mod s) 0) as [H0|H0].
  - rewrite (sumn_ext q _ (fun k => if Nat.eqb k (j / s) then nth (i + s * k) (rl m) 0 else 0)).
    + rewrite sumn_pick, (proj2 (Nat.ltb_lt _ _)) by nia. do 3 f_equal. lia.
    + intros k Hk. destruct (Nat.eqb_spec (s * k) j), (Nat.eqb_spec k (j / s)); try reflexivity; nia.
  - rewrite (sumn_ext q _ (fun _ => 0)); [rewrite sumn_0; lia|]. intros k Hk. destruct (Nat.eqb_spec (s * k) j) as [E|E]; [|reflexivity]. exfalso. apply H0. rewrite <- E, Nat.mul_comm. apply Nat.mod_mul. lia.
Qed.
Lemma nth_error_set {X} (x : X) : forall l i j, (i < length l)%nat -> nth_error (set_nth l i x) j = if Nat.eqb j i then Some x else nth_error l j.
Proof. induction l as [|a l IH]; intros i j Hi; cbn [length] in Hi; [lia|]. destruct i, j; cbn [set_nth nth_error Nat.eqb]; try reflexivity. apply IH. lia. Qed.
Lemma set_len {X} (x : X) : forall l i, length (set_nth l i x) = length l.
Proof. induction l as [|a l IH]; intros [|i]; cbn [set_nth length]; try reflexivity. rewrite IH. reflexivity. Qed.
Lemma foldM_seq {S} (f : S -> nat -> M S) (I : nat -> S -> Prop) n : (forall i s, (i < n)%nat -> I i s -> exists s', f s i = Val s' /\ I (Datatypes.S i) s') ->
  forall k a s, (a + k <= n)%nat -> I a s -> exists s', foldM f (seq a k) s = Val s' /\ I (a + k)%nat s'.
Proof.
  intros H. induction k as [|k IH]; intros a s Ha HI; cbn [seq foldM]; [exists s; rewrite Nat.add_0_r; auto|]. destruct (H a s ltac:(lia) HI) as (s1 & -> & H1). cbn [bind]. destruct (IH (Datatypes.S a) s1 ltac:(lia) H1) as (s' & E & H2). exists s'. split; [exact E|]. rewrite Nat.add_succ_r. exact H2.
Qed.

Lemma nth_error_firstn_lt {X} : forall (l : list X) k i, (i < k)%nat -> nth_error (firstn k l) i = nth_error l i.
Proof. induction l as [|a l IH]; intros [|k] [|i] Hi; cbn [firstn nth_error]; try reflexivity; try lia. apply IH. lia. Qed.
Section Expand.
  Context (isp : Z -> bool) (cands : Z -> list Z) (Ho : oracles isp cands) (par : params) (G : good_params isp cands par).
  Context (l1 : nat) (lv1 : level_ctx) (c1 : ctx) (A1 : at_level isp cands par l1 lv1 c1).
  Context (l2 : nat) (lv2 : level_ctx) (c2 : ctx) (A2 : at_level isp cands par l2 lv2 c2).
  Context (Hle : (l2 <= l1)%nat).
  Context (sk : secret_key) (Hl : length (sk_coeffs sk) = pa_degree par).
  Notation N := (pa_degree par).
  Notation t := (pa_t par).
  Notation Q := (prod_list (level_moduli (pa_moduli par) l1)).
  Notation s := (mkR (sk_coeffs sk) Hl).
  Add Ring Rn_expand : (Rn_ring N).
  Context (ek : eval_key) (es : Z -> Prop) (B : Z) (HB : 0 <= B) (HE : is_ek par sk l1 l2 ek es B) (Hes : forall e, es e -> 0 <= e < 2 * Z.of_nat N /\ Z.odd e = true).
  Notation D := (gk_noise par l1 l2 sk B).
  Notation enc := (enc par l1 c1 s).
  Set Default Proof Using "All".
  Local Lemma HcX : ctx_ok c1. Proof. exact (good_ok _ (al_good _ _ _ _ _ _ A1)). Qed.
  Local Lemma HdX : c_degree c1 = N. Proof. exact (al_deg _ _ _ _ _ _ A1). Qed.
  Local Lemma N0X : (0 < N)%nat. Proof. pose proof (al_N8 isp cands par l1 lv1 c1 A1). lia. Qed.
  Lemma monomial_at K l : N = (2 ^ K)%nat -> Z.log2 (degree_of par) = Z.of_nat K -> (l < K)%nat -> exists v, nth_error (ek_monomials ek) l = Some (P NttShoup c1 v (rX N (2 * N - 2 ^ l))).
  Proof.
    intros EN El Hlt. destruct HE as (_ & _ & _ & _ & Hm & _). unfold degree_of in El. rewrite El, Nat2Z.id in Hm.
    assert (H : forall ks (ms : list (poly NttShoup)), Forall2 (is_poly par l1) ms (map (fun k => monomial N (2 * Z.of_nat N - 2 ^ Z.of_nat k)) ks) -> forall i k, nth_error ks i = Some k -> exists p, nth_error ms i = Some p /\ is_poly par l1 p (monomial N (2 * Z.of_nat N - 2 ^ Z.of_nat k))).
    { induction ks as [|k0 ks IH]; intros ms HF i k Hk; [destruct i; discriminate|]. cbn [map] in HF. inversion HF as [|p ? ms' ? Hp HF']. destruct i as [|i]; cbn [nth_error] in *; [injection Hk as ->; eauto|]. apply (IH ms' HF' i k Hk). }
    assert (Hk : nth_error (seq 0 K) l = Some l) by (rewrite (nth_error_nth' _ 0%nat) by (rewrite seq_length; exact Hlt); rewrite seq_nth by exact Hlt; reflexivity). destruct (H _ _ Hm l l Hk) as (p & Ep & HP).
    destruct (is_poly_P isp cands Ho par G l1 lv1 c1 A1 p _ HP) as (y & Ey & Ry). exists (p_vt p). rewrite Ep. f_equal. rewrite Ey at 1. f_equal. apply rl_inj. rewrite Ry, rX_monomial by exact N0X. f_equal.
    assert (2 ^ l <= N)%nat by (rewrite EN; apply Nat.pow_le_mono_r; lia). rewrite <- nat_pow2_Z. lia.
  Qed.
  Lemma enc_mulX v k ct m B' : enc ct m B' -> exists r0 r1 t0 t1, get (ct_c ct) 0 = Val t0 /\ get (ct_c ct) 1 = Val t1 /\ poly_mul_shoup t0 (P NttShoup c1 v (rX N k)) = Val r0 /\ poly_mul_shoup t1 (P NttShoup c1 v (rX N k)) = Val r1 /\
    enc (ct_overwrite (ct_overwrite ct 0 r0) 1 r1) (m * rX N k)%R (B' + 1).
  Proof.
    intros (sd & v0 & v1 & x0 & x1 & e & -> & He & Hc). cbn [ct_c parts map fst snd]. eexists _, _, _, _. split; [reflexivity|]. split; [reflexivity|]. split; [apply (P_mul_shoup c1 HcX N HdX)|]. split; [apply (P_mul_shoup c1 HcX N HdX)|].
    pose proof (gp_t _ _ _ G) as Ht. set (d := (rscaled Q t m * rX N k - rscaled Q t (m * rX N k))%R). exists sd, (v0 && v)%bool, (v1 && v)%bool, (x0 * rX N k)%R, (x1 * rX N k)%R, (rX N k * e + d)%R. split; [reflexivity|]. split.
    - pose proof (rscaled_rX Q t k m ltac:(lia)) as Hd. fold d in Hd. pose proof (rnorm_add N (rX N k * e)%R d). pose proof (rnorm_rX k e). lia.
    - replace (x0 * rX N k + s * (x1 * rX N k))%R with ((x0 + s * x1) * rX N k)%R by ring. replace (rscaled Q t (m * rX N k) + (rX N k * e + d))%R with ((rscaled Q t m + e) * rX N k)%R by (unfold d; ring). apply rcong_mul; [exact (Qpos isp cands Ho par G l1 lv1 c1 A1)|exact Hc|apply rcong_refl].
  Qed.
  Definition piece (m : Rn N) (l i : nat) : Rn N := (rZ N (Z.of_nat (2 ^ l)) * comp (2 ^ l) i m)%R.
  Definition noise_after (B' : Z) (l : nat) : Z := 2 ^ Z.of_nat l * (B' + D + 3) - D - 3.
  Lemma noise_after_S B' l : noise_after B' (S l) = 2 * noise_after B' l + D + 3.
  Proof. unfold noise_after. rewrite Nat2Z.inj_succ, Z.pow_succ_r by lia. ring. Qed.
  Lemma piece_steps K l m i : N = (2 ^ K)%nat -> (l < K)%nat ->
    (piece m l i + @raut N (Z.to_nat (expansion_exponent N l)) (piece m l i) = piece m (S l) i)%R /\
    ((piece m l i - @raut N (Z.to_nat (expansion_exponent N l)) (piece m l i)) * rX N (2 * N - 2 ^ l) = piece m (S l) (2 ^ l + i))%R.
  Proof.
    intros EN Hlt. set (h := (2 ^ (K - l - 1))%nat). assert (HNs : N = (2 ^ l * (2 * h))%nat) by (unfold h; replace (2 * 2 ^ (K - l - 1))%nat with (2 ^ (S (K - l - 1)))%nat by reflexivity; rewrite <- Nat.pow_add_r; rewrite EN; f_equal; lia).
    assert (Hs0 : (0 < 2 ^ l)%nat) by (apply Nat.neq_0_lt_0, Nat.pow_nonzero; lia). assert (Ee : Z.to_nat (expansion_exponent N l) = (2 * h + 1)%nat).
    { unfold expansion_exponent. rewrite (expansion_div isp cands Ho par G l K EN) by lia. unfold h. replace (K - l)%nat with (S (K - l - 1)) at 1 by lia. rewrite <- nat_pow2_Z. cbn [Nat.pow]. lia. }
    rewrite Ee. unfold piece. assert (EZ : Z.of_nat (2 ^ S l) = Z.of_nat (2 ^ l) * 2) by (cbn [Nat.pow]; lia). rewrite EZ, rZ_mul. pose proof (comp_plus N0X (2 ^ l) h Hs0 HNs i m) as H1. pose proof (comp_minus N0X (2 ^ l) h Hs0 HNs i m) as H2. change (2 ^ S l)%nat with (2 * 2 ^ l)%nat.
    rewrite raut_mul, raut_Z by (exact N0X || apply odd_e). split.
    - replace (rZ N (Z.of_nat (2 ^ l)) * rZ N 2 * comp (2 * 2 ^ l) i m)%R with (rZ N (Z.of_nat (2 ^ l)) * (rZ N 2 * comp (2 * 2 ^ l) i m))%R by ring. rewrite <- H1. ring.
    - replace (rZ N (Z.of_nat (2 ^ l)) * rZ N 2 * comp (2 * 2 ^ l) (2 ^ l + i) m)%R with (rZ N (Z.of_nat (2 ^ l)) * (rZ N 2 * comp (2 * 2 ^ l) (2 ^ l + i) m))%R by ring. rewrite <- H2. ring.
  Qed.
  Definition holds (outs : list ciphertext) (i : nat) (m : Rn N) (B' : Z) : Prop := exists ct, nth_error outs i = Some ct /\ enc ct m B'.
  Definition after_round (m : Rn N) (B' : Z) (L size l : nat) (st : list ciphertext * ciphertext) : Prop :=
    length (fst st) = (2 ^ L)%nat /\ any_out par c1 (snd st) /\ forall i, (i < 2 ^ l)%nat -> (i < size)%nat -> holds (fst st) i (piece m l i) (noise_after B' l).
  Definition in_round (m : Rn N) (B' : Z) (L size l i : nat) (st : list ciphertext * ciphertext) : Prop :=
    length (fst st) = (2 ^ L)%nat /\ any_out par c1 (snd st) /\ (forall j, (j < i)%nat -> holds (fst st) j (piece m (S l) j) (noise_after B' (S l))) /\
    (forall j, (j < i)%nat -> (2 ^ l + j < size)%nat -> holds (fst st) (2 ^ l + j) (piece m (S l) (2 ^ l + j)) (noise_after B' (S l))) /\
    forall j, (i <= j < 2 ^ l)%nat -> holds (fst st) j (piece m l j) (noise_after B' l).
  Lemma holds_set outs k i ct m B' : (k < length outs)%nat -> holds (set_nth outs k ct) i m B' <-> (if Nat.eqb i k then enc ct m B' else holds outs i m B').
  Proof. intros Hk. unfold holds. rewrite nth_error_set by exact Hk. destruct (Nat.eqb i k); [split; [intros (x & E & H); injection E as <-; exact H|eauto]|reflexivity]. Qed.
  Lemma one_step K m B' L size l i st g v : N = (2 ^ K)%nat -> (l < L <= K)%nat -> (size <= 2 ^ L)%nat -> (i < 2 ^ l)%nat -> es (expansion_exponent N l) -> lookup (ek_gk ek) (expansion_exponent N l) = Some g ->
    in_round m B' L size l i st -> exists st', expand_one g (P NttShoup c1 v (rX N (2 * N - 2 ^ l))) (2 ^ l) size st i = Val st' /\ in_round m B' L size l (S i) st'.
  Proof.
    intros EN HL Hsz Hi He Hg (Lo & Ha & H1 & H2 & H3). destruct st as [outs sub]. cbn [fst snd] in *. destruct (H3 i ltac:(lia)) as (low & Elow & Hlow). assert (Hp : (2 ^ l + 2 ^ l <= 2 ^ L)%nat) by (replace (2 ^ l + 2 ^ l)%nat with (2 ^ S l)%nat by (cbn [Nat.pow]; lia); apply Nat.pow_le_mono_r; lia).
    destruct (apply_enc isp cands Ho par G l1 lv1 c1 A1 l2 lv2 c2 A2 Hle sk Hl ek es B HB HE Hes _ He) as (g' & Eg' & Hap). rewrite Hg in Eg'. injection Eg' as <-. destruct (Hap low _ _ Hlow sub Ha) as (sub' & Esub & Hsub).
    destruct (piece_steps K l m i EN ltac:(lia)) as (Ep & Em). set (b := noise_after B' l) in *. pose proof (noise_after_S B' l) as Eb. fold b in Eb.
    destruct (enc_add isp cands Ho par G l1 lv1 c1 A1 s _ _ _ _ _ _ Hlow Hsub) as (ra & Era & Hra). rewrite Ep in Hra. apply (enc_weaken isp cands Ho par G l1 lv1 c1 A1 s _ _ _ (noise_after B' (S l))) in Hra; [|rewrite Eb; lia].
    pose proof (enc_any isp cands Ho par G l1 lv1 c1 A1 s _ _ _ Hsub) as Ha'. unfold expand_one. cbn [fst snd]. unfold get at 1. rewrite Elow. cbn [unwrap bind]. rewrite Esub. cbn [bind].
    destruct (Nat.ltb_spec (2 ^ l + i) size) as [Hlt|Hge].
    - rewrite bind_guard by (apply Nat.ltb_lt; lia). destruct (enc_sub isp cands Ho par G l1 lv1 c1 A1 s _ _ _ _ _ _ Hlow Hsub) as (rs & Ers & Hrs). rewrite Ers. cbn [bind]. destruct (enc_mulX v (2 * N - 2 ^ l) rs _ _ Hrs) as (r0 & r1' & t0 & t1 & -> & -> & Er0 & Er1 & Hx). cbn [bind]. rewrite Er0. cbn [bind]. rewrite Er1. cbn [bind]. rewrite Era. cbn [bind].
      set (new := ct_overwrite (ct_overwrite rs 0 r0) 1 r1') in *. rewrite Em in Hx. replace (b + (b + 1 + D) + 1 + 1) with (noise_after B' (S l)) in Hx by (rewrite Eb; lia). eexists. split; [reflexivity|]. unfold in_round. cbn [fst snd]. assert (Hi' : (i < length (set_nth outs (2 ^ l + i) new))%nat) by (rewrite set_len; lia).
      split; [rewrite !set_len; exact Lo|]. split; [exact Ha'|]. split; [|split].
      + intros j Hj. rewrite holds_set by exact Hi'. destruct (Nat.eqb_spec j i) as [->|Hne]; [exact Hra|]. rewrite holds_set by lia. rewrite (proj2 (Nat.eqb_neq _ _)) by lia. apply H1. lia.
      + intros j Hj Hjs. rewrite holds_set by exact Hi'. rewrite (proj2 (Nat.eqb_neq (2 ^ l + j) i)) by lia. rewrite holds_set by lia. destruct (Nat.eqb_spec (2 ^ l + j) (2 ^ l + i)) as [E|Hne]; [assert (j = i) as -> by lia; exact Hx|]. apply H2; lia.
      + intros j Hj. rewrite holds_set by exact Hi'. rewrite (proj2 (Nat.eqb_neq j i)) by lia. rewrite holds_set by lia. rewrite (proj2 (Nat.eqb_neq _ _)) by lia. apply H3. lia.
    - cbn [bind]. rewrite Era. cbn [bind]. eexists. split; [reflexivity|]. unfold in_round. cbn [fst snd]. assert (Hi' : (i < length outs)%nat) by lia. split; [rewrite set_len; exact Lo|]. split; [exact Ha'|]. split; [|split].
      + intros j Hj. rewrite holds_set by exact Hi'. destruct (Nat.eqb_spec j i) as [->|Hne]; [exact Hra|]. apply H1. lia.
      + intros j Hj Hjs. rewrite holds_set by exact Hi'. rewrite (proj2 (Nat.eqb_neq (2 ^ l + j) i)) by lia. apply H2; lia.
      + intros j Hj. rewrite holds_set by exact Hi'. rewrite (proj2 (Nat.eqb_neq j i)) by lia. apply H3. lia.
  Qed.
  Lemma shr_eq l : Z.of_nat l < Z.log2 (Z.of_nat N) -> exists d, shrM (degree_of (ek_par ek)) (Z.of_nat l) = Val d /\ d + 1 = expansion_exponent N l.
  Proof.
    intros Hlt. destruct HE as (-> & _). pose proof (shr_exponent isp cands Ho par G l Hlt) as H. apply bind_inv in H. destruct H as (d & E & E'). injection E' as E'. eauto.
  Qed.
  Lemma one_round K m B' L size l st : N = (2 ^ K)%nat -> Z.log2 (degree_of par) = Z.of_nat K -> (l < L <= K)%nat -> (2 ^ (L - 1) < size <= 2 ^ L)%nat -> es (expansion_exponent N l) ->
    after_round m B' L size l st -> exists st', expand_round ek size st l = Val st' /\ after_round m B' L size (S l) st'.
  Proof.
    intros EN El HL Hsz He (Lo & Ha & H1). unfold expand_round. destruct (monomial_at K l EN El ltac:(lia)) as (v & ->). cbn [ok_or bind]. destruct (shr_eq l) as (d & -> & Ed); [unfold degree_of in El; lia|]. cbn [bind]. rewrite Ed.
    destruct (ek_lookup isp cands Ho par G l1 lv1 c1 A1 l2 lv2 c2 A2 Hle sk Hl ek es B HB HE Hes _ He) as (i & k & Eg & _). rewrite Eg. cbn [ok_or bind]. assert (Hp : (2 ^ l <= 2 ^ (L - 1))%nat) by (apply Nat.pow_le_mono_r; lia).
    rewrite bind_guard by (apply Nat.leb_le; lia). destruct (foldM_seq (expand_one (mkGk i k) (P NttShoup c1 v (rX N (2 * N - 2 ^ l))) (2 ^ l) size) (in_round m B' L size l) (2 ^ l)) with (k := (2 ^ l)%nat) (a := 0%nat) (s := st) as (st' & E & HI).
    - intros j st0 Hj HI. apply (one_step K); auto; lia.
    - lia.
    - split; [exact Lo|]. split; [exact Ha|]. split; [lia|]. split; [lia|]. intros j Hj. apply H1; lia.
    - exists st'. split; [exact E|]. cbn [plus] in HI. destruct HI as (Lo' & Ha' & H1' & H2' & _). split; [exact Lo'|]. split; [exact Ha'|]. intros j Hj Hjs. destruct (Nat.lt_ge_cases j (2 ^ l)) as [H|H]; [apply H1', H|]. replace j with (2 ^ l + (j - 2 ^ l))%nat by lia. cbn [Nat.pow] in Hj. apply H2'; lia.
  Qed.
  Definition expansion_enabled (L : nat) : Prop := forall k, (k < L)%nat -> es (expansion_exponent N k).
  Lemma supports_rounds K : N = (2 ^ K)%nat -> Z.log2 (degree_of par) = Z.of_nat K -> forall L, (L <= K)%nat -> exists b, supports_expansion ek L = Val b /\ (b = true <-> expansion_enabled L).
  Proof.
    intros EN El L HL. unfold supports_expansion. destruct (Nat.eqb_spec L 0) as [->|H0]; [exists true; split; [reflexivity|]; split; [intros _ k Hk; lia|reflexivity]|].
    assert (E1 : ek_par ek = par) by apply HE. assert (E2 : ek_level ek = l2) by apply HE. pose proof (al_lt _ _ _ _ _ _ A2) as Hlt2. rewrite E1, E2, (proj2 (Nat.eqb_neq _ _)) by lia. rewrite El, (proj2 (Z.leb_le _ _)) by lia.
    assert (HF : forall ls b, Forall (fun l => (l < K)%nat) ls -> exists b', foldM (fun ret l => d <- shrM (degree_of par) (Z.of_nat l) ;; Val (ret && has (ek_gk ek) (d + 1))) ls b = Val b' /\ (b' = true <-> b = true /\ Forall (fun l => es (expansion_exponent N l)) ls)).
    { induction ls as [|l ls IH]; intros b HF; cbn [foldM]; [exists b; split; [reflexivity|]; split; [auto|tauto]|]. pose proof (Forall_inv HF) as Hk. cbn beta in Hk. apply Forall_inv_tail in HF. destruct (shr_eq l) as (d & Es & Ed); [unfold degree_of in El; lia|]. rewrite E1 in Es. rewrite Es. cbn [bind]. rewrite Ed.
      destruct (IH (b && has (ek_gk ek) (expansion_exponent N l)) HF) as (b' & E & Hb). exists b'. split; [exact E|]. rewrite Hb, andb_true_iff, (ek_has isp cands Ho par G l1 lv1 c1 A1 l2 lv2 c2 A2 Hle sk Hl ek es B HB HE Hes). split; [intros ((Ha & Hb') & Hc); split; [exact Ha|constructor; assumption]|intros (Ha & Hb'); pose proof (Forall_inv Hb'); pose proof (Forall_inv_tail Hb'); auto]. }
    destruct (HF (seq 0 L) true) as (b & E & Hb); [apply Forall_forall; intros k Hk; apply in_seq in Hk; lia|]. exists b. split; [exact E|]. rewrite Hb. unfold expansion_enabled. rewrite Forall_forall. split; [intros (_ & H) k Hk; apply H, in_seq; lia|intros H; split; [reflexivity|]; intros k Hk; apply in_seq in Hk; apply H; lia].
  Qed.
  Lemma log2_up_facts K size : N = (2 ^ K)%nat -> 0 < size <= Z.of_nat N -> let L := Z.to_nat (Z.log2_up size) in (L <= K)%nat /\ (Z.to_nat size <= 2 ^ L)%nat /\ (L <> 0%nat -> (2 ^ (L - 1) < Z.to_nat size)%nat) /\ (L = 0%nat -> size = 1).
  Proof.
    intros EN Hs L. pose proof (Z.log2_up_nonneg size) as H0. assert (EL : Z.of_nat L = Z.log2_up size) by (apply Z2Nat.id; exact H0). rewrite EN, nat_pow2_Z in Hs.
    assert (HL : Z.log2_up size <= Z.of_nat K) by (rewrite <- (Z.log2_up_pow2 (Z.of_nat K)) by lia; apply Z.log2_up_le_mono; lia). split; [lia|].
    assert (Hup : size <= 2 ^ Z.log2_up size) by (destruct (Z.eq_dec size 1) as [->|]; [cbn; lia|]; apply Z.log2_up_spec; lia). split; [apply Nat2Z.inj_le; rewrite nat_pow2_Z, EL, Z2Nat.id; lia|]. split.
    - intros HL0. assert (1 < size) by (destruct (Z.eq_dec size 1) as [->|]; [change (Z.log2_up 1) with 0 in EL; lia|lia]). pose proof (Z.log2_up_spec size ltac:(lia)) as (Hlo & _). apply Nat2Z.inj_lt. rewrite nat_pow2_Z, Z2Nat.id by lia. replace (Z.of_nat (L - 1)) with (Z.pred (Z.log2_up size)) by lia. exact Hlo.
    - intros HL0. rewrite HL0 in EL. assert (size <= 2 ^ 0) by (rewrite <- EL in Hup; exact Hup). change (2 ^ 0) with 1 in *. lia.
  Qed.
  Theorem expands_enc ct m B' size : enc ct m B' -> 0 < size <= Z.of_nat N -> let L := Z.to_nat (Z.log2_up size) in
    (expansion_enabled L -> exists cts, expands ek ct size = Val cts /\ length cts = Z.to_nat size /\
      forall i, (i < Z.to_nat size)%nat -> holds cts i (piece m L i) (noise_after B' L)) /\
    (~ expansion_enabled L -> expands ek ct size = Err EkUnsupported).
  Proof.
    intros Hct Hs L. destruct (deg_pow isp cands Ho par G) as (K & HK & EN & _ & El & _). destruct (log2_up_facts K size EN Hs) as (HL & Hup & Hlo & H1). fold L in HL, Hup, Hlo, H1.
    assert (E1 : ek_par ek = par) by apply HE. unfold expands. rewrite (validate_enc isp cands Ho par G l1 lv1 c1 A1 l2 lv2 c2 A2 Hle sk Hl ek es B HB HE Hes ct m B' Hct). cbn [bind]. rewrite (proj2 (Z.eqb_neq _ _)) by lia. rewrite (proj2 (Z.ltb_ge _ _)) by (rewrite E1; unfold degree_of; lia). fold L.
    assert (Ep : piece m 0 0 = m) by (unfold piece; change (2 ^ 0)%nat with 1%nat; rewrite comp_1; change (Z.of_nat 1) with 1; rewrite rZ_1; ring). assert (En : noise_after B' 0 = B') by (unfold noise_after; change (2 ^ Z.of_nat 0) with 1; ring).
    destruct (Nat.eqb_spec L 0) as [HL0|HL0].
    - split; [|intros Hn; exfalso; apply Hn; intros k Hk; lia]. intros _. rewrite (H1 HL0), HL0. exists [ct]. split; [reflexivity|]. split; [reflexivity|]. intros i Hi. assert (i = 0%nat) as -> by lia. exists ct. split; [reflexivity|]. rewrite Ep, En. exact Hct.
    - destruct (supports_rounds K EN El L HL) as (b & -> & Hb). cbn [bind]. split; intros Hen.
      + rewrite (proj2 Hb Hen). specialize (Hlo HL0). rewrite (enc_par isp cands Ho par G l1 lv1 c1 A1 l2 lv2 c2 A2 Hle sk Hl ek es B HB HE Hes ct m B' Hct).
        destruct (foldM_seq (expand_round ek (Z.to_nat size)) (after_round m B' L (Z.to_nat size)) L) with (k := L) (a := 0%nat) (s := (ct :: repeat (ct_zero par) (2 ^ L - 1), ct_zero par)) as (st & E & Hst).
        * intros l st Hlt HI. apply (one_round K); auto; lia.
        * lia.
        * assert (0 < 2 ^ L)%nat by (apply Nat.neq_0_lt_0, Nat.pow_nonzero; lia). split; [cbn [fst length]; rewrite repeat_length; lia|]. split; [intros o0 o1 Hx; discriminate|]. intros i Hi _. change (2 ^ 0)%nat with 1%nat in Hi. assert (i = 0%nat) as -> by lia. exists ct. split; [reflexivity|]. rewrite Ep, En. exact Hct.
        * rewrite E. cbn [bind]. cbn [plus] in Hst. destruct Hst as (Lo & _ & Hh). eexists. split; [reflexivity|]. split; [rewrite firstn_length, Lo; lia|]. intros i Hi. destruct (Hh i ltac:(lia) Hi) as (r & Er & Hr). exists r. split; [|exact Hr]. rewrite nth_error_firstn_lt by exact Hi. exact Er.
      + destruct b; [exfalso; apply Hen, Hb; reflexivity|reflexivity].
  Qed.
End Expand.
Set Default Proof Using "Type".
