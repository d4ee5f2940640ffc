(** The response of the server and the answer of the client in the MulPIR example. *)
From Verif Require Import Outcome BasicSpec OutcomeLemmas ZqModel ZqProofs NumTheory NttModel PolySpec PolyRing NttPure NttStages NttProofs CbdModel CbdSpec CbdProofs.
From Verif Require Import TranscodeModel TranscodeProofs PrimesModel RnsModel RnsSpec RnsProofs RqModel RqSpec RqCtx RqRows RqProofs RingRn RqOps RqIO RqPropLemmas ParamsModel BfvSpec ParamsProofs BuildProofs ParamsPropLemmas PlainModel CipherModel OpsModel SchemeSpec CipherSpec PlainProofs PlainPropLemmas RnPoly CipherProofs EncryptProofs CipherPropLemmas LinearPropLemmas.
From Verif Require Import SerialPropLemmas DotPropLemmas MulPropLemmas KeysModel KeysSpec KeyPropLemmas EvalSpec EvalPropLemmas WireSpec KeySerialPropLemmas PolyEncProofs PirModel PirSpec PirLists PirProofs.
From Verif Require Import BasicSpec.
Set Default Proof Using "Type".

Lemma Forall2_nth_both {A B} (R : A -> B -> Prop) l l' d : Forall2 R l l' -> forall i x, nth_error l i = Some x -> R x (nth i l' d).
Proof. induction 1 as [|a b l l' H _ IH]; intros [|i] x E; cbn [nth_error nth] in *; try discriminate; [congruence|apply IH, E]. Qed.
Lemma Forall2_of_nth {A B} (R : A -> B -> Prop) d : forall l l', length l = length l' -> (forall i x, nth_error l i = Some x -> R x (nth i l' d)) -> Forall2 R l l'.
Proof.
  induction l as [|a l IH]; intros [|b l'] L H; try discriminate L; constructor; [exact (H 0%nat a eq_refl)|]. apply IH; [injection L as L; exact L|]. intros i x E. exact (H (S i) x E).
Qed.
Lemma Forall2_firstn_both {A B} (R : A -> B -> Prop) k : forall l l', Forall2 R l l' -> Forall2 R (firstn k l) (firstn k l').
Proof. induction k as [|k IH]; intros l l' H; [constructor|]. destruct H; cbn [firstn]; constructor; [assumption|]. apply IH. assumption. Qed.
Lemma Forall2_skipn_both {A B} (R : A -> B -> Prop) k : forall l l', Forall2 R l l' -> Forall2 R (skipn k l) (skipn k l').
Proof. induction k as [|k IH]; intros l l' H; [exact H|]. destruct H; cbn [skipn]; [constructor|]. apply IH. assumption. Qed.
Lemma zipWith_zero_l n x : length x = n -> zipWith Z.add (repeat 0 n) x = x.
Proof. intros <-. induction x as [|a x IH]; cbn [length repeat zipWith]; [reflexivity|]. rewrite IH. reflexivity. Qed.
Lemma nth_map_seq {A} (f : nat -> A) d n i : (i < n)%nat -> nth i (map f (seq 0 n)) d = f i.
Proof. intros H. rewrite (nth_indep _ d (f 0%nat)) by (rewrite map_length, seq_length; exact H). rewrite map_nth, seq_nth by exact H. reflexivity. Qed.

Section Server.
  Context (isp : Z -> bool) (cands : Z -> list Z) (par : params) (Ho : oracles isp cands) (Hp : is_params isp cands par) (HP : pir_params par).
  Context (sk : secret_key) (Hsk : is_sk par sk).
  Set Default Proof Using "All".
  Notation N := (pa_degree par).
  Notation t := (pa_t par).
  Notation w := (Z.log2 (pa_t par)).
  Notation S1 := (norm1 (sk_coeffs sk)).
  Notation G := (params_good isp cands par Ho Hp).

  Lemma last_switch ct m B : encrypts2 par sk 1 ct m B ->
    exists ct', ct_switch_to_level ct (max_level (ct_par ct)) = Val ct' /\ ct_seed ct' = None /\ encrypts2 par sk 2 ct' m (last_noise par S1 B).
  Proof.
    intros (L2 & He). pose proof (pir_levels isp cands par Ho Hp HP) as Hml. pose proof He as (xs & e & Hct & _). rewrite (proj1 Hct), Hml.
    destruct (enc_switch_all isp cands par Ho Hp 1%nat 2%nat ltac:(lia) ltac:(lia) sk ct m B Hsk He) as (ct' & E & He'). destruct (switch_all isp cands par Ho Hp 1%nat 2%nat ltac:(lia) ltac:(lia) ct xs Hct) as (ct'' & ys & E' & Hct' & Ly & _ & Hs).
    rewrite E in E'. injection E' as <-. exists ct'. split; [exact E|]. split; [apply Hs; lia|]. rewrite L2 in He'. split; [|exact He']. rewrite (Forall2_length_eq _ _ _ (proj2 (proj2 Hct'))), Ly, <- (Forall2_length_eq _ _ _ (proj2 (proj2 Hct))). exact L2.
  Qed.

  Section Columns.
    Context (pre : list plaintext) (vs : list (list Z)) (d1 d2 : nat) (Hd1 : (0 < d1)%nat) (Lpre : length pre = (d1 * d2)%nat) (HF : Forall2 (is_pt par 1) pre vs) (HV : Forall (fun v => length v = N /\ digits w v) vs).
    Definition cvals (i : nat) : list (list Z) := map (fun j => nth (i + j * d2) vs []) (seq 0 d1).
    Lemma cvals_length i : length (cvals i) = d1.
    Proof. unfold cvals. rewrite map_length, seq_length. reflexivity. Qed.
    Lemma index_lt i j : (i < d2)%nat -> (j < d1)%nat -> (i + j * d2 < d1 * d2)%nat.
    Proof. intros. assert ((j + 1) * d2 <= d1 * d2)%nat by (apply Nat.mul_le_mono_r; lia). lia. Qed.
    Lemma cvals_good i : (i < d2)%nat -> Forall (fun v => length v = N /\ digits w v) (cvals i).
    Proof.
      intros Hi. apply Forall_forall. intros v Hin. apply in_map_iff in Hin. destruct Hin as (j & <- & Hj). apply in_seq in Hj. apply (proj1 (Forall_forall _ _) HV), nth_In. rewrite <- (Forall2_length_eq _ _ _ HF), Lpre. apply index_lt; lia.
    Qed.
    Lemma column_pts i : (i < d2)%nat -> exists col, column d2 i pre = Val col /\ length col = d1 /\ Forall2 (is_pt par 1) col (cvals i).
    Proof.
      intros Hi. destruct (column_val d1 d2 i pre Hi Lpre) as (col & E & L & Hn). exists col. split; [exact E|]. split; [exact L|]. apply (Forall2_of_nth _ []); [rewrite cvals_length; exact L|].
      intros j x Ej. assert (Hj : (j < d1)%nat) by (rewrite <- L; apply nth_error_Some; congruence). unfold cvals. rewrite nth_map_seq by exact Hj. rewrite Hn in Ej. exact (Forall2_nth_both _ _ _ [] HF _ _ Ej).
    Qed.
    Lemma column_sum_select i q us : (i < d2)%nat -> length us = d1 -> selects t q us -> map (fun a => a mod t) (wsum N us (cvals i)) = nth (i + q * d2) vs [].
    Proof.
      intros Hi Lu Hs. pose proof (pir_w isp cands par Ho Hp HP) as (_ & Hw2 & Ht). assert (Hq : (q < d1)%nat) by (rewrite <- Lu; exact (proj1 Hs)).
      rewrite (wsum_select N t q us (cvals i)) by (lia || exact Hs || (rewrite cvals_length; exact Lu) || (eapply Forall_impl; [|apply cvals_good, Hi]; intros v Hv; exact (proj1 Hv))). unfold cvals. rewrite nth_map_seq by exact Hq.
      assert (Hg : digits w (nth (i + q * d2) vs [])) by (apply (proj1 (Forall_forall _ _) HV), nth_In; rewrite <- (Forall2_length_eq _ _ _ HF), Lpre; apply index_lt; lia).
      rewrite <- (map_id (nth (i + q * d2) vs [])) at 2. apply map_ext_in. intros a Ha. apply (proj1 (Forall_forall _ _) Hg) in Ha. apply Z.mod_small. lia.
    Qed.

    Context (qv : list ciphertext) (us : list Z) (B : Z) (HB : 0 <= B) (Lqv : length qv = d1) (Hqv : Forall2 (fun ct u => encrypts2 par sk 1 ct (const N u) B) qv us).
    Lemma column_dot i : (i < d2)%nat -> exists col ct, column d2 i pre = Val col /\ dot_product_scalar qv col = Val ct /\ ct_seed ct = None /\ encrypts2 par sk 1 ct (wsum N us (cvals i)) (column_noise par d1 B).
    Proof.
      intros Hi. destruct (column_pts i Hi) as (col & E & L & F). destruct (weighted_dot isp cands par Ho Hp HP sk Hsk qv us B col (cvals i) HB Hqv F (cvals_good i Hi) ltac:(lia) ltac:(intros ->; cbn in Lqv; lia)) as (ct & Ed & Hs & He).
      rewrite Lqv in He. exists col, ct. auto.
    Qed.

    (** ** MulPIR: the sum of the products of the columns with the rest of the query *)
    Notation P := (mul_noise N t (level_modulus par 1) S1 2 2 (column_noise par d1 B) B).
    Context (Hr : mul_room par 1 2) (HB1 : 2 * t * (B + 1) <= level_modulus par 1) (HB2 : 2 * t * (column_noise par d1 B + 1) <= level_modulus par 1).
    Definition enc3 (ct : ciphertext) (m : list Z) (A : Z) : Prop := length (ct_c ct) = 3%nat /\ ct_seed ct = None /\ encrypts par sk 1 ct m A.
    Lemma product_step i ci u : (i < d2)%nat -> encrypts2 par sk 1 ci (const N u) B -> exists col dp p, column d2 i pre = Val col /\ dot_product_scalar qv col = Val dp /\ ct_mul dp ci = Val p /\ enc3 p (map (Z.mul u) (wsum N us (cvals i))) P.
    Proof.
      intros Hi (Lc & Hci). destruct (column_dot i Hi) as (col & dp & E1 & E2 & _ & Ld & Hdp). pose proof (pir_levels isp cands par Ho Hp HP) as Hml. destruct (pir_N isp cands par Ho Hp HP) as (K & _ & _ & _ & HN). destruct HP as (_ & Hsup & _).
      destruct (enc_mul_all isp cands par Ho Hp Hsup 1%nat ltac:(lia) sk dp ci _ _ _ _ Hsk Hdp Hci HB2 HB1 ltac:(rewrite Ld; exact Hr)) as (p & E & Hs & Lp & He). rewrite Ld, Lc in Lp, He.
      exists col, dp, p. do 3 (split; [assumption|]). split; [exact Lp|]. split; [exact Hs|].
      assert (Lw : length (wsum N us (cvals i)) = N) by (apply wsum_length; eapply Forall_impl; [|apply cvals_good, Hi]; intros v Hv; exact (proj1 Hv)).
      rewrite negacyclic_comm, negacyclic_const_l in He; [exact He|lia|exact Lw|exact Lw|destruct Hci as (xs & e & _ & _ & Lm & _); exact Lm].
    Qed.
    Lemma enc3_add a b m m' A A' : enc3 a m A -> enc3 b m' A' -> exists ct, ct_add a b = Val ct /\ enc3 ct (zipWith Z.add m m') (A + A' + 1).
    Proof.
      intros (La & Sa & Ha) (Lb & Sb & Hb). pose proof (pir_levels isp cands par Ho Hp HP) as Hml. destruct (proj1 (enc_add_all isp cands par Ho Hp 1%nat ltac:(lia) sk a b m m' A A' Hsk Ha Hb ltac:(congruence))) as (ct & E & He).
      pose proof Ha as (xs & ? & Hca & Lx & _). pose proof Hb as (ys & ? & Hcb & _). pose proof (Forall2_length_eq _ _ _ (proj2 (proj2 Hca))) as E1. pose proof (Forall2_length_eq _ _ _ (proj2 (proj2 Hcb))) as E2.
      destruct (add_all isp cands par Ho Hp 1%nat ltac:(lia) a b xs ys Hca Hcb ltac:(congruence) ltac:(intros ->; cbn in Lx; lia)) as (ct' & E' & Hs & Hct & _). rewrite E in E'. injection E' as <-.
      exists ct. split; [exact E|]. split; [|split; [exact Hs|exact He]]. rewrite (Forall2_length_eq _ _ _ (proj2 (proj2 Hct))). unfold add_parts. rewrite map_length, combine_length. lia.
    Qed.
    Notation step := (fun out '(i, ci) => col <- column d2 i pre ;; dp <- dot_product_scalar qv col ;; p <- ct_mul dp ci ;; ct_add out p).
    Lemma product_fold cs ws : Forall2 (fun c u => encrypts2 par sk 1 c (const N u) B) cs ws -> forall i out m A, (i + length cs <= d2)%nat -> enc3 out m A ->
      exists out', foldM step (combine (seq i (length cs)) cs) out = Val out' /\ enc3 out' (fold_left (zipWith Z.add) (zipWith (fun u p => map (Z.mul u) p) ws (map (fun j => wsum N us (cvals j)) (seq i (length cs)))) m) (A + Z.of_nat (length cs) * (P + 1)).
    Proof.
      induction 1 as [|c u cs ws Hc _ IH]; intros i out m A Hi Hout.
      - exists out. cbn [length seq combine foldM map zipWith fold_left]. split; [reflexivity|]. replace (A + Z.of_nat 0 * (P + 1)) with A by lia. exact Hout.
      - cbn [length] in *. destruct (product_step i c u ltac:(lia) Hc) as (col & dp & p & E1 & E2 & E3 & Hp3). destruct (enc3_add out p _ _ _ _ Hout Hp3) as (o & Eo & Ho3). destruct (IH (S i) o _ _ ltac:(lia) Ho3) as (out' & E & Hf).
        exists out'. cbn [seq combine foldM map zipWith fold_left]. rewrite E1. cbn [bind]. rewrite E2. cbn [bind]. rewrite E3. cbn [bind]. rewrite Eo. cbn [bind]. split; [exact E|].
        rewrite Nat2Z.inj_succ. replace (A + Z.succ (Z.of_nat (length cs)) * (P + 1)) with (A + P + 1 + Z.of_nat (length cs) * (P + 1)) by lia. exact Hf.
    Qed.
    Lemma product_sum cs ws : Forall2 (fun c u => encrypts2 par sk 1 c (const N u) B) cs ws -> length cs = d2 -> (0 < d2)%nat ->
      exists out, foldM step (combine (seq 0 (length cs)) cs) (ct_zero par) = Val out /\ enc3 out (wsum N ws (map (fun j => wsum N us (cvals j)) (seq 0 d2))) (Z.of_nat d2 * (P + 1) - 1).
    Proof.
      intros HC Lc Hd2. inversion HC as [|c u cs' ws' Hc HC' E1 E2]; subst cs ws; [cbn in Lc; lia|]. cbn [length] in Lc.
      destruct (product_step 0%nat c u ltac:(lia) Hc) as (col & dp & p & E1 & E2 & E3 & Hp3). destruct (product_fold cs' ws' HC' 1%nat p _ _ ltac:(lia) Hp3) as (out & E & Hf).
      exists out. cbn [length seq combine foldM]. rewrite E1. cbn [bind]. rewrite E2. cbn [bind]. rewrite E3. cbn [bind].
      assert (Hpar : ct_par p = par) by (destruct Hp3 as (_ & _ & xs & e & Hct & _); exact (proj1 Hct)). rewrite (proj1 (zero_all par p Hpar)). cbn [bind]. split; [exact E|].
      rewrite <- Lc. cbn [seq map]. unfold wsum at 1, poly_sum. cbn [zipWith fold_left]. rewrite zipWith_zero_l.
      - replace (Z.of_nat (S (length cs')) * (P + 1) - 1) with (P + Z.of_nat (length cs') * (P + 1)) by lia. exact Hf.
      - rewrite map_length. apply wsum_length. eapply Forall_impl; [|apply cvals_good; lia]. intros v Hv. exact (proj1 Hv).
    Qed.
  End Columns.
End Server.

Section Client.
  Context (isp : Z -> bool) (cands : Z -> list Z) (par : params) (Ho : oracles isp cands) (Hp : is_params isp cands par) (HP : pir_params par).
  Context (isqrt : nat -> nat) (esize : nat) (db : list (list Z)) (d1 d2 : nat) (Hdb : database esize db) (Hne : db <> []) (Hes : (0 < esize)%nat) (Hfit : 8 * Z.of_nat esize <= Z.log2 (pa_t par) * Z.of_nat (pa_degree par)) (Hlay : layout isqrt par esize db d1 d2).
  Context (sk : secret_key) (Hsk : is_sk par sk).
  Set Default Proof Using "All".
  Notation N := (pa_degree par).
  Notation t := (pa_t par).
  Notation w := (Z.log2 (pa_t par)).
  Notation npp := (Z.to_nat (per_row par esize)).
  Notation rows := (row_count par esize db).
  Notation S1 := (norm1 (sk_coeffs sk)).

  (** ** Positions *)
  Lemma npp_pos : (0 < npp)%nat.
  Proof. pose proof (per_row_range isp cands par Ho Hp HP isqrt esize db d1 d2 Hdb Hne Hes Hfit Hlay) as ((H & _) & _). lia. Qed.
  Lemma row_lt index : (index < length db)%nat -> Z.of_nat (index / npp) < rows /\ (index / npp < d1 * d2)%nat /\ (index mod npp < npp)%nat /\ (index mod npp + index / npp * npp = index)%nat.
  Proof.
    intros Hi. pose proof npp_pos as Hn. destruct (rows_range isp cands par Ho Hp HP isqrt esize db d1 d2 Hdb Hne Hes Hfit Hlay) as (R1 & R2 & _ & R4). pose proof (per_row_range isp cands par Ho Hp HP isqrt esize db d1 d2 Hdb Hne Hes Hfit Hlay) as ((H & _) & _).
    pose proof (ceiling_bound (Z.of_nat (length db)) (per_row par esize) ltac:(lia)) as Hc. rewrite <- R4 in Hc.
    assert (Hlt : Z.of_nat (index / npp) < rows). { rewrite Nat2Z.inj_div, Z2Nat.id by lia. apply Z.div_lt_upper_bound; lia. }
    split; [exact Hlt|]. split; [lia|]. split; [apply Nat.mod_upper_bound; lia|]. pose proof (Nat.div_mod index npp ltac:(lia)). lia.
  Qed.

  (** ** The last steps of the client *)
  Lemma extract_val ct m B v index : (index < length db)%nat -> encrypts2 par sk 2 ct m B -> small_noise par 2 B -> map (fun a => a mod t) m = v -> length v = N -> digits w v ->
    digits_value w v = digits_value 8 (row_content db npp esize (index / npp)) -> exists pt, sk_decrypt sk ct = Val pt /\ pir_extract sk ct pt esize index = Val (nth index db []).
  Proof.
    intros Hi (_ & He) Hsm Em Lv Hd Hval. pose proof (pir_levels isp cands par Ho Hp HP) as Hml. pose proof (pir_w isp cands par Ho Hp HP) as (Hw & Hw2 & Ht). destruct (pir_N isp cands par Ho Hp HP) as (K & HK & _ & EN & HN). pose proof HP as (_ & Hsup & Hdec & _).
    destruct (decrypt_all isp cands par Ho Hp 2%nat ltac:(lia) Hsup Hdec sk ct m B Hsk He Hsm) as (pt & E & Hpt & Enc). rewrite Em in Hpt. exists pt. split; [exact E|]. unfold pir_extract.
    rewrite (decode_poly_all isp cands par Ho Hp 2%nat ltac:(lia) (level_fits isp cands par Ho Hp HP 2%nat ltac:(lia)) pt v Hpt) by ((left; exact Enc) || (eapply Forall_impl; [|exact Hd]; cbv beta; unfold is_u64; intros; lia)). cbn [bind].
    rewrite (proj1 Hsk), (pir_plain_bits isp cands par Ho Hp HP). cbn [bind]. pose proof (wN_bound isp cands par Ho Hp HP isqrt esize db d1 d2 Hdb Hne Hes Hfit Hlay) as Hwn.
    destruct (bytes_all v w ltac:(lia) Hd ltac:(unfold len; rewrite Lv; lia)) as (bs & Eb & Hb & Lb & Hbv & _). rewrite Eb. cbn [bind]. rewrite (npp_val isp cands par Ho Hp HP isqrt esize db d1 d2 Hdb Hne Hes Hfit Hlay). cbn [bind].
    pose proof npp_pos as Hn. replace (Nat.eqb npp 0) with false by (symmetry; apply Nat.eqb_neq; lia). cbn [negb guard bind].
    destruct He as (xs & e & Hct & Lx & Lm & Le & Hbd & Hc). destruct (measure_all isp cands par Ho Hp 2%nat ltac:(lia) Hsup Hdec sk ct xs m e B Hsk Hct Lx Lm Le Hbd Hsm Hc) as (n & -> & _). cbn [bind].
    destruct (row_lt index Hi) as (_ & _ & Ho1 & Ho2). pose proof (per_row_range isp cands par Ho Hp HP isqrt esize db d1 d2 Hdb Hne Hes Hfit Hlay) as ((HA & _) & HBn). pose proof (row_content_length db npp esize (index / npp) Hdb) as Lr.
    assert (HL : (npp * esize <= length bs)%nat). { apply Nat2Z.inj_le. fold (len bs). rewrite Lb. unfold len. rewrite Lv, Nat2Z.inj_mul, Z2Nat.id by lia. apply Z.div_le_lower_bound; lia. }
    assert (HO : ((index mod npp + 1) * esize <= npp * esize)%nat) by (apply Nat.mul_le_mono_r; lia). rewrite range_val by lia.
    rewrite (digits_unique 8 (row_content db npp esize (index / npp)) bs ltac:(lia) (row_content_digits _ _ _ _ Hdb) Hb ltac:(lia) ltac:(congruence)).
    rewrite (row_content_slice db npp esize _ _ _ Hdb Ho1) by lia. rewrite Ho2. reflexivity.
  Qed.

  (** ** MulPIR *)
  Context (expand : expander) (derive : deriver) (Hx : expands_well expand) (d : pir_draws) (Hd : draws_ok d).
  Lemma mulpir_answers index pre vs ek es rk : (index < length db)%nat -> mulpir_room par S1 d1 d2 ->
    length pre = (d1 * d2)%nat -> Forall2 (is_pt par 1) pre vs -> Forall (fun v => length v = N /\ digits w v) vs -> (forall q, Z.of_nat q < rows -> digits_value w (nth q vs []) = digits_value 8 (row_content db npp esize q)) ->
    is_ek par sk 1 0 ek es (2 * pa_variance par) -> proper_exponents N es -> round_exponents N (Z.to_nat (Z.log2_up (Z.of_nat (d1 + d2)))) es ->
    k_log_base rk = 0 -> is_ksk par sk 1 1 rk (map (Z.mul (level_ratio par 1 1)) (negacyclic N (sk_coeffs sk) (sk_coeffs sk))) (2 * pa_variance par) ->
    exists pr r, pir_query expand sk d1 d2 (index / npp) d = Val pr /\ mulpir_response expand par pre d1 d2 ek rk pr = Val r /\ mulpir_answer expand sk r esize index = Val (nth index db []).
  Proof.
    intros Hi (Hr & HB1 & HB2 & Hsm) Lpre HF HV Hval Hek Hpe Hre Hlb Hk. destruct (dims_bound isp cands par Ho Hp HP isqrt esize db d1 d2 Hdb Hne Hes Hfit Hlay) as (HD & Hd1 & Hd2 & _). destruct (row_lt index Hi) as (Hq & Hqd & _). set (q := (index / npp)%nat) in *.
    destruct (expanded_query_val isp cands par Ho Hp HP expand derive Hx sk Hsk d Hd d1 d2 q Hd1 Hd2 HD Hqd ek es Hek Hpe Hre) as (pr & query & ex & us & E1 & E2 & E3 & Lex & Lus & S_1 & S_2 & Hex). set (B := expanded_noise par S1 (d1 + d2)) in *.
    assert (HB : 0 <= B).
    { destruct (nth_error ex 0) as [c|] eqn:E0; [|apply nth_error_None in E0; lia]. destruct (Hex _ _ E0) as (_ & xs & e & _ & _ & _ & Le & Hb & _). destruct (pir_N isp cands par Ho Hp HP) as (K & _ & _ & _ & HN). destruct e as [|a e]; [cbn in Le; lia|]. apply Forall_cons_iff in Hb. lia. }
    assert (HQ : Forall2 (fun ct u => encrypts2 par sk 1 ct (const N u) B) ex us) by (apply (Forall2_of_nth _ 0); [congruence|exact Hex]).
    assert (HQ1 : Forall2 (fun ct u => encrypts2 par sk 1 ct (const N u) B) (firstn d1 ex) (firstn d1 us) /\ Forall2 (fun ct u => encrypts2 par sk 1 ct (const N u) B) (skipn d1 ex) (skipn d1 us)).
    { split; [apply Forall2_firstn_both, HQ|apply Forall2_skipn_both, HQ]. }
    destruct HQ1 as (HQ1 & HQ2). assert (L1 : length (firstn d1 ex) = d1) by (rewrite firstn_length; lia). assert (L2 : length (skipn d1 ex) = d2) by (rewrite skipn_length; lia).
    destruct (product_sum isp cands par Ho Hp HP sk Hsk pre vs d1 d2 Hd1 Lpre HF HV (firstn d1 ex) (firstn d1 us) B HB L1 HQ1 Hr HB1 HB2 (skipn d1 ex) (skipn d1 us) HQ2 L2 Hd2) as (out & Eo & Lo & So & He).
    set (M := wsum N (skipn d1 us) _) in He. pose proof (pir_levels isp cands par Ho Hp HP) as Hml.
    destruct (relinearizes_all isp cands par Ho Hp sk Hsk 1%nat 1%nat ltac:(lia) ltac:(lia) rk (2 * pa_variance par) ltac:(pose proof (gp_var _ _ _ (params_good isp cands par Ho Hp)); lia) Hk) as (R1 & R2).
    destruct (R2 out M _ He Lo) as (o2 & Er & Lo2 & He2). rewrite Hlb in He2. destruct (last_switch isp cands par Ho Hp HP sk Hsk o2 M _ (conj Lo2 He2)) as (o3 & Es & Ss & Lo3 & He3).
    destruct (wire_encrypts isp cands par Ho Hp HP expand derive Hx sk Hsk d Hd 2%nat o3 M _ 2%nat ltac:(lia) ltac:(intros sd Esd; congruence) Lo3 He3) as (r & o4 & Ew1 & Ew2 & Lo4 & He4).
    exists pr, r. split; [exact E1|]. split.
    { unfold mulpir_response. rewrite E2. cbn [bind]. rewrite E3. cbn [bind]. rewrite range_val by lia. cbn [skipn bind]. rewrite range_val by lia. rewrite firstn_all. cbn [bind]. rewrite Eo. cbn [bind]. rewrite Er. cbn [bind]. rewrite Es. cbn [bind]. exact Ew1. }
    assert (HM : map (fun a => a mod t) M = nth q vs []).
    { pose proof (pir_w isp cands par Ho Hp HP) as (_ & _ & Ht). unfold M. rewrite (wsum_select N t (q mod d2)); [|lia| | |exact S_2].
      - rewrite nth_map_seq by (apply Nat.mod_upper_bound; lia). rewrite (column_sum_select isp cands par Ho Hp HP sk Hsk pre vs d1 d2 Hd1 Lpre HF HV (q mod d2) (q / d2) (firstn d1 us)) by ((apply Nat.mod_upper_bound; lia) || exact S_1 || (rewrite firstn_length; lia)).
        f_equal. pose proof (Nat.div_mod q d2 ltac:(lia)). lia.
      - apply Forall_forall. intros v Hin. apply in_map_iff in Hin. destruct Hin as (j & <- & Hj). apply in_seq in Hj. apply wsum_length. eapply Forall_impl; [|apply (cvals_good isp cands par Ho Hp HP sk Hsk pre vs d1 d2 Hd1 Lpre HF HV j); lia]. intros v Hv. exact (proj1 Hv).
      - rewrite map_length, seq_length, skipn_length. lia. }
    assert (Hg : length (nth q vs []) = N /\ digits w (nth q vs [])) by (apply (proj1 (Forall_forall _ _) HV), nth_In; rewrite <- (Forall2_length_eq _ _ _ HF), Lpre; exact Hqd).
    assert (Hkb : key_base par 1 = 0) by (unfold key_base, level_moduli; destruct HP as (L3 & _); destruct (pa_moduli par) as [|q0 [|q1 [|q2 [|? ?]]]]; try discriminate L3; reflexivity).
    unfold mulpir_noise, key_noise in Hsm. rewrite Hkb in Hsm.
    destruct (extract_val o4 M _ (nth q vs []) index Hi (conj Lo4 He4) Hsm HM (proj1 Hg) (proj2 Hg) (Hval q Hq)) as (pt & Ed & Ee).
    unfold mulpir_answer. rewrite (proj1 Hsk), Ew2. cbn [bind]. rewrite Ed. cbn [bind]. exact Ee.
  Qed.
End Client.
