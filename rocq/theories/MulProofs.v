(** Products of ciphertexts: extension of the basis, products of parts and scaling down, on ring elements. *)
From Verif Require Import Outcome BasicSpec OutcomeLemmas ZqModel ZqProofs NumTheory NttModel PolySpec PolyRing NttPure NttStages NttProofs CbdModel CbdSpec CbdProofs.
From Verif Require Import TranscodeModel RnsModel RnsSpec RnsProofs RqModel RqSpec RqCtx RqRows RqProofs RingRn RqOps RqIO ParamsModel BfvSpec ParamsProofs BuildProofs PlainModel CipherModel OpsModel SchemeSpec CipherSpec PlainProofs RnPoly CipherProofs EncryptProofs CipherPropLemmas.
From Coq Require Import Znumtheory.
Set Default Proof Using "Type".

(** ** Products of lists of ring elements *)
Section Conv.
  Context {N : nat}.
  Add Ring RnConv : (Rn_ring N).
  Notation "0" := (r0 N) : rn_scope.
  Fixpoint rpow (s : Rn N) (k : nat) : Rn N := match k with O => r1 N | S k' => (s * rpow s k')%R end.
  Lemma rpow_add s a b : rpow s (a + b) = (rpow s a * rpow s b)%R.
  Proof. induction a as [|a IH]; cbn [rpow Nat.add]; [ring|]. rewrite IH. ring. Qed.
  Definition nthr (l : list (Rn N)) (k : nat) : Rn N := nth k l (r0 N).
  Definition rsum {A} (f : A -> Rn N) (l : list A) : Rn N := fold_right (fun a acc => f a + acc)%R (r0 N) l.
  Lemma rsum_nil {A} (f : A -> Rn N) : rsum f [] = r0 N.
  Proof. reflexivity. Qed.
  Lemma rsum_cons {A} (f : A -> Rn N) a l : rsum f (a :: l) = (f a + rsum f l)%R.
  Proof. reflexivity. Qed.
  Lemma rphase_nil (s : Rn N) : rphase s [] = r0 N.
  Proof. reflexivity. Qed.
  Lemma rphase_cons (s : Rn N) x l : rphase s (x :: l) = (x + s * rphase s l)%R.
  Proof. reflexivity. Qed.
  Lemma rsum_app {A} (f : A -> Rn N) l l' : rsum f (l ++ l') = (rsum f l + rsum f l')%R.
  Proof. induction l as [|a l IH]; cbn [app]; rewrite ?rsum_cons, ?rsum_nil; [ring|]. rewrite IH. ring. Qed.
  Lemma rsum_map {A B} (g : A -> B) (f : B -> Rn N) l : rsum f (map g l) = rsum (fun a => f (g a)) l.
  Proof. induction l as [|a l IH]; [reflexivity|]. cbn [map rsum fold_right]. unfold rsum in IH. rewrite IH. reflexivity. Qed.
  Lemma rsum_mul_l {A} x (f : A -> Rn N) l : rsum (fun a => x * f a)%R l = (x * rsum f l)%R.
  Proof. induction l as [|a l IH]; rewrite ?rsum_cons, ?rsum_nil; [ring|]. rewrite IH. ring. Qed.
  Lemma rsum_ext {A} (f g : A -> Rn N) l : (forall a, In a l -> f a = g a) -> rsum f l = rsum g l.
  Proof. induction l as [|a l IH]; intros H; [reflexivity|]. cbn [rsum fold_right]. rewrite (H a (or_introl eq_refl)). f_equal. apply IH. intros; apply H; right; assumption. Qed.
  Lemma rsum_prod {A B} (f : A -> Rn N) (g : B -> Rn N) la lb : rsum (fun ab => f (fst ab) * g (snd ab))%R (list_prod la lb) = (rsum f la * rsum g lb)%R.
  Proof.
    induction la as [|a la IH]; cbn [list_prod]; [rewrite !rsum_nil; ring|]. rewrite rsum_app, IH, rsum_map. cbn [fst snd]. rewrite rsum_mul_l, rsum_cons. ring.
  Qed.
  Lemma rphase_set s zs k p : (k < length zs)%nat -> rphase s (set_nth zs k (nthr zs k + p)%R) = (rphase s zs + rpow s k * p)%R.
  Proof.
    revert k. induction zs as [|z zs IH]; intros [|k] H; cbn [length] in H; try lia; cbn [set_nth rpow]; rewrite !rphase_cons.
    - unfold nthr. cbn [nth]. ring.
    - change (nthr (z :: zs) (S k)) with (nthr zs k). rewrite IH by lia. ring.
  Qed.
  Lemma rphase_rsum_from s xs : forall j, rsum (fun i => rpow s i * nthr xs (i - j))%R (seq j (length xs)) = (rpow s j * rphase s xs)%R.
  Proof.
    induction xs as [|x xs IH]; intros j; [cbn [length seq]; rewrite rsum_nil, rphase_nil; ring|]. cbn [length seq]. rewrite rsum_cons, rphase_cons.
    assert (E : rsum (fun i => rpow s i * nthr (x :: xs) (i - j))%R (seq (S j) (length xs)) = rsum (fun i => rpow s i * nthr xs (i - S j))%R (seq (S j) (length xs))).
    { apply rsum_ext. intros a Ha. apply in_seq in Ha. replace (a - j)%nat with (S (a - S j)) by lia. reflexivity. }
    rewrite E, IH. rewrite Nat.sub_diag. unfold nthr. cbn [nth rpow]. ring.
  Qed.
  Lemma rphase_rsum s xs : rsum (fun i => rpow s i * nthr xs i)%R (seq 0 (length xs)) = rphase s xs.
  Proof. pose proof (rphase_rsum_from s xs 0) as H. cbn [rpow] in H. transitivity (r1 N * rphase s xs)%R; [|ring]. rewrite <- H. apply rsum_ext. intros a _. rewrite Nat.sub_0_r. reflexivity. Qed.

  (** The pairs of indices that contribute to the part [k]. *)
  Definition hits (k : nat) (ps : list (nat * nat)) : Z := fold_right (fun p acc => (if Nat.eqb (fst p + snd p) k then 1 else 0) + acc) 0 ps.
  Lemma hits_nonneg k ps : 0 <= hits k ps.
  Proof. induction ps as [|p ps IH]; cbn [hits fold_right]; [lia|]. unfold hits in IH. destruct (Nat.eqb _ _); lia. Qed.
  Lemma hits_app k a b : hits k (a ++ b) = hits k a + hits k b.
  Proof. induction a as [|p a IH]; [reflexivity|]. cbn [app hits fold_right]. unfold hits in *. rewrite IH. lia. Qed.
  Lemma hits_row k i js : NoDup js -> hits k (map (fun j => (i, j)) js) <= 1.
  Proof.
    induction 1 as [|j js Hj Hn IH]; cbn [map hits fold_right fst snd]; [lia|]. fold (hits k (map (fun j => (i, j)) js)).
    destruct (Nat.eqb_spec (i + j) k) as [E|E]; [|lia]. assert (Hz : hits k (map (fun j => (i, j)) js) = 0); [|lia].
    clear -Hj E. induction js as [|a js IH]; [reflexivity|]. cbn [map hits fold_right fst snd]. fold (hits k (map (fun j => (i, j)) js)). rewrite IH by (intros H; apply Hj; right; exact H). destruct (Nat.eqb_spec (i + a) k); [|reflexivity]. exfalso. apply Hj. left. lia.
  Qed.
  Lemma hits_prod k is js : NoDup js -> hits k (list_prod is js) <= Z.of_nat (length is).
  Proof. intros Hn. induction is as [|i is IH]; cbn [list_prod]; [cbn; lia|]. rewrite hits_app. pose proof (hits_row k i js Hn). cbn [length]. lia. Qed.
End Conv.

Section Parts.
  Context (c : ctx) (Hc : ctx_ok c) (N : nat) (HN : c_degree c = N).
  Set Default Proof Using "All".
  Add Ring RnParts : (Rn_ring N).
  Notation parts := (@parts N c).
  Lemma get_parts (vxs : list (bool * Rn N)) i : (i < length vxs)%nat -> exists v, get (parts vxs) i = Val (P Ntt c v (nthr (map snd vxs) i)).
  Proof.
    revert i. induction vxs as [|(v & x) vxs IH]; intros [|i] H; cbn [length] in H; try lia; [exists v; reflexivity|]. destruct (IH i ltac:(lia)) as (w & E). exists w. exact E.
  Qed.
  Lemma set_parts (vxs : list (bool * Rn N)) i v x : set_nth (parts vxs) i (P Ntt c v x) = parts (set_nth vxs i (v, x)).
  Proof. revert i. induction vxs as [|vx vxs IH]; intros [|i]; cbn [set_nth CipherProofs.parts map]; try reflexivity. f_equal. apply IH. Qed.
  Lemma snd_set (vxs : list (bool * Rn N)) i v x : map snd (set_nth vxs i (v, x)) = set_nth (map snd vxs) i x.
  Proof. revert i. induction vxs as [|vx vxs IH]; intros [|i]; cbn [set_nth map]; try reflexivity. f_equal. apply IH. Qed.
  Lemma set_nth_len {A} (l : list A) i x : length (set_nth l i x) = length l.
  Proof. revert i. induction l as [|a l IH]; intros [|i]; cbn [set_nth length]; try reflexivity. f_equal. apply IH. Qed.
  Lemma nthr_set (zs : list (Rn N)) i j x : (i < length zs)%nat -> nthr (set_nth zs i x) j = if Nat.eqb i j then x else nthr zs j.
  Proof.
    unfold nthr. revert i j. induction zs as [|z zs IH]; intros [|i] [|j] H; cbn [length] in H; try lia; cbn [set_nth nth Nat.eqb]; try reflexivity. apply IH. lia.
  Qed.
  Lemma fold_steps (a b : list (bool * Rn N)) B : forall ps (z : list (bool * Rn N)), (forall i j, In (i, j) ps -> (i < length a)%nat /\ (j < length b)%nat /\ (i + j < length z)%nat) ->
    (forall i j, rnorm (nthr (map snd a) i * nthr (map snd b) j)%R <= B) -> exists z', foldM (mul_step (parts a) (parts b)) ps (parts z) = Val (parts z') /\ length z' = length z /\
      (forall s, rphase s (map snd z') = (rphase s (map snd z) + rsum (fun p => rpow s (fst p + snd p) * (nthr (map snd a) (fst p) * nthr (map snd b) (snd p))) ps)%R) /\
      (forall k, rnorm (nthr (map snd z') k) <= rnorm (nthr (map snd z) k) + hits k ps * B).
  Proof.
    induction ps as [|(i & j) ps IH]; intros z Hb HB.
    - exists z. split; [reflexivity|]. split; [reflexivity|]. split; [intros s; rewrite rsum_nil; ring|]. intros k. cbn [hits fold_right]. lia.
    - destruct (Hb i j (or_introl eq_refl)) as (Hi & Hj & Hk). destruct (get_parts a i Hi) as (va & Ea). destruct (get_parts b j Hj) as (vb & Eb). destruct (get_parts z (i + j) Hk) as (vz & Ez).
      cbn [foldM]. unfold mul_step at 1. cbn [fst snd]. rewrite Ea. cbn [bind]. rewrite Eb. cbn [bind]. rewrite (P_mul c Hc N HN). cbn [bind]. rewrite Ez. cbn [bind]. rewrite (P_add c Hc N HN) by discriminate. cbn [bind]. rewrite set_parts.
      set (z1 := set_nth z (i + j) _). assert (L1 : length z1 = length z) by apply set_nth_len.
      destruct (IH z1) as (z' & E1 & E2 & E3 & E4); [intros i' j' H; rewrite L1; apply Hb; right; exact H|exact HB|].
      exists z'. split; [exact E1|]. split; [congruence|]. assert (Lz : (i + j < length (map snd z))%nat) by (rewrite map_length; exact Hk). split.
      + intros s. rewrite E3. unfold z1. rewrite snd_set, rphase_set by exact Lz. rewrite rsum_cons. cbn [fst snd]. ring.
      + intros k. specialize (E4 k). cbn [hits fold_right fst snd]. fold (hits k ps). unfold z1 in E4. rewrite snd_set, nthr_set in E4 by exact Lz. specialize (HB i j).
        destruct (Nat.eqb_spec (i + j) k) as [Ek|Hne]; [subst k|lia]. pose proof (rnorm_add N (nthr (map snd z) (i + j)) (nthr (map snd a) i * nthr (map snd b) j)%R). lia.
  Qed.
  Lemma rphase_zeros s n : rphase s (repeat (r0 N) n) = r0 N.
  Proof. induction n as [|n IH]; [reflexivity|]. cbn [repeat]. rewrite rphase_cons, IH. ring. Qed.
  Lemma nthr_zeros n k : nthr (repeat (r0 N) n) k = r0 N.
  Proof. unfold nthr. revert k. induction n as [|n IH]; intros [|k]; cbn [repeat nth]; try reflexivity. apply IH. Qed.
  Theorem mul_parts_eq (a b : list (bool * Rn N)) Ba Bb : (1 <= length a)%nat -> (1 <= length b)%nat -> Forall (fun x => rnorm x <= Ba) (map snd a) -> Forall (fun x => rnorm x <= Bb) (map snd b) ->
    exists z, mul_parts c (parts a) (parts b) = Val (parts z) /\ length z = (length a + length b - 1)%nat /\
      (forall s, rphase s (map snd z) = (rphase s (map snd a) * rphase s (map snd b))%R) /\ Forall (fun x => rnorm x <= Z.of_nat (length a) * (Z.of_nat N * (Ba * Bb))) (map snd z).
  Proof.
    intros Ha Hb Na Nb. assert (H0a : 0 <= Ba) by (destruct a as [|(v & x) a]; [cbn in Ha; lia|]; cbn [map snd] in Na; apply Forall_inv in Na; pose proof (rnorm_nonneg N x); lia).
    assert (H0b : 0 <= Bb) by (destruct b as [|(v & x) b]; [cbn in Hb; lia|]; cbn [map snd] in Nb; apply Forall_inv in Nb; pose proof (rnorm_nonneg N x); lia).
    assert (Hn : forall (l : list (Rn N)) B k, 0 <= B -> Forall (fun x => rnorm x <= B) l -> rnorm (nthr l k) <= B).
    { intros l B k HB Hl. unfold nthr. destruct (Nat.lt_ge_cases k (length l)) as [Hk|Hk]; [rewrite Forall_forall in Hl; apply Hl, nth_In, Hk|]. rewrite nth_overflow by exact Hk. rewrite rnorm_0. exact HB. }
    unfold mul_parts. rewrite !parts_length. destruct (Nat.leb_spec 1 (length a + length b)); [|lia]. cbn [guard bind]. rewrite (P_zero c Hc N HN).
    set (vz := forallb p_vt (parts a) && forallb p_vt (parts b)).
    assert (Ez : (if vz then allow_vt (P Ntt c false (r0 N)) else P Ntt c false (r0 N)) = P Ntt c vz (r0 N)) by (destruct vz; [apply P_allow|reflexivity]). rewrite Ez.
    set (n := (length a + length b - 1)%nat).
    replace (repeat (P Ntt c vz (r0 N)) n) with (parts (repeat (vz, r0 N) n)) by (clear; induction n as [|n IH]; [reflexivity|]; cbn [repeat CipherProofs.parts map fst snd]; f_equal; exact IH).
    destruct (fold_steps a b (Z.of_nat N * (Ba * Bb)) (list_prod (seq 0 (length a)) (seq 0 (length b))) (repeat (vz, r0 N) n)) as (z & E1 & E2 & E3 & E4).
    - intros i j Hij. apply in_prod_iff in Hij. rewrite !in_seq in Hij. rewrite repeat_length. unfold n. lia.
    - intros i j. eapply Z.le_trans; [apply rnorm_mul|]. apply Z.mul_le_mono_nonneg_l; [lia|]. apply Z.mul_le_mono_nonneg; [apply rnorm_nonneg|apply Hn; assumption|apply rnorm_nonneg|apply Hn; assumption].
    - exists z. rewrite repeat_length in E2. split; [exact E1|]. split; [exact E2|]. assert (Em : map snd (repeat (vz, r0 N) n) = repeat (r0 N) n) by (clear; induction n as [|n IH]; [reflexivity|]; cbn [repeat map snd]; f_equal; exact IH). rewrite Em in *. split.
      + intros s. rewrite E3, rphase_zeros. rewrite <- (rphase_rsum s (map snd a)), <- (rphase_rsum s (map snd b)), <- rsum_prod, !map_length.
        replace (rsum (fun p => rpow s (fst p + snd p) * (nthr (map snd a) (fst p) * nthr (map snd b) (snd p)))%R (list_prod (seq 0 (length a)) (seq 0 (length b)))) with (rsum (fun ab => (rpow s (fst ab) * nthr (map snd a) (fst ab)) * (rpow s (snd ab) * nthr (map snd b) (snd ab)))%R (list_prod (seq 0 (length a)) (seq 0 (length b)))); [ring|].
        apply rsum_ext. intros p _. rewrite rpow_add. ring.
      + apply Forall_forall. intros x Hx. destruct (In_nth _ _ (r0 N) Hx) as (k & _ & <-). specialize (E4 k). rewrite nthr_zeros, rnorm_0 in E4. unfold nthr in E4 at 1.
        pose proof (hits_prod k (seq 0 (length a)) (seq 0 (length b)) (seq_NoDup _ _)) as Hh. rewrite seq_length in Hh. pose proof (hits_nonneg k (list_prod (seq 0 (length a)) (seq 0 (length b)))).
        assert (0 <= Z.of_nat N * (Ba * Bb)) by (apply Z.mul_nonneg_nonneg; [lia|apply Z.mul_nonneg_nonneg; assumption]). eapply Z.le_trans; [exact E4|]. cbn [Z.add]. apply Z.mul_le_mono_nonneg_r; assumption.
  Qed.
End Parts.

(** ** Products of parts, with their phase *)
Section Phases.
  Context {N : nat}.
  Add Ring RnPhases : (Rn_ring N).
  Lemma rphase_lin s a b : forall (ys zs : list (Rn N)), length ys = length zs -> rphase s (map (fun p => a *: fst p - b *: snd p)%R (combine ys zs)) = (a *: rphase s ys - b *: rphase s zs)%R.
  Proof.
    induction ys as [|y ys IH]; intros [|z zs] H; cbn [length] in H; try lia; cbn [combine map]; rewrite ?rphase_nil, ?rphase_cons; rewrite ?rscale_mul in *; [ring|].
    cbn [fst snd]. rewrite IH by lia. rewrite !rscale_mul. ring.
  Qed.
  Lemma rphase_diff s a b (ys zs : list (Rn N)) B C : 0 <= C -> Forall2 (fun z y => B * rnorm (a *: y - b *: z)%R <= C) zs ys -> 0 < B -> B * rnorm (a *: rphase s ys - b *: rphase s zs)%R <= C * geometric (rnorm1 s) (length zs).
  Proof.
    intros HC H HB. assert (L : length zs = length ys) by (induction H; cbn [length]; congruence). rewrite <- (rphase_lin s a b ys zs) by congruence.
    pose proof (rphase_norm s (map (fun p => a *: fst p - b *: snd p)%R (combine ys zs)) (C / B) (Z.div_pos _ _ HC HB)) as Hn. rewrite map_length, combine_length, L, Nat.min_id in Hn. rewrite L.
    assert (Hf : Forall (fun x => rnorm x <= C / B) (map (fun p => a *: fst p - b *: snd p)%R (combine ys zs))). { clear - H HB. induction H as [|z y zs ys Hzy H IH]; cbn [combine map]; constructor; [apply Z.div_le_lower_bound; assumption|exact IH]. }
    specialize (Hn Hf). pose proof (Z.mul_div_le C B HB). pose proof (geometric_nonneg (rnorm1 s) (length ys) (rnorm1_nonneg s)).
    apply Z.le_trans with (B * (C / B * geometric (rnorm1 s) (length ys))); [apply Z.mul_le_mono_nonneg_l; [lia|exact Hn]|]. rewrite Z.mul_assoc. apply Z.mul_le_mono_nonneg_r; assumption.
  Qed.
  Lemma rscaled_dec Q t (m : Rn N) : 0 < t -> exists d : Rn N, (t *: rscaled Q t m = Q *: m - d)%R /\ rnorm d <= t - 1.
  Proof.
    intros Ht. exists (mkR (map (fun a => (Q * a) mod t) (rl m)) (eq_trans (map_length _ _) (rl_length m))). split.
    - apply rn_ext. intros k Hk. rewrite nth_rsub, !nth_rscale, rl_mkR. unfold rscaled. rewrite rl_mkR. rewrite !(map_nth_lt _ _ k 0) by (rewrite rl_length; exact Hk). pose proof (Z.div_mod (Q * nth k (rl m) 0) t ltac:(lia)). lia.
    - apply lnorm_le; [lia|]. rewrite rl_mkR. apply Forall_forall. intros a Ha. apply in_map_iff in Ha. destruct Ha as (b & <- & _). pose proof (Z.mod_pos_bound (Q * b) t Ht). lia.
  Qed.
  (** The noise of a product. *)
  Theorem product_noise Q t B1 B2 g1 g2 Gd (X1 X2 Y m1 m2 e1 e2 r1 r2 : Rn N) : 2 <= t -> 0 < Q -> 0 <= g1 -> 0 <= g2 -> 0 <= Gd ->
    (X1 = rscaled Q t m1 + e1 + Q *: r1)%R -> (X2 = rscaled Q t m2 + e2 + Q *: r2)%R -> rnorm e1 <= B1 -> rnorm e2 <= B2 -> 2 * t * (B1 + 1) <= Q -> 2 * t * (B2 + 1) <= Q ->
    2 ^ 45 * rnorm X1 <= Q * ((2 ^ 44 + 1) * g1) -> 2 ^ 45 * rnorm X2 <= Q * ((2 ^ 44 + 1) * g2) -> 2 ^ 43 * rnorm (Q *: Y - t *: (X1 * X2))%R <= Q * Gd ->
    exists e, rcong Q Y (rscaled Q t (m1 * m2) + e)%R /\
      rnorm e <= Z.of_nat N * ((t * ((2 ^ 44 + 1) * g1) + 2 ^ 44) / 2 ^ 45 * (B2 + 1) + (t * ((2 ^ 44 + 1) * g2) + 2 ^ 44) / 2 ^ 45 * (B1 + 1)) + 1
        + (2 ^ 43 * (Z.of_nat N * (t * ((B1 + 1) * (B2 + 1)))) + Q * Gd) / (2 ^ 43 * Q).
  Proof.
    intros Ht HQ Hg1 Hg2 HG E1 E2 He1 He2 Hs1 Hs2 Hx1 Hx2 Hd. pose proof (rnorm_nonneg N e1). pose proof (rnorm_nonneg N e2).
    assert (HU : forall (X m e r : Rn N) B g, (X = rscaled Q t m + e + Q *: r)%R -> rnorm e <= B -> 2 * t * (B + 1) <= Q -> 0 <= g -> 2 ^ 45 * rnorm X <= Q * ((2 ^ 44 + 1) * g) ->
      exists u d : Rn N, (t *: X = Q *: (m + t *: r) + u)%R /\ rnorm u <= t * (B + 1) /\ rnorm (m + t *: r)%R <= (t * ((2 ^ 44 + 1) * g) + 2 ^ 44) / 2 ^ 45 /\ d = u).
    { intros X m e r B g EX Hee Hss Hgg HX. destruct (rscaled_dec Q t m ltac:(lia)) as (d & Ed & Hdn). pose proof (rnorm_nonneg N e). exists (t *: e - d)%R, (t *: e - d)%R.
      assert (ET : (t *: X = Q *: (m + t *: r) + (t *: e - d))%R). { rewrite EX. rewrite !rscale_mul in *. transitivity (rZ N t * rscaled Q t m + rZ N t * e + rZ N t * (rZ N Q * r))%R; [ring|]. rewrite Ed. ring. }
      assert (Hu : rnorm (t *: e - d)%R <= t * (B + 1)). { pose proof (rnorm_sub N (t *: e)%R d). pose proof (rnorm_scale N t e). rewrite Z.abs_eq in * by lia. assert (t * rnorm e <= t * B) by (apply Z.mul_le_mono_nonneg_l; lia). lia. }
      split; [exact ET|]. split; [exact Hu|]. split; [|reflexivity]. apply rnorm_le.
      - apply Z.div_pos; [|lia]. assert (0 <= t * ((2 ^ 44 + 1) * g)) by (apply Z.mul_nonneg_nonneg; [lia|apply Z.mul_nonneg_nonneg; lia]). lia.
      - intros k Hk. apply Z.div_le_lower_bound; [lia|]. set (mu := (m + t *: r)%R) in *. set (u := (t *: e - d)%R) in *.
        assert (Ek : t * nth k (rl X) 0 = Q * nth k (rl mu) 0 + nth k (rl u) 0) by (rewrite <- !nth_rscale, <- nth_radd, <- ET; reflexivity).
        pose proof (rnorm_nth N X k) as A1. pose proof (rnorm_nth N u k) as A2. set (a := nth k (rl mu) 0) in *. set (x := nth k (rl X) 0) in *. set (w := nth k (rl u) 0) in *.
        assert (A3 : Q * Z.abs a <= t * Z.abs x + Z.abs w). { rewrite <- (Z.abs_eq Q) at 1 by lia. rewrite <- (Z.abs_eq t) at 1 by lia. rewrite <- !Z.abs_mul. lia. }
        assert (A4 : t * (2 ^ 45 * Z.abs x) <= t * (Q * ((2 ^ 44 + 1) * g))) by (apply Z.mul_le_mono_nonneg_l; lia).
        apply Z.mul_le_mono_pos_l with (p := Q); [exact HQ|]. replace (Q * (t * ((2 ^ 44 + 1) * g) + 2 ^ 44)) with (t * (Q * ((2 ^ 44 + 1) * g)) + 2 ^ 44 * Q) by ring.
        set (z1 := t * (Q * ((2 ^ 44 + 1) * g))) in *. replace (t * (2 ^ 45 * Z.abs x)) with (2 ^ 45 * (t * Z.abs x)) in A4 by ring. replace (Q * (2 ^ 45 * Z.abs a)) with (2 ^ 45 * (Q * Z.abs a)) by ring. set (y1 := Q * Z.abs a) in *. set (y2 := t * Z.abs x) in *. replace (2 * t * (B + 1)) with (2 * (t * (B + 1))) in Hss by ring. set (y3 := t * (B + 1)) in *. clearbody y1 y2 y3 z1. lia. }
    destruct (HU X1 m1 e1 r1 B1 g1 E1 He1 Hs1 Hg1 Hx1) as (u1 & d1 & T1 & N1 & M1 & _). destruct (HU X2 m2 e2 r2 B2 g2 E2 He2 Hs2 Hg2 Hx2) as (u2 & d2 & T2 & N2 & M2 & _). clear HU d1 d2 E1 E2 Hx1 Hx2.
    set (U1 := (t * ((2 ^ 44 + 1) * g1) + 2 ^ 44) / 2 ^ 45) in *. set (U2 := (t * ((2 ^ 44 + 1) * g2) + 2 ^ 44) / 2 ^ 45) in *.
    destruct (rscaled_dec Q t (m1 * m2)%R ltac:(lia)) as (rho & ER & NR). set (W := rscaled Q t (m1 * m2)%R) in *.
    set (D := (Q *: Y - t *: (X1 * X2))%R) in *.
    set (e := (Y - W - Q *: (m1 * r2 + m2 * r1 + t *: (r1 * r2)))%R). exists e. split.
    { apply rcong_exists; [exact HQ|]. exists (m1 * r2 + m2 * r1 + t *: (r1 * r2))%R. unfold e. ring. }
    set (mu1 := (m1 + t *: r1)%R) in *. set (mu2 := (m2 + t *: r2)%R) in *.
    assert (EE : ((t * Q) *: e = Q *: (mu1 * u2 + mu2 * u1 + rho) + u1 * u2 + t *: D)%R).
    { unfold e, D, mu1, mu2 in *. rewrite !rscale_mul, ?rZ_mul in *. 
      transitivity (rZ N Q * (rZ N t * Y) - rZ N Q * (rZ N t * W) - rZ N Q * (rZ N t * (rZ N Q * (m1 * r2 + m2 * r1 + rZ N t * (r1 * r2)))))%R; [ring|]. rewrite ER.
      assert (ET : (rZ N t * X1 * (rZ N t * X2) = (rZ N Q * (m1 + rZ N t * r1) + u1) * (rZ N Q * (m2 + rZ N t * r2) + u2))%R) by (rewrite T1, T2; reflexivity).
      transitivity (rZ N t * (rZ N Q * Y - rZ N t * (X1 * X2)) + rZ N t * X1 * (rZ N t * X2) - rZ N Q * (rZ N Q * (m1 * m2) - rho) - rZ N Q * (rZ N t * (rZ N Q * (m1 * r2 + m2 * r1 + rZ N t * (r1 * r2)))))%R; [ring|]. rewrite ET. ring. }
    assert (P1 : rnorm (mu1 * u2)%R <= Z.of_nat N * (U1 * (t * (B2 + 1)))). { eapply Z.le_trans; [apply rnorm_mul|]. apply Z.mul_le_mono_nonneg_l; [lia|]. apply Z.mul_le_mono_nonneg; try apply rnorm_nonneg; assumption. }
    assert (P2 : rnorm (mu2 * u1)%R <= Z.of_nat N * (U2 * (t * (B1 + 1)))). { eapply Z.le_trans; [apply rnorm_mul|]. apply Z.mul_le_mono_nonneg_l; [lia|]. apply Z.mul_le_mono_nonneg; try apply rnorm_nonneg; assumption. }
    assert (P3 : rnorm (u1 * u2)%R <= Z.of_nat N * (t * (B1 + 1) * (t * (B2 + 1)))). { eapply Z.le_trans; [apply rnorm_mul|]. apply Z.mul_le_mono_nonneg_l; [lia|]. apply Z.mul_le_mono_nonneg; try apply rnorm_nonneg; assumption. }
    assert (P4 : rnorm (mu1 * u2 + mu2 * u1 + rho)%R <= t * (Z.of_nat N * (U1 * (B2 + 1) + U2 * (B1 + 1)) + 1)).
    { pose proof (rnorm_add N (mu1 * u2 + mu2 * u1)%R rho). pose proof (rnorm_add N (mu1 * u2)%R (mu2 * u1)%R). replace (t * (Z.of_nat N * (U1 * (B2 + 1) + U2 * (B1 + 1)) + 1)) with (Z.of_nat N * (U1 * (t * (B2 + 1))) + Z.of_nat N * (U2 * (t * (B1 + 1))) + t) by ring. lia. }
    set (V := Z.of_nat N * (U1 * (B2 + 1) + U2 * (B1 + 1)) + 1) in *.
    assert (HV : 0 <= V). { pose proof (rnorm_nonneg N mu1). pose proof (rnorm_nonneg N mu2). unfold V. assert (0 <= Z.of_nat N * (U1 * (B2 + 1) + U2 * (B1 + 1))) by (apply Z.mul_nonneg_nonneg; [lia|]; apply Z.add_nonneg_nonneg; apply Z.mul_nonneg_nonneg; lia). lia. }
    set (K := Z.of_nat N * (t * ((B1 + 1) * (B2 + 1)))) in *. assert (HK : 0 <= K) by (unfold K; repeat apply Z.mul_nonneg_nonneg; lia).
    replace (Z.of_nat N * (t * (B1 + 1) * (t * (B2 + 1)))) with (t * K) in P3 by (unfold K; ring).
    assert (HD0 : 0 <= Q * Gd) by (apply Z.mul_nonneg_nonneg; lia).
    apply rnorm_le; [pose proof (Z.div_pos (2 ^ 43 * K + Q * Gd) (2 ^ 43 * Q) ltac:(lia) ltac:(lia)); lia|]. intros k Hk.
    assert (Hk1 : t * Q * nth k (rl e) 0 = Q * nth k (rl (mu1 * u2 + mu2 * u1 + rho)%R) 0 + nth k (rl (u1 * u2)%R) 0 + t * nth k (rl D) 0) by (rewrite <- !nth_rscale, <- !nth_radd, <- EE; reflexivity).
    pose proof (rnorm_nth N (mu1 * u2 + mu2 * u1 + rho)%R k) as A1. pose proof (rnorm_nth N (u1 * u2)%R k) as A2. pose proof (rnorm_nth N D k) as A3.
    set (a := nth k (rl e) 0) in *. set (x1 := nth k (rl (mu1 * u2 + mu2 * u1 + rho)%R) 0) in *. set (x2 := nth k (rl (u1 * u2)%R) 0) in *. set (x3 := nth k (rl D) 0) in *.
    assert (B4 : t * (Q * Z.abs a) <= t * (Q * V + K + rnorm D)).
    { replace (t * (Q * Z.abs a)) with (Z.abs (t * Q * a)) by (rewrite !Z.abs_mul, (Z.abs_eq t), (Z.abs_eq Q) by lia; ring). rewrite Hk1.
      assert (C1 : Z.abs (Q * x1) <= Q * (t * V)) by (rewrite Z.abs_mul, (Z.abs_eq Q) by lia; apply Z.mul_le_mono_nonneg_l; lia).
      assert (C2 : Z.abs (t * x3) <= t * rnorm D) by (rewrite Z.abs_mul, (Z.abs_eq t) by lia; apply Z.mul_le_mono_nonneg_l; lia).
      replace (t * (Q * V + K + rnorm D)) with (Q * (t * V) + t * K + t * rnorm D) by ring. lia. }
    apply Z.mul_le_mono_pos_l in B4; [|lia].
    assert (C5 : Z.abs a - V <= (2 ^ 43 * K + Q * Gd) / (2 ^ 43 * Q)); [|lia]. apply Z.div_le_lower_bound; [lia|]. replace (2 ^ 43 * Q * (Z.abs a - V)) with (2 ^ 43 * (Q * Z.abs a - Q * V)) by ring. lia.
  Qed.
End Phases.

(** ** The scalers *)
Section Core.
  Context (c to : ctx) (Hc : ctx_ok c) (Ht : ctx_ok to) (N : nat) (HN : c_degree c = N) (HNt : c_degree to = N) (Hops : same_ops c to) (Hops' : same_ops to c).
  Context (qs ext : list Z) (Em : c_moduli c = qs) (Et : c_moduli to = qs ++ ext) (Hq : Forall (fun q => 2 <= q < W62) qs) (Hsum : sum_of qs < 2 ^ 65) (Hlen : Z.of_nat (length qs) <= 2 ^ 20).
  Context (Hext : Forall (fun p => 2 ^ 61 <= p < 2 ^ 62) ext) (Hle : Z.of_nat (length ext) <= 2 ^ 20 + 2) (Hroom : prod_list qs * 2 ^ 60 <= 2 ^ (62 * Z.of_nat (length ext))).
  Context (t : Z) (Hpt : 2 <= t).
  Notation Q := (prod_list qs).
  Notation E := (prod_list ext).
  Set Default Proof Using "All".
  Lemma core_Q : 0 < Q.
  Proof. apply prod_list_pos, Hq. Qed.
  Lemma ext_range : Forall (fun q => 2 <= q < W62) ext.
  Proof. eapply Forall_impl; [|exact Hext]. cbv beta. intros a Ha. change W62 with (2 ^ 62). lia. Qed.
  Lemma core_E : 0 < E.
  Proof. apply prod_list_pos, ext_range. Qed.
  Lemma all_range : Forall (fun q => 2 <= q < W62) (qs ++ ext).
  Proof. apply Forall_app. split; [exact Hq|exact ext_range]. Qed.
  Lemma ext_room : Q * 2 ^ 60 <= E * 2 ^ Z.of_nat (length ext).
  Proof.
    eapply Z.le_trans; [exact Hroom|]. clear - Hext. induction Hext as [|p ext Hp He IH]; [reflexivity|]. cbn [length prod_list]. rewrite Nat2Z.inj_succ.
    replace (62 * Z.succ (Z.of_nat (length ext))) with (62 * Z.of_nat (length ext) + 62) by lia. rewrite Z.pow_add_r, Z.pow_succ_r by lia.
    assert (0 < 2 ^ (62 * Z.of_nat (length ext))) by (apply Z.pow_pos_nonneg; lia). replace (p * prod_list ext * (2 * 2 ^ Z.of_nat (length ext))) with ((prod_list ext * 2 ^ Z.of_nat (length ext)) * (2 * p)) by ring.
    apply Z.mul_le_mono_nonneg; [lia|exact (IH He)|lia|lia].
  Qed.
  Lemma sum_of_app a b : sum_of (a ++ b) = sum_of a + sum_of b.
  Proof. clear. induction a as [|x a IH]; cbn [app sum_of]; lia. Qed.
  Lemma sum_ext : sum_of ext <= 2 ^ 62 * Z.of_nat (length ext).
  Proof. clear - Hext. induction Hext as [|p e Hp He IH]; cbn [sum_of length]; [lia|specialize (IH He); lia]. Qed.
  Lemma core_load : load t Q (qs ++ ext) <= sum_of qs.
  Proof.
    unfold load. cbv zeta. rewrite prod_list_app. pose proof core_Q as HQ. pose proof core_E as HE.
    assert (E0 : (t * (Q * E)) mod Q = 0) by (replace (t * (Q * E)) with (t * E * Q) by ring; apply Z_mod_mult). rewrite E0, Z.eqb_refl, Z.add_0_r, map_app, sum_of_app.
    assert (E1 : sum_of (map (fun q => if (t * (Q * E / q)) mod Q =? 0 then 0 else q) ext) = 0).
    { assert (Hd : forall q, In q ext -> (t * (Q * E / q)) mod Q = 0).
      { intros q Hin. destruct (In_nth _ _ 0 Hin) as (i & Hi & <-). destruct (nth_divide_prod ext i Hi) as (w & Ew). assert (Hn : 2 <= nth i ext 0) by (pose proof ext_range as R; rewrite Forall_forall in R; specialize (R _ Hin); lia).
        rewrite Ew. replace (Q * (w * nth i ext 0)) with (Q * w * nth i ext 0) by ring. rewrite Z.div_mul by lia. replace (t * (Q * w)) with (t * w * Q) by ring. apply Z_mod_mult. }
      clear - Hd. revert Hd. generalize (Q * E). intros R Hd. induction ext as [|q e IH]; [reflexivity|]. cbn [map sum_of]. rewrite Hd by (left; reflexivity). rewrite Z.eqb_refl. rewrite IH by (intros; apply Hd; right; assumption). reflexivity. }
    rewrite E1, Z.add_0_r. apply (sum_filtered (fun q => (t * (Q * E / q)) mod Q =? 0)). eapply Forall_impl; [|exact Hq]. cbv beta. intros; lia.
  Qed.
  Lemma up_value x y : scaled_value qs 1 1 x y -> cong Q y x /\ 2 ^ 45 * Z.abs y <= Q * (2 ^ 44 + 1).
  Proof.
    intros H. destruct (scaled_value_bounds qs 1 1 x y Hq Hsum Hlen ltac:(lia) H) as (x' & E1 & E2 & E3). assert (y = x') by lia. subst x'. split; [exact E1|exact E2].
  Qed.
  Lemma up_values x y : Forall2 (scaled_value qs 1 1) x y -> congruent Q y x /\ 2 ^ 45 * lnorm y <= Q * (2 ^ 44 + 1).
  Proof.
    induction 1 as [|a b u w Hab Hy (I1 & I2)]; [split; [constructor|cbn [lnorm fold_right]; pose proof core_Q; lia]|]. destruct (up_value a b Hab) as (J1 & J2).
    split; [constructor; [exact J1|exact I1]|]. cbn [lnorm fold_right]. fold (lnorm w). lia.
  Qed.
  Lemma down_value z y : 4 * Z.abs z <= Q * E -> scaled_value (qs ++ ext) t Q z y -> 2 ^ 43 * Z.abs (Q * y - t * z) <= Q * (2 ^ 42 + 1).
  Proof.
    intros Hz (z' & E1 & Hk & _ & Hy). rewrite prod_list_app in E1, Hk. pose proof core_Q as HQ. pose proof core_E as HE.
    assert (Hs : 0 <= sum_of (residues_of (qs ++ ext) z) <= 2 ^ 83).
    { pose proof (sum_residues (qs ++ ext) z ltac:(eapply Forall_impl; [|exact all_range]; cbv beta; intros; lia)) as H. rewrite sum_of_app in H. pose proof sum_ext. lia. }
    set (S := sum_of (residues_of (qs ++ ext) z)) in *. clearbody S.
    assert (H107 : 2 ^ (107 + 1) * Z.abs z' <= Q * E * (2 ^ 107 + S)).
    { apply Hk; [lia|]. intros q Hin. pose proof all_range as R. rewrite Forall_forall in R. specialize (R q Hin). rewrite app_length, Nat2Z.inj_add. change (2 ^ (191 - 107)) with (W62 * 2 ^ 22). apply Z.mul_le_mono_nonneg; lia. }
    clear Hk. assert (Hz' : 2 ^ 25 * Z.abs z' <= Q * E * (2 ^ 24 + 1)).
    { assert (Q * E * (2 ^ 107 + S) <= Q * E * (2 ^ 83 * (2 ^ 24 + 1))) by (apply Z.mul_le_mono_nonneg_l; [apply Z.mul_nonneg_nonneg; lia|lia]). change (2 ^ (107 + 1)) with (2 ^ 108) in H107. lia. }
    assert (Hqe : 0 < Q * E) by (apply Z.mul_pos_pos; lia). set (R := Q * E) in *. clearbody R.
    assert (Hzz : z = z').
    { assert (D : (R | z - z')) by (apply cong_sub_divide; [lia|unfold cong; symmetry; exact E1] || (apply Z.mod_divide; [lia|]; rewrite Zminus_mod, E1, Z.sub_diag; apply Z.mod_0_l; lia)). destruct D as (k & Dk). assert (k = 0) by nia. lia. }
    subst z'. assert (Q * (2 ^ 126 + 2 * S) <= Q * (2 ^ 84 * (2 ^ 42 + 1))) by (apply Z.mul_le_mono_nonneg_l; lia). lia.
  Qed.
  Lemma core_up : exists s, poly_scaler_new c to (mkFactor 1 1 true) = Val s /\
    forall vxs : list (bool * Rn N), exists vys, mapM (poly_scale s) (parts c vxs) = Val (parts to vys) /\ length vys = length vxs /\ Forall2 (rcong Q) (map snd vys) (map snd vxs) /\
      Forall (fun y => 2 ^ 45 * rnorm y <= Q * (2 ^ 44 + 1)) (map snd vys).
  Proof.
    destruct (poly_scale_eq c to Hc Ht ltac:(congruence) Hops 1 1 (mkFactor 1 1 true)) as (s & Es & Hs); [rewrite Em; lia|lia|lia|reflexivity|left; reflexivity|].
    exists s. split; [exact Es|]. induction vxs as [|(v & x) vxs (vys & E1 & E2 & E3 & E4)]; [exists []; repeat split; constructor|].
    destruct (Hs Ntt v (rl x) ltac:(discriminate) ltac:(rewrite HN; apply rl_length)) as (y & Ly & Hy & Ey). rewrite HN in Ly. rewrite Em in Hy.
    exists ((v, mkR y Ly) :: vys). cbn [parts map fst snd mapM]. fold (parts c vxs). unfold P at 1. rewrite Ey. cbn [bind]. rewrite E1. split; [reflexivity|]. split; [cbn [length]; congruence|].
    assert (H2 : congruent Q y (rl x) /\ 2 ^ 45 * lnorm y <= Q * (2 ^ 44 + 1)).
    { apply up_values, Hy. }
    destruct H2 as (H2 & H3). split; [constructor; [exact H2|exact E3]|constructor; [exact H3|exact E4]].
  Qed.
  Lemma core_down : exists s, poly_scaler_new to c (mkFactor t Q (t =? Q)) = Val s /\
    forall vxs : list (bool * Rn N), Forall (fun z => 4 * rnorm z <= Q * E) (map snd vxs) -> exists vys, mapM (poly_scale s) (parts to vxs) = Val (parts c vys) /\ length vys = length vxs /\
      Forall2 (fun z y => 2 ^ 43 * rnorm (Q *: y - t *: z)%R <= Q * (2 ^ 42 + 1)) (map snd vxs) (map snd vys).
  Proof.
    pose proof core_Q as HQ. pose proof core_load as HL.
    assert (Ef : factor_new t Q = Val (mkFactor t Q (t =? Q))) by (unfold factor_new; replace (Q =? 0) with false by (symmetry; apply Z.eqb_neq; lia); reflexivity).
    destruct (poly_scale_eq to c Ht Hc ltac:(congruence) Hops' t Q (mkFactor t Q (t =? Q))) as (s & Es & Hs); [rewrite Et, app_length, Nat2Z.inj_add; lia|lia|lia|exact Ef|right; rewrite Et; lia|].
    exists s. split; [exact Es|]. induction vxs as [|(v & x) vxs IH]; intros Hv; [exists []; repeat split; constructor|]. cbn [map snd] in Hv. pose proof (Forall_inv Hv) as Hx. cbv beta in Hx. destruct (IH (Forall_inv_tail Hv)) as (vys & E1 & E2 & E3).
    destruct (Hs Ntt v (rl x) ltac:(discriminate) ltac:(rewrite HNt; apply rl_length)) as (y & Ly & Hy & Ey). rewrite HNt in Ly. rewrite Et in Hy.
    exists ((v, mkR y Ly) :: vys). cbn [parts map fst snd mapM]. fold (parts to vxs). unfold P at 1. rewrite Ey. cbn [bind]. rewrite E1. split; [reflexivity|]. split; [cbn [length]; congruence|]. constructor; [|exact E3].
    assert (Hn : forall k, (k < N)%nat -> Z.abs (nth k (rl (Q *: mkR y Ly - t *: x)%R) 0) <= Q * (2 ^ 42 + 1) / 2 ^ 43).
    { intros k Hk. rewrite nth_rsub, !nth_rscale, rl_mkR. apply Z.div_le_lower_bound; [lia|]. apply down_value; [pose proof (rnorm_nth N x k); lia|]. apply Forall2_nth_Z; [exact Hy|rewrite rl_length; exact Hk]. }
    pose proof (rnorm_le N _ (Q * (2 ^ 42 + 1) / 2 ^ 43) ltac:(apply Z.div_pos; [apply Z.mul_nonneg_nonneg; lia|lia]) Hn) as Hf. pose proof (Z.mul_div_le (Q * (2 ^ 42 + 1)) (2 ^ 43) ltac:(lia)). lia.
  Qed.
  Theorem core_mul up down : poly_scaler_new c to (mkFactor 1 1 true) = Val up -> poly_scaler_new to c (mkFactor t Q (t =? Q)) = Val down ->
    forall vxs vys : list (bool * Rn N), (1 <= length vxs)%nat -> (1 <= length vys)%nat -> Z.of_nat (length vxs) * Z.of_nat N * 2 ^ Z.of_nat (length ext) <= 2 ^ 59 ->
    exists (vxs' vys' vzs vws : list (bool * Rn N)), mapM (poly_scale up) (parts c vxs) = Val (parts to vxs') /\ mapM (poly_scale up) (parts c vys) = Val (parts to vys') /\
      mul_parts to (parts to vxs') (parts to vys') = Val (parts to vzs) /\ mapM (poly_scale down) (parts to vzs) = Val (parts c vws) /\
      length vxs' = length vxs /\ length vys' = length vys /\ length vws = (length vxs + length vys - 1)%nat /\
      Forall2 (rcong Q) (map snd vxs') (map snd vxs) /\ Forall (fun y => 2 ^ 45 * rnorm y <= Q * (2 ^ 44 + 1)) (map snd vxs') /\
      Forall2 (rcong Q) (map snd vys') (map snd vys) /\ Forall (fun y => 2 ^ 45 * rnorm y <= Q * (2 ^ 44 + 1)) (map snd vys') /\
      forall s, 2 ^ 43 * rnorm (Q *: rphase s (map snd vws) - t *: (rphase s (map snd vxs') * rphase s (map snd vys')))%R <= Q * (2 ^ 42 + 1) * geometric (rnorm1 s) (length vxs + length vys - 1).
  Proof.
    intros Eu Ed vxs vys Hx Hy Hr. destruct core_up as (up' & Eu' & Hup). rewrite Eu in Eu'. injection Eu' as <-. destruct core_down as (down' & Ed' & Hdown). rewrite Ed in Ed'. injection Ed' as <-.
    destruct (Hup vxs) as (vxs' & A1 & A2 & A3 & A4). destruct (Hup vys) as (vys' & B1 & B2 & B3 & B4). pose proof core_Q as HQ. pose proof core_E as HE. pose proof ext_room as HR.
    set (M := Q * (2 ^ 44 + 1) / 2 ^ 45). assert (HM : forall l : list (Rn N), Forall (fun y => 2 ^ 45 * rnorm y <= Q * (2 ^ 44 + 1)) l -> Forall (fun y => rnorm y <= M) l).
    { intros ll. apply Forall_impl. intros y H. apply Z.div_le_lower_bound; [lia|exact H]. }
    destruct (mul_parts_eq to Ht N HNt vxs' vys' M M ltac:(lia) ltac:(lia) (HM _ A4) (HM _ B4)) as (vzs & C1 & C2 & C3 & C4). rewrite A2 in C4.
    assert (HM4 : 4 * (Z.of_nat (length vxs) * (Z.of_nat N * (M * M))) <= Q * E).
    { assert (M0 : 0 <= M) by (apply Z.div_pos; [apply Z.mul_nonneg_nonneg; lia|lia]). assert (M1 : 8 * M <= 5 * Q) by (pose proof (Z.mul_div_le (Q * (2 ^ 44 + 1)) (2 ^ 45) ltac:(lia)); fold M in H; lia).
      set (nN := Z.of_nat (length vxs) * Z.of_nat N) in *. assert (HnN : 0 <= nN) by (apply Z.mul_nonneg_nonneg; lia). replace (Z.of_nat (length vxs) * (Z.of_nat N * (M * M))) with (nN * (M * M)) by (unfold nN; ring).
      set (k := 2 ^ Z.of_nat (length ext)) in *. assert (Hk : 0 < k) by (apply Z.pow_pos_nonneg; lia).
      assert (H2 : 2 * (nN * Q) <= E). { apply Z.mul_le_mono_pos_l with (p := 2 ^ 59 * k); [lia|]. apply Z.le_trans with (nN * k * (Q * 2 ^ 60)); [apply Z.eq_le_incl; ring|]. apply Z.le_trans with (nN * k * (E * k)); [apply Z.mul_le_mono_nonneg_l; [apply Z.mul_nonneg_nonneg; lia|exact HR]|]. replace (2 ^ 59 * k * E) with (2 ^ 59 * (E * k)) by ring. apply Z.mul_le_mono_nonneg_r; [apply Z.mul_nonneg_nonneg; lia|exact Hr]. }
      assert (H3 : 64 * (M * M) <= 25 * (Q * Q)) by nia. assert (H4 : Q * (2 * (nN * Q)) <= Q * E) by (apply Z.mul_le_mono_nonneg_l; lia).
      assert (H5 : nN * (64 * (M * M)) <= nN * (25 * (Q * Q))) by (apply Z.mul_le_mono_nonneg_l; lia). replace (nN * (64 * (M * M))) with (64 * (nN * (M * M))) in H5 by ring. replace (nN * (25 * (Q * Q))) with (25 * (nN * (Q * Q))) in H5 by ring. replace (Q * (2 * (nN * Q))) with (2 * (nN * (Q * Q))) in H4 by ring.
      assert (0 <= nN * (Q * Q)) by (repeat apply Z.mul_nonneg_nonneg; lia). lia. }
    destruct (Hdown vzs) as (vws & D1 & D2 & D3). { eapply Forall_impl; [|exact C4]. cbv beta. intros z Hz. lia. }
    exists vxs', vys', vzs, vws. split; [exact A1|]. split; [exact B1|]. split; [exact C1|]. split; [exact D1|]. split; [exact A2|]. split; [exact B2|]. split; [rewrite D2, C2, A2, B2; reflexivity|].
    split; [exact A3|]. split; [exact A4|]. split; [exact B3|]. split; [exact B4|]. intros s. rewrite <- C3. rewrite <- A2, <- B2, <- C2, <- (map_length snd vzs). apply rphase_diff; [apply Z.mul_nonneg_nonneg; lia|exact D3|lia].
  Qed.
End Core.
