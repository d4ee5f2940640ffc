(** Inner sums: the slots after the rotations and additions. *)
From Verif Require Import Outcome BasicSpec OutcomeLemmas NumTheory NttModel PolySpec PolyRing NttProofs RnsSpec RqModel RqSpec RqCtx RqOps RingRn ParamsModel BfvSpec ParamsProofs BuildProofs PlainModel CipherModel SchemeSpec CipherSpec PlainProofs CipherProofs EncryptProofs CipherPropLemmas KeysModel KeysSpec EvalSpec RotProofs EvalKeyProofs EvalOpsProofs.
Set Default Proof Using "Type".

Lemma nth_zipWith_Z (f : Z -> Z -> Z) : forall l l' k, (k < length l)%nat -> (k < length l')%nat -> nth k (zipWith f l l') 0 = f (nth k l 0) (nth k l' 0).
Proof. induction l as [|a l IH]; intros [|b l'] k H H'; cbn [length] in *; try lia. destruct k as [|k]; cbn [zipWith nth]; [reflexivity|]. apply IH; lia. Qed.
Lemma sumn_app f : forall a b, sumn (a + b) f = sumn a f + sumn b (fun i => f (a + i)%nat).
Proof. intros a b. revert f. induction a as [|a IH]; intros f; [reflexivity|]. cbn [plus]. rewrite !sumn_S, IH. lia. Qed.
Lemma sum_of_sumn (l : list Z) : sum_of l = sumn (length l) (fun i => nth i l 0).
Proof. induction l as [|a l IH]; [reflexivity|]. cbn [length sum_of]. rewrite sumn_S, IH. reflexivity. Qed.
Lemma sumn_cyclic h (f : nat -> Z) : (0 < h)%nat -> forall j, sumn h (fun u => f ((j + u) mod h)%nat) = sumn h f.
Proof.
  intros Hh. induction j as [|j IH].
  - apply sumn_ext. intros i Hi. cbn [plus]. rewrite Nat.mod_small by exact Hi. reflexivity.
  - rewrite <- IH. set (g := fun u => f ((j + u) mod h)%nat). pose proof (sumn_S h g) as H1. pose proof (sumn_snoc h g) as H2. assert (Eg : g h = g 0%nat).
    { unfold g. f_equal. rewrite Nat.add_0_r. replace (j + h)%nat with (j + 1 * h)%nat by lia. apply Nat.mod_add. lia. }
    assert (E : sumn h (fun u => f ((S j + u) mod h)%nat) = sumn h (fun i => g (S i))) by (apply sumn_ext; intros i Hi; unfold g; f_equal; f_equal; lia). rewrite E. lia.
Qed.
Lemma sum_of_repeat0 k : sum_of (repeat 0 k) = 0.
Proof. induction k; cbn [repeat sum_of]; lia. Qed.
Lemma sum_of_app a b : sum_of (a ++ b) = sum_of a + sum_of b.
Proof. induction a; cbn [app sum_of]; lia. Qed.
Lemma sum_of_pad n v : sum_of (pad n v) = sum_of v.
Proof. unfold pad. rewrite sum_of_app, sum_of_repeat0. lia. Qed.

Section Lists.
  Context (n : nat) (t : Z) (Hn : (n / 2 + n / 2 = n)%nat) (Hh : (0 < n / 2)%nat) (Ht : 0 < t).
  Notation h := (n / 2)%nat.
  Set Default Proof Using "All".
  (** The slot read [u] columns to the right of slot [j]. *)
  Definition right_of (j u : nat) : nat := if Nat.ltb j h then ((j + u) mod h)%nat else (h + (j - h + u) mod h)%nat.
  Lemma right_of_lt j u : (j < n)%nat -> (right_of j u < n)%nat.
  Proof. intros Hj. unfold right_of. pose proof (Nat.mod_upper_bound (j + u) h ltac:(lia)). pose proof (Nat.mod_upper_bound (j - h + u) h ltac:(lia)). destruct (Nat.ltb j h); lia. Qed.
  Lemma right_of_add j a u : (j < n)%nat -> right_of (right_of j a) u = right_of j (a + u).
  Proof.
    intros Hj. unfold right_of. destruct (Nat.ltb_spec j h) as [H|H].
    - pose proof (Nat.mod_upper_bound (j + a) h ltac:(lia)). rewrite (proj2 (Nat.ltb_lt _ _)) by lia. rewrite Nat.add_mod_idemp_l by lia. f_equal. lia.
    - rewrite (proj2 (Nat.ltb_ge _ _)) by lia. f_equal. replace (h + (j - h + a) mod h - h + u)%nat with ((j - h + a) mod h + u)%nat by lia. rewrite Nat.add_mod_idemp_l by lia. f_equal. lia.
  Qed.
  Definition add_rot (v : list Z) (i : nat) : list Z := zipWith (fun a b => (a + b) mod t) v (rotated_columns n i v).
  Lemma add_rot_length v i : length v = n -> (i < h)%nat -> length (add_rot v i) = n.
  Proof. intros Hv Hi. unfold add_rot. rewrite zipWith_length, rotated_length by lia. lia. Qed.
  Lemma nth_add_rot v i j : length v = n -> (i < h)%nat -> (j < n)%nat -> nth j (add_rot v i) 0 = (nth j v 0 + nth (right_of j i) v 0) mod t.
  Proof. intros Hv Hi Hj. unfold add_rot. rewrite nth_zipWith_Z by (rewrite ?rotated_length; lia). rewrite nth_rotated by assumption. reflexivity. Qed.
  Definition summed (k : nat) (v : list Z) : list Z := fold_left add_rot (map (fun k => 2 ^ k)%nat (seq 0 k)) v.
  Lemma summed_S k v : summed (S k) v = add_rot (summed k v) (2 ^ k).
  Proof. unfold summed. rewrite seq_S, map_app, fold_left_app. reflexivity. Qed.
  Lemma summed_spec v : length v = n -> canonical t v -> forall k, (2 ^ k <= h)%nat -> length (summed k v) = n /\ forall j, (j < n)%nat -> nth j (summed k v) 0 = sumn (2 ^ k) (fun u => nth (right_of j u) v 0) mod t.
  Proof.
    intros Hv Hc. induction k as [|k IH]; intros Hk.
    - split; [exact Hv|]. intros j Hj. change (summed 0 v) with v. change (2 ^ 0)%nat with 1%nat. rewrite sumn_S. change (sumn 0 _) with 0. rewrite Z.add_0_r. assert (Er : right_of j 0 = j). { unfold right_of. destruct (Nat.ltb_spec j h); rewrite Nat.add_0_r, Nat.mod_small by lia; lia. }
      rewrite Er. symmetry. apply Z.mod_small. unfold canonical in Hc. rewrite Forall_forall in Hc. apply Hc, nth_In. lia.
    - assert (H2 : (2 ^ S k = 2 ^ k + 2 ^ k)%nat) by (cbn [Nat.pow]; lia). assert (H0 : (0 < 2 ^ k)%nat) by (apply Nat.neq_0_lt_0, Nat.pow_nonzero; lia). destruct (IH ltac:(lia)) as (L & E). rewrite summed_S. split; [apply add_rot_length; [exact L|lia]|].
      intros j Hj. rewrite nth_add_rot by (auto; lia). rewrite !E by (auto; apply right_of_lt, Hj). rewrite <- Z.add_mod by lia. rewrite H2, sumn_app. f_equal. f_equal. apply sumn_ext. intros u _. rewrite right_of_add by exact Hj. reflexivity.
  Qed.
  Lemma summed_all v k : length v = n -> canonical t v -> h = (2 ^ k)%nat -> zipWith (fun a b => (a + b) mod t) (summed k v) (swapped_rows n (summed k v)) = repeat (sum_of v mod t) n.
  Proof.
    intros Hv Hc Hk. destruct (summed_spec v Hv Hc k ltac:(lia)) as (L & E). set (w := summed k v) in *. apply list_ext_Z; [rewrite zipWith_length, swapped_length, repeat_length by assumption; lia|]. rewrite zipWith_length, swapped_length by assumption. rewrite L, Nat.min_id. intros j Hj.
    rewrite nth_zipWith_Z by (rewrite ?swapped_length by assumption; lia). rewrite nth_swapped by assumption.
    assert (Er : nth j (repeat (sum_of v mod t) n) 0 = sum_of v mod t) by (rewrite (nth_indep _ 0 (sum_of v mod t)) by (rewrite repeat_length; exact Hj); apply nth_repeat). rewrite Er.
    assert (Es : sum_of v = sumn h (fun u => nth u v 0) + sumn h (fun u => nth (h + u) v 0)) by (rewrite sum_of_sumn, Hv; rewrite <- Hn at 1; apply sumn_app).
    assert (R1 : forall j, (j < h)%nat -> nth j w 0 = sumn h (fun u => nth u v 0) mod t). { intros i Hi. rewrite E by lia. f_equal. rewrite <- Hk. rewrite <- (sumn_cyclic h (fun u => nth u v 0) Hh i). apply sumn_ext. intros u _. unfold right_of. rewrite (proj2 (Nat.ltb_lt _ _) Hi). reflexivity. }
    assert (R2 : forall j, (h <= j < n)%nat -> nth j w 0 = sumn h (fun u => nth (h + u) v 0) mod t). { intros i Hi. rewrite E by lia. f_equal. rewrite <- Hk. rewrite <- (sumn_cyclic h (fun u => nth (h + u)%nat v 0) Hh (i - h)). apply sumn_ext. intros u _. unfold right_of. rewrite (proj2 (Nat.ltb_ge _ _)) by lia. reflexivity. }
    rewrite Es. destruct (Nat.ltb_spec j h) as [H|H].
    - rewrite R1, R2 by lia. rewrite <- Z.add_mod by lia. reflexivity.
    - rewrite R2, R1 by lia. rewrite <- Z.add_mod by lia. f_equal. lia.
  Qed.
End Lists.
Set Default Proof Using "Type".

Section Slots.
  Context (isp : Z -> bool) (cands : Z -> list Z) (Ho : oracles isp cands) (par : params) (Hp : is_params isp cands par) (G : good_params isp cands par).
  Context (l : nat) (lv : level_ctx) (c : ctx) (A : at_level isp cands par l lv c) (op : ntt_op) (Eop : pa_ntt par = Some op) (HtQ : pa_t par <= prod_list (level_moduli (pa_moduli par) l)).
  Notation N := (pa_degree par).
  Notation t := (pa_t par).
  Set Default Proof Using "All".
  Theorem slots_sum psi (m : Rn N) : good_root par op psi ->
    slots N t psi (rl (sum_step par (fold_left (sum_step par) (map (column_exponent N) (steps_of par)) m) (row_exponent N))) = repeat (sum_of (slots N t psi (rl m)) mod t) N.
  Proof.
    intros Hr. pose proof (gp_t _ _ _ G) as Ht. destruct (deg_pow isp cands Ho par G) as (K & HK & EN & _ & _ & Eh). destruct (steps_eq isp cands Ho par G) as (K' & HK' & EN' & Est).
    assert (K' = K) as -> by (apply (Nat.pow_inj_r 2); lia). assert (Hn : (N / 2 + N / 2 = N)%nat) by (rewrite Eh, EN; replace K with (S (K - 1)) at 3 by lia; cbn [Nat.pow]; lia). assert (Hh : (0 < N / 2)%nat) by (rewrite Eh; apply Nat.neq_0_lt_0, Nat.pow_nonzero; lia).
    assert (HS : forall k, (k <= K - 1)%nat -> slots N t psi (rl (fold_left (sum_step par) (map (column_exponent N) (map (fun k => 2 ^ Z.of_nat k) (seq 0 k))) m)) = summed N t k (slots N t psi (rl m))).
    { induction k as [|k IH]; intros Hk; [reflexivity|]. rewrite seq_S, !map_app, fold_left_app. cbn [map fold_left plus]. unfold sum_step at 1. rewrite slots_add. rewrite summed_S by (assumption || lia). rewrite <- nat_pow2_Z.
      rewrite (proj1 (slots_galois isp cands Ho par Hp G l lv c A op Eop HtQ psi _ Hr)) by (rewrite Eh; apply Nat.pow_lt_mono_r; lia). rewrite IH by lia. reflexivity. }
    unfold sum_step at 1. rewrite slots_add. rewrite (proj2 (slots_galois isp cands Ho par Hp G l lv c A op Eop HtQ psi _ Hr)). rewrite Est, HS by lia.
    apply summed_all; try assumption; try lia; [apply slots_length|apply slots_canonical; lia].
  Qed.
End Slots.
Set Default Proof Using "Type".
