(** The slot map of [build] is a permutation. *)
From Verif Require Import Outcome BasicSpec OutcomeLemmas NumTheory NttModel PolySpec PolyRing NttPure NttStages NttProofs RqModel RqSpec RqOps ParamsModel BfvSpec.
From Verif Require Import RnsProofs.
From Coq Require Import Znumtheory Zpow_facts Permutation.

(** ** Powers of 3 modulo powers of two *)
Lemma pow3_2k (j : nat) : exists u, 3 ^ (2 ^ (Z.of_nat j + 1)) = 1 + 2 ^ (Z.of_nat j + 3) * (2 * u + 1).
Proof.
  induction j as [|j (u & IH)]; [exists 0; reflexivity|].
  replace (2 ^ (Z.of_nat (S j) + 1)) with (2 * 2 ^ (Z.of_nat j + 1)) by (rewrite <- Z.pow_succ_r by lia; apply (f_equal (Z.pow 2)); lia).
  rewrite Z.pow_twice_r, IH. replace (2 ^ (Z.of_nat (S j) + 3)) with (2 * 2 ^ (Z.of_nat j + 3)) by (rewrite <- Z.pow_succ_r by lia; apply (f_equal (Z.pow 2)); lia).
  replace (2 ^ (Z.of_nat j + 3)) with (4 * 2 ^ (Z.of_nat j + 1)) by (replace (Z.of_nat j + 3) with (2 + (Z.of_nat j + 1)) by lia; rewrite (Z.pow_add_r 2 2) by lia; reflexivity).
  set (x := 2 ^ (Z.of_nat j + 1)). exists (u + x * (2 * u + 1) * (2 * u + 1)). ring.
Qed.
Lemma pow3_mod8 a : 0 <= a -> 3 ^ a mod 8 = 1 \/ 3 ^ a mod 8 = 3.
Proof.
  intros Ha. pattern a. apply natlike_ind; [left; reflexivity| |exact Ha]. intros x Hx [H|H]; rewrite Z.pow_succ_r, <- Z.mul_mod_idemp_r, H by lia; [right|left]; reflexivity.
Qed.
Lemma pow3_order (k : nat) a : 0 <= a -> (3 ^ a) mod 2 ^ (Z.of_nat k + 3) = 1 -> (2 ^ (Z.of_nat k + 1) | a).
Proof.
  revert a. induction k as [|k IH]; intros a Ha E.
  - change (2 ^ (Z.of_nat 0 + 3)) with 8 in E. change (2 ^ (Z.of_nat 0 + 1)) with 2. destruct (Z.odd a) eqn:Eo.
    + exfalso. apply Z.odd_spec in Eo. destruct Eo as (b & ->). assert (0 <= b) by lia. rewrite Z.pow_add_r, Z.pow_mul_r in E by lia.
      change (3 ^ 2) with 9 in E. change (3 ^ 1) with 3 in E. rewrite <- Z.mul_mod_idemp_l, Zpow_facts.Zpower_mod in E by lia. change (9 mod 8) with 1 in E.
      rewrite Z.pow_1_l in E by lia. discriminate.
    + rewrite <- Z.negb_even in Eo. apply negb_false_iff, Z.even_spec in Eo. destruct Eo as (b & ->). exists b. ring.
  - set (m := 2 ^ (Z.of_nat k + 3)). replace (Z.of_nat (S k) + 3) with (Z.succ (Z.of_nat k + 3)) in E by lia. rewrite Z.pow_succ_r in E by lia. fold m in E.
    replace (Z.of_nat (S k) + 1) with (Z.succ (Z.of_nat k + 1)) by lia. rewrite Z.pow_succ_r by lia.
    assert (Hm : 8 <= m) by (unfold m; change 8 with (2 ^ 3); apply Z.pow_le_mono_r; lia).
    destruct (IH a Ha) as (b & Eb).
    { fold m. rewrite (Z.div_mod (3 ^ a) (2 * m)), E by lia. replace (2 * m * (3 ^ a / (2 * m)) + 1) with (1 + (2 * (3 ^ a / (2 * m))) * m) by ring. rewrite Z_mod_plus_full. apply Z.mod_small. lia. }
    set (g := 2 ^ (Z.of_nat k + 1)) in *. assert (0 < g) by (unfold g; apply Z.pow_pos_nonneg; lia). assert (0 <= b) by nia.
    destruct (pow3_2k k) as (u & Eu). fold g m in Eu.
    destruct (Z.Even_or_Odd b) as [(c & ->)|(c & ->)]; [exists c; subst a; ring|exfalso]. assert (0 <= c) by lia.
    assert (E2 : (3 ^ (2 * g * c)) mod (2 * m) = 1).
    { rewrite Z.pow_mul_r by lia. rewrite (Z.mul_comm 2 g), Z.pow_mul_r by lia. rewrite Eu. rewrite Zpow_facts.Zpower_mod by lia.
      assert (Em : exists h, m = 2 * h) by (exists (2 ^ (Z.of_nat k + 2)); unfold m; rewrite <- Z.pow_succ_r by lia; apply (f_equal (Z.pow 2)); lia).
      destruct Em as (h & Em). replace ((1 + m * (2 * u + 1)) ^ 2) with (1 + (2 * u + 1 + h * (2 * u + 1) * (2 * u + 1)) * (2 * m)).
      - rewrite Z_mod_plus_full, (Z.mod_small 1) by lia. rewrite Z.pow_1_l by lia. apply Z.mod_small. lia.
      - rewrite Z.pow_2_r. clearbody m. subst m. ring. }
    replace a with (2 * g * c + g) in E by (subst a; ring). rewrite Z.pow_add_r in E by nia. rewrite <- Z.mul_mod_idemp_l, E2, Z.mul_1_l, Eu in E by lia.
    replace (1 + m * (2 * u + 1)) with (1 + m + u * (2 * m)) in E by ring. rewrite Z_mod_plus_full, Z.mod_small in E by lia. lia.
Qed.

Lemma opp_opp_mod m x : (- ((- x) mod m)) mod m = x mod m.
Proof. rewrite <- (Z.sub_0_l ((- x) mod m)), Zminus_mod_idemp_r. f_equal. ring. Qed.

Lemma NoDup_map_in {A B} (f : A -> B) l : (forall x y, In x l -> In y l -> f x = f y -> x = y) -> NoDup l -> NoDup (map f l).
Proof.
  intros Hf H. induction H as [|a l Hni Hnd IH]; cbn [map]; constructor.
  - intros Hin. apply in_map_iff in Hin. destruct Hin as (y & Ey & Hy). apply Hni. rewrite (Hf a y); [exact Hy|left; reflexivity|right; exact Hy|congruence].
  - apply IH. intros x y Hx Hy. apply Hf; right; assumption.
Qed.

Section Slots.
  Variables (K : nat) (HK : (2 <= K < 61)%nat).
  Notation n := (2 ^ K)%nat.
  Notation nz := (2 ^ Z.of_nat K).
  Lemma half_n : (n / 2 = 2 ^ (K - 1))%nat.
  Proof. replace K with (S (K - 1)) at 1 by lia. rewrite Nat.pow_succ_r', Nat.mul_comm. apply Nat.div_mul. lia. Qed.
  Lemma n_halves : (n = n / 2 + n / 2)%nat.
  Proof. rewrite half_n. replace K with (S (K - 1)) at 1 by lia. rewrite Nat.pow_succ_r'. lia. Qed.
  Lemma nz_4 : nz = 4 * 2 ^ (Z.of_nat (K - 2)).
  Proof. change 4 with (2 ^ 2). rewrite <- Z.pow_add_r by lia. apply (f_equal (Z.pow 2)). lia. Qed.
  Lemma nz_bounds : 4 <= nz <= 2 ^ 60.
  Proof. split; [change 4 with (2 ^ 2)|]; apply Z.pow_le_mono_r; lia. Qed.
  Lemma half_z : Z.of_nat (n / 2) = nz / 2.
  Proof. rewrite Nat2Z.inj_div, nat_pow2_Z. reflexivity. Qed.

  Lemma odd_pow3 a : 0 <= a -> Z.odd (3 ^ a) = true.
  Proof. intros Ha. pattern a. apply natlike_ind; [reflexivity| |exact Ha]. intros x Hx IH. rewrite Z.pow_succ_r, Z.odd_mul, IH by lia. reflexivity. Qed.
  Lemma odd_mod a : Z.odd (a mod (2 * nz)) = Z.odd a.
  Proof.
    pose proof nz_bounds. rewrite (Z.div_mod a (2 * nz)) at 2 by lia. rewrite Z.odd_add, <- Z.mul_assoc, Z.odd_mul. cbn [Z.odd andb]. destruct (Z.odd (a mod (2 * nz))); reflexivity.
  Qed.
  Lemma pow3_inj i j : (i < n / 2)%nat -> (j < n / 2)%nat -> 3 ^ Z.of_nat i mod (2 * nz) = 3 ^ Z.of_nat j mod (2 * nz) -> i = j.
  Proof.
    assert (W : forall i j, (i <= j)%nat -> (j < n / 2)%nat -> 3 ^ Z.of_nat i mod (2 * nz) = 3 ^ Z.of_nat j mod (2 * nz) -> i = j).
    { intros a b Hab Hb E. pose proof nz_bounds. set (d := Z.of_nat b - Z.of_nat a). assert (Eb : 3 ^ Z.of_nat b = 3 ^ Z.of_nat a * 3 ^ d) by (rewrite <- Z.pow_add_r by (unfold d; lia); apply (f_equal (Z.pow 3)); unfold d; lia).
      assert (Ed : 3 ^ d mod (2 * nz) = 1).
      { rewrite Eb in E. replace (3 ^ Z.of_nat a) with (3 ^ Z.of_nat a * 1) in E at 1 by ring.
        assert (Hdiv : (2 * nz | 3 ^ Z.of_nat a * (3 ^ d - 1))).
        { apply Z.mod_divide; [lia|]. rewrite Z.mul_sub_distr_l, Zminus_mod, <- E, Z.sub_diag. reflexivity. }
        apply Gauss in Hdiv.
        - destruct Hdiv as (k & Ek). replace (3 ^ d) with (1 + k * (2 * nz)) by lia. rewrite Z_mod_plus_full. apply Z.mod_small. lia.
        - apply rel_prime_Zpower_r; [lia|].
          replace (2 * nz) with (2 ^ (Z.of_nat K + 1)) by (rewrite Z.pow_add_r by lia; change (2 ^ 1) with 2; ring). apply rel_prime_sym, rel_prime_Zpower_r; [lia|]. apply Zgcd_1_rel_prime. reflexivity. }
      destruct (pow3_order (K - 2) d) as (k & Ek); [unfold d; lia| |].
      - replace (2 ^ (Z.of_nat (K - 2) + 3)) with (2 * nz); [exact Ed|]. rewrite nz_4. change 4 with (2 ^ 2). rewrite <- Z.pow_add_r, <- Z.pow_succ_r by lia. apply (f_equal (Z.pow 2)). lia.
      - assert (Eg : 2 ^ (Z.of_nat (K - 2) + 1) = nz / 2).
        { rewrite nz_4. replace (4 * 2 ^ Z.of_nat (K - 2)) with (2 ^ (Z.of_nat (K - 2) + 1) * 2) by (rewrite Z.pow_add_r by lia; change (2 ^ 1) with 2; ring). rewrite Z.div_mul by lia. reflexivity. }
        rewrite Eg in Ek. pose proof half_z as Hh. assert (0 <= d < nz / 2) by (unfold d; lia). assert (k = 0) by nia. unfold d in *. lia. }
    intros Hi Hj E. destruct (Nat.le_ge_cases i j); [apply W; assumption|symmetry; apply W; [assumption..|congruence]].
  Qed.
  Lemma pow3_neg i j : 3 ^ Z.of_nat i mod (2 * nz) <> (- 3 ^ Z.of_nat j) mod (2 * nz).
  Proof.
    intros E. pose proof nz_bounds. assert (E8 : 3 ^ Z.of_nat i mod 8 = (- 3 ^ Z.of_nat j) mod 8).
    { apply (cong_dividing 8 (2 * nz)); try lia; [|exact E]. exists (2 ^ Z.of_nat (K - 2)). rewrite nz_4. ring. }
    rewrite <- Z.sub_0_l, <- Zminus_mod_idemp_r in E8. destruct (pow3_mod8 (Z.of_nat i)) as [H1|H1]; [lia| |]; (destruct (pow3_mod8 (Z.of_nat j)) as [H2|H2]; [lia| |]); rewrite H1, H2 in E8; discriminate.
  Qed.

  Lemma slot_exponent_range i : 0 <= slot_exponent n i < 2 * nz /\ Z.odd (slot_exponent n i) = true.
  Proof.
    pose proof nz_bounds. unfold slot_exponent. rewrite nat_pow2_Z. destruct (Nat.ltb i (n / 2)); (split; [apply Z.mod_pos_bound; lia|]); rewrite odd_mod; [|rewrite Z.odd_opp]; apply odd_pow3; lia.
  Qed.
  Lemma slot_exponent_inj i j : (i < n)%nat -> (j < n)%nat -> slot_exponent n i = slot_exponent n j -> i = j.
  Proof.
    intros Hi Hj. unfold slot_exponent. rewrite nat_pow2_Z. pose proof n_halves as Hn. pose proof nz_bounds. destruct (Nat.ltb_spec i (n / 2)) as [Li|Li]; destruct (Nat.ltb_spec j (n / 2)) as [Lj|Lj]; intros E.
    - apply pow3_inj; assumption.
    - destruct (pow3_neg _ _ E).
    - symmetry in E. destruct (pow3_neg _ _ E).
    - assert (i - n / 2 = j - n / 2)%nat; [|lia]. apply pow3_inj; [lia..|]. apply (f_equal (fun x => (- x) mod (2 * nz))) in E. rewrite !opp_opp_mod in E. exact E.
  Qed.

  (** The entry of slot [i]. *)
  Definition slot_pos (i : nat) : nat := Z.to_nat (bitrev K ((slot_exponent n i - 1) / 2)).
  Lemma slot_half i : 0 <= (slot_exponent n i - 1) / 2 < nz /\ slot_exponent n i = 2 * ((slot_exponent n i - 1) / 2) + 1.
  Proof.
    destruct (slot_exponent_range i) as (Hr & Ho). apply Z.odd_spec in Ho. destruct Ho as (m & Em). rewrite Em. replace (2 * m + 1 - 1) with (m * 2) by ring. rewrite Z.div_mul by lia. lia.
  Qed.
  Lemma slot_pos_lt i : (slot_pos i < n)%nat.
  Proof. unfold slot_pos. pose proof (bitrev_bounds K ((slot_exponent n i - 1) / 2)). apply Nat2Z.inj_lt. rewrite nat_pow2_Z. lia. Qed.
  Lemma slot_pos_exponent i : 2 * bitrev K (Z.of_nat (slot_pos i)) + 1 = slot_exponent n i.
  Proof.
    unfold slot_pos. pose proof (bitrev_bounds K ((slot_exponent n i - 1) / 2)). rewrite Z2Nat.id by lia. destruct (slot_half i) as (Hr & E). rewrite bitrev_invol by exact Hr. lia.
  Qed.
  Lemma slot_pos_inj i j : (i < n)%nat -> (j < n)%nat -> slot_pos i = slot_pos j -> i = j.
  Proof. intros Hi Hj E. apply slot_exponent_inj; try assumption. rewrite <- !slot_pos_exponent, E. reflexivity. Qed.

  Lemma nth_set_nth_nat (l : list nat) i v k d : (i < length l)%nat -> nth k (set_nth l i v) d = if Nat.eqb k i then v else nth k l d.
  Proof. revert i k. induction l as [|a l IH]; intros [|i] [|k] H; cbn in *; try lia; try reflexivity. apply IH. lia. Qed.

  Lemma index_loop_spec rows : forall i m, (i + rows = n / 2)%nat -> length m = n ->
    exists m', index_loop nz rows i (3 ^ Z.of_nat i mod (2 * nz)) m = Val m' /\ length m' = n /\
      forall k, (k < n)%nat -> nth k m' O = if (Nat.leb i k && Nat.ltb k (n / 2)) || Nat.leb (n / 2 + i) k then slot_pos k else nth k m O.
  Proof.
    pose proof nz_bounds as Hnz. pose proof n_halves as Hn. induction rows as [|rows IH]; intros i m Hi Hm.
    - exists m. cbn [index_loop]. split; [reflexivity|]. split; [exact Hm|]. intros k Hk. destruct (Nat.leb_spec i k); destruct (Nat.ltb_spec k (n / 2)); destruct (Nat.leb_spec (n / 2 + i) k); cbn [andb orb]; try lia; reflexivity.
    - cbn [index_loop]. cbv zeta. rewrite Z.shiftl_mul_pow2, Z.shiftr_div_pow2 by lia. change (2 ^ 1) with 2. rewrite (Z.mul_comm nz 2).
      assert (Ei : slot_exponent n i = 3 ^ Z.of_nat i mod (2 * nz)) by (unfold slot_exponent; rewrite nat_pow2_Z; destruct (Nat.ltb_spec i (n / 2)); [reflexivity|lia]).
      set (pos := 3 ^ Z.of_nat i mod (2 * nz)) in *. pose proof (slot_exponent_range i) as (Hp & Ho). rewrite Ei in Hp, Ho.
      assert (Hpos : 1 <= pos < 2 * nz) by (destruct (Z.eq_dec pos 0) as [E0|]; [rewrite E0 in Ho; discriminate|lia]).
      assert (Ei2 : slot_exponent n (n / 2 + i) = 2 * nz - pos).
      { unfold slot_exponent. rewrite nat_pow2_Z. destruct (Nat.ltb_spec (n / 2 + i) (n / 2)); [lia|]. replace (n / 2 + i - n / 2)%nat with i by lia.
        rewrite <- Z.sub_0_l, <- Zminus_mod_idemp_r. fold pos. replace (0 - pos) with (2 * nz - pos + (-1) * (2 * nz)) by ring. rewrite Z_mod_plus_full. apply Z.mod_small. lia. }
      unfold chk64. assert (2 ^ 60 * 16 = W64) by reflexivity. repeat rewrite bind_chk by lia. rewrite !Z.shiftr_div_pow2 by lia. change (2 ^ 1) with 2.
      assert (Hlor : Z.to_nat (Z.lor (nz / 2) (Z.of_nat i)) = (n / 2 + i)%nat).
      { rewrite Z.lor_comm. replace (nz / 2) with (Z.shiftl 1 (Z.of_nat (K - 1))).
        - rewrite (lor_disjoint_add (Z.of_nat i) 1 (Z.of_nat (K - 1))); [|lia|].
          + rewrite half_n. rewrite Z.mul_1_l, <- nat_pow2_Z. lia.
          + rewrite <- nat_pow2_Z. pose proof half_n. lia.
        - rewrite Z.shiftl_mul_pow2, Z.mul_1_l, <- half_z, half_n, nat_pow2_Z by lia. reflexivity. }
      rewrite Hlor. pose proof (slot_half i) as (B1 & _). pose proof (slot_half (n / 2 + i)) as (B2 & _). rewrite Ei in B1. rewrite Ei2 in B2.
      rewrite !bitrev_index_spec by (try exact B1; try exact B2; lia).
      replace (2 * nz - 1) with (2 ^ (Z.of_nat K + 1) - 1) by (rewrite Z.pow_add_r by lia; change (2 ^ 1) with 2; ring). rewrite land_mask by lia.
      replace (2 ^ (Z.of_nat K + 1)) with (2 * nz) by (rewrite Z.pow_add_r by lia; change (2 ^ 1) with 2; ring).
      replace ((pos * 3) mod (2 * nz)) with (3 ^ Z.of_nat (S i) mod (2 * nz)).
      2:{ unfold pos. rewrite Z.mul_mod_idemp_l by lia. rewrite Nat2Z.inj_succ, Z.pow_succ_r by lia. f_equal. ring. }
      edestruct (IH (S i)) as (m' & E & L & H'); [lia| |].
      2:{ exists m'. split; [exact E|]. split; [exact L|]. intros k Hk. rewrite H' by exact Hk. clear H' E.
          rewrite nth_set_nth_nat by (rewrite set_nth_length; lia). rewrite nth_set_nth_nat by lia.
          assert (S1 : slot_pos i = Z.to_nat (bitrev K ((pos - 1) / 2))) by (unfold slot_pos; rewrite Ei; reflexivity).
          assert (S2 : slot_pos (n / 2 + i) = Z.to_nat (bitrev K ((2 * nz - pos - 1) / 2))) by (unfold slot_pos; rewrite Ei2; reflexivity).
          rewrite <- S1, <- S2.
          destruct (Nat.leb_spec (S i) k); destruct (Nat.leb_spec i k); destruct (Nat.ltb_spec k (n / 2)); destruct (Nat.leb_spec (n / 2 + S i) k); destruct (Nat.leb_spec (n / 2 + i) k);
            destruct (Nat.eqb_spec k (n / 2 + i)); destruct (Nat.eqb_spec k i); subst; cbn [andb orb]; try lia; reflexivity. }
      rewrite !set_nth_length. exact Hm.
  Qed.
  Theorem index_map_spec : index_map nz = Val (map slot_pos (seq 0 n)).
  Proof.
    pose proof nz_bounds as Hnz. pose proof n_halves as Hn. unfold index_map. rewrite Z.shiftr_div_pow2 by lia. change (2 ^ 1) with 2. rewrite <- half_z, Nat2Z.id, <- nat_pow2_Z, Nat2Z.id, nat_pow2_Z.
    destruct (index_loop_spec (n / 2) 0 (repeat O n)) as (m' & E & L & H); [lia|apply repeat_length|].
    change (3 ^ Z.of_nat 0) with 1 in E. rewrite (Z.mod_small 1) in E by lia. rewrite E. f_equal.
    apply (nth_ext _ _ O (slot_pos O)); [rewrite map_length, seq_length; exact L|]. intros k Hk. rewrite L in Hk. rewrite H by exact Hk.
    rewrite map_nth, seq_nth by exact Hk. destruct (Nat.leb_spec 0 k); [|lia]. destruct (Nat.ltb_spec k (n / 2)); destruct (Nat.leb_spec (n / 2 + 0) k); cbn [andb orb]; try lia; reflexivity.
  Qed.
  Theorem index_map_perm : Permutation (map slot_pos (seq 0 n)) (seq 0 n).
  Proof.
    apply NoDup_Permutation_bis.
    - apply NoDup_map_in; [|apply seq_NoDup]. intros x y Hx Hy. apply in_seq in Hx, Hy. apply slot_pos_inj; lia.
    - rewrite map_length. lia.
    - intros x Hx. apply in_map_iff in Hx. destruct Hx as (i & <- & _). apply in_seq. pose proof (slot_pos_lt i). lia.
  Qed.
End Slots.
