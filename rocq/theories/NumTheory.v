(** Elementary number theory over Z used by the proofs: congruences, Fermat's little theorem,
    inverses modulo a prime, coprimality of products. *)
From Verif Require Import Outcome OutcomeLemmas.
From Coq Require Import Znumtheory Zpow_facts Permutation.

(** [cong p a b]: a and b are congruent modulo p. *)
Definition cong (p a b : Z) : Prop := a mod p = b mod p.

Lemma cong_divide p a b : 0 < p -> cong p a b <-> (p | a - b).
Proof.
  intros Hp. unfold cong. split.
  - intros H. exists (a / p - b / p).
    rewrite (Z.div_mod a p), (Z.div_mod b p) at 1 by lia. rewrite H. ring.
  - intros [k Hk]. replace a with (b + k * p) by lia. apply Z_mod_plus_full.
Qed.

Lemma cong_refl p a : cong p a a.
Proof. reflexivity. Qed.
Lemma cong_sym p a b : cong p a b -> cong p b a.
Proof. unfold cong; congruence. Qed.
Lemma cong_trans p a b c : cong p a b -> cong p b c -> cong p a c.
Proof. unfold cong; congruence. Qed.

Global Instance cong_equiv p : RelationClasses.Equivalence (cong p).
Proof. split; [exact (cong_refl p) | exact (cong_sym p) | exact (cong_trans p)]. Qed.

Lemma cong_add p a a' b b' : cong p a a' -> cong p b b' -> cong p (a + b) (a' + b').
Proof. unfold cong. intros H1 H2. rewrite Zplus_mod, H1, H2, <- Zplus_mod. reflexivity. Qed.
Lemma cong_sub p a a' b b' : cong p a a' -> cong p b b' -> cong p (a - b) (a' - b').
Proof. unfold cong. intros H1 H2. rewrite Zminus_mod, H1, H2, <- Zminus_mod. reflexivity. Qed.
Lemma cong_mul p a a' b b' : cong p a a' -> cong p b b' -> cong p (a * b) (a' * b').
Proof. unfold cong. intros H1 H2. rewrite Zmult_mod, H1, H2, <- Zmult_mod. reflexivity. Qed.
Lemma cong_opp p a a' : cong p a a' -> cong p (- a) (- a').
Proof.
  intros H. replace (- a) with (0 - a) by lia. replace (- a') with (0 - a') by lia.
  apply cong_sub; [reflexivity|exact H].
Qed.
Lemma cong_mod p a : cong p (a mod p) a.
Proof. unfold cong. destruct (Z.eq_dec p 0) as [->|]; [rewrite !Zmod_0_r; reflexivity|apply Z.mod_mod; assumption]. Qed.
Lemma cong_pow p a a' n : 0 <= n -> cong p a a' -> cong p (a ^ n) (a' ^ n).
Proof.
  intros Hn H. revert n Hn. apply (natlike_ind (fun n => cong p (a ^ n) (a' ^ n))).
  - reflexivity.
  - intros n Hn IH. rewrite !Z.pow_succ_r by exact Hn. apply cong_mul; assumption.
Qed.

Require Import Coq.Classes.Morphisms Coq.Setoids.Setoid.
Global Instance cong_add_proper p : Proper (cong p ==> cong p ==> cong p) Z.add.
Proof. intros a a' H b b' H'. apply cong_add; assumption. Qed.
Global Instance cong_sub_proper p : Proper (cong p ==> cong p ==> cong p) Z.sub.
Proof. intros a a' H b b' H'. apply cong_sub; assumption. Qed.
Global Instance cong_mul_proper p : Proper (cong p ==> cong p ==> cong p) Z.mul.
Proof. intros a a' H b b' H'. apply cong_mul; assumption. Qed.
Global Instance cong_opp_proper p : Proper (cong p ==> cong p) Z.opp.
Proof. intros a a' H. apply cong_opp; assumption. Qed.

Lemma cong_small p a b : 0 <= a < p -> 0 <= b < p -> cong p a b -> a = b.
Proof. unfold cong. intros Ha Hb H. rewrite !Z.mod_small in H by lia. exact H. Qed.

Lemma cong_mod_eq p a b : cong p a b -> a mod p = b mod p.
Proof. exact (fun H => H). Qed.

Lemma cong_eq p a b : a = b -> cong p a b.
Proof. intros ->. reflexivity. Qed.

Lemma cong_0_divide p a : 0 < p -> cong p a 0 <-> (p | a).
Proof. intros Hp. rewrite cong_divide by exact Hp. rewrite Z.sub_0_r. reflexivity. Qed.

Lemma cong_pow_mod p a n : 0 <= n -> cong p ((a mod p) ^ n) (a ^ n).
Proof. intros Hn. apply cong_pow; [exact Hn|apply cong_mod]. Qed.

(** cancellation *)
Lemma cong_mul_cancel_l p a b c : 0 < p -> rel_prime p a -> cong p (a * b) (a * c) -> cong p b c.
Proof.
  intros Hp Hrel H. apply cong_divide in H; [|exact Hp]. apply cong_divide; [exact Hp|].
  replace (a * b - a * c) with (a * (b - c)) in H by ring.
  apply Gauss with a; assumption.
Qed.

Lemma prime_coprime p a : prime p -> 0 < a < p -> rel_prime p a.
Proof.
  intros Hp Ha. apply rel_prime_sym, rel_prime_le_prime; [exact Hp|lia].
Qed.

Lemma prime_rel_prime_cong p a : prime p -> ~ cong p a 0 -> rel_prime p a.
Proof.
  intros Hp Ha. destruct (Zdivide_dec p a) as [D|D].
  - exfalso. apply Ha. apply cong_0_divide; [destruct Hp; lia|exact D].
  - apply prime_rel_prime; assumption.
Qed.

Definition prodZ (l : list Z) : Z := fold_right Z.mul 1 l.

Lemma prodZ_perm l l' : Permutation l l' -> prodZ l = prodZ l'.
Proof.
  unfold prodZ. induction 1 as [|x l l' _ IH|x y l|l l' l'' _ IH1 _ IH2]; cbn [fold_right].
  - reflexivity. - rewrite IH; reflexivity. - ring. - congruence.
Qed.

Lemma prodZ_map_mul a l : prodZ (map (fun x => a * x) l) = a ^ Z.of_nat (length l) * prodZ l.
Proof.
  induction l as [|x t IH]; [reflexivity|]. cbn [map prodZ fold_right length].
  fold (prodZ (map (fun x => a * x) t)). fold (prodZ t). rewrite IH, Nat2Z.inj_succ, Z.pow_succ_r by lia. ring.
Qed.

Lemma prodZ_cong p l l' : Forall2 (cong p) l l' -> cong p (prodZ l) (prodZ l').
Proof. induction 1; [reflexivity|]. cbn [prodZ fold_right]. apply cong_mul; assumption. Qed.

Lemma prodZ_rel_prime p l : Forall (rel_prime p) l -> rel_prime p (prodZ l).
Proof.
  induction 1 as [|x t Hx _ IH]; cbn [prodZ fold_right]; [apply rel_prime_sym, rel_prime_1|].
  apply rel_prime_mult; assumption.
Qed.

Definition residues (p : Z) : list Z := map Z.of_nat (seq 1 (Z.to_nat (p - 1))).

Lemma residues_in p x : 1 <= p -> In x (residues p) <-> 1 <= x < p.
Proof.
  intros Hp. unfold residues. rewrite in_map_iff. split.
  - intros (n & <- & Hn). apply in_seq in Hn. lia.
  - intros Hx. exists (Z.to_nat x). split; [lia|]. apply in_seq. lia.
Qed.

Lemma residues_nodup p : NoDup (residues p).
Proof.
  unfold residues. apply FinFun.Injective_map_NoDup; [|apply seq_NoDup].
  intros a b H. apply Nat2Z.inj, H.
Qed.

Lemma residues_length p : 1 <= p -> Z.of_nat (length (residues p)) = p - 1.
Proof. intros Hp. unfold residues. rewrite map_length, seq_length. lia. Qed.

Lemma mul_residues_perm p a : prime p -> 0 < a < p ->
  Permutation (map (fun x => (a * x) mod p) (residues p)) (residues p).
Proof.
  intros Hp Ha. assert (Hrel := prime_coprime p a Hp Ha).
  assert (Hp1 : 1 < p) by (destruct Hp; lia).
  apply NoDup_Permutation_bis.
  - assert (Hin : forall x, In x (residues p) -> 1 <= x < p) by (intros; apply residues_in; [lia|assumption]).
    generalize (residues_nodup p). revert Hin. generalize (residues p) as l.
    induction l as [|x t IH]; intros Hin Hnd; cbn [map]; constructor.
    + rewrite in_map_iff. intros (y & Hy & Hyt). inversion Hnd as [|? ? Hnx Hnt]; subst.
      apply Hnx. assert (x = y) as ->; [|exact Hyt].
      apply (cong_small p).
      * specialize (Hin x (or_introl eq_refl)). lia.
      * specialize (Hin y (or_intror Hyt)). lia.
      * apply (cong_mul_cancel_l p a); [lia|exact Hrel|]. unfold cong. symmetry. exact Hy.
    + inversion Hnd; subst. apply IH; [|assumption]. intros; apply Hin; right; assumption.
  - rewrite map_length. lia.
  - intros y Hy. apply in_map_iff in Hy. destruct Hy as (x & <- & Hx).
    apply residues_in in Hx; [|lia]. apply residues_in; [lia|].
    assert (B := Z.mod_pos_bound (a * x) p ltac:(lia)).
    assert ((a * x) mod p <> 0); [|lia]. intros E.
    apply Z.mod_divide in E; [|lia]. apply Gauss in E; [|exact Hrel].
    apply Z.divide_pos_le in E; lia.
Qed.

(** Fermat's little theorem. *)
Theorem fermat p a : prime p -> 0 < a < p -> cong p (a ^ (p - 1)) 1.
Proof.
  intros Hp Ha. assert (Hp1 : 1 < p) by (destruct Hp; lia).
  assert (Hc : cong p (a ^ (p - 1) * prodZ (residues p)) (1 * prodZ (residues p))).
  { rewrite <- residues_length at 1 by lia. rewrite <- prodZ_map_mul. rewrite Z.mul_1_l.
    rewrite <- (prodZ_perm _ _ (mul_residues_perm p a Hp Ha)). apply prodZ_cong.
    generalize (residues p) as l. induction l; cbn [map]; constructor; auto.
    symmetry. apply cong_mod. }
  rewrite (Z.mul_comm _ (prodZ _)), (Z.mul_comm 1) in Hc.
  apply cong_mul_cancel_l in Hc; [exact Hc|lia|].
  apply prodZ_rel_prime. apply Forall_forall. intros x Hx. apply residues_in in Hx; [|lia].
  apply prime_coprime; [exact Hp|lia].
Qed.

Lemma fermat_inv p a : prime p -> 0 < a < p -> cong p (a * a ^ (p - 2)) 1.
Proof.
  intros Hp Ha. assert (Hp1 : 1 < p) by (destruct Hp; lia).
  rewrite <- Z.pow_succ_r by lia. replace (Z.succ (p - 2)) with (p - 1) by lia.
  apply fermat; assumption.
Qed.

Lemma prime_square_1 p x : prime p -> cong p (x * x) 1 -> cong p x 1 \/ cong p x (-1).
Proof.
  intros Hp H. assert (Hp0 : 0 < p) by (destruct Hp; lia).
  apply cong_divide in H; [|exact Hp0].
  replace (x * x - 1) with ((x - 1) * (x - -1)) in H by ring.
  apply prime_mult in H; [|exact Hp]. destruct H as [H|H]; [left|right]; apply cong_divide; assumption.
Qed.

Lemma prime_integral p x y : prime p -> cong p (x * y) 0 -> cong p x 0 \/ cong p y 0.
Proof.
  intros Hp H. assert (Hp0 : 0 < p) by (destruct Hp; lia).
  apply cong_0_divide in H; [|exact Hp0]. apply prime_mult in H; [|exact Hp].
  destruct H; [left|right]; apply cong_0_divide; assumption.
Qed.

(** A verified trial-division test, used to exhibit concrete primes in examples. *)
Fixpoint no_divisor_from (fuel : nat) (d p : Z) : bool :=
  match fuel with
  | O => false
  | S f => if p <? d * d then true else negb (p mod d =? 0) && no_divisor_from f (d + 1) p
  end.
Definition check_prime (fuel : nat) (p : Z) : bool := (1 <? p) && no_divisor_from fuel 2 p.

Lemma no_divisor_from_spec fuel d p : 1 < d ->
  no_divisor_from fuel d p = true -> forall x, d <= x -> x * x <= p -> ~ (x | p).
Proof.
  revert d. induction fuel as [|f IH]; intros d Hd; cbn [no_divisor_from]; [discriminate|].
  destruct (Z.ltb_spec p (d * d)) as [Hlt|Hge].
  - intros _ x Hx Hxp. nia.
  - intros H. apply andb_true_iff in H. destruct H as [H1 H2]. intros x Hx Hxp.
    destruct (Z.eq_dec x d) as [->|Hne].
    + intros D. apply Z.mod_divide in D; [|lia]. rewrite D in H1. discriminate.
    + apply (IH (d + 1)); [lia|exact H2|lia|exact Hxp].
Qed.

Lemma check_prime_spec fuel p : check_prime fuel p = true -> prime p.
Proof.
  unfold check_prime. rewrite andb_true_iff, Z.ltb_lt. intros [Hp H].
  assert (Hd := no_divisor_from_spec fuel 2 p ltac:(lia) H).
  apply prime_alt. split; [exact Hp|]. intros n Hn D.
  destruct (Z.le_gt_cases (n * n) p) as [Hle|Hgt].
  - apply (Hd n); [lia|exact Hle|exact D].
  - destruct D as [k Hk]. assert (0 < k) by nia. assert (2 <= k) by nia.
    apply (Hd k); [lia|nia|]. exists n. lia.
Qed.

Lemma pow_split a n : 0 <= n -> a ^ n = a ^ (n / 2) * a ^ (n / 2) * (if Z.odd n then a else 1).
Proof.
  intros Hn. assert (H := Z.div2_odd n). rewrite Z.div2_div in H. rewrite H at 1.
  assert (0 <= n / 2) by (apply Z.div_pos; lia).
  destruct (Z.odd n); cbn [Z.b2z].
  - rewrite Z.pow_add_r, Z.mul_comm by lia. rewrite Z.pow_1_r.
    replace (2 * (n / 2)) with (n / 2 + n / 2) by lia. rewrite Z.pow_add_r by lia. ring.
  - rewrite Z.add_0_r. replace (2 * (n / 2)) with (n / 2 + n / 2) by lia.
    rewrite Z.pow_add_r by lia. ring.
Qed.
