(** The ring Z[X]/(X^n+1) as a type, with the ring tactic, the maximum norm, monomials and automorphisms. *)
From Verif Require Import Outcome BasicSpec OutcomeLemmas PolySpec PolyRing NttPure RnsSpec RqModel RqSpec RqRows.
From Verif Require Import NttProofs NumTheory.
From Coq Require Import Eqdep_dec Znumtheory Zpow_facts.

Definition Rn (n : nat) : Type := { l : list Z | length l = n }.
Definition rl {n} (x : Rn n) : list Z := proj1_sig x.
Coercion rl : Rn >-> list.
Definition mkR {n} (l : list Z) (H : length l = n) : Rn n := exist _ l H.
Lemma rl_length {n} (x : Rn n) : length (rl x) = n.
Proof. exact (proj2_sig x). Qed.
Lemma rl_inj {n} (x y : Rn n) : rl x = rl y -> x = y.
Proof.
  destruct x as [x Hx], y as [y Hy]. cbn [rl proj1_sig]. intros E. subst y. f_equal. apply UIP_dec, Nat.eq_dec.
Qed.
Lemma rl_mkR {n} l (H : length l = n) : rl (mkR l H) = l.
Proof. reflexivity. Qed.

Section R.
  Variable n : nat.
  Definition r0 : Rn n := mkR (lzero n) (lzero_length n).
  Definition r1 : Rn n := mkR (lone n) (lone_length n).
  Definition radd (x y : Rn n) : Rn n := mkR (ladd x y) (ladd_length x y n (rl_length x) (rl_length y)).
  Definition ropp (x : Rn n) : Rn n := mkR (lopp x) (eq_trans (lopp_length x) (rl_length x)).
  Definition rsub (x y : Rn n) : Rn n := mkR (lsub x y) (lsub_length x y n (rl_length x) (rl_length y)).
  Definition rmul (x y : Rn n) : Rn n := mkR (nmul n x y) (nmul_length n x y (rl_length y)).
  Definition rscale (k : Z) (x : Rn n) : Rn n := mkR (lscale k x) (eq_trans (lscale_length k x) (rl_length x)).
  Definition rZ (k : Z) : Rn n := rscale k r1.
  (** multiplication by X *)
  Definition rshift (x : Rn n) : Rn n := mkR (lX n x) (lX_length n x).

  Lemma Rn_ring : ring_theory r0 r1 radd rmul rsub ropp (@eq (Rn n)).
  Proof.
    constructor; intros; apply rl_inj; unfold radd, rmul, rsub, ropp, r0, r1; rewrite !rl_mkR; repeat match goal with x : Rn n |- _ => pose proof (rl_length x); generalize dependent (rl x); clear x; let l := fresh "l" in intros l ? end.
    - apply ladd_zero_l; assumption.
    - apply ladd_comm; congruence.
    - symmetry. apply (ladd_assoc _ _ _ n); assumption.
    - apply nmul_one_l; assumption.
    - apply nmul_comm; assumption.
    - symmetry. apply nmul_assoc; assumption.
    - apply nmul_add_l; congruence.
    - apply lsub_opp.
    - apply ladd_opp; assumption.
  Qed.
  Add Ring RnR : Rn_ring.

  Lemma rscale_mul k x : rscale k x = rmul (rZ k) x.
  Proof. apply rl_inj. unfold rZ, rmul, rscale, r1. rewrite !rl_mkR. rewrite nmul_scale_l by apply rl_length. rewrite nmul_one_l by apply rl_length. reflexivity. Qed.
  Lemma rZ_add a b : rZ (a + b) = radd (rZ a) (rZ b).
  Proof. apply rl_inj. unfold rZ, radd, rscale. rewrite !rl_mkR. generalize (rl r1). induction l as [|x l IH]; [reflexivity|]. cbn [lscale map ladd zipWith]. f_equal; [ring|exact IH]. Qed.
  Lemma rZ_mul a b : rZ (a * b) = rmul (rZ a) (rZ b).
  Proof. rewrite <- rscale_mul. apply rl_inj. unfold rZ, rscale. rewrite !rl_mkR. symmetry. apply lscale_scale. Qed.
  Lemma rZ_opp a : rZ (- a) = ropp (rZ a).
  Proof. apply rl_inj. unfold rZ, ropp, rscale. rewrite !rl_mkR. unfold lscale, lopp. rewrite map_map. apply map_ext. intros; ring. Qed.
  Lemma rZ_0 : rZ 0 = r0.
  Proof. apply rl_inj. unfold rZ, rscale, r0. rewrite !rl_mkR. replace (lzero n) with (lzero (length (rl r1))) by (rewrite rl_length; reflexivity). generalize (rl r1). induction l as [|x l IH]; [reflexivity|]. unfold lzero. cbn [lscale map length repeat]. f_equal. exact IH. Qed.
  Lemma rZ_1 : rZ 1 = r1.
  Proof. apply rl_inj. unfold rZ, rscale. rewrite !rl_mkR. apply lscale_1. Qed.
  Lemma rZ_m1 : rZ (-1) = ropp r1.
  Proof. rewrite <- rZ_1. exact (rZ_opp 1). Qed.
  Lemma rZ_sub a b : rZ (a - b) = rsub (rZ a) (rZ b).
  Proof. replace (a - b) with (a + - b) by ring. rewrite rZ_add, rZ_opp. ring. Qed.

  Lemma nth_radd x y k : nth k (rl (radd x y)) 0 = nth k (rl x) 0 + nth k (rl y) 0.
  Proof. unfold radd. rewrite rl_mkR. apply nth_ladd. rewrite !rl_length. reflexivity. Qed.
  Lemma nth_ropp x k : nth k (rl (ropp x)) 0 = - nth k (rl x) 0.
  Proof. unfold ropp. rewrite rl_mkR. apply nth_lopp. Qed.
  Lemma nth_rsub x y k : nth k (rl (rsub x y)) 0 = nth k (rl x) 0 - nth k (rl y) 0.
  Proof. replace (rsub x y) with (radd x (ropp y)) by ring. rewrite nth_radd, nth_ropp. ring. Qed.
  Lemma nth_rscale k x i : nth i (rl (rscale k x)) 0 = k * nth i (rl x) 0.
  Proof. unfold rscale. rewrite rl_mkR. apply nth_lscale. Qed.
  Lemma nth_r0 k : nth k (rl r0) 0 = 0.
  Proof. apply nth_lzero. Qed.
  Lemma rn_ext (x y : Rn n) : (forall k, (k < n)%nat -> nth k (rl x) 0 = nth k (rl y) 0) -> x = y.
  Proof. intros H. apply rl_inj, list_ext_Z; [rewrite !rl_length; reflexivity|]. rewrite rl_length. exact H. Qed.

  (** *** Congruence modulo an integer *)
  Definition rcong (Q : Z) (x y : Rn n) : Prop := congruent Q (rl x) (rl y).
  Lemma rcong_nth Q x y : rcong Q x y <-> (forall k, (k < n)%nat -> cong Q (nth k (rl x) 0) (nth k (rl y) 0)).
  Proof.
    unfold rcong, congruent. pose proof (rl_length x) as Hx. pose proof (rl_length y) as Hy. revert Hx Hy. generalize (rl x) (rl y). clear.
    induction n as [|m IH]; intros [|a x] [|b y] Hx Hy; try discriminate.
    - split; [intros _ k; lia|constructor].
    - injection Hx as Hx. injection Hy as Hy. split.
      + intros H [|k] Hk; inversion H as [|? ? ? ? J1 J2 J3 J4]; [exact J1|]. cbn [nth]. apply (proj1 (IH x y Hx Hy)); [assumption|lia].
      + intros H. constructor; [apply (H O); lia|]. apply (IH x y Hx Hy). intros k Hk. apply (H (S k)). lia.
  Qed.
  Lemma rcong_refl Q x : rcong Q x x.
  Proof. apply rcong_nth. reflexivity. Qed.
  Lemma rcong_sym Q x y : rcong Q x y -> rcong Q y x.
  Proof. rewrite !rcong_nth. intros H k Hk. symmetry. apply H, Hk. Qed.
  Lemma rcong_trans Q x y z : rcong Q x y -> rcong Q y z -> rcong Q x z.
  Proof. rewrite !rcong_nth. intros H H' k Hk. rewrite (H k Hk). apply H', Hk. Qed.
  Lemma rcong_exists Q x y : 0 < Q -> rcong Q x y <-> exists z, x = radd y (rscale Q z).
  Proof.
    intros HQ. rewrite rcong_nth. split.
    - intros H. assert (L : length (map (fun k => (nth k (rl x) 0 - nth k (rl y) 0) / Q) (seq 0 n)) = n) by (rewrite map_length, seq_length; reflexivity).
      exists (mkR _ L). apply rn_ext. intros k Hk. rewrite nth_radd, nth_rscale, rl_mkR, nth_map_seq by exact Hk.
      specialize (H k Hk). unfold cong in H. set (a := nth k (rl x) 0) in *. set (b := nth k (rl y) 0) in *.
      pose proof (Z.div_mod (a - b) Q ltac:(lia)) as E. assert (E0 : (a - b) mod Q = 0) by (rewrite Zminus_mod, H, Z.sub_diag; reflexivity). lia.
    - intros (z & ->) k Hk. rewrite nth_radd, nth_rscale. unfold cong. rewrite Z.mul_comm. apply Z_mod_plus_full.
  Qed.
  Lemma rcong_add Q x x' y y' : rcong Q x x' -> rcong Q y y' -> rcong Q (radd x y) (radd x' y').
  Proof. rewrite !rcong_nth. intros H H' k Hk. rewrite !nth_radd. apply cong_add; auto. Qed.
  Lemma rcong_opp Q x x' : rcong Q x x' -> rcong Q (ropp x) (ropp x').
  Proof. rewrite !rcong_nth. intros H k Hk. rewrite !nth_ropp. rewrite (H k Hk). reflexivity. Qed.
  Lemma rcong_sub Q x x' y y' : rcong Q x x' -> rcong Q y y' -> rcong Q (rsub x y) (rsub x' y').
  Proof. intros H H'. replace (rsub x y) with (radd x (ropp y)) by ring. replace (rsub x' y') with (radd x' (ropp y')) by ring. apply rcong_add; [exact H|apply rcong_opp, H']. Qed.
  Lemma rcong_mul Q x x' y y' : 0 < Q -> rcong Q x x' -> rcong Q y y' -> rcong Q (rmul x y) (rmul x' y').
  Proof.
    intros HQ. rewrite !rcong_exists by exact HQ. intros (z & ->) (z' & ->). exists (radd (radd (rmul x' z') (rmul z y')) (rscale Q (rmul z z'))).
    rewrite !rscale_mul. ring.
  Qed.
  Lemma rcong_scale Q k x x' : rcong Q x x' -> rcong Q (rscale k x) (rscale k x').
  Proof. rewrite !rcong_nth. intros H i Hi. rewrite !nth_rscale. apply cong_mul; [reflexivity|auto]. Qed.
  Lemma rcong_scale_Q Q x : rcong Q (rscale Q x) r0.
  Proof. rewrite rcong_nth. intros k Hk. rewrite nth_rscale, nth_r0. unfold cong. rewrite Z.mul_comm, Z_mod_mult, Zmod_0_l. reflexivity. Qed.
  Lemma rcong_divide q Q x y : 0 < q -> 0 < Q -> (q | Q) -> rcong Q x y -> rcong q x y.
  Proof. intros Hq HQ (k & Hk). rewrite !rcong_exists by assumption. intros (z & ->). exists (rscale k z). f_equal. apply rn_ext. intros i _. rewrite !nth_rscale. rewrite Hk. ring. Qed.

  (** *** Monomials *)
  Fixpoint rX (k : nat) : Rn n := match k with O => r1 | S k' => rshift (rX k') end.
  Lemma rshift_mul x : rshift x = rmul (rshift r1) x.
  Proof. apply rl_inj. unfold rshift, rmul, r1. rewrite !rl_mkR. rewrite nmul_X_l by (rewrite ?lone_length; try apply rl_length; reflexivity). rewrite nmul_one_l by apply rl_length. reflexivity. Qed.
  Lemma rX_S k : rX (S k) = rmul (rX 1) (rX k).
  Proof. cbn [rX]. apply rshift_mul. Qed.
  Lemma rX_add a b : rX (a + b) = rmul (rX a) (rX b).
  Proof. induction a as [|a IH]; [cbn [plus rX]; ring|]. cbn [plus]. rewrite !(rX_S (a + b)), (rX_S a), IH. ring. Qed.
  Lemma rX_lXn k : rl (rX k) = lXn n k (lone n).
  Proof. induction k as [|k IH]; [reflexivity|]. rewrite lXn_S, <- IH. reflexivity. Qed.
  Lemma rX_n : rX n = ropp r1.
  Proof. apply rl_inj. rewrite rX_lXn, lXn_n by apply lone_length. reflexivity. Qed.
  Lemma rX_2n k : rX (k + 2 * n) = rX k.
  Proof. replace (k + 2 * n)%nat with (k + n + n)%nat by lia. rewrite !rX_add, rX_n. ring. Qed.
  Lemma rX_mod k : (0 < n)%nat -> rX (k mod (2 * n)) = rX k.
  Proof.
    intros Hn. rewrite (Nat.div_mod k (2 * n)) at 2 by lia. induction (k / (2 * n))%nat as [|q IH]; [f_equal; lia|].
    replace (2 * n * S q + k mod (2 * n))%nat with (2 * n * q + k mod (2 * n) + 2 * n)%nat by lia. rewrite rX_2n. exact IH.
  Qed.
  Lemma rX_nq q : rX (n * q) = rZ (if Nat.even q then 1 else -1).
  Proof.
    induction q as [|q IH]; [rewrite Nat.mul_0_r; cbn [Nat.even]; rewrite rZ_1; reflexivity|].
    rewrite Nat.mul_succ_r, rX_add, IH, rX_n, Nat.even_succ, <- Nat.negb_even.
    destruct (Nat.even q); cbn [negb]; rewrite ?rZ_m1, ?rZ_1; ring.
  Qed.
  Lemma nth_lone k : (0 < n)%nat -> nth k (lone n) 0 = if Nat.eqb k 0 then 1 else 0.
  Proof. intros Hn. destruct n as [|m]; [lia|]. destruct k; [reflexivity|]. cbn [lone nth Nat.eqb]. apply nth_repeat. Qed.
  Lemma nth_rX_small r k : (r < n)%nat -> (k < n)%nat -> nth k (rl (rX r)) 0 = if Nat.eqb r k then 1 else 0.
  Proof.
    intros Hr Hk. rewrite rX_lXn, nth_lXn by (rewrite ?lone_length; lia). destruct (Nat.leb_spec r k).
    - rewrite nth_lone by lia. destruct (Nat.eqb_spec (k - r) 0), (Nat.eqb_spec r k); try lia; reflexivity.
    - rewrite nth_lone by lia. destruct (Nat.eqb_spec (n + k - r) 0), (Nat.eqb_spec r k); try lia; reflexivity.
  Qed.
  Lemma monomial_sign_nat m : (0 < n)%nat -> monomial_sign (Z.of_nat n) (Z.of_nat m) = if Nat.even (m / n) then 1 else -1.
  Proof.
    intros Hn. unfold monomial_sign. rewrite <- Nat2Z.inj_div. replace (Z.even (Z.of_nat (m / n))) with (Nat.even (m / n)); [reflexivity|].
    induction (m / n)%nat as [|q IH]; [reflexivity|]. rewrite Nat.even_succ, <- Nat.negb_even, IH. rewrite Nat2Z.inj_succ, Z.even_succ, <- Z.negb_even. reflexivity.
  Qed.
  Lemma nth_rX m k : (k < n)%nat -> nth k (rl (rX m)) 0 = if Nat.eqb (m mod n) k then monomial_sign (Z.of_nat n) (Z.of_nat m) else 0.
  Proof.
    intros Hk. rewrite (Nat.div_mod m n) at 1 by lia. rewrite rX_add, rX_nq, <- rscale_mul, nth_rscale.
    rewrite nth_rX_small by (try apply Nat.mod_upper_bound; lia). rewrite monomial_sign_nat by lia. destruct (Nat.eqb _ _); ring.
  Qed.
  Lemma rX_monomial m : (0 < n)%nat -> rl (rX m) = monomial n (Z.of_nat m).
  Proof.
    intros Hn. apply list_ext_Z; [rewrite rl_length; unfold monomial; rewrite map_length, seq_length; reflexivity|]. rewrite rl_length. intros k Hk.
    rewrite nth_rX by exact Hk. unfold monomial. rewrite nth_map_seq by exact Hk. rewrite <- Nat2Z.inj_mod.
    destruct (Nat.eqb_spec (m mod n) k), (Z.eqb_spec (Z.of_nat (m mod n)) (Z.of_nat k)); try lia; reflexivity.
  Qed.

  (** *** Automorphisms *)
  Fixpoint aut (e : nat) (l : list Z) : Rn n := match l with [] => r0 | c :: t => radd (rZ c) (rmul (rX e) (aut e t)) end.
  Definition raut (e : nat) (x : Rn n) : Rn n := aut e (rl x).
  Lemma aut_app e a b : aut e (a ++ b) = radd (aut e a) (rmul (rX (length a * e)) (aut e b)).
  Proof. induction a as [|c a IH]; cbn [app aut length Nat.mul rX]; [ring|]. rewrite IH, rX_add. ring. Qed.
  Lemma aut_ladd e a : forall b, length a = length b -> aut e (ladd a b) = radd (aut e a) (aut e b).
  Proof. induction a as [|c a IH]; intros [|d b] H; try discriminate; cbn [ladd zipWith aut]; [ring|]. injection H as H. fold (ladd a b). rewrite IH by exact H. rewrite rZ_add. ring. Qed.
  Lemma aut_lscale e k a : aut e (lscale k a) = rmul (rZ k) (aut e a).
  Proof. induction a as [|c a IH]; cbn [lscale map aut]; [ring|]. fold (lscale k a). rewrite IH, rZ_mul. ring. Qed.
  Lemma nth_aut e k l s : (k < n)%nat -> nth k (rl (rmul (rX s) (aut e l))) 0 = sumn (length l) (fun j => nth j l 0 * nth k (rl (rX (s + j * e))) 0).
  Proof.
    intros Hk. revert s. induction l as [|c l IH]; intros s; cbn [aut length].
    - replace (rmul (rX s) r0) with r0 by ring. rewrite nth_r0. reflexivity.
    - rewrite sumn_S. cbn [nth]. replace (rmul (rX s) (radd (rZ c) (rmul (rX e) (aut e l)))) with (radd (rmul (rZ c) (rX s)) (rmul (rX (s + e)) (aut e l))) by (rewrite rX_add; ring).
      rewrite nth_radd, <- rscale_mul, nth_rscale, IH. f_equal; [f_equal; f_equal; f_equal; f_equal; lia|]. apply sumn_ext. intros j _. do 4 f_equal. lia.
  Qed.
  Lemma raut_spec e x : (0 < n)%nat -> rl (raut e x) = automorphism n (Z.of_nat e) (rl x).
  Proof.
    intros Hn. apply list_ext_Z; [rewrite rl_length; unfold automorphism; rewrite map_length, seq_length; reflexivity|]. rewrite rl_length. intros k Hk.
    unfold automorphism. rewrite nth_map_seq by exact Hk. unfold raut.
    replace (aut e (rl x)) with (rmul (rX 0) (aut e (rl x))) by (cbn [rX]; ring). rewrite nth_aut by exact Hk. rewrite rl_length. apply sumn_ext. intros j Hj.
    cbn [plus]. rewrite nth_rX by exact Hk. rewrite <- Nat2Z.inj_mul, <- Nat2Z.inj_mod.
    destruct (Nat.eqb_spec ((j * e) mod n) k), (Z.eqb_spec (Z.of_nat ((j * e) mod n)) (Z.of_nat k)); try lia; ring.
  Qed.
  Lemma raut_add e x y : raut e (radd x y) = radd (raut e x) (raut e y).
  Proof. apply aut_ladd. rewrite !rl_length. reflexivity. Qed.
  Lemma raut_scale e k x : raut e (rscale k x) = rscale k (raut e x).
  Proof. rewrite !rscale_mul. rewrite <- (rscale_mul k x). apply aut_lscale. Qed.
  Lemma raut_opp e x : raut e (ropp x) = ropp (raut e x).
  Proof.
    assert (G : forall z, ropp z = rscale (-1) z) by (intros z; rewrite rscale_mul, rZ_m1; ring).
    rewrite (G x), raut_scale, <- (G (raut e x)). reflexivity.
  Qed.
  Lemma raut_sub e x y : raut e (rsub x y) = rsub (raut e x) (raut e y).
  Proof. replace (rsub x y) with (radd x (ropp y)) by ring. rewrite raut_add, raut_opp. ring. Qed.
  Lemma aut_zeros e m : aut e (repeat 0 m) = r0.
  Proof. induction m as [|m IH]; [reflexivity|]. cbn [repeat aut]. rewrite IH, rZ_0. ring. Qed.
  Lemma raut_0 e : raut e r0 = r0.
  Proof. apply aut_zeros. Qed.
  Lemma raut_1 e : raut e r1 = r1.
  Proof.
    destruct (Nat.eq_dec n 0) as [Hn|Hn]; [apply rn_ext; intros; lia|].
    assert (E : lone n = 1 :: repeat 0 (n - 1)) by (destruct n as [|m]; [lia|]; cbn [lone]; rewrite Nat.sub_1_r; reflexivity).
    unfold raut. change (rl r1) with (lone n). rewrite E. cbn [aut]. rewrite aut_zeros, rZ_1. ring.
  Qed.
  Lemma raut_Z e k : raut e (rZ k) = rZ k.
  Proof. unfold rZ. rewrite raut_scale, raut_1. reflexivity. Qed.

  Variable Hn : (0 < n)%nat.
  Lemma lX_cons b d : length b = (n - 1)%nat -> lX n (b ++ [d]) = - d :: b.
  Proof.
    intros Hb. apply list_ext_Z; [rewrite lX_length; cbn [length]; lia|]. rewrite lX_length. intros k Hk. rewrite nth_lX by exact Hk.
    destruct k as [|k]; cbn [nth]; [rewrite app_nth2, Hb, Nat.sub_diag by lia; reflexivity|]. rewrite app_nth1 by lia. reflexivity.
  Qed.
  Lemma raut_shift e x : Nat.odd e = true -> raut e (rshift x) = rmul (rX e) (raut e x).
  Proof.
    intros He. unfold raut, rshift. rewrite rl_mkR. pose proof (rl_length x) as Hx. destruct (rl x) as [|a t] eqn:E; [cbn in Hx; lia|].
    destruct (exists_last (l := a :: t) ltac:(discriminate)) as (b & d & Eb). rewrite Eb in Hx |- *. rewrite app_length in Hx. cbn [length] in Hx.
    rewrite lX_cons by lia. rewrite aut_app. cbn [aut]. rewrite rZ_opp.
    assert (E1 : rmul (rX e) (rX (length b * e)) = ropp r1).
    { rewrite <- rX_add. replace (e + length b * e)%nat with (n * e)%nat by nia. rewrite rX_nq.
      rewrite <- Nat.negb_odd, He. cbn [negb]. apply rZ_m1. }
    transitivity (radd (rmul (rmul (rX e) (rX (length b * e))) (rZ d)) (rmul (rX e) (aut e b))); [rewrite E1; ring|ring].
  Qed.
  Lemma aut_nmul e a : Nat.odd e = true -> forall b, length b = n -> aut e (nmul n a b) = rmul (aut e a) (aut e b).
  Proof.
    intros He. induction a as [|c a IH]; intros b Hb; cbn [nmul aut]; [rewrite aut_zeros; ring|].
    rewrite aut_ladd by (rewrite lscale_length, nmul_length by (apply lX_length); exact Hb). rewrite aut_lscale, IH by apply lX_length.
    pose proof (raut_shift e (mkR b Hb) He) as E. unfold raut, rshift in E. rewrite !rl_mkR in E. rewrite E. ring.
  Qed.
  Theorem raut_mul e x y : Nat.odd e = true -> raut e (rmul x y) = rmul (raut e x) (raut e y).
  Proof. intros He. apply aut_nmul; [exact He|apply rl_length]. Qed.
  Lemma raut_X e k : Nat.odd e = true -> raut e (rX k) = rX (e * k).
  Proof.
    intros He. induction k as [|k IH]; [rewrite Nat.mul_0_r; apply raut_1|]. change (rX (S k)) with (rshift (rX k)).
    rewrite raut_shift, IH by exact He. rewrite Nat.mul_succ_r, Nat.add_comm, rX_add. reflexivity.
  Qed.
  Theorem raut_comp e f x : Nat.odd e = true -> raut e (raut f x) = raut (e * f) x.
  Proof.
    intros He. unfold raut at 2 3. induction (rl x) as [|c l IH]; cbn [aut]; [apply raut_0|].
    rewrite raut_add, raut_mul, raut_Z, raut_X, IH by exact He. reflexivity.
  Qed.
  Lemma raut_mod e x : raut (e mod (2 * n)) x = raut e x.
  Proof. unfold raut. induction (rl x) as [|c l IH]; [reflexivity|]. cbn [aut]. rewrite IH, rX_mod by exact Hn. reflexivity. Qed.
  Lemma raut_id x : raut 1 x = x.
  Proof.
    apply rl_inj. rewrite raut_spec by exact Hn. apply list_ext_Z; [unfold automorphism; rewrite map_length, seq_length, rl_length; reflexivity|].
    unfold automorphism. rewrite map_length, seq_length. intros k Hk. rewrite nth_map_seq by exact Hk. change (Z.of_nat 1) with 1.
    transitivity (sumn n (fun j => if Nat.eqb j k then nth j (rl x) 0 else 0)).
    - apply sumn_ext. intros j Hj. rewrite Z.mul_1_r, Z.mod_small by lia. unfold monomial_sign. rewrite Z.div_small by lia. change (Z.even 0) with true. cbn iota.
      destruct (Z.eqb_spec (Z.of_nat j) (Z.of_nat k)), (Nat.eqb_spec j k); try lia. 
    - clear -Hk. generalize (rl x). clear x. revert k Hk. induction n as [|m IH]; intros k Hk l; [lia|]. rewrite sumn_snoc. destruct (Nat.eq_dec k m) as [->|Hne].
      + rewrite Nat.eqb_refl. rewrite (sumn_ext m _ (fun _ => 0)), sumn_0; [ring|]. intros i Hi. destruct (Nat.eqb_spec i m); [lia|reflexivity].
      + rewrite IH by lia. destruct (Nat.eqb_spec m k); [lia|]. ring.
  Qed.
  Lemma raut_cong Q e x y : 0 < Q -> rcong Q x y -> rcong Q (raut e x) (raut e y).
  Proof.
    intros HQ. rewrite !rcong_exists by exact HQ. intros (z & ->). exists (raut e z). rewrite raut_add, raut_scale. reflexivity.
  Qed.
End R.

(** *** Norm *)
Definition lnorm (l : list Z) : Z := fold_right (fun a m => Z.max (Z.abs a) m) 0 l.
Lemma lnorm_nonneg l : 0 <= lnorm l.
Proof. induction l as [|a l IH]; cbn [lnorm fold_right]; [lia|]. fold (lnorm l). lia. Qed.
Lemma lnorm_le l B : 0 <= B -> lnorm l <= B <-> Forall (fun a => Z.abs a <= B) l.
Proof.
  intros HB. induction l as [|a l IH]; cbn [lnorm fold_right]; [split; [constructor|lia]|]. fold (lnorm l). split.
  - intros H. constructor; [lia|apply IH; lia].
  - intros H. inversion H; subst. apply IH in H3. lia.
Qed.
Lemma lnorm_nth l k : Z.abs (nth k l 0) <= lnorm l.
Proof.
  revert k. induction l as [|a l IH]; intros [|k]; cbn [nth lnorm fold_right]; [lia..|]. fold (lnorm l). specialize (IH k). lia.
Qed.
Lemma lnorm_le_nth l B : 0 <= B -> (forall k, (k < length l)%nat -> Z.abs (nth k l 0) <= B) -> lnorm l <= B.
Proof. intros HB H. apply lnorm_le; [exact HB|]. apply Forall_forall. intros a Ha. apply (In_nth _ _ 0) in Ha. destruct Ha as (k & Hk & <-). apply H, Hk. Qed.
Lemma sumn_bound m f B : 0 <= B -> (forall i, (i < m)%nat -> Z.abs (f i) <= B) -> Z.abs (sumn m f) <= Z.of_nat m * B.
Proof.
  intros HB. induction m as [|m IH]; intros H; [cbn; lia|]. rewrite sumn_snoc. specialize (IH ltac:(intros; apply H; lia)). specialize (H m ltac:(lia)).
  rewrite Nat2Z.inj_succ. nia.
Qed.

Section Norm.
  Variable n : nat.
  Add Ring RnR2 : (Rn_ring n).
  Definition rnorm (x : Rn n) : Z := lnorm (rl x).
  Lemma rnorm_nonneg x : 0 <= rnorm x.
  Proof. apply lnorm_nonneg. Qed.
  Lemma rnorm_nth x k : Z.abs (nth k (rl x) 0) <= rnorm x.
  Proof. apply lnorm_nth. Qed.
  Lemma rnorm_le x B : 0 <= B -> (forall k, (k < n)%nat -> Z.abs (nth k (rl x) 0) <= B) -> rnorm x <= B.
  Proof. intros HB H. apply lnorm_le_nth; [exact HB|]. rewrite rl_length. exact H. Qed.
  Lemma rnorm_add x y : rnorm (radd n x y) <= rnorm x + rnorm y.
  Proof. apply rnorm_le; [pose proof (rnorm_nonneg x); pose proof (rnorm_nonneg y); lia|]. intros k _. rewrite nth_radd. pose proof (rnorm_nth x k). pose proof (rnorm_nth y k). lia. Qed.
  Lemma rnorm_opp x : rnorm (ropp n x) = rnorm x.
  Proof.
    assert (G : forall z, rnorm (ropp n z) <= rnorm z).
    { intros z. apply rnorm_le; [apply rnorm_nonneg|]. intros k _. rewrite nth_ropp, Z.abs_opp. apply rnorm_nth. }
    apply Z.le_antisymm; [apply G|]. replace x with (ropp n (ropp n x)) at 1 by ring. apply G.
  Qed.
  Lemma rnorm_sub x y : rnorm (rsub n x y) <= rnorm x + rnorm y.
  Proof. replace (rsub n x y) with (radd n x (ropp n y)) by ring. pose proof (rnorm_add x (ropp n y)). rewrite rnorm_opp in H. exact H. Qed.
  Lemma rnorm_scale k x : rnorm (rscale n k x) <= Z.abs k * rnorm x.
  Proof. apply rnorm_le; [pose proof (rnorm_nonneg x); nia|]. intros i _. rewrite nth_rscale, Z.abs_mul. pose proof (rnorm_nth x i). nia. Qed.
  Lemma rnorm_0 : rnorm (r0 n) = 0.
  Proof. apply Z.le_antisymm; [|apply rnorm_nonneg]. apply rnorm_le; [lia|]. intros k _. rewrite nth_r0. lia. Qed.
  Lemma nth_lXn_bound b i k : length b = n -> (i <= n)%nat -> (k < n)%nat -> Z.abs (nth k (lXn n i b) 0) <= lnorm b.
  Proof. intros Hb Hi Hk. rewrite nth_lXn by assumption. destruct (Nat.leb i k); rewrite ?Z.abs_opp; apply lnorm_nth. Qed.
  Lemma rnorm_mul x y : rnorm (rmul n x y) <= Z.of_nat n * (rnorm x * rnorm y).
  Proof.
    pose proof (rnorm_nonneg x). pose proof (rnorm_nonneg y). apply rnorm_le; [nia|]. intros k Hk. unfold rmul. rewrite rl_mkR.
    rewrite nth_nmul by (rewrite ?rl_length; lia). rewrite rl_length. apply sumn_bound; [nia|]. intros i Hi. rewrite Z.abs_mul.
    apply Z.mul_le_mono_nonneg; try apply Z.abs_nonneg; [apply rnorm_nth|]. apply nth_lXn_bound; [apply rl_length|lia|exact Hk].
  Qed.
  (** The tighter bound, with the sum of the absolute values of one factor. *)
  Definition rnorm1 (x : Rn n) : Z := fold_right (fun a m => Z.abs a + m) 0 (rl x).
  Lemma sumn_bound1 (l : list Z) f B : 0 <= B -> (forall i, (i < length l)%nat -> Z.abs (f i) <= B) ->
    Z.abs (sumn (length l) (fun i => nth i l 0 * f i)) <= fold_right (fun a m => Z.abs a + m) 0 l * B.
  Proof.
    intros HB. revert f. induction l as [|a l IH]; intros f H; [cbn; lia|]. cbn [length fold_right]. rewrite sumn_S. cbn [nth].
    specialize (IH (fun i => f (S i)) ltac:(intros i Hi; apply H; cbn [length]; lia)). specialize (H O ltac:(cbn [length]; lia)). cbv beta in IH.
    pose proof (Z.abs_triangle (a * f O) (sumn (length l) (fun i => nth i l 0 * f (S i)))). rewrite (Z.abs_mul a) in *. pose proof (Z.abs_nonneg a).
    assert (Z.abs a * Z.abs (f O) <= Z.abs a * B) by (apply Z.mul_le_mono_nonneg_l; lia). rewrite Z.mul_add_distr_r. lia.
  Qed.
  Lemma rnorm_mul1 x y : rnorm (rmul n x y) <= rnorm1 x * rnorm y.
  Proof.
    assert (H1 : 0 <= rnorm1 x) by (unfold rnorm1; induction (rl x) as [|a l IH]; cbn [fold_right]; lia).
    pose proof (rnorm_nonneg y). apply rnorm_le; [nia|]. intros k Hk. unfold rmul. rewrite rl_mkR.
    rewrite nth_nmul by (rewrite ?rl_length; lia). apply sumn_bound1; [lia|]. intros i Hi. rewrite rl_length in Hi. apply nth_lXn_bound; [apply rl_length|lia|exact Hk].
  Qed.
  Lemma sumn_select m (f : nat -> nat) (t : nat -> Z) k B : 0 <= B ->
    (forall i j, (i < m)%nat -> (j < m)%nat -> f i = f j -> i = j) -> (forall i, (i < m)%nat -> Z.abs (t i) <= B) ->
    Z.abs (sumn m (fun j => if Nat.eqb (f j) k then t j else 0)) <= B.
  Proof.
    intros HB. induction m as [|m IH]; intros Hinj Ht; [cbn; lia|]. rewrite sumn_snoc. destruct (Nat.eqb_spec (f m) k) as [E|E].
    - rewrite (sumn_ext m _ (fun _ => 0)), sumn_0; [rewrite Z.add_0_l; apply Ht; lia|].
      intros i Hi. destruct (Nat.eqb_spec (f i) k) as [E'|]; [|reflexivity]. specialize (Hinj i m ltac:(lia) ltac:(lia) ltac:(congruence)). lia.
    - rewrite Z.add_0_r. apply IH; [intros; apply Hinj; try lia; assumption|intros; apply Ht; lia].
  Qed.
  Lemma odd_mul_inj e K i j : n = (2 ^ K)%nat -> Nat.odd e = true -> (i < n)%nat -> (j < n)%nat -> ((i * e) mod n)%nat = ((j * e) mod n)%nat -> i = j.
  Proof.
    intros En He. assert (H : forall i j, (i <= j)%nat -> (j < n)%nat -> ((i * e) mod n)%nat = ((j * e) mod n)%nat -> i = j).
    { intros a b Hab Hb E. assert (Hd : (Z.of_nat n | Z.of_nat (b - a) * Z.of_nat e)).
      { apply (f_equal Z.of_nat) in E. rewrite !Nat2Z.inj_mod, !Nat2Z.inj_mul in E. rewrite Nat2Z.inj_sub by exact Hab.
        exists ((Z.of_nat b * Z.of_nat e) / Z.of_nat n - (Z.of_nat a * Z.of_nat e) / Z.of_nat n).
        pose proof (Z.div_mod (Z.of_nat b * Z.of_nat e) (Z.of_nat n) ltac:(lia)). pose proof (Z.div_mod (Z.of_nat a * Z.of_nat e) (Z.of_nat n) ltac:(lia)). lia. }
      rewrite Z.mul_comm in Hd. apply Z.gauss in Hd.
      - destruct Hd as (q & Hq). assert (q = 0 \/ q <> 0) as [->|Hq0] by lia; [lia|]. nia.
      - rewrite En, Nat2Z.inj_pow. apply Zgcd_1_rel_prime. apply rel_prime_sym, Zpow_facts.rel_prime_Zpower_r; [lia|]. apply rel_prime_sym.
        apply prime_rel_prime; [exact prime_2|]. intros (q & Hq). apply Nat.odd_spec in He. destruct He as (h & Hh). lia. }
    intros Hi Hj E. destruct (Nat.le_ge_cases i j); [apply H; assumption|symmetry; apply H; auto].
  Qed.
  Lemma rnorm_aut e K x : n = (2 ^ K)%nat -> Nat.odd e = true -> rnorm (raut n e x) <= rnorm x.
  Proof.
    intros En He. pose proof (rnorm_nonneg x). apply rnorm_le; [assumption|]. intros k Hk.
    rewrite raut_spec by lia. unfold automorphism. rewrite nth_map_seq by exact Hk.
    rewrite (sumn_ext n _ (fun j => if Nat.eqb ((j * e) mod n) k then monomial_sign (Z.of_nat n) (Z.of_nat j * Z.of_nat e) * nth j (rl x) 0 else 0)).
    - apply sumn_select; [assumption|intros i j Hi Hj; apply (odd_mul_inj e K); assumption|].
      intros i Hi. rewrite Z.abs_mul. unfold monomial_sign. pose proof (rnorm_nth x i). destruct (Z.even _); lia.
    - intros j Hj. rewrite <- Nat2Z.inj_mul, <- Nat2Z.inj_mod. destruct (Nat.eqb_spec ((j * e) mod n) k), (Z.eqb_spec (Z.of_nat ((j * e) mod n)) (Z.of_nat k)); try lia; reflexivity.
  Qed.
End Norm.

(** From here on the degree is implicit in operations that take an element, and the ring has the usual notations in scope [%R]. *)
Declare Scope rn_scope.
Delimit Scope rn_scope with R.
Bind Scope rn_scope with Rn.
Arguments radd {n} (_ _)%R.
Arguments rsub {n} (_ _)%R.
Arguments rmul {n} (_ _)%R.
Arguments ropp {n} _%R.
Arguments rscale {n} _%Z _%R.
Arguments rshift {n} _%R.
Arguments raut {n} _%nat _%R.
Arguments rcong {n} _%Z (_ _)%R.
Arguments rnorm {n} _%R.
Arguments rnorm1 {n} _%R.
Arguments rl {n} _%R.
Infix "+" := radd : rn_scope.
Infix "-" := rsub : rn_scope.
Infix "*" := rmul : rn_scope.
Notation "- x" := (ropp x) : rn_scope.
Infix "*:" := rscale (at level 40) : rn_scope.
