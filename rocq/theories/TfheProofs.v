(** Proofs about the operator of the feature [tfhe-ntt]: two transforms with different roots. *)
From Verif Require Import Outcome OutcomeLemmas BasicSpec NumTheory ZqModel ZqProofs ZqPow NttModel PolySpec PolyRing NttPure NttStages NttProofs NttPropLemmas.
From Verif Require Import RingRn RqSpec RqModel RqRows RqOps RqPropLemmas TfheModel TfheSpec.
From Coq Require Import Znumtheory.

Lemma val_inj {A} (a b : A) : Val a = Val b -> a = b.
Proof. intros E. injection E as E. exact E. Qed.
Lemma aut_length n e x : length (automorphism n e x) = n.
Proof. unfold automorphism. rewrite map_length, seq_length. reflexivity. Qed.

Section Two.
  Variables (op1 op2 : ntt_op) (K : nat) (w1 w2 : Z) (H1 : ntt_ok op1 K w1) (H2 : ntt_ok op2 K w2) (Ep : nt_p op2 = nt_p op1).
  Notation p := (mod_p (nt_p op1)).
  Notation n := (2 ^ K)%nat.

  Lemma eval_automorphism e x z : length x = n -> 0 <= e -> cong p (z ^ Z.of_nat n) (-1) -> cong p (eval (automorphism n e x) z) (eval x (z ^ e)).
  Proof using H1.
    intros Hx He Hz. pose proof (pow2_nz K) as N0. pose proof (ok_size _ _ _ H1) as Es.
    change x with (rl (mkR x Hx)) at 1. rewrite automorphism_raut by (exact He || lia). unfold raut.
    pose proof (eval_aut op1 K w1 H1 (Z.to_nat e) x z) as E. rewrite Es in E. specialize (E Hz). rewrite Z2Nat.id in E by exact He. exact E.
  Qed.
  Lemma odd_root z : Z.odd z = true -> 0 <= z -> cong p ((w1 ^ z) ^ Z.of_nat n) (-1).
  Proof using H1.
    intros Ho Hz. rewrite nat_pow2_Z, <- Z.pow_mul_r by lia. rewrite (Z.mul_comm z), Z.pow_mul_r by lia.
    rewrite (cong_pow p _ _ z Hz (ok_n _ _ _ H1)). apply Z.odd_spec in Ho. destruct Ho as (u & ->). rewrite Z.pow_add_r, Z.pow_mul_r by lia.
    change ((-1) ^ 2) with 1. rewrite Z.pow_1_l by lia. reflexivity.
  Qed.

  (** The root of one transform is an odd power of the root of the other. *)
  Lemma root_power : exists e, Z.odd e = true /\ 0 < e < 2 * Z.of_nat n /\ cong p w2 (w1 ^ e).
  Proof using H1 H2 Ep.
    destruct (point_surj op1 K w1 H1 w2) as (i & Hi & Ei).
    - rewrite (ok_size _ _ _ H1), nat_pow2_Z, <- Ep. apply (ok_n _ _ _ H2).
    - exists (2 * bitrev K (Z.of_nat i) + 1). pose proof (bitrev_bounds K (Z.of_nat i)). rewrite nat_pow2_Z. split; [|split; [lia|exact Ei]].
      rewrite Z.add_comm, Z.odd_add_mul_2. reflexivity.
  Qed.
  Lemma forward_rel e a : 0 <= e -> cong p w2 (w1 ^ e) -> length a = n -> NTT op2 a = NTT op1 (automorphism n e a).
  Proof using H1 H2 Ep.
    intros He Ew Ha. pose proof (ok_size _ _ _ H1) as E1. pose proof (ok_size _ _ _ H2) as E2. apply list_ext_Z.
    - rewrite (NTT_length op2 K w2 H2), (NTT_length op1 K w1 H1); rewrite ?aut_length; congruence.
    - rewrite (NTT_length op2 K w2 H2) by congruence. intros i Hi. rewrite (NTT_eval op2 K w2 H2), (NTT_eval op1 K w1 H1); rewrite ?aut_length; try congruence.
      rewrite Ep. unfold point. pose proof (bitrev_bounds K (Z.of_nat i)) as Hb. set (j := 2 * bitrev K (Z.of_nat i) + 1) in *.
      assert (Hj : 0 <= j) by lia. assert (Oj : Z.odd j = true) by (unfold j; rewrite Z.add_comm, Z.odd_add_mul_2; reflexivity). clearbody j.
      pose proof (eval_automorphism e a (w1 ^ j) Ha He (odd_root j Oj Hj)) as E. unfold cong in E. rewrite E.
      apply (eval_cong op1). rewrite <- Z.pow_mul_r by lia. rewrite Z.mul_comm, Z.pow_mul_r by lia. apply cong_pow; [exact Hj|exact Ew].
  Qed.
  Lemma slot_rel e s i : 0 <= e -> Z.odd e = true -> cong p w2 (w1 ^ e) -> length s = n -> (i < n)%nat ->
    (moved_slot K e i < n)%nat /\ nth i (NTT op2 (INTT op1 s)) 0 = nth (moved_slot K e i) s 0 mod p.
  Proof using H1 H2 Ep.
    intros He Oe Ew Hs Hi. pose proof (ok_size _ _ _ H1) as E1. pose proof (ok_size _ _ _ H2) as E2.
    unfold moved_slot. pose proof (bitrev_bounds K (Z.of_nat i)) as Hb. pose proof (nat_pow2_Z K) as EZ.
    assert (Hx : length (INTT op1 s) = n) by (rewrite (INTT_length op1 K w1 H1); congruence).
    pose proof (NTT_INTT op1 K w1 H1 s ltac:(congruence)) as RT.
    pose proof (NTT_eval op2 K w2 H2 (INTT op1 s) i ltac:(congruence) ltac:(congruence)) as L. unfold point in L.
    set (j := 2 * bitrev K (Z.of_nat i) + 1) in *.
    assert (Hj : 0 <= j) by lia. assert (Oj : Z.odd j = true) by (unfold j; rewrite Z.add_comm, Z.odd_add_mul_2; reflexivity). clearbody j.
    set (M := 2 * Z.of_nat n) in *. assert (0 < M) by (unfold M; lia). pose proof (Z.mod_pos_bound (e * j) M ltac:(lia)) as Hr. set (r := (e * j) mod M) in *.
    assert (Or : Z.odd r = true).
    { unfold r. rewrite Z.mod_eq by (apply Z.neq_sym, Z.lt_neq; assumption). unfold M. rewrite <- Z.mul_assoc, Z.odd_sub, (Z.odd_mul 2), Z.odd_mul, Oe, Oj. reflexivity. }
    apply Z.odd_spec in Or. destruct Or as (u & Eu). assert (Eu2 : (r - 1) / 2 = u) by (rewrite Eu; replace (2 * u + 1 - 1) with (u * 2) by ring; apply Z.div_mul; lia).
    rewrite Eu2. pose proof (bitrev_bounds K u) as Hb2. assert (Hu : 0 <= u < 2 ^ Z.of_nat K) by lia.
    assert (Hlt : (Z.to_nat (bitrev K u) < n)%nat) by lia. split; [exact Hlt|].
    assert (R : nth (Z.to_nat (bitrev K u)) s 0 mod p = eval (INTT op1 s) (w1 ^ r) mod p).
    { rewrite <- (nth_rmod p) by (apply (p_pos op1 K w1 H1)). rewrite <- RT. rewrite (NTT_eval op1 K w1 H1) by congruence. unfold point.
      rewrite Z2Nat.id, bitrev_invol by lia. rewrite <- Eu. reflexivity. }
    rewrite R, L, Ep. apply (eval_cong op1). transitivity ((w1 ^ e) ^ j); [apply cong_pow; [exact Hj|exact Ew]|].
    rewrite <- Z.pow_mul_r by lia. apply cong_sym. unfold r, M. pose proof (w_pow_mod op1 K w1 H1 (e * j) ltac:(nia)) as W. rewrite E1 in W. exact W.
  Qed.
End Two.

Section TwoB.
  Variables (op1 op2 : ntt_op) (K : nat) (w1 w2 : Z) (H1 : ntt_ok op1 K w1) (H2 : ntt_ok op2 K w2) (Ep : nt_p op2 = nt_p op1).
  Notation p := (mod_p (nt_p op1)).
  Notation n := (2 ^ K)%nat.
  Lemma backward_rel f b : 0 <= f -> cong p w1 (w2 ^ f) -> length b = n -> canonical p b ->
    INTT op2 b = rmod p (automorphism n f (INTT op1 b)).
  Proof using H1 H2 Ep.
    intros Hf Ew Hb Cb. pose proof (ok_size _ _ _ H1) as E1. pose proof (ok_size _ _ _ H2) as E2.
    assert (Hx : length (INTT op1 b) = n) by (rewrite (INTT_length op1 K w1 H1); congruence).
    rewrite <- Ep in Ew. pose proof (forward_rel op2 op1 K w2 w1 H2 H1 (eq_sym Ep) f (INTT op1 b) Hf Ew Hx) as E.
    rewrite (NTT_INTT op1 K w1 H1) in E by congruence. rewrite rmod_small in E by exact Cb.
    rewrite E at 1. rewrite (INTT_NTT op2 K w2 H2) by (rewrite aut_length; congruence). rewrite Ep. reflexivity.
  Qed.
  Lemma root_powers : exists e f, Z.odd e = true /\ 0 < e < 2 * Z.of_nat n /\ Z.odd f = true /\ 0 < f < 2 * Z.of_nat n /\
    e * f mod (2 * Z.of_nat n) = 1 /\ cong p w2 (w1 ^ e) /\ cong p w1 (w2 ^ f) /\ (e = 1 <-> w1 = w2).
  Proof using H1 H2 Ep.
    destruct (root_power op1 op2 K w1 w2 H1 H2 Ep) as (e & Oe & He & Ee). destruct (root_power op2 op1 K w2 w1 H2 H1 (eq_sym Ep)) as (f & Of & Hf & Ef).
    rewrite Ep in Ef. exists e, f. do 4 (split; [assumption|]). pose proof (nat_pow2_Z K) as EZ. pose proof (ok_size _ _ _ H1) as E1.
    assert (P : 2 ^ Z.of_nat (S K) = 2 * Z.of_nat n) by (rewrite pow2_succ, EZ; reflexivity).
    split; [|split; [exact Ee|split; [exact Ef|]]].
    - pose proof (Z.mod_pos_bound (e * f) (2 * Z.of_nat n) ltac:(lia)). apply (w_pow_inj op1 K w1 H1); [lia|lia|].
      pose proof (w_pow_mod op1 K w1 H1 (e * f) ltac:(nia)) as W. rewrite E1 in W. rewrite W. rewrite Z.pow_mul_r by lia. rewrite Z.pow_1_r.
      rewrite Ef at 2. apply cong_pow; [lia|]. apply cong_sym, Ee.
    - pose proof (ok_w _ _ _ H1) as B1. pose proof (ok_w _ _ _ H2) as B2. rewrite Ep in B2. split.
      + intros ->. rewrite Z.pow_1_r in Ee. unfold cong in Ee. rewrite !Z.mod_small in Ee by assumption. symmetry. exact Ee.
      + intros E. apply (w_pow_inj op1 K w1 H1); [lia|lia|]. rewrite <- Ee, Z.pow_1_r, E. reflexivity.
  Qed.
End TwoB.

(** The root of an operator is a power of a candidate. *)
Section Candidate.
  Variables (isp : Z -> bool) (Hisp : prime_oracle isp) (m : modulus) (Hm : valid_modulus m).
  Notation p := (mod_p m).
  Lemma root_candidate cands k op w : canonical p cands -> ntt_new isp cands m (2 ^ k)%nat = Val (Some op) -> ntt_ok op k w -> nt_p op = m ->
    exists c, In c cands /\ w = c ^ ((p - 1) / (2 * Z.of_nat (2 ^ k))) mod p.
  Proof using Hisp Hm.
    intros Hc E Hok Em. set (n := Z.of_nat (2 ^ k)) in *. set (lam := (p - 1) / (2 * n)). pose proof (proj1 (valid_fields m Hm)) as Hp.
    unfold ntt_new in E. fold n in E. apply bind_inv in E. destruct E as (s & Es & E). destruct s; [|discriminate]. cbn [negb] in E.
    destruct (supports_ntt_inv isp p _ Hp Es) as (K & HK & EK & Emod & Eisp).
    assert (Hn : 8 <= n) by (rewrite EK; change 8 with (2 ^ 3); apply Z.pow_le_mono_r; lia).
    pose proof (mod_1_ge p (2 * n) ltac:(lia) ltac:(lia) Emod) as Hnp.
    apply bind_inv in E. destruct E as ([si|] & _ & E); [|discriminate]. apply bind_inv in E. destruct E as (om & Eom & E).
    assert (Hlam : 0 <= lam < p) by (unfold lam; split; [apply Z.div_pos; lia|apply Z.div_lt_upper_bound; nia]).
    assert (C : exists c, In c cands /\ om = c ^ lam mod p).
    { unfold primitive_root in Eom. rewrite Es in Eom. cbn [bind] in Eom. apply bind_inv in Eom. destruct Eom as (_ & _ & Eom). cbv zeta in Eom. fold lam in Eom. clearbody lam.
      clear - Eom Hc Hm Hlam. revert Eom. induction Hc as [|c cs Hc Hcs IH]; [discriminate|]. cbn [primitive_root_loop]. rewrite zq_pow_spec by assumption. cbn [bind].
      intros E. apply bind_inv in E. destruct E as (b & _ & E). destruct b.
      - apply val_inj in E. exists c. split; [left; reflexivity|symmetry; exact E].
      - destruct (IH E) as (c' & Hin & Ec). exists c'. split; [right; exact Hin|exact Ec]. }
    destruct C as (c & Hin & Ec). exists c. split; [exact Hin|]. rewrite <- Ec.
    (* the field [nt_omegas] of the result determines the root *)
    apply bind_inv in E. destruct E as ([oi|] & _ & E); [|discriminate].
    assert (Hom : 0 <= om < p) by (rewrite Ec; apply Z.mod_pos_bound; lia).
    apply bind_inv in E. destruct E as (pw & Epw & E). rewrite (successive_spec m om Hm Hom) in Epw by lia. apply val_inj in Epw.
    apply bind_inv in E. destruct E as (pwi & _ & E). apply bind_inv in E. destruct E as (oms & Eoms & E).
    assert (Ek : K = k). { apply (Nat.pow_inj_r 2); [lia|]. apply Nat2Z.inj. rewrite nat_pow2_Z. symmetry. exact EK. } subst K.
    rewrite <- Epw in Eoms. unfold n in Eoms. rewrite nat_pow2_Z in Eoms. rewrite mapM_get_bitrev in Eoms by lia. apply val_inj in Eoms.
    do 5 (apply bind_inv in E; destruct E as (? & _ & E)). apply val_inj in E. injection E as E.
    pose proof (ntt_root_w op k w Hok) as R. unfold ntt_root in R. rewrite <- E in R. cbn [nt_size nt_omegas] in R. rewrite <- R, <- Eoms.
    destruct k as [|k]; [pose proof (ok_K _ _ _ Hok); lia|].
    assert (E2 : (2 ^ S k / 2)%nat = (2 ^ k)%nat) by (rewrite Nat.pow_succ_r', Nat.mul_comm, Nat.div_mul by lia; reflexivity). rewrite E2.
    pose proof (pow2_nz k). rewrite nth_map_seq by (rewrite Nat.pow_succ_r'; lia).
    replace (bitrev (S k) (Z.of_nat (2 ^ k))) with 1.
    - change (Z.of_nat (Z.to_nat 1)) with 1. rewrite Z.pow_1_r, Z.mul_1_l, Z.mod_small by exact Hom. reflexivity.
    - rewrite nat_pow2_Z. clear. symmetry. induction k as [|k IH]; [reflexivity|].
      change (bitrev (S (S k)) (2 ^ Z.of_nat (S k))) with ((2 ^ Z.of_nat (S k)) mod 2 * 2 ^ Z.of_nat (S k) + bitrev (S k) (2 ^ Z.of_nat (S k) / 2)).
      rewrite pow2_succ. rewrite (Z.mul_comm 2 (2 ^ Z.of_nat k)), Z_mod_mult, Z.div_mul by lia. rewrite IH. reflexivity.
  Qed.
End Candidate.
