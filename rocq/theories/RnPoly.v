(** Polynomials of a context as elements of Z[X]/(X^N+1) modulo Q: the operations of the model on [P R c v x]. *)
From Verif Require Import Outcome BasicSpec OutcomeLemmas ZqModel ZqProofs NumTheory NttModel PolySpec PolyRing NttPure NttStages NttProofs CbdModel CbdSpec CbdProofs.
From Verif Require Import RnsModel RnsSpec RnsProofs RqModel RqSpec RqCtx RqRows RqProofs RingRn RqOps RqIO CipherModel CipherSpec.
From Coq Require Import Znumtheory.

Definition P {N} (R : repn) (c : ctx) (v : bool) (x : Rn N) : poly R := poly_of R c v (rl x).
Section Ctx.
  Variables (c : ctx) (Hc : ctx_ok c) (N : nat) (HN : c_degree c = N).
  Notation Q := (modulus_of c).
  Notation PP := (fun R v (x : Rn N) => P R c v x).
  Lemma len_deg (x : Rn N) : length (rl x) = c_degree c.
  Proof. rewrite HN. apply rl_length. Qed.
  Hint Resolve len_deg : core.
  Lemma P_ctx R v (x : Rn N) : p_ctx (P R c v x) = c.
  Proof. reflexivity. Qed.
  Lemma P_vt R v (x : Rn N) : p_vt (P R c v x) = v.
  Proof. reflexivity. Qed.
  Lemma P_allow R v (x : Rn N) : allow_vt (P R c v x) = P R c true x.
  Proof. reflexivity. Qed.
  Lemma P_disallow R v (x : Rn N) : disallow_vt (P R c v x) = P R c false x.
  Proof. reflexivity. Qed.
  Lemma P_add R v1 v2 (x y : Rn N) : R <> NttShoup -> poly_add (P R c v1 x) (P R c v2 y) = Val (P R c (v1 && v2) (x + y)%R).
  Proof. intros H. unfold P. rewrite (add_eq c Hc) by auto. reflexivity. Qed.
  Lemma P_sub R v1 v2 (x y : Rn N) : R <> NttShoup -> poly_sub (P R c v1 x) (P R c v2 y) = Val (P R c (v1 && v2) (x - y)%R).
  Proof. intros H. unfold P. rewrite (sub_eq c Hc) by auto. reflexivity. Qed.
  Lemma P_neg R v (x : Rn N) : R <> NttShoup -> poly_neg (P R c v x) = Val (P R c v (- x)%R).
  Proof. intros H. unfold P. rewrite (neg_eq c Hc) by auto. reflexivity. Qed.
  Lemma P_mul v1 v2 (x y : Rn N) : poly_mul (P Ntt c v1 x) (P Ntt c v2 y) = Val (P Ntt c (v1 && v2) (x * y)%R).
  Proof. unfold P. rewrite (mul_eq c Hc) by auto. rewrite HN. reflexivity. Qed.
  Lemma P_mul_shoup v1 v2 (x y : Rn N) : poly_mul_shoup (P Ntt c v1 x) (P NttShoup c v2 y) = Val (P Ntt c (v1 && v2) (x * y)%R).
  Proof. unfold P. rewrite (mul_shoup_eq c Hc) by auto. rewrite HN. reflexivity. Qed.
  Lemma P_scale R v k (x : Rn N) : R <> NttShoup -> poly_scalar_mul (P R c v x) k = Val (P R c v (k *: x)%R).
  Proof. intros H. unfold P. rewrite (scalar_mul_eq c Hc) by auto. reflexivity. Qed.
  Lemma P_pb_ntt v (x : Rn N) : pb_into_ntt (P PowerBasis c v x) = Val (P Ntt c v x).
  Proof. unfold P. rewrite (pb_ntt_eq c Hc) by auto. reflexivity. Qed.
  Lemma P_ntt_pb v (x : Rn N) : ntt_into_pb (P Ntt c v x) = Val (P PowerBasis c v x).
  Proof. unfold P. rewrite (ntt_pb_eq c Hc) by auto. reflexivity. Qed.
  Lemma P_pb_shoup v (x : Rn N) : pb_into_ntt_shoup (P PowerBasis c v x) = Val (P NttShoup c v x).
  Proof. unfold P. rewrite (pb_shoup_eq c Hc) by auto. reflexivity. Qed.
  Lemma P_ntt_shoup v (x : Rn N) : ntt_into_shoup (P Ntt c v x) = Val (P NttShoup c v x).
  Proof. unfold P. rewrite (ntt_shoup_eq c Hc) by auto. reflexivity. Qed.
  Lemma P_shoup_ntt v (x : Rn N) : shoup_into_ntt (P NttShoup c v x) = Val (P Ntt c v x).
  Proof. unfold P. rewrite (shoup_ntt_eq c) by auto. reflexivity. Qed.
  Lemma P_shoup_pb v (x : Rn N) : shoup_into_pb (P NttShoup c v x) = Val (P PowerBasis c v x).
  Proof. unfold P. rewrite (shoup_pb_eq c Hc) by auto. reflexivity. Qed.
  Lemma P_pb_into R v (x : Rn N) : pb_into R (P PowerBasis c v x) = Val (P R c v x).
  Proof. unfold P. rewrite (pb_into_eq c Hc) by auto. reflexivity. Qed.
  Lemma P_into_pb R v (x : Rn N) : into_pb (P R c v x) = Val (P PowerBasis c v x).
  Proof. unfold P. rewrite (into_pb_eq c Hc) by auto. reflexivity. Qed.
  Lemma P_from_i64 v vt (H : length v = N) : Forall is_i64 v -> pb_from_i64 c v vt = Val (P PowerBasis c vt (mkR v H)).
  Proof. intros Hv. unfold P. rewrite (from_i64_eq c Hc) by (auto; lia). rewrite padded_full by congruence. reflexivity. Qed.
  Lemma P_from_big v vt (H : length v = N) : pb_from_big c v vt = Val (P PowerBasis c vt (mkR v H)).
  Proof. unfold P. rewrite (from_big_eq c Hc) by lia. rewrite padded_full by congruence. reflexivity. Qed.
  Lemma P_to_big v (x : Rn N) : poly_to_big (P PowerBasis c v x) = Val (map (fun a => a mod Q) (rl x)).
  Proof. unfold P. rewrite (to_big_eq c Hc) by auto. reflexivity. Qed.
  Lemma P_zero R : poly_zero R c = P R c false (r0 N).
  Proof. unfold P. rewrite (zero_eq c Hc). rewrite HN. reflexivity. Qed.
  Lemma P_eq R v v' (x y : Rn N) : P R c v x = P R c v' y <-> v = v' /\ rcong Q x y.
  Proof. unfold P. rewrite (poly_of_eq c Hc) by auto. reflexivity. Qed.
  Lemma P_cong R v (x y : Rn N) : rcong Q x y -> P R c v x = P R c v y.
  Proof. intros H. apply P_eq. auto. Qed.
  Lemma P_wf R v (x : Rn N) : well_formed (P R c v x).
  Proof. apply (poly_of_wf c Hc). auto. Qed.
  Lemma P_ex {R} (p : poly R) : p_ctx p = c -> well_formed p -> exists x : Rn N, p = P R c (p_vt p) x /\ canonical Q (rl x).
  Proof. intros E W. destruct (wf_exists c Hc p E W) as (x & Lx & Cx & Ep). assert (L : length x = N) by congruence. exists (mkR x L). auto. Qed.
  Lemma P_random R rows : Forall2 (fun q r => length r = c_degree c /\ canonical q r) (c_moduli c) rows ->
    exists a : Rn N, poly_random R c rows = Val (P R c false a).
  Proof.
    intros H. rewrite (co_moduli _ Hc), (co_q _ Hc), map_map in H.
    assert (H' : Forall2 (fun op r => length r = c_degree c /\ canonical (mod_p (nt_p op)) r) (c_ops c) rows).
    { clear -H. revert rows H. induction (c_ops c) as [|op ops IH]; intros rows H; inversion H; subst; constructor; auto. }
    destruct (rows_exist c Hc R rows H') as (x & Lx & _ & Ex). assert (L : length x = N) by congruence. exists (mkR x L). unfold poly_random, P. rewrite rl_mkR. rewrite <- Ex.
    destruct R; [reflexivity|reflexivity|]. rewrite (shoup_rows_eq c Hc NttShoup x Lx). reflexivity.
  Qed.
  Lemma P_seed R expand sd : expands_well expand -> exists a : Rn N, poly_from_seed expand R c sd = Val (P R c false a).
  Proof.
    intros H. apply P_random. apply (H sd (c_moduli c) (c_degree c)). rewrite (moduli_ops c Hc). apply Forall_forall. intros q Hq. apply in_map_iff in Hq. destruct Hq as (op & <- & Hop).
    destruct (op_ok c Hc op Hop) as (K & w & Hok & _). exact (p_pos op K w Hok).
  Qed.
  Definition cbd_rn (v : Z) (rng : nat -> Z) : Rn N := mkR (map (cbd_value rng v) (seq 0 N)) (eq_trans (map_length _ _) (seq_length N 0)).
  Lemma cbd_bound v rng : 0 <= v -> rnorm (cbd_rn v rng) <= 2 * v.
  Proof.
    intros Hv. apply rnorm_le; [lia|]. intros k Hk. unfold cbd_rn. rewrite rl_mkR. rewrite (nth_indep _ 0 (cbd_value rng v 0)) by (rewrite map_length, seq_length; exact Hk). rewrite map_nth.
    pose proof (cbd_value_bounds rng v (nth k (seq 0 N) 0%nat) Hv). lia.
  Qed.
  Lemma P_small R v rng : (forall k, is_u64 (rng k)) -> 1 <= v <= 32 -> poly_small R c v rng = Val (P R c false (cbd_rn v rng)).
  Proof.
    intros Hr Hv. destruct (sample_vec_cbd_ok rng (c_degree c) v Hr Hv) as (k & Ek & _).
    unfold poly_small. replace ((1 <=? v) && (v <=? 32)) with true by (symmetry; apply andb_true_iff; split; apply Z.leb_le; lia). cbn [negb]. rewrite Ek. cbn [bind]. rewrite HN.
    change (map (cbd_value rng v) (seq 0 N)) with (rl (cbd_rn v rng)). rewrite (P_from_i64 _ false (rl_length (cbd_rn v rng))).
    - cbn [bind]. rewrite P_pb_into. cbn [bind]. destruct R; reflexivity.
    - unfold cbd_rn. rewrite rl_mkR. apply Forall_forall. intros a Ha. apply in_map_iff in Ha. destruct Ha as (i & <- & _). pose proof (cbd_value_bounds rng v i ltac:(lia)). unfold is_i64. lia.
  Qed.
  Lemma P_represents R v (x : Rn N) y : represents (P R c v x) y <-> exists z : Rn N, rl z = y /\ rcong Q x z.
  Proof.
    split.
    - intros (L & E). cbn [p_ctx p_vt P poly_of] in L, E. assert (L' : length y = N) by congruence. exists (mkR y L'). split; [reflexivity|]. apply (P_eq R v v). exact E.
    - intros (z & <- & H). split; [apply len_deg|]. cbn [p_ctx p_vt P poly_of]. apply (P_eq R v v). auto.
  Qed.
End Ctx.

(** Rounded division of coefficients *)
Definition rround {N} (q : Z) (x : Rn N) : Rn N := mkR (map (round_div q) (rl x)) (eq_trans (map_length _ _) (rl_length x)).
Definition rchain {N} (qs : list Z) (x : Rn N) : Rn N := mkR (round_chain qs (rl x)) (eq_trans (round_chain_length qs _) (rl_length x)).
Lemma P_switch_down {N} c c' v (x : Rn N) : good_ctx c -> c_degree c = N -> c_next c = Some c' ->
  switch_down (P PowerBasis c v x) = Val (P PowerBasis c' v (rround (last (c_moduli c) 0) x)).
Proof. intros Hg HN Hn. unfold P. rewrite (switch_down_eq c Hg c' v _ Hn) by (rewrite HN; apply rl_length). reflexivity. Qed.
Lemma P_switch_to {N} c target i v (x : Rn N) : good_ctx c -> c_degree c = N -> (i < length (c_moduli c))%nat -> c_degree target = N ->
  c_moduli target = firstn (length (c_moduli c) - i) (c_moduli c) ->
  switch_down_to (P PowerBasis c v x) target = Val (P PowerBasis (level_of c i) v (rchain (rev (skipn (length (c_moduli c) - i) (c_moduli c))) x)).
Proof. intros Hg HN Hi Ht Em. unfold P. rewrite (switch_down_to_eq v c target i) by (auto; try congruence; rewrite HN; apply rl_length). reflexivity. Qed.
