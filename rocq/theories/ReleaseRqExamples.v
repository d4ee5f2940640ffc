(** Closed examples for the release build of the polynomial operations. *)
From Verif Require Import Outcome BasicSpec PolySpec ZqModel NttModel CbdModel TranscodeModel RnsModel RnsSpec RqModel RqSpec ParamsModel BfvSpec ParamsProofs BuildProofs PrimeCert ExampleParams ParamsPropLemmas PlainModel CipherModel OpsModel SchemeSpec CipherSpec PlainPropLemmas CipherPropLemmas CipherExamples KeysModel KeysSpec KeyPropLemmas KeyExamples EvalSpec MbfvModel MbfvSpec MbfvPropLemmas.
From Verif Require Import KeyExamples MbfvExamples RqCtx RqPropLemmas ReleaseModel ReleaseRqModel ReleaseRqSpec ReleaseRqProofs ReleaseRqPropLemmas.

Definition ctx1_ex : M ctx := context_new isp_ex cands_ex [97] 8.
(** Sums and differences of polynomials of contexts with moduli 97, 193 and 97, in both orders. *)
Definition rel_rq_run_ex : M (list (list Z)) :=
  c <- ctx_ex ;; c1 <- ctx1_ex ;; p <- pb_from_i64 c [1; -2; 3] false ;; q <- pb_from_i64 c1 [5; 0; 0; 0; 0; 0; 0; 7] false ;;
  a <- rel_poly_add p q ;; b <- rel_poly_add q p ;; s <- rel_poly_sub p q ;; t <- rel_poly_sub q p ;;
  p' <- rel_pb_into_ntt p ;; q' <- rel_pb_into_ntt q ;; m <- rel_poly_mul p' q' ;; n <- rel_poly_mul q' p' ;;
  m <- rel_ntt_into_pb m ;; n <- rel_ntt_into_pb n ;; mapM show [a; b; s; t; m; n].
Lemma rel_rq_ex : rel_rq_run_ex = Val [[17757; 18719; 3; 0; 0; 0; 0; 17370]; [6; 95; 3; 0; 0; 0; 0; 7]; [966; 18719; 3; 0; 0; 0; 0; 1351]; [4; 2; 94; 0; 0; 0; 0; 7];
    [15248; 5595; 16408; 0; 0; 0; 0; 17370]; [19; 66; 15; 0; 0; 0; 0; 7]] /\
  (17757 mod 97 = 6 /\ 17757 mod 193 = 1) /\ (15248 mod 97 = 19 /\ 15248 mod 193 = 1) /\
  (c <- ctx_ex ;; c1 <- ctx1_ex ;; p <- pb_from_i64 c [1; -2; 3] false ;; q <- pb_from_i64 c1 [5; 0; 0; 0; 0; 0; 0; 7] false ;; poly_add p q) = Panic.
Proof. split; [vm_compute; reflexivity|]. split; [split; reflexivity|]. split; [split; reflexivity|]. vm_compute. reflexivity. Qed.
(** Two members switch a ciphertext to other keys; the second one has it at level 1, the first one at level 0. *)
Definition levels_ex : M (list sks_share) :=
  par <- par_ex ;;
  sk1 <- sk_random par (rngs_ex 0) ;; sk2 <- sk_random par (rngs_ex 100) ;; sk3 <- sk_random par (rngs_ex 200) ;; sk4 <- sk_random par (rngs_ex 300) ;;
  crp <- crp_new par (rows_ex 0 (pa_moduli par)) ;;
  pk <- pk_protocol (group_ex [sk1; sk2] 7) crp ;;
  pt <- encode_u64 false [1; 2; 16] (mkEnc EncSimd 0) par ;;
  ct <- pk_encrypt pk pt (rngs_ex 11) (rngs_ex 12) (rngs_ex 13) ;;
  ct1 <- ct_switch_down ct ;;
  h1 <- sks_new sk1 sk3 ct (rngs_ex 31) ;; h2 <- sks_new sk2 sk4 ct1 (rngs_ex 32) ;;
  Val [h1; h2].
Definition levels_run_ex : M (list Z * list Z) :=
  par <- par_ex ;; sk3 <- sk_random par (rngs_ex 200) ;; sk4 <- sk_random par (rngs_ex 300) ;;
  l <- levels_ex ;; ct <- rel_sks_from_shares l ;; ct' <- rel_sks_from_shares (rev l) ;;
  p <- dec_protocol (group_ex [sk3; sk4] 43) ct ;; d <- decode_u64 p (Some (mkEnc EncSimd 0)) ;;
  p' <- dec_protocol (group_ex [sk3; sk4] 43) ct' ;; d' <- decode_u64 p' (Some (mkEnc EncSimd 1)) ;;
  Val (d, d').
Lemma levels_ex_ok : bind levels_ex sks_from_shares = Panic /\ levels_run_ex = Val ([12; 3; 3; 15; 8; 5; 12; 12], [13; 3; 13; 3; 2; 9; 6; 2]).
Proof. split; vm_compute; reflexivity. Qed.

(** The levels of parameters are contexts of one chain. *)
Lemma firstn_chain {A} (l : list A) i j : (i <= j)%nat -> exists r, firstn j l = firstn i l ++ r.
Proof. intros H. exists (skipn i (firstn j l)). rewrite <- (firstn_skipn i (firstn j l)) at 1. rewrite firstn_firstn, Nat.min_l by exact H. reflexivity. Qed.
Lemma rel_levels_all : forall isp cands par, oracles isp cands -> is_params isp cands par -> forall l l', (l <= max_level par)%nat -> (l' <= max_level par)%nat ->
  exists c c', par_context par l = Val c /\ par_context par l' = Val c' /\ is_context isp cands c /\ is_context isp cands c' /\ one_chain c c' /\
    level_of_context par c = Val l /\ length (c_moduli c) = (length (pa_moduli par) - l)%nat /\ length (c_moduli c') = (length (pa_moduli par) - l')%nat.
Proof.
  intros isp cands par Ho (id & b & Hb & E) l l' Hl Hl'. destruct (built_all isp cands Ho id b par Hb E) as (_ & _ & _ & _ & _ & _ & _ & _ & _ & H & _).
  destruct (H l Hl) as (c & E1 & E2 & E3). destruct (H l' Hl') as (c' & E1' & _ & E3').
  destruct (built_unique isp cands c _ _ Ho E3) as (M & D). destruct (built_unique isp cands c' _ _ Ho E3') as (M' & D'). unfold level_moduli in *.
  exists c, c'. split; [exact E1|]. split; [exact E1'|]. split; [do 2 eexists; exact E3|]. split; [do 2 eexists; exact E3'|].
  split; [|split; [exact E2|rewrite M, M', !firstn_length; lia]]. split; [congruence|]. rewrite M, M'.
  destruct (Nat.le_ge_cases l l'); [left|right]; apply firstn_chain; lia.
Qed.
Lemma rel_levels_ex : exists par c c', is_params isp_bfv cands_bfv par /\ is_context isp_bfv cands_bfv c /\ is_context isp_bfv cands_bfv c' /\ one_chain c c' /\
  length (c_moduli c) = 3%nat /\ length (c_moduli c') = 1%nat /\ level_of_context par c = Val 0%nat /\
  (forall x, length x = c_degree c -> exists (p : poly Ntt), p_ctx p = c /\ represents p x) /\ (forall y, length y = c_degree c' -> exists (p : poly Ntt), good_share isp_bfv cands_bfv c p y /\ p_ctx p = c').
Proof.
  destruct three_params as (par & Hp & Em & _). pose proof (gp_levels _ _ _ (params_good _ _ par oracles_bfv Hp)) as (pl & Hpl & Hll & _).
  destruct (rel_levels_all isp_bfv cands_bfv par oracles_bfv Hp 0 2) as (c & c' & E1 & E2 & H1 & H2 & Hc & El & L & L'); [unfold max_level; rewrite Hll, Em; cbn; lia..|].
  rewrite Em in L, L'. exists par, c, c'. split; [exact Hp|]. split; [exact H1|]. split; [exact H2|]. split; [exact Hc|]. split; [exact L|]. split; [exact L'|]. split; [exact El|]. split.
  - intros x Lx. exists (poly_of Ntt c false x). split; [reflexivity|]. split; [exact Lx|reflexivity].
  - intros y Ly. exists (poly_of Ntt c' false y). split; [|reflexivity]. split; [exact H2|]. split; [exact Hc|]. split; [exact Ly|reflexivity].
Qed.
