(** Closed examples for properties C42 and C46. *)
From Verif Require Import Outcome BasicSpec PolySpec ZqModel NttModel CbdModel TranscodeModel RnsModel RnsSpec RqModel RqSpec ParamsModel BfvSpec ParamsProofs BuildProofs PrimeCert ExampleParams ParamsPropLemmas PlainModel CipherModel OpsModel SchemeSpec CipherSpec PlainPropLemmas CipherPropLemmas SerialPropLemmas CipherExamples KeysModel KeysSpec KeyPropLemmas KeyExamples EvalSpec EvalPropLemmas RgswSpec WireSpec WirePropLemmas KeySerialPropLemmas.
From Verif Require Import MulExamples KeyExamples WireExamples LinearPropLemmas MulPropLemmas ReachSpec ReachPropLemmas.
(** A message with a seed and two polynomials is read as a ciphertext of three parts.  Its relinearization still has the seed,
    and comes back different from its serialization. *)
Definition stale_ex : M (Z * Z * bool * bool) :=
  par <- par_ex ;; sk <- sk_random par rng_ex ;;
  p1 <- encode_u64 false [1; 2; 16] (mkEnc EncSimd 0) par ;;
  ct <- sk_encrypt expand_ex sk p1 sd_ex rng_ex ;;
  m <- ct_to_proto ct ;;
  ct3 <- ct_from_proto expand_ex (mkCtp (cp_c m ++ cp_c m) (cp_seed m) 0) par ;;
  k <- relin_new expand_ex derive_ex sk 0 0 sd_ex rngs_ex ;;
  r <- relinearizes k ct3 ;;
  m' <- ct_to_proto r ;; r' <- ct_from_proto expand_ex m' par ;;
  Val (len (ct_c ct3), len (ct_c r), match ct_seed r with Some _ => true | None => false end, ct_eqb r' r).

(** Reachable ciphertexts of no part, of one part, and of two parts with a seed and without. *)
Lemma reach_ex : exists par, is_params isp_bfv cands_bfv par /\ serializable par /\ expands_well expand_ex /\
  exists c0 c1 c2 c2', Forall (reach isp_bfv cands_bfv expand_ex par) [c0; c1; c2; c2'] /\ map (fun c => length (ct_c c)) [c0; c1; c2; c2'] = [0; 1; 2; 2]%nat /\ ct_seed c2 = Some sd_ex /\ ct_seed c2' = None.
Proof.
  destruct mul_hypotheses_ex as (par & Hp & Hsup & _ & Hser & _ & _ & HQ & sk & _ & Hsk & _). exists par. split; [exact Hp|]. split; [exact Hser|]. split; [exact expand_ex_ok|].
  assert (HtQ : pa_t par <= level_modulus par 0) by (pose proof (gp_t _ _ _ (params_good _ _ par oracles_bfv Hp)); pose proof (gp_var _ _ _ (params_good _ _ par oracles_bfv Hp)); nia).
  assert (Hus : usable par (mkEnc EncPoly 0)) by (intros HU; discriminate HU).
  destruct (proj1 (proj2 (encoded_all isp_bfv cands_bfv par oracles_bfv Hp 0 (Nat.le_0_l _) HtQ (mkEnc EncPoly 0) [] eq_refl Hus (Nat.le_0_l _))) (Forall_nil _)) as (pt & m & _ & Hpt & Hm & _).
  destruct (sk_encrypt_all isp_bfv cands_bfv par oracles_bfv Hp 0 (Nat.le_0_l _) expand_ex sk sd_ex rng_ex pt m expand_ex_ok rng_ex_ok Hsk Hpt Hm HtQ) as (c2 & E2 & (xs & e & Hct & _) & Es & L2).
  assert (Lx : length xs = 2%nat) by (destruct Hct as (_ & _ & F); apply Forall2_len2 in F; lia).
  destruct (mul_zero_right_all isp_bfv cands_bfv par oracles_bfv Hp Hsup c2 xs Hct Lx) as (c1 & E1 & L1 & _).
  assert (R2 : reach isp_bfv cands_bfv expand_ex par c2). { apply reach_created. apply (created_sk _ _ sk pt sd_ex rng_ex); [exact Hsk|exists 0%nat, m; split; [lia|split; assumption]|reflexivity|exact rng_ex_ok|exact E2]. }
  assert (R0 : reach isp_bfv cands_bfv expand_ex par (ct_zero par)) by (apply reach_created; constructor).
  assert (N2 : exists c2', ct_neg c2 = Val c2' /\ length (ct_c c2') = 2%nat /\ ct_seed c2' = None). { destruct (neg_all isp_bfv cands_bfv par oracles_bfv Hp 0 (Nat.le_0_l _) c2 xs Hct) as (c & E & S & (_ & _ & F) & _). exists c. split; [exact E|]. split; [|exact S]. apply Forall2_len2 in F. rewrite map_length in F. lia. } destruct N2 as (c2' & E2' & L2' & S2').
  exists (ct_zero par), c1, c2, c2'. split; [|cbn [map]; rewrite L1, L2, L2'; repeat split; assumption].
  apply Forall_cons; [exact R0|]. apply Forall_cons; [|apply Forall_cons; [exact R2|apply Forall_cons; [|apply Forall_nil]]].
  - apply (reach_result _ _ _ _ [c2; ct_zero par]); [repeat (apply Forall_cons; [assumption|]); apply Forall_nil|]. apply result_mul. exact E1.
  - apply (reach_result _ _ _ _ [c2]); [repeat (apply Forall_cons; [assumption|]); apply Forall_nil|]. apply result_neg. exact E2'.
Qed.
