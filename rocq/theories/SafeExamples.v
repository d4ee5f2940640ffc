(** Closed examples for property C50. *)
From Verif Require Import Outcome BasicSpec PolySpec ZqModel NttModel CbdModel TranscodeModel RnsModel RnsSpec RqModel RqSpec ParamsModel BfvSpec ParamsProofs BuildProofs PrimeCert ExampleParams ParamsPropLemmas PlainModel CipherModel OpsModel SchemeSpec CipherSpec PlainPropLemmas CipherPropLemmas SerialPropLemmas CipherExamples KeysModel KeysSpec KeyPropLemmas KeyExamples EvalSpec EvalPropLemmas RgswSpec RgswPropLemmas MultPropLemmas WireSpec WirePropLemmas KeySerialPropLemmas.
From Verif Require Import MbfvModel MulExamples WireExamples RgswExamples LinearPropLemmas MulPropLemmas ReachSpec ReachPropLemmas SafeSpec SafeProofs SafePropLemmas.

Definition outcome {A} (m : M A) : Z := match m with Val _ => 0 | Err _ => 1 | Panic => 2 end.
(** Operators on a ciphertext and its switching to the next level, sums of shares of both, and the switching to a public key of
    the product with the ciphertext without parts. *)
Definition panics_ex : M (list Z) :=
  par <- par_ex ;; sk <- sk_random par rng_ex ;;
  pt <- encode_u64 false [1; 2; 16] (mkEnc EncSimd 0) par ;;
  a <- sk_encrypt expand_ex sk pt sd_ex rng_ex ;; b <- ct_switch_down a ;; one <- ct_mul a (ct_zero par) ;;
  pk <- pk_new expand_ex sk sd_ex rng_ex ;;
  s <- sks_new sk sk a rng_ex ;; s' <- sks_new sk sk b rng_ex ;;
  Val [outcome (ct_add a b); outcome (ct_sub a b); outcome (ct_mul a b); outcome (ct_add a one); outcome (ct_add a (ct_zero par)); outcome (ct_add_pt b pt); outcome (ct_add_pt (ct_zero par) pt); outcome (ct_mul_pt b pt);
       outcome (sks_from_shares [s; s']); outcome (dec_from_shares [s; s']); outcome (sks_from_shares [s; s]); outcome (pksw_new sk pk one rng_ex rng_ex rng_ex); outcome (pksw_new sk pk a rng_ex rng_ex rng_ex); outcome (sks_new sk sk one rng_ex)].

(** The hypotheses of the theorems hold together: a key, its multiplicator, reachable ciphertexts of both levels, and their shares. *)
Lemma safe_ex : exists par, is_params isp_bfv cands_bfv par /\ serializable par /\ supported par /\ expands_well expand_ex /\
  exists sk pk pt a b one, is_sk par sk /\ pk_shape par pk /\ usable_pt par pt /\ pt_level pt = Val 0%nat /\ pa_t par <= level_modulus par 0 /\
  Forall (reach isp_bfv cands_bfv expand_ex par) [a; b; one; ct_zero par] /\ map ct_level [a; b] = [0; 1]%nat /\ map (fun c => length (ct_c c)) [a; b; one; ct_zero par] = [2; 2; 1; 0]%nat /\
  (exists s s', share_of par a s /\ share_of par b s') /\
  (exists k m, key_shape par 0 0 k /\ base_fits k /\ mult_default isp_bfv cands_bfv k = Val m /\ tame_multiplier isp_bfv cands_bfv par m /\ call isp_bfv cands_bfv expand_ex par [a; b] _ (mult_multiply m a b)) /\
  call isp_bfv cands_bfv expand_ex par [b] _ (sk_decrypt sk b) /\ call isp_bfv cands_bfv expand_ex par [a] _ (measure_noise sk a).
Proof.
  destruct params_exist_all as (par & E & Hp & H1 & H2 & H3 & H4 & _). exists par. split; [exact Hp|].
  assert (Hsup : supported par) by (unfold supported; rewrite H1; split; vm_compute; (reflexivity || discriminate)).
  assert (Hser : serializable par) by (unfold serializable; rewrite H1, H3; split; vm_compute; reflexivity). split; [exact Hser|]. split; [exact Hsup|]. split; [exact expand_ex_ok|].
  assert (Hmax : max_level par = 1%nat) by (destruct (gp_levels _ _ _ (params_good _ _ par oracles_bfv Hp)) as (? & ? & Hll & _); unfold max_level; rewrite Hll, H1; reflexivity).
  assert (HtQ : pa_t par <= level_modulus par 0) by (unfold level_modulus; rewrite H1, H2; vm_compute; discriminate).
  assert (Hroom : mul_room par 0 2) by (unfold mul_room; rewrite H1, H3; vm_compute; discriminate).
  destruct (sk_random_all isp_bfv cands_bfv par oracles_bfv Hp rng_ex rng_ex_ok) as (sk & Es & Hsk & _ & _).
  assert (Hus : usable par (mkEnc EncPoly 0)) by (intros HU; discriminate HU).
  destruct (proj1 (proj2 (encoded_all isp_bfv cands_bfv par oracles_bfv Hp 0 (Nat.le_0_l _) HtQ (mkEnc EncPoly 0) [] eq_refl Hus (Nat.le_0_l _))) (Forall_nil _)) as (pt & m & _ & Hpt & Hm & _).
  destruct (sk_encrypt_all isp_bfv cands_bfv par oracles_bfv Hp 0 (Nat.le_0_l _) expand_ex sk sd_ex rng_ex pt m expand_ex_ok rng_ex_ok Hsk Hpt Hm HtQ) as (a & Ea & (xs & e & Hct & _) & Es' & La).
  assert (Lx : length xs = 2%nat) by (destruct Hct as (_ & _ & F); apply Forall2_len2 in F; lia).
  destruct (mul_zero_right_all isp_bfv cands_bfv par oracles_bfv Hp Hsup a xs Hct Lx) as (one & E1 & L1 & _).
  destruct (switch_down_all isp_bfv cands_bfv par oracles_bfv Hp 0 ltac:(lia) a xs Hct) as (b & Eb & _ & Hb).
  assert (Lb : length (ct_c b) = 2%nat) by (destruct Hb as (_ & _ & F); apply Forall2_len2 in F; rewrite map_length in F; lia).
  destruct (pk_new_all isp_bfv cands_bfv par oracles_bfv Hp expand_ex sk sd_ex rng_ex expand_ex_ok rng_ex_ok Hsk) as (pk & _ & (Hpp & Hp2 & ys & ee & Hpc & _) & _).
  assert (Hpk : pk_shape par pk) by (split; [exact Hpp|]; exists 2%nat; split; [lia|]; exists ys; split; [exact Hpc|]; destruct Hpc as (_ & _ & F); apply Forall2_len2 in F; lia).
  assert (Hupt : usable_pt par pt) by (exists 0%nat, m; split; [lia|split; assumption]).
  assert (Ra : reach isp_bfv cands_bfv expand_ex par a) by (apply reach_created; apply (created_sk _ _ sk pt sd_ex rng_ex); [exact Hsk|exact Hupt|reflexivity|exact rng_ex_ok|exact Ea]).
  assert (Rz : reach isp_bfv cands_bfv expand_ex par (ct_zero par)) by (apply reach_created; constructor).
  assert (Rb : reach isp_bfv cands_bfv expand_ex par b) by (apply (reach_result _ _ _ _ [a]); [apply Forall_cons; [exact Ra|apply Forall_nil]|apply result_down; exact Eb]).
  assert (R1 : reach isp_bfv cands_bfv expand_ex par one) by (apply (reach_result _ _ _ _ [a; ct_zero par]); [repeat (apply Forall_cons; [assumption|]); apply Forall_nil|apply result_mul; exact E1]).
  exists sk, pk, pt, a, b, one. split; [exact Hsk|]. split; [exact Hpk|]. split; [exact Hupt|].
  split; [exact (pt_level_total isp_bfv cands_bfv oracles_bfv par (params_good _ _ par oracles_bfv Hp) Hp 0 pt m (Nat.le_0_l _) Hpt)|]. split; [exact HtQ|].
  split; [repeat (apply Forall_cons; [assumption|]); apply Forall_nil|]. split; [cbn [map]; rewrite (proj1 (proj2 Hct)), (proj1 (proj2 Hb)); reflexivity|]. split; [cbn [map]; rewrite La, Lb, L1; reflexivity|].
  split.
  { destruct (share_total isp_bfv cands_bfv oracles_bfv par (params_good _ _ par oracles_bfv Hp) Hp sk sk a rng_ex Hsk Hsk rng_ex_ok (reach_shaped isp_bfv cands_bfv par expand_ex a oracles_bfv Hp Hser expand_ex_ok Ra) La) as (s & Hs).
    destruct (share_total isp_bfv cands_bfv oracles_bfv par (params_good _ _ par oracles_bfv Hp) Hp sk sk b rng_ex Hsk Hsk rng_ex_ok (reach_shaped isp_bfv cands_bfv par expand_ex b oracles_bfv Hp Hser expand_ex_ok Rb) Lb) as (s' & Hs').
    exists s, s'. split; exists sk, sk, rng_ex; (split; [exact Hsk|]); (split; [exact Hsk|]); (split; [exact rng_ex_ok|]); assumption. }
  destruct (relin_roundtrip_all isp_bfv cands_bfv par oracles_bfv Hp Hsup Hser expand_ex derive_ex expand_ex_ok sk Hsk 0 0 ltac:(lia) ltac:(lia) sd_ex rngs_ex eq_refl rngs_ex_ok) as (k & mk & Ek & Hk & Hf & _).
  destruct (proj1 (relin_new_all isp_bfv cands_bfv par oracles_bfv Hp expand_ex derive_ex expand_ex_ok sk Hsk 0 0 (Nat.le_0_l _) (Nat.le_0_l _) sd_ex rngs_ex rngs_ex_ok) ltac:(lia)) as (k' & Ek' & _ & Hks).
  assert (k' = k) by congruence. subst k'.
  destruct (proj1 (mult_default_all isp_bfv cands_bfv par oracles_bfv Hp Hsup 0 (Nat.le_0_l _) Hroom sk Hsk 0 (Nat.le_0_l _) k (2 * pa_variance par) ltac:(rewrite H4; lia) Hks) cands_bfv_complete) as (mu & Emu).
  pose proof (proj1 (default_tame_all isp_bfv cands_bfv par oracles_bfv Hp Hsup 0 0 k Hk Hf mu Emu)) as Ht.
  split. { exists k, mu. split; [exact Hk|]. split; [exact Hf|]. split; [exact Emu|]. split; [exact Ht|]. constructor. exact Ht. }
  split; constructor; try exact Hsk. rewrite (proj1 (proj2 Hct)). exact HtQ.
Qed.
