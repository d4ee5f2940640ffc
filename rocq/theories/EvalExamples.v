(** Closed examples for rotations, inner sums and expansions. *)
From Verif Require Import Outcome BasicSpec PolySpec ZqModel NttModel CbdModel RnsModel RnsSpec RqModel RqSpec ParamsModel BfvSpec ParamsProofs BuildProofs PrimeCert ExampleParams ParamsPropLemmas PlainModel CipherModel OpsModel SchemeSpec CipherSpec PlainPropLemmas CipherPropLemmas CipherExamples KeysModel KeysSpec KeyPropLemmas KeyExamples EvalSpec EvalPropLemmas.

Definition rotate_ex : M (list Z * list Z) :=
  par <- par_ex ;; sk <- sk_random par rng_ex ;;
  p <- encode_u64 false [1; 2; 16; 4; 5; 6; 7; 8] (mkEnc EncSimd 0) par ;; ct <- sk_encrypt expand_ex sk p sd_ex rng_ex ;;
  b <- ekb_new sk ;; b <- enable_column_rotation b 3 ;; ek <- ek_build expand_ex derive_ex (enable_row_rotation b) (fun _ => sd_ex) (fun _ => rngs_ex) ;;
  r <- rotates_columns_by ek ct 3 ;; r <- sk_decrypt sk r ;; r <- decode_u64 r (Some (mkEnc EncSimd 0)) ;;
  s <- rotates_rows ek ct ;; s <- sk_decrypt sk s ;; s <- decode_u64 s (Some (mkEnc EncSimd 0)) ;;
  Val (r, s).
Definition sum_ex : M (list Z) :=
  par <- par_ex ;; sk <- sk_random par rng_ex ;;
  p <- encode_u64 false [1; 2; 16; 4; 5; 6; 7; 8] (mkEnc EncSimd 0) par ;; ct <- sk_encrypt expand_ex sk p sd_ex rng_ex ;;
  b <- ekb_new sk ;; ek <- ek_build expand_ex derive_ex (enable_inner_sum b) (fun _ => sd_ex) (fun _ => rngs_ex) ;;
  r <- computes_inner_sum ek ct ;; r <- sk_decrypt sk r ;; decode_u64 r (Some (mkEnc EncSimd 0)).
(** Three ciphertexts from one: 4 times the coefficients 0, 1 and 2, and 4 times those of index 4, 5 and 6 as coefficients of X^4. *)
Definition expand_example (m : list Z) : M (list (list Z)) :=
  par <- par_ex ;; sk <- sk_random par rng_ex ;;
  p <- encode_u64 false m (mkEnc EncPoly 0) par ;; ct <- sk_encrypt expand_ex sk p sd_ex rng_ex ;;
  b <- ekb_new sk ;; b <- enable_expansion b 2 ;; ek <- ek_build expand_ex derive_ex b (fun _ => sd_ex) (fun _ => rngs_ex) ;;
  cts <- expands ek ct 3 ;;
  mapM (fun r => r <- sk_decrypt sk r ;; decode_u64 r (Some (mkEnc EncPoly 0))) cts.
Lemma eval_hypotheses_ex : exists par, is_params isp_bfv cands_bfv par /\ supported par /\ decryptable par /\ pa_ntt par <> None /\ 2 < pa_t par <= level_modulus par 0 /\ pa_degree par = 8%nat /\
  exists sk, sk_random par rng_ex = Val sk /\ is_sk par sk /\
  let D := galois_noise par sk 0 0 (2 * pa_variance par) in
  small_noise par 0 (2 * pa_variance par + 1 + D) /\ small_noise par 0 (8 * (2 * pa_variance par + 2 + D) - 2 - D) /\ small_noise par 0 (4 * (2 * pa_variance par + D + 3) - D - 3) /\ small_noise par 0 (2 * (2 * pa_variance par) + D + 3).
Proof.
  destruct params_exist_all as (p & E & Hp & H1 & H2 & H3 & H4 & Hrest).
  exists p. split; [exact Hp|]. assert (Eq : forall l, level_modulus p l = prod_list (level_moduli [1048433; 1048273] l)) by (intros; unfold level_modulus; rewrite H1; reflexivity).
  split; [unfold supported; rewrite H1; split; vm_compute; (reflexivity || discriminate)|].
  split; [unfold decryptable, decryption_base; rewrite H1, H2; vm_compute; discriminate|].
  split; [tauto|].
  split; [rewrite Eq, H2; split; vm_compute; (reflexivity || discriminate)|]. split; [exact H3|].
  destruct (sk_random_all isp_bfv cands_bfv p oracles_bfv Hp rng_ex rng_ex_ok) as (sk & Es & Hs & Hb & Hn). exists sk. split; [exact Es|]. split; [exact Hs|].
  unfold small_noise, galois_noise, switch_noise, level_ratio, key_base. rewrite !Eq, H1, H2, H3, H4.
  assert (En : norm1 (sk_coeffs sk) = 19).
  { unfold sk_random in Es. rewrite H3, H4 in Es. destruct (sample_vec_cbd rng_ex 8 10) as [[v k]| |] eqn:Ev; try discriminate. injection Es as <-. cbn [sk_coeffs]. revert Ev. vm_compute. intros Ev. injection Ev as <- _. reflexivity. }
  rewrite En. repeat apply conj; vm_compute; discriminate.
Qed.
