(** Closed examples for RGSW ciphertexts and multiplicators. *)
From Verif Require Import Outcome BasicSpec PolySpec ZqModel NttModel CbdModel TranscodeModel RnsModel RnsSpec RqModel RqSpec ParamsModel BfvSpec ParamsProofs BuildProofs PrimeCert ExampleParams ParamsPropLemmas PlainModel CipherModel OpsModel SchemeSpec CipherSpec PlainPropLemmas CipherPropLemmas CipherExamples KeysModel KeysSpec KeyPropLemmas KeyExamples RgswSpec RgswPropLemmas.

(** The external product of an encryption of slots (1, 2, 16) at level [l] by an RGSW encryption of slots (5, 3). *)
Definition external_ex (l : nat) : M (list Z * list Z) :=
  par <- par_ex ;; sk <- sk_random par rng_ex ;;
  p1 <- encode_u64 false [1; 2; 16] (mkEnc EncSimd l) par ;; p2 <- encode_u64 false [5; 3] (mkEnc EncSimd l) par ;;
  ct <- sk_encrypt expand_ex sk p1 sd_ex rng_ex ;;
  r <- rgsw_encrypt expand_ex derive_ex sk p2 sd_ex (rev sd_ex) rngs_ex rngs_ex ;;
  x <- ct_mul_rgsw ct r ;; x <- sk_decrypt sk x ;; x <- decode_u64 x (Some (mkEnc EncSimd l)) ;;
  y <- rgsw_mul_ct r ct ;; y <- sk_decrypt sk y ;; y <- decode_u64 y (Some (mkEnc EncSimd l)) ;;
  Val (x, y).
(** A product by the default multiplicator of a relinearization key, with modulus switching. *)
Definition multiplicator_ex : M (list Z * Z * nat) :=
  par <- par_ex ;; sk <- sk_random par rng_ex ;;
  p1 <- encode_u64 false [1; 2; 16] (mkEnc EncSimd 0) par ;; p2 <- encode_u64 false [5; 3] (mkEnc EncSimd 0) par ;;
  c1 <- sk_encrypt expand_ex sk p1 sd_ex rng_ex ;; c2 <- sk_encrypt expand_ex sk p2 (rev sd_ex) rng_ex ;;
  k <- relin_new expand_ex derive_ex sk 0 0 sd_ex rngs_ex ;;
  m <- mult_default isp_bfv cands_bfv k ;; m <- mult_enable_switch m ;;
  y <- mult_multiply m c1 c2 ;; ry <- sk_decrypt sk y ;; ry <- decode_u64 ry (Some (mkEnc EncSimd 1)) ;;
  Val (ry, len (ct_c y), ct_level y).
(** The hypotheses of the theorems about RGSW ciphertexts and multiplicators hold together. *)
Lemma rgsw_hypotheses_ex : exists par, is_params isp_bfv cands_bfv par /\ supported par /\ decryptable par /\ complete_draws cands_bfv /\ expands_well expand_ex /\ (forall i, words (rngs_ex i)) /\ max_level par = 1%nat /\ mul_room par 0 2 /\
  2 * pa_t par * (2 * pa_variance par + 1) <= level_modulus par 0 /\
  exists sk, sk_random par rng_ex = Val sk /\ is_sk par sk /\
    small_noise par 0 (8 * 16 * (2 * pa_variance par + 1) + 2 * switch_noise par 0 (key_base par 0) (2 * pa_variance par)) /\
    let B := mul_noise (pa_degree par) (pa_t par) (level_modulus par 0) (norm1 (sk_coeffs sk)) 2 2 (2 * pa_variance par) (2 * pa_variance par) + key_noise par (norm1 (sk_coeffs sk)) 0 0 in
    small_noise par 0 B /\ small_noise par 1 (dropped_noise (norm1 (sk_coeffs sk)) 2 (dropped (pa_moduli par) 0 1) B).
Proof.
  destruct params_exist_all as (p & E & Hp & H1 & H2 & H3 & H4 & _).
  exists p. split; [exact Hp|]. assert (Eq : forall l, level_modulus p l = prod_list (level_moduli [1048433; 1048273] l)) by (intros; unfold level_modulus; rewrite H1; reflexivity).
  split; [unfold supported; rewrite H1; split; vm_compute; (reflexivity || discriminate)|].
  split; [unfold decryptable, decryption_base; rewrite H1, H2; vm_compute; discriminate|].
  split; [exact cands_bfv_complete|]. split; [exact expand_ex_ok|]. split; [exact rngs_ex_ok|].
  split; [destruct (gp_levels _ _ _ (params_good _ _ p oracles_bfv Hp)) as (? & ? & Hll & _); unfold max_level; rewrite Hll, H1; reflexivity|].
  split; [unfold mul_room; rewrite H1, H3; vm_compute; discriminate|].
  split; [rewrite H2, H4, Eq; vm_compute; discriminate|].
  destruct (sk_random_all isp_bfv cands_bfv p oracles_bfv Hp rng_ex rng_ex_ok) as (sk & Es & Hs & Hb & Hn). exists sk. split; [exact Es|]. split; [exact Hs|].
  unfold small_noise, key_noise, switch_noise, level_ratio, key_base. cbv zeta. rewrite !Eq, H1, H2, H3, H4.
  assert (En : norm1 (sk_coeffs sk) = 19).
  { unfold sk_random in Es. rewrite H3, H4 in Es. destruct (sample_vec_cbd rng_ex 8 10) as [[v k]| |] eqn:Ev; try discriminate. injection Es as <-. cbn [sk_coeffs]. revert Ev. vm_compute. intros Ev. injection Ev as <- _. reflexivity. }
  rewrite En. split; [vm_compute; discriminate|]. split; vm_compute; discriminate.
Qed.
