(** Closed examples for evaluation keys. *)
From Verif Require Import Outcome BasicSpec PolySpec ZqModel NttModel CbdModel TranscodeModel RnsModel RnsSpec RqModel RqSpec ParamsModel BfvSpec ParamsProofs BuildProofs PrimeCert ExampleParams ParamsPropLemmas PlainModel CipherModel OpsModel SchemeSpec CipherSpec PlainPropLemmas CipherPropLemmas CipherExamples KeysModel KeysSpec.
From Coq Require Import Znumtheory.

(** Parameters with three moduli, hence three levels. *)
Lemma three_params : exists par, is_params isp_bfv cands_bfv par /\ pa_moduli par = [1048433; 1048273; 1048193] /\ pa_t par = 17 /\ pa_degree par = 8%nat /\ pa_variance par = 10.
Proof.
  assert (Hpr : forall q, isp_bfv q = true -> 0 <= q < 2 ^ 64 -> prime q) by (intros q H R; apply (isp_bfv_ok q); [exact R|exact H]).
  set (b := mkBuilder 8 17 10 [1048433; 1048273; 1048193] []). assert (Hb : is_builder b) by (unfold is_builder, is_u64, b; cbn [b_degree b_plaintext b_variance b_moduli b_sizes]; split; [lia|]; split; [lia|]; split; [lia|]; split; [|constructor]; repeat (constructor; [lia|]); constructor).
  destruct (accepts_all isp_bfv cands_bfv oracles_bfv cands_bfv_complete 1 8 17 10 [1048433; 1048273; 1048193]) as (par & E).
  - exists 3. split; [lia|reflexivity].
  - lia.
  - lia.
  - lia.
  - discriminate.
  - split; [repeat (constructor; [cbn [In]; lia|]); constructor|]. split; [|split; [reflexivity|repeat (constructor; [reflexivity|]); constructor]].
    repeat (constructor; [split; [apply Hpr; [vm_compute; reflexivity|lia]|split; [lia|reflexivity]]|]). constructor.
  - exists [4611686018427387761; 4611686018427387617; 4611686018427387409; 4611686018427387329]. split; [reflexivity|]. split; [repeat (constructor; [cbn [In]; lia|]); constructor|].
    repeat (constructor; [split; [split; [apply Hpr; [vm_compute; reflexivity|lia]|split; [lia|reflexivity]]|split; [lia|cbn [In]; lia]]|]). constructor.
  - exists par. split; [exists 1, b; split; [exact Hb|exact E]|]. pose proof (built_all isp_bfv cands_bfv oracles_bfv 1 b par Hb E) as (_ & Hd & (_ & Hv) & (_ & Ht) & _ & _ & Hm & _).
    split; [exact (Hm eq_refl)|]. split; [exact Ht|]. split; [|exact Hv]. cbn [b b_degree] in Hd. lia.
Qed.

Definition derive_ex : deriver := fun sd i => map (fun b => (b + Z.of_nat i + 1) mod 256) sd.
Definition rngs_ex (i : nat) : nat -> Z := fun k => rng_ex (i + k)%nat.
Lemma rngs_ex_ok i : words (rngs_ex i).
Proof. intros k. exact (rng_ex_ok (i + k)%nat). Qed.

(** A ciphertext of three parts, relinearized with a key of the same level; and a switch of the key at the last level,
    where the digits of the single modulus are used (the switch from s to s itself). *)
Definition relin_ex : M (list Z * Z * Z) :=
  par <- par_ex ;;
  sk <- sk_random par rng_ex ;;
  p1 <- encode_u64 false [1; 2; 16] (mkEnc EncSimd 0) par ;;
  ct <- sk_encrypt expand_ex sk p1 sd_ex rng_ex ;;
  c <- par_context par 0 ;;
  s <- sk_poly sk c ;;
  k <- relin_new expand_ex derive_ex sk 0 0 sd_ex rngs_ex ;;
  match ct_c ct with
  | [c0; c1] =>
      a <- poly_mul c1 s ;; a <- poly_mul a s ;; c0 <- poly_sub c0 a ;;
      m <- relinearizes k (mkCt par None [c0; c1; c1] 0) ;;
      rm <- sk_decrypt sk m ;; rm <- decode_u64 rm (Some (mkEnc EncSimd 0)) ;;
      Val (rm, len (ct_c m), len (k_c0 k))
  | _ => Panic
  end.
Definition digits_ex : M (list Z * Z * Z) :=
  par <- par_ex ;;
  sk <- sk_random par rng_ex ;;
  p1 <- encode_u64 false [1; 2; 16] (mkEnc EncSimd 1) par ;;
  ct <- sk_encrypt expand_ex sk p1 sd_ex rng_ex ;;
  c <- par_context par 1 ;;
  s <- sk_poly sk c ;; s <- ntt_into_pb s ;;
  k <- ksk_new expand_ex derive_ex sk s 1 1 sd_ex rngs_ex ;;
  match ct_c ct with
  | [c0; c1] =>
      p <- ntt_into_pb c1 ;;
      r <- key_switch k p ;;
      c0 <- poly_add c0 (fst r) ;;
      rm <- sk_decrypt sk (mkCt par None [c0; snd r] 1) ;; rm <- decode_u64 rm (Some (mkEnc EncSimd 1)) ;;
      Val (rm, k_log_base k, len (k_c0 k))
  | _ => Panic
  end.

Lemma keys_hypotheses_ex : exists par, is_params isp_bfv cands_bfv par /\ supported par /\ decryptable par /\ max_level par = 1%nat /\
  expands_well expand_ex /\ (forall i, words (rngs_ex i)) /\ exists sk, sk_random par rng_ex = Val sk /\ is_sk par sk /\
  small_noise par 0 (mul_noise (pa_degree par) (pa_t par) (level_modulus par 0) (norm1 (sk_coeffs sk)) 2 2 (2 * pa_variance par) (2 * pa_variance par) + key_noise par (norm1 (sk_coeffs sk)) 0 0) /\
  small_noise par 1 (2 * pa_variance par + key_noise par (norm1 (sk_coeffs sk)) 1 0).
Proof.
  destruct params_exist_all as (p & E & Hp & H1 & H2 & H3 & H4 & _).
  exists p. split; [exact Hp|]. assert (Eq : forall l, level_modulus p l = prod_list (level_moduli [1048433; 1048273] l)) by (intros; unfold level_modulus; rewrite H1; reflexivity).
  split; [unfold supported; rewrite H1; split; vm_compute; (reflexivity || discriminate)|].
  split; [unfold decryptable, decryption_base; rewrite H1, H2; vm_compute; discriminate|].
  split; [destruct (gp_levels _ _ _ (params_good _ _ p oracles_bfv Hp)) as (? & ? & Hll & _); unfold max_level; rewrite Hll, H1; reflexivity|].
  split; [exact expand_ex_ok|]. split; [exact rngs_ex_ok|].
  destruct (sk_random_all isp_bfv cands_bfv p oracles_bfv Hp rng_ex rng_ex_ok) as (sk & Es & Hs & Hb & Hn). exists sk. split; [exact Es|]. split; [exact Hs|].
  unfold small_noise, key_noise, switch_noise, level_ratio, key_base. rewrite !Eq, H1, H2, H3, H4.
  assert (En : norm1 (sk_coeffs sk) = 19).
  { unfold sk_random in Es. rewrite H3, H4 in Es. destruct (sample_vec_cbd rng_ex 8 10) as [[v k]| |] eqn:Ev; try discriminate. injection Es as <-. cbn [sk_coeffs]. revert Ev. vm_compute. intros Ev. injection Ev as <- _. reflexivity. }
  rewrite En. repeat apply conj; vm_compute; discriminate.
Qed.
Lemma three_levels_ex : exists par, is_params isp_bfv cands_bfv par /\ supported par /\ max_level par = 2%nat.
Proof.
  destruct three_params as (p & Hp & H1 & _). exists p. split; [exact Hp|]. split; [unfold supported; rewrite H1; split; vm_compute; (reflexivity || discriminate)|].
  destruct (gp_levels _ _ _ (params_good _ _ p oracles_bfv Hp)) as (? & ? & Hll & _). unfold max_level. rewrite Hll, H1. reflexivity.
Qed.
