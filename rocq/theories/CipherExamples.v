(** Closed examples for the properties of ciphertexts. *)
From Verif Require Import Outcome BasicSpec PolySpec ZqModel NttModel CbdModel TranscodeModel RnsModel RnsSpec RqModel RqSpec ParamsModel BfvSpec ParamsProofs BuildProofs PrimeCert ExampleParams ParamsPropLemmas PlainModel CipherModel OpsModel SchemeSpec CipherSpec PlainPropLemmas CipherPropLemmas.

Definition expand_ex : expander := fun sd moduli n => map (fun q => map (fun i => (hd 0 sd + 12345 * Z.of_nat i + 777) mod q) (seq 0 n)) moduli.
Definition rng_ex (k : nat) : Z := (Z.of_nat k + 1) * 6364136223846793005 mod 2 ^ 64.
Definition sd_ex : seed := map Z.of_nat (seq 7 32).
Definition pipeline_ex : M (list Z * list Z * list Z * Z * bool) :=
  par <- par_ex ;;
  sk <- sk_random par rng_ex ;;
  pk <- pk_new expand_ex sk sd_ex rng_ex ;;
  p1 <- encode_u64 false [1; 2; 16] (mkEnc EncSimd 0) par ;;
  p2 <- encode_u64 false [5; 3] (mkEnc EncSimd 0) par ;;
  c1 <- sk_encrypt expand_ex sk p1 sd_ex rng_ex ;;
  c2 <- pk_encrypt pk p2 rng_ex rng_ex rng_ex ;;
  s <- ct_add c1 c2 ;;
  m <- ct_mul_pt c2 p2 ;;
  d <- dot_product_scalar [c1; c2] [p2; p1] ;;
  w <- ct_switch_to_level s 1 ;;
  n <- measure_noise sk c1 ;;
  rs <- sk_decrypt sk w ;; rs <- decode_u64 rs (Some (mkEnc EncSimd 1)) ;;
  rm <- sk_decrypt sk m ;; rm <- decode_u64 rm (Some (mkEnc EncSimd 0)) ;;
  rd <- sk_decrypt sk d ;; rd <- decode_u64 rd (Some (mkEnc EncSimd 0)) ;;
  Val (rs, rm, rd, n, match ct_seed s with None => true | _ => false end).

Lemma expand_ex_ok : expands_well expand_ex.
Proof.
  intros sd moduli n H. unfold expand_ex. induction H; cbn [map]; constructor; [|assumption]. split; [rewrite map_length, seq_length; reflexivity|]. apply Forall_forall. intros a Ha. apply in_map_iff in Ha. destruct Ha as (i & <- & _). apply Z.mod_pos_bound. assumption.
Qed.
Lemma rng_ex_ok : words rng_ex.
Proof. intros k. unfold is_u64, rng_ex. apply Z.mod_pos_bound. reflexivity. Qed.

Lemma cipher_hypotheses_ex : exists par, is_params isp_bfv cands_bfv par /\ supported par /\ decryptable par /\ small_noise par 0 (2 * pa_variance par) /\ small_noise par 1 (2 * pa_variance par) /\ expands_well expand_ex /\ words rng_ex /\
  (exists sk, sk_random par rng_ex = Val sk /\ is_sk par sk /\
     small_noise par 1 (pk_noise par (norm1 (sk_coeffs sk)) (dropped_noise (norm1 (sk_coeffs sk)) 2 (dropped (pa_moduli par) 0 1) (2 * pa_variance par)))).
Proof.
  destruct params_exist_all as (p & E & Hp & H1 & H2 & H3 & H4 & _).
  exists p. split; [exact Hp|]. assert (Eq : forall l, level_modulus p l = prod_list (level_moduli [1048433; 1048273] l)) by (intros; unfold level_modulus; rewrite H1; reflexivity).
  split; [unfold supported; rewrite H1; split; vm_compute; (reflexivity || discriminate)|].
  split; [unfold decryptable, decryption_base; rewrite H1, H2; vm_compute; discriminate|].
  split; [unfold small_noise; rewrite H2, H4, Eq; vm_compute; discriminate|]. split; [unfold small_noise; rewrite H2, H4, Eq; vm_compute; discriminate|]. split; [exact expand_ex_ok|]. split; [exact rng_ex_ok|].
  destruct (sk_random_all isp_bfv cands_bfv p oracles_bfv Hp rng_ex rng_ex_ok) as (sk & Es & Hs & Hb & Hn). exists sk. split; [exact Es|]. split; [exact Hs|].
  unfold small_noise, pk_noise. rewrite Eq, H1, H2, H3, H4.
  assert (En : norm1 (sk_coeffs sk) = 19).
  { unfold sk_random in Es. rewrite H3, H4 in Es. destruct (sample_vec_cbd rng_ex 8 10) as [[v k]| |] eqn:Ev; try discriminate. injection Es as <-. cbn [sk_coeffs]. revert Ev. vm_compute. intros Ev. injection Ev as <- _. reflexivity. }
  rewrite En. vm_compute. discriminate.
Qed.
