(** Closed examples for products and serialization of ciphertexts. *)
From Verif Require Import Outcome BasicSpec PolySpec ZqModel NttModel CbdModel TranscodeModel RnsModel RnsSpec RqModel RqSpec ParamsModel BfvSpec ParamsProofs BuildProofs PrimeCert ExampleParams ParamsPropLemmas PlainModel CipherModel OpsModel SchemeSpec CipherSpec PlainPropLemmas CipherPropLemmas CipherExamples.

(** A product of two secret-key encryptions. *)
Definition product_ex : M (list Z * Z) :=
  par <- par_ex ;;
  sk <- sk_random par rng_ex ;;
  p1 <- encode_u64 false [1; 2; 16] (mkEnc EncSimd 0) par ;;
  p2 <- encode_u64 false [5; 3] (mkEnc EncSimd 0) par ;;
  c1 <- sk_encrypt expand_ex sk p1 sd_ex rng_ex ;;
  c2 <- sk_encrypt expand_ex sk p2 (rev sd_ex) rng_ex ;;
  m <- ct_mul c1 c2 ;;
  rm <- sk_decrypt sk m ;; rm <- decode_u64 rm (Some (mkEnc EncSimd 0)) ;;
  Val (rm, len (ct_c m)).
(** Serialization of a fresh encryption, then after its last part is overwritten through [DerefMut]. *)
Definition serialization_ex : M (bool * bool) :=
  par <- par_ex ;;
  sk <- sk_random par rng_ex ;;
  p1 <- encode_u64 false [1; 2; 16] (mkEnc EncSimd 0) par ;;
  c1 <- sk_encrypt expand_ex sk p1 sd_ex rng_ex ;;
  let c2 := match ct_c c1 with p :: _ => ct_overwrite c1 1 p | _ => c1 end in
  m1 <- ct_to_proto c1 ;; d1 <- ct_from_proto expand_ex m1 par ;;
  m2 <- ct_to_proto c2 ;; d2 <- ct_from_proto expand_ex m2 par ;;
  Val (ct_eqb d1 c1, ct_eqb d2 c2).

Lemma mul_hypotheses_ex : exists par, is_params isp_bfv cands_bfv par /\ supported par /\ decryptable par /\ serializable par /\ mul_room par 0 2 /\ mul_room par 0 3 /\
  2 * pa_t par * (2 * pa_variance par + 1) <= level_modulus par 0 /\
  exists sk, sk_random par rng_ex = Val sk /\ is_sk par sk /\
    small_noise par 0 (mul_noise (pa_degree par) (pa_t par) (level_modulus par 0) (norm1 (sk_coeffs sk)) 2 2 (2 * pa_variance par) (2 * pa_variance par)).
Proof.
  destruct params_exist_all as (p & E & Hp & H1 & H2 & H3 & H4 & _).
  exists p. split; [exact Hp|]. assert (Eq : forall l, level_modulus p l = prod_list (level_moduli [1048433; 1048273] l)) by (intros; unfold level_modulus; rewrite H1; reflexivity).
  split; [unfold supported; rewrite H1; split; vm_compute; (reflexivity || discriminate)|].
  split; [unfold decryptable, decryption_base; rewrite H1, H2; vm_compute; discriminate|].
  split; [unfold serializable; rewrite H1, H3; split; vm_compute; reflexivity|].
  split; [unfold mul_room; rewrite H1, H3; vm_compute; discriminate|]. split; [unfold mul_room; rewrite H1, H3; vm_compute; discriminate|].
  split; [rewrite H2, H4, Eq; vm_compute; discriminate|].
  destruct (sk_random_all isp_bfv cands_bfv p oracles_bfv Hp rng_ex rng_ex_ok) as (sk & Es & Hs & Hb & Hn). exists sk. split; [exact Es|]. split; [exact Hs|].
  unfold small_noise. rewrite Eq, H2, H3, H4.
  assert (En : norm1 (sk_coeffs sk) = 19).
  { unfold sk_random in Es. rewrite H3, H4 in Es. destruct (sample_vec_cbd rng_ex 8 10) as [[v k]| |] eqn:Ev; try discriminate. injection Es as <-. cbn [sk_coeffs]. revert Ev. vm_compute. intros Ev. injection Ev as <- _. reflexivity. }
  rewrite En. vm_compute. discriminate.
Qed.
