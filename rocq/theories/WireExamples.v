(** Closed examples for messages that hold keys. *)
From Verif Require Import Outcome BasicSpec PolySpec ZqModel NttModel CbdModel TranscodeModel RnsModel RnsSpec RqModel RqSpec ParamsModel BfvSpec ParamsProofs BuildProofs PrimeCert ExampleParams ParamsPropLemmas PlainModel CipherModel OpsModel SchemeSpec CipherSpec PlainPropLemmas CipherPropLemmas SerialPropLemmas CipherExamples KeysModel KeysSpec KeyPropLemmas KeyExamples EvalSpec EvalPropLemmas RgswSpec WireSpec WirePropLemmas KeySerialPropLemmas.

Definition same_coeffs {R} (ps qs : list (poly R)) : bool := list_eqb (concat (concat (map p_coeffs ps))) (concat (concat (map p_coeffs qs))).
(** A relinearization key: the message holds two polynomials and the seed; the key read back holds the same polynomials. *)
Definition wire_relin_ex : M (Z * Z * Z * bool) :=
  par <- par_ex ;; sk <- sk_random par rng_ex ;;
  k <- relin_new expand_ex derive_ex sk 0 0 sd_ex rngs_ex ;;
  m <- ksk_to_proto k ;;
  k' <- ksk_from_proto expand_ex derive_ex m par ;;
  Val (len (kp_c0 m), len (kp_c1 m), len (kp_seed m), same_coeffs (k_c0 k ++ k_c1 k) (k_c0 k' ++ k_c1 k')).
(** A message for the last level with digits of [b] bits, and what becomes of a relinearization with it: [true] for a panic. *)
Definition wide_base_ex (b : Z) : M bool :=
  par <- par_ex ;;
  c <- par_context par 1 ;;
  z <- poly_to_proto (poly_zero NttShoup c) ;;
  k <- relin_from_proto expand_ex derive_ex (Some (mkKp (repeat z (Z.to_nat ((19 + b) / b))) [] sd_ex 1 1 b)) par ;;
  let z := poly_zero Ntt c in
  Val (match relinearizes k (mkCt par None [z; z; z] 1) with Panic => true | _ => false end).

Lemma wire_hypotheses_ex : exists par, is_params isp_bfv cands_bfv par /\ supported par /\ serializable par /\ expands_well expand_ex /\ max_level par = 1%nat /\ length sd_ex = 32%nat /\ (forall i, words (rngs_ex i)) /\ pa_t par <= level_modulus par 0 /\
  exists sk, is_sk par sk /\
  (exists k, key_shape par 0 0 k /\ key_faithful expand_ex derive_ex k /\ base_fits k) /\
  (exists g, gk_shape par 0 0 g /\ base_fits (g_ksk g)) /\
  (exists b cols, is_ekb par sk 0 0 b cols) /\
  (exists ek, ek_shape par 0 ek /\ ek_fits ek) /\
  (exists pk, pk_shape par pk) /\ (exists m, wire_ksk m).
Proof.
  destruct keys_hypotheses_ex as (p0 & Hp0 & Hs0 & _ & Hm0 & _). clear p0 Hp0 Hs0 Hm0.
  destruct params_exist_all as (p & E & Hp & H1 & H2 & H3 & H4 & _). exists p. split; [exact Hp|].
  assert (Hsup : supported p) by (unfold supported; rewrite H1; split; vm_compute; (reflexivity || discriminate)). split; [exact Hsup|].
  assert (Hser : serializable p) by (unfold serializable; rewrite H1, H3; split; vm_compute; reflexivity). split; [exact Hser|]. split; [exact expand_ex_ok|].
  assert (Hmax : max_level p = 1%nat) by (destruct (gp_levels _ _ _ (params_good _ _ p oracles_bfv Hp)) as (? & ? & Hll & _); unfold max_level; rewrite Hll, H1; reflexivity). split; [exact Hmax|]. split; [reflexivity|]. split; [exact rngs_ex_ok|].
  split; [unfold level_modulus; rewrite H1, H2; vm_compute; discriminate|].
  destruct (sk_random_all isp_bfv cands_bfv p oracles_bfv Hp rng_ex rng_ex_ok) as (sk & Es & Hs & Hb & Hn). exists sk. split; [exact Hs|].
  destruct (relin_roundtrip_all isp_bfv cands_bfv p oracles_bfv Hp Hsup Hser expand_ex derive_ex expand_ex_ok sk Hs 0 0 ltac:(lia) ltac:(lia) sd_ex rngs_ex eq_refl rngs_ex_ok) as (k & m & Ek & Hk & Hf & _).
  split. { exists k. split; [exact Hk|]. split; [|exact Hf]. apply (made_faithful isp_bfv cands_bfv oracles_bfv p (params_good _ _ p oracles_bfv Hp) expand_ex derive_ex sd_ex). apply relin_new_made in Ek. exact Ek. }
  destruct (galois_roundtrip_all isp_bfv cands_bfv p oracles_bfv Hp Hser expand_ex derive_ex expand_ex_ok sk Hs 0 0 ltac:(lia) ltac:(lia) 3 sd_ex rngs_ex ltac:(rewrite H3; lia) eq_refl eq_refl rngs_ex_ok) as (g & mg & _ & Hg & Hgf & _).
  split; [exists g; split; assumption|].
  destruct (proj1 (builder_new_all isp_bfv cands_bfv p oracles_bfv Hp sk Hs)) as (rot & _ & Hb0). set (b := mkEkb _ _ _ _ _ _ _ _) in Hb0.
  split; [eexists b, _; exact Hb0|].
  destruct (ek_roundtrip_all isp_bfv cands_bfv p oracles_bfv Hp Hser expand_ex derive_ex expand_ex_ok sk Hs 0 0 ltac:(lia) ltac:(lia) b _ (fun _ => sd_ex) (fun _ => rngs_ex) Hb0 (fun _ => eq_refl) (fun _ => rngs_ex_ok)) as (ek & _ & _ & Hek & Hef & _).
  split; [exists ek; split; assumption|].
  split. { destruct (pk_roundtrip_all isp_bfv cands_bfv p oracles_bfv Hp Hser expand_ex expand_ex_ok sk Hs sd_ex rng_ex eq_refl rng_ex_ok) as (pk & mm & Epk & _). exists pk. destruct (pk_new_all isp_bfv cands_bfv p oracles_bfv Hp expand_ex sk sd_ex rng_ex expand_ex_ok rng_ex_ok Hs) as (pk' & Epk' & (Hpp & Hp2 & xs & ee & Hct & _) & _). rewrite Epk in Epk'. injection Epk' as <-. split; [exact Hpp|]. exists 2%nat. split; [lia|]. exists xs. split; [exact Hct|]. destruct Hct as (_ & _ & F). apply Forall2_len2 in F. congruence. }
  destruct (wide_base_all isp_bfv cands_bfv p oracles_bfv Hp Hser expand_ex derive_ex expand_ex_ok 64 ltac:(lia)) as (mw & _ & Hw & _). exists mw. exact Hw.
Qed.
