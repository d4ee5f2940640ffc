(** Closed examples for the sizes of byte strings. *)
From Verif Require Import Outcome BasicSpec PolySpec ZqModel NttModel CbdModel CbdSpec TranscodeModel RnsModel RnsSpec RqModel RqSpec ParamsModel BfvSpec ParamsProofs BuildProofs PrimeCert ExampleParams ParamsPropLemmas PlainModel CipherModel OpsModel SchemeSpec CipherSpec PlainPropLemmas CipherPropLemmas SerialPropLemmas CipherExamples KeysModel KeysSpec KeyPropLemmas KeyExamples EvalSpec EvalPropLemmas RgswSpec WireSpec WirePropLemmas KeySerialPropLemmas.
From Verif Require Import MulExamples WireExamples ReachSpec ReachExamples BytesModel BytesSpec BytesExamples SizesSpec SizesPropLemmas.
From Verif Require Import LinearPropLemmas RgswPropLemmas WireKeysProofs WireOpsProofs EvalKeyProofs ReachPropLemmas.

(** What the formulas say of the objects of [strings_ex] (C55) and of their parameters. *)
Definition sizes_ex : M (list Z) :=
  par <- par_ex ;; sk <- sk_random par rng_ex ;;
  Val [sk_size (sk_coeffs sk); part_size (ct_size par 0 2 true); ct_size par 0 2 true; part_size (key_size par 0 0 0 true);
       ek_size par 0 0 [(15, 0, true)]; 2 * part_size (key_size par 0 0 (key_base par 0) true); params_size par].
Lemma sizes_ex_eq : sizes_ex = Val [10; 84; 82; 133; 138; 266; 14] /\ strings_ex = Val ([10; 84; 82; 133; 138; 266], [true; true; true; true; true; true]).
Proof. split; [vm_compute; reflexivity|exact strings_ex_eq]. Qed.
(** A ciphertext of two parts at both levels, with a seed and without, and numbers around the places where a byte is added. *)
Definition levels_ex : M (list Z) := par <- par_ex ;; Val (map (fun x : nat * bool => ct_size par (fst x) 2 (snd x)) [(0%nat, true); (1%nat, true); (0%nat, false); (1%nat, false)]).
Lemma levels_ex_eq : levels_ex = Val [82; 64; 96; 58] /\ map number_size [0; 1; 127; 128; 16383; 16384; 2 ^ 64 - 1] = [1; 1; 1; 2; 2; 3; 10] /\ map signed_size [0; 1; -1; 63; -64; 64; -65] = [1; 1; 1; 1; 1; 2; 2].
Proof. split; [vm_compute; reflexivity|]. split; vm_compute; reflexivity. Qed.
(** Parameters with a variance below 32, and the same with variance 32. *)
Lemma variance_ex : exists par, is_params isp_bfv cands_bfv par /\ pa_variance par = 10 /\ fits (params_to_bytes par) /\ is_params isp_bfv cands_bfv (with_variance 32 par) /\ pa_variance (with_variance 32 par) = 32.
Proof.
  destruct params_exist_all as (p & E & Hp & _ & _ & _ & H4 & _). exists p. split; [exact Hp|]. split; [exact H4|]. split.
  - destruct params_ex as (Es & _). unfold params_string_ex in Es. rewrite E in Es. cbn [bind] in Es. injection Es as Es. unfold fits. rewrite Es. vm_compute. reflexivity.
  - split; [|reflexivity]. apply with_variance_all; [exact Hp|lia].
Qed.
(** Keys and ciphertexts that the theorems speak of. *)
Lemma sizes_hypotheses_ex : exists par, is_params isp_bfv cands_bfv par /\ supported par /\ serializable par /\ expands_well expand_ex /\ max_level par = 1%nat /\ length sd_ex = 32%nat /\ (forall i, words (rngs_ex i)) /\ pa_t par <= level_modulus par 0 /\
  exists sk, is_sk par sk /\ sk_coeffs sk <> [] /\ fits (sk_to_bytes sk) /\
  (exists k, key_shape par 0 0 k) /\ (exists b cols, is_ekb par sk 0 0 b cols) /\ (exists ek, ek_shape par 0 ek /\ NoDup (map fst (ek_gk ek)) /\ (ek_level ek <= max_level par)%nat) /\ (exists pk, pk_shape par pk /\ ct_seed_ok (pk_c pk)) /\
  (exists pt m r, is_pt par 0 pt m /\ canonical (pa_t par) m /\ rgsw_encrypt expand_ex derive_ex sk pt sd_ex sd_ex rngs_ex rngs_ex = Val r).
Proof.
  destruct wire_hypotheses_ex as (p & Hp & Hsup & Hser & H3 & H4 & H5 & H6 & HtQ & sk & Hsk & (k & Hk & _) & _ & (b & cols & Hb) & _).
  exists p. split; [exact Hp|]. split; [exact Hsup|]. split; [exact Hser|]. split; [exact H3|]. split; [exact H4|]. split; [exact H5|]. split; [exact H6|]. split; [exact HtQ|]. exists sk. split; [exact Hsk|].
  destruct (sk_fits isp_bfv cands_bfv p sk oracles_bfv Hp Hsk) as (Hne & Hf). split; [exact Hne|]. split; [exact Hf|]. split; [exists k; exact Hk|]. split; [exists b, cols; exact Hb|]. split.
  - destruct (ek_roundtrip_all isp_bfv cands_bfv p oracles_bfv Hp Hser expand_ex derive_ex expand_ex_ok sk Hsk 0 0 ltac:(lia) ltac:(lia) b cols (fun _ => sd_ex) (fun _ => rngs_ex) Hb (fun _ => eq_refl) (fun _ => rngs_ex_ok)) as (ek & m & Eek & Hek & _). exists ek. split; [exact Hek|]. split; [exact (proj1 (ek_build_made _ _ _ _ _ _ Eek))|]. destruct (build_all isp_bfv cands_bfv p oracles_bfv Hp expand_ex derive_ex expand_ex_ok sk Hsk 0 0 ltac:(lia) ltac:(lia) b cols (fun _ => sd_ex) (fun _ => rngs_ex) Hb (fun _ => rngs_ex_ok)) as (ek' & E' & (_ & _ & E3 & _) & _). rewrite Eek in E'. injection E' as <-. rewrite E3. lia.
  - split.
    + destruct (pk_new_all isp_bfv cands_bfv p oracles_bfv Hp expand_ex sk sd_ex rng_ex expand_ex_ok rng_ex_ok Hsk) as (pk & _ & (Hpp & _ & xs & ee & Hct & Hlx & _) & Es). exists pk. split; [split; [exact Hpp|]; exists (length xs); split; [exact Hlx|]; exists xs; split; [exact Hct|reflexivity]|]. intros sd E. rewrite Es in E. injection E as <-. reflexivity.
    + assert (Hus : usable p (mkEnc EncPoly 0)) by (intros HU; discriminate HU).
      destruct (proj1 (proj2 (encoded_all isp_bfv cands_bfv p oracles_bfv Hp 0 (Nat.le_0_l _) HtQ (mkEnc EncPoly 0) [] eq_refl Hus (Nat.le_0_l _))) (Forall_nil _)) as (pt & m & _ & Hpt & Hm & _).
      destruct (rgsw_new_all isp_bfv cands_bfv p oracles_bfv Hp expand_ex derive_ex expand_ex_ok sk Hsk 0 ltac:(lia) pt m Hpt sd_ex sd_ex rngs_ex rngs_ex rngs_ex_ok rngs_ex_ok) as (r & Er & _). exists pt, m, r. split; [exact Hpt|]. split; [exact Hm|exact Er].
Qed.
