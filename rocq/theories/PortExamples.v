(** Closed examples for the property about reading what was written by a program that uses other roots of unity. *)
From Verif Require Import Outcome BasicSpec OutcomeLemmas PolySpec NumTheory ZqModel NttModel CbdModel TranscodeModel RnsModel RnsSpec RqModel RqSpec ParamsModel BfvSpec ParamsProofs BuildProofs PrimeCert ExampleParams ParamsPropLemmas PlainModel CipherModel OpsModel SchemeSpec CipherSpec CipherPropLemmas CipherExamples BytesModel BytesSpec PortSpec PortPropLemmas.
From Coq Require Import Znumtheory Zpow_facts.

(** The cubes of the candidates of [cands_bfv]: the roots they give are the cubes of the roots of [par_ex]. *)
Definition cands_cubes (p : Z) : list Z := map (fun a => a * a * a mod p) (cands_bfv p).
Lemma cands_cubes_canonical p : canonical p (cands_cubes p).
Proof.
  unfold canonical, cands_cubes. apply Forall_map. eapply Forall_impl; [|exact (cands_bfv_canonical p)]. cbv beta. intros a Ha. apply Z.mod_pos_bound. lia.
Qed.
Lemma cands_cubes_complete : complete_draws cands_cubes.
Proof.
  intros p Hp H2. destruct (cands_bfv_complete p Hp H2) as (a & Ha & Ea). exists (a * a * a mod p). split; [unfold cands_cubes; apply in_map_iff; exists a; auto|].
  assert (Hk : 0 <= (p - 1) / 2) by (apply Z.div_pos; lia). rewrite <- Zpower_mod by lia. rewrite !Z.pow_mul_l. rewrite Zmult_mod, (Zmult_mod (a ^ _) (a ^ _)), Ea. rewrite Zmult_mod_idemp_l.
  replace ((p - 1) * (p - 1) * (p - 1)) with (p - 1 + (p * p - 3 * p + 2) * p) by ring. rewrite Z_mod_plus_full, Z.mod_small by lia. reflexivity.
Qed.
Lemma oracles_cubes : oracles isp_bfv cands_cubes.
Proof. split; [exact isp_bfv_ok|exact cands_cubes_canonical]. Qed.
Definition par_cubes : M params := Eval vm_compute in build isp_bfv cands_cubes 2 builder_ex.
Lemma par_cubes_built : build isp_bfv cands_cubes 2 builder_ex = par_cubes.
Proof. vm_compute. reflexivity. Qed.
Definition roots_differ (p p' : params) : bool :=
  match pa_levels p, pa_levels p' with
  | lv :: _, lv' :: _ => negb (list_eqb (concat (map nt_omegas (c_ops (lv_ctx lv)))) (concat (map nt_omegas (c_ops (lv_ctx lv')))))
  | _, _ => false
  end.
Definition port_run (par par' : params) : M (list Z * list Z * list Z * list Z * bool) :=
  sk <- sk_random par rng_ex ;;
  pt <- encode_u64 false [1; 2; 16] (mkEnc EncPoly 0) par ;;
  ct <- sk_encrypt expand_ex sk pt sd_ex rng_ex ;;
  pt' <- decrypt_elsewhere expand_ex sk ct par' ;;
  m' <- decode_u64 pt' (Some (mkEnc EncPoly 0)) ;;
  pk <- pk_new expand_ex sk sd_ex rng_ex ;;
  ct2 <- pk_encrypt pk pt rng_ex rng_ex rng_ex ;;
  pt2 <- decrypt_elsewhere expand_ex sk ct2 par' ;;
  m2 <- decode_u64 pt2 (Some (mkEnc EncPoly 0)) ;;
  pts <- encode_u64 false [1; 2; 16] (mkEnc EncSimd 0) par ;;
  ct3 <- pk_encrypt pk pts rng_ex rng_ex rng_ex ;;
  pt3 <- decrypt_elsewhere expand_ex sk ct3 par' ;;
  m3 <- decode_u64 pt3 (Some (mkEnc EncSimd 0)) ;;
  bpk <- pk_to_bytes pk ;;
  pk' <- pk_from_bytes expand_ex bpk par' ;;
  pt4 <- encode_u64 false [1; 2; 16] (mkEnc EncPoly 0) par' ;;
  ct4 <- pk_encrypt pk' pt4 rng_ex rng_ex rng_ex ;;
  pt5 <- sk_decrypt (key_under par' sk) ct4 ;;
  m5 <- decode_u64 pt5 (Some (mkEnc EncPoly 0)) ;;
  Val (m', m2, m3, m5, roots_differ par par').
Lemma port_run_ex : exists par par', par_ex = Val par /\ par_cubes = Val par' /\ same_numbers par par' /\ fits (params_to_bytes par) /\
  port_run par par' = Val ([0; 12; 11; 16; 11; 1; 8; 0], [1; 2; 16; 0; 0; 0; 0; 0], [2; 16; 0; 1; 0; 0; 0; 0], [0; 10; 0; 8; 2; 13; 2; 10], true).
Proof. unfold par_ex, par_cubes. eexists _, _. split; [reflexivity|]. split; [reflexivity|]. split; [vm_compute; repeat split|]. split; vm_compute; reflexivity. Qed.
Lemma port_setup : exists par par', par_ex = Val par /\ is_params isp_bfv cands_bfv par /\ is_params isp_bfv cands_cubes par' /\ same_numbers par par' /\ fits (params_to_bytes par) /\
  port_run par par' = Val ([0; 12; 11; 16; 11; 1; 8; 0], [1; 2; 16; 0; 0; 0; 0; 0], [2; 16; 0; 1; 0; 0; 0; 0], [0; 10; 0; 8; 2; 13; 2; 10], true).
Proof.
  destruct port_run_ex as (par & par' & E & E' & H). exists par, par'. split; [exact E|]. split; [exists 1, builder_ex; split; [exact builder_ex_ok|rewrite par_ex_built; exact E]|]. split; [exists 2, builder_ex; split; [exact builder_ex_ok|rewrite par_cubes_built; exact E']|]. exact H.
Qed.
Ltac steps H := repeat (apply bind_inv in H; let x := fresh "v" in let E := fresh "S" in destruct H as (x & E & H)).
(** A fresh encryption by the secret key does not decrypt elsewhere. *)
Theorem port_seeded_refuted_all : exists par par' sk pt ct pt' m m', is_params isp_bfv cands_bfv par /\ is_params isp_bfv cands_cubes par' /\ same_numbers par par' /\
  sk_random par rng_ex = Val sk /\ encode_u64 false m (mkEnc EncPoly 0) par = Val pt /\ sk_encrypt expand_ex sk pt sd_ex rng_ex = Val ct /\
  decrypt_elsewhere expand_ex sk ct par' = Val pt' /\ decode_u64 pt' (Some (mkEnc EncPoly 0)) = Val m' /\ firstn (length m) m' <> m.
Proof.
  destruct port_setup as (w & w' & Hw & H1 & H2 & H3 & Hf & H). unfold port_run in H. steps H. injection H as Ea Eb Ec Ed Ee.
  exists w, w', v, v0, v1, v2, [1; 2; 16], v3. repeat (split; [assumption|]). rewrite Ea. vm_compute. discriminate.
Qed.
(** A fresh public key encrypts nothing that decrypts elsewhere. *)
Theorem port_pk_refuted_all : exists par par' sk pk b pk' pt ct pt' m m', is_params isp_bfv cands_bfv par /\ is_params isp_bfv cands_cubes par' /\ same_numbers par par' /\
  sk_random par rng_ex = Val sk /\ pk_new expand_ex sk sd_ex rng_ex = Val pk /\ pk_to_bytes pk = Val b /\ pk_from_bytes expand_ex b par' = Val pk' /\
  encode_u64 false m (mkEnc EncPoly 0) par' = Val pt /\ pk_encrypt pk' pt rng_ex rng_ex rng_ex = Val ct /\ sk_decrypt (key_under par' sk) ct = Val pt' /\ decode_u64 pt' (Some (mkEnc EncPoly 0)) = Val m' /\ firstn (length m) m' <> m.
Proof.
  destruct port_setup as (w & w' & Hw & H1 & H2 & H3 & Hf & H). unfold port_run in H. steps H. injection H as Ea Eb Ec Ed Ee.
  exists w, w', v, v4, v12, v13, v14, v15, v16, [1; 2; 16], v17. repeat (split; [assumption|]). rewrite Ed. vm_compute. discriminate.
Qed.
(** Slots are not preserved: here the rows come back rotated by one column, although the polynomial is the same. *)
Theorem port_slots_refuted_all : exists par par' sk pk pt ct pt' m m', is_params isp_bfv cands_bfv par /\ is_params isp_bfv cands_cubes par' /\ same_numbers par par' /\
  sk_random par rng_ex = Val sk /\ pk_new expand_ex sk sd_ex rng_ex = Val pk /\ encode_u64 false m (mkEnc EncSimd 0) par = Val pt /\ pk_encrypt pk pt rng_ex rng_ex rng_ex = Val ct /\
  decrypt_elsewhere expand_ex sk ct par' = Val pt' /\ decode_u64 pt' (Some (mkEnc EncSimd 0)) = Val m' /\ firstn (length m) m' <> m.
Proof.
  destruct port_setup as (w & w' & Hw & H1 & H2 & H3 & Hf & H). unfold port_run in H. steps H. injection H as Ea Eb Ec Ed Ee.
  exists w, w', v, v4, v8, v9, v10, [1; 2; 16], v11. repeat (split; [assumption|]). rewrite Ec. vm_compute. discriminate.
Qed.
(** Parameter sets with the same numbers and other roots; and a ciphertext without seed read elsewhere. *)
Lemma port_hypotheses_ex : oracles isp_bfv cands_bfv /\ oracles isp_bfv cands_cubes /\ complete_draws cands_cubes /\ expands_well expand_ex /\
  exists par par', is_params isp_bfv cands_bfv par /\ is_params isp_bfv cands_cubes par' /\ same_numbers par par' /\ serializable par /\ supported par /\ decryptable par /\ roots_differ par par' = true /\ fits (params_to_bytes par) /\
    exists sk pk pt ct pt', is_sk par sk /\ pk_new expand_ex sk sd_ex rng_ex = Val pk /\ encode_u64 false [1; 2; 16] (mkEnc EncPoly 0) par = Val pt /\ pk_encrypt pk pt rng_ex rng_ex rng_ex = Val ct /\ ct_seed ct = None /\
      decrypt_elsewhere expand_ex sk ct par' = Val pt' /\ decode_u64 pt' (Some (mkEnc EncPoly 0)) = Val [1; 2; 16; 0; 0; 0; 0; 0].
Proof.
  split; [exact oracles_bfv|]. split; [exact oracles_cubes|]. split; [exact cands_cubes_complete|]. split; [exact expand_ex_ok|].
  destruct port_setup as (w & w' & Hw & H1 & H2 & H3 & Hf & H). unfold port_run in H. steps H. injection H as Ea Eb Ec Ed Ee. exists w, w'. split; [exact H1|]. split; [exact H2|]. split; [exact H3|].
  destruct params_exist_all as (p & E & _ & P1 & P2 & P3 & P4 & _). rewrite Hw in E. injection E as <-.
  split; [unfold serializable; rewrite P1, P3; split; vm_compute; reflexivity|].
  split; [unfold supported; rewrite P1; split; vm_compute; (reflexivity || discriminate)|].
  split; [unfold decryptable, decryption_base; rewrite P1, P2; vm_compute; discriminate|]. split; [exact Ee|].
  split; [exact Hf|].
  exists v, v4, v0, v5, v6. destruct (sk_random_all isp_bfv cands_bfv w oracles_bfv H1 rng_ex rng_ex_ok) as (sk & Es & Hs & _). rewrite S in Es. injection Es as <-.
  split; [exact Hs|]. split; [assumption|]. split; [assumption|]. split; [assumption|].
  split; [|split; [assumption|congruence]]. unfold pk_encrypt in S5. steps S5. destruct (Nat.ltb _ _); [discriminate|]. steps S5. injection S5 as <-. reflexivity.
Qed.
