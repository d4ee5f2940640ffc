(** A closed example for the slots read with other roots of unity. *)
From Verif Require Import Outcome BasicSpec OutcomeLemmas PolySpec NumTheory ZqModel NttModel CbdModel TranscodeModel RnsModel RnsSpec RqModel RqSpec ParamsModel BfvSpec ParamsProofs BuildProofs PrimeCert ExampleParams ParamsPropLemmas PlainModel CipherModel OpsModel SchemeSpec CipherSpec CipherPropLemmas CipherExamples EvalSpec BytesModel BytesSpec PortSpec PortPropLemmas PortExamples.

Definition slots_setup (par par' : params) : bool :=
  match pa_ntt par, pa_ntt par' with Some _, Some _ => pa_t par <=? level_modulus par 0 | _, _ => false end.
Lemma slots_setup_ex : forall par par', par_ex = Val par -> par_cubes = Val par' -> slots_setup par par' = true.
Proof.
  intros par par' E E'. assert (H : match par_ex, par_cubes with Val p, Val p' => slots_setup p p' | _, _ => false end = true) by (vm_compute; reflexivity). rewrite E, E' in H. exact H.
Qed.
Lemma port_slots_ex : exists par par', is_params isp_bfv cands_bfv par /\ is_params isp_bfv cands_cubes par' /\ same_numbers par par' /\ serializable par /\ supported par /\ decryptable par /\ pa_ntt par <> None /\ pa_ntt par' <> None /\ pa_t par <= level_modulus par 0 /\
  exists sk ct B pt', is_sk par sk /\ encrypts_slots par sk 0 ct [1; 2; 16] B /\ ct_seed ct = None /\
    decrypt_elsewhere expand_ex sk ct par' = Val pt' /\ decode_u64 pt' (Some (mkEnc EncSimd 0)) = Val (rotated_columns (pa_degree par) 1 (pad (pa_degree par) [1; 2; 16])).
Proof.
  destruct port_run_ex as (w & w' & Hw & Hw' & H3 & Hf & H).
  assert (H1 : is_params isp_bfv cands_bfv w) by (exists 1, builder_ex; split; [exact builder_ex_ok|rewrite par_ex_built; exact Hw]). assert (H2 : is_params isp_bfv cands_cubes w') by (exists 2, builder_ex; split; [exact builder_ex_ok|rewrite par_cubes_built; exact Hw']).
  pose proof (slots_setup_ex w w' Hw Hw') as HS. unfold slots_setup in HS.
  destruct params_exist_all as (p & E & _ & P1 & P2 & P3 & P4 & _). rewrite Hw in E. injection E as <-.
  unfold port_run in H. steps H. injection H as Ea Eb Ec Ed Ee. exists w, w'. split; [exact H1|]. split; [exact H2|]. split; [exact H3|].
  split; [unfold serializable; rewrite P1, P3; split; vm_compute; reflexivity|].
  split; [unfold supported; rewrite P1; split; vm_compute; (reflexivity || discriminate)|].
  split; [unfold decryptable, decryption_base; rewrite P1, P2; vm_compute; discriminate|].
  destruct (pa_ntt w) as [op|] eqn:Eop; [|discriminate HS]. destruct (pa_ntt w') as [op'|] eqn:Eop'; [|discriminate HS]. apply Z.leb_le in HS.
  split; [discriminate|]. split; [discriminate|]. split; [exact HS|].
  destruct (sk_random_all isp_bfv cands_bfv w oracles_bfv H1 rng_ex rng_ex_ok) as (sk & Es & Hs & _). rewrite S in Es. injection Es as <-.
  destruct (pk_new_all isp_bfv cands_bfv w oracles_bfv H1 expand_ex v sd_ex rng_ex expand_ex_ok rng_ex_ok Hs) as (pk & Ek & Hk & _). rewrite S4 in Ek. injection Ek as <-.
  destruct (encoded_all isp_bfv cands_bfv w oracles_bfv H1 0 (Nat.le_0_l _) HS (mkEnc EncSimd 0) [1; 2; 16] eq_refl) as (F & _).
  { intros _. rewrite Eop. discriminate. } { rewrite P3. vm_compute. repeat constructor. }
  destruct F with (vt := false) as (pt & m & F1 & F2 & F3 & _).
  { rewrite P2. repeat constructor; lia. } { repeat constructor; lia. }
  rewrite S8 in F1. injection F1 as <-.
  destruct (pk_encrypt_all isp_bfv cands_bfv w oracles_bfv H1 0 0 (Nat.le_0_l _) (Nat.le_0_l _) v v4 _ rng_ex rng_ex rng_ex v8 m Hs Hk rng_ex_ok rng_ex_ok rng_ex_ok F2 F3 HS) as (ct & G1 & G2 & G3 & G4). rewrite S9 in G1. injection G1 as <-.
  eexists v, v9, _, v10. split; [exact Hs|]. split; [exists v8, m; split; [exact S8|]; split; [exact F2|]; split; [exact F3|]; split; [exact G3|exact G4]|]. split; [exact G2|].
  split; [exact S10|]. rewrite S11, Ec, P3. vm_compute. reflexivity.
Qed.
