(** Examples for the SealPIR program. *)
From Verif Require Import Outcome BasicSpec OutcomeLemmas NttModel CbdModel CbdSpec TranscodeModel RqModel RqSpec PrimesModel RnsModel RnsSpec ParamsModel BfvSpec SchemeSpec CipherSpec KeysSpec PirModel PirSpec ParamsPropLemmas ExampleParams CipherExamples KeyExamples MulPirPropLemmas SealPirPropLemmas PirExamples.

Lemma sealpir_room_ex par : pa_moduli par = [1048433; 1048273; 1048193] -> pa_t par = 17 -> pa_degree par = 8%nat -> pa_variance par = 10 -> forall S, key_norms par S -> sealpir_room par S 2 2.
Proof.
  intros Em Et Ed Ev S HS. unfold key_norms in HS. rewrite Ed, Ev in HS.
  unfold sealpir_room, small_noise, last_noise, column_noise, expanded_noise, key_noise, switch_noise, key_base, level_ratio, level_modulus. rewrite Em, Et, Ed, Ev.
  match goal with |- ?G => let f := eval pattern S in G in match f with ?g _ => set (P := g); change (P S) end end.
  assert (H : Forall P (map Z.of_nat (seq 0 161))).
  { let l := eval vm_compute in (map Z.of_nat (seq 0 161)) in change (map Z.of_nat (seq 0 161)) with l. unfold P. repeat (constructor; [vm_compute; repeat split; discriminate|]). constructor. }
  apply (proj1 (Forall_forall _ _) H). apply in_map_iff. exists (Z.to_nat S). split; [lia|apply in_seq; lia].
Qed.
(** Nine elements of one byte, in three plaintexts: the query has two and two coordinates. *)
Lemma sealpir_ex : oracles isp_bfv cands_bfv /\ expands_well expand_ex /\ exists par, is_params isp_bfv cands_bfv par /\ pir_params par /\
  (forall S, key_norms par S -> sealpir_room par S 2 2) /\ 8 * Z.of_nat 1 <= Z.log2 (pa_t par) * Z.of_nat (pa_degree par) /\ layout isqrt_ex par 1 (numbered_database 9 1) 2 2 /\
  database 1 (numbered_database 9 1) /\ numbered_database 9 1 <> [] /\ draws_ok (draws_ex 16) /\ sealpir expand_ex derive_ex isqrt_ex par (numbered_database 9 1) 1 (draws_ex 16) = Val [7] /\
  sealpir_main expand_ex derive_ex isqrt_ex par 9 1 (draws_ex 16) = Val (Some [7]) /\ sealpir_main expand_ex derive_ex isqrt_ex par 9 5 (draws_ex 16) = Val None.
Proof.
  split; [exact oracles_bfv|]. split; [exact expand_ex_ok|]. destruct three_params as (par & Hp & Em & Et & Ed & Ev). exists par. split; [exact Hp|].
  assert (HP : pir_params par) by (unfold pir_params, supported, decryptable, decryption_base, serializable; rewrite Em, Et, Ed; repeat split; vm_compute; (reflexivity || discriminate)). split; [exact HP|].
  pose proof (sealpir_room_ex par Em Et Ed Ev) as Hr. split; [exact Hr|].
  assert (Hf : 8 * Z.of_nat 1 <= Z.log2 (pa_t par) * Z.of_nat (pa_degree par)) by (rewrite Ed, Et; vm_compute; discriminate). split; [exact Hf|].
  assert (Hl : layout isqrt_ex par 1 (numbered_database 9 1) 2 2) by (unfold layout, row_count, per_row; rewrite Ed, Et; vm_compute; repeat split; try (intros HU; discriminate HU); repeat constructor). split; [exact Hl|].
  pose proof (numbered_database_ok 9 1) as Hdb. split; [exact Hdb|]. assert (Hne : numbered_database 9 1 <> []) by discriminate. split; [exact Hne|]. pose proof (draws_ex_ok 16 ltac:(lia)) as Hd. split; [exact Hd|].
  split; [exact (sealpir_all _ _ par oracles_bfv Hp HP expand_ex derive_ex expand_ex_ok isqrt_ex 1%nat _ 2%nat 2%nat Hdb Hne ltac:(lia) Hf Hl Hr _ Hd)|]. split.
  - exact (proj2 (sealpir_main_all _ _ par oracles_bfv Hp HP expand_ex derive_ex expand_ex_ok isqrt_ex 9%nat 1%nat _ Hd) ltac:(lia) ltac:(lia) Hf eq_refl 2%nat 2%nat Hl Hr).
  - apply (proj1 (sealpir_main_all _ _ par oracles_bfv Hp HP expand_ex derive_ex expand_ex_ok isqrt_ex 9%nat 5%nat _ Hd)). rewrite Ed, Et. intros (_ & _ & HU). vm_compute in HU. apply HU. reflexivity.
Qed.
