(** Property C68: the release build of contexts and of parameters.

    [rel_*]: the release build (ReleaseBuildModel.v); without the prefix: the debug build (RqModel.v, ParamsModel.v, DefaultModel.v).
    [oracles isp cands]: the primality test is right and the candidates drawn in the search for a root are residues; [complete_draws cands]: they
    contain a non-residue for every odd prime.  [is_builder b]: the fields of the builder are words, the plaintext modulus is not negative. *)
From Verif Require Import Outcome BasicSpec ZqModel NttModel RnsModel RqModel RqSpec ParamsModel BfvSpec DefaultModel ReleaseModel ReleasePrimesModel ReleaseBuildModel ReleaseBuildPropLemmas PrimeCert ExampleParams.
From Coq Require Import Znumtheory.
(** C68: for all moduli and degrees, a context the debug build makes, or refuses with an error, the release build makes or refuses in the same way. *)
Theorem C68_context : forall isp cands, oracles isp cands -> forall moduli degree, context_new isp cands moduli degree <> Panic ->
  rel_context_new isp cands moduli degree = context_new isp cands moduli degree.
Proof. exact rel_context_all. Qed.
Print Assumptions C68_context.
(** C68: moduli that are fit for a context, but without a non-residue among the draws for one of them: the debug build panics, the release build returns the error that there is no operator for such a modulus. *)
Theorem C68_draws : forall isp cands, oracles isp cands -> forall (k : nat) moduli, (3 <= k <= 62)%nat -> moduli <> [] -> NoDup moduli -> Forall (ntt_prime (2 ^ Z.of_nat k)) moduli ->
  (exists p, In p moduli /\ forall a, In a (cands p) -> a ^ ((p - 1) / 2) mod p <> p - 1) ->
  context_new isp cands moduli (2 ^ k) = Panic /\
  exists p, In p moduli /\ (forall a, In a (cands p) -> a ^ ((p - 1) / 2) mod p <> p - 1) /\
    rel_context_new isp cands moduli (2 ^ k) = Err (NttOperatorUnavailable p (2 ^ Z.of_nat k)).
Proof. exact rel_context_draws_all. Qed.
Print Assumptions C68_draws.
(** C68: for every builder, parameters the debug build makes, or refuses with an error, the release build makes or refuses in the same way. *)
Theorem C68_params : forall isp cands, oracles isp cands -> forall id b, is_builder b -> build isp cands id b <> Panic ->
  rel_build isp cands id b = build isp cands id b.
Proof. exact rel_build_all. Qed.
Print Assumptions C68_params.
(** C68: with complete draws both builds do the same for every builder, and the release build never panics: it returns parameters or a justified error. *)
Theorem C68_total : forall isp cands, oracles isp cands -> complete_draws cands -> forall id b, is_builder b ->
  rel_build isp cands id b = build isp cands id b /\
  ((exists par, rel_build isp cands id b = Val par) \/ (exists e, rel_build isp cands id b = Err e /\ builder_rejected b e)).
Proof. exact rel_build_total_all. Qed.
Print Assumptions C68_total.
(** C68: parameters read from a message are the same in both builds, and neither panics. *)
Theorem C68_deserialize : forall isp cands, oracles isp cands -> complete_draws cands -> forall id m,
  is_u64 (pp_degree m) -> is_u64 (pp_variance m) -> Forall is_u64 (pp_moduli m) ->
  match pp_plain m with Some (PpU64 v) => is_u64 v | Some (PpBig l) => Forall (fun x => 0 <= x < 256) l | None => True end ->
  rel_params_from_proto isp cands id m = params_from_proto isp cands id m /\ params_from_proto isp cands id m <> Panic.
Proof. exact rel_from_proto_all. Qed.
Print Assumptions C68_deserialize.
(** C68: the default parameters, made by the release build throughout, are those of the debug build for 1 to 63 bits; otherwise there are none. *)
Theorem C68_default : forall isp cands, oracles isp cands -> complete_draws cands -> forall ids nb, 0 <= nb ->
  (1 <= nb <= 63 -> rel_default_parameters_128 isp (rel_build isp cands) ids nb = default_parameters_128 isp cands ids nb) /\
  (nb = 0 \/ 64 <= nb -> rel_default_parameters_128 isp (rel_build isp cands) ids nb = Err (ParNoDefault nb)).
Proof. exact rel_default_all. Qed.
Print Assumptions C68_default.
(** Draws without a non-residue. *)
Definition cands_one (p : Z) : list Z := if 2 <=? p then [1] else [].
Lemma oracles_one : oracles isp_bfv cands_one.
Proof. split; [exact isp_bfv_ok|]. intros p. unfold cands_one. destruct (Z.leb_spec 2 p); [apply Forall_cons; [lia|]|]; apply Forall_nil. Qed.
(** The hypotheses hold for a builder that is accepted, whose parameters both builds make, and for moduli with and without a non-residue among the draws. *)
Example C68_ex : oracles isp_bfv cands_bfv /\ complete_draws cands_bfv /\ is_builder builder_ex /\ (exists par, rel_build isp_bfv cands_bfv 1 builder_ex = Val par /\ pa_moduli par = [1048433; 1048273]) /\
  rel_build isp_bfv cands_bfv 1 (mkBuilder 12 17 10 [1048433; 1048273] []) = Err (ParInvalidDegree 12) /\
  rel_params_from_proto isp_bfv cands_bfv 1 (mkPp 8 [1048433; 1048273] 10 None) = Err SerMissingField /\
  (exists c, rel_context_new isp_bfv cands_bfv [97; 193] 8 = Val c /\ context_new isp_bfv cands_bfv [97; 193] 8 = Val c) /\
  rel_context_new isp_bfv cands_bfv [97; 101] 8 = Err (NttOperatorUnavailable 101 8) /\ rel_context_new isp_bfv cands_bfv [97; 97] 8 = Err (NonCoprimeModuli 97 97).
Proof.
  assert (B : is_builder builder_ex).
  { split; [split; [discriminate|reflexivity]|]. split; [discriminate|]. split; [split; [discriminate|reflexivity]|]. split; [|apply Forall_nil].
    apply Forall_cons; [split; [discriminate|reflexivity]|]. apply Forall_cons; [split; [discriminate|reflexivity]|]. apply Forall_nil. }
  split; [exact oracles_bfv|]. split; [exact cands_bfv_complete|]. split; [exact B|]. split.
  - eexists. split; [rewrite (C68_params _ _ oracles_bfv 1 builder_ex B); rewrite par_ex_built; [reflexivity|discriminate]|reflexivity].
  - split; [vm_compute; reflexivity|]. split; [vm_compute; reflexivity|]. split; [eexists; split; vm_compute; reflexivity|]. split; vm_compute; reflexivity.
Qed.
Example C68_draws_ex : oracles isp_bfv cands_one /\ NoDup [97; 193] /\ Forall (ntt_prime (2 ^ Z.of_nat 3)) [97; 193] /\
  (forall a, In a (cands_one 97) -> a ^ ((97 - 1) / 2) mod 97 <> 97 - 1) /\
  context_new isp_bfv cands_one [97; 193] 8 = Panic /\ rel_context_new isp_bfv cands_one [97; 193] 8 = Err (NttOperatorUnavailable 97 8).
Proof.
  split; [exact oracles_one|]. split; [apply NoDup_cons; [intros [H|[]]; discriminate|]; apply NoDup_cons; [intros []|apply NoDup_nil]|]. split.
  - apply Forall_cons; [split; [apply isp_bfv_ok; [split; [discriminate|reflexivity]|vm_compute; reflexivity]|split; reflexivity]|].
    apply Forall_cons; [split; [apply isp_bfv_ok; [split; [discriminate|reflexivity]|vm_compute; reflexivity]|split; reflexivity]|]. apply Forall_nil.
  - split; [intros a [<-|[]]; vm_compute; discriminate|]. split; vm_compute; reflexivity.
Qed.
