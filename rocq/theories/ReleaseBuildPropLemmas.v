(** Statements about the release build of contexts and parameters. *)
From Verif Require Import Outcome BasicSpec OutcomeLemmas ZqModel NttModel RnsModel RqModel RqSpec ParamsModel BfvSpec DefaultModel DefaultPropLemmas ParamsPropLemmas.
From Verif Require Import RqCtx NumTheory NttProofs ReleaseModel ReleasePrimesModel ReleasePrimesProofs ReleaseBuildModel ReleaseBuildProofs.
From Coq Require Import Znumtheory.

Lemma rel_context_all : forall isp cands, oracles isp cands -> forall moduli degree, context_new isp cands moduli degree <> Panic ->
  rel_context_new isp cands moduli degree = context_new isp cands moduli degree.
Proof. intros isp cands Ho moduli degree. exact (ag_context isp cands Ho moduli degree). Qed.
Lemma rel_build_all : forall isp cands, oracles isp cands -> forall id b, is_builder b -> build isp cands id b <> Panic ->
  rel_build isp cands id b = build isp cands id b.
Proof. intros isp cands Ho id b Hb. exact (ag_build isp cands Ho id b Hb). Qed.
Lemma rel_build_total_all : forall isp cands, oracles isp cands -> complete_draws cands -> forall id b, is_builder b ->
  rel_build isp cands id b = build isp cands id b /\
  ((exists par, rel_build isp cands id b = Val par) \/ (exists e, rel_build isp cands id b = Err e /\ builder_rejected b e)).
Proof.
  intros isp cands Ho Hd id b Hb. pose proof (build_total_all isp cands Ho Hd id b Hb) as T.
  assert (E : rel_build isp cands id b = build isp cands id b) by (apply (ag_build isp cands Ho id b Hb); destruct T as [(p & ->)|(e & -> & _)]; discriminate).
  split; [exact E|]. rewrite E. exact T.
Qed.
Lemma rel_from_proto_all : forall isp cands, oracles isp cands -> complete_draws cands -> forall id m,
  is_u64 (pp_degree m) -> is_u64 (pp_variance m) -> Forall is_u64 (pp_moduli m) ->
  match pp_plain m with Some (PpU64 v) => is_u64 v | Some (PpBig l) => Forall (fun x => 0 <= x < 256) l | None => True end ->
  rel_params_from_proto isp cands id m = params_from_proto isp cands id m /\ params_from_proto isp cands id m <> Panic.
Proof.
  intros isp cands Ho Hd id m H1 H2 H3 H4.
  assert (N : params_from_proto isp cands id m <> Panic).
  { assert (B : forall t, 0 <= t -> build isp cands id (mkBuilder (pp_degree m) t (pp_variance m) (pp_moduli m) []) <> Panic).
    { intros t Ht. destruct (build_total_all isp cands Ho Hd id (mkBuilder (pp_degree m) t (pp_variance m) (pp_moduli m) [])) as [(p & ->)|(e & -> & _)]; try discriminate.
      unfold is_builder. cbn [b_degree b_plaintext b_variance b_moduli b_sizes]. auto. }
    unfold params_from_proto. destruct (pp_plain m) as [[v|l]|]; cbn [bind]; [apply B, H4|apply B|discriminate].
    clear - H4. induction H4 as [|x l Hx H IH]; cbn [big_from_bytes]; lia. }
  split; [|exact N]. exact (ag_from_proto isp cands Ho id m H1 H2 H3 H4 N).
Qed.
Lemma rel_default_all : forall isp cands, oracles isp cands -> complete_draws cands -> forall ids nb, 0 <= nb ->
  (1 <= nb <= 63 -> rel_default_parameters_128 isp (rel_build isp cands) ids nb = default_parameters_128 isp cands ids nb) /\
  (nb = 0 \/ 64 <= nb -> rel_default_parameters_128 isp (rel_build isp cands) ids nb = Err (ParNoDefault nb)).
Proof.
  intros isp cands Ho Hd ids nb H0. split.
  - intros Hn. apply (ag_default isp cands Ho ids nb Hn).
    destruct (default_all isp cands Ho Hd ids nb Hn) as (ps & _ & ->). destruct ps; discriminate.
  - intros H. apply default_out. lia.
Qed.
Lemma rel_context_draws_all : forall isp cands, oracles isp cands -> forall (k : nat) moduli, (3 <= k <= 62)%nat -> moduli <> [] -> NoDup moduli -> Forall (ntt_prime (2 ^ Z.of_nat k)) moduli ->
  (exists p, In p moduli /\ forall a, In a (cands p) -> a ^ ((p - 1) / 2) mod p <> p - 1) ->
  context_new isp cands moduli (2 ^ k) = Panic /\
  exists p, In p moduli /\ (forall a, In a (cands p) -> a ^ ((p - 1) / 2) mod p <> p - 1) /\
    rel_context_new isp cands moduli (2 ^ k) = Err (NttOperatorUnavailable p (2 ^ Z.of_nat k)).
Proof.
  intros isp cands Ho k moduli Hk Hne Hnd HF (p & Hp & Hno).
  assert (D : forall q, In q moduli -> ((forall a, In a (cands q) -> a ^ ((q - 1) / 2) mod q <> q - 1) <-> ~ has_nonresidue q (cands q))).
  { intros q Hq. rewrite Forall_forall in HF. destruct (HF q Hq) as (P & _). apply prime_ge_2 in P. assert (E : (-1) mod q = q - 1) by (symmetry; apply (Z.mod_unique _ _ (-1)); lia).
    unfold has_nonresidue, cong. rewrite E. split; [intros H (c & Hc & Ec); exact (H c Hc Ec)|intros H a Ha Ea; apply H; exists a; auto]. }
  destruct (context_no_draw isp cands Ho k moduli) as (E1 & p' & H1 & H2 & E2); [lia|exact Hne|exact Hnd| |exists p; split; [exact Hp|apply D; assumption]|].
  - eapply Forall_impl; [|exact HF]. cbv beta. intros q (P & L & Hm). split; [exact P|]. split; [exact L|]. rewrite nat_pow2_Z. exact Hm.
  - split; [exact E1|]. exists p'. split; [exact H1|]. split; [apply D; assumption|]. rewrite <- nat_pow2_Z. exact E2.
Qed.
