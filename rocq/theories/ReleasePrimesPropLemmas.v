(** Statements about the release build of the generation of primes and moduli. *)
From Verif Require Import Outcome BasicSpec OutcomeLemmas PrimesModel PrimesProofs ParamsModel DefaultModel DefaultSpec DefaultPropLemmas ReleaseModel ReleasePrimesModel ReleasePrimesProofs ZqPow NumTheory.

Lemma rel_primes_all : forall isp nb modulo ub, is_u64 modulo -> is_u64 ub ->
  (~ 10 <= nb <= 62 -> rel_generate_prime isp nb modulo ub = Val None /\ generate_prime isp nb modulo ub = Val None) /\
  (10 <= nb <= 62 -> modulo = 0 -> rel_generate_prime isp nb modulo ub = Panic /\ generate_prime isp nb modulo ub = Panic) /\
  (10 <= nb <= 62 -> 1 <= ub <= 2 ^ nb -> rel_generate_prime isp nb modulo ub = generate_prime isp nb modulo ub) /\
  (10 <= nb <= 62 -> modulo <> 0 -> ub = 0 \/ 2 ^ nb < ub -> rel_generate_prime isp nb modulo ub = Val None /\ generate_prime isp nb modulo ub = Panic).
Proof.
  intros isp nb modulo ub Hm Hu. split; [|split; [|split]].
  - intros H. split; [|apply generate_prime_range, H]. unfold rel_generate_prime. destruct (Z.leb_spec 10 nb); [|reflexivity]. destruct (Z.leb_spec nb 62); [lia|reflexivity].
  - intros H ->. split; [|apply prime_panic; [exact H|left; reflexivity]]. unfold rel_generate_prime. destruct (Z.leb_spec 10 nb); [|lia]. destruct (Z.leb_spec nb 62); [|lia]. cbn [andb negb]. change (negb (0 =? 0)) with false. cbn [guard bind]. reflexivity.
  - intros H H1. apply rel_prime_ok; assumption.
  - intros H H1 H2. split; [apply rel_prime_none; try assumption; lia|apply prime_panic; [exact H|right; lia]].
Qed.
Lemma rel_primes_largest_all : forall isp, prime_oracle isp -> forall nb modulo ub, 10 <= nb <= 62 -> 2 <= modulo < 2 ^ 64 -> is_u64 ub ->
  exists o, rel_generate_prime isp nb modulo ub = Val o /\
    match o with
    | Some p => wanted nb modulo ub p /\ forall x, wanted nb modulo ub x -> x <= p
    | None => 2 ^ nb < ub \/ forall x, ~ wanted nb modulo ub x
    end.
Proof.
  intros isp Ho nb modulo ub Hn Hm Hu. change (2 ^ 64) with W64 in Hm. destruct (Z_lt_le_dec (2 ^ nb) ub) as [L|L].
  - exists None. split; [apply rel_prime_none; try assumption; lia|left; exact L].
  - destruct (Z.eq_dec ub 0) as [->|N].
    + exists None. split; [apply rel_prime_none; try assumption; lia|right]. intros x W. unfold wanted in W. assert (0 < 2 ^ (nb - 1)) by (apply Z.pow_pos_nonneg; lia). lia.
    + assert (1 <= ub) by (unfold is_u64 in Hu; lia). rewrite rel_prime_ok by (try assumption; unfold is_u64; lia).
      destruct (generate_prime_spec isp nb modulo ub Ho Hn Hm ltac:(lia)) as [(p & E & W & B)|(E & B)]; [exists (Some p)|exists None]; (split; [exact E|]); [split; assumption|right; exact B].
Qed.
Lemma rel_primes_moduli_all : forall isp degree, 0 <= degree < 2 ^ 63 ->
  (forall sizes, rel_generate_moduli isp sizes degree = generate_moduli isp sizes degree) /\ (forall moduli, rel_extended_basis isp degree moduli = extended_basis isp degree moduli).
Proof. intros isp degree Hd. split; [intros; apply moduli_eq, Hd|]. intros moduli. apply basis_eq; [exact Hd|vm_compute; split; congruence]. Qed.
Lemma rel_primes_default_all : forall isp cands ids nb, 0 <= nb ->
  (1 <= nb <= 63 -> rel_default_parameters_128 isp (build isp cands) ids nb = default_parameters_128 isp cands ids nb) /\
  (nb = 0 \/ 64 <= nb -> default_parameters_128 isp cands ids nb = Panic /\ forall bld, rel_default_parameters_128 isp bld ids nb = Err (ParNoDefault nb)).
Proof.
  intros isp cands ids nb H0. split; [apply default_eq|]. intros H. split; [apply default_panics_all, H|]. intros bld. apply default_out. lia.
Qed.
