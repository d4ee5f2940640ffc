(** Property C58: what the functions that make keys return, for all arguments.

    [request], [send], [send_all]: a caller of the builder of evaluation keys that goes on after errors; [refusal]: the requests
    to refuse; [wanted]: the automorphisms that a sequence of requests asks for.  [some_crp], [top_crp]: common random
    polynomials of any level, and of the first one; [pk_share_made], [generator], [round1_made], [round1_total], [round2_made],
    [pksw_made]: whatever the members can have made (KeygenSpec.v).  [some_ct par l n]: ciphertexts of level l with n parts;
    [key_shape], [ek_shape], [pk_shape], [base_fits], [ek_fits]: WireSpec.v, for which no operation panics (C46). *)
From Verif Require Import Outcome BasicSpec PolySpec CbdModel CbdSpec RqModel RqSpec ParamsModel BfvSpec PlainModel CipherModel SchemeSpec CipherSpec KeysModel KeysSpec EvalSpec MbfvModel WireSpec ExampleParams CipherExamples KeyExamples KeygenSpec KeygenPropLemmas KeygenExamples.
(** C58: what [RelinearizationKey::new_leveled] returns for any two levels. *)
Theorem C58_relin : forall isp cands par, oracles isp cands -> is_params isp cands par -> supported par -> forall expand derive, expands_well expand -> forall sk, is_sk par sk -> forall l1 l2 sd rngs, length sd = 32%nat -> (forall i, words (rngs i)) ->
  ((max_level par < l2)%nat -> relin_new expand derive sk l1 l2 sd rngs = Err (InvalidLevel (Z.of_nat l2) 0 (Z.of_nat (max_level par)))) /\
  ((l2 <= max_level par)%nat -> (max_level par < l1)%nat -> relin_new expand derive sk l1 l2 sd rngs = Err (InvalidLevel (Z.of_nat l1) 0 (Z.of_nat (max_level par)))) /\
  ((l1 <= max_level par)%nat -> l2 = max_level par -> relin_new expand derive sk l1 l2 sd rngs = Err KeySwitchingNotSupported) /\
  ((l1 <= max_level par)%nat -> (l2 < max_level par)%nat -> exists k, relin_new expand derive sk l1 l2 sd rngs = Val k /\ key_shape par l1 l2 k /\ base_fits k).
Proof. exact relin_outcomes_all. Qed.
Print Assumptions C58_relin.
(** The outcomes of fourteen calls (0: a value; 1: an error; 2: a panic). *)
Example C58_relin_ex : keygen_ex = Val [0; 0; 1; 1; 1; 0; 1; 0; 1; 2; 0; 1; 2; 0].
Proof. exact keygen_run_ex. Qed.
Print Assumptions C58_relin_ex.
(** C58: a builder after any sequence of requests, refused ones included: what it answers to the next one, and what the key holds. *)
Theorem C58_builder : forall isp cands par, oracles isp cands -> is_params isp cands par -> forall expand derive, expands_well expand -> forall sk, is_sk par sk -> forall l1 l2, (l1 <= max_level par)%nat -> (l2 <= l1)%nat ->
  exists b0, ekb_new_leveled sk l1 l2 = Val b0 /\ forall rs,
  (forall r, match refusal (pa_degree par) r with Some e => send (send_all b0 rs) r = Err e | None => exists b', send (send_all b0 rs) r = Val b' end) /\
  forall sds rngs, (forall e, length (sds e) = 32%nat) -> (forall e i, words (rngs e i)) -> exists ek, ek_build expand derive (send_all b0 rs) sds rngs = Val ek /\ ek_shape par l1 ek /\ ek_fits ek /\ ek_level ek = l2 /\ forall e, lookup (ek_gk ek) e <> None <-> wanted (pa_degree par) rs e.
Proof. exact builder_all. Qed.
Print Assumptions C58_builder.
(** The hypotheses of the theorems hold together. *)
Example C58_builder_ex : exists par, is_params isp_bfv cands_bfv par /\ supported par /\ expands_well expand_ex /\ max_level par = 1%nat /\ length (pa_moduli par) = 2%nat /\ length sd_ex = 32%nat /\ words rng_ex /\ (forall i, words (rngs_ex i)) /\
  exists sk, is_sk par sk /\ (exists pt m, is_pt par 0 pt m) /\
  (exists crp low, top_crp par crp /\ some_crp par low /\ ~ top_crp par low /\ (exists s, pks_crp s = crp /\ pk_share_made par s) /\
     (exists g, gen_crp g = [crp; low] /\ generator par g) /\ (exists g, gen_crp g = [crp; crp] /\ generator par g)) /\
  (exists s, round1_made par s) /\ (exists tot, round1_total par tot) /\ (exists s, round2_made par s) /\ (exists s s', pksw_made par 0 s /\ pksw_made par 1 s').
Proof. exact keygen_hypotheses_ex. Qed.
Print Assumptions C58_builder_ex.
(** C58: an expansion asked for is lost if level 0 is asked for afterwards. *)
Theorem C58_expansion_lost : forall isp cands par, oracles isp cands -> is_params isp cands par -> forall expand derive, expands_well expand -> forall sk, is_sk par sk -> forall l1 l2, (l1 <= max_level par)%nat -> (l2 <= l1)%nat -> forall b0, ekb_new_leveled sk l1 l2 = Val b0 ->
  forall L b1 b2, enable_expansion b0 L = Val b1 -> enable_expansion b1 0 = Val b2 -> forall sds rngs, (forall e, length (sds e) = 32%nat) -> (forall e i, words (rngs e i)) ->
  exists ek, ek_build expand derive b2 sds rngs = Val ek /\ forall e, lookup (ek_gk ek) e = None.
Proof. exact expansion_lost_all. Qed.
Print Assumptions C58_expansion_lost.
(** The automorphisms held before and after the second request. *)
Example C58_expansion_lost_ex : lost_ex = Val (2, 0).
Proof. exact lost_run_ex. Qed.
Print Assumptions C58_expansion_lost_ex.
(** C58: every plaintext of the parameters has an RGSW encryption; multiplying by it panics on all ciphertexts but those of two parts at its level. *)
Theorem C58_rgsw : forall isp cands par, oracles isp cands -> is_params isp cands par -> forall expand derive, expands_well expand -> forall sk, is_sk par sk -> forall l pt m, (l <= max_level par)%nat -> is_pt par l pt m -> forall sd0 sd1 rngs0 rngs1, length sd0 = 32%nat -> length sd1 = 32%nat -> (forall i, words (rngs0 i)) -> (forall i, words (rngs1 i)) ->
  exists r, rgsw_encrypt expand derive sk pt sd0 sd1 rngs0 rngs1 = Val r /\ forall l' n ct, (l' <= max_level par)%nat -> some_ct par l' n ct ->
    if ((l' =? l) && (n =? 2))%nat then exists ct', ct_mul_rgsw ct r = Val ct' /\ rgsw_mul_ct r ct = Val ct' /\ some_ct par l 2 ct' else ct_mul_rgsw ct r = Panic /\ rgsw_mul_ct r ct = Panic.
Proof. exact rgsw_outcomes_all. Qed.
Print Assumptions C58_rgsw.
(** C58: a share of a public key is made if the common random polynomial is of the first level; otherwise this panics. *)
Theorem C58_pk_share : forall isp cands par, oracles isp cands -> is_params isp cands par -> forall sk crp rng, is_sk par sk -> some_crp par crp -> words rng ->
  (top_crp par crp -> exists s, pk_share_new sk crp rng = Val s /\ pks_crp s = crp) /\ (~ top_crp par crp -> pk_share_new sk crp rng = Panic).
Proof. exact pk_share_outcomes_all. Qed.
Print Assumptions C58_pk_share.
(** C58: all shares that can be made are summed, whichever polynomials they were made with; the key has that of the first share. *)
Theorem C58_pk_sum : forall isp cands par, oracles isp cands -> is_params isp cands par -> forall s shares, Forall (pk_share_made par) (s :: shares) ->
  exists pk, pk_from_shares (s :: shares) = Val pk /\ pk_shape par pk /\ nth_error (ct_c (pk_c pk)) 1 = Some (pks_crp s).
Proof. exact pk_sum_outcomes_all. Qed.
Print Assumptions C58_pk_sum.
(** C58: what the generator of shares of relinearization keys accepts; the levels of the polynomials are not looked at. *)
Theorem C58_generator : forall isp cands par, oracles isp cands -> is_params isp cands par -> forall sk crps rng, is_sk par sk -> Forall (some_crp par) crps -> words rng ->
  (length (pa_moduli par) = 1%nat -> gen_new sk crps rng = Err KeySwitchingNotSupported) /\
  (length (pa_moduli par) <> 1%nat -> length crps <> length (pa_moduli par) -> gen_new sk crps rng = Err (InvalidCrpCount (Z.of_nat (length crps)) (Z.of_nat (length (pa_moduli par))))) /\
  (length (pa_moduli par) <> 1%nat -> length crps = length (pa_moduli par) -> exists g, gen_new sk crps rng = Val g /\ gen_sk g = sk /\ gen_crp g = crps).
Proof. exact generator_outcomes_all. Qed.
Print Assumptions C58_generator.
(** C58: the first round panics if one of them is not of the first level. *)
Theorem C58_round1 : forall isp cands par, oracles isp cands -> is_params isp cands par -> forall g r0 r1, generator par g -> (forall i, words (r0 i)) -> (forall i, words (r1 i)) ->
  (Forall (top_crp par) (gen_crp g) -> exists s, gen_round1 g r0 r1 = Val s) /\ (~ Forall (top_crp par) (gen_crp g) -> gen_round1 g r0 r1 = Panic).
Proof. exact round1_outcomes_all. Qed.
Print Assumptions C58_round1.
(** C58: the rest of the protocol never fails, even if the members use different polynomials or different sums of the first round. *)
Theorem C58_round2 : forall isp cands par, oracles isp cands -> is_params isp cands par -> (forall s shares, Forall (round1_made par) (s :: shares) -> exists tot, r1_from_shares (s :: shares) = Val tot) /\
  forall g tot r0 r1, generator par g -> round1_total par tot -> (forall i, words (r0 i)) -> (forall i, words (r1 i)) -> exists s, gen_round2 g tot r0 r1 = Val s /\ rks2_last s = Some tot.
Proof. exact round2_outcomes_all. Qed.
Print Assumptions C58_round2.
(** C58: nor does the last sum, and its keys relinearize three-part ciphertexts of the first level; all others are refused with an error. *)
Theorem C58_relin_sum : forall isp cands par, oracles isp cands -> is_params isp cands par -> forall s shares, Forall (round2_made par) (s :: shares) ->
  exists k, relin_from_shares (s :: shares) = Val k /\ k_par k = par /\ k_ct_level k = 0%nat /\ k_level k = 0%nat /\ forall l n ct, (l <= max_level par)%nat -> some_ct par l n ct ->
    if ((l =? 0) && (n =? 3))%nat then exists ct', relinearizes k ct = Val ct' /\ some_ct par 0 2 ct' else exists e, relinearizes k ct = Err e.
Proof. exact relin_sum_outcomes_all. Qed.
Print Assumptions C58_relin_sum.
(** C58: shares of a switching to a public key are summed if all are of one level; otherwise this panics. *)
Theorem C58_pksw_sum : forall isp cands par, oracles isp cands -> is_params isp cands par -> forall l s ls shares, pksw_made par l s -> Forall2 (pksw_made par) ls shares ->
  (Forall (eq l) ls -> exists ct, pksw_from_shares (s :: shares) = Val ct /\ some_ct par l 2 ct) /\ (~ Forall (eq l) ls -> pksw_from_shares (s :: shares) = Panic).
Proof. exact pksw_sum_outcomes_all. Qed.
Print Assumptions C58_pksw_sum.
