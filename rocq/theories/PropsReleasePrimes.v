(** Property C67: the release build of the generation of primes, of moduli and of default parameters.

    [rel_*]: the release build (ReleasePrimesModel.v); without the prefix: the debug build (PrimesModel.v, ParamsModel.v, DefaultModel.v).
    [wanted nb modulo ub p]: [p] is a prime of [nb] bits below [ub], congruent to 1 modulo [modulo]; [isp] is the primality test. *)
From Verif Require Import Outcome BasicSpec PrimesModel ParamsModel DefaultModel ReleaseModel ReleasePrimesModel ReleasePrimesPropLemmas NumTheory ExampleParams.
(** C67: every pair of words.  Both builds differ only for upper bounds that are zero or above 2^nb: there the debug build panics and the release build finds no prime. *)
Theorem C67_cases : forall isp nb modulo ub, is_u64 modulo -> is_u64 ub ->
  (~ 10 <= nb <= 62 -> rel_generate_prime isp nb modulo ub = Val None /\ generate_prime isp nb modulo ub = Val None) /\
  (10 <= nb <= 62 -> modulo = 0 -> rel_generate_prime isp nb modulo ub = Panic /\ generate_prime isp nb modulo ub = Panic) /\
  (10 <= nb <= 62 -> 1 <= ub <= 2 ^ nb -> rel_generate_prime isp nb modulo ub = generate_prime isp nb modulo ub) /\
  (10 <= nb <= 62 -> modulo <> 0 -> ub = 0 \/ 2 ^ nb < ub -> rel_generate_prime isp nb modulo ub = Val None /\ generate_prime isp nb modulo ub = Panic).
Proof. exact rel_primes_all. Qed.
Print Assumptions C67_cases.
(** C67: with a correct primality test the release build always returns: the largest prime wanted if it returns one; if it returns none, there is none or the upper bound is above 2^nb. *)
Theorem C67_largest : forall isp, prime_oracle isp -> forall nb modulo ub, 10 <= nb <= 62 -> 2 <= modulo < 2 ^ 64 -> is_u64 ub ->
  exists o, rel_generate_prime isp nb modulo ub = Val o /\
    match o with
    | Some p => wanted nb modulo ub p /\ forall x, wanted nb modulo ub x -> x <= p
    | None => 2 ^ nb < ub \/ forall x, ~ wanted nb modulo ub x
    end.
Proof. exact rel_primes_largest_all. Qed.
Print Assumptions C67_largest.
(** C67: the moduli generated from sizes, and the extended basis, are the same in both builds, errors included. *)
Theorem C67_moduli : forall isp degree, 0 <= degree < 2 ^ 63 ->
  (forall sizes, rel_generate_moduli isp sizes degree = generate_moduli isp sizes degree) /\ (forall moduli, rel_extended_basis isp degree moduli = extended_basis isp degree moduli).
Proof. exact rel_primes_moduli_all. Qed.
Print Assumptions C67_moduli.
(** C67: the default parameters are the same in both builds for 1 to 63 bits, the building of the parameters being the same; for 0 bits and for 64 or more, where the debug build panics, the release build returns the error that there are none. *)
Theorem C67_default : forall isp cands ids nb, 0 <= nb ->
  (1 <= nb <= 63 -> rel_default_parameters_128 isp (build isp cands) ids nb = default_parameters_128 isp cands ids nb) /\
  (nb = 0 \/ 64 <= nb -> default_parameters_128 isp cands ids nb = Panic /\ forall bld, rel_default_parameters_128 isp bld ids nb = Err (ParNoDefault nb)).
Proof. exact rel_primes_default_all. Qed.
Print Assumptions C67_default.
(** A primality test for numbers below 1024. *)
Definition isp_small (n : Z) : bool := (1 <? n) && forallb (fun k => negb (n mod k =? 0) || (n =? k)) (map Z.of_nat (seq 2 30)).
(** The hypotheses hold; a prime wanted exists below 1025, but the release build does not find it and the debug build panics. *)
Example C67_ex : prime_oracle isp_bfv /\ rel_generate_prime isp_small 10 16 1024 = Val (Some 1009) /\ generate_prime isp_small 10 16 1024 = Val (Some 1009) /\
  rel_generate_prime isp_small 10 16 1025 = Val None /\ generate_prime isp_small 10 16 1025 = Panic /\
  rel_generate_prime isp_small 10 16 0 = Val None /\ generate_prime isp_small 10 16 0 = Panic /\
  rel_generate_prime isp_small 10 0 1024 = Panic /\ rel_generate_prime isp_small 9 16 512 = Val None /\
  rel_generate_moduli isp_small [10; 10; 10] 8 = Val [1009; 977; 929] /\ rel_generate_moduli isp_small [10; 63] 8 = Err (ParInvalidModulusSize 1 63) /\
  rel_generate_moduli isp_small [10] 512 = Err (ParNotEnoughPrimes 10 512) /\
  rel_default_parameters_128 isp_small (build isp_small (fun _ => [])) (fun _ => 0) 64 = Err (ParNoDefault 64).
Proof. split; [exact isp_bfv_ok|]. repeat (split; [vm_compute; reflexivity|]). vm_compute. reflexivity. Qed.
