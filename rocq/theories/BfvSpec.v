(** Specification vocabulary for BFV parameters, independent of the model's helpers. *)
From Verif Require Import Outcome BasicSpec PolySpec ZqModel NttModel RnsSpec RqModel RqSpec ParamsModel.
From Coq Require Import Znumtheory.

(** The power of the 2N-th root of unity at which slot [i] of the N slots is the value of the plaintext polynomial:
    powers of 3 for the first row, their inverses for the second. *)
Definition slot_exponent (n i : nat) : Z :=
  if Nat.ltb i (n / 2) then 3 ^ Z.of_nat i mod (2 * Z.of_nat n)
  else (- 3 ^ Z.of_nat (i - n / 2)) mod (2 * Z.of_nat n).

(** Builders whose fields have the Rust types. *)
Definition is_builder (b : builder) : Prop :=
  is_u64 (b_degree b) /\ 0 <= b_plaintext b /\ is_u64 (b_variance b) /\ Forall is_u64 (b_moduli b) /\ Forall is_u64 (b_sizes b).
(** A parameter set is a value returned by [build]. *)
Definition is_params (isp : Z -> bool) (cands : Z -> list Z) (par : params) : Prop :=
  exists id b, is_builder b /\ build isp cands id b = Val par.
(** The random draws of the search for a root of unity contain a quadratic non-residue for every odd prime. *)
Definition complete_draws (cands : Z -> list Z) : Prop :=
  forall p, prime p -> 2 < p < 2 ^ 62 -> exists a, In a (cands p) /\ a ^ ((p - 1) / 2) mod p = p - 1.
(** Primes usable as ciphertext moduli for degree [n]. *)
Definition ntt_prime (n q : Z) : Prop := prime q /\ q < 2 ^ 62 /\ q mod (2 * n) = 1.
(** The moduli of level [l]. *)
Definition level_moduli (moduli : list Z) (l : nat) : list Z := firstn (length moduli - l) moduli.

(** What a list of ciphertext moduli must satisfy, and what each error says about it. *)
Definition moduli_accepted (n t : Z) (moduli : list Z) : Prop :=
  NoDup moduli /\ Forall (ntt_prime n) moduli /\ t < prod_list moduli /\ Forall (fun q => Z.gcd t q = 1) moduli.
Definition moduli_rejected (n t : Z) (moduli : list Z) (e : error) : Prop :=
  match e with
  | ParInvalidCiphertextModulus i q => In q moduli /\ nth (Z.to_nat i) moduli 0 = q /\ ~ 2 <= q < 2 ^ 62
  | ParDuplicateModuli => ~ NoDup moduli
  | ParModuliNotCoprime a b g => In a moduli /\ In b moduli /\ a <> b /\ g = Z.gcd a b /\ g <> 1
  | ParCiphertextNotNttFriendly i q d => In q moduli /\ nth (Z.to_nat i) moduli 0 = q /\ d = n /\ ~ (prime q /\ q mod (2 * n) = 1)
  | ParPlaintextTooLarge => prod_list moduli <= t
  | ParPlaintextNotCoprime t' q i g => t' = t /\ In q moduli /\ nth (Z.to_nat i) moduli 0 = q /\ g = Z.gcd t q /\ g <> 1
  | _ => False
  end.
(** There are fewer than [k] primes of [s] bits for degree [n] outside [used]. *)
Definition too_few (n s : Z) (used : list Z) (k : nat) : Prop :=
  forall l, NoDup l -> Forall (fun q => ntt_prime n q /\ 2 ^ (s - 1) <= q < 2 ^ s /\ ~ In q used) l -> (length l < k)%nat.
Definition builder_rejected (b : builder) (e : error) : Prop :=
  match e with
  | ParInvalidDegree d => d = b_degree b /\ ~ (exists k, 3 <= k <= 16 /\ d = 2 ^ k)
  | ParInvalidVariance v => v = b_variance b /\ ~ 1 <= v <= 32
  | ParConflicting => b_moduli b <> [] /\ b_sizes b <> []
  | ParMissing => b_moduli b = [] /\ b_sizes b = []
  | ParInvalidPlaintextModulus => b_plaintext b < 2 \/ 2 ^ 62 <= b_plaintext b < 2 ^ 64
  | ParInvalidModulusSize i s => In s (b_sizes b) /\ nth (Z.to_nat i) (b_sizes b) 0 = s /\ ~ 10 <= s <= 62
  | ParNotEnoughPrimes s n => n = b_degree b /\
      ((In s (b_sizes b) /\ too_few n s [] (count_occ Z.eq_dec (b_sizes b) s)) \/
       (s = 62 /\ exists moduli, (b_sizes b = [] -> moduli = b_moduli b) /\ too_few n 62 moduli (S (length moduli))))
  | _ => exists moduli, (b_sizes b = [] -> moduli = b_moduli b) /\ moduli_rejected (b_degree b) (b_plaintext b) moduli e
  end.
