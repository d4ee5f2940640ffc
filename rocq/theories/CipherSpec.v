(** Specification vocabulary for ciphertexts, independent of the model's helpers. *)
From Verif Require Import Outcome BasicSpec PolySpec ZqModel NttModel RnsSpec RqModel RqSpec ParamsModel BfvSpec PlainModel CipherModel SchemeSpec.

(** The phase c0 + c1*s + c2*s^2 + .. of a list of integer polynomials, in Z[X]/(X^n+1). *)
Fixpoint phase (n : nat) (s : list Z) (parts : list (list Z)) : list Z :=
  match parts with
  | [] => repeat 0 n
  | x :: r => zipWith Z.add x (negacyclic n s (phase n s r))
  end.
(** Sums and differences, part by part. *)
Definition add_parts (xs ys : list (list Z)) : list (list Z) := map (fun p => zipWith Z.add (fst p) (snd p)) (combine xs ys).
Definition sub_parts (xs ys : list (list Z)) : list (list Z) := map (fun p => zipWith Z.sub (fst p) (snd p)) (combine xs ys).
(** The message [m] scaled to the modulus [Q]. *)
Definition scaled (Q t : Z) (m : list Z) : list Z := map (fun a => Q * a / t) m.
Definition bounded_by (B : Z) (e : list Z) : Prop := Forall (fun a => Z.abs a <= B) e.
Definition norm1 (s : list Z) : Z := fold_right (fun a m => Z.abs a + m) 0 s.

(** The ciphertext [ct] of level [l] carries the integer polynomials [parts]. *)
Definition is_ct (par : params) (l : nat) (ct : ciphertext) (parts : list (list Z)) : Prop :=
  ct_par ct = par /\ ct_level ct = l /\ Forall2 (fun p x => par_context par l = Val (p_ctx p) /\ represents p x) (ct_c ct) parts.
(** Secret keys: N coefficients, each an i64. *)
Definition is_sk (par : params) (sk : secret_key) : Prop :=
  sk_par sk = par /\ length (sk_coeffs sk) = pa_degree par /\ Forall is_i64 (sk_coeffs sk).
(** [ct] encrypts [m] (modulo t) under [sk], with noise at most [B]. *)
Definition encrypts (par : params) (sk : secret_key) (l : nat) (ct : ciphertext) (m : list Z) (B : Z) : Prop :=
  exists parts e, is_ct par l ct parts /\ (2 <= length parts)%nat /\
    length m = pa_degree par /\ length e = pa_degree par /\ bounded_by B e /\
    congruent (level_modulus par l) (phase (pa_degree par) (sk_coeffs sk) parts) (zipWith Z.add (scaled (level_modulus par l) (pa_t par) m) e).

(** Parameter sets on which the fixed-point arithmetic of the scalers is exact enough: at most 2^20 moduli, of sum
    below 2^65 (8 moduli of 62 bits qualify). *)
Definition supported (par : params) : Prop := sum_of (pa_moduli par) < 2 ^ 65 /\ Z.of_nat (length (pa_moduli par)) <= 2 ^ 20.
(** Decryption works modulo the first modulus when t has 64 bits at most, modulo the product of the fewest moduli that
    are longer than t otherwise; that modulus must exceed 3t/2 by a small margin. *)
Definition decryption_base (par : params) : Z :=
  if pa_t par <? 2 ^ 64 then hd 0 (pa_moduli par)
  else prod_list (firstn (plaintext_moduli_count (pa_moduli par) (pa_sizes par) (pa_t par)) (pa_moduli par)).
Definition decryptable (par : params) : Prop := 3 * pa_t par + pa_t par / 2 ^ 40 + 4 <= 2 * decryption_base par.
(** A noise [B] is small enough at level [l]: B + 1 <= (1 - 2^-60) * Q / (2t). *)
Definition small_noise (par : params) (l : nat) (B : Z) : Prop :=
  2 ^ 60 * (2 * pa_t par * (B + 1)) <= (2 ^ 60 - 1) * level_modulus par l.

(** [n] bits hold every coefficient of [e] in absolute value, and fewer would not. *)
Definition noise_bits (e : list Z) (n : Z) : Prop :=
  0 <= n /\ bounded_by (2 ^ n - 1) e /\ (n = 0 \/ exists a, In a e /\ 2 ^ (n - 1) <= Z.abs a).

(** The expansion of seeds gives one canonical vector per modulus. *)
Definition expands_well (expand : expander) : Prop :=
  forall sd moduli n, Forall (fun q => 0 < q) moduli -> Forall2 (fun q r => length r = n /\ canonical q r) moduli (expand sd moduli n).
(** Streams of 64-bit words. *)
Definition words (rng : nat -> Z) : Prop := forall k, is_u64 (rng k).

(** The noise after dividing a ciphertext of [n] parts by [q], when the key has 1-norm [S]: B/q + 1 + (1 + S + .. + S^(n-1))/2. *)
Fixpoint geometric (S : Z) (n : nat) : Z := match n with O => 0 | Datatypes.S n' => 1 + S * geometric S n' end.
Definition switched_noise (S : Z) (n : nat) (q B : Z) : Z := (2 * B + q * (2 + geometric S n)) / (2 * q).
(** The moduli dropped when going from level [l] to level [l + k], and the noise afterwards. *)
Fixpoint dropped (moduli : list Z) (l k : nat) : list Z :=
  match k with O => [] | Datatypes.S k' => nth (length moduli - 1 - l) moduli 0 :: dropped moduli (Datatypes.S l) k' end.
Definition dropped_noise (S : Z) (n : nat) (qs : list Z) (B : Z) : Z := fold_left (fun B q => switched_noise S n q B) qs B.

(** Public keys: a two-part encryption of zero. *)
Definition is_pk (par : params) (sk : secret_key) (l : nat) (pk : public_key) (B : Z) : Prop :=
  pk_par pk = par /\ length (ct_c (pk_c pk)) = 2%nat /\ encrypts par sk l (pk_c pk) (repeat 0 (pa_degree par)) B.
(** The noise of a public-key encryption: N * 2v * B + 2v + S * 2v for a variance [v] and a key of 1-norm [S]. *)
Definition pk_noise (par : params) (S B : Z) : Z :=
  Z.of_nat (pa_degree par) * (2 * pa_variance par) * B + 2 * pa_variance par + S * (2 * pa_variance par).
(** Values that fit are recovered when [sk] decrypts what [enc] encrypts at level [l], for the encoders of unsigned, big
    and signed values and every encoding. *)
Definition roundtrips (par : params) (l : nat) (enc : plaintext -> M ciphertext) (sk : secret_key) : Prop :=
  forall e v, e_level e = l -> usable par e -> (length v <= pa_degree par)%nat ->
  (Forall (fun a => 0 <= a < pa_t par) v -> Forall is_u64 v -> forall vt, exists pt ct pt', encode_u64 vt v e par = Val pt /\ enc pt = Val ct /\ sk_decrypt sk ct = Val pt' /\ decode_u64 pt' (Some e) = Val (pad (pa_degree par) v)) /\
  (Forall (fun a => 0 <= a < pa_t par) v -> exists pt ct pt', encode_big v e par = Val pt /\ enc pt = Val ct /\ sk_decrypt sk ct = Val pt' /\ decode_big pt' (Some e) = Val (pad (pa_degree par) v)) /\
  (Forall is_i64 v -> exists pt ct pt', encode_i64 v e par = Val pt /\ enc pt = Val ct /\ sk_decrypt sk ct = Val pt' /\ decode_i64 pt' (Some e) = Val (pad (pa_degree par) (map (signed (pa_t par)) v))).
(** The sum of the products of ciphertexts by plaintexts, part by part, for ciphertexts of [k] parts. *)
Definition dot_parts (n k : nat) (terms : list (list (list Z) * list Z)) : list (list Z) :=
  fold_left (fun acc z => add_parts acc (map (fun x => negacyclic n x (snd z)) (fst z))) terms (repeat (repeat 0 n) k).
(** The noise of a dot product: the sum of n1 * (B + 1) + 1 over plaintexts of 1-norm n1 and ciphertexts of noise B. *)
Definition dot_noise (ns : list (list Z * Z)) : Z := fold_right (fun nb acc => norm1 (fst nb) * (snd nb + 1) + 1 + acc) 0 ns.
(** When a ciphertext carries a seed, its last part is the expansion of that seed. *)
Definition seed_faithful (expand : expander) (ct : ciphertext) : Prop :=
  forall sd, ct_seed ct = Some sd -> length sd = 32%nat /\
    exists front last c, ct_c ct = front ++ [last] /\ par_context (ct_par ct) (ct_level ct) = Val c /\ p_coeffs last = expand sd (c_moduli c) (c_degree c).
(** The same ciphertext, the variable-time flags of its parts being set. *)
Definition with_vt (ct : ciphertext) : ciphertext :=
  mkCt (ct_par ct) (ct_seed ct) (map (fun p => mkPoly (p_ctx p) (p_lazy p) true (p_coeffs p) (p_shoup p)) (ct_c ct)) (ct_level ct).
(** The sizes that fit in a serialized polynomial. *)
Definition serializable (par : params) : Prop := Z.of_nat (pa_degree par) < 2 ^ 32 /\ Z.of_nat (length (pa_moduli par)) < 2 ^ 29.

(** Products.  [extra_primes l] is the number of 62-bit primes added to moduli of product Q to multiply: enough for 60 bits
    more than the bit sizes of the moduli. *)
Definition extra_primes (moduli : list Z) : Z := (sum_of (map nbits moduli) + 121) / 62.
(** The parts of a product of a ciphertext of [n] parts fit in the extended basis. *)
Definition mul_room (par : params) (l n : nat) : Prop :=
  Z.of_nat n * Z.of_nat (pa_degree par) * 2 ^ extra_primes (level_moduli (pa_moduli par) l) <= 2 ^ 59.
(** [y] lifts [x] modulo [Q] to nearly centered coefficients: |y| <= Q * (1 + 2^-44) / 2. *)
Definition lifts (Q : Z) (x y : list Z) : Prop := congruent Q y x /\ Forall (fun a => 2 ^ 45 * Z.abs a <= Q * (2 ^ 44 + 1)) y.
(** The noise of the product of two ciphertexts of [n1] and [n2] parts and noises [B1] and [B2], for a key of 1-norm [S]:
    N * (U1 * (B2 + 1) + U2 * (B1 + 1)) + N * t * (B1 + 1) * (B2 + 1) / Q + (1 + S + .. + S^(n1+n2-2)) / 2 + 1 or so,
    where U_i = t * (1 + S + .. + S^(n_i-1)) / 2 or so. *)
Definition mul_factor (t S : Z) (n : nat) : Z := (t * ((2 ^ 44 + 1) * geometric S n) + 2 ^ 44) / 2 ^ 45.
Definition mul_noise (N : nat) (t Q S : Z) (n1 n2 : nat) (B1 B2 : Z) : Z :=
  Z.of_nat N * (mul_factor t S n1 * (B2 + 1) + mul_factor t S n2 * (B1 + 1)) + 1
  + (2 ^ 43 * (Z.of_nat N * (t * ((B1 + 1) * (B2 + 1)))) + Q * ((2 ^ 42 + 1) * geometric S (n1 + n2 - 1))) / (2 ^ 43 * Q).
