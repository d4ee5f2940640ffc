(** Properties C01-C07 and C13: arithmetic modulo p (zq/mod.rs, zq/primes.rs). *)
From Verif Require Import Outcome BasicSpec ZqModel ZqProofs ZqPow NumTheory PrimesModel PrimesProofs.
From Coq Require Import Znumtheory.

(** C01, constructor: exactly the moduli in [2, 2^62) are accepted. *)
Theorem C01_new_accepts : forall p, 2 <= p < 2 ^ 62 -> exists m, modulus_new p = Val m.
Proof. exact (fun p H => ex_intro _ _ (modulus_new_ok p H)). Qed.
Print Assumptions C01_new_accepts.
Theorem C01_new_rejects : forall p, is_u64 p -> ~ (2 <= p < 2 ^ 62) -> modulus_new p = Err (InvalidModulus p).
Proof. exact (fun p H => modulus_new_err p (proj1 H)). Qed.
Print Assumptions C01_new_rejects.
Example C01_ex : exists m, modulus_new 4611686018427387903 = Val m /\ modulus_new 4611686018427387904 = Err (InvalidModulus 4611686018427387904).
Proof. eexists. examples. Qed.

(** C01: scalar ring operations. *)
Theorem C01_scalar_ops : forall p m, modulus_new p = Val m -> forall a b, 0 <= a < p -> 0 <= b < p ->
  zq_add m a b = Val ((a + b) mod p) /\ zq_add_vt m a b = Val ((a + b) mod p) /\
  zq_sub m a b = Val ((a - b) mod p) /\
  zq_mul m a b = Val ((a * b) mod p) /\ zq_mul_vt m a b = Val ((a * b) mod p) /\
  zq_neg m a = Val ((- a) mod p) /\ zq_neg_vt m a = Val ((- a) mod p).
Proof.
  use_modulus m. exact ((fun a b Ha Hb =>
    conj (zq_add_spec m Hm a b Ha Hb) (conj (zq_add_vt_spec m Hm a b Ha Hb) (conj (zq_sub_spec m Hm a b Ha Hb)
    (conj (zq_mul_spec m Hm a b Ha Hb) (conj (zq_mul_vt_spec m Hm a b Ha Hb)
    (conj (zq_neg_spec m Hm a Ha) (zq_neg_vt_spec m Hm a Ha)))))))).
Qed.
Print Assumptions C01_scalar_ops.
Example C01_ops_ex : exists m, modulus_new 4611686018326724609 = Val m /\
  zq_mul m 4611686018326724608 4611686018326724607 = Val 2.
Proof. eexists. examples. Qed.

(** C02: reduction of arbitrary u64, u128 and i64 inputs. *)
Theorem C02_reduce : forall p m, modulus_new p = Val m ->
  (forall a, is_u64 a -> reduce m a = Val (a mod p) /\ reduce_vt m a = Val (a mod p)) /\
  (forall a, is_u128 a -> reduce_u128 m a = Val (a mod p) /\ reduce_u128_vt m a = Val (a mod p)) /\
  (forall a, is_i64 a -> reduce_i64 m a = Val (a mod p) /\ reduce_i64_vt m a = Val (a mod p)).
Proof.
  use_modulus m. exact ((
    conj (fun a Ha => conj (reduce_spec m a Hm Ha) (reduce_vt_spec m a Hm Ha))
   (conj (fun a Ha => conj (reduce_u128_spec m a Hm Ha) (reduce_u128_vt_spec m a Hm Ha))
         (fun a Ha => conj (reduce_i64_spec m Hm a Ha) (reduce_i64_vt_spec m Hm a Ha))))).
Qed.
Print Assumptions C02_reduce.
Theorem C02_lazy : forall p m, modulus_new p = Val m ->
  (forall a, is_u64 a -> exists r, lazy_reduce m a = Val r /\ 0 <= r < 2 * p /\ r mod p = a mod p) /\
  (forall a, is_u128 a -> exists r, lazy_reduce_u128 m a = Val r /\ 0 <= r < 2 * p /\ r mod p = a mod p).
Proof.
  use_modulus m. exact (( conj (fun a => lazy_reduce_spec m a Hm) (fun a => lazy_reduce_u128_spec m a Hm))).
Qed.
Print Assumptions C02_lazy.
Example C02_ex : exists m, modulus_new 3 = Val m /\ reduce_u128 m (2 ^ 128 - 1) = Val 0 /\ reduce_i64 m (- 2 ^ 63) = Val 1.
Proof. eexists. examples. Qed.

(** C03: the optimised (NFLlib) reduction. *)
Theorem C03_opt : forall p m, modulus_new p = Val m -> supports_opt p = true ->
  (forall a, 0 <= a < p * p -> reduce_opt_u128 m a = Val (a mod p) /\ reduce_opt_u128_vt m a = Val (a mod p)) /\
  (forall a, is_u64 a -> reduce_opt m a = Val (a mod p) /\ reduce_opt_vt m a = Val (a mod p)) /\
  (forall a b, 0 <= a < p -> 0 <= b < p ->
     zq_mul_opt m a b = zq_mul m a b /\ zq_mul_opt_vt m a b = zq_mul m a b /\ zq_mul_opt m a b = Val ((a * b) mod p)).
Proof. exact opt_all. Qed.
Print Assumptions C03_opt.
Example C03_ex : exists m, modulus_new 4611686018326724609 = Val m /\ supports_opt 4611686018326724609 = true /\
  supports_opt 1153 = false /\ zq_mul_opt m 4611686018326724608 4611686018326724608 = Val 1.
Proof. eexists. examples. Qed.

(** C04: Shoup multiplication, any u64 left operand. *)
Theorem C04_shoup : forall p m, modulus_new p = Val m -> forall a b bs, is_u64 a -> 0 <= b < p -> shoup m b = Val bs ->
  bs = b * 2 ^ 64 / p /\
  mul_shoup m a b bs = Val ((a * b) mod p) /\ mul_shoup_vt m a b bs = Val ((a * b) mod p) /\
  exists r, lazy_mul_shoup m a b bs = Val r /\ 0 <= r < 2 * p /\ r mod p = (a * b) mod p.
Proof. exact shoup_all. Qed.
Print Assumptions C04_shoup.
Theorem C04_shoup_total : forall p m, modulus_new p = Val m -> forall b, 0 <= b < p -> shoup m b = Val (b * 2 ^ 64 / p).
Proof. use_modulus m. exact ((fun b Hb => proj1 (shoup_spec m Hm b Hb))). Qed.
Print Assumptions C04_shoup_total.
Example C04_ex : exists m bs, modulus_new 1153 = Val m /\ shoup m 1152 = Val bs /\ mul_shoup m (2 ^ 64 - 1) 1152 bs = Val (((2 ^ 64 - 1) * 1152) mod 1153).
Proof. do 2 eexists. examples. Qed.

(** C05: vector operations, any length, both timing modes. *)
Theorem C05_binary : forall p m, modulus_new p = Val m -> forall a b, canonical p a -> canonical p b -> length a = length b ->
  (add_vec m a b = Val (zipWith (fun x y => (x + y) mod p) a b) /\
   add_vec_vt m a b = Val (zipWith (fun x y => (x + y) mod p) a b)) /\
  (sub_vec m a b = Val (zipWith (fun x y => (x - y) mod p) a b) /\
   sub_vec_vt m a b = Val (zipWith (fun x y => (x - y) mod p) a b)) /\
  (mul_vec m a b = Val (zipWith (fun x y => (x * y) mod p) a b) /\
   mul_vec_vt m a b = Val (zipWith (fun x y => (x * y) mod p) a b)) /\
  (neg_vec m a = Val (map (fun x => (- x) mod p) a) /\
   neg_vec_vt m a = Val (map (fun x => (- x) mod p) a)).
Proof.
  use_modulus m. exact ((fun a b Ha Hb Hl => conj (add_vec_spec m Hm a b Ha Hb Hl) (conj (sub_vec_spec m Hm a b Ha Hb Hl)
    (conj (mul_vec_spec m Hm a b Ha Hb Hl) (neg_vec_spec m Hm a Ha))))).
Qed.
Print Assumptions C05_binary.
Theorem C05_scalar_and_shoup : forall p m, modulus_new p = Val m -> forall a b, Forall is_u64 a ->
  (0 <= b < p ->
   scalar_mul_vec m a b = Val (map (fun x => (x * b) mod p) a) /\
   scalar_mul_vec_vt m a b = Val (map (fun x => (x * b) mod p) a)) /\
  (forall v vs, canonical p v -> length a = length v -> shoup_vec m v = Val vs ->
   mul_shoup_vec m a v vs = Val (zipWith (fun x y => (x * y) mod p) a v) /\
   mul_shoup_vec_vt m a v vs = Val (zipWith (fun x y => (x * y) mod p) a v)).
Proof.
  use_modulus m. exact ((fun a b Ha => conj (scalar_mul_vec_spec m Hm a b Ha)
     (fun v vs Hv Hl Es => mul_shoup_vec_spec m Hm a v vs Ha Hv Hl Es))).
Qed.
Print Assumptions C05_scalar_and_shoup.
Theorem C05_reduce : forall p m, modulus_new p = Val m ->
  (forall a, Forall is_u64 a ->
     reduce_vec m a = Val (map (fun x => x mod p) a) /\ reduce_vec_vt m a = Val (map (fun x => x mod p) a) /\
     exists r, lazy_reduce_vec m a = Val r /\ Forall2 (fun x y => 0 <= y < 2 * p /\ y mod p = x mod p) a r) /\
  (forall a, Forall is_i64 a ->
     reduce_vec_i64 m a = Val (map (fun x => x mod p) a) /\ reduce_vec_i64_vt m a = Val (map (fun x => x mod p) a)).
Proof.
  use_modulus m. exact (( conj
    (fun a Ha => conj (proj1 (reduce_vec_spec m Hm a Ha)) (conj (proj2 (reduce_vec_spec m Hm a Ha)) (lazy_reduce_vec_spec m Hm a Ha)))
    (fun a Ha => reduce_vec_i64_spec m Hm a Ha))).
Qed.
Print Assumptions C05_reduce.
(** C05: the variants that return a new vector. *)
Theorem C05_reduce_new : forall p m, modulus_new p = Val m -> forall a, Forall is_u64 a ->
  reduce_vec_new m a = Val (map (fun x => x mod p) a) /\ reduce_vec_new_vt m a = Val (map (fun x => x mod p) a).
Proof. use_modulus m. exact (fun a Ha => reduce_vec_spec m Hm a Ha). Qed.
Print Assumptions C05_reduce_new.
(** 33 elements exercise two 16-lane chunks and a remainder of one. *)
Example C05_ex : exists m, modulus_new 1153 = Val m /\
  add_vec_vt m (map Z.of_nat (seq 1 33)) (repeat 1150 33) = add_vec m (map Z.of_nat (seq 1 33)) (repeat 1150 33).
Proof. eexists. examples. Qed.

(** C06: exponentiation and inversion. *)
Theorem C06_pow : forall p m, modulus_new p = Val m -> forall a n, 0 <= a < p -> 0 <= n < p ->
  zq_pow m a n = Val (a ^ n mod p).
Proof. use_modulus m. exact ((fun a n Ha Hn => zq_pow_spec m a n Hm Ha Hn)). Qed.
Print Assumptions C06_pow.
Theorem C06_inv : forall isp, prime_oracle isp -> forall p m, modulus_new p = Val m -> forall a, 0 <= a < p ->
  (prime p -> a <> 0 -> exists r, zq_inv isp m a = Val (Some r) /\ 0 < r < p /\ (a * r) mod p = 1) /\
  (~ prime p \/ a = 0 -> zq_inv isp m a = Val None).
Proof. exact inv_all. Qed.
Print Assumptions C06_inv.
Example C06_ex : (exists isp, prime_oracle isp) /\ prime 1153 /\
  exists m, modulus_new 1153 = Val m /\ zq_inv (fun _ => true) m 17 = Val (Some 407).
Proof.
  split; [exact prime_oracle_exists|]. split; [apply (check_prime_spec 1000); vm_compute; reflexivity|].
  eexists. examples.
Qed.

(** C07: centering.  The congruence holds; the documented interval [-p/2, p/2) does not for odd p: the
    true interval is [-(p+1)/2, (p-3)/2]. *)
Theorem C07_center_partial : forall p m, modulus_new p = Val m -> forall a, 0 <= a < p ->
  exists c, center m a = Val c /\ c mod p = a mod p /\ - p <= 2 * c + p mod 2 /\ 2 * c + p mod 2 < p.
Proof. use_modulus m. exact ((fun a Ha => center_range m a Hm Ha)). Qed.
Print Assumptions C07_center_partial.
Theorem C07_center_refuted : exists p m a c, modulus_new p = Val m /\ 0 <= a < p /\ center m a = Val c /\ 2 * c < - p.
Proof. exact center_refuted. Qed.
Print Assumptions C07_center_refuted.
Example C07_ex : exists m, modulus_new 1153 = Val m /\ center m 576 = Val (-577) /\ center m 575 = Val 575.
Proof. eexists. examples. Qed.

(** C13: prime generation ([modulo] = 0 and [upper_bound] = 0 panic, [modulo] = 1 is always None). *)
Theorem C13_generate_prime : forall isp, prime_oracle isp -> forall nb modulo upper,
  10 <= nb <= 62 -> 2 <= modulo < 2 ^ 64 -> 1 <= upper <= 2 ^ nb ->
  (exists p, generate_prime isp nb modulo upper = Val (Some p) /\ wanted nb modulo upper p /\
             forall x, wanted nb modulo upper x -> x <= p) \/
  (generate_prime isp nb modulo upper = Val None /\ forall x, ~ wanted nb modulo upper x).
Proof. exact (fun isp Ho nb modulo upper => generate_prime_spec isp nb modulo upper Ho). Qed.
Print Assumptions C13_generate_prime.
Theorem C13_generate_prime_bits : forall isp nb modulo upper, ~ (10 <= nb <= 62) -> generate_prime isp nb modulo upper = Val None.
Proof. exact generate_prime_range. Qed.
Print Assumptions C13_generate_prime_bits.
Theorem C13_modulo_one_refuted : exists p, wanted 10 1 1024 p /\
  forall isp, generate_prime isp 10 1 1024 = Val None.
Proof. exact generate_prime_mod1. Qed.
Print Assumptions C13_modulo_one_refuted.
Example C13_ex : generate_prime (check_prime 2000) 20 2048 (2 ^ 20) = Val (Some 1038337).
Proof. vm_compute. reflexivity. Qed.
