(** Specification vocabulary for the sizes of byte strings: what the protobuf format charges for numbers and parts, and the
    sizes of the messages of this library as functions of what is public about an object. *)
From Verif Require Import Outcome BasicSpec RnsSpec RqModel ParamsModel BfvSpec CipherModel KeysModel WireSpec.

(** A number takes one byte for each seven bits, and at least one. *)
Definition number_size (v : Z) : Z := Z.log2 v / 7 + 1.
(** A number in a field, with the byte that names the field; zero is not written. *)
Definition int_size (v : Z) : Z := if v =? 0 then 0 else 1 + number_size v.
(** A part of [s] bytes in a field: the name of the field, the number [s], the bytes. *)
Definition part_size (s : Z) : Z := 1 + number_size s + s.
(** The coefficients of a polynomial: for each modulus [q], [n] numbers of as many bits as [q - 1] has. *)
Definition coeffs_size (n : nat) (moduli : list Z) : Z := sum_of (map (fun q => Z.of_nat n * Z.log2_up q / 8) moduli).
(** A polynomial: its representation, its degree, its coefficients. *)
Definition poly_size (n : nat) (moduli : list Z) : Z := 2 + int_size (Z.of_nat n) + part_size (coeffs_size n moduli).
Definition level_poly_size (par : params) (l : nat) : Z := poly_size (pa_degree par) (level_moduli (pa_moduli par) l).
(** A seed has 32 bytes. *)
Definition is_some {A} (o : option A) : bool := match o with Some _ => true | None => false end.
Definition seed_size (seeded : bool) : Z := if seeded then part_size 32 else 0.
(** A ciphertext of [n] parts: the last part is not written when there is a seed. *)
Definition ct_size (par : params) (l n : nat) (seeded : bool) : Z :=
  Z.of_nat (if seeded then n - 1 else n) * part_size (level_poly_size par l) + seed_size seeded + int_size (Z.of_nat l).
(** A key that switches ciphertexts of level [l1], of level [l2] itself, with digits of [base] bits (0: residues): two lists of
    polynomials, or one and a seed. *)
Definition key_size (par : params) (l1 l2 : nat) (base : Z) (seeded : bool) : Z :=
  (if seeded then 1 else 2) * key_count par l1 base * part_size (level_poly_size par l2) + seed_size seeded
  + int_size (Z.of_nat l1) + int_size (Z.of_nat l2) + int_size base.
(** A Galois key, with its exponent, and an evaluation key. *)
Definition galois_size (par : params) (l1 l2 : nat) (base e : Z) (seeded : bool) : Z := part_size (key_size par l1 l2 base seeded) + int_size e.
Definition ek_size (par : params) (l1 l2 : nat) (keys : list (Z * Z * bool)) : Z :=
  sum_of (map (fun k => part_size (galois_size par l1 l2 (snd (fst k)) (fst (fst k)) (snd k))) keys) + int_size (Z.of_nat l1) + int_size (Z.of_nat l2).
(** What an evaluation key tells about its Galois keys: exponents, digits, seeds. *)
Definition ek_public (ek : eval_key) : list (Z * Z * bool) :=
  map (fun eg => (se_exponent (g_element (snd eg)), k_log_base (g_ksk (snd eg)), is_some (k_seed (g_ksk (snd eg))))) (ek_gk ek).
(** A coefficient of a secret key: positive numbers are doubled, negative ones fall in between. *)
Definition signed_size (c : Z) : Z := number_size (if 0 <=? c then 2 * c else - 2 * c - 1).
Definition sk_size (coeffs : list Z) : Z := part_size (sum_of (map signed_size coeffs)).
(** Parameters: plaintext moduli of more than 64 bits are written as strings of bytes. *)
Definition plain_size (t : Z) : Z := if t <? 2 ^ 64 then 1 + number_size t else part_size (Z.log2 t / 8 + 1).
Definition params_size (par : params) : Z :=
  int_size (Z.of_nat (pa_degree par)) + part_size (sum_of (map number_size (pa_moduli par))) + plain_size (pa_t par) + int_size (pa_variance par).
(** Seeds, where there are any, have 32 bytes. *)
Definition ct_seed_ok (ct : ciphertext) : Prop := forall sd, ct_seed ct = Some sd -> length sd = 32%nat.
(** The same parameters with another variance. *)
Definition with_variance (v : Z) (p : params) : params :=
  mkParams (pa_id p) (pa_degree p) (pa_moduli p) (pa_sizes p) v (pa_levels p) (pa_ntt p) (pa_t p) (pa_small p) (pa_index p).
