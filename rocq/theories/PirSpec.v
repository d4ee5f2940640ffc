(** Specification vocabulary for the two examples of private information retrieval. *)
From Verif Require Import Outcome BasicSpec PolySpec RqModel RqSpec ParamsModel BfvSpec PlainModel CipherModel SchemeSpec CipherSpec OpsModel KeysModel KeysSpec EvalSpec PirModel.

(** Databases of elements of [esize] bytes. *)
Definition database (esize : nat) (db : list (list Z)) : Prop := Forall (fun e => length e = esize /\ Forall (fun b => 0 <= b < 256) e) db.
(** The draws of the client are words, and the seeds have 32 bytes. *)
Definition draws_ok (d : pir_draws) : Prop :=
  words (d_sk d) /\ (forall e, length (d_ek_seeds d e) = 32%nat) /\ (forall e i, words (d_ek d e i)) /\ length (d_rk_seed d) = 32%nat /\ (forall i, words (d_rk d i)) /\
  0 <= d_index d /\ length (d_q_seed d) = 32%nat /\ words (d_q d).
(** The element that the client asks for. *)
Definition requested (db : list (list Z)) (d : pir_draws) : list Z := nth (Z.to_nat (d_index d mod Z.of_nat (length db))) db [].

(** The layout: the elements of a row, the rows, and the two dimensions. *)
Definition per_row (par : params) (esize : nat) : Z := Z.log2 (pa_t par) * Z.of_nat (pa_degree par) / (8 * Z.of_nat esize).
Definition ceiling (a b : Z) : Z := (a + b - 1) / b.
Definition row_count (par : params) (esize : nat) (db : list (list Z)) : Z := ceiling (Z.of_nat (length db)) (per_row par esize).
(** [d1] rows of [d2] elements hold the rows of the database, and their indices fit in a query. *)
Definition layout (isqrt : nat -> nat) (par : params) (esize : nat) (db : list (list Z)) (d1 d2 : nat) : Prop :=
  let rows := row_count par esize db in
  d1 = isqrt (Z.to_nat rows) /\ (0 < d1)%nat /\ Z.of_nat d2 = ceiling rows (Z.of_nat d1) /\ (d1 + d2 <= pa_degree par)%nat.

(** The noise of an element of the expanded query, for a key of 1-norm [S]. *)
Definition expanded_noise (par : params) (S : Z) (dims : nat) : Z :=
  let D := key_noise par S 1 0 in 2 ^ Z.log2_up (Z.of_nat dims) * (2 * pa_variance par + D + 3) - D - 3.
(** The noise of a dot product of [k] ciphertexts of noise [B] with plaintexts of [Z.log2 t] bits. *)
Definition column_noise (par : params) (k : nat) (B : Z) : Z :=
  Z.of_nat k * (Z.of_nat (pa_degree par) * (2 ^ Z.log2 (pa_t par) - 1) * (B + 1) + 1).
(** The noise after a switch from level 1 to level 2. *)
Definition last_noise (par : params) (S B : Z) : Z := dropped_noise S 2 (dropped (pa_moduli par) 1 1) B.

(** MulPIR: the noise of the response, and the room it needs. *)
Definition mulpir_noise (par : params) (S : Z) (d1 d2 : nat) : Z :=
  let B := expanded_noise par S (d1 + d2) in
  let P := mul_noise (pa_degree par) (pa_t par) (level_modulus par 1) S 2 2 (column_noise par d1 B) B in
  last_noise par S (Z.of_nat d2 * (P + 1) - 1 + key_noise par S 1 1).
Definition mulpir_room (par : params) (S : Z) (d1 d2 : nat) : Prop :=
  let B := expanded_noise par S (d1 + d2) in
  mul_room par 1 2 /\ 2 * pa_t par * (B + 1) <= level_modulus par 1 /\ 2 * pa_t par * (column_noise par d1 B + 1) <= level_modulus par 1 /\
  small_noise par 2 (mulpir_noise par S d1 d2).
(** SealPIR: the two dot products and the room that they need. *)
Definition sealpir_room (par : params) (S : Z) (d1 d2 : nat) : Prop :=
  let B := expanded_noise par S (d1 + d2) in
  small_noise par 2 (last_noise par S (column_noise par d1 B)) /\ small_noise par 2 (last_noise par S (column_noise par d2 B)).

(** What the programs assume of the parameter set: three moduli, an odd plaintext modulus of one word. *)
Definition pir_params (par : params) : Prop :=
  length (pa_moduli par) = 3%nat /\ supported par /\ decryptable par /\ serializable par /\ Z.odd (pa_t par) = true /\ pa_t par < 2 ^ 64.
(** The 1-norms of the secret keys. *)
Definition key_norms (par : params) (S : Z) : Prop := 0 <= S <= Z.of_nat (pa_degree par) * (2 * pa_variance par).
(** The databases of the programs: element [i] holds the number [i] in little-endian order, cut to 32 bits and to [esize] bytes. *)
Definition numbered (esize i : nat) : list Z := map (fun k => if Nat.ltb k 4 then Z.of_nat i / 2 ^ (8 * Z.of_nat k) mod 2 ^ 8 else 0) (seq 0 esize).
Definition numbered_database (size esize : nat) : list (list Z) := map (numbered esize) (seq 0 size).
