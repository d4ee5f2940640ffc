(** Model of crates/fhe/examples/mulpir.rs and sealpir.rs, and of the part of util.rs that they share: the retrieval of an element of
    a database by an encrypted index.  The generator is modelled by one stream for each use; the keys, the query and the responses
    go through the records of the wire format (the framing by [prost] is not modelled).  Printing, timing and the parsing of the
    arguments are left out; the server answers five times ([timeit_n!]) with the same result. *)
From Verif Require Import Outcome BasicSpec ZqModel NttModel CbdModel TranscodeModel RnsModel RqModel ParamsModel PlainModel CipherModel OpsModel KeysModel.

(** ** util.rs *)
(** util.rs:70-82 [generate_database]: element [i] starts with the first bytes of [i as u32]. *)
Definition index_bytes (i : nat) : list Z := map (fun k => Z.of_nat i / 256 ^ Z.of_nat k mod 256) (seq 0 4).
Definition generate_database (size esize : nat) : M (list (list Z)) :=
  guard (Nat.ltb 0 size && Nat.ltb 0 esize) ;;;
  Val (map (fun i => firstn esize (index_bytes i) ++ repeat 0 (esize - 4)) (seq 0 size)).
(** util.rs:84-92 [number_elements_per_plaintext]. *)
Definition elements_per_plaintext (degree : nat) (nbits : Z) (esize : nat) : M nat :=
  a <- chk64 (nbits * Z.of_nat degree) ;;
  b <- chk64 (Z.of_nat esize * 8) ;;
  guard (negb (b =? 0)) ;;; Val (Z.to_nat (a / b)).
(** The number of bits of a coefficient: [plaintext().ilog2()] (parameters.rs:146-151 panics when the modulus is not a word). *)
Definition plain_bits (par : params) : M Z := m <- unwrap (pa_small par) ;; Val (Z.log2 (mod_p m)).
(** util.rs:129-134: the bytes of row [i]; [copy_from_slice] panics on an element of another size. *)
Definition row_bytes (db : list (list Z)) (npp esize i : nat) : M (list Z) :=
  ps <- mapM (fun j => match nth_error db (j + i * npp) with
                       | Some e => guard (Nat.eqb (length e) esize) ;;; Val e
                       | None => Val (repeat 0 esize)
                       end) (seq 0 npp) ;;
  Val (concat ps).
(** util.rs:94-145 [encode_database]; [isqrt] is [(n as f64).sqrt().ceil() as usize]. *)
Definition encode_database (isqrt : nat -> nat) (db : list (list Z)) (par : params) (level : nat) : M (list plaintext * (nat * nat)) :=
  first <- unwrap (hd_error db) ;;
  let esize := length first in
  w <- plain_bits par ;;
  npp <- elements_per_plaintext (pa_degree par) w esize ;;
  rows <- div_ceilM (len db) (Z.of_nat npp) ;;
  let d1 := isqrt (Z.to_nat rows) in
  d2 <- div_ceilM rows (Z.of_nat d1) ;;
  size <- chk64 (Z.of_nat d1 * d2) ;;
  zero <- no_err (encode_u64 true [] (mkEnc EncPoly level) par) ;;
  pts <- mapM (fun i => b <- row_bytes db npp esize i ;;
                        v <- transcode_from_bytes b w ;;
                        no_err (encode_u64 true v (mkEnc EncPoly level) par)) (seq 0 (Z.to_nat rows)) ;;
  (* row [i] is written at index [i] of a vector of [size] elements *)
  guard (rows <=? size) ;;;
  Val (pts ++ repeat zero (Z.to_nat (size - rows)), (d1, Z.to_nat d2)).

(** ** What the two programs share *)
(** The draws of the client: the secret key, the evaluation key (for each Galois element), the relinearization key, the query, and
    the word that gives the index. *)
Record pir_draws := mkDraws {
  d_sk : nat -> Z;
  d_ek_seeds : Z -> seed; d_ek : Z -> nat -> nat -> Z;
  d_rk_seed : seed; d_rk : nat -> nat -> Z;
  d_index : Z;
  d_q_seed : seed; d_q : nat -> Z }.
(** mulpir.rs:94, sealpir.rs:97 [(dim1 + dim2).next_power_of_two().ilog2()]. *)
Definition expansion_level (dims : nat) : M nat :=
  s <- chk64 (2 ^ Z.log2_up (Z.of_nat dims)) ;; Val (Z.to_nat (Z.log2 s)).
(** mulpir.rs:96-100 and 117, sealpir.rs:99-102 and 113: the evaluation key, as the server receives it. *)
Definition pir_expansion_key (expand : expander) (derive : deriver) (sk : secret_key) (dims : nat) (d : pir_draws) : M eval_key :=
  level <- expansion_level dims ;;
  b <- ekb_new_leveled sk 1 0 ;;
  b <- enable_expansion b level ;;
  ek <- ek_build expand derive b (d_ek_seeds d) (d_ek d) ;;
  m <- ek_to_proto ek ;;
  ek_from_proto expand derive m (sk_par sk).
(** mulpir.rs:99-101 and 118: the relinearization key, as the server receives it. *)
Definition pir_relin_key (expand : expander) (derive : deriver) (sk : secret_key) (d : pir_draws) : M ksk :=
  rk <- relin_new expand derive sk 1 1 (d_rk_seed d) (d_rk d) ;;
  m <- relin_to_proto rk ;;
  relin_from_proto expand derive m (sk_par sk).
(** [slice[i] = x] *)
Definition put {A} (l : list A) (i : nat) (x : A) : M (list A) := guard (Nat.ltb i (length l)) ;;; Val (set_nth l i x).
(** mulpir.rs:133-148, sealpir.rs:127-142: the vector that selects row [q], as coefficients of the query. *)
Definition query_values (t : Z) (d1 d2 q : nat) : M (list Z) :=
  level <- expansion_level (d1 + d2) ;;
  inv <- ok_or (mod_inverse (2 ^ Z.of_nat level) t) (NonInvertible (2 ^ Z.of_nat level) t) ;; (* the error is the string "No inverse" *)
  guard (negb (Nat.eqb d2 0)) ;;;
  v <- put (repeat 0 (d1 + d2)) (q / d2) inv ;;
  put v (d1 + q mod d2) inv.
Definition pir_query (expand : expander) (sk : secret_key) (d1 d2 q : nat) (d : pir_draws) : M ct_proto :=
  v <- query_values (pa_t (sk_par sk)) d1 d2 q ;;
  pt <- encode_u64 false v (mkEnc EncPoly 1) (sk_par sk) ;;
  ct <- sk_encrypt expand sk pt (d_q_seed d) (d_q d) ;;
  ct_to_proto ct.
(** [iter().step_by(k)], the first element being [c] places ahead. *)
Fixpoint every {A} (k c : nat) (l : list A) : list A :=
  match l with
  | [] => []
  | x :: l => match c with O => x :: every k (k - 1) l | S c => every k c l end
  end.
(** mulpir.rs:172, sealpir.rs:166 [database.iter().skip(i).step_by(dim2)]; [step_by(0)] panics. *)
Definition column {A} (d2 i : nat) (l : list A) : M (list A) := guard (negb (Nat.eqb d2 0)) ;;; Val (every d2 0 (skipn i l)).
(** [slice[a..b]] *)
Definition range {A} (l : list A) (a b : nat) : M (list A) :=
  guard (Nat.leb a b && Nat.leb b (length l)) ;;; Val (skipn a (firstn b l)).
(** mulpir.rs:194-207, sealpir.rs:272-285: the element is cut out of the decrypted row. *)
Definition pir_extract (sk : secret_key) (ct : ciphertext) (pt : plaintext) (esize index : nat) : M (list Z) :=
  v <- decode_u64 pt (Some (mkEnc EncPoly 2)) ;;
  w <- plain_bits (sk_par sk) ;;
  b <- transcode_to_bytes v w ;;
  npp <- elements_per_plaintext (pa_degree (sk_par sk)) w esize ;;
  guard (negb (Nat.eqb npp 0)) ;;;
  (* the noise is printed whether or not it can be measured, but a panic stops the program *)
  match measure_noise sk ct with Panic => Panic | _ => Val tt end ;;;
  let offset := (index mod npp)%nat in
  range b (offset * esize) ((offset + 1) * esize).
(** mulpir.rs:47-53, sealpir.rs:51-57: invalid arguments end the program before it starts; [None] stands for that exit. *)
Definition pir_arguments (par : params) (size esize : nat) : M bool :=
  w <- plain_bits par ;;
  Val (negb (w * Z.of_nat (pa_degree par) / 8 <? Z.of_nat esize) && negb (Nat.eqb esize 0) && negb (Nat.eqb size 0)).

(** ** mulpir.rs *)
(** mulpir.rs:163-183: the response of the server. *)
Definition mulpir_response (expand : expander) (par : params) (pre : list plaintext) (d1 d2 : nat) (ek : eval_key) (rk : ksk) (q : ct_proto) : M ct_proto :=
  query <- ct_from_proto expand q par ;;
  ex <- expands ek query (Z.of_nat (d1 + d2)) ;;
  qv <- range ex 0 d1 ;;
  rest <- range ex d1 (length ex) ;;
  out <- foldM (fun out '(i, ci) =>
                  col <- column d2 i pre ;;
                  dp <- dot_product_scalar qv col ;;
                  p <- ct_mul dp ci ;;
                  ct_add out p) (combine (seq 0 (length rest)) rest) (ct_zero par) ;;
  out <- relinearizes rk out ;;
  out <- ct_switch_to_level out (max_level (ct_par out)) ;;
  ct_to_proto out.
(** mulpir.rs:190-208: the answer of the client. *)
Definition mulpir_answer (expand : expander) (sk : secret_key) (r : ct_proto) (esize index : nat) : M (list Z) :=
  ct <- ct_from_proto expand r (sk_par sk) ;;
  pt <- sk_decrypt sk ct ;;
  pir_extract sk ct pt esize index.
(** mulpir.rs:80-208: a client that retrieves element [index] from the database [db]. *)
Definition mulpir (expand : expander) (derive : deriver) (isqrt : nat -> nat) (par : params) (db : list (list Z)) (esize : nat) (d : pir_draws) : M (list Z) :=
  '(pre, (d1, d2)) <- encode_database isqrt db par 1 ;;
  sk <- sk_random par (d_sk d) ;;
  ek <- pir_expansion_key expand derive sk (d1 + d2) d ;;
  rk <- pir_relin_key expand derive sk d ;;
  let index := Z.to_nat (d_index d mod len db) in
  w <- plain_bits par ;;
  npp <- elements_per_plaintext (pa_degree par) w esize ;;
  guard (negb (Nat.eqb npp 0)) ;;;
  q <- pir_query expand sk d1 d2 (index / npp) d ;;
  r <- mulpir_response expand par pre d1 d2 ek rk q ;;
  mulpir_answer expand sk r esize index.
(** mulpir.rs:33-213 [main], for the parameter set that lines 71-78 build; the last line is the assertion of line 210. *)
Definition mulpir_main (expand : expander) (derive : deriver) (isqrt : nat -> nat) (par : params) (size esize : nat) (d : pir_draws) : M (option (list Z)) :=
  ok <- pir_arguments par size esize ;;
  if negb ok then Val None
  else
    chk64 (Z.of_nat size * Z.of_nat esize) ;;;
    db <- generate_database size esize ;;
    a <- mulpir expand derive isqrt par db esize d ;;
    e <- get db (Z.to_nat (d_index d mod len db)) ;;
    guard (list_eqb e a) ;;; Val (Some a).

(** ** sealpir.rs *)
(** sealpir.rs:165-170: the dot product with a column, at the last level. *)
Definition sealpir_column (par : params) (qv : list ciphertext) (pre : list plaintext) (d2 i : nat) : M ciphertext :=
  col <- column d2 i pre ;;
  c <- dot_product_scalar qv col ;;
  ct_switch_to_level c (max_level (ct_par c)).
(** [64 - moduli()[0].leading_zeros()] *)
Definition first_bits (par : params) : M Z := q <- get (pa_moduli par) 0 ;; Val (64 - leading_zeros64 q).
(** sealpir.rs:178-192: a ciphertext as a vector of plaintexts. *)
Definition fold_values (par : params) (c : ciphertext) : M (list Z) :=
  w <- plain_bits par ;;
  qb <- first_bits par ;;
  cap <- chk64 (Z.of_nat (pa_degree par) * qb) ;;
  cap <- div_ceilM cap w ;;
  chk64 (2 * cap) ;;;
  c0 <- get (ct_c c) 0 ;;
  v0 <- transcode_bidirectional (poly_to_u64 c0) qb w ;;
  c1 <- get (ct_c c) 1 ;;
  v1 <- transcode_bidirectional (poly_to_u64 c1) qb w ;;
  Val (v0 ++ v1).
(** sealpir.rs:158-211: the responses of the server. *)
Definition sealpir_response (expand : expander) (par : params) (pre : list plaintext) (d1 d2 : nat) (ek : eval_key) (q : ct_proto) : M (list ct_proto) :=
  query <- ct_from_proto expand q par ;;
  ex <- expands ek query (Z.of_nat (d1 + d2)) ;;
  qv <- range ex 0 d1 ;;
  dps <- mapM (sealpir_column par qv pre d2) (seq 0 d2) ;;
  folded <- mapM (fun c => v <- fold_values par c ;; encode_vec_u64 true v (mkEnc EncPoly 1) par) dps ;;
  f0 <- get folded 0 ;;
  rest <- range ex d1 (length ex) ;;
  mapM (fun i =>
          pts <- mapM (fun pts => get pts i) folded ;;
          o <- dot_product_scalar rest pts ;;
          o <- ct_switch_to_level o (max_level (ct_par o)) ;;
          ct_to_proto o) (seq 0 (length f0)).
(** [flat_map] over results keeps the values. *)
Fixpoint keep_values {A} (l : list (M A)) : M (list A) :=
  match l with
  | [] => Val []
  | Val a :: l => r <- keep_values l ;; Val (a :: r)
  | Err _ :: l => keep_values l
  | Panic :: _ => Panic
  end.
(** sealpir.rs:222-286: the answer of the client; [no_err] where the code unwraps. *)
Definition sealpir_answer (expand : expander) (sk : secret_key) (rs : list ct_proto) (esize index : nat) : M (list Z) :=
  let par := sk_par sk in
  cts <- mapM (fun r => no_err (ct_from_proto expand r par)) rs ;;
  pts <- keep_values (map (sk_decrypt sk) cts) ;;
  vs <- mapM (fun pt => no_err (decode_u64 pt (Some (mkEnc EncPoly 2)))) pts ;;
  let v := concat vs in
  w <- plain_bits par ;;
  qb <- first_bits par ;;
  n <- chk64 (Z.of_nat (pa_degree par) * qb) ;;
  n <- div_ceilM n w ;;
  chk64 (2 * n) ;;;
  let n := Z.to_nat n in
  guard (Nat.leb (2 * n) (length v)) ;;;
  p0 <- transcode_bidirectional (firstn n v) w qb ;;
  p1 <- transcode_bidirectional (skipn n (firstn (2 * n) v)) w qb ;;
  guard (Nat.leb (pa_degree par) (length p0)) ;;;
  guard (Nat.leb (pa_degree par) (length p1)) ;;;
  c <- par_context par 2 ;;
  x0 <- ntt_from_u64 c (firstn (pa_degree par) p0) true ;;
  x1 <- ntt_from_u64 c (firstn (pa_degree par) p1) true ;;
  ct <- ct_new [x0; x1] par ;;
  pt <- no_err (sk_decrypt sk ct) ;;
  pir_extract sk ct pt esize index.
(** sealpir.rs:84-286: a client that retrieves element [index] from the database [db]. *)
Definition sealpir (expand : expander) (derive : deriver) (isqrt : nat -> nat) (par : params) (db : list (list Z)) (esize : nat) (d : pir_draws) : M (list Z) :=
  '(pre, (d1, d2)) <- encode_database isqrt db par 1 ;;
  sk <- sk_random par (d_sk d) ;;
  ek <- pir_expansion_key expand derive sk (d1 + d2) d ;;
  let index := Z.to_nat (d_index d mod len db) in
  w <- plain_bits par ;;
  npp <- elements_per_plaintext (pa_degree par) w esize ;;
  guard (negb (Nat.eqb npp 0)) ;;;
  q <- pir_query expand sk d1 d2 (index / npp) d ;;
  rs <- sealpir_response expand par pre d1 d2 ek q ;;
  sealpir_answer expand sk rs esize index.
(** sealpir.rs:36-293 [main], for the parameter set that lines 75-82 build; the last line is the assertion of line 290. *)
Definition sealpir_main (expand : expander) (derive : deriver) (isqrt : nat -> nat) (par : params) (size esize : nat) (d : pir_draws) : M (option (list Z)) :=
  ok <- pir_arguments par size esize ;;
  if negb ok then Val None
  else
    chk64 (Z.of_nat size * Z.of_nat esize) ;;;
    db <- generate_database size esize ;;
    a <- sealpir expand derive isqrt par db esize d ;;
    e <- get db (Z.to_nat (d_index d mod len db)) ;;
    guard (list_eqb e a) ;;; Val (Some a).
