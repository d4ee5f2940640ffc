(** Model of crates/fhe/src/bfv/parameters.rs and crates/fhe/src/bfv/context: BFV parameters.

    [usize] is a 64-bit word, [BigUint] a non-negative integer.  An [Arc<BfvParameters>] is a record with an extra
    field [pa_id], its address.  Hash maps that only fill error payloads are not modelled, nor is
    the byte framing of protobuf messages.  [default_parameters_128] is in DefaultModel.v. *)
From Verif Require Import Outcome ZqModel NttModel PrimesModel RnsModel RqModel.

Definition map_err {A} (f : error -> error) (x : M A) : M A :=
  match x with Err e => Err (f e) | _ => x end.

(** parameters.rs:35-48 [PlaintextModulus::try_new]: the machine-word modulus, when the value fits 64 bits. *)
Definition plaintext_small (t : Z) : M (option modulus) :=
  if t <? W64 then m <- map_err (fun _ => ParInvalidPlaintextModulus) (modulus_new t) ;; Val (Some m)
  else Val None.

(** context/cipher_plain_context.rs:10-28 [struct CipherPlainContext]. *)
Record cp_ctx := mkCp {
  cp_delta : poly NttShoup;
  cp_q_mod_t : Z;
  cp_threshold : Z;
  cp_scaler : scaler;
  cp_plain : ctx;
  cp_cipher : ctx
}.

(** parameters.rs:791-814 [struct MultiplicationParameters]. *)
Record mul_params := mkMul { mp_extender : scaler; mp_down : scaler; mp_from : ctx; mp_to : ctx }.
Definition mul_params_new (from to : ctx) (up down : factor) : M mul_params :=
  e <- poly_scaler_new from to up ;;
  d <- poly_scaler_new to from down ;;
  Val (mkMul e d from to).

(** context/level.rs:9-19 [struct ContextLevel]. *)
Record level_ctx := mkLevel { lv_ctx : ctx; lv_cp : cp_ctx; lv_level : nat; lv_mul : mul_params }.

(** parameters.rs:86-111 [struct BfvParameters]. *)
Record params := mkParams {
  pa_id : Z;
  pa_degree : nat;
  pa_moduli : list Z;
  pa_sizes : list Z;
  pa_variance : Z;
  pa_levels : list level_ctx;
  pa_ntt : option ntt_op;
  pa_t : Z;
  pa_small : option modulus;
  pa_index : list nat
}.

(** [Arc::ptr_eq]. *)
Definition par_same (a b : params) : bool := pa_id a =? pa_id b.
(** parameters.rs:87 derived [PartialEq]; every other field of a built value is a function of these four. *)
Definition par_eqb (a b : params) : bool :=
  Nat.eqb (pa_degree a) (pa_degree b) && list_eqb (pa_moduli a) (pa_moduli b) &&
  (pa_variance a =? pa_variance b) && (pa_t a =? pa_t b).

(** parameters.rs:160-163 [max_level]. *)
Definition max_level (p : params) : nat := length (pa_levels p) - 1.
(** parameters.rs:201-210 [context_level_at], 165-175 [context_at_level]. *)
Definition context_level_at (p : params) (level : nat) : M level_ctx :=
  ok_or (nth_error (pa_levels p) level) (InvalidLevel (Z.of_nat level) 0 (Z.of_nat (max_level p))).
Definition par_context (p : params) (level : nat) : M ctx :=
  lv <- context_level_at p level ;; Val (lv_ctx lv).
(** parameters.rs:178-193 [level_of_context]. *)
Definition level_of_context (p : params) (c : ctx) : M nat :=
  if Nat.ltb (length (pa_moduli p)) (length (c_moduli c)) then Err ContextNotReachable
  else
    let level := (length (pa_moduli p) - length (c_moduli c))%nat in
    lv <- ok_or (nth_error (pa_levels p) level) ContextNotReachable ;;
    if ctx_eqb (lv_ctx lv) c then Val level else Err ContextNotReachable.

(** parameters.rs:318-346 [struct BfvParametersBuilder]; the setters 348-388 fill the fields. *)
Record builder := mkBuilder {
  b_degree : Z;
  b_plaintext : Z;
  b_variance : Z;
  b_moduli : list Z;
  b_sizes : list Z
}.

(** parameters.rs:408-428 the inner loop of [generate_moduli]: each round lowers the bound to a prime already
    chosen, so [length acc + 1] rounds are enough. *)
Fixpoint next_prime (isp : Z -> bool) (fuel : nat) (size degree upper : Z) (acc : list Z) : M Z :=
  match fuel with
  | O => Panic
  | S f =>
      o <- generate_prime isp size (2 * degree) upper ;;
      p <- ok_or o (ParNotEnoughPrimes size degree) ;;
      if existsb (Z.eqb p) acc then next_prime isp f size degree p acc else Val p
  end.
(** parameters.rs:390-431 [generate_moduli]. *)
Fixpoint generate_moduli_from (isp : Z -> bool) (i : Z) (sizes : list Z) (degree : Z) (acc : list Z) : M (list Z) :=
  match sizes with
  | [] => Val acc
  | size :: sizes' =>
      if (62 <? size) || (size <? 10) then Err (ParInvalidModulusSize i size)
      else
        p <- next_prime isp (S (length acc)) size degree (Z.shiftl 1 size) acc ;;
        generate_moduli_from isp (i + 1) sizes' degree (acc ++ [p])
  end.
Definition generate_moduli (isp : Z -> bool) (sizes : list Z) (degree : Z) : M (list Z) :=
  generate_moduli_from isp 0 sizes degree [].

(** parameters.rs:440-469 [validate_configuration]. *)
Definition validate_configuration (b : builder) : M unit :=
  if negb ((8 <=? b_degree b) && (b_degree b <=? 65536)) || negb (is_power_of_two (b_degree b))
  then Err (ParInvalidDegree (b_degree b))
  else if negb ((1 <=? b_variance b) && (b_variance b <=? 32)) then Err (ParInvalidVariance (b_variance b))
  else match b_moduli b, b_sizes b with
       | _ :: _, _ :: _ => Err ParConflicting
       | [], [] => Err ParMissing
       | _, _ => Val tt
       end.

(** parameters.rs:471-552 [validate_moduli]; [gcd] (433-438) is Euclid's algorithm. *)
Definition enumerate {A} (l : list A) : list (nat * A) := combine (seq 0 (length l)) l.
Definition check_modulus (moduli : list Z) (iq : nat * Z) : M unit :=
  map_err (fun _ => ParInvalidCiphertextModulus (Z.of_nat (fst iq)) (snd iq)) (modulus_new (snd iq)) ;;;
  if Nat.ltb 1 (length (filter (Z.eqb (snd iq)) moduli)) then Err ParDuplicateModuli else Val tt.
Definition check_coprime_pair (a b : Z) : M unit :=
  if negb (Z.gcd a b =? 1) then Err (ParModuliNotCoprime a b (Z.gcd a b)) else Val tt.
Fixpoint validate_pairs (l : list Z) : M unit :=
  match l with
  | [] => Val tt
  | a :: t => mapM (check_coprime_pair a) t ;;; validate_pairs t
  end.
Definition check_ntt (isp : Z -> bool) (degree : Z) (iq : nat * Z) : M unit :=
  if negb (snd iq mod (2 * degree) =? 1) || negb (isp (snd iq))
  then Err (ParCiphertextNotNttFriendly (Z.of_nat (fst iq)) (snd iq) degree) else Val tt.
Definition check_plaintext (t : Z) (iq : nat * Z) : M unit :=
  guard (negb (snd iq =? 0)) ;;;
  let r := t mod snd iq in
  let g := Z.gcd r (snd iq) in
  if negb (g =? 1) then Err (ParPlaintextNotCoprime t (snd iq) (Z.of_nat (fst iq)) g) else Val tt.
Definition validate_moduli (isp : Z -> bool) (degree t : Z) (moduli : list Z) : M unit :=
  mapM (check_modulus moduli) (enumerate moduli) ;;;
  validate_pairs moduli ;;;
  mapM (check_ntt isp degree) (enumerate moduli) ;;;
  (if fold_left Z.mul moduli 1 <=? t then Err ParPlaintextTooLarge else Val tt) ;;;
  mapM (check_plaintext t) (enumerate moduli) ;;;
  Val tt.

(** parameters.rs:579-592: how many moduli the plaintext context takes. *)
Fixpoint plain_count (sizes : list Z) (t_bits acc : Z) : nat :=
  match sizes with
  | [] => O
  | s :: sizes' => if t_bits + 60 <=? acc + s then 1%nat else S (plain_count sizes' t_bits (acc + s))
  end.
Definition plaintext_moduli_count (moduli sizes : list Z) (t : Z) : nat :=
  Nat.min (Nat.max (plain_count sizes (nbits t) 0) 1) (length moduli).

(** parameters.rs:609-621: the residue of -1/t modulo one prime. *)
Definition delta_rest (isp : Z -> bool) (t m : Z) : M Z :=
  q <- modulus_new m ;;
  n <- zq_neg q (t mod m) ;;
  o <- zq_inv isp q n ;;
  ok_or o (NonInvertible n m).
(** parameters.rs:604-655: the ciphertext/plaintext bridge of one level. *)
Definition cipher_plain (isp : Z -> bool) (cands : Z -> list Z) (degree : nat) (t : Z) (plain : ctx) (moduli : list Z) : M cp_ctx :=
  cipher <- context_new isp cands moduli degree ;;
  rests <- mapM (delta_rest isp t) moduli ;;
  rns <- rns_new moduli ;;
  d <- lift rns rests ;;
  p <- pb_from_big cipher [d] true ;;
  delta <- pb_into NttShoup p ;;
  guard (negb (t =? 0)) ;;;
  f <- factor_new t (rns_product rns) ;;
  s <- poly_scaler_new cipher plain f ;;
  Val (mkCp delta (rns_product rns mod t) (Z.shiftr (t + 1) 1) s plain cipher).

(** parameters.rs:660-676: [want] primes of 62 bits that are not ciphertext moduli.  Each round lowers the bound. *)
Fixpoint extended_basis_loop (isp : Z -> bool) (fuel : nat) (want : nat) (degree upper : Z) (moduli acc : list Z) : M (list Z) :=
  if Nat.eqb (length acc) want then Val acc
  else
    match fuel with
    | O => Panic
    | S f =>
        o <- generate_prime isp 62 (2 * degree) upper ;;
        p <- ok_or o (ParNotEnoughPrimes 62 degree) ;;
        extended_basis_loop isp f want degree p moduli
          (if negb (existsb (Z.eqb p) acc) && negb (existsb (Z.eqb p) moduli) then acc ++ [p] else acc)
    end.
Definition extended_basis (isp : Z -> bool) (degree : Z) (moduli : list Z) : M (list Z) :=
  extended_basis_loop isp (2 * length moduli + 2) (length moduli + 1) degree (Z.shiftl 1 62) moduli [].

(** parameters.rs:688-691, ops/mul.rs:104-107: number of extra moduli for a product of the given bit sizes. *)
Definition sum_sizes (l : list Z) : Z := fold_left Z.add l 0.
Definition mul_moduli_count (sizes : list Z) : nat := Z.to_nat ((sum_sizes sizes + 60 + 61) / 62).
(** [&l[..n]] *)
Definition slice_to {A} (l : list A) (n : nat) : M (list A) := guard (Nat.leb n (length l)) ;;; Val (firstn n l).
(** parameters.rs:680-709: the data of one level. *)
Definition build_level (isp : Z -> bool) (cands : Z -> list Z) (degree : nat) (t : Z) (moduli sizes ext : list Z) (lc : nat * cp_ctx) : M level_ctx :=
  let '(level, cp) := lc in
  let c := cp_cipher cp in
  let k := (length moduli - level)%nat in
  extra <- slice_to ext (mul_moduli_count (firstn k sizes)) ;;
  mctx <- context_new isp cands (firstn k moduli ++ extra) degree ;;
  f <- factor_new t (rns_product (c_rns c)) ;;
  mp <- mul_params_new c mctx factor_one f ;;
  Val (mkLevel c cp level mp).

(** parameters.rs:711-726 the slot map. *)
Fixpoint index_loop (degree : Z) (rows : nat) (i : nat) (pos : Z) (map : list nat) : M (list nat) :=
  match rows with
  | O => Val map
  | S r =>
      let m := Z.shiftl degree 1 in
      a <- chk64 (pos - 1) ;;
      b <- chk64 (m - pos - 1) ;;
      let index1 := Z.shiftr a 1 in
      let index2 := Z.shiftr b 1 in
      let row_size := Z.shiftr degree 1 in
      let map := set_nth map i (Z.to_nat (bitrev_index degree index1)) in
      let map := set_nth map (Z.to_nat (Z.lor row_size (Z.of_nat i))) (Z.to_nat (bitrev_index degree index2)) in
      pos' <- chk64 (pos * 3) ;;
      index_loop degree r (S i) (Z.land pos' (m - 1)) map
  end.
Definition index_map (degree : Z) : M (list nat) :=
  index_loop degree (Z.to_nat (Z.shiftr degree 1)) 0 1 (repeat 0%nat (Z.to_nat degree)).

(** parameters.rs:559-738 [build]; [build_arc] gives the result an address [id]. *)
Definition build (isp : Z -> bool) (cands : Z -> list Z) (id : Z) (b : builder) : M params :=
  validate_configuration b ;;;
  let t := b_plaintext b in
  small <- plaintext_small t ;;
  moduli <- match b_sizes b with
            | [] => Val (b_moduli b)
            | sizes => generate_moduli isp sizes (b_degree b)
            end ;;
  validate_moduli isp (b_degree b) t moduli ;;;
  let degree := Z.to_nat (b_degree b) in
  let sizes := map nbits moduli in
  plain <- context_new isp cands (firstn (plaintext_moduli_count moduli sizes t) moduli) degree ;;
  ntt <- match small with
         | Some m => ntt_new isp (cands t) m degree
         | None => Val None
         end ;;
  cps <- mapM (fun i => cipher_plain isp cands degree t plain (firstn (length moduli - i) moduli)) (rev (seq 0 (length moduli))) ;;
  ext <- extended_basis isp (b_degree b) moduli ;;
  levels <- mapM (build_level isp cands degree t moduli sizes ext) (enumerate (rev cps)) ;;
  index <- index_map (b_degree b) ;;
  Val (mkParams id degree moduli sizes (b_variance b) levels ntt t small index).

(** The message [Parameters] of proto/bfv.proto; the oneof field is the value of the plaintext modulus with its
    encoding. *)
Inductive plain_proto := PpU64 (v : Z) | PpBig (bytes : list Z).
Record params_proto := mkPp { pp_degree : Z; pp_moduli : list Z; pp_variance : Z; pp_plain : option plain_proto }.
(** [BigUint::to_bytes_le], [from_bytes_le]. *)
Fixpoint bytes_le (fuel : nat) (v : Z) : list Z :=
  match fuel with
  | O => []
  | S f => if v <? 256 then [v] else v mod 256 :: bytes_le f (v / 256)
  end.
Definition big_to_bytes (v : Z) : list Z := bytes_le (S (Z.to_nat (nbits v))) v.
Fixpoint big_from_bytes (l : list Z) : Z := match l with [] => 0 | b :: t => b + 256 * big_from_bytes t end.
(** parameters.rs:741-759 [to_bytes]. *)
Definition params_to_proto (p : params) : params_proto :=
  mkPp (Z.of_nat (pa_degree p) mod W32) (pa_moduli p) (pa_variance p mod W32)
    (Some (match pa_small p with Some m => PpU64 (mod_p m) | None => PpBig (big_to_bytes (pa_t p)) end)).
(** parameters.rs:761-789 [try_deserialize] (after decoding). *)
Definition params_from_proto (isp : Z -> bool) (cands : Z -> list Z) (id : Z) (m : params_proto) : M params :=
  t <- match pp_plain m with
       | Some (PpU64 v) => Val v
       | Some (PpBig b) => Val (big_from_bytes b)
       | None => Err SerMissingField
       end ;;
  build isp cands id (mkBuilder (pp_degree m) t (pp_variance m) (pp_moduli m) []).
