(** Model of crates/fhe/src/bfv/ciphertext.rs, keys/secret_key.rs and keys/public_key.rs.
    Random values are arguments: each call of [Poly::small] or [sample_vec_cbd] takes its own stream of 64-bit words,
    each fresh seed is an argument, and [Poly::random_from_seed] (SHA-256, ChaCha8 and rejection sampling) is the
    oracle [expand], a function of the seed, the moduli and the degree.  Protobuf framing is not modelled: messages
    are records and a serialized polynomial is its message.  Zeroization is not modelled. *)
From Verif Require Import Outcome ZqModel NttModel TranscodeModel CbdModel RnsModel RqModel ParamsModel PlainModel.

(** A seed is a list of 32 bytes. *)
Definition seed := list Z.
Definition expander := seed -> list Z -> nat -> list (list Z).
(** rq/mod.rs:276-292 [random_from_seed]. *)
Definition poly_from_seed (expand : expander) (R : repn) (c : ctx) (sd : seed) : M (poly R) :=
  poly_random R c (expand sd (c_moduli c) (c_degree c)).

(** ** ciphertext.rs *)

(** ciphertext.rs:18-30 [struct Ciphertext]. *)
Record ciphertext := mkCt { ct_par : params; ct_seed : option seed; ct_c : list (poly Ntt); ct_level : nat }.
Definition option_eqb (a b : option seed) : bool :=
  match a, b with None, None => true | Some x, Some y => list_eqb x y | _, _ => false end.
Fixpoint polys_eqb (a b : list (poly Ntt)) : bool :=
  match a, b with
  | [], [] => true
  | x :: a', y :: b' => poly_eqb x y && polys_eqb a' b'
  | _, _ => false
  end.
(** ciphertext.rs:17 derived [PartialEq]. *)
Definition ct_eqb (a b : ciphertext) : bool :=
  par_eqb (ct_par a) (ct_par b) && option_eqb (ct_seed a) (ct_seed b) && polys_eqb (ct_c a) (ct_c b) && Nat.eqb (ct_level a) (ct_level b).
(** ciphertext.rs:40-44 [DerefMut]: the caller may overwrite the polynomials in place; the length cannot change. *)
Definition ct_overwrite (ct : ciphertext) (i : nat) (p : poly Ntt) : ciphertext :=
  mkCt (ct_par ct) (ct_seed ct) (set_nth (ct_c ct) i p) (ct_level ct).

(** ciphertext.rs:51-79 [Ciphertext::new]. *)
Definition ct_new (c : list (poly Ntt)) (par : params) : M ciphertext :=
  match c with
  | p0 :: _ :: _ =>
      l <- level_of_context par (p_ctx p0) ;;
      if existsb (fun p => negb (ctx_eqb (p_ctx p) (p_ctx p0))) c then Err CtPolynomialContextMismatch
      else Val (mkCt par None c l)
  | _ => Err (TooFewPolynomials (len c) 2)
  end.
(** ciphertext.rs:112-138 [validate_context]. *)
Definition ct_validate_context (ct : ciphertext) (level : nat) (c : ctx) : M unit :=
  if Nat.ltb (length (ct_c ct)) 2 then Err (TooFewPolynomials (len (ct_c ct)) 2)
  else if negb (Nat.eqb (ct_level ct) level) then Err (InvalidLevel (Z.of_nat (ct_level ct)) (Z.of_nat level) (Z.of_nat level))
  else if existsb (fun p => negb (ctx_eqb (p_ctx p) c)) (ct_c ct) then Err CtPolynomialContextMismatch
  else Val tt.
(** ciphertext.rs:83-92 [validate_for], 96-109 [validate_for_context]. *)
Definition ct_validate_for (ct : ciphertext) (par : params) : M unit :=
  if negb (par_same (ct_par ct) par) then Err ParameterMismatch
  else c <- par_context par (ct_level ct) ;; ct_validate_context ct (ct_level ct) c.
Definition ct_validate_for_context (ct : ciphertext) (par : params) (level : nat) (c : ctx) : M unit :=
  if negb (par_same (ct_par ct) par) then Err ParameterMismatch else ct_validate_context ct level c.
(** ciphertext.rs:141-143 [truncate]. *)
Definition ct_truncate (ct : ciphertext) (n : nat) : ciphertext :=
  mkCt (ct_par ct) (ct_seed ct) (firstn n (ct_c ct)) (ct_level ct).

(** ciphertext.rs:148-161 [switch_down]. *)
Definition ntt_switch_down (p : poly Ntt) : M (poly Ntt) :=
  pb <- ntt_into_pb p ;; pb <- switch_down pb ;; pb_into_ntt pb.
Definition ct_switch_down (ct : ciphertext) : M ciphertext :=
  if Nat.leb (max_level (ct_par ct)) (ct_level ct) then Err NoMoreContext
  else c <- mapM ntt_switch_down (ct_c ct) ;; Val (mkCt (ct_par ct) None c (S (ct_level ct))).
(** ciphertext.rs:164-183 [switch_to_level]; the loop runs [target - level] times. *)
Definition ct_switch_to_level (ct : ciphertext) (target : nat) : M ciphertext :=
  if Nat.ltb target (ct_level ct) || Nat.ltb (max_level (ct_par ct)) target
  then Err (InvalidLevel (Z.of_nat target) (Z.of_nat (ct_level ct)) (Z.of_nat (max_level (ct_par ct))))
  else iterM (target - ct_level ct) ct_switch_down ct.
(** ciphertext.rs:220-227 [zero]. *)
Definition ct_zero (par : params) : ciphertext := mkCt par None [] 0.

(** The message [Ciphertext] of proto/bfv.proto. *)
Record ct_proto := mkCtp { cp_c : list rq_proto; cp_seed : list Z; cp_level : Z }.
(** ciphertext.rs:231-259 [CiphertextProto::from]. *)
Definition ct_to_proto (ct : ciphertext) : M ct_proto :=
  cs <- match ct_c ct, ct_seed ct with
        | [], _ => Val []
        | c, Some _ => mapM poly_to_proto (removelast c)
        | c, None => mapM poly_to_proto c
        end ;;
  Val (mkCtp cs (match ct_c ct, ct_seed ct with _ :: _, Some s => s | _, _ => [] end) (Z.of_nat (ct_level ct) mod W32)).
(** ciphertext.rs:261-317 [try_convert_from]. *)
Definition seed_of_bytes (b : list Z) : M seed := if len b =? 32 then Val b else Err (InvalidSeedSize (len b) 32).
Definition ct_from_proto (expand : expander) (m : ct_proto) (par : params) : M ciphertext :=
  let seeded := negb (Nat.eqb (length (cp_seed m)) 0) in
  if Nat.eqb (length (cp_c m)) 0 || (Nat.eqb (length (cp_c m)) 1 && negb seeded)
  then Err (InvalidCiphertextPolynomialCount (len (cp_c m)) seeded)
  else if Z.of_nat (max_level par) <? cp_level m then Err (InvalidLevel (cp_level m) 0 (Z.of_nat (max_level par)))
  else
    let level := Z.to_nat (cp_level m) in
    c <- par_context par level ;;
    cs <- mapM (fun b => poly_from_proto Ntt b c false) (cp_c m) ;;
    '(sd, cs) <- (if seeded then
                    sd <- seed_of_bytes (cp_seed m) ;;
                    c1 <- poly_from_seed expand Ntt c sd ;;
                    Val (Some sd, cs ++ [c1])
                  else Val (None, cs)) ;;
    Val (mkCt par sd (map allow_vt cs) level).

(** ** keys/secret_key.rs *)

(** secret_key.rs:21-25 [struct SecretKey]. *)
Record secret_key := mkSk { sk_par : params; sk_coeffs : list Z }.
(** secret_key.rs:42-45 [random]. *)
Definition sk_random (par : params) (rng : nat -> Z) : M secret_key :=
  match sample_vec_cbd rng (pa_degree par) (pa_variance par) with
  | Val (v, _) => Val (mkSk par v)
  | _ => Panic
  end.
(** The secret key as a polynomial of a context, secret_key.rs:111-113. *)
Definition sk_poly (sk : secret_key) (c : ctx) : M (poly Ntt) :=
  p <- pb_from_i64 c (sk_coeffs sk) false ;; pb_into_ntt p.
(** secret_key.rs:100-134 [encrypt_poly]; [sd] is the fresh seed, [rng] the stream of the error. *)
Definition encrypt_poly (expand : expander) (sk : secret_key) (p : poly Ntt) (sd : seed) (rng : nat -> Z) : M ciphertext :=
  level <- level_of_context (sk_par sk) (p_ctx p) ;;
  s <- sk_poly sk (p_ctx p) ;;
  a <- poly_from_seed expand Ntt (p_ctx p) sd ;;
  a_s <- poly_mul a s ;;
  b <- poly_small Ntt (p_ctx p) (pa_variance (sk_par sk)) rng ;;
  b <- poly_sub b a_s ;;
  b <- poly_add b p ;;
  Val (mkCt (sk_par sk) (Some sd) [allow_vt b; allow_vt a] level).
(** secret_key.rs:184-192 [try_encrypt]. *)
Definition sk_encrypt (expand : expander) (sk : secret_key) (pt : plaintext) (sd : seed) (rng : nat -> Z) : M ciphertext :=
  pt_validate_for pt (sk_par sk) ;;;
  m <- to_poly pt ;;
  encrypt_poly expand sk m sd rng.

(** secret_key.rs:205-220: the phase c0 + c1*s + c2*s^2 + ..; [si] is the current power of [s]. *)
Fixpoint phase_loop (s : poly Ntt) (rest : list (poly Ntt)) (si c : poly Ntt) : M (poly Ntt) :=
  match rest with
  | [] => Val c
  | ci :: rest' =>
      cis <- poly_mul (disallow_vt ci) si ;;
      c <- poly_add c cis ;;
      si <- match rest' with [] => Val si | _ => poly_mul si s end ;;
      phase_loop s rest' si c
  end.
(** secret_key.rs:198-260 [try_decrypt]. *)
Definition sk_decrypt (sk : secret_key) (ct : ciphertext) : M plaintext :=
  let par := sk_par sk in
  ct_validate_for ct par ;;;
  c0 <- get (ct_c ct) 0 ;;
  s <- sk_poly sk (p_ctx c0) ;;
  c <- phase_loop s (tl (ct_c ct)) s (disallow_vt c0) ;;
  lv <- context_level_at par (ct_level ct) ;;
  pb <- ntt_into_pb c ;;
  d <- poly_scale (cp_scaler (lv_cp lv)) pb ;;
  p <- match pa_small par with
       | Some t =>
           v <- mapM (fun x => chk64 (x + mod_p t)) (poly_to_u64 d) ;;
           w <- slice_to v (pa_degree par) ;;
           q0 <- get (pa_moduli par) 0 ;;
           q <- modulus_new q0 ;;
           w <- reduce_vec q w ;;
           w <- reduce_vec t w ;;
           pb_from_u64 (p_ctx c0) w false
       | None =>
           v <- poly_to_big d ;;
           w <- slice_to (map (fun x => x + pa_t par) v) (pa_degree par) ;;
           w <- reduce_big (rns_product (c_rns (p_ctx d))) w ;;
           w <- reduce_big (pa_t par) w ;;
           pb_from_big (p_ctx c0) w false
       end ;;
  p <- pb_into_ntt p ;;
  Val (mkPt par None p).

(** secret_key.rs:61-98 [measure_noise]; here every power of [s] is computed, including an unused last one. *)
Fixpoint phase_loop_all (s : poly Ntt) (rest : list (poly Ntt)) (si c : poly Ntt) : M (poly Ntt) :=
  match rest with
  | [] => Val c
  | ci :: rest' =>
      cis <- poly_mul (disallow_vt ci) si ;;
      c <- poly_add c cis ;;
      si <- poly_mul si s ;;
      phase_loop_all s rest' si c
  end.
Definition measure_noise (sk : secret_key) (ct : ciphertext) : M Z :=
  pt <- sk_decrypt sk ct ;;
  m <- to_poly pt ;;
  c0 <- get (ct_c ct) 0 ;;
  s <- sk_poly sk (p_ctx c0) ;;
  c <- phase_loop_all s (tl (ct_c ct)) s (disallow_vt c0) ;;
  c <- poly_sub c m ;;
  c <- ntt_into_pb c ;;
  v <- poly_to_big c ;;
  Val (fold_left (fun n x => Z.max n (Z.min (nbits x) (nbits (rns_product (c_rns (p_ctx c0)) - x)))) v 0).

(** secret_key.rs:137-175 serialization. *)
Definition sk_to_proto (sk : secret_key) : list Z := sk_coeffs sk.
Definition sk_from_proto (coeffs : list Z) (par : params) : M secret_key :=
  if negb (Nat.eqb (length coeffs) (pa_degree par))
  then Err (InvalidSecretKeyCoefficientCount (len coeffs) (Z.of_nat (pa_degree par)))
  else Val (mkSk par coeffs).

(** ** keys/public_key.rs *)

(** public_key.rs:17-22 [struct PublicKey]. *)
Record public_key := mkPk { pk_par : params; pk_c : ciphertext }.
(** public_key.rs:26-37 [new]. *)
Definition map_polys (f : poly Ntt -> poly Ntt) (ct : ciphertext) : ciphertext :=
  mkCt (ct_par ct) (ct_seed ct) (map f (ct_c ct)) (ct_level ct).
Definition no_err {A} (m : M A) : M A := match m with Err _ => Panic | r => r end.      (* [Result::unwrap] *)
Definition pk_new (expand : expander) (sk : secret_key) (sd : seed) (rng : nat -> Z) : M public_key :=
  zero <- no_err (pt_zero (mkEnc EncPoly 0) (sk_par sk)) ;;
  c <- no_err (sk_encrypt expand sk zero sd rng) ;;
  Val (mkPk (sk_par sk) (map_polys disallow_vt c)).
(** public_key.rs:47-97 [try_encrypt]; the streams [ru], [r1], [r2] are those of [u], [e1], [e2].  Levels are checked
    before the loop, so it runs [plaintext_level - level] times. *)
Definition pk_encrypt (pk : public_key) (pt : plaintext) (ru r1 r2 : nat -> Z) : M ciphertext :=
  let par := pk_par pk in
  pt_validate_for pt par ;;;
  ct_validate_for (pk_c pk) par ;;;
  pl <- pt_level pt ;;
  if Nat.ltb pl (ct_level (pk_c pk))
  then Err (InvalidLevel (Z.of_nat pl) (Z.of_nat (ct_level (pk_c pk))) (Z.of_nat (max_level par)))
  else
    ct <- iterM (pl - ct_level (pk_c pk)) ct_switch_down (pk_c pk) ;;
    c <- par_context par (ct_level ct) ;;
    u <- poly_small Ntt c (pa_variance par) ru ;;
    e1 <- poly_small Ntt c (pa_variance par) r1 ;;
    e2 <- poly_small Ntt c (pa_variance par) r2 ;;
    m <- to_poly pt ;;
    a0 <- get (ct_c ct) 0 ;;
    c0 <- poly_mul u a0 ;; c0 <- poly_add c0 e1 ;; c0 <- poly_add c0 m ;;
    a1 <- get (ct_c ct) 1 ;;
    c1 <- poly_mul u a1 ;; c1 <- poly_add c1 e2 ;;
    Val (mkCt par None [allow_vt c0; allow_vt c1] (ct_level ct)).
(** public_key.rs:100-151 serialization; the optional field is the ciphertext message. *)
Definition pk_to_proto (pk : public_key) : M (option ct_proto) := m <- ct_to_proto (pk_c pk) ;; Val (Some m).
Definition pk_from_proto (expand : expander) (m : option ct_proto) (par : params) : M public_key :=
  match m with
  | None => Err SerMissingField
  | Some m =>
      c <- ct_from_proto expand m par ;;
      if negb (Nat.eqb (ct_level c) 0) then Err (InvalidPublicKeyLevel (Z.of_nat (ct_level c)))
      else Val (mkPk par (map_polys disallow_vt c))
  end.
