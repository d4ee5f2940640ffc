(** Model of crates/fhe-math/src/rq: contexts, polynomials, their arithmetic, conversions,
    serialization and scaling.

    [usize] is a 64-bit word.  The rows of the [Array2] of coefficients (one row per modulus) are a list
    of lists; memory layout, zeroization, [Arc] sharing and reference/owned variants of the operators
    are not modelled.  Protobuf framing is not modelled: messages are records. *)
From Verif Require Import Outcome ZqModel NttModel TranscodeModel CbdModel RnsModel.

(** ** rq/context.rs *)

(** context.rs:9-19 [struct Context]. *)
Inductive ctx : Type := mkCtx {
  c_moduli : list Z;
  c_q : list modulus;
  c_rns : rns_ctx;
  c_ops : list ntt_op;
  c_degree : nat;
  c_bitrev : list nat;
  c_inv : list Z;
  c_inv_shoup : list Z;
  c_next : option ctx
}.

(** context.rs:8 derived [PartialEq].  Every field of a context made by [Context::new] is a function of
    the moduli and the degree (the generator of ntt/native.rs:325 has a fixed seed), so comparing those
    two decides the derived equality; RqCtx.v [built_eq] proves it for the model. *)
Definition ctx_eqb (a b : ctx) : bool :=
  list_eqb (c_moduli a) (c_moduli b) && Nat.eqb (c_degree a) (c_degree b).

(** context.rs:49-57: modulus and NTT operator of one prime. *)
Definition ctx_entry (isp : Z -> bool) (cands : Z -> list Z) (degree : nat) (p : Z) : M (modulus * ntt_op) :=
  q <- modulus_new p ;;
  o <- ntt_new isp (cands p) q degree ;;
  op <- ok_or o (NttOperatorUnavailable p (Z.of_nat degree)) ;;
  Val (q, op).

(** context.rs:68-72: inverse of the last modulus modulo [qi]. *)
Definition ctx_inv (isp : Z -> bool) (q_last : Z) (qi : modulus) : M (Z * Z) :=
  r <- reduce qi q_last ;;
  o <- zq_inv isp qi r ;; inv <- unwrap o ;;
  s <- shoup qi inv ;;
  Val (inv, s).

(** context.rs:42-92 [Context::new].  [isp] is the primality oracle, [cands p] the candidates drawn when
    looking for a root modulo [p].  The recursion drops one modulus at a time; [fuel] bounds its depth. *)
Fixpoint context_new_fuel (isp : Z -> bool) (cands : Z -> list Z) (fuel : nat) (moduli : list Z) (degree : nat) : M ctx :=
  match fuel with
  | O => Panic
  | S f =>
      let n := Z.of_nat degree in
      if negb (is_power_of_two n) || (n <? 8) then Err (InvalidPolynomialDegree n)
      else
        rns <- rns_new moduli ;;
        es <- mapM (ctx_entry isp cands degree) moduli ;;
        let q := map fst es in
        let ops := map snd es in
        let bitrev := map (fun j => Z.to_nat (bitrev_index n (Z.of_nat j))) (seq 0 degree) in
        q_last <- unwrap (nth_error moduli (length moduli - 1)) ;;
        invs <- mapM (ctx_inv isp q_last) (removelast q) ;;
        next <- (if Nat.leb 2 (length moduli)
                 then c <- context_new_fuel isp cands f (removelast moduli) degree ;; Val (Some c)
                 else Val None) ;;
        Val (mkCtx moduli q rns ops degree bitrev (map fst invs) (map snd invs) next)
  end.
Definition context_new (isp : Z -> bool) (cands : Z -> list Z) (moduli : list Z) (degree : nat) : M ctx :=
  context_new_fuel isp cands (S (length moduli)) moduli degree.

(** context.rs:119-140 [niterations_to]; the loop follows [next_context]. *)
Fixpoint niterations_loop (c target : ctx) : option nat :=
  match c_next c with
  | None => None
  | Some c' => if ctx_eqb c' target then Some 1%nat
               else match niterations_loop c' target with Some n => Some (S n) | None => None end
  end.
Definition niterations_to (c target : ctx) : M nat :=
  if ctx_eqb target c then Val O else ok_or (niterations_loop c target) ContextNotReachable.

(** context.rs:143-156 [context_at_level]. *)
Fixpoint follow (i : nat) (c : ctx) : M ctx :=
  match i with O => Val c | S i' => c' <- unwrap (c_next c) ;; follow i' c' end.
Definition context_at_level (c : ctx) (i : nat) : M ctx :=
  if Nat.leb (length (c_moduli c)) i
  then Err (InvalidContextLevel (Z.of_nat i) (Z.of_nat (length (c_moduli c) - 1)))
  else follow i c.

(** ** rq/mod.rs *)

(** mod.rs:28-78 the representation tags. *)
Inductive repn := PowerBasis | Ntt | NttShoup.

(** mod.rs:126-133 [struct Poly<R>]. *)
Record poly (R : repn) := mkPoly {
  p_ctx : ctx;
  p_lazy : bool;
  p_vt : bool;
  p_coeffs : list (list Z);
  p_shoup : option (list (list Z))
}.
Arguments mkPoly {R} _ _ _ _ _.
Arguments p_ctx {R} _.
Arguments p_lazy {R} _.
Arguments p_vt {R} _.
Arguments p_coeffs {R} _.
Arguments p_shoup {R} _.

Definition with_coeffs {R} (p : poly R) (rows : list (list Z)) : poly R :=
  mkPoly (p_ctx p) (p_lazy p) (p_vt p) rows (p_shoup p).
Definition zero_rows (c : ctx) : list (list Z) := repeat (repeat 0 (c_degree c)) (length (c_q c)).

(** mod.rs:135-144 [PartialEq]. *)
Definition rows_eqb (a b : list (list Z)) : bool := if list_eq_dec (list_eq_dec Z.eq_dec) a b then true else false.
Definition shoup_eqb (a b : option (list (list Z))) : bool :=
  match a, b with None, None => true | Some x, Some y => rows_eqb x y | _, _ => false end.
Definition poly_eqb {R} (a b : poly R) : bool :=
  ctx_eqb (p_ctx a) (p_ctx b) && Bool.eqb (p_lazy a) (p_lazy b) &&
  rows_eqb (p_coeffs a) (p_coeffs b) && shoup_eqb (p_shoup a) (p_shoup b).

(** mod.rs:86-122 [SubstitutionExponent]. *)
Record subst_exp := mkSubst { se_exponent : Z; se_ctx : ctx; se_power_bitrev : list nat }.
Fixpoint power_bitrevs (n e : Z) (k : nat) (power : Z) : M (list nat) :=
  match k with
  | O => Val []
  | S k' =>
      let r := Z.to_nat (bitrev_index n (Z.land power (n - 1))) in
      power <- chk64 (power + e) ;;
      rest <- power_bitrevs n e k' power ;;
      Val (r :: rest)
  end.
Definition subst_new (c : ctx) (exponent : Z) : M subst_exp :=
  let n := Z.of_nat (c_degree c) in
  n2 <- chk64 (2 * n) ;;
  guard (negb (n2 =? 0)) ;;;
  let e := exponent mod n2 in
  if Z.land e 1 =? 0 then Err (InvalidSubstitutionExponent e n)
  else
    pb <- power_bitrevs n e (c_degree c) ((e - 1) / 2) ;;
    Val (mkSubst e c pb).

(** mod.rs:189-204 [zero]. *)
Definition poly_zero (R : repn) (c : ctx) : poly R :=
  mkPoly c false false (zero_rows c) (match R with NttShoup => Some (zero_rows c) | _ => None end).

(** mod.rs:211-225: the variable-time permission. *)
Definition allow_vt {R} (p : poly R) : poly R := mkPoly (p_ctx p) (p_lazy p) true (p_coeffs p) (p_shoup p).
Definition disallow_vt {R} (p : poly R) : poly R := mkPoly (p_ctx p) (p_lazy p) false (p_coeffs p) (p_shoup p).

(** mod.rs:244-258 [compute_coefficients_shoup]. *)
Definition shoup_rows (c : ctx) (rows : list (list Z)) : M (list (list Z)) :=
  map2M (fun v q => shoup_vec q v) rows (c_q c).

(** mod.rs:628-659 [from_parts]. *)
Definition from_parts {T} (R : repn) (p : poly T) : M (poly R) :=
  sh <- match R with
        | NttShoup => match p_shoup p with
                      | Some s => Val (Some s)
                      | None => s <- shoup_rows (p_ctx p) (p_coeffs p) ;; Val (Some s)
                      end
        | _ => Val None
        end ;;
  Val (mkPoly (p_ctx p) (p_lazy p) (p_vt p) (p_coeffs p) sh).

(** mod.rs:335-354 [ntt_forward], [ntt_backward]. *)
Definition fwd_rows (vt : bool) (ops : list ntt_op) (rows : list (list Z)) : M (list (list Z)) :=
  zip_upd (fun v op => if vt then ntt_forward_vt op v else ntt_forward op v) rows ops.
Definition bwd_rows (vt : bool) (ops : list ntt_op) (rows : list (list Z)) : M (list (list Z)) :=
  zip_upd (fun v op => if vt then ntt_backward_vt op v else ntt_backward op v) rows ops.

(** mod.rs:535-546 [Poly<PowerBasis>::into_ntt, into_ntt_shoup]. *)
Definition pb_into_ntt (p : poly PowerBasis) : M (poly Ntt) :=
  rows <- fwd_rows (p_vt p) (c_ops (p_ctx p)) (p_coeffs p) ;;
  from_parts Ntt (with_coeffs p rows).
Definition pb_into_ntt_shoup (p : poly PowerBasis) : M (poly NttShoup) :=
  rows <- fwd_rows (p_vt p) (c_ops (p_ctx p)) (p_coeffs p) ;;
  sh <- shoup_rows (p_ctx p) rows ;;
  from_parts NttShoup (mkPoly (R := PowerBasis) (p_ctx p) (p_lazy p) (p_vt p) rows (Some sh)).
(** mod.rs:590-600 [Poly<Ntt>::into_power_basis, into_ntt_shoup]. *)
Definition ntt_into_pb (p : poly Ntt) : M (poly PowerBasis) :=
  rows <- bwd_rows (p_vt p) (c_ops (p_ctx p)) (p_coeffs p) ;;
  from_parts PowerBasis (with_coeffs p rows).
Definition ntt_into_shoup (p : poly Ntt) : M (poly NttShoup) :=
  sh <- shoup_rows (p_ctx p) (p_coeffs p) ;;
  from_parts NttShoup (mkPoly (R := Ntt) (p_ctx p) (p_lazy p) (p_vt p) (p_coeffs p) (Some sh)).
(** mod.rs:612-625 [Poly<NttShoup>::into_ntt, into_power_basis]. *)
Definition shoup_into_ntt (p : poly NttShoup) : M (poly Ntt) :=
  from_parts Ntt (mkPoly (R := NttShoup) (p_ctx p) (p_lazy p) (p_vt p) (p_coeffs p) None).
Definition shoup_into_pb (p : poly NttShoup) : M (poly PowerBasis) :=
  rows <- bwd_rows (p_vt p) (c_ops (p_ctx p)) (p_coeffs p) ;;
  from_parts PowerBasis (mkPoly (R := NttShoup) (p_ctx p) (p_lazy p) (p_vt p) rows None).
(** The conversion to [R] of a power-basis polynomial, as in mod.rs:319-325. *)
Definition pb_into (R : repn) (p : poly PowerBasis) : M (poly R) :=
  match R with
  | PowerBasis => from_parts PowerBasis p
  | Ntt => pb_into_ntt p
  | NttShoup => pb_into_ntt_shoup p
  end.
Definition into_pb {R} : poly R -> M (poly PowerBasis) :=
  match R with
  | PowerBasis => fun p => Val p
  | Ntt => ntt_into_pb
  | NttShoup => shoup_into_pb
  end.

(** mod.rs:261-292 [random], [random_from_seed]; [rows] are the vectors drawn from the generator, one per
    modulus (zq/mod.rs:765-767 [random_vec]). *)
Definition poly_random (R : repn) (c : ctx) (rows : list (list Z)) : M (poly R) :=
  sh <- match R with NttShoup => s <- shoup_rows c rows ;; Val (Some s) | _ => Val None end ;;
  Val (mkPoly c false false rows sh).

(** ** rq/convert.rs *)

(** convert.rs:148-193 [Vec<u64>] to [Poly<PowerBasis>]. *)
Definition rows_of (c : ctx) (v : list Z) : list (list Z) := fst (chunks_n (length (c_q c)) (c_degree c) v).
Definition pb_from_u64 (c : ctx) (v : list Z) (vt : bool) : M (poly PowerBasis) :=
  if Nat.eqb (length v) (length (c_q c) * c_degree c) then
    Val (mkPoly c false vt (rows_of c v) None)
  else if Nat.leb (length v) (c_degree c) then
    rows <- mapM (fun q => (if vt then reduce_vec_vt else reduce_vec) q (v ++ repeat 0 (c_degree c - length v))) (c_q c) ;;
    Val (mkPoly c false vt rows None)
  else Err (InvalidCoefficientCount (Z.of_nat (length v))).
(** convert.rs:195-241 [Vec<u64>] to [Poly<Ntt>], [Poly<NttShoup>]. *)
Definition ntt_from_u64 (c : ctx) (v : list Z) (vt : bool) : M (poly Ntt) :=
  if Nat.eqb (length v) (length (c_q c) * c_degree c) then Val (mkPoly c false vt (rows_of c v) None)
  else Err (InvalidCoefficientCount (Z.of_nat (length v))).
Definition shoup_from_u64 (c : ctx) (v : list Z) (vt : bool) : M (poly NttShoup) :=
  if Nat.eqb (length v) (length (c_q c) * c_degree c) then
    sh <- shoup_rows c (rows_of c v) ;; Val (mkPoly c false vt (rows_of c v) (Some sh))
  else Err (InvalidCoefficientCount (Z.of_nat (length v))).
(** convert.rs:243-309 [Array2<u64>]; an array of [r] rows and [k] columns is a list of [r] lists of
    length [k]. *)
Definition shape_ok (c : ctx) (rows : list (list Z)) : bool :=
  Nat.eqb (length rows) (length (c_q c)) && forallb (fun r => Nat.eqb (length r) (c_degree c)) rows.
Definition poly_from_array (R : repn) (c : ctx) (rows : list (list Z)) (vt : bool) : M (poly R) :=
  if negb (shape_ok c rows) then Err InvalidCoefficientShape
  else
    sh <- match R with NttShoup => s <- shoup_rows c rows ;; Val (Some s) | _ => Val None end ;;
    Val (mkPoly c false vt rows sh).
(** convert.rs:329-354 [&[i64]] to [Poly<PowerBasis>]. *)
Definition pb_from_i64 (c : ctx) (v : list Z) (vt : bool) : M (poly PowerBasis) :=
  if Nat.leb (length v) (c_degree c) then
    rows <- mapM (fun q => r <- (if vt then reduce_vec_i64_vt else reduce_vec_i64) q v ;;
                           Val (r ++ repeat 0 (c_degree c - length v))) (c_q c) ;;
    Val (mkPoly c false vt rows None)
  else Err (TooManyCoefficients (Z.of_nat (length v)) (Z.of_nat (c_degree c))).
(** convert.rs:362-401 [&[BigUint]]; a polynomial is a matrix, [transpose k cols] has [k] rows. *)
Definition transpose (k : nat) (cols : list (list Z)) : list (list Z) :=
  map (fun i => map (fun col => nth i col 0) cols) (seq 0 k).
Definition pb_from_big (c : ctx) (v : list Z) (vt : bool) : M (poly PowerBasis) :=
  if Nat.ltb (c_degree c) (length v) then Err (TooManyCoefficients (Z.of_nat (length v)) (Z.of_nat (c_degree c)))
  else
    cols <- mapM (project (c_rns c)) v ;;
    Val (mkPoly c false vt (map (fun r => r ++ repeat 0 (c_degree c - length v)) (transpose (length (c_q c)) cols)) None).
Definition poly_from_big (R : repn) (c : ctx) (v : list Z) (vt : bool) : M (poly R) :=
  p <- pb_from_big c v vt ;; pb_into R p.
(** convert.rs:474-505 polynomial to [Vec<u64>]. *)
Definition poly_to_u64 {R} (p : poly R) : list Z := concat (p_coeffs p).
(** convert.rs:507-529 polynomial to [Vec<BigUint>]. *)
Definition poly_to_big {R} (p : poly R) : M (list Z) :=
  mapM (lift (c_rns (p_ctx p))) (transpose (c_degree (p_ctx p)) (p_coeffs p)).

(** mod.rs:298-326 [small]; [rng] is the stream of 64-bit words of the generator. *)
Definition poly_small (R : repn) (c : ctx) (variance : Z) (rng : nat -> Z) : M (poly R) :=
  if negb ((1 <=? variance) && (variance <=? 32)) then Err (InvalidVariance variance)
  else
    '(coeffs, _) <- match sample_vec_cbd rng (c_degree c) variance with
                    | Err _ => Err (InvalidVariance variance) | r => r end ;;
    p <- pb_from_i64 c coeffs false ;;
    q <- pb_into R p ;;
    from_parts R q.

(** mod.rs:360-412 [substitute].  The loops over rows and coefficients are interchanged: rows do not interact. *)
Fixpoint perm_row (js ks : list nat) (src dst : list Z) : M (list Z) :=
  match js, ks with
  | j :: js', k :: ks' =>
      x <- get src k ;;
      guard (Nat.ltb j (length dst)) ;;;
      perm_row js' ks' src (set_nth dst j x)
  | _, _ => Val dst
  end.
Fixpoint subst_row (q : modulus) (degree e : Z) (src : list Z) (power : Z) (dst : list Z) : M (list Z) :=
  match src with
  | [] => Val dst
  | x :: src' =>
      let i := Z.to_nat (Z.land power (degree - 1)) in
      y <- get dst i ;;
      z <- (if negb (Z.land power degree =? 0) then zq_sub q y x else zq_add q y x) ;;
      power <- chk64 (power + e) ;;
      subst_row q degree e src' power (set_nth dst i z)
  end.
Definition substitute {R} (p : poly R) (i : subst_exp) : M (poly R) :=
  let c := p_ctx p in
  let zrow := repeat 0 (c_degree c) in
  match R with
  | PowerBasis =>
      rows <- map2M (fun q r => subst_row q (Z.of_nat (c_degree c)) (se_exponent i) r 0 zrow) (c_q c) (p_coeffs p) ;;
      Val (mkPoly c false (p_vt p) rows None)
  | Ntt =>
      rows <- mapM (fun r => perm_row (c_bitrev c) (se_power_bitrev i) r zrow) (p_coeffs p) ;;
      Val (mkPoly c false (p_vt p) rows None)
  | NttShoup =>
      rows <- mapM (fun r => perm_row (c_bitrev c) (se_power_bitrev i) r zrow) (p_coeffs p) ;;
      sh <- unwrap (p_shoup p) ;;
      srows <- mapM (fun r => perm_row (c_bitrev c) (se_power_bitrev i) r zrow) sh ;;
      Val (mkPoly c false (p_vt p) rows (Some srows))
  end.

(** mod.rs:433-492 [switch_down]. *)
Definition switch_coeff (qi : modulus) (c2 inv inv_shoup coeff last : Z) : M Z :=
  l <- lazy_reduce qi last ;;
  tmp <- chk64 (l + c2) ;;
  p3 <- chk64 (3 * mod_p qi) ;;
  d <- chk64 (p3 - tmp) ;;
  c <- chk64 (coeff + d) ;;
  mul_shoup qi c inv inv_shoup.
Fixpoint switch_rows (vt : bool) (half : Z) (last : list Z) (rows : list (list Z)) (qs : list modulus) (invs invs_shoup : list Z)
  : M (list (list Z)) :=
  match rows, qs, invs, invs_shoup with
  | r :: rows', qi :: qs', inv :: invs', ish :: ishs' =>
      h <- (if vt then reduce_vt qi half else reduce qi half) ;;
      c2 <- chk64 (mod_p qi - h) ;;
      r' <- zip_upd (switch_coeff qi c2 inv ish) r last ;;
      rs <- switch_rows vt half last rows' qs' invs' ishs' ;;
      Val (r' :: rs)
  | _, _, _, _ => Val rows
  end.
Definition switch_down (p : poly PowerBasis) : M (poly PowerBasis) :=
  let c := p_ctx p in
  match c_next c with
  | None => Err NoMoreContext
  | Some next =>
      let k := length (c_q c) in
      q_last <- unwrap (nth_error (c_q c) (k - 1)) ;;
      let half := mod_p q_last / 2 in
      last <- unwrap (nth_error (p_coeffs p) (k - 1)) ;;
      last <- mapM (fun x => if p_vt p then zq_add_vt q_last x half else zq_add q_last x half) last ;;
      rows <- switch_rows (p_vt p) half last (firstn (k - 1) (p_coeffs p)) (c_q c) (c_inv c) (c_inv_shoup c) ;;
      Val (mkPoly next (p_lazy p) (p_vt p) rows (p_shoup p))
  end.

(** mod.rs:498-507 [switch_down_to]. *)
Fixpoint iterM {A} (n : nat) (f : A -> M A) (a : A) : M A :=
  match n with O => Val a | S n' => b <- f a ;; iterM n' f b end.
Definition switch_down_to (p : poly PowerBasis) (target : ctx) : M (poly PowerBasis) :=
  n <- niterations_to (p_ctx p) target ;;
  q <- iterM n switch_down p ;;
  if ctx_eqb (p_ctx q) target then Val q else Err ContextNotReachable.

(** mod.rs:510-531 [multiply_inverse_power_of_x]. *)
Fixpoint shift_row (q : modulus) (degree : Z) (src : list Z) (index : Z) (dst : list Z) : M (list Z) :=
  match src with
  | [] => Val dst
  | x :: src' =>
      y <- (if Z.land index degree =? 0 then Val x else zq_neg q x) ;;
      let i := Z.to_nat (Z.land index (degree - 1)) in
      guard (Nat.ltb i (length dst)) ;;;
      shift_row q degree src' (index + 1) (set_nth dst i y)
  end.
Definition multiply_inverse_power_of_x (p : poly PowerBasis) (power : Z) : M (poly PowerBasis) :=
  let c := p_ctx p in
  let n := Z.of_nat (c_degree c) in
  d <- chk64 (2 * n - power) ;;
  guard (negb (2 * n =? 0)) ;;;
  let shift := d mod (2 * n) in
  rows <- map2M (fun r q => shift_row q n r shift (repeat 0 (c_degree c))) (p_coeffs p) (c_q c) ;;
  Val (with_coeffs p rows).

(** mod.rs:563-586 the constructor for polynomials with lazy coefficients. *)
Definition ntt_lazy_constant (c : ctx) (v : list Z) : M (poly Ntt) :=
  rows <- map2M (fun q op =>
      guard (Nat.eqb (length v) (c_degree c)) ;;;
      r <- lazy_reduce_vec q v ;;
      ntt_forward_vt_lazy op r) (c_q c) (c_ops c) ;;
  Val (mkPoly c true true rows None).

(** ** rq/ops.rs *)

(** Common shape of the [*Assign] implementations for two polynomials. *)
Definition poly_op2 {R} (f_vt f_ct : modulus -> list Z -> list Z -> M (list Z)) (a b : poly R) : M (poly R) :=
  guard (negb (p_lazy a) && negb (p_lazy b)) ;;;
  guard (ctx_eqb (p_ctx a) (p_ctx b)) ;;;
  let vt := p_vt a && p_vt b in
  rows <- zip_upd3 (fun v1 v2 q => if vt then f_vt q v1 v2 else f_ct q v1 v2) (p_coeffs a) (p_coeffs b) (c_q (p_ctx a)) ;;
  Val (mkPoly (p_ctx a) (p_lazy a) vt rows (p_shoup a)).
(** ops.rs:10-53, 92-135 addition; 55-90, 137-172 subtraction (for [PowerBasis] and [Ntt]). *)
Definition poly_add {R} : poly R -> poly R -> M (poly R) := poly_op2 add_vec_vt add_vec.
Definition poly_sub {R} : poly R -> poly R -> M (poly R) := poly_op2 sub_vec_vt sub_vec.
(** ops.rs:174-206 multiplication of two [Ntt] polynomials. *)
Definition poly_mul : poly Ntt -> poly Ntt -> M (poly Ntt) := poly_op2 mul_vec_vt mul_vec.
(** ops.rs:208-245 multiplication by a [NttShoup] polynomial; the left operand may be lazy. *)
Definition poly_mul_shoup (a : poly Ntt) (b : poly NttShoup) : M (poly Ntt) :=
  guard (negb (p_lazy b)) ;;;
  guard (ctx_eqb (p_ctx a) (p_ctx b)) ;;;
  let vt := p_vt a && p_vt b in
  sh <- unwrap (p_shoup b) ;;
  rows <- zip_upd3 (fun v1 v2s q => if vt then mul_shoup_vec_vt q v1 (fst v2s) (snd v2s) else mul_shoup_vec q v1 (fst v2s) (snd v2s))
            (p_coeffs a) (combine (p_coeffs b) sh) (c_q (p_ctx a)) ;;
  Val (mkPoly (p_ctx a) false vt rows (p_shoup a)).
(** ops.rs:297-352 multiplication by a [BigUint] (for [PowerBasis] and [Ntt]). *)
Definition poly_scalar_mul {R} (a : poly R) (k : Z) : M (poly R) :=
  crt <- project (c_rns (p_ctx a)) k ;;
  rows <- zip_upd3 (fun v1 s q => if p_vt a then scalar_mul_vec_vt q v1 s else scalar_mul_vec q v1 s) (p_coeffs a) crt (c_q (p_ctx a)) ;;
  Val (with_coeffs a rows).
(** ops.rs:354-418 negation (for [PowerBasis] and [Ntt]). *)
Definition poly_neg {R} (a : poly R) : M (poly R) :=
  guard (negb (p_lazy a)) ;;;
  rows <- zip_upd (fun v1 q => if p_vt a then neg_vec_vt q v1 else neg_vec q v1) (p_coeffs a) (c_q (p_ctx a)) ;;
  Val (with_coeffs a rows).

(** ops.rs:424-444 [fma], on one row (the code passes all rows as one slice, in chunks of 16). *)
Definition fma (out x y : list Z) : M (list Z) :=
  guard (same_length x out) ;;; guard (same_length y out) ;;;
  zip_upd3 (fun o a b => t <- chk128 (a * b) ;; chk128 (o + t)) out x y.
(** ops.rs:515-531: count the products accumulated in each row, reduce a row that is full. *)
Fixpoint dp_flush (vt : bool) (acc : list (list Z)) (nums maxs : list Z) (qs : list modulus) : M (list (list Z) * list Z) :=
  match acc, nums, maxs, qs with
  | row :: acc', num :: nums', mx :: maxs', q :: qs' =>
      num <- chk128 (num + 1) ;;
      '(row, num) <- (if num =? mx
                      then r <- mapM (if vt then reduce_u128_vt q else reduce_u128 q) row ;; Val (r, 1)
                      else Val (row, num)) ;;
      '(rows, ns) <- dp_flush vt acc' nums' maxs' qs' ;;
      Val (row :: rows, num :: ns)
  | _, _, _, _ => Val (acc, nums)
  end.
Definition dp_step (vt : bool) (maxs : list Z) (qs : list modulus) (st : list (list Z) * list Z) (pq : poly Ntt * poly Ntt)
  : M (list (list Z) * list Z) :=
  acc <- zip_upd3 fma (fst st) (p_coeffs (fst pq)) (p_coeffs (snd pq)) ;;
  dp_flush vt acc (snd st) maxs qs.
Definition dp_step_plain (acc : list (list Z)) (pq : poly Ntt * poly Ntt) : M (list (list Z)) :=
  zip_upd3 fma acc (p_coeffs (fst pq)) (p_coeffs (snd pq)).
(** ops.rs:449-570 [dot_product]. *)
Definition dot_product (ps qs : list (poly Ntt)) : M (poly Ntt) :=
  match ps, qs with
  | [], _ | _, [] => Err EmptyDotProduct
  | p0 :: _, _ =>
      if negb (Nat.eqb (length ps) (length qs))
      then Err (DotProductLengthMismatch (Z.of_nat (length ps)) (Z.of_nat (length qs)))
      else if existsb (fun p => negb (ctx_eqb (p_ctx p) (p_ctx p0))) ps || existsb (fun q => negb (ctx_eqb (p_ctx q) (p_ctx p0))) qs
      then Err PolynomialContextMismatch
      else
        let c := p_ctx p0 in
        let pairs := combine ps qs in
        let vt := forallb (fun pq => p_vt (fst pq) && p_vt (snd pq)) pairs in
        let maxs := map (fun q => Z.shiftl 1 (2 * leading_zeros64 (mod_p q))) (c_q c) in
        min <- unwrap (match maxs with [] => None | m :: t => Some (fold_left Z.min t m) end) ;;
        acc <- (if min <? Z.of_nat (length ps) then
                  '(acc, _) <- foldM (dp_step vt maxs (c_q c)) pairs (zero_rows c, map (fun _ => 1) (c_q c)) ;; Val acc
                else foldM dp_step_plain pairs (zero_rows c)) ;;
        rows <- map2M (fun r q => mapM (if vt then reduce_u128_vt q else reduce_u128 q) r) acc (c_q c) ;;
        Val (mkPoly c false vt rows None)
  end.

(** ** rq/serialize.rs and the protobuf conversions of rq/convert.rs *)

(** The message [Rq] of proto/rq.proto. *)
Record rq_proto := mkRq { rq_repr : Z; rq_degree : Z; rq_coeffs : list Z; rq_vt : bool }.
Definition repr_code (R : repn) : Z := match R with PowerBasis => 1 | Ntt => 2 | NttShoup => 3 end.

(** convert.rs:18-43 polynomial to [Rq]. *)
Definition poly_to_proto {R} (p : poly R) : M rq_proto :=
  guard (negb (p_lazy p)) ;;;
  q <- into_pb p ;;
  bs <- map2M (fun v qi => serialize_vec qi v) (p_coeffs q) (c_q (p_ctx p)) ;;
  Val (mkRq (repr_code R) (Z.of_nat (c_degree (p_ctx p)) mod W32) (concat bs) false).

(** convert.rs:46-99 [parse_proto]. *)
Fixpoint parse_rows (qs : list modulus) (degree : Z) (b : list Z) : M (list Z) :=
  match qs with
  | [] => Val []
  | q :: qs' =>
      size <- serialization_length q degree ;;
      v <- deserialize_vec q (firstn (Z.to_nat size) b) ;;
      rest <- parse_rows qs' degree (skipn (Z.to_nat size) b) ;;
      Val (v ++ rest)
  end.
Definition parse_proto (m : rq_proto) (c : ctx) : M (repn * list Z) :=
  r <- (if rq_repr m =? 1 then Val PowerBasis
        else if rq_repr m =? 2 then Val Ntt
        else if rq_repr m =? 3 then Val NttShoup
        else if rq_repr m =? 0 then Err UnknownRepresentation
        else Err (InvalidRepresentation (rq_repr m))) ;;
  let degree := rq_degree m in
  if negb (degree mod 8 =? 0) || (degree <? 8) then Err (SerInvalidDegree degree)
  else
    expected <- foldM (fun acc q => s <- serialization_length q degree ;; chk64 (acc + s)) (c_q c) 0 ;;
    if negb (len (rq_coeffs m) =? expected) then Err (SerInvalidCoefficientCount (len (rq_coeffs m)) expected)
    else
      v <- parse_rows (c_q c) degree (rq_coeffs m) ;;
      Val (r, v).

(** convert.rs:101-146 [Rq] to a polynomial, and serialize.rs:15-27 [from_bytes] (after decoding). *)
Definition repn_eqb (a b : repn) : bool := repr_code a =? repr_code b.
Definition poly_from_proto (R : repn) (m : rq_proto) (c : ctx) (vt : bool) : M (poly R) :=
  '(r, v) <- parse_proto m c ;;
  if negb (repn_eqb r R) then Err RepresentationMismatch
  else
    p <- pb_from_u64 c v vt ;;
    pb_into R p.

(** ** rq/scaler.rs and rq/switcher.rs *)

(** scaler.rs:18-23 [struct Scaler]. *)
Record scaler := mkPolyScaler { ps_from : ctx; ps_to : ctx; ps_common : nat; ps_rns : rns_scaler }.

(** scaler.rs:27-52 [Scaler::new]. *)
Fixpoint common_prefix (a b : list modulus) : nat :=
  match a, b with
  | x :: a', y :: b' => if mod_p x =? mod_p y then S (common_prefix a' b') else O
  | _, _ => O
  end.
Definition poly_scaler_new (from to : ctx) (f : factor) : M scaler :=
  if negb (Nat.eqb (c_degree from) (c_degree to))
  then Err (DegreeMismatch (Z.of_nat (c_degree from)) (Z.of_nat (c_degree to)))
  else
    let k := if f_one f then common_prefix (c_q from) (c_q to) else O in
    s <- scaler_new (c_rns from) (c_rns to) f ;;
    Val (mkPolyScaler from to k s).

(** scaler.rs:55-127 [Scaler::scale] (for [PowerBasis] and [Ntt]). *)
Definition poly_scale {R} (s : scaler) (p : poly R) : M (poly R) :=
  if negb (ctx_eqb (p_ctx p) (ps_from s)) then Err PolynomialContextMismatch
  else
    let k := ps_common s in
    let total := length (c_q (ps_to s)) in
    let head := firstn k (p_coeffs p) in
    tail <- (if Nat.ltb k total then
               pb <- match R with
                     | PowerBasis => Val (p_coeffs p)
                     | _ => bwd_rows (p_vt p) (c_ops (p_ctx p)) (p_coeffs p)
                     end ;;
               cols <- mapM (fun col => scale (ps_rns s) col k (total - k)) (transpose (c_degree (p_ctx p)) pb) ;;
               let rows := transpose (total - k) cols in
               match R with
               | PowerBasis => Val rows
               | _ => fwd_rows (p_vt p) (skipn k (c_ops (ps_to s))) rows
               end
             else Val []) ;;
    Val (mkPoly (ps_to s) false (p_vt p) (head ++ tail) None).

(** switcher.rs:15-27 [Switcher]. *)
Definition switcher_new (from to : ctx) : M scaler :=
  f <- factor_new (rns_product (c_rns to)) (rns_product (c_rns from)) ;;
  poly_scaler_new from to f.
