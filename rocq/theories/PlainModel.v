(** Model of crates/fhe/src/bfv/encoding.rs, plaintext.rs and plaintext_vec.rs.
    [BigUint] and [BigInt] values are integers; zeroization and the reference/array/[Vec] variants of the encoders
    are not modelled. *)
From Verif Require Import Outcome ZqModel NttModel TranscodeModel RnsModel RqModel ParamsModel.

(** encoding.rs:7-25 [EncodingEnum], [Encoding]. *)
Inductive enc_kind := EncPoly | EncSimd.
Record encoding := mkEnc { e_kind : enc_kind; e_level : nat }.
Definition enc_eqb (a b : encoding) : bool :=
  match e_kind a, e_kind b with EncPoly, EncPoly | EncSimd, EncSimd => Nat.eqb (e_level a) (e_level b) | _, _ => false end.

(** plaintext.rs:24-32 [struct Plaintext]. *)
Record plaintext := mkPt { pt_par : params; pt_enc : option encoding; pt_poly : poly Ntt }.
(** plaintext.rs:212-214 [level]; a [usize] subtraction. *)
Definition pt_level (pt : plaintext) : M nat :=
  guard (Nat.leb (length (c_moduli (p_ctx (pt_poly pt)))) (length (pa_moduli (pt_par pt)))) ;;;
  Val (length (pa_moduli (pt_par pt)) - length (c_moduli (p_ctx (pt_poly pt))))%nat.

(** plaintext.rs:84-101 [validate_context]. *)
Definition pt_validate_context (pt : plaintext) (level : nat) (c : ctx) : M unit :=
  l <- pt_level pt ;;
  if negb (Nat.eqb l level) then Err (InvalidLevel (Z.of_nat l) (Z.of_nat level) (Z.of_nat level))
  else if negb (ctx_eqb (p_ctx (pt_poly pt)) c) then Err PtPolynomialContextMismatch
  else Val tt.
(** plaintext.rs:55-66 [validate_for], 68-82 [validate_for_context]. *)
Definition pt_validate_for (pt : plaintext) (par : params) : M unit :=
  if negb (par_same (pt_par pt) par) then Err ParameterMismatch
  else l <- pt_level pt ;; c <- par_context par l ;; pt_validate_context pt l c.
Definition pt_validate_for_context (pt : plaintext) (par : params) (level : nat) (c : ctx) : M unit :=
  if negb (par_same (pt_par pt) par) then Err ParameterMismatch else pt_validate_context pt level c.

(** plaintext.rs:18-21, 103-135 [coefficients]; [PlaintextModulus::reduce_vec] is parameters.rs:62-64. *)
Inductive pt_coeffs := Small (v : list Z) | Large (v : list Z).
Definition reduce_big (t : Z) (v : list Z) : M (list Z) := guard (negb (t =? 0)) ;;; Val (map (fun x => x mod t) v).
Definition coefficients (pt : plaintext) : M pt_coeffs :=
  p <- ntt_into_pb (pt_poly pt) ;;
  let par := pt_par pt in
  match pa_small par with
  | Some m =>
      if match c_moduli (p_ctx (pt_poly pt)) with q :: _ => mod_p m <? q | [] => false end then
        v <- slice_to (poly_to_u64 p) (pa_degree par) ;;
        v <- reduce_vec m v ;; Val (Small v)
      else
        v <- poly_to_big p ;; v <- reduce_big (pa_t par) v ;;
        v <- mapM to_u64 v ;; Val (Small v)
  | None => v <- poly_to_big p ;; v <- reduce_big (pa_t par) v ;; Val (Large v)
  end.

(** plaintext.rs:137-153 [resolve_encoding]. *)
Definition resolve_encoding (pt : plaintext) (e : option encoding) : M encoding :=
  match pt_enc pt, e with
  | None, None => Err MissingEncoding
  | Some s, Some p => if enc_eqb s p then Val s else Err EncodingMismatch
  | Some s, None => Val s
  | None, Some p => Val p
  end.

(** plaintext.rs:155-170 [decode_simd_u64]. *)
Definition decode_simd_u64 (pt : plaintext) (v : list Z) : M (list Z) :=
  op <- ok_or (pa_ntt (pt_par pt)) SimdUnavailable ;;
  v <- ntt_forward op v ;;
  mapM (get v) (pa_index (pt_par pt)).

(** plaintext.rs:172-197 [to_poly]; [PlaintextModulus::scalar_mul_vec] is parameters.rs:66-69. *)
Definition to_poly (pt : plaintext) : M (poly Ntt) :=
  let par := pt_par pt in
  l <- pt_level pt ;;
  lv <- unwrap (nth_error (pa_levels par) l) ;;
  let c := lv_ctx lv in
  cs <- coefficients pt ;;
  m <- match cs with
       | Small v =>
           t <- unwrap (pa_small par) ;;
           k <- to_u64 (cp_q_mod_t (lv_cp lv)) ;;
           v <- scalar_mul_vec t v k ;;
           pb_from_u64 c v false
       | Large v =>
           v <- reduce_big (pa_t par) (map (fun x => x * cp_q_mod_t (lv_cp lv)) v) ;;
           pb_from_big c v false
       end ;;
  m <- pb_into_ntt m ;;
  poly_mul_shoup m (cp_delta (lv_cp lv)).

(** plaintext.rs:200-208 [zero]. *)
Definition pt_zero (e : encoding) (par : params) : M plaintext :=
  c <- par_context par (e_level e) ;; Val (mkPt par (Some e) (poly_zero Ntt c)).

(** plaintext.rs:219-239 [PartialEq]. *)
Definition pt_eqb (a b : plaintext) : bool :=
  par_eqb (pt_par a) (pt_par b) && poly_eqb (pt_poly a) (pt_poly b) &&
  match pt_enc a, pt_enc b with Some x, Some y => enc_eqb x y | _, _ => true end.

(** plaintext_vec.rs:71-103 [encode_u64_chunk]; [vt] tells whether the variable-time permission was given. *)
Fixpoint place_slots (index : list nat) (v : list Z) (coeffs : list Z) : M (list Z) :=
  match v with
  | [] => Val coeffs
  | x :: v' =>
      match index with
      | [] => Panic
      | i :: index' => guard (Nat.ltb i (length coeffs)) ;;; place_slots index' v' (set_nth coeffs i x)
      end
  end.
Definition encode_u64_chunk (vt : bool) (v : list Z) (e : encoding) (par : params) (c : ctx) : M (poly Ntt) :=
  coeffs <- match e_kind e with
            | EncPoly => guard (Nat.leb (length v) (pa_degree par)) ;;; Val (v ++ repeat 0 (pa_degree par - length v))
            | EncSimd =>
                coeffs <- place_slots (pa_index par) v (repeat 0 (pa_degree par)) ;;
                op <- ok_or (pa_ntt par) PtNttOperatorUnavailable ;;
                if vt then ntt_backward_vt op coeffs else ntt_backward op coeffs
            end ;;
  p <- pb_from_u64 c coeffs vt ;;
  pb_into_ntt p.
(** plaintext_vec.rs:105-132 [encode_biguint_chunk]. *)
Definition big_to_u64 (x : Z) : M Z := if x <? W64 then Val x else Err ValueTooLargeForU64.
Definition encode_big_chunk (v : list Z) (e : encoding) (par : params) (c : ctx) : M (poly Ntt) :=
  match e_kind e with
  | EncPoly =>
      guard (Nat.leb (length v) (pa_degree par)) ;;;
      p <- pb_from_big c (v ++ repeat 0 (pa_degree par - length v)) false ;;
      pb_into_ntt p
  | EncSimd => v <- mapM big_to_u64 v ;; encode_u64_chunk false v e par c
  end.
(** plaintext_vec.rs:38-69 [try_encode_with]. *)
Definition encode_with (chunk : list Z -> encoding -> params -> ctx -> M (poly Ntt)) (v : list Z) (e : encoding) (par : params)
  : M (list plaintext) :=
  match e_kind e, pa_ntt par with
  | EncSimd, None => Err SimdUnavailable
  | _, _ =>
      c <- par_context par (e_level e) ;;
      guard (negb (Nat.eqb (pa_degree par) 0)) ;;;
      let n := Nat.max (Z.to_nat (div_ceil (len v) (Z.of_nat (pa_degree par)))) 1 in
      mapM (fun i => p <- chunk (firstn (pa_degree par) (skipn (i * pa_degree par) v)) e par c ;;
                     Val (mkPt par (Some e) p)) (seq 0 n)
  end.
(** plaintext_vec.rs:135-164 the encoders of [PlaintextVec]. *)
Definition encode_vec_u64 (vt : bool) := encode_with (encode_u64_chunk vt).
Definition encode_vec_big := encode_with encode_big_chunk.
(** plaintext.rs:291-345 the encoders of [Plaintext] for [BigUint] and [u64] values ([vt]: [try_encode_vt]). *)
Definition first_pt (l : list plaintext) : M plaintext := unwrap (hd_error l).
Definition encode_u64 (vt : bool) (v : list Z) (e : encoding) (par : params) : M plaintext :=
  if Nat.ltb (pa_degree par) (length v) then Err (TooManyValues (len v) (Z.of_nat (pa_degree par)))
  else l <- encode_vec_u64 vt v e par ;; first_pt l.
Definition encode_big (v : list Z) (e : encoding) (par : params) : M plaintext :=
  if Nat.ltb (pa_degree par) (length v) then Err (TooManyValues (len v) (Z.of_nat (pa_degree par)))
  else l <- encode_vec_big v e par ;; first_pt l.
(** plaintext.rs:347-372 [i64] values; [Z.rem] is the remainder of [BigInt]. *)
Definition encode_i64 (v : list Z) (e : encoding) (par : params) : M plaintext :=
  match pa_small par with
  | Some m => w <- reduce_vec_i64 m v ;; encode_u64 false w e par
  | None =>
      guard (negb (pa_t par =? 0)) ;;;
      encode_big (map (fun x => let r := Z.rem x (pa_t par) in if r <? 0 then r + pa_t par else r) v) e par
  end.

(** plaintext.rs:374-405 decoding to [BigUint]. *)
Definition decode_big (pt : plaintext) (e : option encoding) : M (list Z) :=
  e <- resolve_encoding pt e ;;
  cs <- coefficients pt ;;
  let v := match cs with Small v => v | Large v => v end in
  match e_kind e with
  | EncPoly => Val v
  | EncSimd => v <- mapM big_to_u64 v ;; decode_simd_u64 pt v
  end.
(** plaintext.rs:407-432 decoding to [u64]. *)
Definition decode_u64 (pt : plaintext) (e : option encoding) : M (list Z) :=
  e <- resolve_encoding pt e ;;
  cs <- coefficients pt ;;
  v <- match cs with Small v => Val v | Large v => mapM big_to_u64 v end ;;
  match e_kind e with
  | EncPoly => Val v
  | EncSimd => decode_simd_u64 pt v
  end.
(** plaintext.rs:434-463 decoding to [i64]; [to_i64().unwrap()] panics outside the range. *)
Definition big_to_i64 (x : Z) : M Z := chk (- 2 ^ 63) (2 ^ 63) x.
Definition decode_i64 (pt : plaintext) (e : option encoding) : M (list Z) :=
  match pa_small (pt_par pt) with
  | Some m => v <- decode_u64 pt e ;; center_vec m v
  | None =>
      v <- decode_big pt e ;;
      mapM (fun x => if pa_t (pt_par pt) / 2 <=? x then big_to_i64 (x - pa_t (pt_par pt)) else big_to_i64 x) v
  end.
