(** Which operands reach variable-time code.  The polynomials of the library carry a flag, [allow_variable_time_computations], that says
    whether their coefficients may be treated as public; the functions below are those of RqModel.v to MbfvModel.v with, beside the
    outcome, the list of the variable-time operations that the run executes (the functions [*_vt] of the code and the lazy transform of
    rq/mod.rs:563-586), each with the values that it works on.
    Simplifications: an operation that panics or returns an error counts as executed; the two transforms of a scaling are one operation on
    the polynomial that is scaled.  The time of the other functions (divisions, big integers, comparisons, sampling) is not modelled. *)
From Verif Require Import Outcome ZqModel NttModel TranscodeModel CbdModel RnsModel RqModel ParamsModel PlainModel CipherModel OpsModel KeysModel MbfvModel.

(** ** Runs *)
Inductive vt_op := VtForward | VtBackward | VtLazyForward | VtAdd | VtSub | VtMul | VtMulShoup | VtScalarMul | VtNeg | VtSwitchDown | VtReduce | VtReduceI64 | VtReduceU128.
(** An operation and the coefficients of its operands. *)
Record event := Vt { v_op : vt_op; v_data : list (list (list Z)) }.
Definition T (A : Type) : Type := (list event * M A)%type.
Definition quiet {A} (m : M A) : T A := ([], m).
Definition bindT {A B} (x : T A) (f : A -> T B) : T B :=
  match snd x with
  | Val a => let r := f a in (fst x ++ fst r, snd r)
  | Err e => (fst x, Err e)
  | Panic => (fst x, Panic)
  end.
Notation "x <~ e ;; k" := (bindT e (fun x => k)) (at level 100, e at next level, right associativity).
Notation "' p <~ e ;; k" := (bindT e (fun x => match x with p => k end)) (at level 100, p pattern, e at next level, right associativity).
Notation "e ;;~ k" := (bindT e (fun _ => k)) (at level 100, right associativity).
Definition note {A} (b : bool) (o : vt_op) (data : list (list (list Z))) (m : M A) : T A := (if b then [Vt o data] else [], m).
Fixpoint mapT {A B} (f : A -> T B) (l : list A) : T (list B) :=
  match l with
  | [] => quiet (Val [])
  | a :: t => b <~ f a ;; r <~ mapT f t ;; quiet (Val (b :: r))
  end.
Fixpoint map2T {A B C} (f : A -> B -> T C) (l : list A) (l' : list B) : T (list C) :=
  match l, l' with
  | a :: t, b :: t' => c <~ f a b ;; r <~ map2T f t t' ;; quiet (Val (c :: r))
  | _, _ => quiet (Val [])
  end.
Fixpoint foldT {A S} (f : S -> A -> T S) (l : list A) (s : S) : T S :=
  match l with
  | [] => quiet (Val s)
  | a :: t => s' <~ f s a ;; foldT f t s'
  end.
Fixpoint iterT {A} (n : nat) (f : A -> T A) (a : A) : T A :=
  match n with O => quiet (Val a) | S n' => b <~ f a ;; iterT n' f b end.
Definition no_errT {A} (x : T A) : T A := (fst x, no_err (snd x)).

(** ** rq *)
(** mod.rs:335-354 and 535-625. *)
Definition t_pb_into_ntt (p : poly PowerBasis) : T (poly Ntt) := note (p_vt p) VtForward [p_coeffs p] (pb_into_ntt p).
Definition t_pb_into_ntt_shoup (p : poly PowerBasis) : T (poly NttShoup) := note (p_vt p) VtForward [p_coeffs p] (pb_into_ntt_shoup p).
Definition t_ntt_into_pb (p : poly Ntt) : T (poly PowerBasis) := note (p_vt p) VtBackward [p_coeffs p] (ntt_into_pb p).
Definition t_pb_into (R : repn) (p : poly PowerBasis) : T (poly R) :=
  match R with
  | PowerBasis => quiet (from_parts PowerBasis p)
  | Ntt => t_pb_into_ntt p
  | NttShoup => t_pb_into_ntt_shoup p
  end.
(** convert.rs:148-193, 329-354. *)
Definition t_pb_from_u64 (c : ctx) (v : list Z) (vt : bool) : T (poly PowerBasis) := note vt VtReduce [[v]] (pb_from_u64 c v vt).
Definition t_pb_from_i64 (c : ctx) (v : list Z) (vt : bool) : T (poly PowerBasis) := note vt VtReduceI64 [[v]] (pb_from_i64 c v vt).
(** mod.rs:298-326. *)
Definition t_poly_small (R : repn) (c : ctx) (variance : Z) (rng : nat -> Z) : T (poly R) :=
  if negb ((1 <=? variance) && (variance <=? 32)) then quiet (Err (InvalidVariance variance))
  else
    '(coeffs, _) <~ quiet match sample_vec_cbd rng (c_degree c) variance with
                    | Err _ => Err (InvalidVariance variance) | r => r end ;;
    p <~ t_pb_from_i64 c coeffs false ;;
    q <~ t_pb_into R p ;;
    quiet (from_parts R q).
(** mod.rs:433-507. *)
Definition t_switch_down (p : poly PowerBasis) : T (poly PowerBasis) := note (p_vt p) VtSwitchDown [p_coeffs p] (switch_down p).
Definition t_switch_down_to (p : poly PowerBasis) (target : ctx) : T (poly PowerBasis) :=
  n <~ quiet (niterations_to (p_ctx p) target) ;;
  q <~ iterT n t_switch_down p ;;
  quiet (if ctx_eqb (p_ctx q) target then Val q else Err ContextNotReachable).
(** mod.rs:563-586: this transform is always the variable-time one. *)
Definition t_ntt_lazy_constant (c : ctx) (v : list Z) : T (poly Ntt) := note true VtLazyForward [[v]] (ntt_lazy_constant c v).
(** ops.rs:10-245. *)
Definition t_add {R} (a b : poly R) : T (poly R) := note (p_vt a && p_vt b) VtAdd [p_coeffs a; p_coeffs b] (poly_add a b).
Definition t_sub {R} (a b : poly R) : T (poly R) := note (p_vt a && p_vt b) VtSub [p_coeffs a; p_coeffs b] (poly_sub a b).
Definition t_mul (a b : poly Ntt) : T (poly Ntt) := note (p_vt a && p_vt b) VtMul [p_coeffs a; p_coeffs b] (poly_mul a b).
Definition t_mul_shoup (a : poly Ntt) (b : poly NttShoup) : T (poly Ntt) := note (p_vt a && p_vt b) VtMulShoup [p_coeffs a; p_coeffs b] (poly_mul_shoup a b).
(** ops.rs:297-418. *)
Definition t_scalar_mul {R} (a : poly R) (k : Z) : T (poly R) := note (p_vt a) VtScalarMul [p_coeffs a; [[k]]] (poly_scalar_mul a k).
Definition t_neg {R} (a : poly R) : T (poly R) := note (p_vt a) VtNeg [p_coeffs a] (poly_neg a).
(** ops.rs:449-570: the reductions of the accumulated products. *)
Definition t_dot_product (ps qs : list (poly Ntt)) : T (poly Ntt) :=
  note (forallb (fun pq => p_vt (fst pq) && p_vt (snd pq)) (combine ps qs)) VtReduceU128 (map p_coeffs ps ++ map p_coeffs qs) (dot_product ps qs).
(** scaler.rs:55-127: no transform is needed in power basis. *)
Definition t_scale {R} (s : scaler) (p : poly R) : T (poly R) :=
  note (match R with PowerBasis => false | _ => p_vt p end) VtBackward [p_coeffs p] (poly_scale s p).

(** ** Plaintexts *)
(** plaintext.rs:103-135, 172-197. *)
Definition t_coefficients (pt : plaintext) : T pt_coeffs :=
  p <~ t_ntt_into_pb (pt_poly pt) ;;
  let par := pt_par pt in
  quiet match pa_small par with
  | Some m =>
      if match c_moduli (p_ctx (pt_poly pt)) with q :: _ => mod_p m <? q | [] => false end then
        v <- slice_to (poly_to_u64 p) (pa_degree par) ;;
        v <- reduce_vec m v ;; Val (Small v)
      else
        v <- poly_to_big p ;; v <- reduce_big (pa_t par) v ;;
        v <- mapM to_u64 v ;; Val (Small v)
  | None => v <- poly_to_big p ;; v <- reduce_big (pa_t par) v ;; Val (Large v)
  end.
Definition t_to_poly (pt : plaintext) : T (poly Ntt) :=
  let par := pt_par pt in
  l <~ quiet (pt_level pt) ;;
  lv <~ quiet (unwrap (nth_error (pa_levels par) l)) ;;
  let c := lv_ctx lv in
  cs <~ t_coefficients pt ;;
  m <~ match cs with
       | Small v =>
           t <~ quiet (unwrap (pa_small par)) ;;
           k <~ quiet (to_u64 (cp_q_mod_t (lv_cp lv))) ;;
           v <~ quiet (scalar_mul_vec t v k) ;;
           t_pb_from_u64 c v false
       | Large v =>
           v <~ quiet (reduce_big (pa_t par) (map (fun x => x * cp_q_mod_t (lv_cp lv)) v)) ;;
           quiet (pb_from_big c v false)
       end ;;
  m <~ t_pb_into_ntt m ;;
  t_mul_shoup m (cp_delta (lv_cp lv)).
(** plaintext_vec.rs:71-132. *)
Definition t_encode_u64_chunk (vt : bool) (v : list Z) (e : encoding) (par : params) (c : ctx) : T (poly Ntt) :=
  coeffs <~ match e_kind e with
            | EncPoly => quiet (guard (Nat.leb (length v) (pa_degree par)) ;;; Val (v ++ repeat 0 (pa_degree par - length v)))
            | EncSimd =>
                coeffs <~ quiet (place_slots (pa_index par) v (repeat 0 (pa_degree par))) ;;
                op <~ quiet (ok_or (pa_ntt par) PtNttOperatorUnavailable) ;;
                note vt VtBackward [[coeffs]] (if vt then ntt_backward_vt op coeffs else ntt_backward op coeffs)
            end ;;
  p <~ t_pb_from_u64 c coeffs vt ;;
  t_pb_into_ntt p.
Definition t_encode_big_chunk (v : list Z) (e : encoding) (par : params) (c : ctx) : T (poly Ntt) :=
  match e_kind e with
  | EncPoly =>
      quiet (guard (Nat.leb (length v) (pa_degree par))) ;;~
      p <~ quiet (pb_from_big c (v ++ repeat 0 (pa_degree par - length v)) false) ;;
      t_pb_into_ntt p
  | EncSimd => v <~ quiet (mapM big_to_u64 v) ;; t_encode_u64_chunk false v e par c
  end.
(** plaintext_vec.rs:38-69. *)
Definition t_encode_with (chunk : list Z -> encoding -> params -> ctx -> T (poly Ntt)) (v : list Z) (e : encoding) (par : params) : T (list plaintext) :=
  match e_kind e, pa_ntt par with
  | EncSimd, None => quiet (Err SimdUnavailable)
  | _, _ =>
      c <~ quiet (par_context par (e_level e)) ;;
      quiet (guard (negb (Nat.eqb (pa_degree par) 0))) ;;~
      let n := Nat.max (Z.to_nat (div_ceil (len v) (Z.of_nat (pa_degree par)))) 1 in
      mapT (fun i => p <~ chunk (firstn (pa_degree par) (skipn (i * pa_degree par) v)) e par c ;;
                     quiet (Val (mkPt par (Some e) p))) (seq 0 n)
  end.
(** plaintext_vec.rs:135-164, plaintext.rs:291-372. *)
Definition t_encode_vec_u64 (vt : bool) := t_encode_with (t_encode_u64_chunk vt).
Definition t_encode_vec_big := t_encode_with t_encode_big_chunk.
Definition t_encode_u64 (vt : bool) (v : list Z) (e : encoding) (par : params) : T plaintext :=
  if Nat.ltb (pa_degree par) (length v) then quiet (Err (TooManyValues (len v) (Z.of_nat (pa_degree par))))
  else l <~ t_encode_vec_u64 vt v e par ;; quiet (first_pt l).
Definition t_encode_big (v : list Z) (e : encoding) (par : params) : T plaintext :=
  if Nat.ltb (pa_degree par) (length v) then quiet (Err (TooManyValues (len v) (Z.of_nat (pa_degree par))))
  else l <~ t_encode_vec_big v e par ;; quiet (first_pt l).
Definition t_encode_i64 (v : list Z) (e : encoding) (par : params) : T plaintext :=
  match pa_small par with
  | Some m => w <~ quiet (reduce_vec_i64 m v) ;; t_encode_u64 false w e par
  | None =>
      quiet (guard (negb (pa_t par =? 0))) ;;~
      t_encode_big (map (fun x => let r := Z.rem x (pa_t par) in if r <? 0 then r + pa_t par else r) v) e par
  end.
(** plaintext.rs:374-463. *)
Definition t_decode_big (pt : plaintext) (e : option encoding) : T (list Z) :=
  e <~ quiet (resolve_encoding pt e) ;;
  cs <~ t_coefficients pt ;;
  let v := match cs with Small v => v | Large v => v end in
  quiet match e_kind e with
  | EncPoly => Val v
  | EncSimd => v <- mapM big_to_u64 v ;; decode_simd_u64 pt v
  end.
Definition t_decode_u64 (pt : plaintext) (e : option encoding) : T (list Z) :=
  e <~ quiet (resolve_encoding pt e) ;;
  cs <~ t_coefficients pt ;;
  v <~ quiet match cs with Small v => Val v | Large v => mapM big_to_u64 v end ;;
  quiet match e_kind e with
  | EncPoly => Val v
  | EncSimd => decode_simd_u64 pt v
  end.
Definition t_decode_i64 (pt : plaintext) (e : option encoding) : T (list Z) :=
  match pa_small (pt_par pt) with
  | Some m => v <~ t_decode_u64 pt e ;; quiet (center_vec m v)
  | None =>
      v <~ t_decode_big pt e ;;
      quiet (mapM (fun x => if pa_t (pt_par pt) / 2 <=? x then big_to_i64 (x - pa_t (pt_par pt)) else big_to_i64 x) v)
  end.

(** ** Secret and public keys *)
(** secret_key.rs:100-134, 184-192. *)
Definition t_sk_poly (sk : secret_key) (c : ctx) : T (poly Ntt) := p <~ t_pb_from_i64 c (sk_coeffs sk) false ;; t_pb_into_ntt p.
Definition t_encrypt_poly (expand : expander) (sk : secret_key) (p : poly Ntt) (sd : seed) (rng : nat -> Z) : T ciphertext :=
  level <~ quiet (level_of_context (sk_par sk) (p_ctx p)) ;;
  s <~ t_sk_poly sk (p_ctx p) ;;
  a <~ quiet (poly_from_seed expand Ntt (p_ctx p) sd) ;;
  a_s <~ t_mul a s ;;
  b <~ t_poly_small Ntt (p_ctx p) (pa_variance (sk_par sk)) rng ;;
  b <~ t_sub b a_s ;;
  b <~ t_add b p ;;
  quiet (Val (mkCt (sk_par sk) (Some sd) [allow_vt b; allow_vt a] level)).
Definition t_sk_encrypt (expand : expander) (sk : secret_key) (pt : plaintext) (sd : seed) (rng : nat -> Z) : T ciphertext :=
  quiet (pt_validate_for pt (sk_par sk)) ;;~
  m <~ t_to_poly pt ;;
  t_encrypt_poly expand sk m sd rng.
(** secret_key.rs:198-260. *)
Fixpoint t_phase_loop (s : poly Ntt) (rest : list (poly Ntt)) (si c : poly Ntt) : T (poly Ntt) :=
  match rest with
  | [] => quiet (Val c)
  | ci :: rest' =>
      cis <~ t_mul (disallow_vt ci) si ;;
      c <~ t_add c cis ;;
      si <~ match rest' with [] => quiet (Val si) | _ => t_mul si s end ;;
      t_phase_loop s rest' si c
  end.
Definition t_sk_decrypt (sk : secret_key) (ct : ciphertext) : T plaintext :=
  let par := sk_par sk in
  quiet (ct_validate_for ct par) ;;~
  c0 <~ quiet (get (ct_c ct) 0) ;;
  s <~ t_sk_poly sk (p_ctx c0) ;;
  c <~ t_phase_loop s (tl (ct_c ct)) s (disallow_vt c0) ;;
  lv <~ quiet (context_level_at par (ct_level ct)) ;;
  pb <~ t_ntt_into_pb c ;;
  d <~ t_scale (cp_scaler (lv_cp lv)) pb ;;
  p <~ match pa_small par with
       | Some t =>
           v <~ quiet (mapM (fun x => chk64 (x + mod_p t)) (poly_to_u64 d)) ;;
           w <~ quiet (slice_to v (pa_degree par)) ;;
           q0 <~ quiet (get (pa_moduli par) 0) ;;
           q <~ quiet (modulus_new q0) ;;
           w <~ quiet (reduce_vec q w) ;;
           w <~ quiet (reduce_vec t w) ;;
           t_pb_from_u64 (p_ctx c0) w false
       | None =>
           v <~ quiet (poly_to_big d) ;;
           w <~ quiet (slice_to (map (fun x => x + pa_t par) v) (pa_degree par)) ;;
           w <~ quiet (reduce_big (rns_product (c_rns (p_ctx d))) w) ;;
           w <~ quiet (reduce_big (pa_t par) w) ;;
           quiet (pb_from_big (p_ctx c0) w false)
       end ;;
  p <~ t_pb_into_ntt p ;;
  quiet (Val (mkPt par None p)).
(** secret_key.rs:61-98. *)
Fixpoint t_phase_loop_all (s : poly Ntt) (rest : list (poly Ntt)) (si c : poly Ntt) : T (poly Ntt) :=
  match rest with
  | [] => quiet (Val c)
  | ci :: rest' =>
      cis <~ t_mul (disallow_vt ci) si ;;
      c <~ t_add c cis ;;
      si <~ t_mul si s ;;
      t_phase_loop_all s rest' si c
  end.
Definition t_measure_noise (sk : secret_key) (ct : ciphertext) : T Z :=
  pt <~ t_sk_decrypt sk ct ;;
  m <~ t_to_poly pt ;;
  c0 <~ quiet (get (ct_c ct) 0) ;;
  s <~ t_sk_poly sk (p_ctx c0) ;;
  c <~ t_phase_loop_all s (tl (ct_c ct)) s (disallow_vt c0) ;;
  c <~ t_sub c m ;;
  c <~ t_ntt_into_pb c ;;
  v <~ quiet (poly_to_big c) ;;
  quiet (Val (fold_left (fun n x => Z.max n (Z.min (nbits x) (nbits (rns_product (c_rns (p_ctx c0)) - x)))) v 0)).
(** public_key.rs:26-37. *)
Definition t_pk_new (expand : expander) (sk : secret_key) (sd : seed) (rng : nat -> Z) : T public_key :=
  zero <~ quiet (no_err (pt_zero (mkEnc EncPoly 0) (sk_par sk))) ;;
  c <~ no_errT (t_sk_encrypt expand sk zero sd rng) ;;
  quiet (Val (mkPk (sk_par sk) (map_polys disallow_vt c))).
(** ciphertext.rs:148-183. *)
Definition t_ntt_switch_down (p : poly Ntt) : T (poly Ntt) :=
  pb <~ t_ntt_into_pb p ;; pb <~ t_switch_down pb ;; t_pb_into_ntt pb.
Definition t_ct_switch_down (ct : ciphertext) : T ciphertext :=
  if Nat.leb (max_level (ct_par ct)) (ct_level ct) then quiet (Err NoMoreContext)
  else c <~ mapT t_ntt_switch_down (ct_c ct) ;; quiet (Val (mkCt (ct_par ct) None c (S (ct_level ct)))).
Definition t_ct_switch_to_level (ct : ciphertext) (target : nat) : T ciphertext :=
  if Nat.ltb target (ct_level ct) || Nat.ltb (max_level (ct_par ct)) target
  then quiet (Err (InvalidLevel (Z.of_nat target) (Z.of_nat (ct_level ct)) (Z.of_nat (max_level (ct_par ct)))))
  else iterT (target - ct_level ct) t_ct_switch_down ct.
(** public_key.rs:47-97. *)
Definition t_pk_encrypt (pk : public_key) (pt : plaintext) (ru r1 r2 : nat -> Z) : T ciphertext :=
  let par := pk_par pk in
  quiet (pt_validate_for pt par) ;;~
  quiet (ct_validate_for (pk_c pk) par) ;;~
  pl <~ quiet (pt_level pt) ;;
  if Nat.ltb pl (ct_level (pk_c pk))
  then quiet (Err (InvalidLevel (Z.of_nat pl) (Z.of_nat (ct_level (pk_c pk))) (Z.of_nat (max_level par))))
  else
    ct <~ iterT (pl - ct_level (pk_c pk)) t_ct_switch_down (pk_c pk) ;;
    c <~ quiet (par_context par (ct_level ct)) ;;
    u <~ t_poly_small Ntt c (pa_variance par) ru ;;
    e1 <~ t_poly_small Ntt c (pa_variance par) r1 ;;
    e2 <~ t_poly_small Ntt c (pa_variance par) r2 ;;
    m <~ t_to_poly pt ;;
    a0 <~ quiet (get (ct_c ct) 0) ;;
    c0 <~ t_mul u a0 ;; c0 <~ t_add c0 e1 ;; c0 <~ t_add c0 m ;;
    a1 <~ quiet (get (ct_c ct) 1) ;;
    c1 <~ t_mul u a1 ;; c1 <~ t_add c1 e2 ;;
    quiet (Val (mkCt par None [allow_vt c0; allow_vt c1] (ct_level ct))).

(** ** Keys for key switching *)
(** key_switching_key.rs:170-190, 215-234. *)
Definition t_ksk_entry (variance : Z) (s : poly Ntt) (from : poly PowerBasis) (rng : nat -> Z) (c1i : poly NttShoup) (g : Z) : T (poly NttShoup) :=
  a <~ quiet (shoup_into_ntt c1i) ;;
  a_s <~ t_mul (disallow_vt a) s ;;
  a_s <~ t_ntt_into_pb a_s ;;
  b <~ t_poly_small PowerBasis (p_ctx a_s) variance rng ;;
  b <~ t_sub b a_s ;;
  gf <~ t_scalar_mul from g ;;
  b <~ t_add b gf ;;
  t_pb_into_ntt_shoup (allow_vt b).
(** key_switching_key.rs:148-238. *)
Definition t_generate_c0 (sk : secret_key) (from : poly PowerBasis) (c1 : list (poly NttShoup)) (rngs : nat -> nat -> Z) : T (list (poly NttShoup)) :=
  match c1 with
  | [] => quiet (Err EmptyKeySwitchingComponents)
  | c10 :: _ =>
      s <~ t_sk_poly sk (p_ctx c10) ;;
      ms <~ quiet (slice_to (pa_moduli (sk_par sk)) (length c1)) ;;
      rns <~ quiet (rns_new ms) ;;
      mapT (fun ic => g <~ quiet (unwrap (get_garner rns (fst ic))) ;;
                      t_ksk_entry (pa_variance (sk_par sk)) s from (rngs (fst ic)) (snd ic) g) (enumerate c1)
  end.
Definition t_generate_c0_decomposition (sk : secret_key) (from : poly PowerBasis) (c1 : list (poly NttShoup)) (rngs : nat -> nat -> Z) (log_base : Z)
  : T (list (poly NttShoup)) :=
  match c1 with
  | [] => quiet (Err EmptyKeySwitchingComponents)
  | c10 :: _ =>
      s <~ t_sk_poly sk (p_ctx c10) ;;
      mapT (fun ic => e <~ quiet (chk 0 64 (Z.of_nat (fst ic) * log_base)) ;;
                      t_ksk_entry (pa_variance (sk_par sk)) s from (rngs (fst ic)) (snd ic) (Z.shiftl 1 e)) (enumerate c1)
  end.
(** key_switching_key.rs:71-127. *)
Definition t_ksk_new (expand : expander) (derive : deriver) (sk : secret_key) (from : poly PowerBasis) (ct_level level : nat)
    (sd : seed) (rngs : nat -> nat -> Z) : T ksk :=
  let par := sk_par sk in
  c <~ quiet (par_context par level) ;;
  cc <~ quiet (par_context par ct_level) ;;
  if negb (ctx_eqb (p_ctx from) c) then quiet (Err ParameterMismatch)
  else
    match c_moduli c with
    | [q] =>
        lm <~ quiet (log_modulus q) ;;
        let lb := lm / 2 in
        n <~ quiet (div_ceilM lm lb) ;;
        c1 <~ quiet (generate_c1 expand derive c sd (Z.to_nat n)) ;;
        c0 <~ t_generate_c0_decomposition sk from c1 rngs lb ;;
        quiet (Val (mkKsk par (Some sd) c0 c1 ct_level cc level c lb))
    | _ =>
        c1 <~ quiet (generate_c1 expand derive c sd (length (c_moduli cc))) ;;
        c0 <~ t_generate_c0 sk from c1 rngs ;;
        quiet (Val (mkKsk par (Some sd) c0 c1 ct_level cc level c 0))
    end.
(** relinearization_key.rs:43-65. *)
Definition t_relin_new (expand : expander) (derive : deriver) (sk : secret_key) (ct_level level : nat) (sd : seed) (rngs : nat -> nat -> Z) : T ksk :=
  c <~ quiet (par_context (sk_par sk) level) ;;
  cc <~ quiet (par_context (sk_par sk) ct_level) ;;
  if Nat.eqb (length (c_moduli c)) 1 then quiet (Err KeySwitchingNotSupported)
  else
    s <~ t_sk_poly sk cc ;;
    s2 <~ t_mul s s ;;
    s2 <~ t_ntt_into_pb s2 ;;
    up <~ quiet (switcher_new cc c) ;;
    s2 <~ t_scale up s2 ;;
    t_ksk_new expand derive sk s2 ct_level level sd rngs.
(** galois_key.rs:25-60; [substitute] has no variable-time path. *)
Definition t_galois_new (expand : expander) (derive : deriver) (sk : secret_key) (exponent : Z) (ct_level level : nat)
    (sd : seed) (rngs : nat -> nat -> Z) : T galois_key :=
  c <~ quiet (par_context (sk_par sk) level) ;;
  cc <~ quiet (par_context (sk_par sk) ct_level) ;;
  e <~ quiet (subst_new cc exponent) ;;
  up <~ quiet (switcher_new cc c) ;;
  s <~ t_pb_from_i64 cc (sk_coeffs sk) false ;;
  s <~ quiet (substitute s e) ;;
  s <~ t_scale up s ;;
  k <~ t_ksk_new expand derive sk s ct_level level sd rngs ;;
  quiet (Val (mkGk e k)).
(** evaluation_key.rs:466-475: the monomials are public constants. *)
Definition t_expansion_monomials (par : params) (c : ctx) : T (list (poly NttShoup)) :=
  mapT (fun l =>
      i <~ quiet (chk64 (degree_of par - 2 ^ Z.of_nat l)) ;;
      quiet (guard (i <? degree_of par)) ;;~
      p <~ t_pb_from_i64 c (set_nth (repeat 0 (pa_degree par)) (Z.to_nat i) (-1)) true ;;
      t_pb_into_ntt_shoup p) (seq 0 (Z.to_nat (Z.log2 (degree_of par)))).
(** evaluation_key.rs:428-491. *)
Definition t_ek_build (expand : expander) (derive : deriver) (b : ek_builder) (sds : Z -> seed) (rngs : Z -> nat -> nat -> Z) : T eval_key :=
  let par := sk_par (eb_sk b) in
  let n := degree_of par in
  let idx := eb_columns b in
  let idx := if eb_row b then set_insert idx (2 * n - 1) else idx in
  idx <~ quiet (if eb_inner_sum b then
            foldM (fun l i => e <- ok_or (lookup (eb_rot b) i) EkMissing ;; Val (set_insert l e)) (steps_of par) (set_insert idx (2 * n - 1))
          else Val idx) ;;
  idx <~ quiet (foldM (fun ix l => d <- shrM n (Z.of_nat l) ;; Val (set_insert ix (d + 1))) (seq 0 (eb_expansion b)) idx) ;;
  c <~ quiet (par_context par (eb_ct_level b)) ;;
  ms <~ t_expansion_monomials par c ;;
  gk <~ foldT (fun m e => g <~ t_galois_new expand derive (eb_sk b) e (eb_ct_level b) (eb_level b) (sds e) (rngs e) ;;
                          quiet (Val (insert m e g))) idx [] ;;
  quiet (Val (mkEk par (eb_ct_level b) (eb_level b) gk (eb_rot b) ms)).
(** rgsw_ciphertext.rs:94-120. *)
Definition t_rgsw_encrypt (expand : expander) (derive : deriver) (sk : secret_key) (pt : plaintext)
    (sd0 sd1 : seed) (rngs0 rngs1 : nat -> nat -> Z) : T rgsw :=
  quiet (pt_validate_for pt (sk_par sk)) ;;~
  level <~ quiet (pt_level pt) ;;
  c <~ quiet (par_context (sk_par sk) level) ;;
  m <~ t_ntt_into_pb (pt_poly pt) ;;
  s <~ t_sk_poly sk c ;;
  ms <~ t_mul s (pt_poly pt) ;;
  ms <~ t_ntt_into_pb ms ;;
  k0 <~ t_ksk_new expand derive sk m level level sd0 rngs0 ;;
  k1 <~ t_ksk_new expand derive sk ms level level sd1 rngs1 ;;
  quiet (Val (mkRgsw k0 k1)).

(** ** Operations on ciphertexts *)
(** ops/mod.rs:15-257. *)
Definition t_ct_op2 (f : poly Ntt -> poly Ntt -> T (poly Ntt)) (a b : ciphertext) : T ciphertext :=
  quiet (guard (Nat.eqb (ct_level a) (ct_level b))) ;;~
  quiet (guard (Nat.eqb (length (ct_c a)) (length (ct_c b)))) ;;~
  c <~ map2T f (ct_c a) (ct_c b) ;;
  quiet (Val (mkCt (ct_par a) None c (ct_level a))).
Definition t_ct_neg (a : ciphertext) : T ciphertext :=
  c <~ mapT t_neg (ct_c a) ;; quiet (Val (mkCt (ct_par a) None c (ct_level a))).
Definition t_ct_add (a b : ciphertext) : T ciphertext :=
  quiet (guard (par_same (ct_par a) (ct_par b))) ;;~
  if is_empty a then quiet (Val b) else if is_empty b then quiet (Val a) else t_ct_op2 t_add a b.
Definition t_ct_sub (a b : ciphertext) : T ciphertext :=
  quiet (guard (par_same (ct_par a) (ct_par b))) ;;~
  if is_empty a then t_ct_neg b else if is_empty b then quiet (Val a) else t_ct_op2 t_sub a b.
Definition t_ct_op_pt (f : poly Ntt -> poly Ntt -> T (poly Ntt)) (a : ciphertext) (b : plaintext) : T ciphertext :=
  quiet (guard (par_same (ct_par a) (pt_par b))) ;;~
  quiet (guard (negb (is_empty a))) ;;~
  l <~ quiet (pt_level b) ;;
  quiet (guard (Nat.eqb (ct_level a) l)) ;;~
  m <~ t_to_poly b ;;
  match ct_c a with
  | [] => quiet Panic
  | c0 :: c => c0 <~ f c0 m ;; quiet (Val (mkCt (ct_par a) None (c0 :: c) (ct_level a)))
  end.
Definition t_ct_add_pt : ciphertext -> plaintext -> T ciphertext := t_ct_op_pt t_add.
Definition t_ct_sub_pt : ciphertext -> plaintext -> T ciphertext := t_ct_op_pt t_sub.
Definition t_pt_sub_ct (a : plaintext) (b : ciphertext) : T ciphertext := c <~ t_ct_sub_pt b a ;; t_ct_neg c.
Definition t_ct_mul_pt (a : ciphertext) (b : plaintext) : T ciphertext :=
  quiet (guard (par_same (ct_par a) (pt_par b))) ;;~
  if is_empty a then quiet (Val (mkCt (ct_par a) None (ct_c a) (ct_level a)))
  else
    l <~ quiet (pt_level b) ;;
    quiet (guard (Nat.eqb (ct_level a) l)) ;;~
    c <~ mapT (fun ci => t_mul ci (pt_poly b)) (ct_c a) ;;
    quiet (Val (mkCt (ct_par a) None c (ct_level a))).
(** ops/mod.rs:259-357. *)
Definition t_mul_step (a b : list (poly Ntt)) (c : list (poly Ntt)) (ij : nat * nat) : T (list (poly Ntt)) :=
  ai <~ quiet (get a (fst ij)) ;; bj <~ quiet (get b (snd ij)) ;; p <~ t_mul ai bj ;;
  ck <~ quiet (get c (fst ij + snd ij)) ;; ck <~ t_add ck p ;; quiet (Val (set_nth c (fst ij + snd ij) ck)).
Definition t_mul_parts (to : ctx) (a b : list (poly Ntt)) : T (list (poly Ntt)) :=
  quiet (guard (Nat.leb 1 (length a + length b))) ;;~
  let z := poly_zero Ntt to in
  let z := if forallb p_vt a && forallb p_vt b then allow_vt z else z in
  foldT (t_mul_step a b) (list_prod (seq 0 (length a)) (seq 0 (length b))) (repeat z (length a + length b - 1)).
Definition t_ct_mul (a b : ciphertext) : T ciphertext :=
  if is_empty a then quiet (Val a)
  else if ct_eqb b a then
    lv <~ quiet (no_err (context_level_at (ct_par a) (ct_level a))) ;;
    let mp := lv_mul lv in
    sa <~ no_errT (mapT (t_scale (mp_extender mp)) (ct_c a)) ;;
    c <~ t_mul_parts (mp_to mp) sa sa ;;
    c <~ no_errT (mapT (t_scale (mp_down mp)) c) ;;
    quiet (Val (mkCt (ct_par a) None c (ct_level b)))
  else
    quiet (guard (par_same (ct_par a) (ct_par b))) ;;~
    quiet (guard (Nat.eqb (ct_level a) (ct_level b))) ;;~
    lv <~ quiet (no_err (context_level_at (ct_par a) (ct_level a))) ;;
    let mp := lv_mul lv in
    sa <~ no_errT (mapT (t_scale (mp_extender mp)) (ct_c a)) ;;
    sb <~ no_errT (mapT (t_scale (mp_extender mp)) (ct_c b)) ;;
    c <~ t_mul_parts (mp_to mp) sa sb ;;
    c <~ no_errT (mapT (t_scale (mp_down mp)) c) ;;
    quiet (Val (mkCt (ct_par a) None c (ct_level b))).
(** ops/dot_product.rs:54-183. *)
Definition t_dot_product_scalar (cts : list ciphertext) (pts : list plaintext) : T ciphertext :=
  match cts, pts with
  | [], _ | _, [] => quiet (Err DpEmptyInput)
  | first :: _, _ =>
      if negb (Nat.eqb (length cts) (length pts)) then quiet (Err (DpOperandCountMismatch (len cts) (len pts)))
      else
        quiet (ct_validate_for first (ct_par first)) ;;~
        c <~ quiet (par_context (ct_par first) (ct_level first)) ;;
        let pairs := combine cts pts in
        let vt := forallb (fun cp => forallb p_vt (ct_c (fst cp)) && p_vt (pt_poly (snd cp))) pairs in
        quiet (dp_validate first c pairs) ;;~
        let maxs := map (fun q => Z.shiftl 1 (2 * leading_zeros64 q)) (c_moduli c) in
        min <~ quiet (unwrap (match maxs with [] => None | m :: t => Some (fold_left Z.min t m) end)) ;;
        if min <? len cts then
          parts <~ mapT (fun i => ps <~ quiet (mapM (fun ct => get (ct_c ct) i) cts) ;; t_dot_product ps (map pt_poly pts))
                        (seq 0 (length (ct_c first))) ;;
          quiet (Val (mkCt (ct_par first) None parts (ct_level first)))
        else
          acc <~ quiet (foldM dp_acc pairs (repeat (repeat (repeat 0 (pa_degree (ct_par first))) (length (c_moduli c))) (length (ct_c first)))) ;;
          parts <~ mapT (fun acci =>
                           note vt VtReduceU128 [acci]
                             (rows <- map2M (fun r q => mapM (if vt then reduce_u128_vt q else reduce_u128 q) r) acci (c_q c) ;;
                              poly_from_array Ntt c rows vt)) acc ;;
          quiet (Val (mkCt (ct_par first) None parts (ct_level first)))
  end.
(** key_switching_key.rs:240-362. *)
Fixpoint t_ks_loop (c : ctx) (rows : list (list Z)) (k0 k1 : list (poly NttShoup)) (a0 a1 : poly Ntt) : T (poly Ntt * poly Ntt) :=
  match rows, k0, k1 with
  | r :: rows', x0 :: k0', x1 :: k1' =>
      c2 <~ t_ntt_lazy_constant c r ;;
      t0 <~ t_mul_shoup c2 x0 ;;
      a0 <~ t_add a0 t0 ;;
      t1 <~ t_mul_shoup c2 x1 ;;
      a1 <~ t_add a1 t1 ;;
      t_ks_loop c rows' k0' k1' a0 a1
  | _, _, _ => quiet (Val (a0, a1))
  end.
Definition t_key_switch_decomposition (k : ksk) (p : poly PowerBasis) : T (poly Ntt * poly Ntt) :=
  if negb (ctx_eqb (p_ctx p) (k_ct_ctx k)) then quiet (Err ParameterMismatch)
  else
    q <~ quiet (unwrap (nth_error (c_moduli (p_ctx p)) 0)) ;;
    lm <~ quiet (log_modulus q) ;;
    lb <~ quiet (chk 0 64 (k_log_base k)) ;;
    n <~ quiet (div_ceilM lm lb) ;;
    let z := set_vt (ksk_permits k p) (poly_zero Ntt (k_ctx k)) in
    t_ks_loop (k_ctx k) (digits lb (Z.to_nat n) (concat (p_coeffs p))) (k_c0 k) (k_c1 k) z z.
Definition t_key_switch (k : ksk) (p : poly PowerBasis) : T (poly Ntt * poly Ntt) :=
  if negb (k_log_base k =? 0) then t_key_switch_decomposition k p
  else if negb (ctx_eqb (p_ctx p) (k_ct_ctx k)) then quiet (Err ParameterMismatch)
  else
    let z := set_vt (ksk_permits k p) (poly_zero Ntt (k_ctx k)) in
    t_ks_loop (k_ctx k) (p_coeffs p) (k_c0 k) (k_c1 k) z z.
(** relinearization_key.rs:67-102. *)
Definition t_ks_down (c0c c1c : ctx) (a : poly Ntt * poly Ntt) : T (poly Ntt * poly Ntt) :=
  if ctx_eqb (p_ctx (fst a)) c0c then quiet (Val a)
  else
    b0 <~ t_ntt_into_pb (fst a) ;;
    b1 <~ t_ntt_into_pb (snd a) ;;
    b0 <~ t_switch_down_to b0 c0c ;;
    b1 <~ t_switch_down_to b1 c1c ;;
    b0 <~ t_pb_into_ntt b0 ;;
    b1 <~ t_pb_into_ntt b1 ;;
    quiet (Val (b0, b1)).
Definition t_relinearizes (k : ksk) (ct : ciphertext) : T ciphertext :=
  quiet (ct_validate_for ct (k_par k)) ;;~
  match ct_c ct with
  | [c0; c1; c2] =>
      if negb (Nat.eqb (ct_level ct) (k_ct_level k))
      then quiet (Err (InvalidLevel (Z.of_nat (ct_level ct)) (Z.of_nat (k_ct_level k)) (Z.of_nat (k_ct_level k))))
      else
        p <~ t_ntt_into_pb c2 ;;
        r <~ t_key_switch k p ;;
        r <~ t_ks_down (p_ctx c0) (p_ctx c1) r ;;
        c0 <~ t_add c0 (fst r) ;;
        c1 <~ t_add c1 (snd r) ;;
        quiet (Val (ct_truncate (mkCt (ct_par ct) (ct_seed ct) [c0; c1; c2] (ct_level ct)) 2))
  | c => quiet (Err (InvalidPolynomialCount (len c) 3))
  end.
(** galois_key.rs:62-86. *)
Definition t_galois_apply (g : galois_key) (ct : ciphertext) : T ciphertext :=
  let k := g_ksk g in
  quiet (validate_two (k_par k) (k_ct_level k) ct) ;;~
  ct0 <~ quiet (get (ct_c ct) 0) ;;
  ct1 <~ quiet (get (ct_c ct) 1) ;;
  c2 <~ quiet (substitute ct1 (g_element g)) ;;
  c2 <~ t_ntt_into_pb c2 ;;
  r <~ t_key_switch k c2 ;;
  r <~ t_ks_down (p_ctx ct0) (p_ctx ct1) r ;;
  x <~ quiet (substitute ct0 (g_element g)) ;;
  c0 <~ t_add (fst r) x ;;
  quiet (Val (mkCt (ct_par ct) None [c0; snd r] (k_ct_level k))).

(** ** Multiparty protocols *)
(** public_key_gen.rs:32-57. *)
Definition t_pk_share_new (sk : secret_key) (crp : poly Ntt) (rng : nat -> Z) : T pk_share :=
  let par := sk_par sk in
  c <~ quiet (par_context par 0) ;;
  s <~ t_sk_poly sk c ;;
  e <~ t_poly_small Ntt c (pa_variance par) rng ;;
  p0 <~ t_neg crp ;;
  p0 <~ t_mul (disallow_vt p0) s ;;
  p0 <~ t_add p0 e ;;
  quiet (Val (mkPks par crp (allow_vt p0))).
(** relin_key_gen.rs:76-197. *)
Definition t_gen_new (sk : secret_key) (crp : list (poly Ntt)) (rng : nat -> Z) : T relin_gen :=
  let par := sk_par sk in
  c <~ quiet (par_context par 0) ;;
  if Nat.eqb (length (c_moduli c)) 1 then quiet (Err KeySwitchingNotSupported)
  else if negb (Nat.eqb (length crp) (length (c_moduli c))) then quiet (Err (InvalidCrpCount (len crp) (len (c_moduli c))))
  else
    u <~ t_poly_small Ntt c (pa_variance par) rng ;;
    quiet (Val (mkGen sk crp u)).
Definition t_r1_h0 (sk : secret_key) (crp : list (poly Ntt)) (u : poly Ntt) (rngs : nat -> nat -> Z) : T (list (poly Ntt)) :=
  let par := sk_par sk in
  c <~ quiet (par_context par 0) ;;
  s <~ t_sk_poly sk c ;;
  ms <~ quiet (slice_to (pa_moduli par) (length crp)) ;;
  rns <~ quiet (rns_new ms) ;;
  mapT (fun ia =>
      w <~ quiet (unwrap (get_garner rns (fst ia))) ;;
      w_s <~ t_scalar_mul s w ;;
      e <~ t_poly_small Ntt c (pa_variance par) (rngs (fst ia)) ;;
      h <~ t_neg (snd ia) ;;
      h <~ t_mul (disallow_vt h) u ;;
      h <~ t_add h w_s ;;
      t_add h e) (enumerate crp).
Definition t_r1_h1 (sk : secret_key) (crp : list (poly Ntt)) (rngs : nat -> nat -> Z) : T (list (poly Ntt)) :=
  let par := sk_par sk in
  c <~ quiet (par_context par 0) ;;
  s <~ t_sk_poly sk c ;;
  mapT (fun ia =>
      e <~ t_poly_small Ntt c (pa_variance par) (rngs (fst ia)) ;;
      h <~ t_mul (disallow_vt (snd ia)) s ;;
      t_add h e) (enumerate crp).
Definition t_gen_round1 (g : relin_gen) (rngs0 rngs1 : nat -> nat -> Z) : T relin_share :=
  let par := sk_par (gen_sk g) in
  c <~ quiet (par_context par 0) ;;
  if negb (Nat.eqb (length (gen_crp g)) (length (c_moduli c))) then quiet (Err (InvalidCrpCount (len (gen_crp g)) (len (c_moduli c))))
  else
    h0 <~ t_r1_h0 (gen_sk g) (gen_crp g) (gen_u g) rngs0 ;;
    h1 <~ t_r1_h1 (gen_sk g) (gen_crp g) rngs1 ;;
    quiet (Val (mkRks par h0 h1)).
(** relin_key_gen.rs:225-296. *)
Definition t_r2_h0 (sk : secret_key) (h0 : list (poly Ntt)) (rngs : nat -> nat -> Z) : T (list (poly Ntt)) :=
  let par := sk_par sk in
  c <~ quiet (par_context par 0) ;;
  s <~ t_sk_poly sk c ;;
  mapT (fun ih =>
      e <~ t_poly_small Ntt c (pa_variance par) (rngs (fst ih)) ;;
      h <~ t_mul (disallow_vt (snd ih)) s ;;
      t_add h e) (enumerate h0).
Definition t_r2_h1 (sk : secret_key) (u : poly Ntt) (h1 : list (poly Ntt)) (rngs : nat -> nat -> Z) : T (list (poly Ntt)) :=
  let par := sk_par sk in
  c <~ quiet (par_context par 0) ;;
  s <~ t_sk_poly sk c ;;
  u_s <~ t_sub u s ;;
  mapT (fun ih =>
      e <~ t_poly_small Ntt c (pa_variance par) (rngs (fst ih)) ;;
      h <~ t_mul (disallow_vt (snd ih)) u_s ;;
      t_add h e) (enumerate h1).
Definition t_gen_round2 (g : relin_gen) (r1 : relin_share) (rngs0 rngs1 : nat -> nat -> Z) : T relin_share2 :=
  h0 <~ t_r2_h0 (gen_sk g) (rks_h0 r1) rngs0 ;;
  h1 <~ t_r2_h1 (gen_sk g) (gen_u g) (rks_h1 r1) rngs1 ;;
  quiet (Val (mkRks2 (mkRks (sk_par (gen_sk g)) h0 h1) (Some r1))).
(** secret_key_switch.rs:38-95, 123-186. *)
Definition t_sks_new (sk_in sk_out : secret_key) (ct : ciphertext) (rng : nat -> Z) : T sks_share :=
  if negb (par_eqb (sk_par sk_in) (sk_par sk_out)) then quiet (Err ParameterMismatch)
  else if negb (par_eqb (sk_par sk_out) (ct_par ct)) then quiet (Err ParameterMismatch)
  else if negb (Nat.eqb (length (ct_c ct)) 2) then quiet (Err (InvalidPolynomialCount (len (ct_c ct)) 2))
  else
    let par := sk_par sk_in in
    c0 <~ quiet (get (ct_c ct) 0) ;;
    s_in <~ t_sk_poly sk_in (p_ctx c0) ;;
    s_out <~ t_sk_poly sk_out (p_ctx c0) ;;
    e <~ t_poly_small Ntt (p_ctx c0) (pa_variance par) rng ;;
    h <~ t_sub s_in s_out ;;
    c1 <~ quiet (get (ct_c ct) 1) ;;
    h <~ t_mul (disallow_vt h) c1 ;;
    h <~ t_add h e ;;
    quiet (Val (mkSks par ct h)).
Definition t_dec_share_new (sk : secret_key) (ct : ciphertext) (rng : nat -> Z) : T sks_share :=
  t_sks_new sk (mkSk (sk_par sk) (repeat 0 (pa_degree (sk_par sk)))) ct rng.
Definition t_sks_from_shares (shares : list sks_share) : T ciphertext :=
  match shares with
  | [] => quiet (Err NoShares)
  | share :: rest =>
      h <~ foldT (fun h sh => t_add h (sks_h sh)) rest (sks_h share) ;;
      c0 <~ quiet (get (ct_c (sks_ct share)) 0) ;;
      c0 <~ t_add c0 h ;;
      c1 <~ quiet (get (ct_c (sks_ct share)) 1) ;;
      quiet (ct_new [c0; c1] (sks_par share))
  end.
Definition t_dec_from_shares (shares : list sks_share) : T plaintext :=
  ct <~ t_sks_from_shares shares ;;
  let par := ct_par ct in
  c0 <~ quiet (get (ct_c ct) 0) ;;
  c <~ t_ntt_into_pb (disallow_vt c0) ;;
  lv <~ quiet (context_level_at par (ct_level ct)) ;;
  d <~ t_scale (cp_scaler (lv_cp lv)) c ;;
  v <~ quiet (poly_to_big d) ;;
  w <~ quiet (slice_to (map (fun x => x + pa_t par) v) (pa_degree par)) ;;
  w <~ quiet (reduce_big (rns_product (c_rns (p_ctx d))) w) ;;
  w <~ quiet (reduce_big (pa_t par) w) ;;
  p <~ quiet (pb_from_big (p_ctx c0) w false) ;;
  p <~ t_pb_into_ntt p ;;
  quiet (Val (mkPt par None p)).
(** public_key_switch.rs:33-92. *)
Fixpoint t_switch_until (n : nat) (level : nat) (ct : ciphertext) : T ciphertext :=
  if Nat.eqb (ct_level ct) level then quiet (Val ct)
  else match n with
       | O => quiet Panic
       | S n' => ct <~ t_ct_switch_down ct ;; t_switch_until n' level ct
       end.
Definition t_pksw_new (sk : secret_key) (pk : public_key) (ct : ciphertext) (ru r0 r1 : nat -> Z) : T pksw_share :=
  if negb (par_eqb (sk_par sk) (pk_par pk)) then quiet (Err ParameterMismatch)
  else if negb (par_eqb (pk_par pk) (ct_par ct)) then quiet (Err ParameterMismatch)
  else
    let par := sk_par sk in
    pct <~ t_switch_until (S (max_level (ct_par (pk_c pk)))) (ct_level ct) (pk_c pk) ;;
    c <~ quiet (par_context par (ct_level ct)) ;;
    s <~ t_sk_poly sk c ;;
    u <~ t_poly_small Ntt c (pa_variance par) ru ;;
    e0 <~ t_poly_small Ntt c (pa_variance par) r0 ;;
    e1 <~ t_poly_small Ntt c (pa_variance par) r1 ;;
    h0 <~ quiet (get (ct_c pct) 0) ;;
    h0 <~ t_mul (disallow_vt h0) u ;;
    c1 <~ quiet (get (ct_c ct) 1) ;;
    sc <~ t_mul (disallow_vt s) c1 ;;
    h0 <~ t_add h0 sc ;;
    h0 <~ t_add h0 e0 ;;
    h1 <~ quiet (get (ct_c pct) 1) ;;
    h1 <~ t_mul (disallow_vt h1) u ;;
    h1 <~ t_add h1 e1 ;;
    c0 <~ quiet (get (ct_c ct) 0) ;;
    quiet (Val (mkPksw par c0 (allow_vt h0) (allow_vt h1))).
