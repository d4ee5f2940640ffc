(** Model of crates/fhe/src/bfv/keys/key_switching_key.rs, relinearization_key.rs, galois_key.rs, evaluation_key.rs,
    of bfv/rgsw_ciphertext.rs and bfv/ops/mul.rs.
    Random values are arguments, as in CipherModel.v.  The seeds that [generate_c1] draws from the generator started
    with the seed of the key are the oracle [derive] (ChaCha8): [derive sd i] is the i-th of them.  A [HashMap] is an
    association list in which a key occurs once; a [HashSet] is a list without repetition.  Iteration order is
    unspecified in Rust: here it is the order of insertion, and the streams of the Galois keys of an evaluation key
    are indexed by their exponent so that no result depends on that order. *)
From Verif Require Import Outcome ZqModel NttModel TranscodeModel CbdModel PrimesModel RnsModel RqModel ParamsModel
  PlainModel CipherModel OpsModel.

(** ** keys/key_switching_key.rs *)

Definition deriver := seed -> nat -> seed.
(** key_switching_key.rs:22-45 [struct KeySwitchingKey]. *)
Record ksk := mkKsk {
  k_par : params;
  k_seed : option seed;
  k_c0 : list (poly NttShoup);
  k_c1 : list (poly NttShoup);
  k_ct_level : nat;
  k_ct_ctx : ctx;
  k_level : nat;
  k_ctx : ctx;
  k_log_base : Z
}.

(** [u64::next_power_of_two().ilog2()]; the argument is at least 1, and [next_power_of_two] overflows past 2^63. *)
Definition log_modulus (q : Z) : M Z := chk 0 64 (Z.log2_up q).
(** key_switching_key.rs:129-146 [generate_c1]. *)
Definition generate_c1 (expand : expander) (derive : deriver) (c : ctx) (sd : seed) (size : nat) : M (list (poly NttShoup)) :=
  mapM (fun i => a <- poly_from_seed expand NttShoup c (derive sd i) ;; Val (allow_vt a)) (seq 0 size).
(** key_switching_key.rs:170-190, 215-234: one element b = e - a*s + g*from. *)
Definition ksk_entry (variance : Z) (s : poly Ntt) (from : poly PowerBasis) (rng : nat -> Z) (c1i : poly NttShoup) (g : Z)
  : M (poly NttShoup) :=
  a <- shoup_into_ntt c1i ;;
  a_s <- poly_mul (disallow_vt a) s ;;
  a_s <- ntt_into_pb a_s ;;
  b <- poly_small PowerBasis (p_ctx a_s) variance rng ;;
  b <- poly_sub b a_s ;;
  gf <- poly_scalar_mul from g ;;
  b <- poly_add b gf ;;
  pb_into_ntt_shoup (allow_vt b).
(** key_switching_key.rs:148-194 [generate_c0]; [rngs i] is the stream of the i-th error. *)
Definition generate_c0 (sk : secret_key) (from : poly PowerBasis) (c1 : list (poly NttShoup)) (rngs : nat -> nat -> Z)
  : M (list (poly NttShoup)) :=
  match c1 with
  | [] => Err EmptyKeySwitchingComponents
  | c10 :: _ =>
      s <- sk_poly sk (p_ctx c10) ;;
      ms <- slice_to (pa_moduli (sk_par sk)) (length c1) ;;
      rns <- rns_new ms ;;
      mapM (fun ic => g <- unwrap (get_garner rns (fst ic)) ;;
                      ksk_entry (pa_variance (sk_par sk)) s from (rngs (fst ic)) (snd ic) g) (enumerate c1)
  end.
(** key_switching_key.rs:196-238 [generate_c0_decomposition]. *)
Definition generate_c0_decomposition (sk : secret_key) (from : poly PowerBasis) (c1 : list (poly NttShoup)) (rngs : nat -> nat -> Z) (log_base : Z)
  : M (list (poly NttShoup)) :=
  match c1 with
  | [] => Err EmptyKeySwitchingComponents
  | c10 :: _ =>
      s <- sk_poly sk (p_ctx c10) ;;
      mapM (fun ic => e <- chk 0 64 (Z.of_nat (fst ic) * log_base) ;;
                      ksk_entry (pa_variance (sk_par sk)) s from (rngs (fst ic)) (snd ic) (Z.shiftl 1 e)) (enumerate c1)
  end.
(** [usize::div_ceil] *)
Definition div_ceilM (a b : Z) : M Z := guard (negb (b =? 0)) ;;; Val ((a + b - 1) / b).
(** key_switching_key.rs:71-127 [new]. *)
Definition ksk_new (expand : expander) (derive : deriver) (sk : secret_key) (from : poly PowerBasis) (ct_level level : nat)
    (sd : seed) (rngs : nat -> nat -> Z) : M ksk :=
  let par := sk_par sk in
  c <- par_context par level ;;
  cc <- par_context par ct_level ;;
  if negb (ctx_eqb (p_ctx from) c) then Err ParameterMismatch
  else
    match c_moduli c with
    | [q] =>
        lm <- log_modulus q ;;
        let lb := lm / 2 in
        n <- div_ceilM lm lb ;;
        c1 <- generate_c1 expand derive c sd (Z.to_nat n) ;;
        c0 <- generate_c0_decomposition sk from c1 rngs lb ;;
        Val (mkKsk par (Some sd) c0 c1 ct_level cc level c lb)
    | _ =>
        c1 <- generate_c1 expand derive c sd (length (c_moduli cc)) ;;
        c0 <- generate_c0 sk from c1 rngs ;;
        Val (mkKsk par (Some sd) c0 c1 ct_level cc level c 0)
    end.

(** key_switching_key.rs:48-69 [permits_variable_time_with], [configure_accumulators]. *)
Definition ksk_permits (k : ksk) (p : poly PowerBasis) : bool := p_vt p && forallb p_vt (k_c0 k) && forallb p_vt (k_c1 k).
Definition set_vt {R} (b : bool) (p : poly R) : poly R := if b then allow_vt p else disallow_vt p.
(** key_switching_key.rs:255-268, 305-318, 350-360: accumulation of the products. *)
Fixpoint ks_loop (c : ctx) (rows : list (list Z)) (k0 k1 : list (poly NttShoup)) (a0 a1 : poly Ntt) : M (poly Ntt * poly Ntt) :=
  match rows, k0, k1 with
  | r :: rows', x0 :: k0', x1 :: k1' =>
      c2 <- ntt_lazy_constant c r ;;
      t0 <- poly_mul_shoup c2 x0 ;;
      a0 <- poly_add a0 t0 ;;
      t1 <- poly_mul_shoup c2 x1 ;;
      a1 <- poly_add a1 t1 ;;
      ks_loop c rows' k0' k1' a0 a1
  | _, _, _ => Val (a0, a1)
  end.
(** key_switching_key.rs:339-345: the digits of the coefficients; the shifts overflow when [lb] is 64 or more. *)
Fixpoint digits (lb : Z) (n : nat) (v : list Z) : list (list Z) :=
  match n with
  | O => []
  | S n' => map (fun c => Z.land c (Z.shiftl 1 lb - 1)) v :: digits lb n' (map (fun c => Z.shiftr c lb) v)
  end.
(** key_switching_key.rs:322-362 [key_switch_decomposition]. *)
Definition key_switch_decomposition (k : ksk) (p : poly PowerBasis) : M (poly Ntt * poly Ntt) :=
  if negb (ctx_eqb (p_ctx p) (k_ct_ctx k)) then Err ParameterMismatch
  else
    q <- unwrap (nth_error (c_moduli (p_ctx p)) 0) ;;
    lm <- log_modulus q ;;
    lb <- chk 0 64 (k_log_base k) ;;
    n <- div_ceilM lm lb ;;
    let z := set_vt (ksk_permits k p) (poly_zero Ntt (k_ctx k)) in
    ks_loop (k_ctx k) (digits lb (Z.to_nat n) (concat (p_coeffs p))) (k_c0 k) (k_c1 k) z z.
(** key_switching_key.rs:240-270 [key_switch]. *)
Definition key_switch (k : ksk) (p : poly PowerBasis) : M (poly Ntt * poly Ntt) :=
  if negb (k_log_base k =? 0) then key_switch_decomposition k p
  else if negb (ctx_eqb (p_ctx p) (k_ct_ctx k)) then Err ParameterMismatch
  else
    let z := set_vt (ksk_permits k p) (poly_zero Ntt (k_ctx k)) in
    ks_loop (k_ctx k) (p_coeffs p) (k_c0 k) (k_c1 k) z z.
(** rq/mod.rs:149-156 [Poly::zeroize]; the flags keep their values. *)
Definition poly_zeroize {R} (p : poly R) : poly R :=
  let z := map (fun r => map (fun _ => 0) r) in
  mkPoly (p_ctx p) (p_lazy p) (p_vt p) (z (p_coeffs p)) (match p_shoup p with Some s => Some (z s) | None => None end).
(** key_switching_key.rs:272-320 [key_switch_assign]. *)
Definition ks_reset (c : ctx) (p : poly Ntt) : poly Ntt :=
  if negb (ctx_eqb (p_ctx p) c) then poly_zero Ntt c else poly_zeroize p.
Definition key_switch_assign (k : ksk) (p : poly PowerBasis) (a0 a1 : poly Ntt) : M (poly Ntt * poly Ntt) :=
  if negb (k_log_base k =? 0) then key_switch_decomposition k p
  else if negb (ctx_eqb (p_ctx p) (k_ct_ctx k)) then Err ParameterMismatch
  else
    let v := ksk_permits k p in
    ks_loop (k_ctx k) (p_coeffs p) (k_c0 k) (k_c1 k) (set_vt v (ks_reset (k_ctx k) a0)) (set_vt v (ks_reset (k_ctx k) a1)).

(** The message [KeySwitchingKey] of proto/bfv.proto. *)
Record ksk_proto := mkKp { kp_c0 : list rq_proto; kp_c1 : list rq_proto; kp_seed : list Z; kp_ct_level : Z; kp_level : Z; kp_log_base : Z }.
(** key_switching_key.rs:365-385 [KeySwitchingKeyProto::from]. *)
Definition ksk_to_proto (k : ksk) : M ksk_proto :=
  c1 <- match k_seed k with Some _ => Val [] | None => mapM poly_to_proto (k_c1 k) end ;;
  c0 <- mapM poly_to_proto (k_c0 k) ;;
  Val (mkKp c0 c1 (match k_seed k with Some s => s | None => [] end)
         (Z.of_nat (k_ct_level k) mod W32) (Z.of_nat (k_level k) mod W32) (k_log_base k mod W32)).
(** key_switching_key.rs:387-482 [try_convert_from]. *)
Definition ksk_from_proto (expand : expander) (derive : deriver) (m : ksk_proto) (par : params) : M ksk :=
  let ct_level := Z.to_nat (kp_ct_level m) in
  let level := Z.to_nat (kp_level m) in
  c <- par_context par level ;;
  cc <- par_context par ct_level ;;
  size <- (if negb (kp_log_base m =? 0) then
             if negb (Nat.eqb level (max_level par)) || negb (Nat.eqb ct_level (max_level par)) then Err InvalidKskDecompositionLevels
             else q <- unwrap (nth_error (pa_moduli par) 0) ;; lm <- log_modulus q ;; div_ceilM lm (kp_log_base m)
           else Val (len (c_moduli cc))) ;;
  if negb (len (kp_c0 m) =? size) then Err (WrongPolynomialCount size (len (kp_c0 m)))
  else
    sd <- (if Nat.eqb (length (kp_seed m)) 0 then
             if negb (len (kp_c1 m) =? size) then Err (WrongPolynomialCount size (len (kp_c1 m))) else Val None
           else if len (kp_seed m) =? 32 then Val (Some (kp_seed m)) else Err (InvalidKskSeedLength (len (kp_seed m)))) ;;
    c1 <- match sd with
          | Some s => generate_c1 expand derive c s (length (kp_c0 m))
          | None => mapM (fun b => poly_from_proto NttShoup b c false) (kp_c1 m)
          end ;;
    c0 <- mapM (fun b => poly_from_proto NttShoup b c false) (kp_c0 m) ;;
    Val (mkKsk par sd (map allow_vt c0) (map allow_vt c1) ct_level cc level c (kp_log_base m)).

(** ** keys/relinearization_key.rs *)

(** relinearization_key.rs:23-25 [struct RelinearizationKey]: its only field.  43-65 [new_leveled_internal]; [new] and
    [new_leveled] (30-40) call it. *)
Definition relin_new (expand : expander) (derive : deriver) (sk : secret_key) (ct_level level : nat) (sd : seed) (rngs : nat -> nat -> Z) : M ksk :=
  c <- par_context (sk_par sk) level ;;
  cc <- par_context (sk_par sk) ct_level ;;
  if Nat.eqb (length (c_moduli c)) 1 then Err KeySwitchingNotSupported
  else
    s <- sk_poly sk cc ;;
    s2 <- poly_mul s s ;;
    s2 <- ntt_into_pb s2 ;;
    up <- switcher_new cc c ;;
    s2 <- poly_scale up s2 ;;
    ksk_new expand derive sk s2 ct_level level sd rngs.
(** relinearization_key.rs:88-95, galois_key.rs:69-76, 112-119, ops/mul.rs:215-222: bring a pair back to the context
    of the ciphertext. *)
Definition ks_down (c0c c1c : ctx) (a : poly Ntt * poly Ntt) : M (poly Ntt * poly Ntt) :=
  if ctx_eqb (p_ctx (fst a)) c0c then Val a
  else
    b0 <- ntt_into_pb (fst a) ;;
    b1 <- ntt_into_pb (snd a) ;;
    b0 <- switch_down_to b0 c0c ;;
    b1 <- switch_down_to b1 c1c ;;
    b0 <- pb_into_ntt b0 ;;
    b1 <- pb_into_ntt b1 ;;
    Val (b0, b1).
(** relinearization_key.rs:67-102 [relinearizes], 104-110 [relinearizes_poly]. *)
Definition relinearizes (k : ksk) (ct : ciphertext) : M ciphertext :=
  ct_validate_for ct (k_par k) ;;;
  match ct_c ct with
  | [c0; c1; c2] =>
      if negb (Nat.eqb (ct_level ct) (k_ct_level k))
      then Err (InvalidLevel (Z.of_nat (ct_level ct)) (Z.of_nat (k_ct_level k)) (Z.of_nat (k_ct_level k)))
      else
        p <- ntt_into_pb c2 ;;
        r <- key_switch k p ;;
        r <- ks_down (p_ctx c0) (p_ctx c1) r ;;
        c0 <- poly_add c0 (fst r) ;;
        c1 <- poly_add c1 (snd r) ;;
        Val (ct_truncate (mkCt (ct_par ct) (ct_seed ct) [c0; c1; c2] (ct_level ct)) 2)
  | c => Err (InvalidPolynomialCount (len c) 3)
  end.
(** relinearization_key.rs:113-158 serialization. *)
Definition relin_to_proto (k : ksk) : M (option ksk_proto) := m <- ksk_to_proto k ;; Val (Some m).
Definition relin_from_proto (expand : expander) (derive : deriver) (m : option ksk_proto) (par : params) : M ksk :=
  match m with Some m => ksk_from_proto expand derive m par | None => Err SerMissingField end.

(** ** keys/galois_key.rs *)

(** galois_key.rs:19-22 [struct GaloisKey]. *)
Record galois_key := mkGk { g_element : subst_exp; g_ksk : ksk }.
(** galois_key.rs:25-60 [new]. *)
Definition galois_new (expand : expander) (derive : deriver) (sk : secret_key) (exponent : Z) (ct_level level : nat)
    (sd : seed) (rngs : nat -> nat -> Z) : M galois_key :=
  c <- par_context (sk_par sk) level ;;
  cc <- par_context (sk_par sk) ct_level ;;
  e <- subst_new cc exponent ;;
  up <- switcher_new cc c ;;
  s <- pb_from_i64 cc (sk_coeffs sk) false ;;
  s <- substitute s e ;;
  s <- poly_scale up s ;;
  k <- ksk_new expand derive sk s ct_level level sd rngs ;;
  Val (mkGk e k).
(** galois_key.rs:125-143, evaluation_key.rs:258-276 [validate_ciphertext]. *)
Definition validate_two (par : params) (level : nat) (ct : ciphertext) : M unit :=
  ct_validate_for ct par ;;;
  if negb (Nat.eqb (length (ct_c ct)) 2) then Err (InvalidPolynomialCount (len (ct_c ct)) 2)
  else if negb (Nat.eqb (ct_level ct) level) then Err (InvalidLevel (Z.of_nat (ct_level ct)) (Z.of_nat level) (Z.of_nat level))
  else Val tt.
(** galois_key.rs:62-86 [relinearize]. *)
Definition galois_apply (g : galois_key) (ct : ciphertext) : M ciphertext :=
  let k := g_ksk g in
  validate_two (k_par k) (k_ct_level k) ct ;;;
  ct0 <- get (ct_c ct) 0 ;;
  ct1 <- get (ct_c ct) 1 ;;
  c2 <- substitute ct1 (g_element g) ;;
  c2 <- ntt_into_pb c2 ;;
  r <- key_switch k c2 ;;
  r <- ks_down (p_ctx ct0) (p_ctx ct1) r ;;
  x <- substitute ct0 (g_element g) ;;
  c0 <- poly_add (fst r) x ;;
  Val (mkCt (ct_par ct) None [c0; snd r] (k_ct_level k)).
(** galois_key.rs:88-123 [relinearize_into]; [out] is the value to overwrite. *)
Definition galois_apply_into (g : galois_key) (ct out : ciphertext) : M ciphertext :=
  let k := g_ksk g in
  validate_two (k_par k) (k_ct_level k) ct ;;;
  ct0 <- get (ct_c ct) 0 ;;
  ct1 <- get (ct_c ct) 1 ;;
  let outs := match ct_c out with
              | [o0; o1] => if negb (ctx_eqb (p_ctx o0) (p_ctx ct0)) || negb (ctx_eqb (p_ctx o1) (p_ctx ct1))
                            then (poly_zero Ntt (p_ctx ct0), poly_zero Ntt (p_ctx ct1)) else (o0, o1)
              | _ => (poly_zero Ntt (p_ctx ct0), poly_zero Ntt (p_ctx ct1))
              end in
  c2 <- substitute ct1 (g_element g) ;;
  c2 <- ntt_into_pb c2 ;;
  r <- key_switch_assign k c2 (poly_zeroize (fst outs)) (poly_zeroize (snd outs)) ;;
  r <- ks_down (p_ctx ct0) (p_ctx ct1) r ;;
  x <- substitute ct0 (g_element g) ;;
  c0 <- poly_add (fst r) x ;;
  Val (mkCt (ct_par ct) None [c0; snd r] (k_ct_level k)).
(** The message [GaloisKey]; galois_key.rs:146-173 serialization. *)
Record galois_proto := mkGp { gkp_exponent : Z; gkp_ksk : option ksk_proto }.
Definition galois_to_proto (g : galois_key) : M galois_proto :=
  m <- ksk_to_proto (g_ksk g) ;; Val (mkGp (se_exponent (g_element g) mod W32) (Some m)).
Definition galois_from_proto (expand : expander) (derive : deriver) (m : galois_proto) (par : params) : M galois_key :=
  match gkp_ksk m with
  | None => Err SerMissingField
  | Some km =>
      k <- ksk_from_proto expand derive km par ;;
      c <- par_context par (k_ct_level k) ;;
      e <- subst_new c (gkp_exponent m) ;;
      Val (mkGk e k)
  end.

(** ** keys/evaluation_key.rs *)

(** Maps with integer keys. *)
Fixpoint lookup {A} (l : list (Z * A)) (x : Z) : option A :=
  match l with [] => None | (y, a) :: l' => if y =? x then Some a else lookup l' x end.
Fixpoint insert {A} (l : list (Z * A)) (x : Z) (a : A) : list (Z * A) :=
  match l with [] => [(x, a)] | (y, b) :: l' => if y =? x then (x, a) :: l' else (y, b) :: insert l' x a end.
Definition has {A} (l : list (Z * A)) (x : Z) : bool := match lookup l x with Some _ => true | None => false end.
Definition set_insert (l : list Z) (x : Z) : list Z := if existsb (Z.eqb x) l then l else l ++ [x].

(** evaluation_key.rs:22-37 [struct EvaluationKey]. *)
Record eval_key := mkEk {
  ek_par : params;
  ek_ct_level : nat;
  ek_level : nat;
  ek_gk : list (Z * galois_key);
  ek_rot : list (Z * Z);
  ek_monomials : list (poly NttShoup)
}.
Definition degree_of (p : params) : Z := Z.of_nat (pa_degree p).
(** evaluation_key.rs:278-286 [construct_rot_to_gk_exponent]. *)
Definition rot_exponents (par : params) : M (list (Z * Z)) :=
  q <- no_err (modulus_new (2 * degree_of par)) ;;
  mapM (fun i => e <- zq_pow q 3 (Z.of_nat i) ;; Val (Z.of_nat i, e)) (seq 1 (Z.to_nat (degree_of par / 2) - 1)).
(** The values 1, 2, 4, .. below [bound]: the loops [while i < bound { ..; i *= 2 }]. *)
Fixpoint doublings (fuel : nat) (i bound : Z) : list Z :=
  match fuel with O => [] | S f => if i <? bound then i :: doublings f (2 * i) bound else [] end.
Definition steps_of (par : params) : list Z := doublings (S (Z.to_nat (Z.log2 (degree_of par)))) 1 (degree_of par / 2).
(** evaluation_key.rs:40-53 [supports_inner_sum]. *)
Definition supports_inner_sum (ek : eval_key) : M bool :=
  foldM (fun ret i => e <- unwrap (lookup (ek_rot ek) i) ;; Val (ret && has (ek_gk ek) e))
        (steps_of (ek_par ek)) (has (ek_gk ek) (2 * degree_of (ek_par ek) - 1)).
(** evaluation_key.rs:81-82, 95-96: rotate into [tmp] and add. *)
Definition rot_add (ek : eval_key) (st : ciphertext * ciphertext) (e : Z) : M (ciphertext * ciphertext) :=
  g <- ok_or (lookup (ek_gk ek) e) EkMissing ;;
  tmp <- galois_apply_into g (fst st) (snd st) ;;
  out <- ct_add (fst st) tmp ;;
  Val (out, tmp).
(** evaluation_key.rs:55-100 [computes_inner_sum]. *)
Definition computes_inner_sum (ek : eval_key) (ct : ciphertext) : M ciphertext :=
  validate_two (ek_par ek) (ek_ct_level ek) ct ;;;
  b <- supports_inner_sum ek ;;
  if negb b then Err EkUnsupported
  else
    st <- foldM (fun st i => e <- ok_or (lookup (ek_rot ek) i) EkMissing ;; rot_add ek st e)
                (steps_of (ct_par ct)) (ct, ct_zero (ct_par ct)) ;;
    st <- rot_add ek st (2 * degree_of (ek_par ek) - 1) ;;
    Val (fst st).
(** evaluation_key.rs:102-131 row rotation. *)
Definition supports_row_rotation (ek : eval_key) : bool := has (ek_gk ek) (2 * degree_of (ek_par ek) - 1).
Definition rotates_rows (ek : eval_key) (ct : ciphertext) : M ciphertext :=
  validate_two (ek_par ek) (ek_ct_level ek) ct ;;;
  if negb (supports_row_rotation ek) then Err EkUnsupported
  else
    g <- ok_or (lookup (ek_gk ek) (2 * degree_of (ek_par ek) - 1)) EkMissing ;;
    galois_apply_into g ct (ct_zero (ct_par ct)).
(** evaluation_key.rs:133-170 column rotation. *)
Definition supports_column_rotation_by (ek : eval_key) (i : Z) : bool :=
  match lookup (ek_rot ek) i with Some e => has (ek_gk ek) e | None => false end.
Definition rotates_columns_by (ek : eval_key) (ct : ciphertext) (i : Z) : M ciphertext :=
  validate_two (ek_par ek) (ek_ct_level ek) ct ;;;
  if negb (supports_column_rotation_by ek i) then Err EkUnsupported
  else
    e <- ok_or (lookup (ek_rot ek) i) (InvalidRotationStep i) ;;
    g <- ok_or (lookup (ek_gk ek) e) EkMissing ;;
    galois_apply_into g ct (ct_zero (ct_par ct)).
(** [degree >> l] on [usize]; the shift overflows when [l] is 64 or more. *)
Definition shrM (d l : Z) : M Z := l <- chk 0 64 l ;; Val (Z.shiftr d l).
(** evaluation_key.rs:172-186 [supports_expansion]. *)
Definition supports_expansion (ek : eval_key) (level : nat) : M bool :=
  if Nat.eqb level 0 then Val true
  else if Nat.eqb (ek_level ek) (length (pa_moduli (ek_par ek))) then Val false
  else foldM (fun ret l => d <- shrM (degree_of (ek_par ek)) (Z.of_nat l) ;; Val (ret && has (ek_gk ek) (d + 1)))
             (seq 0 level) (Z.of_nat level <=? Z.log2 (degree_of (ek_par ek))).
(** evaluation_key.rs:236-245: one ciphertext of one round; the state is the vector and [sub]. *)
Definition expand_one (g : galois_key) (monomial : poly NttShoup) (step size : nat) (st : list ciphertext * ciphertext) (i : nat)
  : M (list ciphertext * ciphertext) :=
  low <- get (fst st) i ;;
  sub <- galois_apply_into g low (snd st) ;;
  out <- (if Nat.ltb (step + i) size then
            guard (Nat.ltb (step + i) (length (fst st))) ;;;
            t <- ct_sub low sub ;;
            t0 <- get (ct_c t) 0 ;; t1 <- get (ct_c t) 1 ;;
            t0 <- poly_mul_shoup t0 monomial ;;
            t1 <- poly_mul_shoup t1 monomial ;;
            Val (set_nth (fst st) (step + i) (ct_overwrite (ct_overwrite t 0 t0) 1 t1))
          else Val (fst st)) ;;
  low <- ct_add low sub ;;
  Val (set_nth out i low, sub).
(** evaluation_key.rs:219-247: one round. *)
Definition expand_round (ek : eval_key) (size : nat) (st : list ciphertext * ciphertext) (l : nat) : M (list ciphertext * ciphertext) :=
  m <- ok_or (nth_error (ek_monomials ek) l) EkMissing ;;
  d <- shrM (degree_of (ek_par ek)) (Z.of_nat l) ;;
  g <- ok_or (lookup (ek_gk ek) (d + 1)) EkMissing ;;
  let step := Nat.pow 2 l in
  guard (Nat.leb step (length (fst st))) ;;;
  foldM (expand_one g m step size) (seq 0 step) st.
(** evaluation_key.rs:188-256 [expands]. *)
Definition expands (ek : eval_key) (ct : ciphertext) (size : Z) : M (list ciphertext) :=
  validate_two (ek_par ek) (ek_ct_level ek) ct ;;;
  if size =? 0 then Err (InvalidExpansionSize size)
  else if degree_of (ek_par ek) <? size then Err (InvalidExpansionSize size)
  else
    let level := Z.to_nat (Z.log2_up size) in
    if Nat.eqb level 0 then Val [ct]
    else
      b <- supports_expansion ek level ;;
      if b then
        st <- foldM (expand_round ek (Z.to_nat size)) (seq 0 level)
                    (ct :: repeat (ct_zero (ct_par ct)) (Nat.pow 2 level - 1), ct_zero (ct_par ct)) ;;
        Val (firstn (Z.to_nat size) (fst st))
      else Err EkUnsupported.

(** evaluation_key.rs:312-323 [struct EvaluationKeyBuilder]. *)
Record ek_builder := mkEkb {
  eb_sk : secret_key;
  eb_ct_level : nat;
  eb_level : nat;
  eb_inner_sum : bool;
  eb_row : bool;
  eb_expansion : nat;
  eb_columns : list Z;
  eb_rot : list (Z * Z)
}.
(** evaluation_key.rs:334-346 [new], 348-383 [new_leveled]. *)
Definition ekb_new (sk : secret_key) : M ek_builder :=
  rot <- rot_exponents (sk_par sk) ;; Val (mkEkb sk 0 0 false false 0 [] rot).
Definition ekb_new_leveled (sk : secret_key) (ct_level level : nat) : M ek_builder :=
  if Nat.ltb (max_level (sk_par sk)) ct_level
  then Err (InvalidLevel (Z.of_nat ct_level) 0 (Z.of_nat (max_level (sk_par sk))))
  else if Nat.ltb ct_level level then Err (InvalidLevel (Z.of_nat level) 0 (Z.of_nat ct_level))
  else rot <- rot_exponents (sk_par sk) ;; Val (mkEkb sk ct_level level false false 0 [] rot).
(** evaluation_key.rs:385-426 [enable_expansion], [enable_inner_sum], [enable_row_rotation], [enable_column_rotation]. *)
Definition enable_expansion (b : ek_builder) (level : nat) : M ek_builder :=
  let mx := Z.log2 (degree_of (sk_par (eb_sk b))) in
  if mx <? Z.of_nat level then Err (InvalidLevel (Z.of_nat level) 0 mx)
  else Val (mkEkb (eb_sk b) (eb_ct_level b) (eb_level b) (eb_inner_sum b) (eb_row b) level (eb_columns b) (eb_rot b)).
Definition enable_inner_sum (b : ek_builder) : ek_builder :=
  mkEkb (eb_sk b) (eb_ct_level b) (eb_level b) true (eb_row b) (eb_expansion b) (eb_columns b) (eb_rot b).
Definition enable_row_rotation (b : ek_builder) : ek_builder :=
  mkEkb (eb_sk b) (eb_ct_level b) (eb_level b) (eb_inner_sum b) true (eb_expansion b) (eb_columns b) (eb_rot b).
Definition enable_column_rotation (b : ek_builder) (i : Z) : M ek_builder :=
  match lookup (eb_rot b) i with
  | Some e => Val (mkEkb (eb_sk b) (eb_ct_level b) (eb_level b) (eb_inner_sum b) (eb_row b) (eb_expansion b)
                     (set_insert (eb_columns b) e) (eb_rot b))
  | None => Err (InvalidRotationStep i)
  end.
(** evaluation_key.rs:466-475, 529-539: the monomials -X^(N - 2^l). *)
Definition expansion_monomials (par : params) (c : ctx) : M (list (poly NttShoup)) :=
  mapM (fun l =>
      i <- chk64 (degree_of par - 2 ^ Z.of_nat l) ;;
      guard (i <? degree_of par) ;;;
      p <- pb_from_i64 c (set_nth (repeat 0 (pa_degree par)) (Z.to_nat i) (-1)) true ;;
      pb_into_ntt_shoup p) (seq 0 (Z.to_nat (Z.log2 (degree_of par)))).
(** evaluation_key.rs:428-491 [build]; [sds e] and [rngs e] are the seed and the streams of the key of exponent [e]. *)
Definition ek_build (expand : expander) (derive : deriver) (b : ek_builder) (sds : Z -> seed) (rngs : Z -> nat -> nat -> Z) : M eval_key :=
  let par := sk_par (eb_sk b) in
  let n := degree_of par in
  let idx := eb_columns b in
  let idx := if eb_row b then set_insert idx (2 * n - 1) else idx in
  idx <- (if eb_inner_sum b then
            foldM (fun l i => e <- ok_or (lookup (eb_rot b) i) EkMissing ;; Val (set_insert l e)) (steps_of par) (set_insert idx (2 * n - 1))
          else Val idx) ;;
  idx <- foldM (fun ix l => d <- shrM n (Z.of_nat l) ;; Val (set_insert ix (d + 1))) (seq 0 (eb_expansion b)) idx ;;
  c <- par_context par (eb_ct_level b) ;;
  ms <- expansion_monomials par c ;;
  gk <- foldM (fun m e => g <- galois_new expand derive (eb_sk b) e (eb_ct_level b) (eb_level b) (sds e) (rngs e) ;;
                          Val (insert m e g)) idx [] ;;
  Val (mkEk par (eb_ct_level b) (eb_level b) gk (eb_rot b) ms).
(** The message [EvaluationKey]; evaluation_key.rs:494-550 serialization. *)
Record ek_proto := mkEp { ep_gk : list galois_proto; ep_ct_level : Z; ep_level : Z }.
Definition ek_to_proto (ek : eval_key) : M ek_proto :=
  gs <- mapM (fun eg => galois_to_proto (snd eg)) (ek_gk ek) ;;
  Val (mkEp gs (Z.of_nat (ek_ct_level ek) mod W32) (Z.of_nat (ek_level ek) mod W32)).
Definition ek_from_proto (expand : expander) (derive : deriver) (m : ek_proto) (par : params) : M eval_key :=
  gk <- foldM (fun acc gm =>
      g <- galois_from_proto expand derive gm par ;;
      let k := g_ksk g in
      if negb (Z.of_nat (k_ct_level k) =? ep_ct_level m) then Err (InvalidLevel (Z.of_nat (k_ct_level k)) (ep_ct_level m) (ep_ct_level m))
      else if negb (Z.of_nat (k_level k) =? ep_level m) then Err (InvalidLevel (Z.of_nat (k_level k)) (ep_level m) (ep_level m))
      else Val (insert acc (se_exponent (g_element g)) g)) (ep_gk m) [] ;;
  c <- par_context par (Z.to_nat (ep_ct_level m)) ;;
  ms <- expansion_monomials par c ;;
  rot <- rot_exponents par ;;
  Val (mkEk par (Z.to_nat (ep_ct_level m)) (Z.to_nat (ep_level m)) gk rot ms).

(** ** bfv/rgsw_ciphertext.rs *)

(** rgsw_ciphertext.rs:20-24 [struct RGSWCiphertext]. *)
Record rgsw := mkRgsw { r_ksk0 : ksk; r_ksk1 : ksk }.
(** rgsw_ciphertext.rs:94-120 [try_encrypt]. *)
Definition rgsw_encrypt (expand : expander) (derive : deriver) (sk : secret_key) (pt : plaintext)
    (sd0 sd1 : seed) (rngs0 rngs1 : nat -> nat -> Z) : M rgsw :=
  pt_validate_for pt (sk_par sk) ;;;
  level <- pt_level pt ;;
  c <- par_context (sk_par sk) level ;;
  m <- ntt_into_pb (pt_poly pt) ;;
  s <- sk_poly sk c ;;
  ms <- poly_mul s (pt_poly pt) ;;
  ms <- ntt_into_pb ms ;;
  k0 <- ksk_new expand derive sk m level level sd0 rngs0 ;;
  k1 <- ksk_new expand derive sk ms level level sd1 rngs1 ;;
  Val (mkRgsw k0 k1).
(** rgsw_ciphertext.rs:122-156 [Mul<&RGSWCiphertext> for &Ciphertext], 158-164 [Mul<&Ciphertext> for &RGSWCiphertext]. *)
Definition ct_mul_rgsw (ct : ciphertext) (r : rgsw) : M ciphertext :=
  guard (par_eqb (ct_par ct) (k_par (r_ksk0 r))) ;;;
  guard (Nat.eqb (ct_level ct) (k_ct_level (r_ksk0 r))) ;;;
  guard (Nat.eqb (length (ct_c ct)) 2) ;;;
  ct0 <- get (ct_c ct) 0 ;;
  ct1 <- get (ct_c ct) 1 ;;
  p0 <- ntt_into_pb ct0 ;;
  p1 <- ntt_into_pb ct1 ;;
  let z0 := poly_zero Ntt (k_ctx (r_ksk0 r)) in
  a <- no_err (key_switch_assign (r_ksk0 r) p0 z0 z0) ;;
  let z1 := poly_zero Ntt (k_ctx (r_ksk1 r)) in
  b <- no_err (key_switch_assign (r_ksk1 r) p1 z1 z1) ;;
  c0 <- poly_add (fst a) (fst b) ;;
  c1 <- poly_add (snd a) (snd b) ;;
  Val (mkCt (ct_par ct) None [c0; c1] (ct_level ct)).
Definition rgsw_mul_ct (r : rgsw) (ct : ciphertext) : M ciphertext := ct_mul_rgsw ct r.
(** The message [RGSWCiphertext]; rgsw_ciphertext.rs:30-90 serialization. *)
Record rgsw_proto := mkRp { rp_ksk0 : option ksk_proto; rp_ksk1 : option ksk_proto }.
Definition rgsw_to_proto (r : rgsw) : M rgsw_proto :=
  m0 <- ksk_to_proto (r_ksk0 r) ;; m1 <- ksk_to_proto (r_ksk1 r) ;; Val (mkRp (Some m0) (Some m1)).
Definition rgsw_from_proto (expand : expander) (derive : deriver) (m : rgsw_proto) (par : params) : M rgsw :=
  m0 <- ok_or (rp_ksk0 m) SerMissingField ;;
  k0 <- ksk_from_proto expand derive m0 par ;;
  m1 <- ok_or (rp_ksk1 m) SerMissingField ;;
  k1 <- ksk_from_proto expand derive m1 par ;;
  if negb (Nat.eqb (k_level k0) (k_ct_level k0)) || negb (Nat.eqb (k_ct_level k0) (k_ct_level k1))
     || negb (Nat.eqb (k_ct_level k1) (k_level k1))
  then Err InconsistentKeySwitchingLevels
  else Val (mkRgsw k0 k1).

(** ** bfv/ops/mul.rs *)

(** ops/mul.rs:21-32 [struct Multiplicator]. *)
Record multiplicator := mkMult {
  m_par : params;
  m_lhs : scaler;
  m_rhs : scaler;
  m_down : scaler;
  m_base : ctx;
  m_mul : ctx;
  m_rk : option ksk;
  m_switch : bool;
  m_level : nat
}.
(** ops/mul.rs:35-98 [new], [new_leveled], [new_leveled_internal]. *)
Definition mult_new (isp : Z -> bool) (cands : Z -> list Z) (lhs rhs : factor) (basis : list Z) (post : factor) (level : nat) (par : params)
  : M multiplicator :=
  base <- par_context par level ;;
  mctx <- context_new isp cands basis (pa_degree par) ;;
  el <- poly_scaler_new base mctx lhs ;;
  er <- poly_scaler_new base mctx rhs ;;
  ds <- poly_scaler_new mctx base post ;;
  Val (mkMult par el er ds base mctx None false level).
(** ops/mul.rs:140-151 [enable_relinearization]. *)
Definition mult_enable_relin (m : multiplicator) (rk : ksk) : M multiplicator :=
  c <- par_context (m_par m) (k_ct_level rk) ;;
  if negb (ctx_eqb c (m_base m)) then Err ParameterMismatch
  else Val (mkMult (m_par m) (m_lhs m) (m_rhs m) (m_down m) (m_base m) (m_mul m) (Some rk) (m_switch m) (m_level m)).
(** ops/mul.rs:153-162 [enable_mod_switching]. *)
Definition mult_enable_switch (m : multiplicator) : M multiplicator :=
  c <- par_context (m_par m) (max_level (m_par m)) ;;
  if ctx_eqb c (m_base m) then Err NoMoreContext
  else Val (mkMult (m_par m) (m_lhs m) (m_rhs m) (m_down m) (m_base m) (m_mul m) (m_rk m) true (m_level m)).
(** ops/mul.rs:100-138 [default]; the loop over primes is that of ParamsModel.v [extended_basis_loop]: a prime below the last
    one is never one of the primes found before. *)
Definition mult_default (isp : Z -> bool) (cands : Z -> list Z) (rk : ksk) : M multiplicator :=
  let par := k_par rk in
  c <- par_context par (k_ct_level rk) ;;
  sizes <- slice_to (pa_sizes par) (length (c_moduli c)) ;;
  let n := mul_moduli_count sizes in
  ext <- extended_basis_loop isp (n + length (c_moduli c) + 1) n (degree_of par) (Z.shiftl 1 62) (c_moduli c) [] ;;
  f <- factor_new (pa_t par) (rns_product (c_rns c)) ;;
  m <- mult_new isp cands factor_one factor_one (c_moduli c ++ ext) f (k_ct_level rk) par ;;
  mult_enable_relin m rk.
(** ops/mul.rs:164-243 [multiply]. *)
Definition mult_multiply (m : multiplicator) (a b : ciphertext) : M ciphertext :=
  ct_validate_for a (m_par m) ;;;
  ct_validate_for b (m_par m) ;;;
  if negb (Nat.eqb (ct_level a) (m_level m)) then Err (InvalidLevel (Z.of_nat (ct_level a)) (Z.of_nat (m_level m)) (Z.of_nat (m_level m)))
  else if negb (Nat.eqb (ct_level b) (m_level m)) then Err (InvalidLevel (Z.of_nat (ct_level b)) (Z.of_nat (m_level m)) (Z.of_nat (m_level m)))
  else
    match ct_c a, ct_c b with
    | [a0; a1], [b0; b1] =>
        c00 <- poly_scale (m_lhs m) a0 ;;
        c01 <- poly_scale (m_lhs m) a1 ;;
        c10 <- poly_scale (m_rhs m) b0 ;;
        c11 <- poly_scale (m_rhs m) b1 ;;
        c0 <- poly_mul c00 c10 ;;
        c1 <- poly_mul c00 c11 ;;
        x <- poly_mul c01 c10 ;;
        c1 <- poly_add c1 x ;;
        c2 <- poly_mul c01 c11 ;;
        c0 <- poly_scale (m_down m) c0 ;;
        c1 <- poly_scale (m_down m) c1 ;;
        c2 <- poly_scale (m_down m) c2 ;;
        c <- match m_rk m with
             | None => Val [c0; c1; c2]
             | Some rk =>
                 p <- ntt_into_pb c2 ;;
                 r <- key_switch rk p ;;
                 r <- ks_down (p_ctx c0) (p_ctx c1) r ;;
                 c0 <- poly_add c0 (fst r) ;;
                 c1 <- poly_add c1 (snd r) ;;
                 Val [c0; c1]
             end ;;
        let ct := mkCt (m_par m) None c (m_level m) in
        if m_switch m then ct_switch_down ct else Val ct
    | _, _ => Err (MultiplicationPolynomialCount (len (ct_c a)) (len (ct_c b)) 2)
    end.
