(** Model of crates/fhe-math/src/zq/mod.rs (struct [Modulus]) and of [supports_opt] in
    crates/fhe-math/src/zq/primes.rs.  SIMD dispatch ([pulp::Arch]) is erased: it selects
    machine code for the same closure. *)
From Verif Require Import Outcome.

(** zq/mod.rs:24-28 [const_time_cond_select]. [-(cond as i64) as u64] is all-ones or zero. *)
Definition const_time_cond_select (on_true on_false : Z) (cond : bool) : Z :=
  let mask := if cond then W64 - 1 else 0 in
  let diff := Z.lxor on_true on_false in
  Z.lxor (Z.land diff mask) on_false.

(** zq/mod.rs:32-40 [struct Modulus]; [distribution] and [arch] are dropped
    (random sampling is an oracle, SIMD is erased). *)
Record modulus := mkModulus {
  mod_p : Z;
  barrett_hi : Z;
  barrett_lo : Z;
  mod_lz : Z;          (* leading_zeros *)
  mod_opt : bool       (* supports_opt *)
}.

(** zq/primes.rs:10-24 [supports_opt]. *)
Definition supports_opt (p : Z) : bool :=
  if leading_zeros64 p <? 1 then false
  else
    let middle := Z.shiftl 1 (3 * leading_zeros64 p) in
    let left_side := Z.shiftl (middle + 1) 64 in
    let middle := middle * (Z.shiftl 1 (leading_zeros64 p) + 1) in
    let middle := middle * p in
    left_side <? middle.

(** zq/mod.rs:83-98 [Modulus::new]. *)
Definition modulus_new (p : Z) : M modulus :=
  if (p <? 2) || negb (Z.shiftr p 62 =? 0) then Err (InvalidModulus p)
  else
    barrett <- chk128 (Z.shiftl 1 128 / p) ;;      (* .to_u128().unwrap() *)
    Val (mkModulus p (Z.shiftr barrett 64 mod W64) (barrett mod W64)
                   (leading_zeros64 p) (supports_opt p)).

(** zq/mod.rs:659-668 [reduce1]. *)
Definition reduce1 (x p : Z) : M Z :=
  guard (Z.shiftr p 63 =? 0) ;;;
  p2 <- chk64 (2 * p) ;;
  guard (x <? p2) ;;;
  let r := const_time_cond_select x ((x - p) mod W64) (x <? p) in
  guard (negb (p =? 0) && (r =? x mod p)) ;;;      (* x % p panics when p = 0 *)
  Val r.

(** zq/mod.rs:677-682 [reduce1_vt], macos/avx2 variant.  The other variant
    (zq/mod.rs:686-688) is [reduce1] itself. *)
Definition reduce1_vt (x p : Z) : M Z :=
  guard (Z.shiftr p 63 =? 0) ;;;
  p2 <- chk64 (2 * p) ;;
  guard (x <? p2) ;;;
  if p <=? x then chk64 (x - p) else Val x.

(** zq/mod.rs:693-707 [lazy_reduce_u128]. *)
Definition lazy_reduce_u128 (m : modulus) (a : Z) : M Z :=
  let a_lo := a mod W64 in
  let a_hi := Z.shiftr a 64 mod W64 in
  p_ll <- chk128 (a_lo * barrett_lo m) ;;
  let p_lo_lo := Z.shiftr p_ll 64 in
  p_hi_lo <- chk128 (a_hi * barrett_lo m) ;;
  p_lo_hi <- chk128 (a_lo * barrett_hi m) ;;
  s1 <- chk128 (p_lo_hi + p_hi_lo) ;;
  s2 <- chk128 (s1 + p_lo_lo) ;;
  hh <- chk128 (a_hi * barrett_hi m) ;;
  q <- chk128 (Z.shiftr s2 64 + hh) ;;
  qp <- chk128 (q * mod_p m) ;;
  d <- chk128 (a - qp) ;;
  let r := d mod W64 in
  guard (r <? 2 * mod_p m) ;;;
  guard (r mod mod_p m =? (a mod mod_p m) mod W64) ;;;
  Val r.

(** zq/mod.rs:712-723 [lazy_reduce]. *)
Definition lazy_reduce (m : modulus) (a : Z) : M Z :=
  p_ll <- chk128 (a * barrett_lo m) ;;
  let p_lo_lo := Z.shiftr p_ll 64 in
  p_lo_hi <- chk128 (a * barrett_hi m) ;;
  s <- chk128 (p_lo_hi + p_lo_lo) ;;
  let q := Z.shiftr s 64 in
  qp <- chk128 (q * mod_p m) ;;
  d <- chk128 (a - qp) ;;
  let r := d mod W64 in
  guard (r <? 2 * mod_p m) ;;;
  guard (r mod mod_p m =? a mod mod_p m) ;;;
  Val r.

(** zq/mod.rs:730-740 [lazy_reduce_opt_u128]; [a << leading_zeros] drops the bits shifted
    out of the u128 (Rust shifts do not check for that). *)
Definition lazy_reduce_opt_u128 (m : modulus) (a : Z) : M Z :=
  pp <- chk128 (mod_p m * mod_p m) ;;
  guard (a <? pp) ;;;
  t1 <- chk128 (barrett_lo m * Z.shiftr a 64) ;;
  let t2 := Z.shiftl a (mod_lz m) mod W128 in
  t <- chk128 (t1 + t2) ;;
  let q := Z.shiftr t 64 in
  qp <- chk128 (q * mod_p m) ;;
  d <- chk128 (a - qp) ;;
  let r := d mod W64 in
  guard (r <? 2 * mod_p m) ;;;
  guard (r mod mod_p m =? (a mod mod_p m) mod W64) ;;;
  Val r.

(** zq/mod.rs:744-752 [lazy_reduce_opt]; the shift amount is below 64 because
    [leading_zeros >= 2] for every accepted modulus. *)
Definition lazy_reduce_opt (m : modulus) (a : Z) : M Z :=
  let q := Z.shiftr a (64 - mod_lz m) in
  qp <- chk128 (q * mod_p m) ;;
  d <- chk128 (a - qp) ;;
  let r := d mod W64 in
  guard (r <? 2 * mod_p m) ;;;
  guard (r mod mod_p m =? a mod mod_p m) ;;;
  Val r.

(** zq/mod.rs:594, 604, 610, 620 *)
Definition reduce_u128 (m : modulus) (a : Z) : M Z := r <- lazy_reduce_u128 m a ;; reduce1 r (mod_p m).
Definition reduce_u128_vt (m : modulus) (a : Z) : M Z := r <- lazy_reduce_u128 m a ;; reduce1_vt r (mod_p m).
Definition reduce (m : modulus) (a : Z) : M Z := r <- lazy_reduce m a ;; reduce1 r (mod_p m).
Definition reduce_vt (m : modulus) (a : Z) : M Z := r <- lazy_reduce m a ;; reduce1_vt r (mod_p m).

(** zq/mod.rs:626, 636, 643, 653 *)
Definition reduce_opt_u128 (m : modulus) (a : Z) : M Z :=
  guard (mod_opt m) ;;; r <- lazy_reduce_opt_u128 m a ;; reduce1 r (mod_p m).
Definition reduce_opt_u128_vt (m : modulus) (a : Z) : M Z :=
  guard (mod_opt m) ;;; r <- lazy_reduce_opt_u128 m a ;; reduce1_vt r (mod_p m).
Definition reduce_opt (m : modulus) (a : Z) : M Z := r <- lazy_reduce_opt m a ;; reduce1 r (mod_p m).
Definition reduce_opt_vt (m : modulus) (a : Z) : M Z := r <- lazy_reduce_opt m a ;; reduce1_vt r (mod_p m).

(** zq/mod.rs:103-106 [add]. *)
Definition zq_add (m : modulus) (a b : Z) : M Z :=
  guard ((a <? mod_p m) && (b <? mod_p m)) ;;; s <- chk64 (a + b) ;; reduce1 s (mod_p m).
(** zq/mod.rs:115-118 [add_vt]. *)
Definition zq_add_vt (m : modulus) (a b : Z) : M Z :=
  guard ((a <? mod_p m) && (b <? mod_p m)) ;;; s <- chk64 (a + b) ;; reduce1_vt s (mod_p m).
(** zq/mod.rs:123-126 [sub]. *)
Definition zq_sub (m : modulus) (a b : Z) : M Z :=
  guard ((a <? mod_p m) && (b <? mod_p m)) ;;;
  s <- chk64 (a + mod_p m) ;; d <- chk64 (s - b) ;; reduce1 d (mod_p m).
(** zq/mod.rs:131-134 [mul]. *)
Definition zq_mul (m : modulus) (a b : Z) : M Z :=
  guard ((a <? mod_p m) && (b <? mod_p m)) ;;; s <- chk128 (a * b) ;; reduce_u128 m s.
(** zq/mod.rs:142-145 [mul_vt]. *)
Definition zq_mul_vt (m : modulus) (a b : Z) : M Z :=
  guard ((a <? mod_p m) && (b <? mod_p m)) ;;; s <- chk128 (a * b) ;;
  r <- lazy_reduce_u128 m s ;; reduce1_vt r (mod_p m).
(** zq/mod.rs:151-156 [mul_opt]. *)
Definition zq_mul_opt (m : modulus) (a b : Z) : M Z :=
  guard (mod_opt m) ;;; guard ((a <? mod_p m) && (b <? mod_p m)) ;;;
  s <- chk128 (a * b) ;; reduce_opt_u128 m s.
(** zq/mod.rs:164-169 [mul_opt_vt]. *)
Definition zq_mul_opt_vt (m : modulus) (a b : Z) : M Z :=
  guard (mod_opt m) ;;; guard ((a <? mod_p m) && (b <? mod_p m)) ;;;
  s <- chk128 (a * b) ;; reduce_opt_u128_vt m s.
(** zq/mod.rs:175-178 [neg]. *)
Definition zq_neg (m : modulus) (a : Z) : M Z :=
  guard (a <? mod_p m) ;;; d <- chk64 (mod_p m - a) ;; reduce1 d (mod_p m).
(** zq/mod.rs:186-189 [neg_vt]. *)
Definition zq_neg_vt (m : modulus) (a : Z) : M Z :=
  guard (a <? mod_p m) ;;; d <- chk64 (mod_p m - a) ;; reduce1_vt d (mod_p m).

(** zq/mod.rs:195-199 [shoup]. *)
Definition shoup (m : modulus) (a : Z) : M Z :=
  guard (a <? mod_p m) ;;; Val ((Z.shiftl a 64 mod W128 / mod_p m) mod W64).

(** zq/mod.rs:224-234 [lazy_mul_shoup]. *)
Definition lazy_mul_shoup (m : modulus) (a b b_shoup : Z) : M Z :=
  guard (b <? mod_p m) ;;;
  bs <- shoup m b ;; guard (b_shoup =? bs) ;;;
  t <- chk128 (a * b_shoup) ;;
  let q := Z.shiftr t 64 in
  ab <- chk128 (a * b) ;;
  qp <- chk128 (q * mod_p m) ;;
  d <- chk128 (ab - qp) ;;
  let r := d mod W64 in
  p2 <- chk64 (2 * mod_p m) ;;
  guard (r <? p2) ;;;
  Val r.

(** zq/mod.rs:205-207 [mul_shoup], 215-217 [mul_shoup_vt]. *)
Definition mul_shoup (m : modulus) (a b b_shoup : Z) : M Z :=
  r <- lazy_mul_shoup m a b b_shoup ;; reduce1 r (mod_p m).
Definition mul_shoup_vt (m : modulus) (a b b_shoup : Z) : M Z :=
  r <- lazy_mul_shoup m a b b_shoup ;; reduce1_vt r (mod_p m).

Definition same_length {A B} (a : list A) (b : list B) : bool := Nat.eqb (length a) (length b).

(** zq/mod.rs:240-245 [add_vec]. *)
Definition add_vec (m : modulus) (a b : list Z) : M (list Z) :=
  guard (same_length a b) ;;; zip_upd (zq_add m) a b.

(** Common shape of zq/mod.rs:254-280 and 300-326: 16-element chunks, then the remainder. *)
Definition chunked_upd (f : Z -> Z -> M Z) (a b : list Z) : M (list Z) :=
  let '(ac, ar) := as_chunks 16 a in
  let '(bc, br) := as_chunks 16 b in
  cs <- zip_upd (zip_upd f) ac bc ;;
  r <- zip_upd f ar br ;;
  Val (concat cs ++ r).

(** zq/mod.rs:254-280 [add_vec_vt]. *)
Definition add_vec_vt (m : modulus) (a b : list Z) : M (list Z) :=
  guard (same_length a b) ;;;
  chunked_upd (fun ai bi => s <- chk64 (ai + bi) ;; reduce1_vt s (mod_p m)) a b.

(** zq/mod.rs:286-291 [sub_vec]. *)
Definition sub_vec (m : modulus) (a b : list Z) : M (list Z) :=
  guard (same_length a b) ;;; zip_upd (zq_sub m) a b.

(** zq/mod.rs:300-326 [sub_vec_vt]. *)
Definition sub_vec_vt (m : modulus) (a b : list Z) : M (list Z) :=
  guard (same_length a b) ;;;
  chunked_upd (fun ai bi => s <- chk64 (mod_p m + ai) ;; d <- chk64 (s - bi) ;; reduce1_vt d (mod_p m)) a b.

(** zq/mod.rs:332-344 [mul_vec], 378-392 [mul_vec_vt]. *)
Definition mul_vec (m : modulus) (a b : list Z) : M (list Z) :=
  guard (same_length a b) ;;;
  if mod_opt m then zip_upd (zq_mul_opt m) a b else zip_upd (zq_mul m) a b.
Definition mul_vec_vt (m : modulus) (a b : list Z) : M (list Z) :=
  guard (same_length a b) ;;;
  if mod_opt m then zip_upd (zq_mul_opt_vt m) a b else zip_upd (zq_mul_vt m) a b.

(** zq/mod.rs:349-355 [scalar_mul_vec], 363-369 [scalar_mul_vec_vt]. *)
Definition scalar_mul_vec (m : modulus) (a : list Z) (b : Z) : M (list Z) :=
  bs <- shoup m b ;; mapM (fun ai => mul_shoup m ai b bs) a.
Definition scalar_mul_vec_vt (m : modulus) (a : list Z) (b : Z) : M (list Z) :=
  bs <- shoup m b ;; mapM (fun ai => mul_shoup_vt m ai b bs) a.

(** zq/mod.rs:398-401 [shoup_vec]. *)
Definition shoup_vec (m : modulus) (a : list Z) : M (list Z) := mapM (shoup m) a.

(** zq/mod.rs:407-416 [mul_shoup_vec], 425-435 [mul_shoup_vec_vt]. *)
Definition mul_shoup_vec (m : modulus) (a b bs : list Z) : M (list Z) :=
  guard (same_length a b) ;;; guard (same_length a bs) ;;;
  sv <- shoup_vec m b ;; guard (list_eqb bs sv) ;;;
  zip_upd3 (mul_shoup m) a b bs.
Definition mul_shoup_vec_vt (m : modulus) (a b bs : list Z) : M (list Z) :=
  guard (same_length a b) ;;; guard (same_length a bs) ;;;
  sv <- shoup_vec m b ;; guard (list_eqb bs sv) ;;;
  zip_upd3 (mul_shoup_vt m) a b bs.

(** zq/mod.rs:438-441 [reduce_vec], 471-476 [reduce_vec_vt], 515-518 [reduce_vec_new], 526-529. *)
Definition reduce_vec (m : modulus) (a : list Z) : M (list Z) := mapM (reduce m) a.
Definition reduce_vec_vt (m : modulus) (a : list Z) : M (list Z) := mapM (reduce_vt m) a.
Definition reduce_vec_new := reduce_vec.
Definition reduce_vec_new_vt := reduce_vec_vt.

(** zq/mod.rs:448-457 [center]. [(a as i64).wrapping_sub(p as i64) as u64] is [(a-p) mod 2^64]. *)
Definition center (m : modulus) (a : Z) : M Z :=
  guard (a <? mod_p m) ;;;
  let threshold := Z.shiftr (mod_p m) 1 in
  let cond := threshold <=? a in
  let on_true := (a - mod_p m) mod W64 in
  Val (to_i64 (const_time_cond_select on_true a cond)).

(** zq/mod.rs:461-464 [center_vec]. *)
Definition center_vec (m : modulus) (a : list Z) : M (list Z) := mapM (center m) a.

(** zq/mod.rs:479-490 [reduce_i64], [reduce_i64_vt]. *)
Definition reduce_i64 (m : modulus) (a : Z) : M Z :=
  s <- chki128 (Z.shiftl (mod_p m) 64 + a) ;; reduce_u128 m (s mod W128).
Definition reduce_i64_vt (m : modulus) (a : Z) : M Z :=
  s <- chki128 (Z.shiftl (mod_p m) 64 + a) ;; reduce_u128_vt m (s mod W128).

(** zq/mod.rs:494-511 [reduce_vec_i64], [reduce_vec_i64_vt]. *)
Definition reduce_vec_i64 (m : modulus) (a : list Z) : M (list Z) := mapM (reduce_i64 m) a.
Definition reduce_vec_i64_vt (m : modulus) (a : list Z) : M (list Z) := mapM (reduce_i64_vt m) a.

(** zq/mod.rs:534-550 [neg_vec], [neg_vec_vt]. *)
Definition neg_vec (m : modulus) (a : list Z) : M (list Z) := mapM (zq_neg m) a.
Definition neg_vec_vt (m : modulus) (a : list Z) : M (list Z) := mapM (zq_neg_vt m) a.

(** zq/mod.rs:756-762 [lazy_reduce_vec]. *)
Definition lazy_reduce_vec (m : modulus) (a : list Z) : M (list Z) :=
  if mod_opt m then mapM (lazy_reduce_opt m) a else mapM (lazy_reduce m) a.

(** zq/mod.rs:566-572: the [while i >= 0] loop of [pow], [i] counting down; the argument [k]
    is [i + 1]. *)
Fixpoint pow_loop (m : modulus) (a n : Z) (k : nat) (r : Z) : M Z :=
  match k with
  | O => Val r
  | S i =>
      r <- zq_mul m r r ;;
      r <- (if Z.land (Z.shiftr n (Z.of_nat i)) 1 =? 1 then zq_mul m r a else Val r) ;;
      pow_loop m a n i r
  end.

(** zq/mod.rs:556-575 [pow]. [62 - n.leading_zeros()] is a u32 subtraction; for n >= 2 it is
    at least 0 since n < p < 2^62. *)
Definition zq_pow (m : modulus) (a n : Z) : M Z :=
  guard ((a <? mod_p m) && (n <? mod_p m)) ;;;
  if n =? 0 then Val 1
  else if n =? 1 then Val a
  else
    i <- chk 0 W32 (62 - leading_zeros64 n) ;;
    pow_loop m a n (Z.to_nat (i + 1)) a.

(** zq/mod.rs:582-590 [inv]; [isp] is the primality oracle [fhe_util::is_prime]. *)
Definition zq_inv (isp : Z -> bool) (m : modulus) (a : Z) : M (option Z) :=
  if negb (isp (mod_p m)) || (a =? 0) then Val None
  else
    e <- chk64 (mod_p m - 2) ;;
    r <- zq_pow m a e ;;
    c <- zq_mul m a r ;;
    guard (c =? 1) ;;;
    Val (Some r).
