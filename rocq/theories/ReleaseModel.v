(** The release build of the arithmetic core: crates/fhe-math/src/zq/mod.rs, ntt/native.rs and the slot encoder of
    crates/fhe/src/bfv/plaintext_vec.rs, compiled with [debug-assertions] and [overflow-checks] off (the defaults of the release
    profile; /repo/Cargo.toml does not change them).

    [+], [-], [*] wrap around; [debug_assert!] is gone; indexing, slicing, division by zero and [assert!] still panic.  Values of
    type [u64], [u128] are the integers from 0 below 2^64, 2^128.  The debug build is ZqModel.v and NttModel.v.  *)
From Verif Require Import Outcome ZqModel NttModel RqModel ParamsModel PlainModel.

Definition w64 (x : Z) : Z := x mod W64.
Definition w128 (x : Z) : Z := x mod W128.

(** zq/mod.rs:659-668 [reduce1], 677-682 [reduce1_vt]. *)
Definition rel_reduce1 (x p : Z) : Z := const_time_cond_select x (w64 (x - p)) (x <? p).
Definition rel_reduce1_vt (x p : Z) : Z := if p <=? x then w64 (x - p) else x.

(** zq/mod.rs:693-707 [lazy_reduce_u128]. *)
Definition rel_lazy_reduce_u128 (m : modulus) (a : Z) : Z :=
  let a_lo := w64 a in
  let a_hi := w64 (Z.shiftr a 64) in
  let p_lo_lo := Z.shiftr (w128 (a_lo * barrett_lo m)) 64 in
  let p_hi_lo := w128 (a_hi * barrett_lo m) in
  let p_lo_hi := w128 (a_lo * barrett_hi m) in
  let q := w128 (Z.shiftr (w128 (w128 (p_lo_hi + p_hi_lo) + p_lo_lo)) 64 + w128 (a_hi * barrett_hi m)) in
  w64 (w128 (a - w128 (q * mod_p m))).
(** zq/mod.rs:712-723 [lazy_reduce]. *)
Definition rel_lazy_reduce (m : modulus) (a : Z) : Z :=
  let p_lo_lo := Z.shiftr (w128 (a * barrett_lo m)) 64 in
  let p_lo_hi := w128 (a * barrett_hi m) in
  let q := Z.shiftr (w128 (p_lo_hi + p_lo_lo)) 64 in
  w64 (w128 (a - w128 (q * mod_p m))).
(** zq/mod.rs:730-740 [lazy_reduce_opt_u128]. *)
Definition rel_lazy_reduce_opt_u128 (m : modulus) (a : Z) : Z :=
  let q := Z.shiftr (w128 (w128 (barrett_lo m * Z.shiftr a 64) + w128 (Z.shiftl a (mod_lz m)))) 64 in
  w64 (w128 (a - w128 (q * mod_p m))).
(** zq/mod.rs:744-752 [lazy_reduce_opt]. *)
Definition rel_lazy_reduce_opt (m : modulus) (a : Z) : Z :=
  let q := Z.shiftr a (64 - mod_lz m) in
  w64 (w128 (a - w128 (q * mod_p m))).

(** zq/mod.rs:594, 604, 610, 620, 626, 636, 643, 653 *)
Definition rel_reduce_u128 (m : modulus) (a : Z) : Z := rel_reduce1 (rel_lazy_reduce_u128 m a) (mod_p m).
Definition rel_reduce_u128_vt (m : modulus) (a : Z) : Z := rel_reduce1_vt (rel_lazy_reduce_u128 m a) (mod_p m).
Definition rel_reduce (m : modulus) (a : Z) : Z := rel_reduce1 (rel_lazy_reduce m a) (mod_p m).
Definition rel_reduce_vt (m : modulus) (a : Z) : Z := rel_reduce1_vt (rel_lazy_reduce m a) (mod_p m).
Definition rel_reduce_opt_u128 (m : modulus) (a : Z) : Z := rel_reduce1 (rel_lazy_reduce_opt_u128 m a) (mod_p m).
Definition rel_reduce_opt_u128_vt (m : modulus) (a : Z) : Z := rel_reduce1_vt (rel_lazy_reduce_opt_u128 m a) (mod_p m).
Definition rel_reduce_opt (m : modulus) (a : Z) : Z := rel_reduce1 (rel_lazy_reduce_opt m a) (mod_p m).
Definition rel_reduce_opt_vt (m : modulus) (a : Z) : Z := rel_reduce1_vt (rel_lazy_reduce_opt m a) (mod_p m).

(** zq/mod.rs:103-189 [add], [add_vt], [sub], [mul], [mul_vt], [mul_opt], [mul_opt_vt], [neg], [neg_vt]. *)
Definition rel_add (m : modulus) (a b : Z) : Z := rel_reduce1 (w64 (a + b)) (mod_p m).
Definition rel_add_vt (m : modulus) (a b : Z) : Z := rel_reduce1_vt (w64 (a + b)) (mod_p m).
Definition rel_sub (m : modulus) (a b : Z) : Z := rel_reduce1 (w64 (w64 (a + mod_p m) - b)) (mod_p m).
Definition rel_mul (m : modulus) (a b : Z) : Z := rel_reduce_u128 m (w128 (a * b)).
Definition rel_mul_vt (m : modulus) (a b : Z) : Z := rel_reduce1_vt (rel_lazy_reduce_u128 m (w128 (a * b))) (mod_p m).
Definition rel_mul_opt (m : modulus) (a b : Z) : Z := rel_reduce_opt_u128 m (w128 (a * b)).
Definition rel_mul_opt_vt (m : modulus) (a b : Z) : Z := rel_reduce_opt_u128_vt m (w128 (a * b)).
Definition rel_neg (m : modulus) (a : Z) : Z := rel_reduce1 (w64 (mod_p m - a)) (mod_p m).
Definition rel_neg_vt (m : modulus) (a : Z) : Z := rel_reduce1_vt (w64 (mod_p m - a)) (mod_p m).

(** zq/mod.rs:195-199 [shoup]: the division panics if the modulus is 0. *)
Definition rel_shoup (m : modulus) (a : Z) : M Z :=
  guard (negb (mod_p m =? 0)) ;;; Val (w64 (w128 (Z.shiftl a 64) / mod_p m)).
(** zq/mod.rs:205-234 [mul_shoup], [mul_shoup_vt], [lazy_mul_shoup]. *)
Definition rel_lazy_mul_shoup (m : modulus) (a b b_shoup : Z) : Z :=
  let q := Z.shiftr (w128 (a * b_shoup)) 64 in
  w64 (w128 (w128 (a * b) - w128 (q * mod_p m))).
Definition rel_mul_shoup (m : modulus) (a b b_shoup : Z) : Z := rel_reduce1 (rel_lazy_mul_shoup m a b b_shoup) (mod_p m).
Definition rel_mul_shoup_vt (m : modulus) (a b b_shoup : Z) : Z := rel_reduce1_vt (rel_lazy_mul_shoup m a b b_shoup) (mod_p m).

(** zq/mod.rs:448-457 [center], 479-490 [reduce_i64], [reduce_i64_vt]; [as u128] of a wrapped [i128]. *)
Definition rel_center (m : modulus) (a : Z) : Z :=
  to_i64 (const_time_cond_select (w64 (a - mod_p m)) a (Z.shiftr (mod_p m) 1 <=? a)).
Definition rel_reduce_i64 (m : modulus) (a : Z) : Z := rel_reduce_u128 m (w128 (Z.shiftl (mod_p m) 64 + a)).
Definition rel_reduce_i64_vt (m : modulus) (a : Z) : Z := rel_reduce_u128_vt m (w128 (Z.shiftl (mod_p m) 64 + a)).

(** zq/mod.rs:556-575 [pow].  [62 - n.leading_zeros()] is a [u32]; it is converted to [isize]. *)
Fixpoint rel_pow_loop (m : modulus) (a n : Z) (k : nat) (r : Z) : Z :=
  match k with
  | O => r
  | S i =>
      let r := rel_mul m r r in
      let r := if Z.land (Z.shiftr n (Z.of_nat i)) 1 =? 1 then rel_mul m r a else r in
      rel_pow_loop m a n i r
  end.
Definition rel_pow (m : modulus) (a n : Z) : Z :=
  if n =? 0 then 1 else if n =? 1 then a
  else rel_pow_loop m a n (Z.to_nat ((62 - leading_zeros64 n) mod W32 + 1)) a.
(** zq/mod.rs:582-590 [inv]. *)
Definition rel_inv (isp : Z -> bool) (m : modulus) (a : Z) : option Z :=
  if negb (isp (mod_p m)) || (a =? 0) then None else Some (rel_pow m a (w64 (mod_p m - 2))).

(** Vectors.  zq/mod.rs:240-245 [add_vec], 286-291 [sub_vec], 332-344 [mul_vec], 378-392 [mul_vec_vt]: elements beyond the shorter
    operand are left alone. *)
Fixpoint zip_rel (f : Z -> Z -> Z) (a b : list Z) : list Z :=
  match a, b with x :: a', y :: b' => f x y :: zip_rel f a' b' | _, _ => a end.
Fixpoint zip_rel3 (f : Z -> Z -> Z -> Z) (a b c : list Z) : list Z :=
  match a, b, c with x :: a', y :: b', z :: c' => f x y z :: zip_rel3 f a' b' c' | _, _, _ => a end.
Definition rel_add_vec (m : modulus) (a b : list Z) : list Z := zip_rel (rel_add m) a b.
Definition rel_sub_vec (m : modulus) (a b : list Z) : list Z := zip_rel (rel_sub m) a b.
Definition rel_mul_vec (m : modulus) (a b : list Z) : list Z := zip_rel (if mod_opt m then rel_mul_opt m else rel_mul m) a b.
Definition rel_mul_vec_vt (m : modulus) (a b : list Z) : list Z := zip_rel (if mod_opt m then rel_mul_opt_vt m else rel_mul_vt m) a b.
(** zq/mod.rs:254-280 [add_vec_vt], 300-326 [sub_vec_vt]: 16-element chunks, then the remainders. *)
Fixpoint zip_lists (f : list Z -> list Z -> list Z) (a b : list (list Z)) : list (list Z) :=
  match a, b with x :: a', y :: b' => f x y :: zip_lists f a' b' | _, _ => a end.
Definition rel_chunked (f : Z -> Z -> Z) (a b : list Z) : list Z :=
  let '(ac, ar) := as_chunks 16 a in
  let '(bc, br) := as_chunks 16 b in
  concat (zip_lists (zip_rel f) ac bc) ++ zip_rel f ar br.
Definition rel_add_vec_vt (m : modulus) (a b : list Z) : list Z := rel_chunked (rel_add_vt m) a b.
Definition rel_sub_vec_vt (m : modulus) (a b : list Z) : list Z :=
  rel_chunked (fun ai bi => rel_reduce1_vt (w64 (w64 (mod_p m + ai) - bi)) (mod_p m)) a b.
(** zq/mod.rs:349-369 [scalar_mul_vec], [scalar_mul_vec_vt], 398-401 [shoup_vec], 407-435 [mul_shoup_vec], [mul_shoup_vec_vt]. *)
Definition rel_scalar_mul_vec (m : modulus) (a : list Z) (b : Z) : M (list Z) :=
  bs <- rel_shoup m b ;; Val (map (fun ai => rel_mul_shoup m ai b bs) a).
Definition rel_scalar_mul_vec_vt (m : modulus) (a : list Z) (b : Z) : M (list Z) :=
  bs <- rel_shoup m b ;; Val (map (fun ai => rel_mul_shoup_vt m ai b bs) a).
Definition rel_shoup_vec (m : modulus) (a : list Z) : M (list Z) := mapM (rel_shoup m) a.
Definition rel_mul_shoup_vec (m : modulus) (a b bs : list Z) : list Z := zip_rel3 (rel_mul_shoup m) a b bs.
Definition rel_mul_shoup_vec_vt (m : modulus) (a b bs : list Z) : list Z := zip_rel3 (rel_mul_shoup_vt m) a b bs.
(** zq/mod.rs:438-441 [reduce_vec], 471-476 [reduce_vec_vt] (and the versions that return a vector, 515-529), 461-464 [center_vec],
    494-511 [reduce_vec_i64], [reduce_vec_i64_vt], 534-550 [neg_vec], [neg_vec_vt], 756-762 [lazy_reduce_vec]. *)
Definition rel_reduce_vec (m : modulus) (a : list Z) : list Z := map (rel_reduce m) a.
Definition rel_reduce_vec_vt (m : modulus) (a : list Z) : list Z := map (rel_reduce_vt m) a.
Definition rel_center_vec (m : modulus) (a : list Z) : list Z := map (rel_center m) a.
Definition rel_reduce_vec_i64 (m : modulus) (a : list Z) : list Z := map (rel_reduce_i64 m) a.
Definition rel_reduce_vec_i64_vt (m : modulus) (a : list Z) : list Z := map (rel_reduce_i64_vt m) a.
Definition rel_neg_vec (m : modulus) (a : list Z) : list Z := map (rel_neg m) a.
Definition rel_neg_vec_vt (m : modulus) (a : list Z) : list Z := map (rel_neg_vt m) a.
Definition rel_lazy_reduce_vec (m : modulus) (a : list Z) : list Z :=
  map (if mod_opt m then rel_lazy_reduce_opt m else rel_lazy_reduce m) a.

(** ntt/native.rs:238-253 [reduce3], [reduce3_vt]. *)
Definition rel_reduce3 (op : ntt_op) (a : Z) : Z := rel_reduce1 (rel_reduce1 a (nt_p_twice op)) (mod_p (nt_p op)).
Definition rel_reduce3_vt (op : ntt_op) (a : Z) : Z := rel_reduce1_vt (rel_reduce1_vt a (nt_p_twice op)) (mod_p (nt_p op)).
(** native.rs:256-285 [butterfly], [butterfly_vt]; 288-315 [inv_butterfly], [inv_butterfly_vt]; [r1] is the variant of [reduce1]. *)
Definition rel_butterfly (r1 : Z -> Z -> Z) (op : ntt_op) (x y w w_shoup : Z) : Z * Z :=
  let x := r1 x (nt_p_twice op) in
  let t := rel_lazy_mul_shoup (nt_p op) y w w_shoup in
  (w64 (x + t), w64 (w64 (x + nt_p_twice op) - t)).
Definition rel_inv_butterfly (r1 : Z -> Z -> Z) (op : ntt_op) (x y z z_shoup : Z) : Z * Z :=
  (r1 (w64 (y + x)) (nt_p_twice op), rel_lazy_mul_shoup (nt_p op) (w64 (w64 (nt_p_twice op + x) - y)) z z_shoup).

(** native.rs:83-99 *)
Definition rel_fwd_chunk (op : ntt_op) (l : nat) (w ws : Z) (chunk : list Z) : M (list Z) :=
  guard (Nat.leb l (length chunk)) ;;;
  let left := firstn l chunk in
  let right := skipn l chunk in
  if Nat.eqb l 1 then
    match left, right with
    | x :: lt, y :: rt =>
        let '(x', y') := rel_butterfly rel_reduce1 op x y w ws in
        Val (rel_reduce3 op x' :: lt ++ rel_reduce3 op y' :: rt)
    | _, _ => Panic
    end
  else
    xy <- map2M (fun x y => Val (rel_butterfly rel_reduce1 op x y w ws)) left right ;;
    Val (map fst xy ++ map snd xy).
Fixpoint rel_fwd_chunks (op : ntt_op) (l k : nat) (cs : list (list Z)) : M (list (list Z) * nat) :=
  match cs with
  | [] => Val ([], k)
  | c :: rest =>
      w <- get (nt_omegas op) k ;;
      ws <- get (nt_omegas_shoup op) k ;;
      c' <- rel_fwd_chunk op l w ws c ;;
      '(r, k') <- rel_fwd_chunks op l (S k) rest ;;
      Val (c' :: r, k')
  end.
Fixpoint rel_fwd_loop (fuel : nat) (op : ntt_op) (l k : nat) (a : list Z) : M (list Z) :=
  if Nat.eqb l 0 then Val a
  else match fuel with
       | O => Panic
       | S f =>
           let '(cs, r) := as_chunks (2 * l) a in
           '(cs', k') <- rel_fwd_chunks op l k cs ;;
           rel_fwd_loop f op (Nat.div2 l) k' (concat cs' ++ r)
       end.
(** native.rs:77-102 [forward]. *)
Definition rel_forward (op : ntt_op) (a : list Z) : M (list Z) := rel_fwd_loop (nt_size op) op (Nat.div2 (nt_size op)) 1 a.

(** native.rs:113-126 *)
Definition rel_bwd_chunk (op : ntt_op) (l : nat) (z zs : Z) (chunk : list Z) : M (list Z) :=
  guard (Nat.leb l (length chunk)) ;;;
  let left := firstn l chunk in
  let right := skipn l chunk in
  if Nat.eqb l 1 then
    match left, right with
    | x :: lt, y :: rt =>
        let '(x', y') := rel_inv_butterfly rel_reduce1 op x y z zs in
        Val (x' :: lt ++ y' :: rt)
    | _, _ => Panic
    end
  else
    xy <- map2M (fun x y => Val (rel_inv_butterfly rel_reduce1 op x y z zs)) left right ;;
    Val (map fst xy ++ map snd xy).
Fixpoint rel_bwd_chunks (op : ntt_op) (l k : nat) (cs : list (list Z)) : M (list (list Z) * nat) :=
  match cs with
  | [] => Val ([], k)
  | c :: rest =>
      z <- get (nt_zetas_inv op) k ;;
      zs <- get (nt_zetas_inv_shoup op) k ;;
      c' <- rel_bwd_chunk op l z zs c ;;
      '(r, k') <- rel_bwd_chunks op l (S k) rest ;;
      Val (c' :: r, k')
  end.
Fixpoint rel_bwd_loop (fuel : nat) (op : ntt_op) (l k : nat) (a : list Z) : M (list Z) :=
  if negb (Nat.ltb l (nt_size op)) then Val a
  else match fuel with
       | O => Panic
       | S f =>
           let '(cs, r) := as_chunks (2 * l) a in
           '(cs', k') <- rel_bwd_chunks op l k cs ;;
           rel_bwd_loop f op (2 * l) k' (concat cs' ++ r)
       end.
(** native.rs:106-132 [backward]. *)
Definition rel_backward (op : ntt_op) (a : list Z) : M (list Z) :=
  a <- rel_bwd_loop (nt_size op) op 1 0 a ;;
  Val (map (fun ai => rel_mul_shoup (nt_p op) ai (nt_size_inv op) (nt_size_inv_shoup op)) a).

(** native.rs:142-189 [forward_vt_lazy], [forward_vt]; 197-233 [backward_vt].  As in NttModel.v the accesses that are not checked
    are modelled as checked ones, and the length of the slice is an obligation of the caller. *)
Definition rel_fwd_vt_block (op : ntt_op) (l : nat) (ka : nat * list Z) (i : nat) : M (nat * list Z) :=
  let '(k, a) := ka in
  w <- get (nt_omegas op) k ;;
  ws <- get (nt_omegas_shoup op) k ;;
  let s := (2 * i * l)%nat in
  a <- foldM (fun a j => at_pair (fun x y => Val (rel_butterfly rel_reduce1_vt op x y w ws)) a j l) (seq s l) a ;;
  Val (S k, a).
Fixpoint rel_fwd_vt_loop (fuel : nat) (op : ntt_op) (l m k : nat) (a : list Z) : M (list Z) :=
  if Nat.eqb l 0 then Val a
  else match fuel with
       | O => Panic
       | S f =>
           '(k', a') <- foldM (rel_fwd_vt_block op l) (seq 0 m) (k, a) ;;
           rel_fwd_vt_loop f op (Nat.div2 l) (2 * m) k' a'
       end.
Definition rel_forward_vt_lazy (op : ntt_op) (a : list Z) : M (list Z) :=
  guard (Nat.eqb (length a) (nt_size op)) ;;;
  rel_fwd_vt_loop (nt_size op) op (Nat.div2 (nt_size op)) 1 1 a.
Definition rel_forward_vt (op : ntt_op) (a : list Z) : M (list Z) :=
  a <- rel_forward_vt_lazy op a ;; Val (map (rel_reduce3_vt op) a).
Definition rel_bwd_vt_block (op : ntt_op) (l : nat) (ka : nat * list Z) (i : nat) : M (nat * list Z) :=
  let '(k, a) := ka in
  let s := (2 * i * l)%nat in
  z <- get (nt_zetas_inv op) k ;;
  zs <- get (nt_zetas_inv_shoup op) k ;;
  a <- foldM (fun a j => at_pair (fun x y => Val (rel_inv_butterfly rel_reduce1_vt op x y z zs)) a j l) (seq s l) a ;;
  Val (S k, a).
Fixpoint rel_bwd_vt_loop (fuel : nat) (op : ntt_op) (l m k : nat) (a : list Z) : M (list Z) :=
  if Nat.eqb m 0 then Val a
  else match fuel with
       | O => Panic
       | S f =>
           '(k', a') <- foldM (rel_bwd_vt_block op l) (seq 0 m) (k, a) ;;
           rel_bwd_vt_loop f op (2 * l) (Nat.div2 m) k' a'
       end.
Definition rel_backward_vt (op : ntt_op) (a : list Z) : M (list Z) :=
  guard (Nat.eqb (length a) (nt_size op)) ;;;
  a <- rel_bwd_vt_loop (nt_size op) op 1 (Nat.div2 (nt_size op)) 0 a ;;
  Val (map (fun ai => rel_mul_shoup (nt_p op) ai (nt_size_inv op) (nt_size_inv_shoup op)) a).

(** native.rs:341-348 [is_primitive_root], 320-336 [primitive_root]: 0 if no candidate is one. *)
Definition rel_is_primitive_root (m : modulus) (a n : Z) : bool := (rel_pow m a n =? 1) && negb (rel_pow m a (n / 2) =? 1).
Fixpoint rel_primitive_root (m : modulus) (n lambda : Z) (cands : list Z) : Z :=
  match cands with
  | [] => 0
  | c :: rest =>
      let root := rel_pow m c lambda in
      if rel_is_primitive_root m root (2 * n) then root else rel_primitive_root m n lambda rest
  end.
(** native.rs:44-49 *)
Fixpoint rel_successive (m : modulus) (w : Z) (count : nat) (x : Z) : list Z :=
  match count with O => [] | S c => x :: rel_successive m w c (rel_mul m x w) end.
(** native.rs:35-73 [NttOperator::new]; [supports_ntt] has an [assert!], which stays. *)
Definition rel_ntt_new (isp : Z -> bool) (cands : list Z) (m : modulus) (size : nat) : M (option ntt_op) :=
  let n := Z.of_nat size in
  s <- supports_ntt isp (mod_p m) n ;;
  if negb s then Val None
  else
    match rel_inv isp m n with
    | None => Val None
    | Some size_inv =>
        let omega := rel_primitive_root m n ((mod_p m - 1) / (2 * n)) cands in
        match rel_inv isp m omega with
        | None => Val None
        | Some omega_inv =>
            let powers := rel_successive m omega size 1 in
            let powers_inv := rel_successive m omega_inv size omega_inv in
            omegas <- mapM (fun i => get powers (Z.to_nat (bitrev_index n (Z.of_nat i)))) (seq 0 size) ;;
            zetas_inv <- mapM (fun i => get powers_inv (Z.to_nat (bitrev_index n (Z.of_nat i)))) (seq 0 size) ;;
            omegas_shoup <- rel_shoup_vec m omegas ;;
            zetas_inv_shoup <- rel_shoup_vec m zetas_inv ;;
            size_inv_shoup <- rel_shoup m size_inv ;;
            Val (Some (mkNtt m (w64 (mod_p m * 2)) size omegas omegas_shoup zetas_inv zetas_inv_shoup size_inv size_inv_shoup))
        end
    end.

(** crates/fhe/src/bfv/plaintext_vec.rs:82-98: the coefficients computed from slots, in both builds. *)
Definition slot_coefficients (vt : bool) (v : list Z) (par : params) : M (list Z) :=
  coeffs <- place_slots (pa_index par) v (repeat 0 (pa_degree par)) ;;
  op <- ok_or (pa_ntt par) PtNttOperatorUnavailable ;;
  if vt then ntt_backward_vt op coeffs else ntt_backward op coeffs.
Definition rel_slot_coefficients (vt : bool) (v : list Z) (par : params) : M (list Z) :=
  coeffs <- place_slots (pa_index par) v (repeat 0 (pa_degree par)) ;;
  op <- ok_or (pa_ntt par) PtNttOperatorUnavailable ;;
  if vt then rel_backward_vt op coeffs else rel_backward op coeffs.
(** plaintext_vec.rs:71-103 [encode_u64_chunk] for slots.  The rest of the function runs on coefficients below t, on which the debug
    build does not panic unless the modulus of the level is below t/4 (C57); it is the debug model. *)
Definition rel_encode_slots (vt : bool) (v : list Z) (par : params) (c : ctx) : M (poly Ntt) :=
  coeffs <- rel_slot_coefficients vt v par ;;
  p <- pb_from_u64 c coeffs vt ;; pb_into_ntt p.
