(** Model of crates/fhe-math/src/ntt/native.rs and of [supports_ntt] in ntt/mod.rs.
    This is the default NTT; the optional feature [tfhe-ntt] (ntt/tfhe.rs) is modelled in TfheModel.v. *)
From Verif Require Import Outcome ZqModel.

(** Indexing [a[i]]: out of bounds panics.  The [get_unchecked] accesses of native.rs are modelled
    in the same way, so that a theorem [.. = Val ..] also shows that they stay in bounds. *)
Definition get {A} (l : list A) (i : nat) : M A := unwrap (nth_error l i).

Fixpoint set_nth {A} (l : list A) (i : nat) (x : A) : list A :=
  match l, i with
  | [], _ => []
  | _ :: t, O => x :: t
  | a :: t, S i' => a :: set_nth t i' x
  end.

(** [usize::is_power_of_two] *)
Definition is_power_of_two (n : Z) : bool := (0 <? n) && (n =? 2 ^ Z.log2 n).

(** ntt/mod.rs:19-23 [supports_ntt]; [isp] is the primality oracle. *)
Definition supports_ntt (isp : Z -> bool) (p n : Z) : M bool :=
  guard ((8 <=? n) && is_power_of_two n) ;;;
  let d := Z.shiftl n 1 mod W64 in
  guard (negb (d =? 0)) ;;;
  Val ((p mod d =? 1) && isp p).

(** native.rs:15-26 [struct NttOperator]. *)
Record ntt_op := mkNtt {
  nt_p : modulus;
  nt_p_twice : Z;
  nt_size : nat;
  nt_omegas : list Z;
  nt_omegas_shoup : list Z;
  nt_zetas_inv : list Z;
  nt_zetas_inv_shoup : list Z;
  nt_size_inv : Z;
  nt_size_inv_shoup : Z
}.

(** native.rs:341-348 [is_primitive_root]; the [debug_assert!(supports_ntt(..))] is kept. *)
Definition is_primitive_root (isp : Z -> bool) (m : modulus) (a n : Z) : M bool :=
  guard (a <? mod_p m) ;;;
  s <- supports_ntt isp (mod_p m) (Z.shiftr n 1) ;; guard s ;;;
  x <- zq_pow m a n ;;
  if x =? 1 then y <- zq_pow m a (n / 2) ;; Val (negb (y =? 1)) else Val false.

(** native.rs:320-336 [primitive_root].  The candidates drawn from the seeded generator are the
    argument [cands] (the code draws 100 of them); running out of candidates is the failing
    [debug_assert!]. *)
Fixpoint primitive_root_loop (isp : Z -> bool) (m : modulus) (n lambda : Z) (cands : list Z) : M Z :=
  match cands with
  | [] => Panic
  | c :: rest =>
      root <- zq_pow m c lambda ;;
      b <- is_primitive_root isp m root (2 * n) ;;
      if b then Val root else primitive_root_loop isp m n lambda rest
  end.
Definition primitive_root (isp : Z -> bool) (m : modulus) (n : Z) (cands : list Z) : M Z :=
  s <- supports_ntt isp (mod_p m) n ;; guard s ;;;
  let lambda := (mod_p m - 1) / (2 * n) in
  primitive_root_loop isp m n lambda cands.

(** native.rs:44-49: [successors(Some(x), |n| p.mul(n, w)).take(size)]. *)
Fixpoint successive (m : modulus) (w : Z) (count : nat) (x : Z) : M (list Z) :=
  match count with
  | O => Val []
  | S c => nx <- zq_mul m x w ;; r <- successive m w c nx ;; Val (x :: r)
  end.

(** [usize::reverse_bits] (64-bit). *)
Fixpoint reverse_bits_loop (n : nat) (x acc : Z) : Z :=
  match n with O => acc | S n' => reverse_bits_loop n' (x / 2) (2 * acc + x mod 2) end.
Definition reverse_bits64 (x : Z) : Z := reverse_bits_loop 64 x 0.

(** native.rs:53 *)
Definition bitrev_index (size i : Z) : Z := Z.shiftr (reverse_bits64 i) (leading_zeros64 size + 1).

(** native.rs:35-73 [NttOperator::new]. *)
Definition ntt_new (isp : Z -> bool) (cands : list Z) (m : modulus) (size : nat) : M (option ntt_op) :=
  let n := Z.of_nat size in
  s <- supports_ntt isp (mod_p m) n ;;
  if negb s then Val None
  else
    osi <- zq_inv isp m n ;;
    match osi with
    | None => Val None
    | Some size_inv =>
        omega <- primitive_root isp m n cands ;;
        ooi <- zq_inv isp m omega ;;
        match ooi with
        | None => Val None
        | Some omega_inv =>
            powers <- successive m omega size 1 ;;
            powers_inv <- successive m omega_inv size omega_inv ;;
            omegas <- mapM (fun i => get powers (Z.to_nat (bitrev_index n (Z.of_nat i)))) (seq 0 size) ;;
            zetas_inv <- mapM (fun i => get powers_inv (Z.to_nat (bitrev_index n (Z.of_nat i)))) (seq 0 size) ;;
            omegas_shoup <- shoup_vec m omegas ;;
            zetas_inv_shoup <- shoup_vec m zetas_inv ;;
            p_twice <- chk64 (mod_p m * 2) ;;
            size_inv_shoup <- shoup m size_inv ;;
            Val (Some (mkNtt m p_twice size omegas omegas_shoup zetas_inv zetas_inv_shoup size_inv size_inv_shoup))
        end
    end.

(** native.rs:238-243 [reduce3], 248-253 [reduce3_vt]. *)
Definition reduce3 (op : ntt_op) (a : Z) : M Z :=
  p4 <- chk64 (4 * mod_p (nt_p op)) ;; guard (a <? p4) ;;;
  y <- reduce1 a (nt_p_twice op) ;; reduce1 y (mod_p (nt_p op)).
Definition reduce3_vt (op : ntt_op) (a : Z) : M Z :=
  p4 <- chk64 (4 * mod_p (nt_p op)) ;; guard (a <? p4) ;;;
  y <- reduce1_vt a (nt_p_twice op) ;; reduce1_vt y (mod_p (nt_p op)).

(** native.rs:256-269 [butterfly], 272-285 [butterfly_vt]; [r1] is the variant of [reduce1]. *)
Definition butterfly_gen (r1 : Z -> Z -> M Z) (op : ntt_op) (x y w w_shoup : Z) : M (Z * Z) :=
  p4 <- chk64 (4 * mod_p (nt_p op)) ;;
  guard (x <? p4) ;;; guard (y <? p4) ;;; guard (w <? mod_p (nt_p op)) ;;;
  ws <- shoup (nt_p op) w ;; guard (ws =? w_shoup) ;;;
  x <- r1 x (nt_p_twice op) ;;
  t <- lazy_mul_shoup (nt_p op) y w w_shoup ;;
  y1 <- chk64 (x + nt_p_twice op) ;; y2 <- chk64 (y1 - t) ;;
  x2 <- chk64 (x + t) ;;
  guard (x2 <? p4) ;;; guard (y2 <? p4) ;;;
  Val (x2, y2).
Definition butterfly := butterfly_gen reduce1.
Definition butterfly_vt := butterfly_gen reduce1_vt.

(** native.rs:288-300 [inv_butterfly], 303-315 [inv_butterfly_vt]. *)
Definition inv_butterfly_gen (r1 : Z -> Z -> M Z) (op : ntt_op) (x y z z_shoup : Z) : M (Z * Z) :=
  guard (x <? nt_p_twice op) ;;; guard (y <? nt_p_twice op) ;;; guard (z <? mod_p (nt_p op)) ;;;
  zs <- shoup (nt_p op) z ;; guard (zs =? z_shoup) ;;;
  let t := x in
  s <- chk64 (y + t) ;;
  x' <- r1 s (nt_p_twice op) ;;
  d1 <- chk64 (nt_p_twice op + t) ;; d <- chk64 (d1 - y) ;;
  y' <- lazy_mul_shoup (nt_p op) d z z_shoup ;;
  guard (x' <? nt_p_twice op) ;;; guard (y' <? nt_p_twice op) ;;;
  Val (x', y').
Definition inv_butterfly := inv_butterfly_gen reduce1.
Definition inv_butterfly_vt := inv_butterfly_gen reduce1_vt.

(** native.rs:83-99: the loop over [a.chunks_exact_mut(2 * l)] of [forward]; [k] is the running
    index into [omegas]. *)
Definition fwd_chunk (op : ntt_op) (l : nat) (w ws : Z) (chunk : list Z) : M (list Z) :=
  guard (Nat.leb l (length chunk)) ;;;
  let left := firstn l chunk in
  let right := skipn l chunk in
  if Nat.eqb l 1 then
    match left, right with
    | x :: lt, y :: rt =>
        '(x', y') <- butterfly op x y w ws ;;
        x' <- reduce3 op x' ;;
        y' <- reduce3 op y' ;;
        Val (x' :: lt ++ y' :: rt)
    | _, _ => Panic
    end
  else
    xy <- map2M (fun x y => butterfly op x y w ws) left right ;;
    Val (map fst xy ++ map snd xy).
Fixpoint fwd_chunks (op : ntt_op) (l k : nat) (cs : list (list Z)) : M (list (list Z) * nat) :=
  match cs with
  | [] => Val ([], k)
  | c :: rest =>
      w <- get (nt_omegas op) k ;;
      ws <- get (nt_omegas_shoup op) k ;;
      c' <- fwd_chunk op l w ws c ;;
      '(r, k') <- fwd_chunks op l (S k) rest ;;
      Val (c' :: r, k')
  end.
(** native.rs:82-101: [while l > 0 { ..; l >>= 1 }]. *)
Fixpoint fwd_loop (fuel : nat) (op : ntt_op) (l k : nat) (a : list Z) : M (list Z) :=
  if Nat.eqb l 0 then Val a
  else match fuel with
       | O => Panic
       | S f =>
           let '(cs, r) := as_chunks (2 * l) a in
           '(cs', k') <- fwd_chunks op l k cs ;;
           fwd_loop f op (Nat.div2 l) k' (concat cs' ++ r)
       end.
(** native.rs:77-102 [forward]. *)
Definition ntt_forward (op : ntt_op) (a : list Z) : M (list Z) :=
  guard (Nat.eqb (length a) (nt_size op)) ;;;
  fwd_loop (nt_size op) op (Nat.div2 (nt_size op)) 1 a.

(** native.rs:113-126: the chunk loop of [backward]. *)
Definition bwd_chunk (op : ntt_op) (l : nat) (z zs : Z) (chunk : list Z) : M (list Z) :=
  guard (Nat.leb l (length chunk)) ;;;
  let left := firstn l chunk in
  let right := skipn l chunk in
  if Nat.eqb l 1 then
    match left, right with
    | x :: lt, y :: rt =>
        '(x', y') <- inv_butterfly op x y z zs ;;
        Val (x' :: lt ++ y' :: rt)
    | _, _ => Panic
    end
  else
    xy <- map2M (fun x y => inv_butterfly op x y z zs) left right ;;
    Val (map fst xy ++ map snd xy).
Fixpoint bwd_chunks (op : ntt_op) (l k : nat) (cs : list (list Z)) : M (list (list Z) * nat) :=
  match cs with
  | [] => Val ([], k)
  | c :: rest =>
      z <- get (nt_zetas_inv op) k ;;
      zs <- get (nt_zetas_inv_shoup op) k ;;
      c' <- bwd_chunk op l z zs c ;;
      '(r, k') <- bwd_chunks op l (S k) rest ;;
      Val (c' :: r, k')
  end.
(** native.rs:112-128: [while l < self.size { ..; l <<= 1 }]. *)
Fixpoint bwd_loop (fuel : nat) (op : ntt_op) (l k : nat) (a : list Z) : M (list Z) :=
  if negb (Nat.ltb l (nt_size op)) then Val a
  else match fuel with
       | O => Panic
       | S f =>
           let '(cs, r) := as_chunks (2 * l) a in
           '(cs', k') <- bwd_chunks op l k cs ;;
           bwd_loop f op (2 * l) k' (concat cs' ++ r)
       end.
(** native.rs:106-132 [backward]. *)
Definition ntt_backward (op : ntt_op) (a : list Z) : M (list Z) :=
  guard (Nat.eqb (length a) (nt_size op)) ;;;
  a <- bwd_loop (nt_size op) op 1 0 a ;;
  mapM (fun ai => mul_shoup (nt_p op) ai (nt_size_inv op) (nt_size_inv_shoup op)) a.

(** native.rs:163-168, 217-222: one index pair [j, j + l] of the variable-time loops. *)
Definition at_pair (f : Z -> Z -> M (Z * Z)) (a : list Z) (j l : nat) : M (list Z) :=
  guard (negb (Nat.eqb l 0)) ;;;
  x <- get a j ;; y <- get a (j + l) ;;
  '(x', y') <- f x y ;;
  Val (set_nth (set_nth a j x') (j + l) y').

(** native.rs:149-171: [for i in 0..m] with [s = 2 * i * l]; the [match l { 1 => .. }] arm is the
    one-iteration instance of the [for j in s..(s + l)] loop and is merged with it. *)
Definition fwd_vt_block (op : ntt_op) (l : nat) (ka : nat * list Z) (i : nat) : M (nat * list Z) :=
  let '(k, a) := ka in
  w <- get (nt_omegas op) k ;;
  ws <- get (nt_omegas_shoup op) k ;;
  let s := (2 * i * l)%nat in
  a <- foldM (fun a j => at_pair (fun x y => butterfly_vt op x y w ws) a j l) (seq s l) a ;;
  Val (S k, a).
Definition fwd_vt_stage (op : ntt_op) (l m : nat) (ka : nat * list Z) : M (nat * list Z) :=
  foldM (fwd_vt_block op l) (seq 0 m) ka.
Fixpoint fwd_vt_loop (fuel : nat) (op : ntt_op) (l m k : nat) (a : list Z) : M (list Z) :=
  if Nat.eqb l 0 then Val a
  else match fuel with
       | O => Panic
       | S f =>
           '(k', a') <- fwd_vt_stage op l m (k, a) ;;
           fwd_vt_loop f op (Nat.div2 l) (2 * m) k' a'
       end.
(** native.rs:142-175 [forward_vt_lazy]; the slice is built from a pointer to [size] elements,
    so the length check is the caller's obligation and is modelled as a guard. *)
Definition ntt_forward_vt_lazy (op : ntt_op) (a : list Z) : M (list Z) :=
  guard (Nat.eqb (length a) (nt_size op)) ;;;
  fwd_vt_loop (nt_size op) op (Nat.div2 (nt_size op)) 1 1 a.
(** native.rs:183-189 [forward_vt]. *)
Definition ntt_forward_vt (op : ntt_op) (a : list Z) : M (list Z) :=
  a <- ntt_forward_vt_lazy op a ;; mapM (reduce3_vt op) a.

(** native.rs:197-233 [backward_vt]. *)
Definition bwd_vt_block (op : ntt_op) (l : nat) (ka : nat * list Z) (i : nat) : M (nat * list Z) :=
  let '(k, a) := ka in
  let s := (2 * i * l)%nat in
  z <- get (nt_zetas_inv op) k ;;
  zs <- get (nt_zetas_inv_shoup op) k ;;
  a <- foldM (fun a j => at_pair (fun x y => inv_butterfly_vt op x y z zs) a j l) (seq s l) a ;;
  Val (S k, a).
Definition bwd_vt_stage (op : ntt_op) (l m : nat) (ka : nat * list Z) : M (nat * list Z) :=
  foldM (bwd_vt_block op l) (seq 0 m) ka.
Fixpoint bwd_vt_loop (fuel : nat) (op : ntt_op) (l m k : nat) (a : list Z) : M (list Z) :=
  if Nat.eqb m 0 then Val a
  else match fuel with
       | O => Panic
       | S f =>
           '(k', a') <- bwd_vt_stage op l m (k, a) ;;
           bwd_vt_loop f op (2 * l) (Nat.div2 m) k' a'
       end.
Definition ntt_backward_vt (op : ntt_op) (a : list Z) : M (list Z) :=
  guard (Nat.eqb (length a) (nt_size op)) ;;;
  a <- bwd_vt_loop (nt_size op) op 1 (Nat.div2 (nt_size op)) 0 a ;;
  mapM (fun ai => mul_shoup (nt_p op) ai (nt_size_inv op) (nt_size_inv_shoup op)) a.
