(** The release build of the operations of crates/fhe-math/src/rq/ops.rs on polynomials and of the aggregations of crates/fhe/src/mbfv
    ([debug-assertions] and [overflow-checks] off, as in ReleaseModel.v).  That the contexts of two operands are the same is a
    [debug_assert_eq!] (ops.rs:13, 58, 95, 140, 181, 211), so the release build combines the rows that both have ([izip!]) and leaves the
    other rows of the left operand alone. *)
From Verif Require Import Outcome ZqModel NttModel RnsModel RqModel ParamsModel PlainModel CipherModel KeysModel MbfvModel ReleaseModel.

(** [izip!] over the rows of both operands and the moduli of the left one. *)
Fixpoint zip_rows {A B C} (f : A -> B -> C -> A) (l : list A) (l' : list B) (l'' : list C) : list A :=
  match l, l', l'' with
  | a :: t, b :: t', c :: t'' => f a b c :: zip_rows f t t' t''
  | _, _, _ => l
  end.

(** ops.rs:10-36, 55-81, 92-118, 137-163, 174-206.  The assertions about lazy coefficients are [assert!]s and stay.  (ops.rs:47-53, 129-135:
    the addition of two polynomials by value adds the left operand to the right one, so there the right operand keeps its rows.) *)
Definition rel_poly_op2 {R} (f_vt f_ct : modulus -> list Z -> list Z -> list Z) (a b : poly R) : M (poly R) :=
  guard (negb (p_lazy a) && negb (p_lazy b)) ;;;
  let vt := p_vt a && p_vt b in
  Val (mkPoly (p_ctx a) (p_lazy a) vt
         (zip_rows (fun v1 v2 q => if vt then f_vt q v1 v2 else f_ct q v1 v2) (p_coeffs a) (p_coeffs b) (c_q (p_ctx a))) (p_shoup a)).
Definition rel_poly_add {R} : poly R -> poly R -> M (poly R) := rel_poly_op2 rel_add_vec_vt rel_add_vec.
Definition rel_poly_sub {R} : poly R -> poly R -> M (poly R) := rel_poly_op2 rel_sub_vec_vt rel_sub_vec.
Definition rel_poly_mul : poly Ntt -> poly Ntt -> M (poly Ntt) := rel_poly_op2 rel_mul_vec_vt rel_mul_vec.
(** ops.rs:208-245. *)
Definition rel_poly_mul_shoup (a : poly Ntt) (b : poly NttShoup) : M (poly Ntt) :=
  guard (negb (p_lazy b)) ;;;
  let vt := p_vt a && p_vt b in
  sh <- unwrap (p_shoup b) ;;
  Val (mkPoly (p_ctx a) false vt
         (zip_rows (fun v1 v2s q => if vt then rel_mul_shoup_vec_vt q v1 (fst v2s) (snd v2s) else rel_mul_shoup_vec q v1 (fst v2s) (snd v2s))
            (p_coeffs a) (combine (p_coeffs b) sh) (c_q (p_ctx a))) (p_shoup a)).
(** ops.rs:297-352. *)
Definition rel_poly_scalar_mul {R} (a : poly R) (k : Z) : M (poly R) :=
  crt <- project (c_rns (p_ctx a)) k ;;
  rows <- zip_upd3 (fun v1 s q => if p_vt a then rel_scalar_mul_vec_vt q v1 s else rel_scalar_mul_vec q v1 s) (p_coeffs a) crt (c_q (p_ctx a)) ;;
  Val (with_coeffs a rows).
(** ops.rs:354-418. *)
Definition rel_poly_neg {R} (a : poly R) : M (poly R) :=
  guard (negb (p_lazy a)) ;;;
  rows <- zip_upd (fun v1 q => Val (if p_vt a then rel_neg_vec_vt q v1 else rel_neg_vec q v1)) (p_coeffs a) (c_q (p_ctx a)) ;;
  Val (with_coeffs a rows).
(** mod.rs:335-354, 535-541, 590-596. *)
Definition rel_pb_into_ntt (p : poly PowerBasis) : M (poly Ntt) :=
  rows <- zip_upd (fun v op => if p_vt p then rel_forward_vt op v else rel_forward op v) (p_coeffs p) (c_ops (p_ctx p)) ;;
  from_parts Ntt (with_coeffs p rows).
Definition rel_ntt_into_pb (p : poly Ntt) : M (poly PowerBasis) :=
  rows <- zip_upd (fun v op => if p_vt p then rel_backward_vt op v else rel_backward op v) (p_coeffs p) (c_ops (p_ctx p)) ;;
  from_parts PowerBasis (with_coeffs p rows).

(** The loops [h += &share] of the aggregations. *)
Definition rel_poly_sum {R} (p : poly R) (l : list (poly R)) : M (poly R) := foldM rel_poly_add l p.
(** public_key_gen.rs:60-77, secret_key_switch.rs:98-115, public_key_switch.rs:95-113 [from_shares]. *)
Definition rel_pk_from_shares (shares : list pk_share) : M public_key :=
  match shares with
  | [] => Err NoShares
  | share :: rest =>
      p0 <- rel_poly_sum (pks_p0 share) (map pks_p0 rest) ;;
      c <- ct_new [p0; pks_crp share] (pks_par share) ;;
      Val (mkPk (pks_par share) c)
  end.
Definition rel_sks_from_shares (shares : list sks_share) : M ciphertext :=
  match shares with
  | [] => Err NoShares
  | share :: rest =>
      h <- rel_poly_sum (sks_h share) (map sks_h rest) ;;
      c0 <- get (ct_c (sks_ct share)) 0 ;;
      c0 <- rel_poly_add c0 h ;;
      c1 <- get (ct_c (sks_ct share)) 1 ;;
      ct_new [c0; c1] (sks_par share)
  end.
Definition rel_pksw_from_shares (shares : list pksw_share) : M ciphertext :=
  match shares with
  | [] => Err NoShares
  | share :: rest =>
      '(h0, h1) <- foldM (fun h sh => h0 <- rel_poly_add (fst h) (pksw_h0 sh) ;;
                                      h1 <- rel_poly_add (snd h) (pksw_h1 sh) ;;
                                      Val (h0, h1)) rest (pksw_h0 share, pksw_h1 share) ;;
      c0 <- rel_poly_add (pksw_c0 share) h0 ;;
      ct_new [c0; h1] (pksw_par share)
  end.
