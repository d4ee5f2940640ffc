(** Model of crates/fhe/src/bfv/ops/mod.rs and ops/dot_product.rs.  The by-value and by-reference variants of each
    operator and the [*Assign] forms make the same checks in the same order and are one definition. *)
From Verif Require Import Outcome ZqModel NttModel TranscodeModel CbdModel RnsModel RqModel ParamsModel PlainModel CipherModel.

(** ** ops/mod.rs *)

(** Common shape of the implementations for two ciphertexts that are not empty. *)
Definition ct_op2 (f : poly Ntt -> poly Ntt -> M (poly Ntt)) (a b : ciphertext) : M ciphertext :=
  guard (Nat.eqb (ct_level a) (ct_level b)) ;;;
  guard (Nat.eqb (length (ct_c a)) (length (ct_c b))) ;;;
  c <- map2M f (ct_c a) (ct_c b) ;;
  Val (mkCt (ct_par a) None c (ct_level a)).
Definition is_empty (a : ciphertext) : bool := Nat.eqb (length (ct_c a)) 0.
(** mod.rs:205-227 negation. *)
Definition ct_neg (a : ciphertext) : M ciphertext :=
  c <- mapM poly_neg (ct_c a) ;; Val (mkCt (ct_par a) None c (ct_level a)).
(** mod.rs:15-69 addition of ciphertexts. *)
Definition ct_add (a b : ciphertext) : M ciphertext :=
  guard (par_same (ct_par a) (ct_par b)) ;;;
  if is_empty a then Val b else if is_empty b then Val a else ct_op2 poly_add a b.
(** mod.rs:110-164 subtraction of ciphertexts. *)
Definition ct_sub (a b : ciphertext) : M ciphertext :=
  guard (par_same (ct_par a) (ct_par b)) ;;;
  if is_empty a then ct_neg b else if is_empty b then Val a else ct_op2 poly_sub a b.

(** mod.rs:71-108, 166-203 addition and subtraction of a plaintext. *)
Definition ct_op_pt (f : poly Ntt -> poly Ntt -> M (poly Ntt)) (a : ciphertext) (b : plaintext) : M ciphertext :=
  guard (par_same (ct_par a) (pt_par b)) ;;;
  guard (negb (is_empty a)) ;;;
  l <- pt_level b ;;
  guard (Nat.eqb (ct_level a) l) ;;;
  m <- to_poly b ;;
  match ct_c a with
  | [] => Panic
  | c0 :: c => c0 <- f c0 m ;; Val (mkCt (ct_par a) None (c0 :: c) (ct_level a))
  end.
Definition ct_add_pt : ciphertext -> plaintext -> M ciphertext := ct_op_pt poly_add.
Definition ct_sub_pt : ciphertext -> plaintext -> M ciphertext := ct_op_pt poly_sub.
(** mod.rs:174-182 plaintext minus ciphertext. *)
Definition pt_sub_ct (a : plaintext) (b : ciphertext) : M ciphertext := c <- ct_sub_pt b a ;; ct_neg c.
(** mod.rs:229-257 multiplication by a plaintext. *)
Definition ct_mul_pt (a : ciphertext) (b : plaintext) : M ciphertext :=
  guard (par_same (ct_par a) (pt_par b)) ;;;
  if is_empty a then Val (mkCt (ct_par a) None (ct_c a) (ct_level a))
  else
    l <- pt_level b ;;
    guard (Nat.eqb (ct_level a) l) ;;;
    c <- mapM (fun ci => poly_mul ci (pt_poly b)) (ct_c a) ;;
    Val (mkCt (ct_par a) None c (ct_level a)).

(** mod.rs:287-291, 337-341: c[i + j] += a[i] * b[j]. *)
Definition mul_step (a b : list (poly Ntt)) (c : list (poly Ntt)) (ij : nat * nat) : M (list (poly Ntt)) :=
  ai <- get a (fst ij) ;; bj <- get b (snd ij) ;; p <- poly_mul ai bj ;;
  ck <- get c (fst ij + snd ij) ;; ck <- poly_add ck p ;; Val (set_nth c (fst ij + snd ij) ck).
(** mod.rs:279-291, 325-341: the products of two lists of extended polynomials. *)
Definition mul_parts (to : ctx) (a b : list (poly Ntt)) : M (list (poly Ntt)) :=
  guard (Nat.leb 1 (length a + length b)) ;;;
  let z := poly_zero Ntt to in
  let z := if forallb p_vt a && forallb p_vt b then allow_vt z else z in
  foldM (mul_step a b) (list_prod (seq 0 (length a)) (seq 0 (length b))) (repeat z (length a + length b - 1)).
(** mod.rs:259-357 multiplication of ciphertexts; the squaring path extends the operand once. *)
Definition ct_mul (a b : ciphertext) : M ciphertext :=
  if is_empty a then Val a
  else if ct_eqb b a then
    lv <- no_err (context_level_at (ct_par a) (ct_level a)) ;;
    let mp := lv_mul lv in
    sa <- no_err (mapM (poly_scale (mp_extender mp)) (ct_c a)) ;;
    c <- mul_parts (mp_to mp) sa sa ;;
    c <- no_err (mapM (poly_scale (mp_down mp)) c) ;;
    Val (mkCt (ct_par a) None c (ct_level b))
  else
    guard (par_same (ct_par a) (ct_par b)) ;;;
    guard (Nat.eqb (ct_level a) (ct_level b)) ;;;
    lv <- no_err (context_level_at (ct_par a) (ct_level a)) ;;
    let mp := lv_mul lv in
    sa <- no_err (mapM (poly_scale (mp_extender mp)) (ct_c a)) ;;
    sb <- no_err (mapM (poly_scale (mp_extender mp)) (ct_c b)) ;;
    c <- mul_parts (mp_to mp) sa sb ;;
    c <- no_err (mapM (poly_scale (mp_down mp)) c) ;;
    Val (mkCt (ct_par a) None c (ct_level b)).

(** ** ops/dot_product.rs *)

(** dot_product.rs:92-102: the checks on each pair. *)
Fixpoint dp_validate (first : ciphertext) (c : ctx) (pairs : list (ciphertext * plaintext)) : M unit :=
  match pairs with
  | [] => Val tt
  | (cti, pti) :: rest =>
      ct_validate_for_context cti (ct_par first) (ct_level first) c ;;;
      pt_validate_for_context pti (ct_par first) (ct_level first) c ;;;
      (if negb (Nat.eqb (length (ct_c cti)) (length (ct_c first)))
       then Err (DpPolynomialCountMismatch (len (ct_c cti)) (len (ct_c first))) else Val tt) ;;;
      dp_validate first c rest
  end.
(** dot_product.rs:132-150: one pair is accumulated in every part. *)
Definition dp_acc (acc : list (list (list Z))) (pair : ciphertext * plaintext) : M (list (list (list Z))) :=
  zip_upd (fun acci ci => zip_upd3 fma acci (p_coeffs ci) (p_coeffs (pt_poly (snd pair)))) acc (ct_c (fst pair)).
(** dot_product.rs:54-183 [dot_product_scalar]. *)
Definition dot_product_scalar (cts : list ciphertext) (pts : list plaintext) : M ciphertext :=
  match cts, pts with
  | [], _ | _, [] => Err DpEmptyInput
  | first :: _, _ =>
      if negb (Nat.eqb (length cts) (length pts)) then Err (DpOperandCountMismatch (len cts) (len pts))
      else
        ct_validate_for first (ct_par first) ;;;
        c <- par_context (ct_par first) (ct_level first) ;;
        let pairs := combine cts pts in
        let vt := forallb (fun cp => forallb p_vt (ct_c (fst cp)) && p_vt (pt_poly (snd cp))) pairs in
        dp_validate first c pairs ;;;
        let maxs := map (fun q => Z.shiftl 1 (2 * leading_zeros64 q)) (c_moduli c) in
        min <- unwrap (match maxs with [] => None | m :: t => Some (fold_left Z.min t m) end) ;;
        if min <? len cts then
          parts <- mapM (fun i => ps <- mapM (fun ct => get (ct_c ct) i) cts ;; dot_product ps (map pt_poly pts))
                        (seq 0 (length (ct_c first))) ;;
          Val (mkCt (ct_par first) None parts (ct_level first))
        else
          acc <- foldM dp_acc pairs (repeat (repeat (repeat 0 (pa_degree (ct_par first))) (length (c_moduli c))) (length (ct_c first))) ;;
          parts <- mapM (fun acci =>
                           rows <- map2M (fun r q => mapM (if vt then reduce_u128_vt q else reduce_u128 q) r) acci (c_q c) ;;
                           poly_from_array Ntt c rows vt) acc ;;
          Val (mkCt (ct_par first) None parts (ct_level first))
  end.
