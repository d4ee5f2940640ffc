(** The release build of the making of contexts (crates/fhe-math/src/rq/context.rs) and of parameters (crates/fhe/src/bfv/parameters.rs), as in
    ReleaseModel.v: the operations of the layers below are those of the release build, the arithmetic on words wraps.  What is computed with big
    integers only ([lift], [project], [factor_new]) and the checks of the configuration ([validate_configuration], [validate_moduli],
    [plaintext_small]) do not differ between the two builds and are those of RnsModel.v and ParamsModel.v. *)
From Verif Require Import Outcome ZqModel NttModel RnsModel RqModel PrimesModel ParamsModel DefaultModel.
From Verif Require Import ReleaseModel ReleaseRnsModel ReleaseRqModel ReleasePrimesModel.

(** context.rs:49-57: modulus and NTT operator of one prime. *)
Definition rel_ctx_entry (isp : Z -> bool) (cands : Z -> list Z) (degree : nat) (p : Z) : M (modulus * ntt_op) :=
  q <- modulus_new p ;;
  o <- rel_ntt_new isp (cands p) q degree ;;
  op <- ok_or o (NttOperatorUnavailable p (Z.of_nat degree)) ;;
  Val (q, op).
(** context.rs:68-72: inverse of the last modulus modulo [qi]. *)
Definition rel_ctx_inv (isp : Z -> bool) (q_last : Z) (qi : modulus) : M (Z * Z) :=
  inv <- unwrap (rel_inv isp qi (rel_reduce qi q_last)) ;;
  s <- rel_shoup qi inv ;;
  Val (inv, s).
(** context.rs:42-92 [Context::new]; [fuel] as in [context_new_fuel]. *)
Fixpoint rel_context_new_fuel (isp : Z -> bool) (cands : Z -> list Z) (fuel : nat) (moduli : list Z) (degree : nat) : M ctx :=
  match fuel with
  | O => Panic
  | S f =>
      let n := Z.of_nat degree in
      if negb (is_power_of_two n) || (n <? 8) then Err (InvalidPolynomialDegree n)
      else
        rns <- rel_rns_new moduli ;;
        es <- mapM (rel_ctx_entry isp cands degree) moduli ;;
        let q := map fst es in
        let ops := map snd es in
        let bitrev := map (fun j => Z.to_nat (bitrev_index n (Z.of_nat j))) (seq 0 degree) in
        q_last <- unwrap (nth_error moduli (length moduli - 1)) ;;
        invs <- mapM (rel_ctx_inv isp q_last) (removelast q) ;;
        next <- (if Nat.leb 2 (length moduli)
                 then c <- rel_context_new_fuel isp cands f (removelast moduli) degree ;; Val (Some c)
                 else Val None) ;;
        Val (mkCtx moduli q rns ops degree bitrev (map fst invs) (map snd invs) next)
  end.
Definition rel_context_new (isp : Z -> bool) (cands : Z -> list Z) (moduli : list Z) (degree : nat) : M ctx :=
  rel_context_new_fuel isp cands (S (length moduli)) moduli degree.

(** rq/mod.rs:535-546 [Poly<PowerBasis>::into_ntt_shoup]. *)
Definition rel_shoup_rows (c : ctx) (rows : list (list Z)) : M (list (list Z)) :=
  map2M (fun v q => rel_shoup_vec q v) rows (c_q c).
Definition rel_pb_into_ntt_shoup (p : poly PowerBasis) : M (poly NttShoup) :=
  rows <- zip_upd (fun v op => if p_vt p then rel_forward_vt op v else rel_forward op v) (p_coeffs p) (c_ops (p_ctx p)) ;;
  sh <- rel_shoup_rows (p_ctx p) rows ;;
  from_parts NttShoup (mkPoly (R := PowerBasis) (p_ctx p) (p_lazy p) (p_vt p) rows (Some sh)).
(** rq/scaler.rs:27-52 [Scaler::new]. *)
Definition rel_poly_scaler_new (from to : ctx) (f : factor) : M scaler :=
  if negb (Nat.eqb (c_degree from) (c_degree to))
  then Err (DegreeMismatch (Z.of_nat (c_degree from)) (Z.of_nat (c_degree to)))
  else
    let k := if f_one f then common_prefix (c_q from) (c_q to) else O in
    s <- rel_scaler_new (c_rns from) (c_rns to) f ;;
    Val (mkPolyScaler from to k s).
(** parameters.rs:791-814 [MultiplicationParameters::new]. *)
Definition rel_mul_params_new (from to : ctx) (up down : factor) : M mul_params :=
  e <- rel_poly_scaler_new from to up ;;
  d <- rel_poly_scaler_new to from down ;;
  Val (mkMul e d from to).

(** parameters.rs:609-621: the residue of -1/t modulo one prime. *)
Definition rel_delta_rest (isp : Z -> bool) (t m : Z) : M Z :=
  q <- modulus_new m ;;
  let n := rel_neg q (t mod m) in
  ok_or (rel_inv isp q n) (NonInvertible n m).
(** parameters.rs:604-655: the ciphertext/plaintext bridge of one level. *)
Definition rel_cipher_plain (isp : Z -> bool) (cands : Z -> list Z) (degree : nat) (t : Z) (plain : ctx) (moduli : list Z) : M cp_ctx :=
  cipher <- rel_context_new isp cands moduli degree ;;
  rests <- mapM (rel_delta_rest isp t) moduli ;;
  rns <- rel_rns_new moduli ;;
  d <- lift rns rests ;;
  p <- pb_from_big cipher [d] true ;;
  delta <- rel_pb_into_ntt_shoup p ;;
  guard (negb (t =? 0)) ;;;
  f <- factor_new t (rns_product rns) ;;
  s <- rel_poly_scaler_new cipher plain f ;;
  Val (mkCp delta (rns_product rns mod t) (Z.shiftr (t + 1) 1) s plain cipher).
(** parameters.rs:680-709: the data of one level. *)
Definition rel_build_level (isp : Z -> bool) (cands : Z -> list Z) (degree : nat) (t : Z) (moduli sizes ext : list Z) (lc : nat * cp_ctx) : M level_ctx :=
  let '(level, cp) := lc in
  let c := cp_cipher cp in
  let k := (length moduli - level)%nat in
  extra <- slice_to ext (mul_moduli_count (firstn k sizes)) ;;
  mctx <- rel_context_new isp cands (firstn k moduli ++ extra) degree ;;
  f <- factor_new t (rns_product (c_rns c)) ;;
  mp <- rel_mul_params_new c mctx factor_one f ;;
  Val (mkLevel c cp level mp).
(** parameters.rs:711-726 the slot map. *)
Fixpoint rel_index_loop (degree : Z) (rows : nat) (i : nat) (pos : Z) (map : list nat) : list nat :=
  match rows with
  | O => map
  | S r =>
      let m := Z.shiftl degree 1 in
      let index1 := Z.shiftr (w64 (pos - 1)) 1 in
      let index2 := Z.shiftr (w64 (m - pos - 1)) 1 in
      let row_size := Z.shiftr degree 1 in
      let map := set_nth map i (Z.to_nat (bitrev_index degree index1)) in
      let map := set_nth map (Z.to_nat (Z.lor row_size (Z.of_nat i))) (Z.to_nat (bitrev_index degree index2)) in
      rel_index_loop degree r (S i) (Z.land (w64 (pos * 3)) (m - 1)) map
  end.
Definition rel_index_map (degree : Z) : list nat :=
  rel_index_loop degree (Z.to_nat (Z.shiftr degree 1)) 0 1 (repeat 0%nat (Z.to_nat degree)).
(** parameters.rs:559-738 [build]. *)
Definition rel_build (isp : Z -> bool) (cands : Z -> list Z) (id : Z) (b : builder) : M params :=
  validate_configuration b ;;;
  let t := b_plaintext b in
  small <- plaintext_small t ;;
  moduli <- match b_sizes b with
            | [] => Val (b_moduli b)
            | sizes => rel_generate_moduli isp sizes (b_degree b)
            end ;;
  validate_moduli isp (b_degree b) t moduli ;;;
  let degree := Z.to_nat (b_degree b) in
  let sizes := map nbits moduli in
  plain <- rel_context_new isp cands (firstn (plaintext_moduli_count moduli sizes t) moduli) degree ;;
  ntt <- match small with
         | Some m => rel_ntt_new isp (cands t) m degree
         | None => Val None
         end ;;
  cps <- mapM (fun i => rel_cipher_plain isp cands degree t plain (firstn (length moduli - i) moduli)) (rev (seq 0 (length moduli))) ;;
  ext <- rel_extended_basis isp (b_degree b) moduli ;;
  levels <- mapM (rel_build_level isp cands degree t moduli sizes ext) (enumerate (rev cps)) ;;
  Val (mkParams id degree moduli sizes (b_variance b) levels ntt t small (rel_index_map (b_degree b))).
(** parameters.rs:761-789 [try_deserialize] (after decoding). *)
Definition rel_params_from_proto (isp : Z -> bool) (cands : Z -> list Z) (id : Z) (m : params_proto) : M params :=
  t <- match pp_plain m with
       | Some (PpU64 v) => Val v
       | Some (PpBig b) => Val (big_from_bytes b)
       | None => Err SerMissingField
       end ;;
  rel_build isp cands id (mkBuilder (pp_degree m) t (pp_variance m) (pp_moduli m) []).
