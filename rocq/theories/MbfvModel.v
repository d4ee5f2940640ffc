(** Model of crates/fhe/src/mbfv: crp.rs, public_key_gen.rs, relin_key_gen.rs, secret_key_switch.rs and
    public_key_switch.rs.  Random values are arguments, as in CipherModel.v: every call of [Poly::small] takes its own
    stream, and in the relinearization protocol [rngs i] is the stream of the i-th element.  The iterators of
    [from_shares] are lists (aggregate.rs); [round.rs] only has marker types.  Zeroization is not modelled. *)
From Verif Require Import Outcome ZqModel NttModel TranscodeModel CbdModel RnsModel RqModel ParamsModel PlainModel CipherModel KeysModel.

(** ** crp.rs *)

(** crp.rs:35-43 [new_leveled]; [rows] are the values drawn.  A [CommonRandomPoly] is its only field. *)
Definition crp_new_leveled (par : params) (level : nat) (rows : list (list Z)) : M (poly Ntt) :=
  c <- par_context par level ;; poly_random Ntt c rows.
(** crp.rs:17-19 [new]. *)
Definition crp_new (par : params) (rows : list (list Z)) : M (poly Ntt) := crp_new_leveled par 0 rows.
(** crp.rs:25-32 [new_vec]. *)
Definition crp_new_vec (par : params) (rows : nat -> list (list Z)) : M (list (poly Ntt)) :=
  mapM (fun i => crp_new par (rows i)) (seq 0 (length (pa_moduli par))).

(** ** public_key_gen.rs *)

(** public_key_gen.rs:15-19 [struct PublicKeyShare]. *)
Record pk_share := mkPks { pks_par : params; pks_crp : poly Ntt; pks_p0 : poly Ntt }.
(** public_key_gen.rs:32-57 [new]. *)
Definition pk_share_new (sk : secret_key) (crp : poly Ntt) (rng : nat -> Z) : M pk_share :=
  let par := sk_par sk in
  c <- par_context par 0 ;;
  s <- sk_poly sk c ;;
  e <- poly_small Ntt c (pa_variance par) rng ;;
  p0 <- poly_neg crp ;;
  p0 <- poly_mul (disallow_vt p0) s ;;
  p0 <- poly_add p0 e ;;
  Val (mkPks par crp (allow_vt p0)).
(** public_key_gen.rs:60-77 [PublicKey::from_shares]. *)
Definition pk_from_shares (shares : list pk_share) : M public_key :=
  match shares with
  | [] => Err NoShares
  | share :: rest =>
      p0 <- foldM (fun p0 sh => poly_add p0 (pks_p0 sh)) rest (pks_p0 share) ;;
      c <- ct_new [p0; pks_crp share] (pks_par share) ;;
      Val (mkPk (pks_par share) c)
  end.

(** ** relin_key_gen.rs *)

(** relin_key_gen.rs:18-24 [struct RelinKeyShare]; the field [last_round] is [None] in the shares of
    round 1 and in their aggregate, so only the shares of round 2 have it here. *)
Record relin_share := mkRks { rks_par : params; rks_h0 : list (poly Ntt); rks_h1 : list (poly Ntt) }.
Record relin_share2 := mkRks2 { rks2_share : relin_share; rks2_last : option relin_share }.
(** relin_key_gen.rs:65-69 [struct RelinKeyGenerator]. *)
Record relin_gen := mkGen { gen_sk : secret_key; gen_crp : list (poly Ntt); gen_u : poly Ntt }.
(** relin_key_gen.rs:76-95 [new]. *)
Definition gen_new (sk : secret_key) (crp : list (poly Ntt)) (rng : nat -> Z) : M relin_gen :=
  let par := sk_par sk in
  c <- par_context par 0 ;;
  if Nat.eqb (length (c_moduli c)) 1 then Err KeySwitchingNotSupported
  else if negb (Nat.eqb (length crp) (length (c_moduli c))) then Err (InvalidCrpCount (len crp) (len (c_moduli c)))
  else
    u <- poly_small Ntt c (pa_variance par) rng ;;
    Val (mkGen sk crp u).
(** relin_key_gen.rs:141-172 [generate_h0] of round 1. *)
Definition r1_h0 (sk : secret_key) (crp : list (poly Ntt)) (u : poly Ntt) (rngs : nat -> nat -> Z) : M (list (poly Ntt)) :=
  let par := sk_par sk in
  c <- par_context par 0 ;;
  s <- sk_poly sk c ;;
  ms <- slice_to (pa_moduli par) (length crp) ;;
  rns <- rns_new ms ;;
  mapM (fun ia =>
      w <- unwrap (get_garner rns (fst ia)) ;;
      w_s <- poly_scalar_mul s w ;;
      e <- poly_small Ntt c (pa_variance par) (rngs (fst ia)) ;;
      h <- poly_neg (snd ia) ;;
      h <- poly_mul (disallow_vt h) u ;;
      h <- poly_add h w_s ;;
      poly_add h e) (enumerate crp).
(** relin_key_gen.rs:174-197 [generate_h1] of round 1. *)
Definition r1_h1 (sk : secret_key) (crp : list (poly Ntt)) (rngs : nat -> nat -> Z) : M (list (poly Ntt)) :=
  let par := sk_par sk in
  c <- par_context par 0 ;;
  s <- sk_poly sk c ;;
  mapM (fun ia =>
      e <- poly_small Ntt c (pa_variance par) (rngs (fst ia)) ;;
      h <- poly_mul (disallow_vt (snd ia)) s ;;
      poly_add h e) (enumerate crp).
(** relin_key_gen.rs:98-100, 113-139 [round_1]. *)
Definition gen_round1 (g : relin_gen) (rngs0 rngs1 : nat -> nat -> Z) : M relin_share :=
  let par := sk_par (gen_sk g) in
  c <- par_context par 0 ;;
  if negb (Nat.eqb (length (gen_crp g)) (length (c_moduli c))) then Err (InvalidCrpCount (len (gen_crp g)) (len (c_moduli c)))
  else
    h0 <- r1_h0 (gen_sk g) (gen_crp g) (gen_u g) rngs0 ;;
    h1 <- r1_h1 (gen_sk g) (gen_crp g) rngs1 ;;
    Val (mkRks par h0 h1).
(** relin_key_gen.rs:200-222 [from_shares] of round 1. *)
Definition r1_from_shares (shares : list relin_share) : M relin_share :=
  match shares with
  | [] => Err NoShares
  | share :: rest =>
      '(h0, h1) <- foldM (fun h sh => h0 <- zip_upd poly_add (fst h) (rks_h0 sh) ;;
                                      h1 <- zip_upd poly_add (snd h) (rks_h1 sh) ;;
                                      Val (h0, h1)) rest (rks_h0 share, rks_h1 share) ;;
      Val (mkRks (rks_par share) h0 h1)
  end.
(** relin_key_gen.rs:243-268 [generate_h0] of round 2. *)
Definition r2_h0 (sk : secret_key) (h0 : list (poly Ntt)) (rngs : nat -> nat -> Z) : M (list (poly Ntt)) :=
  let par := sk_par sk in
  c <- par_context par 0 ;;
  s <- sk_poly sk c ;;
  mapM (fun ih =>
      e <- poly_small Ntt c (pa_variance par) (rngs (fst ih)) ;;
      h <- poly_mul (disallow_vt (snd ih)) s ;;
      poly_add h e) (enumerate h0).
(** relin_key_gen.rs:270-296 [generate_h1] of round 2. *)
Definition r2_h1 (sk : secret_key) (u : poly Ntt) (h1 : list (poly Ntt)) (rngs : nat -> nat -> Z) : M (list (poly Ntt)) :=
  let par := sk_par sk in
  c <- par_context par 0 ;;
  s <- sk_poly sk c ;;
  u_s <- poly_sub u s ;;
  mapM (fun ih =>
      e <- poly_small Ntt c (pa_variance par) (rngs (fst ih)) ;;
      h <- poly_mul (disallow_vt (snd ih)) u_s ;;
      poly_add h e) (enumerate h1).
(** relin_key_gen.rs:103-109, 225-241 [round_2]. *)
Definition gen_round2 (g : relin_gen) (r1 : relin_share) (rngs0 rngs1 : nat -> nat -> Z) : M relin_share2 :=
  h0 <- r2_h0 (gen_sk g) (rks_h0 r1) rngs0 ;;
  h1 <- r2_h1 (gen_sk g) (gen_u g) (rks_h1 r1) rngs1 ;;
  Val (mkRks2 (mkRks (sk_par (gen_sk g)) h0 h1) (Some r1)).
(** relin_key_gen.rs:315-320: the four slices are read together. *)
Fixpoint add_both (h0 h1 g0 g1 : list (poly Ntt)) : M (list (poly Ntt) * list (poly Ntt)) :=
  match h0, h1, g0, g1 with
  | x0 :: h0', x1 :: h1', y0 :: g0', y1 :: g1' =>
      x0 <- poly_add x0 y0 ;;
      x1 <- poly_add x1 y1 ;;
      '(r0, r1) <- add_both h0' h1' g0' g1' ;;
      Val (x0 :: r0, x1 :: r1)
  | _, _, _, _ => Val (h0, h1)
  end.
(** relin_key_gen.rs:299-352 [RelinearizationKey::from_shares]. *)
Definition relin_from_shares (shares : list relin_share2) : M ksk :=
  match shares with
  | [] => Err NoShares
  | share :: rest =>
      let par := rks_par (rks2_share share) in
      c <- par_context par 0 ;;
      r1 <- ok_or (rks2_last share) MissingRound1 ;;
      '(h0, h1) <- foldM (fun h sh => add_both (fst h) (snd h) (rks_h0 (rks2_share sh)) (rks_h1 (rks2_share sh))) rest
                     (rks_h0 (rks2_share share), rks_h1 (rks2_share share)) ;;
      c0 <- zip_upd poly_add h0 h1 ;;
      c0 <- mapM ntt_into_shoup c0 ;;
      c1 <- mapM ntt_into_shoup (rks_h1 r1) ;;
      Val (mkKsk par None c0 c1 0 c 0 c 0)
  end.

(** ** secret_key_switch.rs *)

(** secret_key_switch.rs:23-29 [struct SecretKeySwitchShare]. *)
Record sks_share := mkSks { sks_par : params; sks_ct : ciphertext; sks_h : poly Ntt }.
(** secret_key_switch.rs:38-95 [new]; parameters are compared by value. *)
Definition sks_new (sk_in sk_out : secret_key) (ct : ciphertext) (rng : nat -> Z) : M sks_share :=
  if negb (par_eqb (sk_par sk_in) (sk_par sk_out)) then Err ParameterMismatch
  else if negb (par_eqb (sk_par sk_out) (ct_par ct)) then Err ParameterMismatch
  else if negb (Nat.eqb (length (ct_c ct)) 2) then Err (InvalidPolynomialCount (len (ct_c ct)) 2)
  else
    let par := sk_par sk_in in
    c0 <- get (ct_c ct) 0 ;;
    s_in <- sk_poly sk_in (p_ctx c0) ;;
    s_out <- sk_poly sk_out (p_ctx c0) ;;
    e <- poly_small Ntt (p_ctx c0) (pa_variance par) rng ;;
    h <- poly_sub s_in s_out ;;
    c1 <- get (ct_c ct) 1 ;;
    h <- poly_mul (disallow_vt h) c1 ;;
    h <- poly_add h e ;;
    Val (mkSks par ct h).
(** secret_key_switch.rs:98-115 [Ciphertext::from_shares]. *)
Definition sks_from_shares (shares : list sks_share) : M ciphertext :=
  match shares with
  | [] => Err NoShares
  | share :: rest =>
      h <- foldM (fun h sh => poly_add h (sks_h sh)) rest (sks_h share) ;;
      c0 <- get (ct_c (sks_ct share)) 0 ;;
      c0 <- poly_add c0 h ;;
      c1 <- get (ct_c (sks_ct share)) 1 ;;
      ct_new [c0; c1] (sks_par share)
  end.
(** secret_key_switch.rs:123-143 [DecryptionShare::new]; a [DecryptionShare] is its only field. *)
Definition dec_share_new (sk : secret_key) (ct : ciphertext) (rng : nat -> Z) : M sks_share :=
  sks_new sk (mkSk (sk_par sk) (repeat 0 (pa_degree (sk_par sk)))) ct rng.
(** secret_key_switch.rs:145-186 [Plaintext::from_shares]; values are reduced modulo t as big integers whatever the size
    of t (parameters.rs:62-64 [PlaintextModulus::reduce_vec]). *)
Definition dec_from_shares (shares : list sks_share) : M plaintext :=
  ct <- sks_from_shares shares ;;
  let par := ct_par ct in
  c0 <- get (ct_c ct) 0 ;;
  c <- ntt_into_pb (disallow_vt c0) ;;
  lv <- context_level_at par (ct_level ct) ;;
  d <- poly_scale (cp_scaler (lv_cp lv)) c ;;
  v <- poly_to_big d ;;
  w <- slice_to (map (fun x => x + pa_t par) v) (pa_degree par) ;;
  w <- reduce_big (rns_product (c_rns (p_ctx d))) w ;;
  w <- reduce_big (pa_t par) w ;;
  p <- pb_from_big (p_ctx c0) w false ;;
  p <- pb_into_ntt p ;;
  Val (mkPt par None p).

(** ** public_key_switch.rs *)

(** public_key_switch.rs:18-24 [struct PublicKeySwitchShare]. *)
Record pksw_share := mkPksw { pksw_par : params; pksw_c0 : poly Ntt; pksw_h0 : poly Ntt; pksw_h1 : poly Ntt }.
(** public_key_switch.rs:55-57: the loop, with at most [n] iterations ([switch_down] fails on the last level, so it
    stops after [max_level + 1] iterations at most; running out is a panic here). *)
Fixpoint switch_until (n : nat) (level : nat) (ct : ciphertext) : M ciphertext :=
  if Nat.eqb (ct_level ct) level then Val ct
  else match n with
       | O => Panic
       | S n' => ct <- ct_switch_down ct ;; switch_until n' level ct
       end.
(** public_key_switch.rs:33-92 [new]; [ru], [r0], [r1] are the streams of [u], [e0], [e1]. *)
Definition pksw_new (sk : secret_key) (pk : public_key) (ct : ciphertext) (ru r0 r1 : nat -> Z) : M pksw_share :=
  if negb (par_eqb (sk_par sk) (pk_par pk)) then Err ParameterMismatch
  else if negb (par_eqb (pk_par pk) (ct_par ct)) then Err ParameterMismatch
  else
    let par := sk_par sk in
    pct <- switch_until (S (max_level (ct_par (pk_c pk)))) (ct_level ct) (pk_c pk) ;;
    c <- par_context par (ct_level ct) ;;
    s <- sk_poly sk c ;;
    u <- poly_small Ntt c (pa_variance par) ru ;;
    e0 <- poly_small Ntt c (pa_variance par) r0 ;;
    e1 <- poly_small Ntt c (pa_variance par) r1 ;;
    h0 <- get (ct_c pct) 0 ;;
    h0 <- poly_mul (disallow_vt h0) u ;;
    c1 <- get (ct_c ct) 1 ;;
    sc <- poly_mul (disallow_vt s) c1 ;;
    h0 <- poly_add h0 sc ;;
    h0 <- poly_add h0 e0 ;;
    h1 <- get (ct_c pct) 1 ;;
    h1 <- poly_mul (disallow_vt h1) u ;;
    h1 <- poly_add h1 e1 ;;
    c0 <- get (ct_c ct) 0 ;;
    Val (mkPksw par c0 (allow_vt h0) (allow_vt h1)).
(** public_key_switch.rs:95-113 [Ciphertext::from_shares]. *)
Definition pksw_from_shares (shares : list pksw_share) : M ciphertext :=
  match shares with
  | [] => Err NoShares
  | share :: rest =>
      '(h0, h1) <- foldM (fun h sh => h0 <- poly_add (fst h) (pksw_h0 sh) ;;
                                      h1 <- poly_add (snd h) (pksw_h1 sh) ;;
                                      Val (h0, h1)) rest (pksw_h0 share, pksw_h1 share) ;;
      c0 <- poly_add (pksw_c0 share) h0 ;;
      ct_new [c0; h1] (pksw_par share)
  end.
