(** Model of crates/fhe/examples/bfv_basic.rs, bfv_ops.rs and rgsw.rs: what they print.  The generator is modelled by one stream for
    each use; the values that the programs fix are arguments of the steps, and constants of the programs themselves.  Printing, timing
    and the framing of the messages whose length is printed are left out. *)
From Verif Require Import Outcome BasicSpec NttModel CbdModel TranscodeModel RqModel ParamsModel PlainModel CipherModel OpsModel KeysModel DefaultModel.

(** The streams of an encryption with the public key. *)
Record fresh := mkFresh { f_u : nat -> Z; f_e1 : nat -> Z; f_e2 : nat -> Z }.
(** [Plaintext::try_encode(v, ...)?] and [pk.try_encrypt(&pt, &mut rng)?], as in bfv_basic.rs:26-29. *)
Definition encrypted (par : params) (pk : public_key) (k : enc_kind) (v : list Z) (d : fresh) : M ciphertext :=
  pt <- encode_u64 false v (mkEnc k 0) par ;;
  pk_encrypt pk pt (f_u d) (f_e1 d) (f_e2 d).
(** [sk.try_decrypt(&ct)?] and [Vec::<u64>::try_decode(&pt, ...)?], as in bfv_basic.rs:31-32. *)
Definition decrypted (sk : secret_key) (k : enc_kind) (ct : ciphertext) : M (list Z) :=
  pt <- sk_decrypt sk ct ;; decode_u64 pt (Some (mkEnc k 0)).
(** [&v[..n]] *)
Definition prefix {A} (l : list A) (n : nat) : M (list A) := guard (Nat.leb n (length l)) ;;; Val (firstn n l).
(** bfv_basic.rs:17-19, bfv_ops.rs:52-55, rgsw.rs:16-19: the third default parameter set; [missing] is what happens when there is none. *)
Definition third_default (isp : Z -> bool) (cands : Z -> list Z) (ids : nat -> Z) (nb : Z) (missing : M params) : M params :=
  ps <- default_parameters_128 isp cands ids nb ;;
  match nth_error ps 2 with Some par => Val par | None => missing end.

(** ** bfv_basic.rs *)
(** bfv_basic.rs:26-32 and 38-44: the sum of two encrypted vectors. *)
Definition sum_of_two (par : params) (sk : secret_key) (pk : public_key) (k : enc_kind) (v1 v2 : list Z) (d1 d2 : fresh) : M (list Z) :=
  p1 <- encode_u64 false v1 (mkEnc k 0) par ;;
  p2 <- encode_u64 false v2 (mkEnc k 0) par ;;
  c1 <- pk_encrypt pk p1 (f_u d1) (f_e1 d1) (f_e2 d1) ;;
  c2 <- pk_encrypt pk p2 (f_u d2) (f_e1 d2) (f_e2 d2) ;;
  s <- ct_add c1 c2 ;;
  decrypted sk k s.
(** The streams of the program: for the secret key, for the public key and for its encryptions. *)
Record basic_draws := mkBasic { b_sk : nat -> Z; b_pk_seed : seed; b_pk : nat -> Z; b_enc : nat -> fresh }.
(** bfv_basic.rs:14-48 [main]: the sum that line 33 prints and the sums that line 45 prints.  The missing set is the error of line 19. *)
Definition bfv_basic (expand : expander) (isp : Z -> bool) (cands : Z -> list Z) (ids : nat -> Z) (d : basic_draws) : M (Z * list Z) :=
  par <- third_default isp cands ids 16 (Err (ParNoDefault 16)) ;;
  sk <- sk_random par (b_sk d) ;;
  pk <- pk_new expand sk (b_pk_seed d) (b_pk d) ;;
  res <- sum_of_two par sk pk EncPoly [3] [5] (b_enc d 0%nat) (b_enc d 1%nat) ;;
  r <- get res 0 ;;
  res <- sum_of_two par sk pk EncSimd [1; 2; 3; 4] [5; 6; 7; 8] (b_enc d 2%nat) (b_enc d 3%nat) ;;
  rs <- prefix res 4 ;;
  Val (r, rs).

(** ** bfv_ops.rs *)
(** bfv_ops.rs:67-73, 90-96 and 97-103: the encryptions of some values, one by one. *)
Definition encrypted_each (par : params) (pk : public_key) (vs : list Z) (d : nat -> fresh) : M (list ciphertext) :=
  mapM (fun p => encrypted par pk EncPoly [fst p] (d (snd p))) (combine vs (seq 0 (length vs))).
(** bfv_ops.rs:21-35 [weighted_sum_plain]. *)
Definition weighted_sum_plain (cts : list ciphertext) (weights : list Z) (par : params) (sk : secret_key) : M Z :=
  acc <- foldM (fun acc p =>
           w <- encode_u64 false [snd p] (mkEnc EncPoly 0) par ;;
           c <- ct_mul_pt (fst p) w ;;
           ct_add acc c) (combine cts weights) (ct_zero par) ;;
  v <- decrypted sk EncPoly acc ;;
  get v 0.
(** bfv_ops.rs:37-48 [weighted_sum_simd]. *)
Definition weighted_sum_simd (ct : ciphertext) (weights : plaintext) (ek : eval_key) (sk : secret_key) : M Z :=
  tmp <- ct_mul_pt ct weights ;;
  summed <- computes_inner_sum ek tmp ;;
  v <- decrypted sk EncSimd summed ;;
  get v 0.
(** bfv_ops.rs:66-76 and 79-85: a weighted sum, without and with SIMD. *)
Definition plain_weights (par : params) (sk : secret_key) (pk : public_key) (values weights : list Z) (d : nat -> fresh) : M Z :=
  cts <- encrypted_each par pk values d ;; weighted_sum_plain cts weights par sk.
Definition simd_weights (par : params) (sk : secret_key) (pk : public_key) (ek : eval_key) (values weights : list Z) (d : fresh) : M Z :=
  ct <- encrypted par pk EncSimd values d ;;
  w <- encode_u64 false weights (mkEnc EncSimd 0) par ;;
  weighted_sum_simd ct w ek sk.
(** [a * b] and [rk.relinearizes(&mut prod)?], as in bfv_ops.rs:106-107. *)
Definition product (rk : ksk) (a b : ciphertext) : M ciphertext := c <- ct_mul a b ;; relinearizes rk c.
(** bfv_ops.rs:90-111 and 115-123: an inner product, without and with SIMD. *)
Definition plain_inner_product (par : params) (sk : secret_key) (pk : public_key) (rk : ksk) (v1 v2 : list Z) (d1 d2 : nat -> fresh) : M Z :=
  c1 <- encrypted_each par pk v1 d1 ;;
  c2 <- encrypted_each par pk v2 d2 ;;
  acc <- foldM (fun acc p => c <- product rk (fst p) (snd p) ;; ct_add acc c) (combine c1 c2) (ct_zero par) ;;
  v <- decrypted sk EncPoly acc ;;
  get v 0.
Definition simd_inner_product (par : params) (sk : secret_key) (pk : public_key) (ek : eval_key) (rk : ksk) (v1 v2 : list Z) (d1 d2 : fresh) : M Z :=
  p1 <- encode_u64 false v1 (mkEnc EncSimd 0) par ;;
  p2 <- encode_u64 false v2 (mkEnc EncSimd 0) par ;;
  c1 <- pk_encrypt pk p1 (f_u d1) (f_e1 d1) (f_e2 d1) ;;
  c2 <- pk_encrypt pk p2 (f_u d2) (f_e1 d2) (f_e2 d2) ;;
  c <- product rk c1 c2 ;;
  summed <- computes_inner_sum ek c ;;
  v <- decrypted sk EncSimd summed ;;
  get v 0.
(** bfv_ops.rs:128-139 and 144-155: the polynomial 3 x^2 + 2 x + 1, without SIMD ([k = EncPoly], [x] of length 1) and with SIMD; the three
    coefficients are encoded as vectors of the length of [x]. *)
Definition polynomial (par : params) (sk : secret_key) (pk : public_key) (rk : ksk) (k : enc_kind) (x : list Z) (d : fresh) : M (list Z) :=
  cx <- encrypted par pk k x d ;;
  cx2 <- product rk cx cx ;;
  three <- encode_u64 false (repeat 3 (length x)) (mkEnc k 0) par ;;
  two <- encode_u64 false (repeat 2 (length x)) (mkEnc k 0) par ;;
  one <- encode_u64 false (repeat 1 (length x)) (mkEnc k 0) par ;;
  r <- ct_mul_pt cx2 three ;;
  b <- ct_mul_pt cx two ;;
  r <- ct_add r b ;;
  r <- ct_add_pt r one ;;
  decrypted sk k r.
(** The streams of the program: for the keys, and for encryption [j] of its part [i]. *)
Record ops_draws := mkOps {
  o_sk : nat -> Z; o_pk_seed : seed; o_pk : nat -> Z; o_ek_seeds : Z -> seed; o_ek : Z -> nat -> nat -> Z; o_rk_seed : seed; o_rk : nat -> nat -> Z;
  o_enc : nat -> nat -> fresh }.
(** bfv_ops.rs:56-61: the keys. *)
Definition ops_keys (expand : expander) (derive : deriver) (par : params) (d : ops_draws) : M (secret_key * public_key * eval_key * ksk) :=
  sk <- sk_random par (o_sk d) ;;
  pk <- pk_new expand sk (o_pk_seed d) (o_pk d) ;;
  b <- ekb_new_leveled sk 0 0 ;;
  ek <- ek_build expand derive (enable_inner_sum b) (o_ek_seeds d) (o_ek d) ;;
  rk <- relin_new expand derive sk 0 0 (o_rk_seed d) (o_rk d) ;;
  Val (sk, pk, ek, rk).
(** bfv_ops.rs:50-159 [main]: the six results that it prints. *)
Record ops_results := mkResults { r_plain_weights : Z; r_simd_weights : Z; r_plain_product : Z; r_simd_product : Z; r_plain_polynomial : Z; r_simd_polynomial : list Z }.
Definition bfv_ops (expand : expander) (derive : deriver) (isp : Z -> bool) (cands : Z -> list Z) (ids : nat -> Z) (d : ops_draws) : M ops_results :=
  par <- no_err (third_default isp cands ids 20 Panic) ;;
  '(sk, pk, ek, rk) <- ops_keys expand derive par d ;;
  r1 <- plain_weights par sk pk [1; 2; 3] [4; 5; 6] (o_enc d 1) ;;
  r2 <- simd_weights par sk pk ek [1; 2; 3] [4; 5; 6] (o_enc d 2 0%nat) ;;
  r3 <- plain_inner_product par sk pk rk [1; 2; 3] [7; 8; 9] (o_enc d 3) (o_enc d 4) ;;
  r4 <- simd_inner_product par sk pk ek rk [1; 2; 3] [7; 8; 9] (o_enc d 5 0%nat) (o_enc d 5 1%nat) ;;
  p <- polynomial par sk pk rk EncPoly [3] (o_enc d 6 0%nat) ;;
  r5 <- get p 0 ;;
  p <- polynomial par sk pk rk EncSimd [1; 2; 3; 4] (o_enc d 7 0%nat) ;;
  r6 <- prefix p 4 ;;
  Val (mkResults r1 r2 r3 r4 r5 r6).

(** ** rgsw.rs *)
Record rgsw_draws := mkRgswDraws {
  g_sk : nat -> Z; g_seed1 : seed; g_enc1 : nat -> Z; g_seed2 : seed; g_enc2 : nat -> Z; g_rgsw_seed0 : seed; g_rgsw_seed1 : seed; g_rgsw0 : nat -> nat -> Z; g_rgsw1 : nat -> nat -> Z }.
(** rgsw.rs:20-31: the key, the external product and the product that it is compared with. *)
Definition rgsw_products (expand : expander) (derive : deriver) (par : params) (v1 v2 : list Z) (d : rgsw_draws) : M (secret_key * ciphertext * ciphertext) :=
  sk <- sk_random par (g_sk d) ;;
  p1 <- encode_u64 false v1 (mkEnc EncSimd 0) par ;;
  p2 <- encode_u64 false v2 (mkEnc EncSimd 0) par ;;
  c1 <- sk_encrypt expand sk p1 (g_seed1 d) (g_enc1 d) ;;
  c2 <- sk_encrypt expand sk p2 (g_seed2 d) (g_enc2 d) ;;
  r <- rgsw_encrypt expand derive sk p2 (g_rgsw_seed0 d) (g_rgsw_seed1 d) (g_rgsw0 d) (g_rgsw1 d) ;;
  product <- ct_mul_rgsw c1 r ;;
  expected <- ct_mul c1 c2 ;;
  Val (sk, product, expected).
(** rgsw.rs:33-56: the rest of the program; [level] is the level to which line 41 switches the external product. *)
Definition rgsw_compare (sk : secret_key) (product expected : ciphertext) (level n : nat) : M (list Z) :=
  measure_noise sk product ;;;
  ct_to_proto product ;;;
  measure_noise sk product ;;;
  product <- ct_switch_to_level product level ;;
  measure_noise sk product ;;;
  ct_to_proto product ;;;
  pt_prod <- sk_decrypt sk product ;;
  pt_exp <- sk_decrypt sk expected ;;
  guard (pt_eqb pt_prod pt_exp) ;;;
  v <- decode_u64 pt_prod (Some (mkEnc EncSimd 0)) ;;
  prefix v n.
(** rgsw.rs:14-57 [main]. *)
Definition rgsw_main (expand : expander) (derive : deriver) (isp : Z -> bool) (cands : Z -> list Z) (ids : nat -> Z) (d : rgsw_draws) : M (list Z) :=
  par <- no_err (third_default isp cands ids 20 Panic) ;;
  '(sk, product, expected) <- rgsw_products expand derive par [1; 2; 3; 4] [5; 6; 7; 8] d ;;
  rgsw_compare sk product expected (max_level (ct_par product)) 4.
