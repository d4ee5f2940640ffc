(** The outcomes of LeakModel.v are those of the models without traces. *)
From Verif Require Import Outcome ZqModel NttModel TranscodeModel CbdModel RnsModel RqModel ParamsModel PlainModel CipherModel OpsModel KeysModel MbfvModel LeakModel.

Lemma snd_bindT {A B} (x : T A) (f : A -> T B) : snd (bindT x f) = bind (snd x) (fun a => snd (f a)).
Proof. destruct x as (l & [a|e|]); reflexivity. Qed.
Lemma bind_ext {A B} (x y : M A) (f g : A -> M B) : x = y -> (forall a, f a = g a) -> bind x f = bind y g.
Proof. intros -> H. destruct y; cbn; auto. Qed.
Lemma snd_mapT {A B} (f : A -> T B) g l : (forall a, snd (f a) = g a) -> snd (mapT f l) = mapM g l.
Proof.
  intros H. induction l as [|a l IH]; cbn [mapT mapM]; [reflexivity|].
  rewrite snd_bindT. apply bind_ext; [apply H|intros b]. rewrite snd_bindT. apply bind_ext; [exact IH|reflexivity].
Qed.
Lemma snd_map2T {A B C} (f : A -> B -> T C) g l l' : (forall a b, snd (f a b) = g a b) -> snd (map2T f l l') = map2M g l l'.
Proof.
  intros H. revert l'. induction l as [|a l IH]; intros [|b l']; cbn [map2T map2M]; try reflexivity.
  rewrite snd_bindT. apply bind_ext; [apply H|intros c]. rewrite snd_bindT. apply bind_ext; [apply IH|reflexivity].
Qed.
Lemma snd_foldT {A S} (f : S -> A -> T S) g l s : (forall s a, snd (f s a) = g s a) -> snd (foldT f l s) = foldM g l s.
Proof.
  intros H. revert s. induction l as [|a l IH]; intros s; cbn [foldT foldM]; [reflexivity|].
  rewrite snd_bindT. apply bind_ext; [apply H|exact IH].
Qed.
Lemma snd_iterT {A} n (f : A -> T A) g a : (forall a, snd (f a) = g a) -> snd (iterT n f a) = iterM n g a.
Proof.
  intros H. revert a. induction n as [|n IH]; intros a; cbn [iterT iterM]; [reflexivity|].
  rewrite snd_bindT. apply bind_ext; [apply H|exact IH].
Qed.
Lemma snd_no_errT {A} (x : T A) m : snd x = m -> snd (no_errT x) = no_err m.
Proof. intros <-. reflexivity. Qed.

Create HintDb erase discriminated.
Ltac er1 :=
  match goal with
  | |- snd (bindT _ _) = _ => rewrite snd_bindT; apply bind_ext; [|intros]
  | |- snd (mapT _ _) = _ => apply snd_mapT; intros
  | |- snd (map2T _ _ _) = _ => apply snd_map2T; intros
  | |- snd (foldT _ _ _) = _ => apply snd_foldT; intros
  | |- snd (iterT _ _ _) = _ => apply snd_iterT; intros
  | |- snd (no_errT _) = _ => apply snd_no_errT
  | |- snd (if ?b then _ else _) = _ => destruct b
  | |- snd (match ?x with _ => _ end) = _ => destruct x
  | |- _ => solve [auto with erase]
  | |- _ => reflexivity
  end.
Ltac er := cbv zeta; repeat (er1; cbv beta zeta).

Lemma e_pb_into_ntt p : snd (t_pb_into_ntt p) = pb_into_ntt p. Proof. reflexivity. Qed.
Lemma e_pb_into_ntt_shoup p : snd (t_pb_into_ntt_shoup p) = pb_into_ntt_shoup p. Proof. reflexivity. Qed.
Lemma e_ntt_into_pb p : snd (t_ntt_into_pb p) = ntt_into_pb p. Proof. reflexivity. Qed.
Lemma e_pb_into R p : snd (t_pb_into R p) = pb_into R p. Proof. destruct R; reflexivity. Qed.
Lemma e_pb_from_u64 c v b : snd (t_pb_from_u64 c v b) = pb_from_u64 c v b. Proof. reflexivity. Qed.
Lemma e_pb_from_i64 c v b : snd (t_pb_from_i64 c v b) = pb_from_i64 c v b. Proof. reflexivity. Qed.
#[export] Hint Resolve e_pb_into_ntt e_pb_into_ntt_shoup e_ntt_into_pb e_pb_into e_pb_from_u64 e_pb_from_i64 : erase.
Lemma e_poly_small R c v r : snd (t_poly_small R c v r) = poly_small R c v r.
Proof. unfold t_poly_small, poly_small. er. Qed.
Lemma e_switch_down p : snd (t_switch_down p) = switch_down p. Proof. reflexivity. Qed.
#[export] Hint Resolve e_poly_small e_switch_down : erase.
Lemma e_switch_down_to p c : snd (t_switch_down_to p c) = switch_down_to p c.
Proof. unfold t_switch_down_to, switch_down_to. er. Qed.
Lemma e_lazy c v : snd (t_ntt_lazy_constant c v) = ntt_lazy_constant c v. Proof. reflexivity. Qed.
Lemma e_add R (a b : poly R) : snd (t_add a b) = poly_add a b. Proof. reflexivity. Qed.
Lemma e_sub R (a b : poly R) : snd (t_sub a b) = poly_sub a b. Proof. reflexivity. Qed.
Lemma e_mul a b : snd (t_mul a b) = poly_mul a b. Proof. reflexivity. Qed.
Lemma e_mul_shoup a b : snd (t_mul_shoup a b) = poly_mul_shoup a b. Proof. reflexivity. Qed.
Lemma e_scalar_mul R (a : poly R) k : snd (t_scalar_mul a k) = poly_scalar_mul a k. Proof. reflexivity. Qed.
Lemma e_neg R (a : poly R) : snd (t_neg a) = poly_neg a. Proof. reflexivity. Qed.
Lemma e_dot_product a b : snd (t_dot_product a b) = dot_product a b. Proof. reflexivity. Qed.
Lemma e_scale R s (a : poly R) : snd (t_scale s a) = poly_scale s a. Proof. reflexivity. Qed.
#[export] Hint Resolve e_switch_down_to e_lazy e_add e_sub e_mul e_mul_shoup e_scalar_mul e_neg e_dot_product e_scale : erase.

(** Plaintexts *)
Lemma e_coefficients pt : snd (t_coefficients pt) = coefficients pt.
Proof. unfold t_coefficients, coefficients. er. Qed.
#[export] Hint Resolve e_coefficients : erase.
Lemma e_to_poly pt : snd (t_to_poly pt) = to_poly pt.
Proof. unfold t_to_poly, to_poly. er. Qed.
Lemma e_encode_u64_chunk vt v e par c : snd (t_encode_u64_chunk vt v e par c) = encode_u64_chunk vt v e par c.
Proof. unfold t_encode_u64_chunk, encode_u64_chunk. er. Qed.
#[export] Hint Resolve e_to_poly e_encode_u64_chunk : erase.
Lemma e_encode_big_chunk v e par c : snd (t_encode_big_chunk v e par c) = encode_big_chunk v e par c.
Proof. unfold t_encode_big_chunk, encode_big_chunk. er. Qed.
#[export] Hint Resolve e_encode_big_chunk : erase.
Lemma e_encode_with f g v e par : (forall v e par c, snd (f v e par c) = g v e par c) -> snd (t_encode_with f v e par) = encode_with g v e par.
Proof. intros H. unfold t_encode_with, encode_with. er. Qed.
Lemma e_encode_vec_u64 vt v e par : snd (t_encode_vec_u64 vt v e par) = encode_vec_u64 vt v e par.
Proof. apply e_encode_with. intros. apply e_encode_u64_chunk. Qed.
Lemma e_encode_vec_big v e par : snd (t_encode_vec_big v e par) = encode_vec_big v e par.
Proof. apply e_encode_with. intros. apply e_encode_big_chunk. Qed.
#[export] Hint Resolve e_encode_vec_u64 e_encode_vec_big : erase.
Lemma e_encode_u64 vt v e par : snd (t_encode_u64 vt v e par) = encode_u64 vt v e par.
Proof. unfold t_encode_u64, encode_u64. er. Qed.
Lemma e_encode_big v e par : snd (t_encode_big v e par) = encode_big v e par.
Proof. unfold t_encode_big, encode_big. er. Qed.
#[export] Hint Resolve e_encode_u64 e_encode_big : erase.
Lemma e_encode_i64 v e par : snd (t_encode_i64 v e par) = encode_i64 v e par.
Proof. unfold t_encode_i64, encode_i64. er. Qed.
Lemma e_decode_u64 pt e : snd (t_decode_u64 pt e) = decode_u64 pt e.
Proof. unfold t_decode_u64, decode_u64. er. Qed.
Lemma e_decode_big pt e : snd (t_decode_big pt e) = decode_big pt e.
Proof. unfold t_decode_big, decode_big. er. Qed.
#[export] Hint Resolve e_decode_u64 e_decode_big : erase.
Lemma e_decode_i64 pt e : snd (t_decode_i64 pt e) = decode_i64 pt e.
Proof. unfold t_decode_i64, decode_i64. er. Qed.

(** Keys *)
Lemma e_sk_poly sk c : snd (t_sk_poly sk c) = sk_poly sk c.
Proof. unfold t_sk_poly, sk_poly. er. Qed.
#[export] Hint Resolve e_sk_poly : erase.
Lemma e_encrypt_poly x sk p sd r : snd (t_encrypt_poly x sk p sd r) = encrypt_poly x sk p sd r.
Proof. unfold t_encrypt_poly, encrypt_poly. er. Qed.
#[export] Hint Resolve e_encrypt_poly : erase.
Lemma e_sk_encrypt x sk p sd r : snd (t_sk_encrypt x sk p sd r) = sk_encrypt x sk p sd r.
Proof. unfold t_sk_encrypt, sk_encrypt. er. Qed.
Lemma e_phase_loop s rest si c : snd (t_phase_loop s rest si c) = phase_loop s rest si c.
Proof. revert si c. induction rest as [|ci rest IH]; intros si c; cbn [t_phase_loop phase_loop]; [reflexivity|]. er. Qed.
Lemma e_phase_loop_all s rest si c : snd (t_phase_loop_all s rest si c) = phase_loop_all s rest si c.
Proof. revert si c. induction rest as [|ci rest IH]; intros si c; cbn [t_phase_loop_all phase_loop_all]; [reflexivity|]. er. Qed.
#[export] Hint Resolve e_sk_encrypt e_phase_loop e_phase_loop_all : erase.
Lemma e_sk_decrypt sk ct : snd (t_sk_decrypt sk ct) = sk_decrypt sk ct.
Proof. unfold t_sk_decrypt, sk_decrypt. er. Qed.
#[export] Hint Resolve e_sk_decrypt : erase.
Lemma e_measure_noise sk ct : snd (t_measure_noise sk ct) = measure_noise sk ct.
Proof. unfold t_measure_noise, measure_noise. er. Qed.
Lemma e_pk_new x sk sd r : snd (t_pk_new x sk sd r) = pk_new x sk sd r.
Proof. unfold t_pk_new, pk_new. er. Qed.
Lemma e_ntt_switch_down p : snd (t_ntt_switch_down p) = ntt_switch_down p.
Proof. unfold t_ntt_switch_down, ntt_switch_down. er. Qed.
#[export] Hint Resolve e_ntt_switch_down : erase.
Lemma e_ct_switch_down ct : snd (t_ct_switch_down ct) = ct_switch_down ct.
Proof. unfold t_ct_switch_down, ct_switch_down. er. Qed.
#[export] Hint Resolve e_ct_switch_down : erase.
Lemma e_ct_switch_to_level ct l : snd (t_ct_switch_to_level ct l) = ct_switch_to_level ct l.
Proof. unfold t_ct_switch_to_level, ct_switch_to_level. er. Qed.
Lemma e_pk_encrypt pk pt ru r1 r2 : snd (t_pk_encrypt pk pt ru r1 r2) = pk_encrypt pk pt ru r1 r2.
Proof. unfold t_pk_encrypt, pk_encrypt. er. Qed.
Lemma e_ksk_entry v s from r c1 g : snd (t_ksk_entry v s from r c1 g) = ksk_entry v s from r c1 g.
Proof. unfold t_ksk_entry, ksk_entry. er. Qed.
#[export] Hint Resolve e_ksk_entry : erase.
Lemma e_generate_c0 sk from c1 rs : snd (t_generate_c0 sk from c1 rs) = generate_c0 sk from c1 rs.
Proof. unfold t_generate_c0, generate_c0. er. Qed.
Lemma e_generate_c0_decomposition sk from c1 rs lb : snd (t_generate_c0_decomposition sk from c1 rs lb) = generate_c0_decomposition sk from c1 rs lb.
Proof. unfold t_generate_c0_decomposition, generate_c0_decomposition. er. Qed.
#[export] Hint Resolve e_generate_c0 e_generate_c0_decomposition : erase.
Lemma e_ksk_new x d sk from cl l sd rs : snd (t_ksk_new x d sk from cl l sd rs) = ksk_new x d sk from cl l sd rs.
Proof. unfold t_ksk_new, ksk_new. er. Qed.
#[export] Hint Resolve e_ksk_new : erase.
Lemma e_relin_new x d sk cl l sd rs : snd (t_relin_new x d sk cl l sd rs) = relin_new x d sk cl l sd rs.
Proof. unfold t_relin_new, relin_new. er. Qed.
Lemma e_galois_new x d sk e cl l sd rs : snd (t_galois_new x d sk e cl l sd rs) = galois_new x d sk e cl l sd rs.
Proof. unfold t_galois_new, galois_new. er. Qed.
Lemma e_expansion_monomials par c : snd (t_expansion_monomials par c) = expansion_monomials par c.
Proof. unfold t_expansion_monomials, expansion_monomials. er. Qed.
#[export] Hint Resolve e_galois_new e_expansion_monomials : erase.
Lemma e_ek_build x d b sds rs : snd (t_ek_build x d b sds rs) = ek_build x d b sds rs.
Proof. unfold t_ek_build, ek_build. er. Qed.
Lemma e_rgsw_encrypt x d sk pt s0 s1 r0 r1 : snd (t_rgsw_encrypt x d sk pt s0 s1 r0 r1) = rgsw_encrypt x d sk pt s0 s1 r0 r1.
Proof. unfold t_rgsw_encrypt, rgsw_encrypt. er. Qed.

(** Operations *)
Lemma e_ct_op2 f g a b : (forall p q, snd (f p q) = g p q) -> snd (t_ct_op2 f a b) = ct_op2 g a b.
Proof. intros H. unfold t_ct_op2, ct_op2. er. Qed.
Lemma e_ct_neg a : snd (t_ct_neg a) = ct_neg a.
Proof. unfold t_ct_neg, ct_neg. er. Qed.
#[export] Hint Resolve e_ct_op2 e_ct_neg : erase.
Lemma e_ct_add a b : snd (t_ct_add a b) = ct_add a b.
Proof. unfold t_ct_add, ct_add. er. Qed.
Lemma e_ct_sub a b : snd (t_ct_sub a b) = ct_sub a b.
Proof. unfold t_ct_sub, ct_sub. er. Qed.
Lemma e_ct_op_pt f g a b : (forall p q, snd (f p q) = g p q) -> snd (t_ct_op_pt f a b) = ct_op_pt g a b.
Proof. intros H. unfold t_ct_op_pt, ct_op_pt. er. Qed.
Lemma e_ct_add_pt a b : snd (t_ct_add_pt a b) = ct_add_pt a b.
Proof. apply e_ct_op_pt. reflexivity. Qed.
Lemma e_ct_sub_pt a b : snd (t_ct_sub_pt a b) = ct_sub_pt a b.
Proof. apply e_ct_op_pt. reflexivity. Qed.
#[export] Hint Resolve e_ct_sub_pt : erase.
Lemma e_pt_sub_ct a b : snd (t_pt_sub_ct a b) = pt_sub_ct a b.
Proof. unfold t_pt_sub_ct, pt_sub_ct. er. Qed.
Lemma e_ct_mul_pt a b : snd (t_ct_mul_pt a b) = ct_mul_pt a b.
Proof. unfold t_ct_mul_pt, ct_mul_pt. er. Qed.
Lemma e_mul_step a b c ij : snd (t_mul_step a b c ij) = mul_step a b c ij.
Proof. unfold t_mul_step, mul_step. er. Qed.
#[export] Hint Resolve e_mul_step : erase.
Lemma e_mul_parts c a b : snd (t_mul_parts c a b) = mul_parts c a b.
Proof. unfold t_mul_parts, mul_parts. er. Qed.
#[export] Hint Resolve e_mul_parts : erase.
Lemma e_ct_mul a b : snd (t_ct_mul a b) = ct_mul a b.
Proof. unfold t_ct_mul, ct_mul. er. Qed.
Lemma e_dot_product_scalar a b : snd (t_dot_product_scalar a b) = dot_product_scalar a b.
Proof. unfold t_dot_product_scalar, dot_product_scalar. destruct a; [destruct b; reflexivity|]. destruct b; er. Qed.
Lemma e_ks_loop c rows k0 k1 a0 a1 : snd (t_ks_loop c rows k0 k1 a0 a1) = ks_loop c rows k0 k1 a0 a1.
Proof.
  revert k0 k1 a0 a1. induction rows as [|r rows IH]; intros [|x0 k0] [|x1 k1] a0 a1; cbn [t_ks_loop ks_loop]; try reflexivity.
  er.
Qed.
#[export] Hint Resolve e_ks_loop : erase.
Lemma e_key_switch_decomposition k p : snd (t_key_switch_decomposition k p) = key_switch_decomposition k p.
Proof. unfold t_key_switch_decomposition, key_switch_decomposition. er. Qed.
#[export] Hint Resolve e_key_switch_decomposition : erase.
Lemma e_key_switch k p : snd (t_key_switch k p) = key_switch k p.
Proof. unfold t_key_switch, key_switch. er. Qed.
Lemma e_ks_down c0 c1 a : snd (t_ks_down c0 c1 a) = ks_down c0 c1 a.
Proof. unfold t_ks_down, ks_down. er. Qed.
#[export] Hint Resolve e_key_switch e_ks_down : erase.
Lemma e_relinearizes k ct : snd (t_relinearizes k ct) = relinearizes k ct.
Proof. unfold t_relinearizes, relinearizes. er. Qed.
Lemma e_galois_apply g ct : snd (t_galois_apply g ct) = galois_apply g ct.
Proof. unfold t_galois_apply, galois_apply. er. Qed.

(** Protocols *)
Lemma e_pk_share_new sk crp r : snd (t_pk_share_new sk crp r) = pk_share_new sk crp r.
Proof. unfold t_pk_share_new, pk_share_new. er. Qed.
Lemma e_gen_new sk crp r : snd (t_gen_new sk crp r) = gen_new sk crp r.
Proof. unfold t_gen_new, gen_new. er. Qed.
Lemma e_r1_h0 sk crp u r : snd (t_r1_h0 sk crp u r) = r1_h0 sk crp u r.
Proof. unfold t_r1_h0, r1_h0. er. Qed.
Lemma e_r1_h1 sk crp r : snd (t_r1_h1 sk crp r) = r1_h1 sk crp r.
Proof. unfold t_r1_h1, r1_h1. er. Qed.
Lemma e_r2_h0 sk h r : snd (t_r2_h0 sk h r) = r2_h0 sk h r.
Proof. unfold t_r2_h0, r2_h0. er. Qed.
Lemma e_r2_h1 sk u h r : snd (t_r2_h1 sk u h r) = r2_h1 sk u h r.
Proof. unfold t_r2_h1, r2_h1. er. Qed.
#[export] Hint Resolve e_r1_h0 e_r1_h1 e_r2_h0 e_r2_h1 : erase.
Lemma e_gen_round1 g r0 r1 : snd (t_gen_round1 g r0 r1) = gen_round1 g r0 r1.
Proof. unfold t_gen_round1, gen_round1. er. Qed.
Lemma e_gen_round2 g s r0 r1 : snd (t_gen_round2 g s r0 r1) = gen_round2 g s r0 r1.
Proof. unfold t_gen_round2, gen_round2. er. Qed.
Lemma e_sks_new a b ct r : snd (t_sks_new a b ct r) = sks_new a b ct r.
Proof. unfold t_sks_new, sks_new. er. Qed.
Lemma e_dec_share_new sk ct r : snd (t_dec_share_new sk ct r) = dec_share_new sk ct r.
Proof. apply e_sks_new. Qed.
Lemma e_sks_from_shares l : snd (t_sks_from_shares l) = sks_from_shares l.
Proof. unfold t_sks_from_shares, sks_from_shares. er. Qed.
#[export] Hint Resolve e_sks_from_shares : erase.
Lemma e_dec_from_shares l : snd (t_dec_from_shares l) = dec_from_shares l.
Proof. unfold t_dec_from_shares, dec_from_shares. er. Qed.
Lemma e_switch_until n l ct : snd (t_switch_until n l ct) = switch_until n l ct.
Proof.
  revert ct. induction n as [|n IH]; intros ct; cbn [t_switch_until switch_until]; destruct (Nat.eqb _ _); try reflexivity. er.
Qed.
#[export] Hint Resolve e_switch_until : erase.
Lemma e_pksw_new sk pk ct ru r0 r1 : snd (t_pksw_new sk pk ct ru r0 r1) = pksw_new sk pk ct ru r0 r1.
Proof. unfold t_pksw_new, pksw_new. er. Qed.
