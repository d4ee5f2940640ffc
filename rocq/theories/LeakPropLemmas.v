(** The statements of C56. *)
From Verif Require Import Outcome BasicSpec OutcomeLemmas PolySpec ZqModel NttModel CbdModel TranscodeModel RnsModel RnsSpec RqModel RqSpec ParamsModel BfvSpec PlainModel CipherModel OpsModel SchemeSpec CipherSpec KeysModel KeysSpec EvalSpec MbfvModel.
From Verif Require Import LeakModel LeakSpec LeakErase LeakProofs LeakAlike LeakKeys LeakSwitch.

(** The instrumented programs are the programs. *)
Theorem programs_all :
  ((forall vt v e par, snd (t_encode_u64 vt v e par) = encode_u64 vt v e par) /\ (forall v e par, snd (t_encode_big v e par) = encode_big v e par) /\ (forall v e par, snd (t_encode_i64 v e par) = encode_i64 v e par) /\
   (forall pt e, snd (t_decode_u64 pt e) = decode_u64 pt e) /\ (forall pt e, snd (t_decode_big pt e) = decode_big pt e) /\ (forall pt e, snd (t_decode_i64 pt e) = decode_i64 pt e)) /\
  ((forall x sk pt sd r, snd (t_sk_encrypt x sk pt sd r) = sk_encrypt x sk pt sd r) /\ (forall sk ct, snd (t_sk_decrypt sk ct) = sk_decrypt sk ct) /\ (forall sk ct, snd (t_measure_noise sk ct) = measure_noise sk ct) /\
   (forall x sk sd r, snd (t_pk_new x sk sd r) = pk_new x sk sd r) /\ (forall pk pt ru r1 r2, snd (t_pk_encrypt pk pt ru r1 r2) = pk_encrypt pk pt ru r1 r2)) /\
  ((forall x d sk f l1 l2 sd r, snd (t_ksk_new x d sk f l1 l2 sd r) = ksk_new x d sk f l1 l2 sd r) /\ (forall x d sk l1 l2 sd r, snd (t_relin_new x d sk l1 l2 sd r) = relin_new x d sk l1 l2 sd r) /\
   (forall x d sk e l1 l2 sd r, snd (t_galois_new x d sk e l1 l2 sd r) = galois_new x d sk e l1 l2 sd r) /\ (forall x d b sds r, snd (t_ek_build x d b sds r) = ek_build x d b sds r) /\
   (forall x d sk pt sd0 sd1 r0 r1, snd (t_rgsw_encrypt x d sk pt sd0 sd1 r0 r1) = rgsw_encrypt x d sk pt sd0 sd1 r0 r1)) /\
  ((forall a b, snd (t_ct_add a b) = ct_add a b) /\ (forall a b, snd (t_ct_sub a b) = ct_sub a b) /\ (forall a, snd (t_ct_neg a) = ct_neg a) /\ (forall a b, snd (t_ct_add_pt a b) = ct_add_pt a b) /\ (forall a b, snd (t_ct_sub_pt a b) = ct_sub_pt a b) /\
   (forall a b, snd (t_pt_sub_ct a b) = pt_sub_ct a b) /\ (forall a b, snd (t_ct_mul_pt a b) = ct_mul_pt a b) /\ (forall a b, snd (t_ct_mul a b) = ct_mul a b) /\ (forall a b, snd (t_dot_product_scalar a b) = dot_product_scalar a b) /\
   (forall a, snd (t_ct_switch_down a) = ct_switch_down a) /\ (forall a l, snd (t_ct_switch_to_level a l) = ct_switch_to_level a l)) /\
  ((forall k p, snd (t_key_switch k p) = key_switch k p) /\ (forall k ct, snd (t_relinearizes k ct) = relinearizes k ct) /\ (forall g ct, snd (t_galois_apply g ct) = galois_apply g ct)) /\
  ((forall sk crp r, snd (t_pk_share_new sk crp r) = pk_share_new sk crp r) /\ (forall sk crp r, snd (t_gen_new sk crp r) = gen_new sk crp r) /\ (forall g r0 r1, snd (t_gen_round1 g r0 r1) = gen_round1 g r0 r1) /\
   (forall g s r0 r1, snd (t_gen_round2 g s r0 r1) = gen_round2 g s r0 r1) /\ (forall a b ct r, snd (t_sks_new a b ct r) = sks_new a b ct r) /\ (forall sk ct r, snd (t_dec_share_new sk ct r) = dec_share_new sk ct r) /\
   (forall l, snd (t_sks_from_shares l) = sks_from_shares l) /\ (forall l, snd (t_dec_from_shares l) = dec_from_shares l) /\ (forall sk pk ct ru r0 r1, snd (t_pksw_new sk pk ct ru r0 r1) = pksw_new sk pk ct ru r0 r1)).
Proof.
  split; [split; [exact e_encode_u64|split; [exact e_encode_big|split; [exact e_encode_i64|split; [exact e_decode_u64|split; [exact e_decode_big|exact e_decode_i64]]]]]|].
  split; [split; [exact e_sk_encrypt|split; [exact e_sk_decrypt|split; [exact e_measure_noise|split; [exact e_pk_new|exact e_pk_encrypt]]]]|].
  split; [split; [exact e_ksk_new|split; [exact e_relin_new|split; [exact e_galois_new|split; [exact e_ek_build|exact e_rgsw_encrypt]]]]|].
  split; [split; [exact e_ct_add|split; [exact e_ct_sub|split; [exact e_ct_neg|split; [exact e_ct_add_pt|split; [exact e_ct_sub_pt|split; [exact e_pt_sub_ct|split; [exact e_ct_mul_pt|split; [exact e_ct_mul|split; [exact e_dot_product_scalar|split; [exact e_ct_switch_down|exact e_ct_switch_to_level]]]]]]]]]]|].
  split; [split; [exact e_key_switch|split; [exact e_relinearizes|exact e_galois_apply]]|].
  split; [exact e_pk_share_new|split; [exact e_gen_new|split; [exact e_gen_round1|split; [exact e_gen_round2|split; [exact e_sks_new|split; [exact e_dec_share_new|split; [exact e_sks_from_shares|split; [exact e_dec_from_shares|exact e_pksw_new]]]]]]]].
Qed.

(** ** Plaintexts *)
Definition encoded (par : params) (e : encoding) (b : bool) (pt : plaintext) : Prop :=
  pt_par pt = par /\ par_context par (e_level e) = Val (p_ctx (pt_poly pt)) /\ p_vt (pt_poly pt) = b.
Lemma encode_with_meta chunk v e par l pt b : (forall v c p, chunk v e par c = Val p -> p_ctx p = c /\ p_vt p = b) -> encode_with chunk v e par = Val l -> In pt l -> encoded par e b pt.
Proof.
  intros H E Hin. unfold encode_with in E.
  assert (X : (c <- par_context par (e_level e);; guard (negb (pa_degree par =? 0)%nat);;; mapM (fun i => p <- chunk (firstn (pa_degree par) (skipn (i * pa_degree par) v)) e par c;; Val (mkPt par (Some e) p)) (seq 0 (Nat.max (Z.to_nat (div_ceil (len v) (Z.of_nat (pa_degree par)))) 1))) = Val l)
    by (destruct (e_kind e); [exact E|destruct (pa_ntt par); [exact E|discriminate]]). clear E. vinv.
  apply mapM_val_inv in X. apply (In_nth_error l pt) in Hin. destruct Hin as (i & Hi). revert i Hi. induction X as [|a y s l Hy X IH]; intros i Hi; [destruct i; discriminate|]. destruct i as [|i]; [|exact (IH i Hi)]. cbn [nth_error] in Hi. injection Hi as ->.
  vinv. injection Hy as <-. destruct (H _ _ _ E1) as (C & V). split; [reflexivity|]. split; [cbn [pt_poly]; congruence|exact V].
Qed.
Lemma first_pt_in l pt : first_pt l = Val pt -> In pt l.
Proof. destruct l as [|x l]; cbn; [discriminate|]. intros E. injection E as ->. left. reflexivity. Qed.
Lemma u64_chunk_meta vt v e par c p : encode_u64_chunk vt v e par c = Val p -> p_ctx p = c /\ p_vt p = vt.
Proof. unfold encode_u64_chunk. intros E. vinv. metas. split; congruence. Qed.
Lemma big_chunk_meta v e par c p : encode_big_chunk v e par c = Val p -> p_ctx p = c /\ p_vt p = false.
Proof. unfold encode_big_chunk. intros E. destruct (e_kind e); vinv; [metas; split; congruence|apply u64_chunk_meta in E; exact E]. Qed.
Lemma encode_u64_meta vt v e par pt : encode_u64 vt v e par = Val pt -> encoded par e vt pt.
Proof. unfold encode_u64. intros E. vinv. eapply encode_with_meta; [|exact E0|apply first_pt_in; exact E]. intros; eapply u64_chunk_meta; eassumption. Qed.
Lemma encode_big_meta v e par pt : encode_big v e par = Val pt -> encoded par e false pt.
Proof. unfold encode_big. intros E. vinv. eapply encode_with_meta; [|exact E0|apply first_pt_in; exact E]. intros; eapply big_chunk_meta; eassumption. Qed.
Lemma encode_i64_meta v e par pt : encode_i64 v e par = Val pt -> encoded par e false pt.
Proof. unfold encode_i64. intros E. destruct (pa_small par); vinv; [eapply encode_u64_meta; eassumption|eapply encode_big_meta; eassumption]. Qed.
Lemma encoded_alike par e a b : encoded par e false a -> encoded par e false b -> pt_alike a b.
Proof. intros (A1 & A2 & A3) (B1 & B2 & B3). split; [congruence|]. apply pal_private; congruence. Qed.

Theorem encode_all : forall par e,
  (forall v, silent (t_encode_u64 false v e par) /\ silent (t_encode_big v e par) /\ silent (t_encode_i64 v e par)) /\
  (forall v vt pt, encode_u64 vt v e par = Val pt -> p_vt (pt_poly pt) = vt) /\
  (forall v w a b, encode_u64 false v e par = Val a \/ encode_big v e par = Val a \/ encode_i64 v e par = Val a ->
     encode_u64 false w e par = Val b \/ encode_big w e par = Val b \/ encode_i64 w e par = Val b -> private (pt_poly a) /\ pt_alike a b).
Proof.
  intros par e. split; [intros v; split; [apply s_encode_u64|split; [apply s_encode_big|apply s_encode_i64]]|]. split; [intros v vt pt E; apply (encode_u64_meta vt v e par pt E)|].
  assert (X : forall v a, encode_u64 false v e par = Val a \/ encode_big v e par = Val a \/ encode_i64 v e par = Val a -> encoded par e false a).
  { intros v a [E|[E|E]]; [eapply encode_u64_meta|eapply encode_big_meta|eapply encode_i64_meta]; eassumption. }
  intros v w a b Ha Hb. apply X in Ha, Hb. split; [apply Ha|]. exact (encoded_alike par e a b Ha Hb).
Qed.
Theorem decode_all : forall pt e, private (pt_poly pt) -> silent (t_decode_u64 pt e) /\ silent (t_decode_big pt e) /\ silent (t_decode_i64 pt e).
Proof. intros pt e H. split; [apply s_decode_u64; exact H|]. split; [apply s_decode_big; exact H|apply s_decode_i64; exact H]. Qed.

(** ** Keys and encryption *)
Theorem secret_all : forall sk, (forall ct, silent (t_sk_decrypt sk ct) /\ silent (t_measure_noise sk ct) /\ (forall pt, sk_decrypt sk ct = Val pt -> private (pt_poly pt))) /\
  (forall expand pt sd rng, private (pt_poly pt) -> silent (t_sk_encrypt expand sk pt sd rng)) /\ (forall expand sd rng, silent (t_pk_new expand sk sd rng)).
Proof.
  intros sk. split; [intros ct; split; [apply s_sk_decrypt|split; [apply s_measure_noise|apply decrypt_private]]|]. split; [intros; apply s_sk_encrypt; assumption|intros; apply s_pk_new].
Qed.
Theorem encrypt_all : forall a b, pt_alike a b ->
  (forall expand sk sk' sd sd' rng rng', sk_alike sk sk' -> same_trace (t_sk_encrypt expand sk a sd rng) (t_sk_encrypt expand sk' b sd' rng')) /\
  (forall pk ru r1 r2 ru' r1' r2', same_trace (t_pk_encrypt pk a ru r1 r2) (t_pk_encrypt pk b ru' r1' r2')).
Proof. intros a b H. split; [intros; apply a_encrypt_trace; assumption|intros; apply a_pk_encrypt; assumption]. Qed.
Theorem keys_all : forall isp cands par, oracles isp cands -> is_params isp cands par -> forall expand derive, expands_well expand -> forall sk sk', is_sk par sk -> is_sk par sk' -> forall l1 l2, (l1 <= max_level par)%nat -> (l2 <= l1)%nat ->
  (forall sd sd' rngs rngs', (forall i, words (rngs i)) -> (forall i, words (rngs' i)) ->
    (forall from from' f f', is_poly par l2 from f -> is_poly par l2 from' f' -> poly_alike from from' -> same_trace_if eq (t_ksk_new expand derive sk from l1 l2 sd rngs) (t_ksk_new expand derive sk' from' l1 l2 sd' rngs')) /\
    same_trace_if eq (t_relin_new expand derive sk l1 l2 sd rngs) (t_relin_new expand derive sk' l1 l2 sd' rngs') /\
    (forall e, 0 <= e -> Z.odd e = true -> same_trace_if eq (t_galois_new expand derive sk e l1 l2 sd rngs) (t_galois_new expand derive sk' e l1 l2 sd' rngs'))) /\
  (forall b cols sds sds' rngs rngs', is_ekb par sk l1 l2 b cols -> (forall e i, words (rngs e i)) -> (forall e i, words (rngs' e i)) ->
    same_trace_if eq (t_ek_build expand derive b sds rngs) (t_ek_build expand derive (mkEkb sk' (eb_ct_level b) (eb_level b) (eb_inner_sum b) (eb_row b) (eb_expansion b) (eb_columns b) (eb_rot b)) sds' rngs')) /\
  (forall pt pt' m m' sd0 sd1 sd0' sd1' rngs0 rngs1 rngs0' rngs1', is_pt par l1 pt m -> is_pt par l1 pt' m' -> pt_alike pt pt' ->
    (forall i, words (rngs0 i)) -> (forall i, words (rngs1 i)) -> (forall i, words (rngs0' i)) -> (forall i, words (rngs1' i)) ->
    same_trace_if eq (t_rgsw_encrypt expand derive sk pt sd0 sd1 rngs0 rngs1) (t_rgsw_encrypt expand derive sk' pt' sd0' sd1' rngs0' rngs1')).
Proof.
  intros isp cands par Ho Hp expand derive Hx sk sk' Hs Hs' l1 l2 H1 H2. split; [|split].
  - intros sd sd' rngs rngs' Hr Hr'. split; [|split].
    + intros from from' f f' Hf Hf' Ha. exact (ksk_trace isp cands par Ho Hp expand derive Hx sk sk' l1 l2 from from' f f' sd sd' rngs rngs' Hs Hs' H1 (Nat.le_trans _ _ _ H2 H1) Hf Hf' Ha Hr Hr').
    + exact (relin_trace isp cands par Ho Hp expand derive Hx sk sk' l1 l2 sd sd' rngs rngs' Hs Hs' H1 H2 Hr Hr').
    + intros e He Hodd. exact (galois_trace isp cands par Ho Hp expand derive Hx sk sk' l1 l2 e sd sd' rngs rngs' Hs Hs' H1 H2 He Hodd Hr Hr').
  - intros b cols sds sds' rngs rngs' Hb Hr Hr'. exact (ek_trace isp cands par Ho Hp expand derive Hx sk sk' l1 l2 b cols sds sds' rngs rngs' Hs Hs' H1 H2 Hb Hr Hr').
  - intros. eapply (rgsw_trace isp cands par Ho Hp expand derive Hx sk sk' l1); eassumption.
Qed.

(** The trace can be computed from the key. *)
Theorem simulator_all : forall isp cands par, oracles isp cands -> is_params isp cands par -> forall expand derive, expands_well expand -> forall sk, is_sk par sk -> forall l1 l2, (l1 <= max_level par)%nat -> (l2 <= l1)%nat ->
  forall rngs, (forall i, words (rngs i)) ->
  (forall from f sd k, is_poly par l2 from f -> private from -> ksk_new expand derive sk from l1 l2 sd rngs = Val k -> key_events k (fst (t_ksk_new expand derive sk from l1 l2 sd rngs))) /\
  (forall sd k, relin_new expand derive sk l1 l2 sd rngs = Val k -> key_events k (fst (t_relin_new expand derive sk l1 l2 sd rngs))) /\
  (forall e sd g, 0 <= e -> Z.odd e = true -> galois_new expand derive sk e l1 l2 sd rngs = Val g -> key_events (g_ksk g) (fst (t_galois_new expand derive sk e l1 l2 sd rngs))) /\
  (forall pt m sd0 sd1 rngs1 r, is_pt par l1 pt m -> private (pt_poly pt) -> (forall i, words (rngs1 i)) -> rgsw_encrypt expand derive sk pt sd0 sd1 rngs rngs1 = Val r ->
    exists t0 t1, key_events (r_ksk0 r) t0 /\ key_events (r_ksk1 r) t1 /\ fst (t_rgsw_encrypt expand derive sk pt sd0 sd1 rngs rngs1) = t0 ++ t1).
Proof.
  intros isp cands par Ho Hp expand derive Hx sk Hs l1 l2 H1 H2 rngs Hr. split; [|split; [|split]].
  - intros from f sd k Hf Ha E. rewrite <- e_ksk_new in E. exact (ksk_sim isp cands par Ho Hp expand derive Hx sk l1 l2 from f sd rngs k Hs H1 (Nat.le_trans _ _ _ H2 H1) Hf Ha Hr E).
  - intros sd k E. rewrite <- e_relin_new in E. exact (relin_sim isp cands par Ho Hp expand derive Hx sk l1 l2 sd rngs k Hs H1 H2 Hr E).
  - intros e sd g He Hodd E. rewrite <- e_galois_new in E. exact (galois_sim isp cands par Ho Hp expand derive Hx sk l1 l2 e sd rngs g Hs H1 H2 He Hodd Hr E).
  - intros pt m sd0 sd1 rngs1 r Hpt Ha Hr1 E. rewrite <- e_rgsw_encrypt in E. exact (rgsw_sim isp cands par Ho Hp expand derive Hx sk l1 pt m sd0 sd1 rngs rngs1 r Hs H1 Hpt Ha Hr Hr1 E).
Qed.

(** ** Operations *)
Theorem operations_all : forall a b, ct_alike a b ->
  (forall a' b', ct_alike a' b' -> runs_alike ct_alike (t_ct_add a a') (t_ct_add b b') /\ runs_alike ct_alike (t_ct_sub a a') (t_ct_sub b b') /\
     (ct_eqb a' a = ct_eqb b' b -> runs_alike ct_alike (t_ct_mul a a') (t_ct_mul b b'))) /\
  runs_alike ct_alike (t_ct_neg a) (t_ct_neg b) /\
  (forall m m', pt_alike m m' -> runs_alike ct_alike (t_ct_add_pt a m) (t_ct_add_pt b m') /\ runs_alike ct_alike (t_ct_sub_pt a m) (t_ct_sub_pt b m') /\
     runs_alike ct_alike (t_pt_sub_ct m a) (t_pt_sub_ct m' b) /\ runs_alike ct_alike (t_ct_mul_pt a m) (t_ct_mul_pt b m')) /\
  runs_alike ct_alike (t_ct_switch_down a) (t_ct_switch_down b) /\ (forall l, runs_alike ct_alike (t_ct_switch_to_level a l) (t_ct_switch_to_level b l)).
Proof.
  intros a b H. split; [intros a' b' H'; split; [apply a_ct_add; assumption|split; [apply a_ct_sub; assumption|apply a_ct_mul; assumption]]|]. split; [apply a_ct_neg; exact H|].
  split; [|split; [apply a_ct_switch_down; exact H|intros; apply a_ct_switch_to_level; exact H]].
  intros m m' Hm. split; [apply a_ct_add_pt; assumption|]. split; [apply a_ct_sub_pt; assumption|]. split; [apply a_pt_sub_ct; assumption|apply a_ct_mul_pt; assumption].
Qed.
Theorem dot_product_all : forall cts cts' pts pts', Forall2 ct_alike cts cts' -> Forall2 pt_alike pts pts' -> runs_alike ct_alike (t_dot_product_scalar cts pts) (t_dot_product_scalar cts' pts').
Proof. exact a_dot_product_scalar. Qed.
Theorem switching_all : forall a b, ct_alike a b -> (forall k, part_public 2 a -> runs_alike ct_alike (t_relinearizes k a) (t_relinearizes k b)) /\ (forall g, part_public 1 a -> runs_alike ct_alike (t_galois_apply g a) (t_galois_apply g b)).
Proof. intros a b H. split; intros; [apply a_relinearizes|apply a_galois_apply]; assumption. Qed.
Theorem switch_flags_all : forall k p r, key_switch k p = Val r -> p_vt (fst r) = p_vt p && forallb p_vt (k_c0 k) && forallb p_vt (k_c1 k) /\ p_vt (snd r) = p_vt (fst r).
Proof. intros k p r E. destruct (key_switch_flags k p r E) as (E1 & E2). split; [exact E1|congruence]. Qed.
(** What key switching sees, whatever the flag. *)
Lemma loop_exposes c : forall rows k0 k1 a0 a1 r, snd (t_ks_loop c rows k0 k1 a0 a1) = Val r ->
  forall i row, nth_error rows i = Some row -> (i < length k0)%nat -> (i < length k1)%nat -> In (Vt VtLazyForward [[row]]) (fst (t_ks_loop c rows k0 k1 a0 a1)).
Proof.
  induction rows as [|r0 rows IH]; intros k0 k1 a0 a1 r E i row Hi H0 H1; [destruct i; discriminate|]. destruct k0 as [|x0 k0]; [inversion H0|]. destruct k1 as [|x1 k1]; [inversion H1|]. cbn [t_ks_loop] in *.
  do 5 (apply snd_bindT_val in E; let v := fresh "v" in let Ev := fresh "Ev" in destruct E as (v & Ev & E); rewrite (fst_bindT_val _ _ _ Ev)). rewrite !in_app_iff.
  destruct i as [|i]; [injection Hi as ->; left; left; reflexivity|]. cbn [nth_error length] in *. do 5 right. eapply IH; [exact E|exact Hi|apply Nat.succ_lt_mono; exact H0|apply Nat.succ_lt_mono; exact H1].
Qed.
Theorem switch_exposes_all : forall k p r, k_log_base k = 0 -> key_switch k p = Val r ->
  forall i row, nth_error (p_coeffs p) i = Some row -> (i < length (k_c0 k))%nat -> (i < length (k_c1 k))%nat -> In (Vt VtLazyForward [[row]]) (fst (t_key_switch k p)).
Proof.
  intros k p r Hb E i row Hi H0 H1. rewrite <- e_key_switch in E. unfold t_key_switch in *. rewrite Hb in *. cbn [Z.eqb negb] in *. destruct (negb _); [discriminate|]. cbv zeta in *. eapply loop_exposes; eassumption.
Qed.

(** ** Multiparty protocols *)
Theorem multiparty_all : forall sk sk', sk_alike sk sk' ->
  (forall crp rng rng', same_trace (t_pk_share_new sk crp rng) (t_pk_share_new sk' crp rng')) /\
  (forall crp rng, silent (t_gen_new sk crp rng)) /\
  (forall crp u u' r0 r1 r0' r1', private u -> private u' -> p_ctx u = p_ctx u' -> same_trace (t_gen_round1 (mkGen sk crp u) r0 r1) (t_gen_round1 (mkGen sk' crp u') r0' r1')) /\
  (forall crp u s r0 r1, silent (t_gen_round2 (mkGen sk crp u) s r0 r1)) /\
  (forall ct rng, silent (t_sks_new sk sk' ct rng) /\ silent (t_dec_share_new sk ct rng)) /\
  (forall pk a b ru r0 r1 ru' r0' r1', ct_alike a b -> same_trace (t_pksw_new sk pk a ru r0 r1) (t_pksw_new sk' pk b ru' r0' r1')).
Proof.
  intros sk sk' Hs. split; [intros; apply a_pk_share; exact Hs|]. split; [intros; apply s_gen_new|]. split; [intros; apply a_gen_round1; (assumption || reflexivity)|]. split; [intros; apply s_gen_round2|].
  split; [intros; split; [apply s_sks_new|apply s_dec_share_new]|]. intros; apply a_pksw; assumption.
Qed.
Theorem shares_all : forall l l', Forall2 share_alike l l' -> runs_alike ct_alike (t_sks_from_shares l) (t_sks_from_shares l') /\ runs_alike pt_alike (t_dec_from_shares l) (t_dec_from_shares l').
Proof. intros l l' H. split; [apply a_sks_from_shares|apply a_dec_from_shares]; exact H. Qed.
(** The secret of a share generator. *)
Theorem gen_u_all : forall sk crp rng g, gen_new sk crp rng = Val g -> gen_sk g = sk /\ gen_crp g = crp /\ private (gen_u g) /\ par_context (sk_par sk) 0 = Val (p_ctx (gen_u g)).
Proof. intros sk crp rng g E. unfold gen_new in E. cbv zeta in E. vinv. injection E as <-. metas. split; [reflexivity|]. split; [reflexivity|]. cbn [gen_u]. split; [assumption|congruence]. Qed.

(** ** What is observed *)
Lemma note_observes {A} b l o data (m : M A) : b = forallb (fun x => x) l -> observes l o data (note b o data m).
Proof.
  intros ->. split; intros H; unfold note; cbn [fst].
  - replace (forallb (fun x => x) l) with true; [reflexivity|]. symmetry. apply forallb_forall. rewrite Forall_forall in H. exact H.
  - replace (forallb (fun x => x) l) with false; [reflexivity|]. symmetry. destruct (forallb (fun x => x) l) eqn:E; [|reflexivity]. rewrite forallb_forall in E. discriminate (E false H).
Qed.
Theorem observed_all :
  (forall p, observes [p_vt p] VtForward [p_coeffs p] (t_pb_into_ntt p) /\ observes [p_vt p] VtForward [p_coeffs p] (t_pb_into_ntt_shoup p)) /\
  (forall p, observes [p_vt p] VtBackward [p_coeffs p] (t_ntt_into_pb p)) /\
  (forall c v vt, observes [vt] VtReduce [[v]] (t_pb_from_u64 c v vt) /\ observes [vt] VtReduceI64 [[v]] (t_pb_from_i64 c v vt)) /\
  (forall p, observes [p_vt p] VtSwitchDown [p_coeffs p] (t_switch_down p)) /\
  (forall c v, fst (t_ntt_lazy_constant c v) = [Vt VtLazyForward [[v]]]) /\
  (forall R (a b : poly R), observes [p_vt a; p_vt b] VtAdd [p_coeffs a; p_coeffs b] (t_add a b) /\ observes [p_vt a; p_vt b] VtSub [p_coeffs a; p_coeffs b] (t_sub a b)) /\
  (forall a b, observes [p_vt a; p_vt b] VtMul [p_coeffs a; p_coeffs b] (t_mul a b)) /\
  (forall a b, observes [p_vt a; p_vt b] VtMulShoup [p_coeffs a; p_coeffs b] (t_mul_shoup a b)) /\
  (forall R (a : poly R), (forall k, observes [p_vt a] VtScalarMul [p_coeffs a; [[k]]] (t_scalar_mul a k)) /\ observes [p_vt a] VtNeg [p_coeffs a] (t_neg a)) /\
  (forall ps qs, observes (map (fun pq => p_vt (fst pq) && p_vt (snd pq)) (combine ps qs)) VtReduceU128 (map p_coeffs ps ++ map p_coeffs qs) (t_dot_product ps qs)) /\
  (forall s, (forall p : poly PowerBasis, fst (t_scale s p) = []) /\ (forall p : poly Ntt, observes [p_vt p] VtBackward [p_coeffs p] (t_scale s p))).
Proof.
  assert (U : forall b, b = forallb (fun x : bool => x) [b]) by (intros []; reflexivity). assert (V : forall a b, a && b = forallb (fun x : bool => x) [a; b]) by (intros [] []; reflexivity).
  split; [intros p; split; apply note_observes, U|]. split; [intros p; apply note_observes, U|]. split; [intros c v vt; split; apply note_observes, U|]. split; [intros p; apply note_observes, U|].
  split; [intros c v; reflexivity|]. split; [intros R a b; split; apply note_observes, V|]. split; [intros a b; apply note_observes, V|]. split; [intros a b; apply note_observes, V|].
  split; [intros R a; split; [intros k|]; apply note_observes, U|]. split; [|intros s; split; [intros p; reflexivity|intros p; apply note_observes, U]].
  intros ps qs. apply note_observes. induction (combine ps qs) as [|x l IH]; [reflexivity|]. cbn [map forallb]. rewrite IH. reflexivity.
Qed.
(** Nothing that was executed is forgotten: a run that goes on executes what came before, and so does one that stops. *)
Theorem sequence_all : forall A B (x : T A) (f : A -> T B),
  (forall a, snd x = Val a -> fst (bindT x f) = fst x ++ fst (f a)) /\ ((forall a, snd x <> Val a) -> fst (bindT x f) = fst x) /\ fst (no_errT x) = fst x.
Proof.
  intros A B x f. split; [|split; [|reflexivity]].
  - intros a E. unfold bindT. rewrite E. reflexivity.
  - intros H. unfold bindT. destruct (snd x) as [a| |]; [exfalso; exact (H a eq_refl)|reflexivity|reflexivity].
Qed.
