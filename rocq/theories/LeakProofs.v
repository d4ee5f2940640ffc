(** Proofs about the traces of LeakModel.v. *)
From Verif Require Import Outcome ZqModel NttModel TranscodeModel CbdModel RnsModel RqModel ParamsModel PlainModel CipherModel OpsModel KeysModel MbfvModel LeakModel LeakSpec LeakErase.

(** ** Silent runs *)
Lemma silent_quiet {A} (m : M A) : silent (quiet m). Proof. reflexivity. Qed.
Lemma silent_note {A} b o d (m : M A) : b = false -> silent (note b o d m). Proof. intros ->. reflexivity. Qed.
Lemma silent_bind {A B} (x : T A) (f : A -> T B) : silent x -> (forall a, snd x = Val a -> silent (f a)) -> silent (bindT x f).
Proof. unfold silent, bindT. intros H Hf. destruct (snd x) eqn:E; cbn [fst]; rewrite ?H; auto. rewrite (Hf a eq_refl). reflexivity. Qed.
Lemma silent_mapT {A B} (f : A -> T B) l : (forall a, In a l -> silent (f a)) -> silent (mapT f l).
Proof.
  induction l as [|a l IH]; intros H; cbn [mapT]; [reflexivity|].
  apply silent_bind; [apply H; left; reflexivity|intros b _].
  apply silent_bind; [apply IH; intros; apply H; right; assumption|reflexivity].
Qed.
Lemma silent_no_errT {A} (x : T A) : silent x -> silent (no_errT x).
Proof. auto. Qed.
(** A fold keeps an invariant. *)
Lemma silent_foldT {A S} (P : S -> Prop) (f : S -> A -> T S) l s :
  P s -> (forall s a, In a l -> P s -> silent (f s a) /\ forall s', snd (f s a) = Val s' -> P s') -> silent (foldT f l s).
Proof.
  revert s. induction l as [|a l IH]; intros s Hs H; cbn [foldT]; [reflexivity|].
  destruct (H s a (or_introl eq_refl) Hs) as (H1 & H2).
  apply silent_bind; [exact H1|]. intros s' E. apply IH; [exact (H2 s' E)|]. intros; apply H; [right|]; assumption.
Qed.
Lemma silent_iterT {A} (P : A -> Prop) n (f : A -> T A) a :
  P a -> (forall a, P a -> silent (f a) /\ forall b, snd (f a) = Val b -> P b) -> silent (iterT n f a).
Proof.
  revert a. induction n as [|n IH]; intros a Ha H; cbn [iterT]; [reflexivity|].
  destruct (H a Ha) as (H1 & H2). apply silent_bind; [exact H1|]. intros b E. apply IH; [exact (H2 b E)|exact H].
Qed.

Lemma snd_bindT_val {A B} (x : T A) (f : A -> T B) b : snd (bindT x f) = Val b -> exists a, snd x = Val a /\ snd (f a) = Val b.
Proof. destruct x as (l & [a|e|]); cbn; try discriminate. intros H. exists a. auto. Qed.
Lemma bind_val {A B} (x : M A) (f : A -> M B) b : bind x f = Val b -> exists a, x = Val a /\ f a = Val b.
Proof. destruct x as [a|e|]; cbn; try discriminate. intros H. exists a. auto. Qed.
Lemma no_err_val {A} (m : M A) a : no_err m = Val a -> m = Val a.
Proof. destruct m; cbn; congruence. Qed.
Ltac vinv :=
  repeat match goal with
  | H : bind _ _ = Val _ |- _ => let a := fresh "v" in let E := fresh "E" in apply bind_val in H; destruct H as (a & E & H); cbv beta zeta in H
  | H : snd (bindT _ _) = Val _ |- _ => let a := fresh "v" in let E := fresh "E" in apply snd_bindT_val in H; destruct H as (a & E & H); cbv beta zeta in H
  | H : (if ?b then Panic else _) = Val _ |- _ => destruct b; [discriminate|]
  | H : (if ?b then Err _ else _) = Val _ |- _ => destruct b; [discriminate|]
  | H : (if ?b then _ else Err _) = Val _ |- _ => destruct b; [|discriminate]
  | H : (let '(a, b) := ?x in _) = Val _ |- _ => destruct x
  end.

(** ** Contexts and flags of the results *)
Lemma from_parts_meta {R'} R (p : poly R') q : from_parts R p = Val q -> p_ctx q = p_ctx p /\ p_vt q = p_vt p.
Proof. unfold from_parts. intros H. vinv. injection H as <-. auto. Qed.
Lemma pb_into_ntt_meta p q : pb_into_ntt p = Val q -> p_ctx q = p_ctx p /\ p_vt q = p_vt p.
Proof. unfold pb_into_ntt. intros H. vinv. apply from_parts_meta in H. exact H. Qed.
Lemma pb_into_ntt_shoup_meta p q : pb_into_ntt_shoup p = Val q -> p_ctx q = p_ctx p /\ p_vt q = p_vt p.
Proof. unfold pb_into_ntt_shoup. intros H. vinv. apply from_parts_meta in H. exact H. Qed.
Lemma ntt_into_pb_meta p q : ntt_into_pb p = Val q -> p_ctx q = p_ctx p /\ p_vt q = p_vt p.
Proof. unfold ntt_into_pb. intros H. vinv. apply from_parts_meta in H. exact H. Qed.
Lemma shoup_into_ntt_meta p q : shoup_into_ntt p = Val q -> p_ctx q = p_ctx p /\ p_vt q = p_vt p.
Proof. unfold shoup_into_ntt. intros H. apply from_parts_meta in H. exact H. Qed.
Lemma pb_into_meta R p q : pb_into R p = Val q -> p_ctx q = p_ctx p /\ p_vt q = p_vt p.
Proof. destruct R; [apply from_parts_meta|apply pb_into_ntt_meta|apply pb_into_ntt_shoup_meta]. Qed.
Lemma pb_from_u64_meta c v b q : pb_from_u64 c v b = Val q -> p_ctx q = c /\ p_vt q = b.
Proof.
  unfold pb_from_u64. destruct (Nat.eqb _ _); [intros H; injection H as <-; auto|]. intros H. vinv. injection H as <-. auto.
Qed.
Lemma pb_from_i64_meta c v b q : pb_from_i64 c v b = Val q -> p_ctx q = c /\ p_vt q = b.
Proof. unfold pb_from_i64. intros H. vinv. injection H as <-. auto. Qed.
Lemma pb_from_big_meta c v b q : pb_from_big c v b = Val q -> p_ctx q = c /\ p_vt q = b.
Proof. unfold pb_from_big. intros H. vinv. injection H as <-. auto. Qed.
Lemma poly_small_meta R c v r q : poly_small R c v r = Val q -> p_ctx q = c /\ p_vt q = false.
Proof.
  unfold poly_small. intros H. vinv. apply from_parts_meta in H. apply pb_into_meta in E1. apply pb_from_i64_meta in E0.
  destruct H as (-> & ->), E1 as (-> & ->). exact E0.
Qed.
Lemma switch_down_meta p q : switch_down p = Val q -> c_next (p_ctx p) = Some (p_ctx q) /\ p_vt q = p_vt p.
Proof. unfold switch_down. destruct (c_next (p_ctx p)) as [n|]; [|discriminate]. intros H. vinv. injection H as <-. auto. Qed.
Lemma lazy_meta c v q : ntt_lazy_constant c v = Val q -> p_ctx q = c /\ p_vt q = true.
Proof. unfold ntt_lazy_constant. intros H. vinv. injection H as <-. auto. Qed.
Lemma op2_meta {R} f g (a b : poly R) q : poly_op2 f g a b = Val q -> p_ctx q = p_ctx a /\ p_vt q = p_vt a && p_vt b.
Proof. unfold poly_op2. intros H. vinv. injection H as <-. auto. Qed.
Lemma mul_shoup_meta a b q : poly_mul_shoup a b = Val q -> p_ctx q = p_ctx a /\ p_vt q = p_vt a && p_vt b.
Proof. unfold poly_mul_shoup. intros H. vinv. injection H as <-. auto. Qed.
Lemma scalar_mul_meta {R} (a : poly R) k q : poly_scalar_mul a k = Val q -> p_ctx q = p_ctx a /\ p_vt q = p_vt a.
Proof. unfold poly_scalar_mul. intros H. vinv. injection H as <-. auto. Qed.
Lemma neg_meta {R} (a : poly R) q : poly_neg a = Val q -> p_ctx q = p_ctx a /\ p_vt q = p_vt a.
Proof. unfold poly_neg. intros H. vinv. injection H as <-. auto. Qed.
Lemma scale_meta {R} s (p : poly R) q : poly_scale s p = Val q -> p_ctx q = ps_to s /\ p_vt q = p_vt p.
Proof. unfold poly_scale. intros H. vinv. injection H as <-. auto. Qed.
Lemma substitute_meta {R} (p : poly R) i q : substitute p i = Val q -> p_ctx q = p_ctx p /\ p_vt q = p_vt p.
Proof. unfold substitute. destruct R; intros H; vinv; injection H as <-; auto. Qed.
Lemma from_seed_meta x R c sd q : poly_from_seed x R c sd = Val q -> p_ctx q = c /\ p_vt q = false.
Proof. unfold poly_from_seed, poly_random. intros H. vinv. injection H as <-. auto. Qed.
Lemma sk_poly_meta sk c q : sk_poly sk c = Val q -> p_ctx q = c /\ p_vt q = false.
Proof.
  unfold sk_poly. intros H. vinv. apply pb_into_ntt_meta in H. apply pb_from_i64_meta in E.
  destruct H as (-> & ->). exact E.
Qed.

Ltac metas :=
  repeat match goal with
  | H : from_parts _ _ = Val _ |- _ => apply from_parts_meta in H; destruct H as (? & ?)
  | H : pb_into_ntt _ = Val _ |- _ => apply pb_into_ntt_meta in H; destruct H as (? & ?)
  | H : pb_into_ntt_shoup _ = Val _ |- _ => apply pb_into_ntt_shoup_meta in H; destruct H as (? & ?)
  | H : ntt_into_pb _ = Val _ |- _ => apply ntt_into_pb_meta in H; destruct H as (? & ?)
  | H : shoup_into_ntt _ = Val _ |- _ => apply shoup_into_ntt_meta in H; destruct H as (? & ?)
  | H : pb_into _ _ = Val _ |- _ => apply pb_into_meta in H; destruct H as (? & ?)
  | H : pb_from_u64 _ _ _ = Val _ |- _ => apply pb_from_u64_meta in H; destruct H as (? & ?)
  | H : pb_from_i64 _ _ _ = Val _ |- _ => apply pb_from_i64_meta in H; destruct H as (? & ?)
  | H : pb_from_big _ _ _ = Val _ |- _ => apply pb_from_big_meta in H; destruct H as (? & ?)
  | H : poly_small _ _ _ _ = Val _ |- _ => apply poly_small_meta in H; destruct H as (? & ?)
  | H : switch_down _ = Val _ |- _ => apply switch_down_meta in H; destruct H as (? & ?)
  | H : ntt_lazy_constant _ _ = Val _ |- _ => apply lazy_meta in H; destruct H as (? & ?)
  | H : poly_add _ _ = Val _ |- _ => apply op2_meta in H; destruct H as (? & ?)
  | H : poly_sub _ _ = Val _ |- _ => apply op2_meta in H; destruct H as (? & ?)
  | H : poly_mul _ _ = Val _ |- _ => apply op2_meta in H; destruct H as (? & ?)
  | H : poly_mul_shoup _ _ = Val _ |- _ => apply mul_shoup_meta in H; destruct H as (? & ?)
  | H : poly_scalar_mul _ _ = Val _ |- _ => apply scalar_mul_meta in H; destruct H as (? & ?)
  | H : poly_neg _ = Val _ |- _ => apply neg_meta in H; destruct H as (? & ?)
  | H : poly_scale _ _ = Val _ |- _ => apply scale_meta in H; destruct H as (? & ?)
  | H : substitute _ _ = Val _ |- _ => apply substitute_meta in H; destruct H as (? & ?)
  | H : poly_from_seed _ _ _ _ = Val _ |- _ => apply from_seed_meta in H; destruct H as (? & ?)
  | H : sk_poly _ _ = Val _ |- _ => apply sk_poly_meta in H; destruct H as (? & ?)
  end.
(** The values of the primitive instrumented operations. *)
Ltac erases :=
  repeat match goal with
  | H : snd (quiet _) = Val _ |- _ => cbn [snd quiet] in H
  | H : snd (note _ _ _ _) = Val _ |- _ => cbn [snd note] in H
  | H : snd (t_pb_into_ntt _) = Val _ |- _ => rewrite e_pb_into_ntt in H
  | H : snd (t_pb_into_ntt_shoup _) = Val _ |- _ => rewrite e_pb_into_ntt_shoup in H
  | H : snd (t_ntt_into_pb _) = Val _ |- _ => rewrite e_ntt_into_pb in H
  | H : snd (t_pb_into _ _) = Val _ |- _ => rewrite e_pb_into in H
  | H : snd (t_pb_from_u64 _ _ _) = Val _ |- _ => rewrite e_pb_from_u64 in H
  | H : snd (t_pb_from_i64 _ _ _) = Val _ |- _ => rewrite e_pb_from_i64 in H
  | H : snd (t_poly_small _ _ _ _) = Val _ |- _ => rewrite e_poly_small in H
  | H : snd (t_switch_down _) = Val _ |- _ => rewrite e_switch_down in H
  | H : snd (t_ntt_lazy_constant _ _) = Val _ |- _ => rewrite e_lazy in H
  | H : snd (t_add _ _) = Val _ |- _ => rewrite e_add in H
  | H : snd (t_sub _ _) = Val _ |- _ => rewrite e_sub in H
  | H : snd (t_mul _ _) = Val _ |- _ => rewrite e_mul in H
  | H : snd (t_mul_shoup _ _) = Val _ |- _ => rewrite e_mul_shoup in H
  | H : snd (t_scalar_mul _ _) = Val _ |- _ => rewrite e_scalar_mul in H
  | H : snd (t_neg _) = Val _ |- _ => rewrite e_neg in H
  | H : snd (t_scale _ _) = Val _ |- _ => rewrite e_scale in H
  | H : snd (t_sk_poly _ _) = Val _ |- _ => rewrite e_sk_poly in H
  end.
Ltac hyps :=
  repeat (progress (erases; vinv; try match goal with H : snd (match ?x with _ => _ end) = Val _ |- _ => destruct x end)); metas.
(** Compute a flag. *)
Ltac flag :=
  repeat first
  [ progress cbn [p_vt disallow_vt allow_vt andb]
  | match goal with H : p_vt ?x = _ |- context [p_vt ?x] => rewrite H end
  | rewrite Bool.andb_false_r ]; try reflexivity.

(** [sil]: walk through a run whose flags are all off. *)
Create HintDb silent discriminated.
Ltac sil1 :=
  match goal with
  | |- silent (bindT _ _) => apply silent_bind; [|intros ? ?; hyps]
  | |- silent (quiet _) => reflexivity
  | |- silent (note false _ _ _) => reflexivity
  | |- silent (mapT _ _) => apply silent_mapT; intros
  | |- silent (no_errT _) => apply silent_no_errT
  | |- silent (if ?b then _ else _) => destruct b
  | |- silent (match ?x with _ => _ end) => destruct x
  | |- silent (t_pb_into_ntt _) => apply silent_note; solve [flag]
  | |- silent (t_pb_into_ntt_shoup _) => apply silent_note; solve [flag]
  | |- silent (t_ntt_into_pb _) => apply silent_note; solve [flag]
  | |- silent (t_pb_from_u64 _ _ false) => reflexivity
  | |- silent (t_pb_from_i64 _ _ false) => reflexivity
  | |- silent (t_switch_down _) => apply silent_note; solve [flag]
  | |- silent (t_add _ _) => apply silent_note; solve [flag]
  | |- silent (t_sub _ _) => apply silent_note; solve [flag]
  | |- silent (t_mul _ _) => apply silent_note; solve [flag]
  | |- silent (t_mul_shoup _ _) => apply silent_note; solve [flag]
  | |- silent (t_scalar_mul _ _) => apply silent_note; solve [flag]
  | |- silent (t_neg _) => apply silent_note; solve [flag]
  | |- silent (t_scale _ _) => apply silent_note; solve [flag]
  | |- _ => solve [auto with silent]
  end.
Ltac sil := cbv zeta; repeat (sil1; cbv beta zeta).

Lemma s_pb_into R p : p_vt p = false -> silent (t_pb_into R p).
Proof. intros H. unfold t_pb_into. destruct R; sil. Qed.
#[export] Hint Resolve s_pb_into : silent.
Lemma s_poly_small R c v r : silent (t_poly_small R c v r).
Proof. unfold t_poly_small. sil. Qed.
Lemma s_sk_poly sk c : silent (t_sk_poly sk c).
Proof. unfold t_sk_poly. sil. Qed.
#[export] Hint Resolve s_poly_small s_sk_poly : silent.

(** *** Plaintexts *)
Lemma s_coefficients pt : private (pt_poly pt) -> silent (t_coefficients pt).
Proof. unfold private. intros H. unfold t_coefficients. sil. Qed.
#[export] Hint Resolve s_coefficients : silent.
Lemma s_to_poly pt : private (pt_poly pt) -> silent (t_to_poly pt).
Proof.
  unfold private. intros H. unfold t_to_poly. sil.
Qed.
#[export] Hint Resolve s_to_poly : silent.
Lemma s_encode_u64_chunk v e par c : silent (t_encode_u64_chunk false v e par c).
Proof. unfold t_encode_u64_chunk. sil. Qed.
Lemma s_encode_big_chunk v e par c : silent (t_encode_big_chunk v e par c).
Proof. unfold t_encode_big_chunk. sil. apply s_encode_u64_chunk. Qed.
Lemma s_encode_with f v e par : (forall v e par c, silent (f v e par c)) -> silent (t_encode_with f v e par).
Proof. intros H. unfold t_encode_with. sil; apply H. Qed.
Lemma s_encode_u64 v e par : silent (t_encode_u64 false v e par).
Proof. unfold t_encode_u64. sil. apply s_encode_with. intros. apply s_encode_u64_chunk. Qed.
Lemma s_encode_big v e par : silent (t_encode_big v e par).
Proof. unfold t_encode_big. sil. apply s_encode_with. intros. apply s_encode_big_chunk. Qed.
#[export] Hint Resolve s_encode_u64 s_encode_big : silent.
Lemma s_encode_i64 v e par : silent (t_encode_i64 v e par).
Proof. unfold t_encode_i64. sil. Qed.
Lemma s_decode_u64 pt e : private (pt_poly pt) -> silent (t_decode_u64 pt e).
Proof. intros H. unfold t_decode_u64. sil. Qed.
Lemma s_decode_big pt e : private (pt_poly pt) -> silent (t_decode_big pt e).
Proof. intros H. unfold t_decode_big. sil. Qed.
#[export] Hint Resolve s_decode_u64 s_decode_big : silent.
Lemma s_decode_i64 pt e : private (pt_poly pt) -> silent (t_decode_i64 pt e).
Proof. intros H. unfold t_decode_i64. sil. Qed.

(** *** Secret keys *)
Lemma s_phase_loop s rest si c : p_vt s = false -> p_vt si = false -> p_vt c = false -> silent (t_phase_loop s rest si c).
Proof.
  intros Hs. revert si c. induction rest as [|ci rest IH]; intros si c Hsi Hc; cbn [t_phase_loop]; [reflexivity|].
  apply silent_bind; [sil|intros cis E1]. apply silent_bind; [hyps; sil|intros c' E2]. apply silent_bind; [destruct rest; sil|intros si' E3].
  apply IH; [|hyps; flag]. destruct rest; hyps; [congruence|flag].
Qed.
Lemma s_phase_loop_all s rest si c : p_vt s = false -> p_vt si = false -> p_vt c = false -> silent (t_phase_loop_all s rest si c).
Proof.
  intros Hs. revert si c. induction rest as [|ci rest IH]; intros si c Hsi Hc; cbn [t_phase_loop_all]; [reflexivity|].
  sil. apply IH; flag.
Qed.
Lemma phase_loop_vt s rest si c r : p_vt c = false -> phase_loop s rest si c = Val r -> p_vt r = false.
Proof.
  revert si c. induction rest as [|ci rest IH]; intros si c Hc; cbn [phase_loop]; [congruence|]. intros H. vinv.
  apply IH in H; [exact H|]. metas. flag.
Qed.
Lemma phase_loop_all_vt s rest si c r : p_vt c = false -> phase_loop_all s rest si c = Val r -> p_vt r = false.
Proof.
  revert si c. induction rest as [|ci rest IH]; intros si c Hc; cbn [phase_loop_all]; [congruence|]. intros H. vinv.
  apply IH in H; [exact H|]. metas. flag.
Qed.
Lemma decrypt_private sk ct pt : sk_decrypt sk ct = Val pt -> private (pt_poly pt).
Proof.
  unfold sk_decrypt, private. cbv zeta. intros H. vinv. injection H as <-. cbn [pt_poly]. metas.
  destruct (pa_small (sk_par sk)); vinv; metas; flag.
Qed.
Lemma s_sk_decrypt sk ct : silent (t_sk_decrypt sk ct).
Proof.
  unfold t_sk_decrypt. cbv zeta. do 3 (apply silent_bind; [sil|intros ? ?]).
  apply silent_bind; [hyps; apply s_phase_loop; auto|]. intros c Hc. rewrite e_phase_loop in Hc. apply phase_loop_vt in Hc; [|reflexivity].
  sil.
Qed.
#[export] Hint Resolve s_sk_decrypt : silent.
Lemma to_poly_meta pt p : to_poly pt = Val p -> p_vt p = false.
Proof.
  unfold to_poly. cbv zeta. intros H. vinv. metas. destruct v1; vinv; metas; flag.
Qed.
Lemma s_measure_noise sk ct : silent (t_measure_noise sk ct).
Proof.
  unfold t_measure_noise. apply silent_bind; [sil|intros pt Ept]. rewrite e_sk_decrypt in Ept. apply decrypt_private in Ept.
  apply silent_bind; [sil|intros m Em]. rewrite e_to_poly in Em. apply to_poly_meta in Em. do 2 (apply silent_bind; [sil|intros ? ?]).
  apply silent_bind; [hyps; apply s_phase_loop_all; auto|]. intros c Hc. rewrite e_phase_loop_all in Hc. apply phase_loop_all_vt in Hc; [|reflexivity].
  sil.
Qed.
Lemma s_encrypt_poly x sk p sd r : silent (t_encrypt_poly x sk p sd r).
Proof. unfold t_encrypt_poly. sil. Qed.
#[export] Hint Resolve s_encrypt_poly : silent.
Lemma s_sk_encrypt x sk pt sd r : private (pt_poly pt) -> silent (t_sk_encrypt x sk pt sd r).
Proof. intros H. unfold t_sk_encrypt. sil. Qed.
Lemma pt_zero_private e par pt : pt_zero e par = Val pt -> private (pt_poly pt).
Proof. unfold pt_zero. intros H. vinv. injection H as <-. reflexivity. Qed.
Lemma s_pk_new x sk sd r : silent (t_pk_new x sk sd r).
Proof.
  unfold t_pk_new. apply silent_bind; [sil|intros z Ez]. cbn [snd quiet] in Ez. apply no_err_val, pt_zero_private in Ez.
  sil. apply s_sk_encrypt. exact Ez.
Qed.

(** *** Multiparty protocols: the shares *)
Lemma s_pk_share_new sk crp r : private crp -> silent (t_pk_share_new sk crp r).
Proof. unfold private. intros H. unfold t_pk_share_new. sil. Qed.
Lemma s_gen_new sk crp r : silent (t_gen_new sk crp r).
Proof. unfold t_gen_new. sil. Qed.
Lemma s_r1_h1 sk crp r : silent (t_r1_h1 sk crp r).
Proof. unfold t_r1_h1. sil. Qed.
Lemma s_r2_h0 sk h r : silent (t_r2_h0 sk h r).
Proof. unfold t_r2_h0. sil. Qed.
Lemma s_r2_h1 sk u h r : silent (t_r2_h1 sk u h r).
Proof. unfold t_r2_h1. sil. Qed.
#[export] Hint Resolve s_r1_h1 s_r2_h0 s_r2_h1 : silent.
Lemma s_gen_round2 g s r0 r1 : silent (t_gen_round2 g s r0 r1).
Proof. unfold t_gen_round2. sil. Qed.
Lemma s_sks_new a b ct r : silent (t_sks_new a b ct r).
Proof. unfold t_sks_new. sil. Qed.
Lemma s_dec_share_new sk ct r : silent (t_dec_share_new sk ct r).
Proof. apply s_sks_new. Qed.
