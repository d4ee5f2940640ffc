(** Two runs on inputs that are alike. *)
From Verif Require Import Outcome ZqModel NttModel TranscodeModel CbdModel RnsModel RqModel ParamsModel PlainModel CipherModel OpsModel KeysModel MbfvModel LeakModel LeakSpec LeakErase LeakProofs.

Lemma fst_bindT_val {A B} (x : T A) (f : A -> T B) a : snd x = Val a -> fst (bindT x f) = fst x ++ fst (f a).
Proof. unfold bindT. intros ->. reflexivity. Qed.
Lemma alike_bind {A A' B B'} (R : A -> A' -> Prop) (S : B -> B' -> Prop) (x : T A) (y : T A') f g :
  runs_alike R x y -> (forall a b, snd x = Val a -> snd y = Val b -> R a b -> runs_alike S (f a) (g b)) -> runs_alike S (bindT x f) (bindT y g).
Proof.
  intros H Hf c d Hc Hd. apply snd_bindT_val in Hc, Hd. destruct Hc as (a & Ea & Hc), Hd as (b & Eb & Hd).
  destruct (H a b Ea Eb) as (E1 & E2). destruct (Hf a b Ea Eb E2 c d Hc Hd) as (E3 & E4).
  rewrite (fst_bindT_val x f a Ea), (fst_bindT_val y g b Eb), E1, E3. auto.
Qed.
Lemma alike_quiet {A B} (R : A -> B -> Prop) m m' : (forall a b, m = Val a -> m' = Val b -> R a b) -> runs_alike R (quiet m) (quiet m').
Proof. intros H a b Ha Hb. split; [reflexivity|]. apply H; assumption. Qed.
Lemma alike_val {A B} (R : A -> B -> Prop) a b : R a b -> runs_alike R (quiet (Val a)) (quiet (Val b)).
Proof. intros H. apply alike_quiet. intros ? ? E1 E2. injection E1 as <-. injection E2 as <-. exact H. Qed.
(** A public computation. *)
Lemma alike_same {A} (m : M A) : runs_alike eq (quiet m) (quiet m).
Proof. apply alike_quiet. congruence. Qed.
Lemma alike_refl {A} (x : T A) : runs_alike eq x x.
Proof. intros a b E1 E2. split; [reflexivity|congruence]. Qed.
Lemma alike_silent {A B} (R : A -> B -> Prop) (x : T A) (y : T B) :
  silent x -> silent y -> (forall a b, snd x = Val a -> snd y = Val b -> R a b) -> runs_alike R x y.
Proof. unfold silent. intros H1 H2 H a b E1 E2. split; [congruence|auto]. Qed.
Lemma alike_impl {A B} (R S : A -> B -> Prop) x y : runs_alike R x y -> (forall a b, snd x = Val a -> snd y = Val b -> R a b -> S a b) -> runs_alike S x y.
Proof. intros H HS a b E1 E2. destruct (H a b E1 E2). auto. Qed.
Lemma alike_trace {A B} (R : A -> B -> Prop) x y : runs_alike R x y -> same_trace x y.
Proof. intros H a b E1 E2. apply (H a b E1 E2). Qed.
Lemma alike_no_err {A B} (R : A -> B -> Prop) x y : runs_alike R x y -> runs_alike R (no_errT x) (no_errT y).
Proof. intros H a b E1 E2. apply no_err_val in E1, E2. exact (H a b E1 E2). Qed.
Lemma alike_mapT {A A' B B'} (R : A -> A' -> Prop) (S : B -> B' -> Prop) f g l l' :
  Forall2 R l l' -> (forall a b, R a b -> runs_alike S (f a) (g b)) -> runs_alike (Forall2 S) (mapT f l) (mapT g l').
Proof.
  intros H Hf. induction H as [|a b l l' Hab H IH]; cbn [mapT]; [apply alike_val; constructor|].
  eapply alike_bind; [exact (Hf a b Hab)|]. intros c d _ _ Hcd. eapply alike_bind; [exact IH|]. intros cs ds _ _ Hs.
  apply alike_val. constructor; assumption.
Qed.
Lemma alike_map2T {A A' B B' C C'} (R : A -> A' -> Prop) (Q : B -> B' -> Prop) (S : C -> C' -> Prop) f g l l' m m' :
  Forall2 R l l' -> Forall2 Q m m' -> (forall a b c d, R a b -> Q c d -> runs_alike S (f a c) (g b d)) ->
  runs_alike (Forall2 S) (map2T f l m) (map2T g l' m').
Proof.
  intros H HQ Hf. revert m m' HQ. induction H as [|a b l l' Hab H IH]; intros m m' HQ; cbn [map2T]; [apply alike_val; constructor|].
  destruct HQ as [|c d m m' Hcd HQ]; [apply alike_val; constructor|].
  eapply alike_bind; [exact (Hf a b c d Hab Hcd)|]. intros x y _ _ Hxy. eapply alike_bind; [exact (IH m m' HQ)|]. intros cs ds _ _ Hs.
  apply alike_val. constructor; assumption.
Qed.
Lemma alike_foldT {A A' S S'} (R : A -> A' -> Prop) (P : S -> S' -> Prop) f g l l' s s' :
  Forall2 R l l' -> P s s' -> (forall s s' a b, P s s' -> R a b -> runs_alike P (f s a) (g s' b)) -> runs_alike P (foldT f l s) (foldT g l' s').
Proof.
  intros H Hs Hf. revert s s' Hs. induction H as [|a b l l' Hab H IH]; intros s s' Hs; cbn [foldT]; [apply alike_val; exact Hs|].
  eapply alike_bind; [exact (Hf s s' a b Hs Hab)|]. intros u u' _ _ Hu. exact (IH u u' Hu).
Qed.
Lemma alike_iterT {A A'} (P : A -> A' -> Prop) n f g a b :
  P a b -> (forall a b, P a b -> runs_alike P (f a) (g b)) -> runs_alike P (iterT n f a) (iterT n g b).
Proof.
  intros H Hf. revert a b H. induction n as [|n IH]; intros a b H; cbn [iterT]; [apply alike_val; exact H|].
  eapply alike_bind; [exact (Hf a b H)|]. intros u u' _ _ Hu. exact (IH u u' Hu).
Qed.

(** ** Polynomials *)
Lemma pal_refl {R} (p : poly R) : poly_alike p p.
Proof. repeat split. Qed.
Lemma pal_private {R} (p q : poly R) : p_ctx p = p_ctx q -> p_vt p = false -> p_vt q = false -> poly_alike p q.
Proof. intros H1 H2 H3. repeat split; congruence. Qed.
Lemma pal_disallow {R} (p q : poly R) : poly_alike p q -> poly_alike (disallow_vt p) (disallow_vt q).
Proof. intros (H1 & _). apply pal_private; auto. Qed.
(** A unary operation whose result has the flag of the operand. *)
Lemma pal_unary {R R'} (t : poly R -> T (poly R')) (f : poly R -> M (poly R')) (p q : poly R) :
  (forall x, snd (t x) = f x) ->
  (forall x, p_vt x = false -> silent (t x)) ->
  (forall x y r s, p_ctx x = p_ctx y -> f x = Val r -> f y = Val s -> p_ctx r = p_ctx s) ->
  (forall x r, f x = Val r -> p_vt r = p_vt x) ->
  poly_alike p q -> runs_alike poly_alike (t p) (t q).
Proof.
  intros He Hs Hc Hv (H1 & H2 & H3). destruct (p_vt p) eqn:E.
  - rewrite (H3 eq_refl). eapply alike_impl; [apply alike_refl|]. intros a b _ _ <-. apply pal_refl.
  - apply alike_silent; [auto|auto|]. intros a b Ea Eb. rewrite He in Ea, Eb.
    apply pal_private; [exact (Hc p q a b H1 Ea Eb)|rewrite (Hv _ _ Ea); auto|rewrite (Hv _ _ Eb); auto].
Qed.
Ltac unary t f := intros H; apply (pal_unary t f); [reflexivity| | | |exact H];
  [intros; apply silent_note; assumption | intros; metas; congruence | intros; metas; congruence].
Lemma a_pb_into_ntt p q : poly_alike p q -> runs_alike poly_alike (t_pb_into_ntt p) (t_pb_into_ntt q).
Proof. unary (t_pb_into_ntt) (pb_into_ntt). Qed.
Lemma a_pb_into_ntt_shoup p q : poly_alike p q -> runs_alike poly_alike (t_pb_into_ntt_shoup p) (t_pb_into_ntt_shoup q).
Proof. unary (t_pb_into_ntt_shoup) (pb_into_ntt_shoup). Qed.
Lemma a_ntt_into_pb p q : poly_alike p q -> runs_alike poly_alike (t_ntt_into_pb p) (t_ntt_into_pb q).
Proof. unary (t_ntt_into_pb) (ntt_into_pb). Qed.
Lemma a_switch_down p q : poly_alike p q -> runs_alike poly_alike (t_switch_down p) (t_switch_down q).
Proof. unary (t_switch_down) (switch_down). Qed.
Lemma a_scalar_mul {R} (p q : poly R) k : poly_alike p q -> runs_alike poly_alike (t_scalar_mul p k) (t_scalar_mul q k).
Proof. intros H. apply (pal_unary (fun x => t_scalar_mul x k) (fun x => poly_scalar_mul x k)); [reflexivity| | | |exact H];
  [intros; apply silent_note; assumption | intros; metas; congruence | intros; metas; congruence]. Qed.
Lemma a_neg {R} (p q : poly R) : poly_alike p q -> runs_alike poly_alike (t_neg p) (t_neg q).
Proof. unary (@t_neg R) (@poly_neg R). Qed.
Lemma a_scale {R} s (p q : poly R) : poly_alike p q -> runs_alike poly_alike (t_scale s p) (t_scale s q).
Proof. intros H. apply (pal_unary (t_scale s) (poly_scale s)); [reflexivity| | | |exact H];
  [intros; apply silent_note; destruct R; auto | intros; metas; congruence | intros; metas; congruence]. Qed.
Lemma a_substitute {R} (p q : poly R) i : poly_alike p q -> runs_alike poly_alike (quiet (substitute p i)) (quiet (substitute q i)).
Proof. intros H. apply (pal_unary (fun x => quiet (substitute x i)) (fun x => substitute x i)); [reflexivity| | | |exact H];
  [reflexivity | intros; metas; congruence | intros; metas; congruence]. Qed.

Lemma pal_binary {R R' R''} (t : poly R -> poly R' -> T (poly R'')) (f : poly R -> poly R' -> M (poly R'')) (p q : poly R) (p' q' : poly R') :
  (forall x y, snd (t x y) = f x y) ->
  (forall x y, p_vt x && p_vt y = false -> silent (t x y)) ->
  (forall x y r, f x y = Val r -> p_ctx r = p_ctx x /\ p_vt r = p_vt x && p_vt y) ->
  poly_alike p q -> poly_alike p' q' -> runs_alike poly_alike (t p p') (t q q').
Proof.
  intros He Hs Hm (H1 & H2 & H3) (H1' & H2' & H3'). destruct (p_vt p && p_vt p') eqn:E.
  - apply andb_prop in E. destruct E as (E1 & E2). rewrite (H3 E1), (H3' E2).
    eapply alike_impl; [apply alike_refl|]. intros a b _ _ <-. apply pal_refl.
  - assert (E' : p_vt q && p_vt q' = false) by (rewrite <- H2, <- H2'; exact E).
    apply alike_silent; [auto|auto|]. intros a b Ea Eb. rewrite He in Ea, Eb.
    destruct (Hm _ _ _ Ea) as (C1 & V1), (Hm _ _ _ Eb) as (C2 & V2). apply pal_private; congruence.
Qed.
Lemma a_add {R} (p q p' q' : poly R) : poly_alike p q -> poly_alike p' q' -> runs_alike poly_alike (t_add p p') (t_add q q').
Proof. apply (pal_binary t_add poly_add); [reflexivity|intros; apply silent_note; assumption|intros; metas; auto]. Qed.
Lemma a_sub {R} (p q p' q' : poly R) : poly_alike p q -> poly_alike p' q' -> runs_alike poly_alike (t_sub p p') (t_sub q q').
Proof. apply (pal_binary t_sub poly_sub); [reflexivity|intros; apply silent_note; assumption|intros; metas; auto]. Qed.
Lemma a_mul p q p' q' : poly_alike p q -> poly_alike p' q' -> runs_alike poly_alike (t_mul p p') (t_mul q q').
Proof. apply (pal_binary t_mul poly_mul); [reflexivity|intros; apply silent_note; assumption|intros; metas; auto]. Qed.
Lemma a_mul_shoup p q p' q' : poly_alike p q -> poly_alike p' q' -> runs_alike poly_alike (t_mul_shoup p p') (t_mul_shoup q q').
Proof. apply (pal_binary t_mul_shoup poly_mul_shoup); [reflexivity|intros; apply silent_note; assumption|intros; metas; auto]. Qed.
Lemma a_poly_small R c v r r' : runs_alike poly_alike (t_poly_small R c v r) (t_poly_small R c v r').
Proof. apply alike_silent; try apply s_poly_small. intros a b Ea Eb. erases. metas. apply pal_private; congruence. Qed.
Lemma a_sk_poly sk sk' c : runs_alike poly_alike (t_sk_poly sk c) (t_sk_poly sk' c).
Proof. apply alike_silent; try apply s_sk_poly. intros a b Ea Eb. erases. metas. apply pal_private; congruence. Qed.
Lemma a_switch_down_to p q c : poly_alike p q -> runs_alike poly_alike (t_switch_down_to p c) (t_switch_down_to q c).
Proof.
  intros H. unfold t_switch_down_to. pose proof H as (H1 & _). rewrite <- H1.
  eapply alike_bind; [apply alike_same|]. intros n ? _ _ <-.
  eapply alike_bind; [apply alike_iterT; [exact H|apply a_switch_down]|]. intros a b _ _ Hab.
  apply alike_quiet. intros x y Ex Ey. destruct (ctx_eqb (p_ctx a) c), (ctx_eqb (p_ctx b) c); try discriminate. congruence.
Qed.

Create HintDb alike discriminated.
#[export] Hint Resolve a_pb_into_ntt a_pb_into_ntt_shoup a_ntt_into_pb a_switch_down a_scalar_mul a_neg a_scale a_substitute a_add a_sub a_mul a_mul_shoup
  a_poly_small a_sk_poly a_switch_down_to pal_refl pal_disallow : alike.

(** A list of polynomials, position by position. *)
Lemma get_alike {A B} (R : A -> B -> Prop) l l' i a b : Forall2 R l l' -> get l i = Val a -> get l' i = Val b -> R a b.
Proof.
  intros H. unfold get, unwrap. revert i. induction H as [|x y l l' Hxy H IH]; intros [|i]; cbn; try discriminate.
  - intros E1 E2. injection E1 as <-. injection E2 as <-. exact Hxy.
  - apply IH.
Qed.
Lemma Forall2_pal_refl {R} (l : list (poly R)) : Forall2 poly_alike l l.
Proof. induction l; constructor; [apply pal_refl|assumption]. Qed.
Lemma Forall2_eq_list {A} (l : list A) : Forall2 eq l l.
Proof. induction l; constructor; auto. Qed.
Lemma Forall2_imp {A B} (R S : A -> B -> Prop) l l' : (forall a b, R a b -> S a b) -> Forall2 R l l' -> Forall2 S l l'.
Proof. intros H HF. induction HF; constructor; auto. Qed.

Lemma Forall2_length {A B} (R : A -> B -> Prop) l l' : Forall2 R l l' -> length l = length l'.
Proof. induction 1; cbn; auto. Qed.

(** [al]: walk through two runs side by side. *)
Ltac al1 :=
  match goal with
  | |- runs_alike _ (bindT (quiet ?m) _) (bindT (quiet ?m) _) =>
      eapply alike_bind; [apply alike_same|let a := fresh "a" in intros a ? _ _ <-; cbv beta zeta]
  | |- runs_alike _ (bindT (quiet (get _ _)) _) (bindT (quiet (get _ _)) _) =>
      eapply alike_bind; [let E1 := fresh in let E2 := fresh in apply alike_quiet; intros ? ? E1 E2; eapply get_alike; [|exact E1|exact E2]; eassumption|intros ? ? _ _ ?; cbv beta zeta]
  | |- runs_alike _ (bindT _ _) (bindT _ _) =>
      eapply alike_bind; [solve [eauto with alike]|intros ? ? _ _ ?; cbv beta zeta]
  | |- runs_alike _ (quiet (Val _)) (quiet (Val _)) => apply alike_val
  | |- runs_alike _ (quiet (Err _)) (quiet (Err _)) => apply alike_quiet; discriminate
  | |- runs_alike _ (quiet Panic) (quiet Panic) => apply alike_quiet; discriminate
  | |- runs_alike _ (if ?b then _ else _) (if ?b then _ else _) => destruct b
  | |- _ => solve [eauto with alike]
  end.
Ltac al := cbv zeta; repeat (al1; cbv beta zeta).

(** ** Plaintexts *)
Lemma pt_level_alike a b : pt_alike a b -> pt_level a = pt_level b.
Proof. intros (H & H1 & _). unfold pt_level. rewrite H, H1. reflexivity. Qed.
Lemma pt_validate_alike a b par : pt_alike a b -> pt_validate_for a par = pt_validate_for b par.
Proof.
  intros H. unfold pt_validate_for, pt_validate_context. rewrite (pt_level_alike a b H). destruct H as (-> & -> & _). reflexivity.
Qed.
Definition any {A B} (_ : A) (_ : B) : Prop := True.
Lemma a_any {A B} (m : M A) (m' : M B) : runs_alike any (quiet m) (quiet m').
Proof. apply alike_quiet. intros. exact I. Qed.
Lemma a_coefficients a b : pt_alike a b -> runs_alike (fun x y => match x, y with Small _, Small _ | Large _, Large _ => True | _, _ => False end) (t_coefficients a) (t_coefficients b).
Proof.
  intros (H & H1). unfold t_coefficients. eapply alike_bind; [apply a_ntt_into_pb; exact H1|]. intros p q _ _ Hpq. cbv zeta. rewrite <- H.
  apply alike_quiet. intros x y Ex Ey. destruct (pa_small (pt_par a)).
  - repeat match goal with H : (if ?b then _ else _) = Val _ |- _ => destruct b end; vinv;
      repeat match goal with H : Val _ = Val _ |- _ => injection H as <- end; exact I.
  - vinv. injection Ex as <-. injection Ey as <-. exact I.
Qed.
Lemma a_to_poly a b : pt_alike a b -> runs_alike poly_alike (t_to_poly a) (t_to_poly b).
Proof.
  intros H. unfold t_to_poly. cbv zeta. rewrite <- (pt_level_alike a b H). assert (Hp : pt_par a = pt_par b) by apply H. rewrite <- Hp.
  al1. al1. eapply alike_bind; [apply a_coefficients; exact H|]. intros x y _ _ Hxy.
  eapply (alike_bind poly_alike).
  - destruct x as [v|v], y as [w|w]; try destruct Hxy.
    + al1. al1. eapply alike_bind; [apply a_any|intros ? ? _ _ _]. apply alike_silent; [reflexivity..|]. intros. erases. metas. apply pal_private; congruence.
    + eapply alike_bind; [apply a_any|intros ? ? _ _ _]. apply alike_quiet. intros. metas. apply pal_private; congruence.
  - intros p q _ _ Hpq. al.
Qed.
#[export] Hint Resolve a_to_poly : alike.

(** ** Encryption *)
Lemma a_encrypt_trace x sk sk' a b sd sd' r r' :
  sk_alike sk sk' -> pt_alike a b -> same_trace (t_sk_encrypt x sk a sd r) (t_sk_encrypt x sk' b sd' r').
Proof.
  intros Hs H. apply (alike_trace any). unfold t_sk_encrypt. rewrite <- (pt_validate_alike a b (sk_par sk') H), Hs.
  al1. eapply alike_bind; [apply a_to_poly; exact H|]. intros p q _ _ Hpq. apply alike_silent; try apply s_encrypt_poly. intros; exact I.
Qed.
(** Ciphertexts *)
Lemma ctal_refl a : ct_alike a a.
Proof. split; [reflexivity|]. split; [reflexivity|]. apply Forall2_pal_refl. Qed.
Lemma a_ntt_switch_down p q : poly_alike p q -> runs_alike poly_alike (t_ntt_switch_down p) (t_ntt_switch_down q).
Proof. intros H. unfold t_ntt_switch_down. al. Qed.
Lemma a_ct_switch_down a b : ct_alike a b -> runs_alike ct_alike (t_ct_switch_down a) (t_ct_switch_down b).
Proof.
  intros (H1 & H2 & H3). unfold t_ct_switch_down. rewrite <- H1, <- H2. destruct (Nat.leb _ _); [apply alike_quiet; discriminate|].
  eapply alike_bind; [eapply alike_mapT; [exact H3|exact a_ntt_switch_down]|]. intros c d _ _ Hcd. apply alike_val. split; [reflexivity|]. split; [reflexivity|exact Hcd].
Qed.
Lemma a_ct_switch_to_level a b l : ct_alike a b -> runs_alike ct_alike (t_ct_switch_to_level a l) (t_ct_switch_to_level b l).
Proof.
  intros H. unfold t_ct_switch_to_level. pose proof H as (H1 & H2 & H3). rewrite <- H1, <- H2. destruct (_ || _); [apply alike_quiet; discriminate|].
  apply alike_iterT; [exact H|exact a_ct_switch_down].
Qed.
Lemma a_pk_encrypt pk a b ru r1 r2 ru' r1' r2' :
  pt_alike a b -> same_trace (t_pk_encrypt pk a ru r1 r2) (t_pk_encrypt pk b ru' r1' r2').
Proof.
  intros H. apply (alike_trace any). unfold t_pk_encrypt. cbv zeta. rewrite <- (pt_validate_alike a b (pk_par pk) H), <- (pt_level_alike a b H).
  al1. al1. al1. destruct (Nat.ltb _ _); [apply alike_quiet; discriminate|].
  eapply alike_bind; [apply alike_refl|intros ct ? _ _ <-]. al. exact I.
Qed.

(** ** Operations *)
Lemma is_empty_alike a b : ct_alike a b -> is_empty a = is_empty b.
Proof. intros (_ & _ & H). unfold is_empty. rewrite (Forall2_length _ _ _ H). reflexivity. Qed.
Lemma a_ct_op2 f a b a' b' :
  (forall p q p' q', poly_alike p q -> poly_alike p' q' -> runs_alike poly_alike (f p p') (f q q')) ->
  ct_alike a b -> ct_alike a' b' -> runs_alike ct_alike (t_ct_op2 f a a') (t_ct_op2 f b b').
Proof.
  intros Hf (H1 & H2 & H3) (H1' & H2' & H3'). unfold t_ct_op2. rewrite <- H2, <- H2', <- (Forall2_length _ _ _ H3), <- (Forall2_length _ _ _ H3'). al1. al1.
  eapply alike_bind; [eapply alike_map2T; [exact H3|exact H3'|intros; apply Hf; assumption]|]. intros c d _ _ Hcd.
  apply alike_val. split; [assumption|]. split; [reflexivity|assumption].
Qed.
Lemma a_ct_neg a b : ct_alike a b -> runs_alike ct_alike (t_ct_neg a) (t_ct_neg b).
Proof.
  intros (H1 & H2 & H3). unfold t_ct_neg. eapply alike_bind; [eapply alike_mapT; [exact H3|intros; apply a_neg; assumption]|]. intros c d _ _ Hcd.
  apply alike_val. split; [assumption|]. split; [assumption|assumption].
Qed.
Lemma a_ct_add a b a' b' : ct_alike a b -> ct_alike a' b' -> runs_alike ct_alike (t_ct_add a a') (t_ct_add b b').
Proof.
  intros H H'. unfold t_ct_add. rewrite <- (is_empty_alike a b H), <- (is_empty_alike a' b' H').
  assert (E : ct_par a = ct_par b) by apply H. assert (E' : ct_par a' = ct_par b') by apply H'. rewrite <- E, <- E'. al1.
  destruct (is_empty a); [apply alike_val; exact H'|]. destruct (is_empty a'); [apply alike_val; exact H|].
  apply a_ct_op2; auto. intros; apply a_add; assumption.
Qed.
Lemma a_ct_sub a b a' b' : ct_alike a b -> ct_alike a' b' -> runs_alike ct_alike (t_ct_sub a a') (t_ct_sub b b').
Proof.
  intros H H'. unfold t_ct_sub. rewrite <- (is_empty_alike a b H), <- (is_empty_alike a' b' H').
  assert (E : ct_par a = ct_par b) by apply H. assert (E' : ct_par a' = ct_par b') by apply H'. rewrite <- E, <- E'. al1.
  destruct (is_empty a); [apply a_ct_neg; exact H'|]. destruct (is_empty a'); [apply alike_val; exact H|].
  apply a_ct_op2; auto. intros; apply a_sub; assumption.
Qed.
Lemma a_ct_op_pt f a b m m' :
  (forall p q p' q', poly_alike p q -> poly_alike p' q' -> runs_alike poly_alike (f p p') (f q q')) ->
  ct_alike a b -> pt_alike m m' -> runs_alike ct_alike (t_ct_op_pt f a m) (t_ct_op_pt f b m').
Proof.
  intros Hf H Hm. unfold t_ct_op_pt. rewrite <- (is_empty_alike a b H), <- (pt_level_alike m m' Hm).
  destruct H as (H1 & H2 & H3). assert (E : pt_par m = pt_par m') by apply Hm. rewrite <- H1, <- H2, <- E. al1. al1. al1. al1.
  eapply alike_bind; [apply a_to_poly; exact Hm|]. intros p q _ _ Hpq. destruct H3 as [|x y c d Hxy H3]; [apply alike_quiet; discriminate|].
  eapply alike_bind; [apply Hf; eassumption|]. intros u v _ _ Huv. apply alike_val. split; [reflexivity|]. split; [reflexivity|].
  constructor; assumption.
Qed.
Lemma a_ct_add_pt a b m m' : ct_alike a b -> pt_alike m m' -> runs_alike ct_alike (t_ct_add_pt a m) (t_ct_add_pt b m').
Proof. apply a_ct_op_pt. intros; apply a_add; assumption. Qed.
Lemma a_ct_sub_pt a b m m' : ct_alike a b -> pt_alike m m' -> runs_alike ct_alike (t_ct_sub_pt a m) (t_ct_sub_pt b m').
Proof. apply a_ct_op_pt. intros; apply a_sub; assumption. Qed.
Lemma a_pt_sub_ct a b m m' : ct_alike a b -> pt_alike m m' -> runs_alike ct_alike (t_pt_sub_ct m a) (t_pt_sub_ct m' b).
Proof. intros H Hm. unfold t_pt_sub_ct. eapply alike_bind; [apply a_ct_sub_pt; eassumption|]. intros c d _ _ Hcd. apply a_ct_neg. exact Hcd. Qed.
Lemma a_ct_mul_pt a b m m' : ct_alike a b -> pt_alike m m' -> runs_alike ct_alike (t_ct_mul_pt a m) (t_ct_mul_pt b m').
Proof.
  intros H Hm. unfold t_ct_mul_pt. rewrite <- (is_empty_alike a b H), <- (pt_level_alike m m' Hm).
  destruct H as (H1 & H2 & H3). assert (E : pt_par m = pt_par m') by apply Hm. rewrite <- H1, <- H2, <- E. al1.
  destruct (is_empty a); [apply alike_val; split; [reflexivity|]; split; [reflexivity|exact H3]|]. al1. al1.
  eapply alike_bind; [eapply alike_mapT; [exact H3|intros; apply a_mul; [assumption|apply Hm]]|]. intros c d _ _ Hcd.
  apply alike_val. split; [reflexivity|]. split; [reflexivity|exact Hcd].
Qed.
Lemma set_nth_alike {A B} (R : A -> B -> Prop) l l' i a b : Forall2 R l l' -> R a b -> Forall2 R (set_nth l i a) (set_nth l' i b).
Proof.
  intros H Hab. revert i. induction H as [|x y l l' Hxy H IH]; intros [|i]; cbn; try constructor; auto.
Qed.
Lemma a_mul_step a b a' b' c d ij :
  Forall2 poly_alike a b -> Forall2 poly_alike a' b' -> Forall2 poly_alike c d -> runs_alike (Forall2 poly_alike) (t_mul_step a a' c ij) (t_mul_step b b' d ij).
Proof. intros H H' Hc. unfold t_mul_step. al. apply set_nth_alike; assumption. Qed.
Lemma forallb_vt_alike a b : Forall2 (@poly_alike Ntt) a b -> forallb p_vt a = forallb p_vt b.
Proof. induction 1 as [|x y l l' Hxy H IH]; cbn; [reflexivity|]. rewrite IH. destruct Hxy as (_ & -> & _). reflexivity. Qed.
Lemma Forall2_repeat {A B} (R : A -> B -> Prop) a b n : R a b -> Forall2 R (repeat a n) (repeat b n).
Proof. intros H. induction n; cbn; constructor; auto. Qed.
Lemma a_mul_parts c a b a' b' :
  Forall2 poly_alike a b -> Forall2 poly_alike a' b' -> runs_alike (Forall2 poly_alike) (t_mul_parts c a a') (t_mul_parts c b b').
Proof.
  intros H H'. unfold t_mul_parts. cbv zeta. rewrite <- (Forall2_length _ _ _ H), <- (Forall2_length _ _ _ H'), <- (forallb_vt_alike a b H), <- (forallb_vt_alike a' b' H'). al1.
  eapply alike_foldT; [apply Forall2_eq_list|apply Forall2_repeat; apply pal_refl|]. intros s s' ij ? Hs <-. apply a_mul_step; assumption.
Qed.
Lemma a_ct_mul a b a' b' : ct_alike a b -> ct_alike a' b' -> ct_eqb a' a = ct_eqb b' b -> runs_alike ct_alike (t_ct_mul a a') (t_ct_mul b b').
Proof.
  intros H H' E. unfold t_ct_mul. cbv zeta. rewrite <- (is_empty_alike a b H), <- E. destruct (is_empty a); [apply alike_val; exact H|].
  destruct H as (H1 & H2 & H3), H' as (H1' & H2' & H3'). rewrite <- H1, <- H2, <- H1', <- H2'.
  assert (S : forall s l l', Forall2 poly_alike l l' -> runs_alike (Forall2 poly_alike) (no_errT (mapT (@t_scale Ntt s) l)) (no_errT (mapT (t_scale s) l')))
    by (intros; apply alike_no_err; eapply alike_mapT; [eassumption|intros; apply a_scale; assumption]).
  destruct (ct_eqb a' a).
  - al1. eapply alike_bind; [apply S; exact H3|]. intros x y _ _ Hxy. eapply alike_bind; [apply a_mul_parts; exact Hxy|].
    intros c d _ _ Hcd. eapply alike_bind; [apply S; exact Hcd|]. intros e f _ _ Hef. apply alike_val. split; [reflexivity|]. split; [reflexivity|exact Hef].
  - al1. al1. al1. eapply alike_bind; [apply S; exact H3|]. intros x y _ _ Hxy. eapply alike_bind; [apply S; exact H3'|]. intros x' y' _ _ Hxy'.
    eapply alike_bind; [apply a_mul_parts; eassumption|].
    intros c d _ _ Hcd. eapply alike_bind; [apply S; exact Hcd|]. intros e f _ _ Hef. apply alike_val. split; [reflexivity|]. split; [reflexivity|exact Hef].
Qed.
