(** Dot products, key switching and the multiparty protocols on inputs that are alike. *)
From Verif Require Import Outcome ZqModel NttModel TranscodeModel CbdModel RnsModel RqModel ParamsModel PlainModel CipherModel OpsModel KeysModel MbfvModel LeakModel LeakSpec LeakErase LeakProofs LeakAlike.

(** ** Dot products *)
Lemma public_list {R} (ps qs : list (poly R)) : Forall2 poly_alike ps qs -> forallb p_vt ps = true -> qs = ps.
Proof. induction 1 as [|p q ps qs (_ & _ & H) _ IH]; cbn; [reflexivity|]. intros E. apply andb_prop in E. destruct E as (E1 & E2). rewrite (IH E2), <- (H E1). reflexivity. Qed.
Lemma combine_flags (ps qs : list (poly Ntt)) : length ps = length qs -> forallb (fun pq => p_vt (fst pq) && p_vt (snd pq)) (combine ps qs) = forallb p_vt ps && forallb p_vt qs.
Proof.
  revert qs. induction ps as [|p ps IH]; intros [|q qs] H; try discriminate; [reflexivity|]. cbn [combine forallb fst snd]. injection H as H. rewrite (IH qs H).
  destruct (p_vt p), (p_vt q), (forallb p_vt ps), (forallb p_vt qs); reflexivity.
Qed.
Lemma dot_product_meta ps qs r : dot_product ps qs = Val r -> length ps = length qs /\ p_vt r = forallb p_vt ps && forallb p_vt qs /\ exists p ps', ps = p :: ps' /\ p_ctx r = p_ctx p.
Proof.
  unfold dot_product. destruct ps as [|p ps]; [discriminate|]. destruct qs as [|q qs]; [discriminate|]. destruct (Nat.eqb_spec (length (p :: ps)) (length (q :: qs))) as [E|E]; [|discriminate]. cbn [negb]. intros H.
  split; [exact E|]. rewrite (combine_flags _ _ E) in H. destruct (_ || _); [discriminate|]. cbv zeta in H. vinv. injection H as <-. split; [reflexivity|]. exists p, ps. split; reflexivity.
Qed.
Lemma a_dot_product ps qs ps' qs' : Forall2 poly_alike ps ps' -> Forall2 poly_alike qs qs' -> runs_alike poly_alike (t_dot_product ps qs) (t_dot_product ps' qs').
Proof.
  intros H H' r r' E E'. unfold t_dot_product in *. cbn [note snd fst] in *. pose proof (dot_product_meta _ _ _ E) as (L & V & p & t & -> & C). pose proof (dot_product_meta _ _ _ E') as (L' & V' & p' & t' & -> & C').
  rewrite (combine_flags _ _ L), (combine_flags _ _ L'), <- (forallb_vt_alike _ _ H), <- (forallb_vt_alike _ _ H') in *. destruct (forallb p_vt (p :: t) && forallb p_vt qs) eqn:F.
  - apply andb_prop in F. destruct F as (F1 & F2). rewrite (public_list _ _ H F1), (public_list _ _ H' F2) in *. split; [reflexivity|]. assert (r' = r) as -> by congruence. apply pal_refl.
  - split; [reflexivity|]. inversion H as [|? ? ? ? (Hc & _)]; subst. apply pal_private; congruence.
Qed.
Lemma mapM_alike {A A' B B'} (R : A -> A' -> Prop) (S : B -> B' -> Prop) f g l l' : Forall2 R l l' -> (forall a b c d, R a b -> f a = Val c -> g b = Val d -> S c d) -> forall m m', mapM f l = Val m -> mapM g l' = Val m' -> Forall2 S m m'.
Proof.
  intros H Hf. induction H as [|a b l l' Hab H IH]; cbn [mapM]; intros m m' E E'; [injection E as <-; injection E' as <-; constructor|].
  vinv. injection E as <-. injection E' as <-. constructor; eauto.
Qed.
Lemma foldM_same {A A' S} (R : A -> A' -> Prop) (f : S -> A -> M S) (g : S -> A' -> M S) l l' s : Forall2 R l l' -> (forall s a b, R a b -> f s a = g s b) -> foldM f l s = foldM g l' s.
Proof.
  intros H Hf. revert s. induction H as [|a b l l' Hab H IH]; intros s; [reflexivity|]. cbn [foldM]. rewrite (Hf s a b Hab). destruct (g s b); cbn [bind]; auto.
Qed.
Lemma Forall2_combine {A A' B B'} (R : A -> A' -> Prop) (S : B -> B' -> Prop) l l' m m' : Forall2 R l l' -> Forall2 S m m' -> Forall2 (fun x y => R (fst x) (fst y) /\ S (snd x) (snd y)) (combine l m) (combine l' m').
Proof. intros H. revert m m'. induction H; intros m m' Hm; cbn [combine]; [constructor|]. destruct Hm; constructor; auto. Qed.
Definition pair_flag (cp : ciphertext * plaintext) : bool := forallb p_vt (ct_c (fst cp)) && p_vt (pt_poly (snd cp)).
Lemma pairs_flag ps ps' : Forall2 (fun x y => ct_alike (fst x) (fst y) /\ pt_alike (snd x) (snd y)) ps ps' -> forallb pair_flag ps = forallb pair_flag ps' /\
  (forallb pair_flag ps = true -> Forall2 (fun x y => ct_c (fst x) = ct_c (fst y) /\ pt_poly (snd x) = pt_poly (snd y)) ps ps').
Proof.
  induction 1 as [|x y ps ps' ((_ & _ & Hc) & (_ & Hp)) _ (IH1 & IH2)]; cbn [forallb]; [split; [reflexivity|constructor]|].
  assert (E : pair_flag x = pair_flag y) by (unfold pair_flag; rewrite (forallb_vt_alike _ _ Hc); destruct Hp as (_ & -> & _); reflexivity).
  split; [rewrite E, IH1; reflexivity|]. intros F. apply andb_prop in F. destruct F as (F1 & F2). constructor; [|exact (IH2 F2)]. unfold pair_flag in F1. apply andb_prop in F1. destruct F1 as (F1 & F3).
  split; [symmetry; apply (public_list _ _ Hc F1)|]. apply Hp. exact F3.
Qed.
Lemma from_array_meta R c rows v p : poly_from_array R c rows v = Val p -> p_ctx p = c /\ p_vt p = v.
Proof. unfold poly_from_array. intros H. vinv. injection H as <-. split; reflexivity. Qed.
Lemma a_dot_product_scalar cts cts' pts pts' : Forall2 ct_alike cts cts' -> Forall2 pt_alike pts pts' -> runs_alike ct_alike (t_dot_product_scalar cts pts) (t_dot_product_scalar cts' pts').
Proof.
  intros H H'. unfold t_dot_product_scalar. rewrite <- (Forall2_length _ _ _ H), <- (Forall2_length _ _ _ H').
  pose proof (Forall2_combine _ _ _ _ _ _ H H') as HP.
  assert (Ln : length cts = length cts') by exact (Forall2_length _ _ _ H).
  destruct cts as [|first cts], cts' as [|first' cts']; try discriminate Ln; [apply alike_quiet; discriminate|]. destruct pts as [|pt pts], pts' as [|pt' pts']; try (inversion H'; fail); [apply alike_quiet; discriminate|].
  al1; [al1|]. assert (F : ct_alike first first') by (inversion H; assumption). pose proof F as (F1 & F2 & F3). rewrite <- F1, <- F2. clear Ln.
  revert H H' HP. generalize (first :: cts) as L, (first' :: cts') as L', (pt :: pts) as K, (pt' :: pts') as K'. intros L L' K K' H H' HP.
  eapply alike_bind; [apply a_any|intros _ _ _ _ _]. al1. cbv zeta.
  change (fun cp : ciphertext * plaintext => forallb p_vt (ct_c (fst cp)) && p_vt (pt_poly (snd cp))) with pair_flag. rename a into c.
  eapply alike_bind; [apply a_any|intros _ _ _ _ _]. al1. unfold len. rewrite <- (Forall2_length _ _ _ H), <- (Forall2_length _ _ _ F3). al1.
  - eapply alike_bind.
    + eapply alike_mapT; [apply Forall2_eq_list|]. intros i ? <-. eapply (alike_bind (Forall2 poly_alike)).
      * apply alike_quiet. intros u u' Eu Eu'. eapply mapM_alike; [exact H| |exact Eu|exact Eu']. cbv beta. intros x y p q (_ & _ & Hxy) Ep Eq. eapply get_alike; eassumption.
      * intros u u' _ _ Hu. apply a_dot_product; [exact Hu|]. clear - H'. induction H' as [|x y K K' (_ & Hp) _ IH]; cbn [map]; constructor; assumption.
    + intros ps ps' _ _ Hps. apply alike_val. split; [reflexivity|]. split; [reflexivity|exact Hps].
  - destruct (pairs_flag _ _ HP) as (<- & HV). destruct (forallb pair_flag (combine L K)).
    + rewrite (foldM_same _ dp_acc dp_acc (combine L K) (combine L' K') _ (HV eq_refl)) by (intros s x y (E1 & E2); unfold dp_acc; rewrite E1, E2; reflexivity).
      al1. eapply alike_bind; [apply alike_refl|]. intros ps ? _ _ <-. apply alike_val. apply ctal_refl.
    + eapply (alike_bind (fun x y => length x = length y)).
      * assert (X : forall l acc acc', foldM dp_acc l acc = Val acc' -> length acc' = length acc).
        { intros l. induction l as [|x l IH]; intros acc acc' E; cbn [foldM] in E; [congruence|]. vinv. rewrite (IH _ _ E). clear - E0. unfold dp_acc in E0. revert v E0. generalize (ct_c (fst x)) as cs. induction acc as [|a acc IH]; intros cs v E0; [destruct cs; cbn in E0; congruence|].
          destruct cs as [|y cs]; cbn [zip_upd] in E0; [congruence|]. vinv. injection E0 as <-. cbn [length]. f_equal. eauto. }
        apply alike_quiet. intros x y Ex Ey. rewrite (X _ _ _ Ex), (X _ _ _ Ey). reflexivity.
      * intros x y _ _ Hxy. eapply (alike_bind (Forall2 (@poly_alike Ntt))).
        -- eapply (alike_mapT any poly_alike); [|intros u u' _; apply alike_silent; [reflexivity|reflexivity|]; cbn [note snd]; intros p q Ep Eq; vinv; apply from_array_meta in Ep, Eq; destruct Ep, Eq; apply pal_private; [congruence|assumption|assumption]].
           clear - Hxy. revert y Hxy. induction x as [|a x IH]; intros [|b y] E; try discriminate; constructor; [exact I|]. apply IH. injection E as E. exact E.
        -- intros ps ps' _ _ Hps. apply alike_val. split; [reflexivity|]. split; [reflexivity|exact Hps].
Qed.

(** ** Key switching *)
Lemma ks_loop_flags c : forall rows k0 k1 a0 a1 r, ks_loop c rows k0 k1 a0 a1 = Val r -> p_vt a0 = p_vt a1 -> forall b, p_vt a0 = b -> (b = true -> forallb p_vt k0 = true /\ forallb p_vt k1 = true) -> p_vt (fst r) = b /\ p_vt (snd r) = b.
Proof.
  induction rows as [|r0 rows IH]; intros k0 k1 a0 a1 r E Ha b Hb Hk; cbn [ks_loop] in E; [injection E as <-; cbn [fst snd]; split; congruence|].
  destruct k0 as [|x0 k0]; [injection E as <-; cbn [fst snd]; split; congruence|]. destruct k1 as [|x1 k1]; [injection E as <-; cbn [fst snd]; split; congruence|].
  assert (Hb' : p_vt a1 = b) by congruence. clear Ha. vinv. metas. eapply (IH _ _ _ _ _ E).
  - destruct b; [destruct (Hk eq_refl) as (K0 & K1); cbn [forallb] in K0, K1; apply andb_prop in K0, K1; destruct K0, K1|]; repeat match goal with H : p_vt _ = _ |- _ => rewrite H; clear H end; reflexivity.
  - destruct b; [destruct (Hk eq_refl) as (K0 & K1); cbn [forallb] in K0, K1; apply andb_prop in K0, K1; destruct K0, K1|]; repeat match goal with H : p_vt _ = _ |- _ => rewrite H; clear H end; reflexivity.
  - intros ->. destruct (Hk eq_refl) as (K0 & K1); cbn [forallb] in K0, K1; apply andb_prop in K0, K1; destruct K0, K1. auto.
Qed.
Lemma set_vt_vt {R} b (p : poly R) : p_vt (set_vt b p) = b.
Proof. destruct b; reflexivity. Qed.
Theorem key_switch_flags k p r : key_switch k p = Val r -> p_vt (fst r) = ksk_permits k p /\ p_vt (snd r) = ksk_permits k p.
Proof.
  assert (X : ksk_permits k p = true -> forallb p_vt (k_c0 k) = true /\ forallb p_vt (k_c1 k) = true) by (unfold ksk_permits; intros H; apply andb_prop in H; destruct H as (H & H2); apply andb_prop in H; destruct H as (_ & H1); auto).
  unfold key_switch. intros E. destruct (negb _).
  - unfold key_switch_decomposition in E. destruct (negb _); [discriminate|]. cbv zeta in E. vinv. eapply ks_loop_flags; [exact E|rewrite !set_vt_vt; reflexivity|apply set_vt_vt|exact X].
  - destruct (negb _); [discriminate|]. cbv zeta in E. eapply ks_loop_flags; [exact E|rewrite !set_vt_vt; reflexivity|apply set_vt_vt|exact X].
Qed.
Theorem a_relinearizes k a b : ct_alike a b -> part_public 2 a -> runs_alike ct_alike (t_relinearizes k a) (t_relinearizes k b).
Proof.
  intros (H1 & H2 & H3) (p & Ep & Hp). unfold t_relinearizes. eapply alike_bind; [apply a_any|intros _ _ _ _ _]. rewrite <- H1, <- H2.
  destruct H3 as [|x0 y0 c d X0 H3]; [apply alike_quiet; discriminate|]. destruct H3 as [|x1 y1 c d X1 H3]; [apply alike_quiet; discriminate|]. destruct H3 as [|x2 y2 c d X2 H3]; [apply alike_quiet; discriminate|]. destruct H3; [|apply alike_quiet; discriminate].
  cbn [nth_error] in Ep. injection Ep as ->. pose proof X2 as (_ & _ & X2'). rewrite <- (X2' Hp). clear X2 X2' y2. al1; [al1|].
  do 2 (eapply alike_bind; [apply alike_refl|intros ? ? _ _ <-]). destruct X0 as (C0 & X0), X1 as (C1 & X1). rewrite <- C0, <- C1.
  eapply alike_bind; [apply alike_refl|intros r ? _ _ <-].
  eapply alike_bind; [apply a_add; [split; [exact C0|exact X0]|apply pal_refl]|]. intros u u' _ _ Hu.
  eapply alike_bind; [apply a_add; [split; [exact C1|exact X1]|apply pal_refl]|]. intros v v' _ _ Hv.
  apply alike_val. split; [reflexivity|]. split; [reflexivity|]. cbn [ct_c ct_truncate firstn]. constructor; [exact Hu|]. constructor; [exact Hv|constructor].
Qed.
Theorem a_galois_apply g a b : ct_alike a b -> part_public 1 a -> runs_alike ct_alike (t_galois_apply g a) (t_galois_apply g b).
Proof.
  intros (H1 & H2 & H3) (p & Ep & Hp). unfold t_galois_apply. cbv zeta. eapply alike_bind; [apply a_any|intros _ _ _ _ _].
  destruct H3 as [|x0 y0 c d X0 H3]; [discriminate|]. destruct H3 as [|x1 y1 c d X1 H3]; [discriminate|]. unfold get, unwrap. cbn [nth_error] in Ep |- *. injection Ep as ->.
  pose proof X1 as (_ & _ & X1'). rewrite <- (X1' Hp). clear X1 X1' y1. eapply (alike_bind poly_alike); [apply alike_val; exact X0|]. intros z0 z0' E0 E0' _. cbn [quiet snd] in E0, E0'. assert (z0 = x0 /\ z0' = y0) as (-> & ->) by (split; congruence).
  do 4 (eapply alike_bind; [apply alike_refl|intros ? ? _ _ <-]). destruct X0 as (C0 & X0). rewrite <- C0.
  eapply alike_bind; [apply alike_refl|intros r ? _ _ <-].
  eapply alike_bind; [apply a_substitute; split; [exact C0|exact X0]|]. intros u u' _ _ Hu. eapply alike_bind; [apply a_add; [apply pal_refl|exact Hu]|]. intros v v' _ _ Hv.
  apply alike_val. split; [exact H1|]. split; [reflexivity|]. cbn [ct_c]. constructor; [exact Hv|]. constructor; [apply pal_refl|constructor].
Qed.

(** ** Multiparty protocols *)
Theorem a_pk_share sk sk' crp r r' : sk_alike sk sk' -> same_trace (t_pk_share_new sk crp r) (t_pk_share_new sk' crp r').
Proof. intros Hs. apply (alike_trace any). unfold t_pk_share_new. cbv zeta. rewrite Hs. al. exact I. Qed.
Lemma alike_fixed {A B B'} (S : B -> B' -> Prop) (x : T A) f g : (forall a, runs_alike S (f a) (g a)) -> runs_alike S (bindT x f) (bindT x g).
Proof. intros H. eapply alike_bind; [apply alike_refl|]. intros a ? _ _ <-. apply H. Qed.
Theorem a_gen_round1 g g' r0 r1 r0' r1' : sk_alike (gen_sk g) (gen_sk g') -> gen_crp g = gen_crp g' -> private (gen_u g) -> private (gen_u g') -> p_ctx (gen_u g) = p_ctx (gen_u g') ->
  same_trace (t_gen_round1 g r0 r1) (t_gen_round1 g' r0' r1').
Proof.
  intros Hs Hc Hu Hu' Hx. apply (alike_trace any). unfold t_gen_round1. cbv zeta. rewrite <- Hs, <- Hc. al1. al1; [al1|].
  eapply (alike_bind any).
  - eapply (alike_impl (Forall2 poly_alike)); [|intros; exact I]. unfold t_r1_h0. cbv zeta. rewrite <- Hs. al1. al1. al1. al1. eapply alike_mapT; [apply Forall2_eq_list|]. intros ia ? <-.
    assert (U : poly_alike (gen_u g) (gen_u g')) by (apply pal_private; assumption). al.
  - intros ? ? _ _ _. eapply (alike_bind any); [|intros; apply alike_val; exact I]. apply alike_silent; try apply s_r1_h1. intros; exact I.
Qed.
Lemma ct_new_alike c d par : Forall2 poly_alike c d -> forall a b, ct_new c par = Val a -> ct_new d par = Val b -> ct_alike a b.
Proof.
  intros H a b E E'. unfold ct_new in *. destruct H as [|x y c d X H]; [discriminate|]. destruct H as [|x' y' c d X' H]; [discriminate|]. pose proof X as (C & _). rewrite <- C in E'. vinv.
  injection E as <-. injection E' as <-. split; [reflexivity|]. split; [cbn [ct_level]; congruence|]. constructor; [assumption|]. constructor; assumption.
Qed.
Theorem a_sks_from_shares l l' : Forall2 share_alike l l' -> runs_alike ct_alike (t_sks_from_shares l) (t_sks_from_shares l').
Proof.
  intros H. unfold t_sks_from_shares. destruct H as [|x y l l' (X1 & (X2 & X3 & X4) & X5) H]; [apply alike_quiet; discriminate|].
  eapply alike_bind; [eapply alike_foldT; [exact H|exact X5|]; intros s s' a b Hs (_ & _ & Hab); apply a_add; assumption|]. intros h h' _ _ Hh. al. rewrite <- X1. apply alike_quiet. apply ct_new_alike. repeat (constructor; [assumption|]). constructor.
Qed.
Theorem a_dec_from_shares l l' : Forall2 share_alike l l' -> runs_alike pt_alike (t_dec_from_shares l) (t_dec_from_shares l').
Proof.
  intros H. unfold t_dec_from_shares. eapply alike_bind; [apply a_sks_from_shares; exact H|]. intros a b _ _ (H1 & H2 & H3). cbv zeta. rewrite <- H1, <- H2. al1.
  match goal with H : poly_alike ?x ?y |- _ => pose proof H as (C & _) end. al1. al1. al1.
  do 4 (eapply alike_bind; [apply a_any|intros ? ? _ _ _]). rewrite <- C. eapply (alike_bind poly_alike); [apply alike_quiet; intros; metas; apply pal_private; congruence|]. intros p q _ _ Hpq. al1. apply alike_val. split; [reflexivity|assumption].
Qed.
Theorem a_pksw sk sk' pk a b ru r0 r1 ru' r0' r1' : sk_alike sk sk' -> ct_alike a b -> same_trace (t_pksw_new sk pk a ru r0 r1) (t_pksw_new sk' pk b ru' r0' r1').
Proof.
  intros Hs (H1 & H2 & H3). apply (alike_trace any). unfold t_pksw_new. cbv zeta. rewrite <- Hs, <- H1, <- H2. al1; [al1|]. al1; [al1|].
  apply alike_fixed. intros pct. al. exact I.
Qed.
