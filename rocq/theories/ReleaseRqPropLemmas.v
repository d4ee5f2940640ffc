(** The statements of PropsReleaseRq.v, assembled. *)
From Verif Require Import Outcome BasicSpec OutcomeLemmas ZqModel ZqProofs ZqPow NumTheory NttModel PolySpec PolyRing NttPure NttStages NttProofs.
From Verif Require Import RnsModel RnsSpec RnsProofs RnsScalerProofs RqModel RqSpec RqCtx RqRows RqProofs RqPropLemmas ParamsModel PlainModel CipherModel KeysModel MbfvModel.
From Verif Require Import ReleaseModel ReleaseProofs ReleaseRnsProofs ReleaseRqModel ReleaseRqSpec ReleaseRqProofs.

(** C65 *)
Lemma rel_rq_agree_all :
  (forall R (a b r : poly R), (poly_add a b = Val r -> rel_poly_add a b = Val r) /\ (poly_sub a b = Val r -> rel_poly_sub a b = Val r) /\
     (poly_neg a = Val r -> rel_poly_neg a = Val r)) /\
  (forall (a b r : poly Ntt) (s : poly NttShoup), (poly_mul a b = Val r -> rel_poly_mul a b = Val r) /\ (poly_mul_shoup a s = Val r -> rel_poly_mul_shoup a s = Val r)) /\
  (forall isp cands, oracles isp cands -> forall R (a r : poly R) k, is_context isp cands (p_ctx a) -> poly_scalar_mul a k = Val r -> rel_poly_scalar_mul a k = Val r) /\
  (forall (a : poly PowerBasis) (b : poly Ntt), (pb_into_ntt a = Val b -> rel_pb_into_ntt a = Val b) /\ (ntt_into_pb b = Val a -> rel_ntt_into_pb b = Val a)) /\
  (forall l r, pk_from_shares l = Val r -> rel_pk_from_shares l = Val r) /\
  (forall l r, sks_from_shares l = Val r -> rel_sks_from_shares l = Val r) /\
  (forall l r, pksw_from_shares l = Val r -> rel_pksw_from_shares l = Val r).
Proof.
  split; [intros R a b r; split; [apply rel_poly_add_ok|split; [apply rel_poly_sub_ok|apply rel_poly_neg_ok]]|].
  split; [intros a b r s; split; [apply rel_poly_mul_ok|apply rel_poly_mul_shoup_ok]|].
  split; [intros isp cands Ho R a r k Hx; apply rel_poly_scalar_mul_ok, (ctx_of isp cands _ Ho Hx)|].
  split; [intros a b; split; [apply rel_pb_into_ntt_ok|apply rel_ntt_into_pb_ok]|].
  split; [apply rel_pk_from_shares_ok|]. split; [apply rel_sks_from_shares_ok|apply rel_pksw_from_shares_ok].
Qed.

Lemma mixed_returns {R} c k m u x v : ctx_ok c -> (exists z, length z = c_degree c /\ m = Val (poly_of R c v z) /\ mixed c k z u x) -> exists z, returns m c z /\ mixed c k z u x.
Proof. intros Hc (z & L & E & H). exists z. split; [eapply returns_val; eassumption|exact H]. Qed.
Lemma rel_rq_mixed_all : forall isp cands, oracles isp cands -> forall c c', is_context isp cands c -> is_context isp cands c' -> one_chain c c' ->
  (forall R (a b : poly R) x y, R <> NttShoup -> p_ctx a = c -> p_ctx b = c' -> represents a x -> represents b y ->
    (exists z, returns (rel_poly_add a b) c z /\ mixed c (length (c_moduli c')) z (zipWith Z.add x y) x) /\
    (exists z, returns (rel_poly_sub a b) c z /\ mixed c (length (c_moduli c')) z (zipWith Z.sub x y) x)) /\
  (forall (a b : poly Ntt) (s : poly NttShoup) x y w, p_ctx a = c -> p_ctx b = c' -> p_ctx s = c' -> represents a x -> represents b y -> represents s w ->
    (exists z, returns (rel_poly_mul a b) c z /\ mixed c (length (c_moduli c')) z (negacyclic (c_degree c) x y) x) /\
    (exists z, returns (rel_poly_mul_shoup a s) c z /\ mixed c (length (c_moduli c')) z (negacyclic (c_degree c) x w) x)).
Proof.
  intros isp cands Ho c c' Hx Hx' Hch. destruct (ctx_of isp cands c Ho Hx) as (_ & Hc). destruct (ctx_of isp cands c' Ho Hx') as (_ & Hc'). pose proof (proj1 Hch) as Ed. split.
  - intros R a b x y HR Ea Eb Ha Hb. apply rep_eq with (c := c) in Ha; [|exact Ea]. apply rep_eq with (c := c') in Hb; [|exact Eb]. destruct Ha as (Lx & ->). destruct Hb as (Ly & ->). rewrite <- Ed in Ly.
    split; eapply mixed_returns; try exact Hc; [apply (add_mixed isp cands)|apply (sub_mixed isp cands)]; assumption.
  - intros a b s x y w Ea Eb Es Ha Hb Hs. apply rep_eq with (c := c) in Ha; [|exact Ea]. apply rep_eq with (c := c') in Hb; [|exact Eb]. apply rep_eq with (c := c') in Hs; [|exact Es].
    destruct Ha as (Lx & ->). destruct Hb as (Ly & ->). destruct Hs as (Lw & ->). rewrite <- Ed in Ly, Lw.
    split; eapply mixed_returns; try exact Hc; rewrite <- nmul_negacyclic by assumption; [apply (mul_mixed isp cands)|apply (mul_shoup_mixed isp cands)]; assumption.
Qed.

(** All rows, or all but some. *)
Lemma nth_moduli c i q : ctx_ok c -> nth_error (c_moduli c) i = Some q -> exists op, nth_error (c_ops c) i = Some op /\ q = mod_p (nt_p op).
Proof.
  intros Hc E. rewrite (moduli_ops c Hc) in E. destruct (nth_error (c_ops c) i) as [op|] eqn:Eo.
  - rewrite (map_nth_error _ _ _ Eo) in E. exists op. split; congruence.
  - apply nth_error_None in Eo. assert (nth_error (map (fun op => mod_p (nt_p op)) (c_ops c)) i = None) by (apply nth_error_None; rewrite map_length; exact Eo). congruence.
Qed.
Lemma mixed_full c k z u x : ctx_ok c -> length z = c_degree c -> length u = c_degree c -> (length (c_moduli c) <= k)%nat -> mixed c k z u x -> congruent (modulus_of c) z u.
Proof.
  intros Hc Lz Lu Hk H. apply (lcong_all c Hc z u Lz Lu). intros op Hop. apply In_nth_error in Hop. destruct Hop as (i & Ei).
  pose proof (map_nth_error (fun op => mod_p (nt_p op)) _ _ Ei) as E. rewrite <- (moduli_ops c Hc) in E. specialize (H i _ E).
  assert (i < length (c_moduli c))%nat by (apply nth_error_Some; congruence). destruct (Nat.ltb_spec i k); [exact H|lia].
Qed.
Lemma returns_congruent {R} (m : M (poly R)) c x y : ctx_ok c -> congruent (modulus_of c) x y -> returns m c x -> returns m c y.
Proof.
  intros Hc H (r & E & Ec & (L & Er) & W). pose proof (Forall2_length_eq _ _ _ H) as Hl. rewrite Ec in *. exists r. split; [exact E|]. split; [exact Ec|]. split; [|exact W].
  split; rewrite Ec; [congruence|]. rewrite Er at 1. apply (poly_of_eq c Hc); [congruence..|]. split; [reflexivity|exact H].
Qed.
Lemma returns_length {R} (m : M (poly R)) c x : returns m c x -> length x = c_degree c.
Proof. intros (r & _ & <- & (L & _) & _). exact L. Qed.
Lemma rel_rq_down_all : forall isp cands, oracles isp cands -> forall c c', is_context isp cands c -> is_context isp cands c' ->
  c_degree c = c_degree c' -> (exists l, c_moduli c' = c_moduli c ++ l) ->
  (forall R (a b : poly R) x y, R <> NttShoup -> p_ctx a = c -> p_ctx b = c' -> represents a x -> represents b y ->
    returns (rel_poly_add a b) c (zipWith Z.add x y) /\ returns (rel_poly_sub a b) c (zipWith Z.sub x y)) /\
  (forall (a b : poly Ntt) (s : poly NttShoup) x y w, p_ctx a = c -> p_ctx b = c' -> p_ctx s = c' -> represents a x -> represents b y -> represents s w ->
    returns (rel_poly_mul a b) c (negacyclic (c_degree c) x y) /\ returns (rel_poly_mul_shoup a s) c (negacyclic (c_degree c) x w)).
Proof.
  intros isp cands Ho c c' Hx Hx' Ed Hl. destruct (rel_rq_mixed_all isp cands Ho c c' Hx Hx' (conj Ed (or_intror Hl))) as (H1 & H2). destruct (ctx_of isp cands c Ho Hx) as (_ & Hc).
  assert (Len : (length (c_moduli c) <= length (c_moduli c'))%nat) by (destruct Hl as (l & ->); rewrite app_length; lia).
  assert (G : forall R (m : M (poly R)) u x, length u = c_degree c -> (exists z, returns m c z /\ mixed c (length (c_moduli c')) z u x) -> returns m c u).
  { intros R m u x Lu (z & Hz & Hm). apply (returns_congruent m c z u Hc); [|exact Hz]. eapply mixed_full; try eassumption. eapply returns_length; eassumption. }
  split.
  - intros R a b x y HR Ea Eb Ha Hb. destruct (H1 R a b x y HR Ea Eb Ha Hb) as (A & B). destruct Ha as (Lx & _). destruct Hb as (Ly & _). rewrite Ea in Lx. rewrite Eb, <- Ed in Ly.
    split; [eapply G; [|exact A]; apply (ladd_length x y)|eapply G; [|exact B]; apply (lsub_length x y)]; assumption.
  - intros a b s x y w Ea Eb Es Ha Hb Hs. destruct (H2 a b s x y w Ea Eb Es Ha Hb Hs) as (A & B).
    split; [eapply G; [|exact A]|eapply G; [|exact B]]; apply negacyclic_length.
Qed.

(** The left operand has more rows: the right result exactly when the right operand counts for nothing in the remaining rows. *)
Lemma congruent_trans q x y z : congruent q x y -> congruent q y z -> congruent q x z.
Proof. unfold congruent. intros H. revert z. induction H as [|a b x y E H IH]; intros w H'; inversion H'; subst; constructor; [congruence|]. apply IH. assumption. Qed.
Lemma congruent_sym q x y : congruent q x y -> congruent q y x.
Proof. unfold congruent. induction 1; constructor; [congruence|assumption]. Qed.
Lemma cong_add_0 q a b : 0 < q -> a mod q = (a + b) mod q <-> b mod q = 0.
Proof.
  intros Hq. split; intros H.
  - replace b with (a + b - a) by ring. rewrite Zminus_mod, <- H, Z.sub_diag. apply Z.mod_0_l. lia.
  - rewrite Zplus_mod, H, Z.add_0_r, Z.mod_mod by lia. reflexivity.
Qed.
Lemma congruent_ladd_0 q x : 0 < q -> forall y, length x = length y -> congruent q x (ladd x y) <-> Forall (fun v => v mod q = 0) y.
Proof.
  intros Hq. induction x as [|a x IH]; intros [|b y] L; try discriminate.
  - split; intros _; constructor.
  - specialize (IH y ltac:(cbn in L; lia)). change (ladd (a :: x) (b :: y)) with (a + b :: ladd x y). unfold congruent in *. pose proof (cong_add_0 q a b Hq) as E.
    split; intros H; inversion H; subst; constructor; tauto.
Qed.
Lemma rep_congruent {R} (p : poly R) x y : ctx_ok (p_ctx p) -> represents p x -> represents p y -> congruent (modulus_of (p_ctx p)) x y.
Proof. intros Hc (L & E) (L' & E'). assert (E2 : poly_of R (p_ctx p) (p_vt p) x = poly_of R (p_ctx p) (p_vt p) y) by congruence. apply (poly_of_eq _ Hc) in E2; [|assumption..]. apply E2. Qed.
Lemma rel_rq_up_all : forall isp cands, oracles isp cands -> forall c c', is_context isp cands c -> is_context isp cands c' -> one_chain c c' ->
  forall R (a b : poly R) x y, R <> NttShoup -> p_ctx a = c -> p_ctx b = c' -> represents a x -> represents b y ->
  (returns (rel_poly_add a b) c (zipWith Z.add x y) <->
   forall i q, (length (c_moduli c') <= i)%nat -> nth_error (c_moduli c) i = Some q -> Forall (fun v => v mod q = 0) y).
Proof.
  intros isp cands Ho c c' Hx Hx' Hch R a b x y HR Ea Eb Ha Hb.
  destruct (proj1 (rel_rq_mixed_all isp cands Ho c c' Hx Hx' Hch) R a b x y HR Ea Eb Ha Hb) as ((z & Hz & Hm) & _).
  destruct (ctx_of isp cands c Ho Hx) as (_ & Hc). destruct Ha as (Lx & _). destruct Hb as (Ly & _). rewrite Ea in Lx. rewrite Eb, <- (proj1 Hch) in Ly.
  pose proof (returns_length _ _ _ Hz) as Lz. pose proof (ladd_length x y _ Lx Ly) as Lu. change (zipWith Z.add x y) with (ladd x y) in *.
  assert (P : forall i q, nth_error (c_moduli c) i = Some q -> 0 < q).
  { intros i q E. destruct (nth_moduli c i q Hc E) as (op & Eo & ->). destruct (op_ok c Hc op (nth_error_In _ _ Eo)) as (K & w & Hok & _). pose proof (proj1 (valid_fields _ (ok_m _ _ _ Hok))). lia. }
  split.
  - intros Hr i q Hi E. destruct Hz as (r & Er & Ec & Rz & _). destruct Hr as (r' & Er' & _ & Ru & _). assert (r' = r) by congruence. subst r'.
    pose proof (rep_congruent r z (ladd x y) ltac:(rewrite Ec; exact Hc) Rz Ru) as C. rewrite Ec in C.
    destruct (nth_moduli c i q Hc E) as (op & Eo & Eq). apply (congruent_ladd_0 q x (P _ _ E) y ltac:(congruence)).
    specialize (Hm i q E). destruct (Nat.ltb_spec i (length (c_moduli c'))) as [Hlt|_]; [lia|].
    eapply congruent_trans; [apply congruent_sym, Hm|]. rewrite Eq. apply (proj2 (lcong_all c Hc z (ladd x y) Lz Lu)); [exact C|]. exact (nth_error_In _ _ Eo).
  - intros H. apply (returns_congruent _ c z (ladd x y) Hc); [|exact Hz]. apply (lcong_all c Hc z _ Lz Lu). intros op Hop. apply In_nth_error in Hop. destruct Hop as (i & Ei).
    pose proof (map_nth_error (fun op => mod_p (nt_p op)) _ _ Ei) as E. rewrite <- (moduli_ops c Hc) in E. cbv beta in E. pose proof (Hm i _ E) as Hi.
    destruct (Nat.ltb_spec i (length (c_moduli c'))) as [Hlt|Hge]; [exact Hi|]. eapply congruent_trans; [exact Hi|]. apply congruent_ladd_0; [eapply P; exact E|congruence|]. apply (H i); assumption.
Qed.

(** Sums. *)
Definition parts_of {R} (l : list (poly R)) (ys : list (list Z)) : list (nat * list Z) := combine (map (fun p => length (c_moduli (p_ctx p))) l) ys.
Lemma sum_mixed isp cands c : oracles isp cands -> is_context isp cands c -> forall R, R <> NttShoup -> forall (l : list (poly R)) ys,
  Forall2 (fun p y => is_context isp cands (p_ctx p) /\ one_chain c (p_ctx p) /\ represents p y) l ys ->
  forall v x, length x = c_degree c -> exists v' z, length z = c_degree c /\ rel_poly_sum (poly_of R c v x) l = Val (poly_of R c v' z) /\
    forall i q, nth_error (c_moduli c) i = Some q -> congruent q z (sum_at i x (parts_of l ys)).
Proof.
  intros Ho Hx R HR l ys H. destruct (ctx_of isp cands c Ho Hx) as (_ & Hc). unfold rel_poly_sum.
  assert (AddC : forall q u u' y, congruent q u u' -> congruent q (zipWith Z.add u y) (zipWith Z.add u' y)).
  { intros q u u' y Hu. revert y. induction Hu as [|a b u u' E Hu IH]; intros [|w y]; cbn [zipWith]; try constructor; [rewrite Zplus_mod, E, <- Zplus_mod; reflexivity|apply IH]. }
  assert (SumC : forall q i l u u', congruent q u u' -> congruent q (sum_at i u l) (sum_at i u' l)).
  { intros q i l0. induction l0 as [|(k & y) l0 IH]; intros u u' Hu; cbn [sum_at fold_left fst snd]; [exact Hu|]. apply IH. destruct (Nat.ltb i k); [apply AddC|]; exact Hu. }
  induction H as [|p y l ys (Hp & Hch & Ry) H IH]; intros v x Lx.
  - exists v, x. split; [exact Lx|]. split; [reflexivity|]. intros i q _. cbn [parts_of map combine sum_at fold_left]. unfold congruent. clear. induction x; constructor; auto.
  - destruct (ctx_of isp cands _ Ho Hp) as (_ & Hc'). destruct Ry as (Ly & Ep). rewrite <- (proj1 Hch) in Ly.
    destruct (add_mixed isp cands c (p_ctx p) Hx Hp Hc Hc' Hch R v (p_vt p) x y Lx Ly HR) as (z & Lz & Ez & Hz).
    apply (eq_trans (f_equal (rel_poly_add (poly_of R c v x)) Ep)) in Ez. cbn [foldM]. rewrite Ez. cbn [bind]. destruct (IH (v && p_vt p) z Lz) as (v' & z' & Lz' & Ez' & Hz'). exists v', z'. split; [exact Lz'|]. split; [exact Ez'|].
    intros i q E. eapply congruent_trans; [apply Hz', E|]. unfold parts_of. cbn [map combine sum_at fold_left fst snd]. apply SumC. specialize (Hz i q E).
    destruct (Nat.ltb i (length (c_moduli (p_ctx p)))); exact Hz.
Qed.
Lemma rel_sum_all : forall isp cands, oracles isp cands -> forall c, is_context isp cands c -> forall R, R <> NttShoup ->
  forall (p : poly R) x (l : list (poly R)) ys, p_ctx p = c -> represents p x ->
  Forall2 (fun p y => is_context isp cands (p_ctx p) /\ one_chain c (p_ctx p) /\ represents p y) l ys ->
  exists z, returns (rel_poly_sum p l) c z /\
    forall i q, nth_error (c_moduli c) i = Some q -> congruent q z (sum_at i x (combine (map (fun p => length (c_moduli (p_ctx p))) l) ys)).
Proof.
  intros isp cands Ho c Hx R HR p x l ys Ep Hp H. destruct (ctx_of isp cands c Ho Hx) as (_ & Hc). apply rep_eq with (c := c) in Hp; [|exact Ep]. destruct Hp as (Lx & ->).
  destruct (sum_mixed isp cands c Ho Hx R HR l ys H (p_vt p) x Lx) as (v' & z & Lz & Ez & Hz). exists z. split; [eapply returns_val; eassumption|exact Hz].
Qed.

(** Aggregation of shares: any mixture of levels gives an object in the release build and a panic in the debug build. *)
Lemma same_ctx isp cands c c' : oracles isp cands -> is_context isp cands c -> is_context isp cands c' -> ctx_eqb c c' = true -> c' = c.
Proof.
  intros Ho (mo & d & E) (mo' & d' & E') H. apply ctx_eqb_true in H. destruct (built_unique isp cands c _ _ Ho E) as (A & B). destruct (built_unique isp cands c' _ _ Ho E') as (A' & B').
  destruct H as (Hm & Hd). assert (mo' = mo) by congruence. assert (d' = d) by congruence. subst. congruence.
Qed.
Lemma sum_debug isp cands c : oracles isp cands -> is_context isp cands c -> forall R, R <> NttShoup -> forall l : list (poly R),
  Forall (fun p => is_context isp cands (p_ctx p) /\ well_formed p) l -> (exists p, In p l /\ p_ctx p <> c) ->
  forall p, p_ctx p = c -> well_formed p -> foldM poly_add l p = Panic.
Proof.
  intros Ho Hx R HR l H. destruct (ctx_of isp cands c Ho Hx) as (_ & Hc). induction H as [|b l (Hb & Wb) H IH]; intros (d & Hin & Hd) p Ep Wp; [destruct Hin|].
  cbn [foldM]. destruct (ctx_eqb (p_ctx p) (p_ctx b)) eqn:E.
  - rewrite Ep in E. apply (same_ctx isp cands c (p_ctx b) Ho Hx Hb) in E.
    destruct (wf_exists c Hc p Ep Wp) as (x & Lx & _ & ->). destruct (wf_exists c Hc b E Wb) as (y & Ly & _ & Eb). rewrite Eb, (add_eq c Hc) by assumption. cbn [bind].
    apply IH; [|reflexivity|apply (poly_of_wf c Hc), ladd_length; assumption]. destruct Hin as [->|Hin]; [contradiction|]. exists d. auto.
  - unfold poly_add at 1, poly_op2. rewrite E. destruct (negb (p_lazy p) && negb (p_lazy b)); reflexivity.
Qed.
Lemma good_wf isp cands c l ys : oracles isp cands -> Forall2 (good_share isp cands c) l ys -> Forall (fun p => is_context isp cands (p_ctx p) /\ well_formed p) l.
Proof.
  intros Ho H. induction H as [|p y l ys (Hp & _ & Ry) H IH]; constructor; [|exact IH]. split; [exact Hp|]. destruct Ry as (L & ->). apply poly_of_wf; [|exact L]. apply (ctx_of isp cands _ Ho Hp).
Qed.
Lemma rep_wf isp cands R (p : poly R) x : oracles isp cands -> is_context isp cands (p_ctx p) -> represents p x -> well_formed p.
Proof. intros Ho Hp (L & ->). apply poly_of_wf; [|exact L]. apply (ctx_of isp cands _ Ho Hp). Qed.
Lemma ctx_eqb_refl_false (c : ctx) l : (forall p : poly Ntt, In p l -> p_ctx p = c) -> existsb (fun p => negb (ctx_eqb (p_ctx p) c)) l = false.
Proof. induction l as [|p l IH]; intros H; [reflexivity|]. cbn [existsb]. rewrite (H p (or_introl eq_refl)), ctx_eqb_refl, IH by (intros; apply H; right; assumption). reflexivity. Qed.
Lemma ct_new_two (p0 p1 : poly Ntt) par l : p_ctx p1 = p_ctx p0 -> level_of_context par (p_ctx p0) = Val l -> ct_new [p0; p1] par = Val (mkCt par None [p0; p1] l).
Proof. intros E H. cbn [ct_new]. rewrite H. cbn [bind]. rewrite ctx_eqb_refl_false; [reflexivity|]. intros p [<-|[<-|[]]]; auto. Qed.

Section Shares.
  Variables (isp : Z -> bool) (cands : Z -> list Z) (c : ctx).
  Hypotheses (Ho : oracles isp cands) (Hx : is_context isp cands c).
  Notation sizes l := (map (fun p => length (c_moduli (p_ctx p))) l).

  Lemma pk_shares share rest x ys lvl : p_ctx (pks_p0 share) = c -> p_ctx (pks_crp share) = c -> represents (pks_p0 share) x -> level_of_context (pks_par share) c = Val lvl ->
    Forall2 (good_share isp cands c) (map pks_p0 rest) ys ->
    (exists p0 z, rel_pk_from_shares (share :: rest) = Val (mkPk (pks_par share) (mkCt (pks_par share) None [p0; pks_crp share] lvl)) /\
       p_ctx p0 = c /\ represents p0 z /\ forall i q, nth_error (c_moduli c) i = Some q -> congruent q z (sum_at i x (combine (sizes (map pks_p0 rest)) ys))) /\
    ((exists sh, In sh rest /\ p_ctx (pks_p0 sh) <> c) -> pk_from_shares (share :: rest) = Panic).
  Proof.
    intros E0 E1 R0 El H. split.
    - destruct (rel_sum_all isp cands Ho c Hx Ntt ltac:(discriminate) (pks_p0 share) x _ ys E0 R0 H) as (z & (p0 & Er & Ec & Rz & _) & Hz).
      exists p0, z. split; [|auto]. cbn [rel_pk_from_shares]. rewrite Er. cbn [bind]. rewrite (ct_new_two p0 (pks_crp share) _ lvl) by congruence. reflexivity.
    - intros (sh & Hin & Hne). cbn [pk_from_shares]. rewrite <- (foldM_map poly_add pks_p0).
      rewrite (sum_debug isp cands c Ho Hx Ntt ltac:(discriminate) _ (good_wf isp cands c _ _ Ho H)); [reflexivity| |exact E0|].
      + exists (pks_p0 sh). split; [apply in_map, Hin|exact Hne].
      + apply (rep_wf isp cands _ _ x Ho); [rewrite E0; exact Hx|exact R0].
  Qed.
  Lemma chain_refl : one_chain c c.
  Proof. split; [reflexivity|]. left. exists []. rewrite app_nil_r. reflexivity. Qed.
  Lemma add_back (p h : poly Ntt) x y : p_ctx p = c -> p_ctx h = c -> represents p x -> represents h y ->
    exists r, rel_poly_add p h = Val r /\ p_ctx r = c /\ represents r (zipWith Z.add x y).
  Proof.
    intros Ep Eh Rp Rh. destruct (rel_rq_down_all isp cands Ho c c Hx Hx eq_refl ltac:(exists []; rewrite app_nil_r; reflexivity)) as (H & _).
    destruct (H Ntt p h x y ltac:(discriminate) Ep Eh Rp Rh) as ((r & Er & Ec & Rr & _) & _). eauto.
  Qed.
  Lemma congruent_add_r q x : forall y y', congruent q y y' -> congruent q (zipWith Z.add x y) (zipWith Z.add x y').
  Proof.
    intros y y' H. revert x. induction H as [|a b y y' E H IH]; intros [|w x]; cbn [zipWith]; try constructor; [|apply IH]. rewrite Zplus_mod, E, <- Zplus_mod. reflexivity.
  Qed.
  Lemma sks_shares share rest c0 c1 x h ys lvl : ct_c (sks_ct share) = [c0; c1] -> p_ctx c0 = c -> p_ctx c1 = c -> represents c0 x ->
    p_ctx (sks_h share) = c -> represents (sks_h share) h -> level_of_context (sks_par share) c = Val lvl ->
    Forall2 (good_share isp cands c) (map sks_h rest) ys ->
    (exists p0 z, rel_sks_from_shares (share :: rest) = Val (mkCt (sks_par share) None [p0; c1] lvl) /\ p_ctx p0 = c /\ represents p0 z /\
       forall i q, nth_error (c_moduli c) i = Some q -> congruent q z (zipWith Z.add x (sum_at i h (combine (sizes (map sks_h rest)) ys)))) /\
    ((exists sh, In sh rest /\ p_ctx (sks_h sh) <> c) -> sks_from_shares (share :: rest) = Panic).
  Proof.
    intros Ect E0 E1 Rx Eh Rh El H. split.
    - destruct (rel_sum_all isp cands Ho c Hx Ntt ltac:(discriminate) (sks_h share) h _ ys Eh Rh H) as (z & (s & Er & Ec & Rz & _) & Hz).
      destruct (add_back c0 s x z E0 Ec Rx Rz) as (p0 & Ep & Ecp & Rp). exists p0, (zipWith Z.add x z). split; [|split; [exact Ecp|split; [exact Rp|]]].
      + cbn [rel_sks_from_shares]. rewrite Er. cbn [bind]. rewrite Ect, !(RnsScalerProofs.get_lt [c0; c1] _ c0) by (cbn; lia). cbn [nth bind]. rewrite Ep. cbn [bind]. apply ct_new_two; congruence.
      + intros i q E. apply congruent_add_r, Hz, E.
    - intros (sh & Hin & Hne). cbn [sks_from_shares]. rewrite <- (foldM_map poly_add sks_h).
      rewrite (sum_debug isp cands c Ho Hx Ntt ltac:(discriminate) _ (good_wf isp cands c _ _ Ho H)); [reflexivity| |exact Eh|].
      + exists (sks_h sh). split; [apply in_map, Hin|exact Hne].
      + apply (rep_wf isp cands _ _ h Ho); [rewrite Eh; exact Hx|exact Rh].
  Qed.
  Lemma pair_sum rest : forall (h0 h1 s0 s1 : poly Ntt), rel_poly_sum h0 (map pksw_h0 rest) = Val s0 -> rel_poly_sum h1 (map pksw_h1 rest) = Val s1 ->
    foldM (fun h sh => h0 <- rel_poly_add (fst h) (pksw_h0 sh) ;; h1 <- rel_poly_add (snd h) (pksw_h1 sh) ;; Val (h0, h1)) rest (h0, h1) = Val (s0, s1).
  Proof.
    unfold rel_poly_sum. induction rest as [|sh rest IH]; intros h0 h1 s0 s1 E0 E1; cbn [map foldM] in *; [congruence|].
    apply bind_inv in E0. destruct E0 as (t0 & T0 & E0). apply bind_inv in E1. destruct E1 as (t1 & T1 & E1). cbn [fst snd]. rewrite T0. cbn [bind]. rewrite T1. cbn [bind]. apply IH; assumption.
  Qed.
  Lemma pksw_shares share rest x a0 a1 ys0 ys1 lvl : p_ctx (pksw_c0 share) = c -> represents (pksw_c0 share) x ->
    p_ctx (pksw_h0 share) = c -> represents (pksw_h0 share) a0 -> p_ctx (pksw_h1 share) = c -> represents (pksw_h1 share) a1 -> level_of_context (pksw_par share) c = Val lvl ->
    Forall2 (good_share isp cands c) (map pksw_h0 rest) ys0 -> Forall2 (good_share isp cands c) (map pksw_h1 rest) ys1 ->
    exists p0 p1 z0 z1, rel_pksw_from_shares (share :: rest) = Val (mkCt (pksw_par share) None [p0; p1] lvl) /\ p_ctx p0 = c /\ p_ctx p1 = c /\ represents p0 z0 /\ represents p1 z1 /\
       forall i q, nth_error (c_moduli c) i = Some q ->
         congruent q z0 (zipWith Z.add x (sum_at i a0 (combine (sizes (map pksw_h0 rest)) ys0))) /\ congruent q z1 (sum_at i a1 (combine (sizes (map pksw_h1 rest)) ys1)).
  Proof.
    intros E0 Rx Eh0 Rh0 Eh1 Rh1 El H0 H1.
    destruct (rel_sum_all isp cands Ho c Hx Ntt ltac:(discriminate) (pksw_h0 share) a0 _ ys0 Eh0 Rh0 H0) as (z & (s & Er & Ec & Rz & _) & Hz).
    destruct (rel_sum_all isp cands Ho c Hx Ntt ltac:(discriminate) (pksw_h1 share) a1 _ ys1 Eh1 Rh1 H1) as (z1 & (s1 & Er1 & Ec1 & Rz1 & _) & Hz1).
    destruct (add_back (pksw_c0 share) s x z E0 Ec Rx Rz) as (p0 & Ep & Ecp & Rp). exists p0, s1, (zipWith Z.add x z), z1.
    split; [|split; [exact Ecp|split; [exact Ec1|split; [exact Rp|split; [exact Rz1|]]]]].
    - cbn [rel_pksw_from_shares]. rewrite (pair_sum _ _ _ _ _ Er Er1). cbn [bind]. rewrite Ep. cbn [bind]. apply ct_new_two; congruence.
    - intros i q E. split; [apply congruent_add_r, Hz, E|apply Hz1, E].
  Qed.
End Shares.

Section Pair.
  Variables (isp : Z -> bool) (cands : Z -> list Z) (c : ctx).
  Hypotheses (Ho : oracles isp cands) (Hx : is_context isp cands c).
  Lemma add_debug (a b : poly Ntt) : p_ctx a = c -> well_formed a -> is_context isp cands (p_ctx b) -> well_formed b ->
    (p_ctx b = c /\ exists r, poly_add a b = Val r /\ p_ctx r = c /\ well_formed r) \/ (p_ctx b <> c /\ poly_add a b = Panic).
  Proof.
    intros Ea Wa Hb Wb. destruct (ctx_of isp cands c Ho Hx) as (_ & Hc). destruct (ctx_eqb (p_ctx a) (p_ctx b)) eqn:E.
    - left. rewrite Ea in E. apply (same_ctx isp cands c (p_ctx b) Ho Hx Hb) in E. split; [exact E|].
      destruct (wf_exists c Hc a Ea Wa) as (x & Lx & _ & ->). destruct (wf_exists c Hc b E Wb) as (y & Ly & _ & Eb). rewrite Eb, (add_eq c Hc) by (assumption || discriminate).
      eexists. split; [reflexivity|]. split; [reflexivity|]. apply (poly_of_wf c Hc), ladd_length; assumption.
    - right. split; [intros Eb; rewrite Ea, Eb, ctx_eqb_refl in E; discriminate|]. unfold poly_add, poly_op2. rewrite E. destruct (negb (p_lazy a) && negb (p_lazy b)); reflexivity.
  Qed.
  Lemma pair_debug rest : Forall (fun p => is_context isp cands (p_ctx p) /\ well_formed p) (map pksw_h0 rest) -> Forall (fun p => is_context isp cands (p_ctx p) /\ well_formed p) (map pksw_h1 rest) ->
    (exists sh, In sh rest /\ (p_ctx (pksw_h0 sh) <> c \/ p_ctx (pksw_h1 sh) <> c)) ->
    forall h0 h1, p_ctx h0 = c -> well_formed h0 -> p_ctx h1 = c -> well_formed h1 ->
    foldM (fun h sh => h0 <- poly_add (fst h) (pksw_h0 sh) ;; h1 <- poly_add (snd h) (pksw_h1 sh) ;; Val (h0, h1)) rest (h0, h1) = Panic.
  Proof.
    induction rest as [|sh rest IH]; intros F0 F1 (d & Hin & Hd) h0 h1 E0 W0 E1 W1; [destruct Hin|]. cbn [map] in *. destruct (Forall_inv F0) as (A & B). pose proof (Forall_inv_tail F0) as F0'. destruct (Forall_inv F1) as (A' & B'). pose proof (Forall_inv_tail F1) as F1'.
    cbn [foldM fst snd]. destruct (add_debug h0 _ E0 W0 A B) as [(K & r & Er & Ec & Wr)|(K & Er)]; rewrite Er; cbn [bind]; [|reflexivity].
    destruct (add_debug h1 _ E1 W1 A' B') as [(K' & r' & Er' & Ec' & Wr')|(K' & Er')]; rewrite Er'; cbn [bind]; [|reflexivity].
    apply IH; try assumption. destruct Hin as [->|Hin]; [destruct Hd; contradiction|]. exists d. auto.
  Qed.
End Pair.

Lemma rel_pk_shares_all : forall isp cands, oracles isp cands -> forall c, is_context isp cands c ->
  forall share rest x ys lvl, p_ctx (pks_p0 share) = c -> p_ctx (pks_crp share) = c -> represents (pks_p0 share) x -> level_of_context (pks_par share) c = Val lvl ->
  Forall2 (good_share isp cands c) (map pks_p0 rest) ys ->
  (exists p0 z, rel_pk_from_shares (share :: rest) = Val (mkPk (pks_par share) (mkCt (pks_par share) None [p0; pks_crp share] lvl)) /\ p_ctx p0 = c /\ represents p0 z /\
     forall i q, nth_error (c_moduli c) i = Some q -> congruent q z (sum_at i x (combine (map (fun sh => length (c_moduli (p_ctx (pks_p0 sh)))) rest) ys))) /\
  ((exists sh, In sh rest /\ p_ctx (pks_p0 sh) <> c) -> pk_from_shares (share :: rest) = Panic).
Proof. intros isp cands Ho c Hx share rest x ys lvl. intros. rewrite <- (map_map pks_p0 (fun p => length (c_moduli (p_ctx p)))). apply (pk_shares isp cands c Ho Hx); assumption. Qed.
Lemma rel_sks_shares_all : forall isp cands, oracles isp cands -> forall c, is_context isp cands c ->
  forall share rest c0 c1 x h ys lvl, ct_c (sks_ct share) = [c0; c1] -> p_ctx c0 = c -> p_ctx c1 = c -> represents c0 x ->
  p_ctx (sks_h share) = c -> represents (sks_h share) h -> level_of_context (sks_par share) c = Val lvl ->
  Forall2 (good_share isp cands c) (map sks_h rest) ys ->
  (exists p0 z, rel_sks_from_shares (share :: rest) = Val (mkCt (sks_par share) None [p0; c1] lvl) /\ p_ctx p0 = c /\ represents p0 z /\
     forall i q, nth_error (c_moduli c) i = Some q -> congruent q z (zipWith Z.add x (sum_at i h (combine (map (fun sh => length (c_moduli (p_ctx (sks_h sh)))) rest) ys)))) /\
  ((exists sh, In sh rest /\ p_ctx (sks_h sh) <> c) -> sks_from_shares (share :: rest) = Panic).
Proof. intros isp cands Ho c Hx share rest c0 c1 x h ys lvl. intros. rewrite <- (map_map sks_h (fun p => length (c_moduli (p_ctx p)))). apply (sks_shares isp cands c Ho Hx) with (c0 := c0); assumption. Qed.
Lemma rel_pksw_shares_all : forall isp cands, oracles isp cands -> forall c, is_context isp cands c ->
  forall share rest x a0 a1 ys0 ys1 lvl, p_ctx (pksw_c0 share) = c -> represents (pksw_c0 share) x ->
  p_ctx (pksw_h0 share) = c -> represents (pksw_h0 share) a0 -> p_ctx (pksw_h1 share) = c -> represents (pksw_h1 share) a1 -> level_of_context (pksw_par share) c = Val lvl ->
  Forall2 (good_share isp cands c) (map pksw_h0 rest) ys0 -> Forall2 (good_share isp cands c) (map pksw_h1 rest) ys1 ->
  (exists p0 p1 z0 z1, rel_pksw_from_shares (share :: rest) = Val (mkCt (pksw_par share) None [p0; p1] lvl) /\ p_ctx p0 = c /\ p_ctx p1 = c /\ represents p0 z0 /\ represents p1 z1 /\
     forall i q, nth_error (c_moduli c) i = Some q ->
       congruent q z0 (zipWith Z.add x (sum_at i a0 (combine (map (fun sh => length (c_moduli (p_ctx (pksw_h0 sh)))) rest) ys0))) /\
       congruent q z1 (sum_at i a1 (combine (map (fun sh => length (c_moduli (p_ctx (pksw_h1 sh)))) rest) ys1))) /\
  ((exists sh, In sh rest /\ (p_ctx (pksw_h0 sh) <> c \/ p_ctx (pksw_h1 sh) <> c)) -> pksw_from_shares (share :: rest) = Panic).
Proof.
  intros isp cands Ho c Hx share rest x a0 a1 ys0 ys1 lvl. intros. split.
  - rewrite <- (map_map pksw_h0 (fun p => length (c_moduli (p_ctx p)))), <- (map_map pksw_h1 (fun p => length (c_moduli (p_ctx p)))). apply (pksw_shares isp cands c Ho Hx); assumption.
  - intros Hd. cbn [pksw_from_shares]. rewrite (pair_debug isp cands c Ho Hx); [reflexivity|eapply good_wf; eassumption|eapply good_wf; eassumption|exact Hd|assumption| |assumption|].
    + eapply (rep_wf isp cands); [exact Ho| |eassumption]. match goal with H : p_ctx (pksw_h0 share) = c |- _ => rewrite H end. exact Hx.
    + eapply (rep_wf isp cands); [exact Ho| |eassumption]. match goal with H : p_ctx (pksw_h1 share) = c |- _ => rewrite H end. exact Hx.
Qed.
Lemma rel_rq_lazy_all :
  (forall R (a b : poly R), p_lazy a = true \/ p_lazy b = true -> rel_poly_add a b = Panic /\ rel_poly_sub a b = Panic) /\
  (forall (a b : poly Ntt), p_lazy a = true \/ p_lazy b = true -> rel_poly_mul a b = Panic) /\
  (forall (a : poly Ntt) (b : poly NttShoup), p_lazy b = true -> rel_poly_mul_shoup a b = Panic) /\
  (forall R (a : poly R), p_lazy a = true -> rel_poly_neg a = Panic).
Proof.
  assert (G : forall R fv fc (a b : poly R), p_lazy a = true \/ p_lazy b = true -> rel_poly_op2 fv fc a b = Panic).
  { intros R fv fc a b H. unfold rel_poly_op2. assert (E : negb (p_lazy a) && negb (p_lazy b) = false) by (destruct H as [-> | ->]; [reflexivity|apply andb_false_r]). rewrite E. reflexivity. }
  split; [intros R a b H; split; apply G, H|]. split; [intros a b H; apply G, H|]. split.
  - intros a b H. unfold rel_poly_mul_shoup. rewrite H. reflexivity.
  - intros R a H. unfold rel_poly_neg. rewrite H. reflexivity.
Qed.
