(** The multiparty protocols on elements of Z[X]/(X^N+1). *)
From Verif Require Import Outcome BasicSpec OutcomeLemmas ZqModel ZqProofs NumTheory NttModel PolySpec PolyRing NttPure NttStages NttProofs CbdModel CbdSpec CbdProofs.
From Verif Require Import TranscodeModel PrimesModel RnsModel RnsSpec RnsProofs RqModel RqSpec RqCtx RqRows RqProofs RingRn RqOps RqIO RqPropLemmas ParamsModel BfvSpec ParamsProofs BuildProofs ParamsPropLemmas PlainModel CipherModel OpsModel SchemeSpec CipherSpec PlainProofs RnPoly CipherProofs EncryptProofs CipherPropLemmas LinearPropLemmas KeysModel KeysSpec KeysProofs KeySwitchProofs KeyNoiseProofs KeyOpsProofs KeyPropLemmas MbfvModel MbfvSpec.
From Coq Require Import Znumtheory.
Set Default Proof Using "Type".

Lemma mapM_In {A B} (f : A -> M B) (g : A -> B) l : (forall a, In a l -> f a = Val (g a)) -> mapM f l = Val (map g l).
Proof. intros H. rewrite <- (map_id l) at 1. apply mapM_map. exact H. Qed.
Lemma par_eqb_refl p : par_eqb p p = true.
Proof. unfold par_eqb. rewrite Nat.eqb_refl, !Z.eqb_refl. unfold list_eqb. destruct (list_eq_dec Z.eq_dec (pa_moduli p) (pa_moduli p)); [reflexivity|congruence]. Qed.
Lemma enumerate_map {A} (f : nat -> A) k : enumerate (map f (seq 0 k)) = map (fun i => (i, f i)) (seq 0 k).
Proof. unfold enumerate. rewrite map_length, seq_length. generalize (seq 0 k) as l. induction l as [|i l IH]; [reflexivity|]. cbn [map combine]. rewrite IH. reflexivity. Qed.

(** ** Sums over the members of a group *)
Section Sum.
  Context {N : nat} {T : Type}.
  Add Ring Rn_sum : (Rn_ring N).
  Local Open Scope rn_scope.
  Definition psum (f : T -> Rn N) (ps : list T) : Rn N := fold_right (fun p a => f p + a) (r0 N) ps.
  Lemma psum_cons f p ps : psum f (p :: ps) = f p + psum f ps.
  Proof. reflexivity. Qed.
  Lemma psum_add f g ps : psum (fun p => f p + g p) ps = psum f ps + psum g ps.
  Proof. induction ps as [|p ps IH]; cbn [psum fold_right]; [ring|]. fold (psum (fun p => f p + g p) ps) (psum f ps) (psum g ps). rewrite IH. ring. Qed.
  Lemma psum_sub f g ps : psum (fun p => f p - g p) ps = psum f ps - psum g ps.
  Proof. induction ps as [|p ps IH]; cbn [psum fold_right]; [ring|]. fold (psum (fun p => f p - g p) ps) (psum f ps) (psum g ps). rewrite IH. ring. Qed.
  Lemma psum_mul a f ps : psum (fun p => a * f p) ps = a * psum f ps.
  Proof. induction ps as [|p ps IH]; cbn [psum fold_right]; [ring|]. fold (psum (fun p => a * f p) ps) (psum f ps). rewrite IH. ring. Qed.
  Lemma psum_ext f g ps : (forall p, In p ps -> f p = g p) -> psum f ps = psum g ps.
  Proof. intros H. induction ps as [|p ps IH]; [reflexivity|]. cbn [psum fold_right]. fold (psum f ps) (psum g ps). rewrite (H p (or_introl eq_refl)), IH; [reflexivity|]. intros q Hq. apply H. right. exact Hq. Qed.
  Lemma psum_norm f ps B : (forall p, In p ps -> (rnorm (f p) <= B)%Z) -> (rnorm (psum f ps) <= Z.of_nat (length ps) * B)%Z.
  Proof.
    intros H. induction ps as [|p ps IH]; cbn [psum fold_right length].
    - rewrite rnorm_0. lia.
    - fold (psum f ps). pose proof (rnorm_add N (f p) (psum f ps)). pose proof (H p (or_introl eq_refl)). specialize (IH (fun q Hq => H q (or_intror Hq))). rewrite Nat2Z.inj_succ. lia.
  Qed.
End Sum.

Definition toR (N : nat) (l : list Z) : Rn N := mkR (map (fun i => nth i l 0) (seq 0 N)) (eq_trans (map_length _ _) (seq_length N 0)).
Lemma map_nth_seq (l : list Z) : map (fun i => nth i l 0) (seq 0 (length l)) = l.
Proof.
  apply (nth_ext _ _ 0 0); [rewrite map_length, seq_length; reflexivity|]. intros i Hi. rewrite map_length, seq_length in Hi. rewrite (nth_indep _ 0 (nth 0 l 0)) by (rewrite map_length, seq_length; exact Hi).
  rewrite (map_nth (fun i => nth i l 0)), seq_nth by exact Hi. reflexivity.
Qed.
Lemma rl_toR N l : length l = N -> rl (toR N l) = l.
Proof. intros <-. unfold toR. rewrite rl_mkR. apply map_nth_seq. Qed.
Lemma toR_mkR N l (H : length l = N) : mkR l H = toR N l.
Proof. apply rl_inj. rewrite rl_mkR, rl_toR by exact H. reflexivity. Qed.
Lemma sum_sks_R par (sks : list secret_key) : Forall (fun sk => length (sk_coeffs sk) = pa_degree par) sks ->
  sk_coeffs (sum_sks par sks) = rl (psum (fun sk => toR (pa_degree par) (sk_coeffs sk)) sks).
Proof.
  unfold sum_sks. cbn [sk_coeffs]. induction 1 as [|sk sks H _ IH]; [reflexivity|]. cbn [map fold_right psum]. rewrite rl_add, rl_toR by exact H. rewrite IH. reflexivity.
Qed.

Section Level.
  Variables (isp : Z -> bool) (cands : Z -> list Z) (Ho : oracles isp cands) (par : params) (G : good_params isp cands par).
  Variables (l : nat) (lv : level_ctx) (c : ctx) (A : at_level isp cands par l lv c).
  Notation N := (pa_degree par).
  Notation t := (pa_t par).
  Notation v := (pa_variance par).
  Notation Q := (prod_list (level_moduli (pa_moduli par) l)).
  Add Ring Rn_mb : (Rn_ring N).
  Set Default Proof Using "All".
  Local Open Scope rn_scope.
  Local Lemma Hc : ctx_ok c. Proof. exact (good_ok _ (al_good _ _ _ _ _ _ A)). Qed.
  Local Lemma Hd : c_degree c = N. Proof. exact (al_deg _ _ _ _ _ _ A). Qed.
  Local Lemma Hv : (1 <= v <= 32)%Z. Proof. exact (gp_var _ _ _ G). Qed.
  Definition kR (sk : secret_key) : Rn N := toR N (sk_coeffs sk).
  Lemma sk_poly_R sk : is_sk par sk -> sk_poly sk c = Val (P Ntt c false (kR sk)).
  Proof. intros (_ & L & Hi). rewrite (sk_poly_eq isp cands Ho par G l lv c A sk L Hi). unfold kR. rewrite (toR_mkR N _ L). reflexivity. Qed.
  Lemma small_R rng : words rng -> poly_small Ntt c v rng = Val (P Ntt c false (cbd_rn N v rng)).
  Proof. intros H. apply (P_small c Hc N Hd Ntt v rng H Hv). Qed.
  Lemma small_norm rng : (rnorm (cbd_rn N v rng) <= 2 * v)%Z.
  Proof. apply (cbd_bound c N Hd). pose proof Hv. lia. Qed.
  Lemma ct_new_P v0 v1 (x0 x1 : Rn N) : ct_new [P Ntt c v0 x0; P Ntt c v1 x1] par = Val (mkCt par None (parts c [(v0, x0); (v1, x1)]) l).
  Proof. unfold ct_new. rewrite P_ctx, (al_level_of isp cands par l lv c A). cbn [bind existsb]. rewrite !P_ctx, !ctx_eqb_refl. reflexivity. Qed.
  Lemma fold_add {S T} (f : S -> poly Ntt) (sh : T -> S) (b : bool) (x : T -> Rn N) ps : (forall p, f (sh p) = P Ntt c b (x p)) ->
    forall v0 x0, exists w, foldM (fun h p => poly_add h (f p)) (map sh ps) (P Ntt c v0 x0) = Val (P Ntt c w (x0 + psum x ps)).
  Proof.
    intros H. induction ps as [|p ps IH]; intros v0 x0.
    - exists v0. cbn [map foldM psum fold_right]. replace (x0 + r0 N) with x0 by ring. reflexivity.
    - cbn [map foldM psum fold_right]. rewrite H, (P_add c Hc N Hd) by discriminate. cbn [bind]. destruct (IH (v0 && b)%bool (x0 + x p)) as (w & ->). exists w. fold (psum x ps). do 2 f_equal. ring.
  Qed.

  (** *** Secret-key switching and decryption *)
  Lemma sks_new_P sk1 sk2 sd v0 v1 (x0 x1 : Rn N) rng : is_sk par sk1 -> is_sk par sk2 -> words rng ->
    sks_new sk1 sk2 (mkCt par sd (parts c [(v0, x0); (v1, x1)]) l) rng = Val (mkSks par (mkCt par sd (parts c [(v0, x0); (v1, x1)]) l) (P Ntt c false ((kR sk1 - kR sk2) * x1 + cbd_rn N v rng))).
  Proof.
    intros H1 H2 Hr. unfold sks_new. cbn [ct_par ct_c]. rewrite (proj1 H1), (proj1 H2), par_eqb_refl. cbn [negb]. unfold parts. rewrite map_length. cbn [length Nat.eqb negb map get nth_error unwrap bind fst snd].
    rewrite !P_ctx, (sk_poly_R _ H1), (sk_poly_R _ H2). cbn [bind]. rewrite (small_R _ Hr). cbn [bind]. rewrite (P_sub c Hc N Hd) by discriminate. cbn [bind]. rewrite P_disallow, (P_mul c Hc N Hd). cbn [bind]. rewrite (P_add c Hc N Hd) by discriminate. cbn [bind andb]. reflexivity.
  Qed.
  Lemma sks_protocol_P (ps : list (secret_key * secret_key * (nat -> Z))) sd v0 v1 (x0 x1 : Rn N) : ps <> [] -> Forall (fun p => is_sk par (fst (fst p)) /\ is_sk par (snd (fst p)) /\ words (snd p)) ps ->
    exists shares w, mapM (fun p => sks_new (fst (fst p)) (snd (fst p)) (mkCt par sd (parts c [(v0, x0); (v1, x1)]) l) (snd p)) ps = Val shares /\
      sks_from_shares shares = Val (mkCt par None (parts c [(w, x0 + ((psum (fun p => kR (fst (fst p))) ps - psum (fun p => kR (snd (fst p))) ps) * x1 + psum (fun p => cbd_rn N v (snd p)) ps)); (v1, x1)]) l).
  Proof.
    intros Hne H. rewrite Forall_forall in H. set (ct := mkCt par sd (parts c [(v0, x0); (v1, x1)]) l).
    set (x := fun p : secret_key * secret_key * (nat -> Z) => (kR (fst (fst p)) - kR (snd (fst p))) * x1 + cbd_rn N v (snd p)).
    set (sh := fun p => mkSks par ct (P Ntt c false (x p))). exists (map sh ps).
    assert (E1 : mapM (fun p => sks_new (fst (fst p)) (snd (fst p)) ct (snd p)) ps = Val (map sh ps)) by (apply mapM_In; intros p Hp; destruct (H p Hp) as (H1 & H2 & H3); apply sks_new_P; assumption).
    destruct ps as [|p ps]; [congruence|]. cbn [map sks_from_shares]. 
    pose proof (fold_add sks_h sh false x ps (fun _ => eq_refl) false) as Ef.
    destruct (Ef (x p)) as (w & Ew). exists (v0 && w)%bool. split; [exact E1|]. unfold sh at 2. cbn [sks_h]. rewrite Ew. cbn [bind]. unfold sh, ct. cbn [sks_ct sks_par ct_c parts map get nth_error unwrap bind fst snd]. rewrite (P_add c Hc N Hd) by discriminate. cbn [bind]. rewrite ct_new_P. do 4 f_equal.
    cbn [psum fold_right]. f_equal. unfold parts. cbn [map fst snd]. do 2 f_equal.
    change (x p + psum x ps) with (psum x (p :: ps)). unfold x. rewrite psum_add. f_equal. rewrite (psum_ext _ (fun p => x1 * (kR (fst (fst p)) - kR (snd (fst p))))) by (intros; ring). rewrite psum_mul, psum_sub. cbn [psum fold_right]. ring.
  Qed.

  Local Open Scope Z_scope.
  Lemma plain_prod_base : dec_base par <= plain_prod par.
  Proof.
    unfold dec_base. destruct (pa_small par); [|lia]. pose proof (moduli_range isp cands Ho par G l lv c A) as Hr. pose proof (gp_ne _ _ _ G) as Hne. unfold plain_prod.
    assert (Hk : (1 <= plaintext_moduli_count (pa_moduli par) (pa_sizes par) t)%nat). { unfold plaintext_moduli_count. destruct (pa_moduli par); [congruence|]. cbn [length]. lia. }
    destruct (plaintext_moduli_count (pa_moduli par) (pa_sizes par) t) as [|k]; [lia|]. destruct (pa_moduli par) as [|q ms]; [congruence|]. cbn [firstn hd prod_list fold_right]. fold (prod_list (firstn k ms)).
    pose proof (prod_list_pos (firstn k ms) ltac:(apply Forall_firstn; inversion Hr; assumption)). inversion Hr as [|? ? Hq _]; subst. assert (q * 1 <= q * prod_list (firstn k ms)) by (apply Z.mul_le_mono_nonneg_l; lia). lia.
  Qed.
  Definition unscaled (y : Rn N) : Rn N := mkR (map (fun z => ((z mod plain_prod par + t) mod plain_prod par) mod t) (rl y)) (eq_trans (map_length _ _) (rl_length y)).
  Lemma unscaled_ok (m e ph y : Rn N) : supported par -> group_decryptable par -> canonical t (rl m) -> rcong Q ph (rscaled Q t m + e)%R -> 2 ^ 60 * (2 * t * (rnorm e + 1)) <= (2 ^ 60 - 1) * Q ->
    Forall2 (scaled_value (level_moduli (pa_moduli par) l) t Q) (rl ph) (rl y) -> unscaled y = m.
  Proof.
    intros Hsup Hroom Hm Hph He Hy. pose proof (gp_t _ _ _ G) as Ht. destruct (level_supported isp cands Ho par G l lv c A Hsup) as (Hs1 & Hs2). change (3 * t + t / 2 ^ 40 + 4 <= 2 * plain_prod par) in Hroom. set (base := plain_prod par) in *. apply rn_ext. intros k Hk.
    assert (Hmk : 0 <= nth k (rl m) 0 < t) by (unfold canonical in Hm; rewrite Forall_forall in Hm; apply Hm, nth_In; rewrite rl_length; exact Hk).
    assert (Hval : - t <= nth k (rl y) 0 < base - t /\ (nth k (rl y) 0) mod t = nth k (rl m) 0).
    { rewrite <- (Z.mod_small (nth k (rl m) 0) t Hmk).
      apply (dec_value (level_moduli (pa_moduli par) l) t (nth k (rl m) 0) (nth k (rl e) 0) (nth k (rl ph) 0)); [exact (level_range isp cands Ho par G l lv c A)|exact Hs1|exact Hs2|lia| | | |lia].
      - pose proof (proj1 (rcong_nth N Q ph (rscaled Q t m + e)%R) Hph k Hk) as H. rewrite nth_radd in H. unfold rscaled in H. rewrite rl_mkR in H. rewrite (nth_indep (map (fun a => Q * a / t) (rl m)) 0 (Q * 0 / t)) in H by (rewrite map_length, rl_length; exact Hk).
        rewrite (map_nth (fun a => Q * a / t)) in H. exact H.
      - apply (Forall2_nth_Z _ _ _ k Hy). rewrite rl_length. exact Hk.
      - pose proof (rnorm_nth N e k). eapply Z.le_trans; [|exact He]. apply Z.mul_le_mono_nonneg_l; [lia|]. apply Z.mul_le_mono_nonneg_l; lia. }
    destruct Hval as (Hr & Hmm). unfold unscaled. fold base. rewrite rl_mkR. rewrite (nth_indep _ 0 (((0 mod base + t) mod base) mod t)) by (rewrite map_length, rl_length; exact Hk). rewrite (map_nth (fun v => ((v mod base + t) mod base) mod t)).
    rewrite Zplus_mod_idemp_l, (Z.mod_small (nth k (rl y) 0 + t)) by lia. rewrite <- Hmm. rewrite <- (Z.mul_1_l t) at 1. apply Z_mod_plus_full.
  Qed.
  Lemma dec_from_P shares w v1 (y0 x1 m e : Rn N) : sks_from_shares shares = Val (mkCt par None (parts c [(w, y0); (v1, x1)]) l) -> supported par -> group_decryptable par -> t <= Q ->
    rcong Q y0 (rscaled Q t m + e)%R -> 2 ^ 60 * (2 * t * (rnorm e + 1)) <= (2 ^ 60 - 1) * Q ->
    dec_from_shares shares = Val (mkPt par None (P Ntt c false (rmodt t m))).
  Proof.
    intros Es Hsup Hroom HtQ Hph He. pose proof (gp_t _ _ _ G) as Ht. unfold dec_from_shares. rewrite Es. cbn [bind ct_par ct_c ct_level parts map get nth_error unwrap fst snd]. rewrite P_disallow, P_ctx, (P_ntt_pb c Hc N Hd). cbn [bind].
    rewrite (al_context_level isp cands par l lv c A). cbn [bind]. destruct (plain_scale isp cands Ho par G l lv c A Hsup) as (plain & Hpl & Edp & Emp & _ & Hsc). destruct (Hsc false y0) as (y & Hy & Ey). rewrite Ey. cbn [bind].
    rewrite (P_to_big plain Hpl N Edp). cbn [bind]. rewrite Emp. unfold slice_to. rewrite !map_length, rl_length, Nat.leb_refl. cbn [guard bind]. rewrite firstn_all2 by (rewrite !map_length, rl_length; lia).
    rewrite P_ctx. assert (Erp : rns_product (c_rns plain) = plain_prod par) by (rewrite (gr_product _ (co_rns _ Hpl)), (co_u64 _ Hpl); exact Emp). rewrite Erp. pose proof (plain_prod_pos isp cands Ho par G l lv c A) as Hpp.
    unfold reduce_big. replace (plain_prod par =? 0) with false by (symmetry; apply Z.eqb_neq; lia). replace (t =? 0) with false by (symmetry; apply Z.eqb_neq; lia). cbn [negb guard bind]. rewrite !map_map.
    assert (EU : unscaled y = rmodt t m).
    { apply (unscaled_ok (rmodt t m) e y0 y Hsup Hroom); [apply rmodt_canonical; lia| |exact He|exact Hy]. eapply rcong_trans; [exact Hph|]. apply rcong_add; [apply rscaled_mod; lia|apply rcong_refl]. }
    rewrite <- EU. change (map (fun x => ((x mod plain_prod par + t) mod plain_prod par) mod t) (rl y)) with (rl (unscaled y)).
    rewrite (P_from_big c Hc N Hd (rl (unscaled y)) false (rl_length (unscaled y))). cbn [bind]. pose proof (P_pb_ntt c Hc N Hd false (mkR (rl (unscaled y)) (rl_length (unscaled y)))) as E. rewrite E. reflexivity.
  Qed.

  (** *** Switching to a public key *)
  Lemma pksw_new_P sk pk pct sd sd' (vxs : list (bool * Rn N)) v0 v1 (x0 x1 : Rn N) w0 w1 (b a : Rn N) ru r0 r1 : is_sk par sk -> pk_par pk = par -> ct_par (pk_c pk) = par -> words ru -> words r0 -> words r1 ->
    pct = mkCt par sd' (parts c [(w0, b); (w1, a)]) l -> switch_until (S (max_level par)) l (pk_c pk) = Val pct ->
    pksw_new sk pk (mkCt par sd (parts c ((v0, x0) :: (v1, x1) :: vxs)) l) ru r0 r1 =
      Val (mkPksw par (P Ntt c v0 x0) (P Ntt c true (b * cbd_rn N v ru + kR sk * x1 + cbd_rn N v r0)%R) (P Ntt c true (a * cbd_rn N v ru + cbd_rn N v r1)%R)).
  Proof.
    intros Hsk Ep Ec Hu H0 H1 -> Es. unfold pksw_new. cbn [ct_par ct_level ct_c]. rewrite (proj1 Hsk), Ep, Ec, par_eqb_refl. cbn [negb]. rewrite Es. cbn [bind]. rewrite (al_par_context isp cands par l lv c A). cbn [bind]. rewrite (sk_poly_R _ Hsk). cbn [bind].
    rewrite !small_R by assumption. cbn [bind ct_c parts map get nth_error unwrap fst snd]. rewrite !P_disallow, !(P_mul c Hc N Hd). cbn [bind]. rewrite (P_add c Hc N Hd) by discriminate. cbn [bind]. rewrite (P_add c Hc N Hd) by discriminate. cbn [bind]. rewrite (P_add c Hc N Hd) by discriminate. cbn [bind andb]. rewrite !P_allow. reflexivity.
  Qed.
  Lemma fold_add2 {T} (sh : T -> pksw_share) (x y : T -> Rn N) ps : (forall p, pksw_h0 (sh p) = P Ntt c true (x p) /\ pksw_h1 (sh p) = P Ntt c true (y p)) -> forall x0 y0,
    foldM (fun h s => bind (poly_add (fst h) (pksw_h0 s)) (fun h0 => bind (poly_add (snd h) (pksw_h1 s)) (fun h1 => Val (h0, h1)))) (map sh ps) (P Ntt c true x0, P Ntt c true y0) =
      Val (P Ntt c true (x0 + psum x ps)%R, P Ntt c true (y0 + psum y ps)%R).
  Proof.
    intros H. induction ps as [|p ps IH]; intros x0 y0.
    - cbn [map foldM psum fold_right]. replace (x0 + r0 N)%R with x0 by ring. replace (y0 + r0 N)%R with y0 by ring. reflexivity.
    - cbn [map foldM fst snd]. destruct (H p) as (-> & ->). rewrite !(P_add c Hc N Hd) by discriminate. cbn [bind andb]. rewrite IH. cbn [psum fold_right]. fold (psum x ps) (psum y ps). do 3 f_equal; ring.
  Qed.
  Lemma pksw_protocol_P (ps : list (secret_key * ((nat -> Z) * (nat -> Z) * (nat -> Z)))) pk sd sd' (vxs : list (bool * Rn N)) v0 v1 (x0 x1 : Rn N) w0 w1 (b a : Rn N) :
    ps <> [] -> Forall (fun p => is_sk par (fst p) /\ words (fst (fst (snd p))) /\ words (snd (fst (snd p))) /\ words (snd (snd p))) ps ->
    pk_par pk = par -> ct_par (pk_c pk) = par -> switch_until (S (max_level par)) l (pk_c pk) = Val (mkCt par sd' (parts c [(w0, b); (w1, a)]) l) ->
    exists w, pksw_protocol ps pk (mkCt par sd (parts c ((v0, x0) :: (v1, x1) :: vxs)) l) =
      Val (mkCt par None (parts c [(w, x0 + (b * psum (fun p => cbd_rn N v (fst (fst (snd p)))) ps + psum (fun p => kR (fst p)) ps * x1 + psum (fun p => cbd_rn N v (snd (fst (snd p)))) ps))%R;
                                   (true, a * psum (fun p => cbd_rn N v (fst (fst (snd p)))) ps + psum (fun p => cbd_rn N v (snd (snd p))) ps)%R]) l).
  Proof.
    intros Hne H Ep Ec Es. rewrite Forall_forall in H.
    set (x := fun p : secret_key * ((nat -> Z) * (nat -> Z) * (nat -> Z)) => (b * cbd_rn N v (fst (fst (snd p))) + kR (fst p) * x1 + cbd_rn N v (snd (fst (snd p))))%R).
    set (y := fun p : secret_key * ((nat -> Z) * (nat -> Z) * (nat -> Z)) => (a * cbd_rn N v (fst (fst (snd p))) + cbd_rn N v (snd (snd p)))%R).
    set (sh := fun p => mkPksw par (P Ntt c v0 x0) (P Ntt c true (x p)) (P Ntt c true (y p))). unfold pksw_protocol.
    rewrite (mapM_In _ sh). 2: { intros p Hp. destruct (H p Hp) as (H1 & H2 & H3 & H4). apply (pksw_new_P (fst p) pk _ sd sd' vxs v0 v1 x0 x1 w0 w1 b a _ _ _ H1 Ep Ec H2 H3 H4 eq_refl Es). }
    cbn [bind]. destruct ps as [|p ps]; [congruence|]. cbn [map pksw_from_shares]. change (pksw_h0 (sh p)) with (P Ntt c true (x p)). change (pksw_h1 (sh p)) with (P Ntt c true (y p)). rewrite (fold_add2 sh x y ps (fun _ => conj eq_refl eq_refl)). cbn [bind].
    unfold sh. cbn [pksw_c0 pksw_par]. rewrite (P_add c Hc N Hd) by discriminate. cbn [bind]. rewrite ct_new_P. exists (v0 && true)%bool. do 2 f_equal. unfold parts. cbn [map fst snd].
    change (x p + psum x ps)%R with (psum x (p :: ps)). change (y p + psum y ps)%R with (psum y (p :: ps)). unfold x, y. rewrite !psum_add, psum_mul, psum_mul, (psum_ext (fun p => kR (fst p) * x1)%R (fun p => x1 * kR (fst p))%R) by (intros; ring). rewrite psum_mul.
    do 3 f_equal. f_equal. ring.
  Qed.
End Level.

Set Default Proof Using "Type".
Lemma switch_down_level ct ct' : ct_switch_down ct = Val ct' -> ct_level ct' = S (ct_level ct).
Proof. unfold ct_switch_down. destruct (Nat.leb _ _); [discriminate|]. destruct (mapM ntt_switch_down (ct_c ct)) as [r| |]; cbn [bind]; intros E; inversion E; reflexivity. Qed.
Lemma switch_until_iter k : forall n l ct, (k <= n)%nat -> (ct_level ct + k = l)%nat -> switch_until n l ct = iterM k ct_switch_down ct.
Proof.
  induction k as [|k IH]; intros n l ct Hn Hl.
  - rewrite Nat.add_0_r in Hl. destruct n; cbn [switch_until iterM]; rewrite Hl, Nat.eqb_refl; reflexivity.
  - destruct n as [|n]; [lia|]. cbn [switch_until iterM]. destruct (Nat.eqb_spec (ct_level ct) l); [lia|]. destruct (ct_switch_down ct) as [ct'|e|] eqn:E; cbn [bind]; [|reflexivity|reflexivity]. apply switch_down_level in E. apply IH; lia.
Qed.
Section Above.
  Variables (isp : Z -> bool) (cands : Z -> list Z) (par : params).
  Hypothesis Ho : oracles isp cands.
  Hypothesis G : good_params isp cands par.
  Set Default Proof Using "All".
  Notation N := (pa_degree par).
  Lemma switch_until_above n : forall l0 lv0 c0 sd (vxs : list (bool * Rn N)) l, at_level isp cands par l0 lv0 c0 -> (l < l0)%nat -> (max_level par < l0 + n)%nat -> switch_until n l (mkCt par sd (parts c0 vxs) l0) = Err NoMoreContext.
  Proof.
    induction n as [|n IH]; intros l0 lv0 c0 sd vxs l A Hl Hn; pose proof (at_level_bound isp cands par _ _ _ G A) as Hb; [lia|]. cbn [switch_until ct_level]. destruct (Nat.eqb_spec l0 l); [lia|].
    destruct (Nat.eq_dec l0 (max_level par)) as [->|Hne].
    - unfold ct_switch_down at 1. cbn [ct_par ct_level]. rewrite Nat.leb_refl. reflexivity.
    - destruct (at_level_ex isp cands par (S l0) Ho G ltac:(lia)) as (lv1 & c1 & A1). rewrite (ct_switch_down_P isp cands par l0 lv0 c0 Ho G A lv1 c1 sd vxs A1). cbn [bind]. apply (IH (S l0) lv1 c1); [exact A1|lia|lia].
  Qed.
End Above.

(** ** Keys, at the first level *)
Section Keys.
  Variables (isp : Z -> bool) (cands : Z -> list Z) (Ho : oracles isp cands) (par : params) (G : good_params isp cands par).
  Variables (lv : level_ctx) (c : ctx) (A : at_level isp cands par 0 lv c).
  Notation N := (pa_degree par).
  Notation v := (pa_variance par).
  Notation qs := (level_moduli (pa_moduli par) 0).
  Notation Q := (prod_list qs).
  Add Ring Rn_mbk : (Rn_ring N).
  Set Default Proof Using "All".
  Local Lemma Hc' : ctx_ok c. Proof. exact (good_ok _ (al_good _ _ _ _ _ _ A)). Qed.
  Local Lemma Hd' : c_degree c = N. Proof. exact (al_deg _ _ _ _ _ _ A). Qed.
  Local Notation kR := (kR par).
  Local Notation sk_poly_R := (sk_poly_R isp cands Ho par G 0 lv c A).
  Local Notation small_R := (small_R isp cands Ho par G 0 lv c A).
  Local Notation small_norm := (small_norm isp cands Ho par G 0 lv c A).
  Local Notation p_add := (P_add c Hc' N Hd').
  Local Notation p_mul := (P_mul c Hc' N Hd').

  Lemma pk_share_P sk va (a : Rn N) rng : is_sk par sk -> words rng ->
    pk_share_new sk (P Ntt c va a) rng = Val (mkPks par (P Ntt c va a) (P Ntt c true (- a * kR sk + cbd_rn N v rng)%R)).
  Proof.
    intros Hsk Hr. unfold pk_share_new. rewrite (proj1 Hsk), (al_par_context isp cands par 0 lv c A). cbn [bind]. rewrite (sk_poly_R _ Hsk). cbn [bind]. rewrite (small_R _ Hr). cbn [bind]. rewrite (P_neg c Hc' N Hd') by discriminate. cbn [bind].
    rewrite P_disallow, p_mul. cbn [bind]. rewrite p_add by discriminate. cbn [bind]. rewrite P_allow. reflexivity.
  Qed.
  Lemma pk_protocol_P (ps : list (secret_key * (nat -> Z))) va (a : Rn N) : ps <> [] -> Forall (fun p => is_sk par (fst p) /\ words (snd p)) ps ->
    exists w, pk_protocol ps (P Ntt c va a) = Val (mkPk par (mkCt par None (parts c [(w, - a * psum (fun p => kR (fst p)) ps + psum (fun p => cbd_rn N v (snd p)) ps)%R; (va, a)]) 0)).
  Proof.
    intros Hne H. rewrite Forall_forall in H. set (x := fun p : secret_key * (nat -> Z) => (- a * kR (fst p) + cbd_rn N v (snd p))%R). set (sh := fun p => mkPks par (P Ntt c va a) (P Ntt c true (x p))). unfold pk_protocol.
    rewrite (mapM_In _ sh) by (intros p Hp; destruct (H p Hp); apply pk_share_P; assumption). cbn [bind]. destruct ps as [|p ps]; [congruence|]. cbn [map pk_from_shares].
    destruct (fold_add isp cands Ho par G 0 lv c A pks_p0 sh true x ps (fun _ => eq_refl) true (x p)) as (w & Ew). change (pks_p0 (sh p)) with (P Ntt c true (x p)). rewrite Ew. cbn [bind]. exists w.
    unfold sh. cbn [pks_crp pks_par]. rewrite (ct_new_P isp cands Ho par G 0 lv c A). cbn [bind]. do 3 f_equal. unfold parts. cbn [map fst snd]. do 2 f_equal. change (x p + psum x ps)%R with (psum x (p :: ps)). unfold x. rewrite psum_add, psum_mul. reflexivity.
  Qed.

  (** *** Relinearization keys *)
  Definition polys (f : nat -> Rn N) (k : nat) : list (poly Ntt) := map (fun i => P Ntt c false (f i)) (seq 0 k).
  Lemma polys_ext f g k : (forall i, (i < k)%nat -> f i = g i) -> polys f k = polys g k.
  Proof. intros H. unfold polys. apply map_ext_in. intros i Hi. apply in_seq in Hi. rewrite H by lia. reflexivity. Qed.
  Lemma zip_polys f g k : zip_upd poly_add (polys f k) (polys g k) = Val (polys (fun i => f i + g i)%R k).
  Proof. unfold polys. generalize (seq 0 k) as l. induction l as [|i l IH]; [reflexivity|]. cbn [map zip_upd]. rewrite p_add by discriminate. cbn [bind]. rewrite IH. reflexivity. Qed.
  Lemma both_polys f0 f1 g0 g1 k : add_both (polys f0 k) (polys f1 k) (polys g0 k) (polys g1 k) = Val (polys (fun i => f0 i + g0 i)%R k, polys (fun i => f1 i + g1 i)%R k).
  Proof. unfold polys. generalize (seq 0 k) as l. induction l as [|i l IH]; [reflexivity|]. cbn [map add_both]. rewrite p_add by discriminate. cbn [bind]. rewrite p_add by discriminate. cbn [bind]. rewrite IH. reflexivity. Qed.
  Lemma shoup_polys f k : mapM ntt_into_shoup (polys f k) = Val (shoups c (map (fun i => (false, f i)) (seq 0 k))).
  Proof. unfold polys, shoups. rewrite map_map. generalize (seq 0 k) as l. induction l as [|i l IH]; [reflexivity|]. cbn [map mapM fst snd]. rewrite (P_ntt_shoup c Hc' N Hd'). cbn [bind]. rewrite IH. reflexivity. Qed.

  Variables (k : nat) (va : nat -> bool) (a : nat -> Rn N) (r : rns_ctx).
  Hypothesis Hk : k = length (pa_moduli par).
  Hypothesis Hk1 : (k <> 1)%nat.
  Hypothesis Hr : rns_new (pa_moduli par) = Val r.
  Hypothesis Hw : length (rns_garner r) = k.
  Definition crps : list (poly Ntt) := map (fun i => P Ntt c (va i) (a i)) (seq 0 k).
  Local Notation w := (fun i => nth i (rns_garner r) 0).
  Lemma len_c : length (c_moduli c) = k.
  Proof. rewrite (al_mod _ _ _ _ _ _ A). unfold level_moduli. rewrite firstn_length. lia. Qed.
  Lemma len_crps : length crps = k.
  Proof. unfold crps. rewrite map_length, seq_length. reflexivity. Qed.
  Definition uR (p : member) : Rn N := cbd_rn N v (me_u p).
  Definition eR (f : nat -> nat -> Z) (i : nat) : Rn N := cbd_rn N v (f i).
  Definition skR (p : member) : Rn N := kR (me_sk p).
  Lemma gen_new_P p : member_ok par p -> gen_new (me_sk p) crps (me_u p) = Val (mkGen (me_sk p) crps (P Ntt c false (uR p))).
  Proof.
    intros (Hsk & Hu & _). unfold gen_new. rewrite (proj1 Hsk), (al_par_context isp cands par 0 lv c A). cbn [bind]. rewrite len_c, len_crps. destruct (Nat.eqb_spec k 1); [contradiction|]. rewrite Nat.eqb_refl. cbn [negb]. rewrite (small_R _ Hu). reflexivity.
  Qed.
  Definition h0R (p : member) (i : nat) : Rn N := (- a i * uR p + (w i *: skR p) + eR (me_e0 p) i)%R.
  Definition h1R (p : member) (i : nat) : Rn N := (a i * skR p + eR (me_e1 p) i)%R.
  Lemma round1_P p : member_ok par p -> gen_round1 (mkGen (me_sk p) crps (P Ntt c false (uR p))) (me_e0 p) (me_e1 p) = Val (mkRks par (polys (h0R p) k) (polys (h1R p) k)).
  Proof.
    intros (Hsk & Hu & H0 & H1 & _). unfold gen_round1. cbn [gen_sk gen_crp gen_u]. rewrite (proj1 Hsk), (al_par_context isp cands par 0 lv c A). cbn [bind]. rewrite len_c, len_crps, Nat.eqb_refl. cbn [negb].
    unfold r1_h0. rewrite (proj1 Hsk), (al_par_context isp cands par 0 lv c A). cbn [bind]. rewrite (sk_poly_R _ Hsk). cbn [bind]. unfold slice_to. rewrite len_crps, Hk, Nat.leb_refl. cbn [guard bind]. rewrite firstn_all, Hr. cbn [bind]. rewrite <- Hk.
    unfold crps at 1. rewrite enumerate_map. rewrite (mapM_map _ (fun i => (i, P Ntt c (va i) (a i))) (fun i => P Ntt c false (h0R p i))).
    2: { intros i Hi. apply in_seq in Hi. cbn [fst snd]. unfold get_garner. rewrite (nth_error_nth' (rns_garner r) 0) by lia. cbn [unwrap bind]. rewrite (P_scale c Hc' N Hd') by discriminate. cbn [bind]. rewrite (small_R _ (H0 i)). cbn [bind]. rewrite (P_neg c Hc' N Hd') by discriminate. cbn [bind].
         rewrite P_disallow, p_mul. cbn [bind]. rewrite p_add by discriminate. cbn [bind]. rewrite p_add by discriminate. reflexivity. }
    cbn [bind]. unfold r1_h1. rewrite (proj1 Hsk), (al_par_context isp cands par 0 lv c A). cbn [bind]. rewrite (sk_poly_R _ Hsk). cbn [bind]. unfold crps. rewrite enumerate_map. rewrite (mapM_map _ (fun i => (i, P Ntt c (va i) (a i))) (fun i => P Ntt c false (h1R p i))).
    2: { intros i _. cbn [fst snd]. rewrite (small_R _ (H1 i)). cbn [bind]. rewrite P_disallow, p_mul. cbn [bind]. rewrite p_add by discriminate. reflexivity. }
    reflexivity.
  Qed.
  Lemma fold_polys {T} (sh : T -> relin_share) (x y : T -> nat -> Rn N) ps : (forall p, rks_h0 (sh p) = polys (x p) k /\ rks_h1 (sh p) = polys (y p) k) -> forall x0 y0,
    foldM (fun h s => bind (zip_upd poly_add (fst h) (rks_h0 s)) (fun h0 => bind (zip_upd poly_add (snd h) (rks_h1 s)) (fun h1 => Val (h0, h1)))) (map sh ps) (polys x0 k, polys y0 k) =
      Val (polys (fun i => x0 i + psum (fun p => x p i) ps)%R k, polys (fun i => y0 i + psum (fun p => y p i) ps)%R k).
  Proof.
    intros H. induction ps as [|p ps IH]; intros x0 y0.
    - cbn [map foldM]. do 2 f_equal; apply polys_ext; intros i _; cbn [psum fold_right]; ring.
    - cbn [map foldM fst snd]. destruct (H p) as (-> & ->). rewrite zip_polys. cbn [bind]. rewrite zip_polys. cbn [bind]. rewrite IH. do 2 f_equal; apply polys_ext; intros i _; rewrite psum_cons; ring.
  Qed.
  Lemma fold_both {T} (sh : T -> relin_share2) (x y : T -> nat -> Rn N) ps : (forall p, rks_h0 (rks2_share (sh p)) = polys (x p) k /\ rks_h1 (rks2_share (sh p)) = polys (y p) k) -> forall x0 y0,
    foldM (fun h s => add_both (fst h) (snd h) (rks_h0 (rks2_share s)) (rks_h1 (rks2_share s))) (map sh ps) (polys x0 k, polys y0 k) =
      Val (polys (fun i => x0 i + psum (fun p => x p i) ps)%R k, polys (fun i => y0 i + psum (fun p => y p i) ps)%R k).
  Proof.
    intros H. induction ps as [|p ps IH]; intros x0 y0.
    - cbn [map foldM]. do 2 f_equal; apply polys_ext; intros i _; cbn [psum fold_right]; ring.
    - cbn [map foldM fst snd]. destruct (H p) as (-> & ->). rewrite both_polys. cbn [bind]. rewrite IH. do 2 f_equal; apply polys_ext; intros i _; rewrite psum_cons; ring.
  Qed.
  Definition g0R (H0 : nat -> Rn N) (p : member) (i : nat) : Rn N := (H0 i * skR p + eR (me_e2 p) i)%R.
  Definition g1R (H1 : nat -> Rn N) (p : member) (i : nat) : Rn N := (H1 i * (uR p - skR p) + eR (me_e3 p) i)%R.
  Lemma round2_P p r1 H0 H1 : member_ok par p -> rks_h0 r1 = polys H0 k -> rks_h1 r1 = polys H1 k ->
    gen_round2 (mkGen (me_sk p) crps (P Ntt c false (uR p))) r1 (me_e2 p) (me_e3 p) = Val (mkRks2 (mkRks par (polys (g0R H0 p) k) (polys (g1R H1 p) k)) (Some r1)).
  Proof.
    intros (Hsk & Hu & _ & _ & H2 & H3) E0 E1. unfold gen_round2. cbn [gen_sk gen_u]. unfold r2_h0. rewrite (proj1 Hsk), (al_par_context isp cands par 0 lv c A). cbn [bind]. rewrite (sk_poly_R _ Hsk). cbn [bind]. rewrite E0. unfold polys at 1. rewrite enumerate_map.
    rewrite (mapM_map _ (fun i => (i, P Ntt c false (H0 i))) (fun i => P Ntt c false (g0R H0 p i))).
    2: { intros i _. cbn [fst snd]. rewrite (small_R _ (H2 i)). cbn [bind]. rewrite P_disallow, p_mul. cbn [bind]. rewrite p_add by discriminate. reflexivity. }
    cbn [bind]. unfold r2_h1. rewrite (proj1 Hsk), (al_par_context isp cands par 0 lv c A). cbn [bind]. rewrite (sk_poly_R _ Hsk). cbn [bind]. rewrite (P_sub c Hc' N Hd') by discriminate. cbn [bind]. rewrite E1. unfold polys at 1. rewrite enumerate_map.
    rewrite (mapM_map _ (fun i => (i, P Ntt c false (H1 i))) (fun i => P Ntt c false (g1R H1 p i))).
    2: { intros i _. cbn [fst snd]. rewrite (small_R _ (H3 i)). cbn [bind]. rewrite P_disallow, p_mul. cbn [bind]. rewrite p_add by discriminate. reflexivity. }
    reflexivity.
  Qed.
  Lemma relin_protocol_P ps : ps <> [] -> Forall (member_ok par) ps ->
    let H0 := fun i => psum (fun p => h0R p i) ps in let H1 := fun i => psum (fun p => h1R p i) ps in
    relin_protocol ps crps = Val (mkKsk par None (shoups c (map (fun i => (false, psum (fun p => g0R H0 p i) ps + psum (fun p => g1R H1 p i) ps)%R) (seq 0 k))) (shoups c (map (fun i => (false, H1 i)) (seq 0 k))) 0 c 0 c 0).
  Proof.
    intros Hne H H0 H1. rewrite Forall_forall in H. unfold relin_protocol.
    rewrite (mapM_In _ (fun p => mkRks par (polys (h0R p) k) (polys (h1R p) k))) by (intros p Hp; rewrite gen_new_P by auto; cbn [bind]; apply round1_P; auto). cbn [bind].
    assert (E1 : r1_from_shares (map (fun p => mkRks par (polys (h0R p) k) (polys (h1R p) k)) ps) = Val (mkRks par (polys H0 k) (polys H1 k))).
    { destruct ps as [|p ps]; [congruence|]. cbn [map r1_from_shares rks_h0 rks_h1 rks_par]. rewrite (fold_polys (fun p => mkRks par (polys (h0R p) k) (polys (h1R p) k)) h0R h1R ps (fun _ => conj eq_refl eq_refl)). reflexivity. }
    rewrite E1. cbn [bind]. clear E1. clearbody H0 H1. set (r1 := mkRks par (polys H0 k) (polys H1 k)). set (sh := fun p => mkRks2 (mkRks par (polys (g0R H0 p) k) (polys (g1R H1 p) k)) (Some r1)).
    rewrite (mapM_In _ sh) by (intros p Hp; rewrite gen_new_P by auto; cbn [bind]; exact (round2_P p r1 H0 H1 (H p Hp) eq_refl eq_refl)). cbn [bind].
    destruct ps as [|p ps]; [congruence|]. cbn [map relin_from_shares]. unfold sh at 1 2 4 5. cbn [rks2_share rks_par rks2_last rks_h0 rks_h1]. rewrite (al_par_context isp cands par 0 lv c A). cbn [bind ok_or].
    rewrite (fold_both sh (g0R H0) (g1R H1) ps (fun _ => conj eq_refl eq_refl)). cbn [bind]. rewrite zip_polys. cbn [bind]. rewrite shoup_polys. cbn [bind]. unfold r1. cbn [rks_h1]. rewrite shoup_polys. reflexivity.
  Qed.
  Lemma relin_protocol_ksk ps : crt_weights qs (rns_garner r) -> ps <> [] -> Forall (member_ok par) ps -> let S := psum skR ps in
    exists rk, relin_protocol ps crps = Val rk /\ kskR par 0 c 0 c 0 rk S (S * S)%R (relin_protocol_noise par (rnorm1 S) (length ps)).
  Proof.
    intros W Hne H S. eexists. split; [apply relin_protocol_P; assumption|]. set (H0 := fun i => psum (fun p => h0R p i) ps). set (H1 := fun i => psum (fun p => h1R p i) ps). eexists _, _, _, (rns_garner r). split; [reflexivity|]. split; [left; reflexivity|].
    split; [left; split; [reflexivity|exact W]|]. split; [rewrite map_length, seq_length; congruence|]. split; [rewrite map_length, seq_length; congruence|]. rewrite !map_map. cbn [snd].
    set (V := group_noise par (length ps)).
    assert (HV : forall (f : member -> nat -> Rn N) i, (forall p, rnorm (f p i) <= 2 * v)%Z -> (rnorm (psum (fun p => f p i) ps) <= V)%Z) by (intros f i Hf; apply psum_norm; intros p _; apply Hf).
    assert (HU : (rnorm (psum uR ps) <= V)%Z) by (apply psum_norm; intros p _; apply small_norm).
    assert (Hi : forall i, exists e, (rnorm e <= relin_protocol_noise par (rnorm1 S) (length ps))%Z /\
      (psum (fun p => g0R H0 p i) ps + psum (fun p => g1R H1 p i) ps + S * H1 i)%R = (w i *: (S * S) + e)%R).
    { intros i. set (E0 := psum (fun p => eR (me_e0 p) i) ps). set (E1 := psum (fun p => eR (me_e1 p) i) ps). set (E2 := psum (fun p => eR (me_e2 p) i) ps). set (E3 := psum (fun p => eR (me_e3 p) i) ps).
      exists (S * E0 + psum uR ps * E1 + (E2 + E3))%R. split.
      - assert (B0 : (rnorm E0 <= V)%Z) by (apply (HV (fun p => eR (me_e0 p))); intros; apply small_norm). assert (B1 : (rnorm E1 <= V)%Z) by (apply (HV (fun p => eR (me_e1 p))); intros; apply small_norm).
        assert (B2 : (rnorm E2 <= V)%Z) by (apply (HV (fun p => eR (me_e2 p))); intros; apply small_norm). assert (B3 : (rnorm E3 <= V)%Z) by (apply (HV (fun p => eR (me_e3 p))); intros; apply small_norm).
        unfold relin_protocol_noise. fold V. pose proof (rnorm_add N (S * E0 + psum uR ps * E1)%R (E2 + E3)%R). pose proof (rnorm_add N (S * E0)%R (psum uR ps * E1)%R). pose proof (rnorm_add N E2 E3). pose proof (rnorm_mul N (psum uR ps) E1). pose proof (rnorm_mul1 N S E0).
        pose proof (rnorm_nonneg N E1). pose proof (rnorm_nonneg N E0). pose proof (rnorm_nonneg N (psum uR ps)). pose proof (rnorm1_nonneg S).
        assert (rnorm1 S * rnorm E0 <= rnorm1 S * V)%Z by (apply Z.mul_le_mono_nonneg_l; assumption). assert (rnorm (psum uR ps) * rnorm E1 <= V * V)%Z by (apply Z.mul_le_mono_nonneg; assumption).
        assert (Z.of_nat N * (rnorm (psum uR ps) * rnorm E1) <= Z.of_nat N * (V * V))%Z by (apply Z.mul_le_mono_nonneg_l; [lia|assumption]). lia.
      - assert (EH0 : H0 i = (- a i * psum uR ps + (w i *: S) + E0)%R).
        { unfold H0, h0R. rewrite !psum_add, psum_mul. rewrite (psum_ext (fun p => w i *: skR p)%R (fun p => rZ N (w i) * skR p)%R) by (intros; apply rscale_mul). rewrite psum_mul, <- rscale_mul. reflexivity. }
        assert (EH1 : H1 i = (a i * S + E1)%R) by (unfold H1, h1R; rewrite psum_add, psum_mul; reflexivity).
        unfold g0R, g1R. rewrite !psum_add, !psum_mul, psum_sub. fold E2 E3 S. rewrite EH0, EH1, !rscale_mul. ring. }
    clear - Hi Hw. unfold rkey. clearbody H0 H1. rewrite <- (map_nth_seq (rns_garner r)), Hw. generalize (seq 0 k) as l. induction l as [|i l IH]; [constructor|]. cbn [map combine]. constructor; [|exact IH]. cbn [fst snd]. destruct (Hi i) as (e & He & E). exists e. split; [exact He|]. rewrite E. apply rcong_refl.
  Qed.
End Keys.
