(** The release build of contexts and parameters: what the debug build returns, values and errors, the release build returns too. *)
From Verif Require Import Outcome BasicSpec OutcomeLemmas ZqModel ZqProofs ZqPow NumTheory NttModel PolySpec PolyRing NttPure NttStages NttProofs.
From Verif Require Import PrimesModel PrimesProofs RnsModel RnsSpec RnsProofs RnsScalerProofs RqModel RqSpec RqCtx RqRows RqProofs RingRn RqOps RqIO ParamsModel BfvSpec SlotsProofs ParamsProofs BuildProofs.
From Verif Require Import DefaultModel ReleaseModel ReleaseRnsModel ReleaseRqModel ReleasePrimesModel ReleaseBuildModel ReleaseProofs ReleasePropLemmas ReleaseRnsProofs ReleaseRqProofs ReleasePrimesProofs.
From Coq Require Import Znumtheory.

Definition agrees {A} (x y : M A) : Prop := x <> Panic -> y = x.
Definition noerr {A} (x : M A) : Prop := forall e, x <> Err e.
Lemma ag_refl {A} (x : M A) : agrees x x.
Proof. intros _. reflexivity. Qed.
Lemma ag_eq {A} (x y : M A) : y = x -> agrees x y.
Proof. intros -> _. reflexivity. Qed.
Lemma ag_bind {A B} (x y : M A) (f g : A -> M B) : agrees x y -> (forall a, x = Val a -> agrees (f a) (g a)) -> agrees (bind x f) (bind y g).
Proof.
  intros H Hf Hn. destruct x as [a|e|]; cbn [bind] in *; [|rewrite H by discriminate; reflexivity|congruence].
  rewrite H by discriminate. cbn [bind]. apply (Hf a eq_refl Hn).
Qed.
Lemma ag_pure {A B} (x : M A) (f : A -> M B) (y : M B) : noerr x -> (forall a, x = Val a -> agrees (f a) y) -> agrees (bind x f) y.
Proof. intros H Hf Hn. destruct x as [a|e|]; cbn [bind] in *; [apply (Hf a eq_refl Hn)|destruct (H e eq_refl)|congruence]. Qed.
Lemma ag_val {A} (x y : M A) : noerr x -> (forall a, x = Val a -> y = Val a) -> agrees x y.
Proof. intros H Hf Hn. destruct x as [a|e|]; [apply Hf; reflexivity|destruct (H e eq_refl)|congruence]. Qed.
Lemma ag_both {A} (x y : M A) v : x = Val v -> y = Val v -> agrees x y.
Proof. intros -> -> _. reflexivity. Qed.
Lemma ag_mapM {A B} (f g : A -> M B) l : (forall a, In a l -> agrees (f a) (g a)) -> agrees (mapM f l) (mapM g l).
Proof.
  induction l as [|a l IH]; intros H; cbn [mapM]; [apply ag_refl|]. apply ag_bind; [apply H; left; reflexivity|]. intros b _.
  apply ag_bind; [apply IH; intros c Hc; apply H; right; exact Hc|]. intros c _. apply ag_refl.
Qed.
Lemma ne_bind {A B} (x : M A) (f : A -> M B) : noerr x -> (forall a, noerr (f a)) -> noerr (bind x f).
Proof. intros H Hf e E. destruct x as [a|e'|]; cbn [bind] in E; [destruct (Hf a e E)|destruct (H e' eq_refl)|discriminate]. Qed.
Lemma ne_val {A} (x : A) : noerr (Val x).
Proof. intros e. discriminate. Qed.
Lemma ne_guard b : noerr (guard b).
Proof. intros e. unfold guard. destruct b; discriminate. Qed.
Lemma ne_chk lo hi x : noerr (chk lo hi x).
Proof. intros e. unfold chk. destruct (_ && _); discriminate. Qed.
Lemma ne_panic {A} : noerr (@Panic A).
Proof. intros e. discriminate. Qed.
Ltac ne := repeat (cbv zeta; first [apply ne_val | apply ne_guard | apply ne_panic | apply ne_chk | match goal with |- noerr (if ?b then _ else _) => destruct b | |- noerr (bind _ _) => apply ne_bind; [|intros ?] end]).
Lemma ne_reduce1 x p : noerr (reduce1 x p).
Proof. unfold reduce1. ne. Qed.
Lemma ne_reduce m a : noerr (reduce m a).
Proof. unfold reduce, lazy_reduce, chk64, chk128. ne; apply ne_reduce1. Qed.
Lemma ne_neg m a : noerr (zq_neg m a).
Proof. unfold zq_neg, chk64. ne. apply ne_reduce1. Qed.
Lemma ne_shoup m a : noerr (shoup m a).
Proof. unfold shoup. ne. Qed.
Lemma ne_mul m a b : noerr (zq_mul m a b).
Proof. unfold zq_mul, reduce_u128, lazy_reduce_u128, chk64, chk128, chk256. ne; apply ne_reduce1. Qed.
Lemma ne_pow_loop m a n k : forall r, noerr (pow_loop m a n k r).
Proof. induction k as [|k IH]; intros r; cbn [pow_loop]; [apply ne_val|]. ne; try apply ne_mul. apply IH. Qed.
Lemma ne_inv isp m a : noerr (zq_inv isp m a).
Proof. unfold zq_inv, zq_pow, chk64. ne; try apply ne_mul. apply ne_pow_loop. Qed.

Lemma rel_shoup_ok' m a r : mod_p m <> 0 -> shoup m a = Val r -> rel_shoup m a = Val r.
Proof.
  unfold shoup, rel_shoup. intros Hm H. apply bind_inv in H. destruct H as (? & _ & H).
  rewrite bind_guard by (rewrite negb_true_iff; apply Z.eqb_neq; exact Hm). exact H.
Qed.
Lemma rel_shoup_vec_ok' m a : mod_p m <> 0 -> forall r, shoup_vec m a = Val r -> rel_shoup_vec m a = Val r.
Proof.
  unfold shoup_vec, rel_shoup_vec. intros Hm. induction a as [|x a IH]; intros r H; cbn [mapM] in *; [exact H|].
  apply bind_inv in H. destruct H as (y & Ey & H). rewrite (rel_shoup_ok' _ _ _ Hm Ey). cbn [bind]. apply bind_inv in H. destruct H as (z & Ez & H). rewrite (IH _ Ez). exact H.
Qed.

Section Build.
  Variables (isp : Z -> bool) (cands : Z -> list Z) (Ho : oracles isp cands).
  Let Hisp : prime_oracle isp := proj1 Ho.
  Let Hcands : forall p, canonical p (cands p) := proj2 Ho.

  Lemma ag_ntt_new p m n : modulus_new p = Val m -> agrees (ntt_new isp (cands p) m n) (rel_ntt_new isp (cands p) m n).
  Proof.
    intros Em. pose proof (new_all isp Hisp p m Em (cands p) (Hcands p) n) as H. intros Hn. destruct (ntt_new isp (cands p) m n) as [o|e|]; [exact H|destruct H|congruence].
  Qed.
  Lemma ag_entry degree p : agrees (ctx_entry isp cands degree p) (rel_ctx_entry isp cands degree p).
  Proof.
    unfold ctx_entry, rel_ctx_entry. apply ag_bind; [apply ag_refl|]. intros q Eq. apply ag_bind; [apply ag_ntt_new, Eq|]. intros o _. apply ag_refl.
  Qed.
  Lemma ag_ctx_inv ql qi : mod_p qi <> 0 -> agrees (ctx_inv isp ql qi) (rel_ctx_inv isp ql qi).
  Proof.
    intros Hq. unfold ctx_inv, rel_ctx_inv. apply ag_pure; [apply ne_reduce|]. intros r Er. apply rel_reduce_ok in Er. rewrite Er.
    apply ag_pure; [apply ne_inv|]. intros o Eo. apply rel_inv_ok in Eo. rewrite Eo. apply ag_bind; [apply ag_refl|]. intros i _.
    apply ag_bind; [|intros s _; apply ag_refl]. apply ag_val; [apply ne_shoup|]. intros s. apply rel_shoup_ok', Hq.
  Qed.
  Lemma entries_nz degree moduli es : mapM (ctx_entry isp cands degree) moduli = Val es -> Forall (fun m => mod_p m <> 0) (map fst es).
  Proof.
    intros E. apply mapM_val_inv in E. induction E as [|p [q op] l l' Hp H IH]; cbn [map fst]; constructor; [|exact IH].
    unfold ctx_entry in Hp. apply bind_inv in Hp. destruct Hp as (q' & Eq & Hp). apply bind_inv in Hp. destruct Hp as (o & _ & Hp). apply bind_inv in Hp. destruct Hp as (op' & _ & Hp).
    assert (q' = q) by congruence. subst q'. pose proof (modulus_new_inv _ _ Eq) as R. destruct (modulus_new_ex p R) as (m & Em & _ & Ep). assert (m = q) by congruence. subst m. lia.
  Qed.
  Lemma removelast_in {A} (l : list A) x : In x (removelast l) -> In x l.
  Proof. induction l as [|a l IH]; [auto|]. cbn [removelast]. destruct l as [|b l]; [intros []|]. intros [->|H]; [left; reflexivity|right; apply IH, H]. Qed.
  Lemma ag_context_fuel degree fuel : forall moduli, agrees (context_new_fuel isp cands fuel moduli degree) (rel_context_new_fuel isp cands fuel moduli degree).
  Proof.
    induction fuel as [|f IH]; intros moduli; cbn [context_new_fuel rel_context_new_fuel]; [apply ag_refl|]. cbv zeta.
    destruct (negb (is_power_of_two (Z.of_nat degree)) || (Z.of_nat degree <? 8)); [apply ag_refl|]. rewrite rel_rns_new_eq.
    apply ag_bind; [apply ag_refl|]. intros rns _. apply ag_bind; [apply ag_mapM; intros; apply ag_entry|]. intros es Ees.
    apply entries_nz in Ees. rewrite Forall_forall in Ees.
    apply ag_bind; [apply ag_refl|]. intros ql _. apply ag_bind; [apply ag_mapM; intros q Hq; apply ag_ctx_inv, Ees, removelast_in, Hq|]. intros invs _.
    apply ag_bind; [|intros nx _; apply ag_refl]. destruct (Nat.leb 2 (length moduli)); [|apply ag_refl]. apply ag_bind; [apply IH|]. intros c _. apply ag_refl.
  Qed.
  Lemma ag_context moduli degree : agrees (context_new isp cands moduli degree) (rel_context_new isp cands moduli degree).
  Proof. apply ag_context_fuel. Qed.

  Lemma ok_nz c : ctx_ok c -> Forall (fun m => mod_p m <> 0) (c_q c).
  Proof.
    intros Hc. rewrite (co_q _ Hc). apply Forall_forall. intros m Hm. apply in_map_iff in Hm. destruct Hm as (op & <- & Hop). pose proof (co_ops _ Hc) as H. rewrite Forall_forall in H.
    destruct (H op Hop) as (K & w & Hok & _). pose proof (proj1 (valid_fields _ (ok_m _ _ _ Hok))). lia.
  Qed.
  Lemma map2M_shoup l qs : Forall (fun m => mod_p m <> 0) qs -> forall r, map2M (fun v q => shoup_vec q v) l qs = Val r -> map2M (fun v q => rel_shoup_vec q v) l qs = Val r.
  Proof.
    intros H. revert l. induction H as [|q qs Hq H IH]; intros [|v l] r E; cbn [map2M] in *; try exact E.
    apply bind_inv in E. destruct E as (a & Ea & E). rewrite (rel_shoup_vec_ok' _ _ Hq _ Ea). cbn [bind]. apply bind_inv in E. destruct E as (b & Eb & E). rewrite (IH _ _ Eb). exact E.
  Qed.
  Lemma rel_pb_shoup_ok p r : ctx_ok (p_ctx p) -> pb_into_ntt_shoup p = Val r -> rel_pb_into_ntt_shoup p = Val r.
  Proof.
    intros Hc. unfold pb_into_ntt_shoup, rel_pb_into_ntt_shoup, fwd_rows. intros E. apply bind_inv in E. destruct E as (rows & Er & E).
    erewrite zip_upd_ref; [|  |exact Er]; [|intros x q z; cbv beta; destruct (p_vt p); [apply rel_forward_vt_ok|apply rel_forward_ok]]. cbn [bind].
    apply bind_inv in E. destruct E as (sh & Es & E). unfold rel_shoup_rows. unfold shoup_rows in Es. rewrite (map2M_shoup _ _ (ok_nz _ Hc) _ Es). exact E.
  Qed.
  Lemma ag_poly_scaler from to num den f : ctx_ok from -> ctx_ok to -> Z.of_nat (length (c_moduli from)) < 2 ^ 60 -> 0 <= num -> 0 < den -> factor_new num den = Val f ->
    agrees (poly_scaler_new from to f) (rel_poly_scaler_new from to f).
  Proof.
    intros Hf Ht Hl Hn Hd E. unfold poly_scaler_new, rel_poly_scaler_new. destruct (negb _); [apply ag_refl|]. cbv zeta.
    rewrite factor_new_val in E by lia. assert (Ef : f = mkFactor num den (num =? den)) by congruence.
    destruct (rel_scaler_new_ok (c_rns from) (c_rns to) f) as (s & E1 & E2 & _); [apply (co_rns _ Hf)|apply (co_rns _ Ht)|subst f; assumption|subst f; assumption|subst f; reflexivity|rewrite (co_u64 _ Hf); exact Hl|].
    rewrite E1, E2. apply ag_refl.
  Qed.
  Lemma ag_delta_rest t m : agrees (delta_rest isp t m) (rel_delta_rest isp t m).
  Proof.
    unfold delta_rest, rel_delta_rest. apply ag_bind; [apply ag_refl|]. intros q _. cbv zeta. apply ag_pure; [apply ne_neg|]. intros n En. apply rel_neg_ok in En. rewrite En.
    apply ag_pure; [apply ne_inv|]. intros o Eo. apply rel_inv_ok in Eo. rewrite Eo. apply ag_refl.
  Qed.
  Lemma ag_cipher_plain N t plain ms : 0 <= t -> ctx_ok plain -> Z.of_nat (length ms) < 2 ^ 60 ->
    agrees (cipher_plain isp cands N t plain ms) (rel_cipher_plain isp cands N t plain ms).
  Proof.
    intros Ht Hpl Hl. unfold cipher_plain, rel_cipher_plain. rewrite rel_rns_new_eq. apply ag_bind; [apply ag_context|]. intros c Ec.
    destruct (context_new_good isp Hisp cands Hcands ms N c Ec) as (Hg & Em & Ed). pose proof (good_ok _ Hg) as Hc.
    apply ag_bind; [apply ag_mapM; intros; apply ag_delta_rest|]. intros rs _. apply ag_bind; [apply ag_refl|]. intros rns Ern.
    apply ag_bind; [apply ag_refl|]. intros d _. apply ag_bind; [apply ag_refl|]. intros p Ep.
    assert (HN1 : (1 <= c_degree c)%nat) by (pose proof (N_ge8 c Hc); lia).
    rewrite (from_big_eq c Hc) in Ep by (cbn [length]; lia). assert (Ep' : p = poly_of PowerBasis c true (padded c [d])) by congruence. subst p.
    assert (Lp : length (padded c [d]) = c_degree c) by (apply padded_length; cbn [length]; lia).
    cbn [pb_into]. pose proof (pb_shoup_eq c Hc true (padded c [d]) Lp) as Es. pose proof (rel_pb_shoup_ok (poly_of PowerBasis c true (padded c [d])) _ Hc Es) as Es'.
    rewrite Es, Es'. cbn [bind].
    apply ag_bind; [apply ag_refl|]. intros u _. pose proof (gr_basis _ (co_rns _ Hc)) as Hb. rewrite (co_u64 _ Hc), Em in Hb.
    destruct (rns_new_ok ms Hb) as (rns' & Ern' & Hrns & Eu). assert (rns' = rns) by congruence. subst rns'. pose proof (basis_pos _ Hb) as HQ.
    apply ag_bind; [apply ag_refl|]. intros f Ef. apply ag_bind; [|intros s _; apply ag_refl].
    apply (ag_poly_scaler c plain t (rns_product rns)); [exact Hc|exact Hpl|rewrite Em; exact Hl|exact Ht|rewrite (gr_product _ Hrns), Eu; lia|exact Ef].
  Qed.
  Lemma ag_build_level N t moduli sizes ext l cp : 0 <= t -> ctx_ok (cp_cipher cp) -> Z.of_nat (length (c_moduli (cp_cipher cp))) < 2 ^ 60 -> Z.of_nat (length moduli + length ext) < 2 ^ 60 ->
    agrees (build_level isp cands N t moduli sizes ext (l, cp)) (rel_build_level isp cands N t moduli sizes ext (l, cp)).
  Proof.
    intros Ht Hc Lc Ll. unfold build_level, rel_build_level. cbv zeta. apply ag_bind; [apply ag_refl|]. intros extra Ee. apply ag_bind; [apply ag_context|]. intros mctx Em.
    unfold slice_to in Ee. apply bind_inv in Ee. destruct Ee as (u & _ & Ee). assert (Ee' : extra = firstn (mul_moduli_count (firstn (length moduli - l) sizes)) ext) by congruence.
    destruct (context_new_good isp Hisp cands Hcands _ N mctx Em) as (Hg & Emm & Ed). pose proof (good_ok _ Hg) as Hm.
    assert (Lm : Z.of_nat (length (c_moduli mctx)) < 2 ^ 60) by (rewrite Emm, Ee', app_length, !firstn_length; lia).
    pose proof (basis_pos _ (gr_basis _ (co_rns _ Hc))) as HQ. rewrite <- (gr_product _ (co_rns _ Hc)) in HQ.
    apply ag_bind; [apply ag_refl|]. intros f Ef. unfold mul_params_new, rel_mul_params_new.
    apply ag_bind; [|intros mp _; apply ag_refl]. apply ag_bind; [apply (ag_poly_scaler _ _ 1 1); try assumption; try lia; reflexivity|]. intros e _.
    apply ag_bind; [apply (ag_poly_scaler _ _ t (rns_product (c_rns (cp_cipher cp)))); try assumption; lia|]. intros d _. apply ag_refl.
  Qed.
  Lemma ag_index degree rows : forall i pos mp, agrees (index_loop degree rows i pos mp) (Val (rel_index_loop degree rows i pos mp)).
  Proof.
    induction rows as [|r IH]; intros i pos mp; cbn [index_loop rel_index_loop]; [apply ag_refl|]. cbv zeta. unfold chk64.
    apply ag_pure; [apply ne_chk|]. intros a Ea. apply chk_inv in Ea. destruct Ea as (-> & Ra).
    apply ag_pure; [apply ne_chk|]. intros b Eb. apply chk_inv in Eb. destruct Eb as (-> & Rb).
    apply ag_pure; [apply ne_chk|]. intros c Ec. apply chk_inv in Ec. destruct Ec as (-> & Rc).
    rewrite !w64_id by assumption. apply IH.
  Qed.
  Lemma cipher_plain_ctx N t plain ms cp : cipher_plain isp cands N t plain ms = Val cp -> context_new isp cands ms N = Val (cp_cipher cp).
  Proof.
    unfold cipher_plain. intros E. do 6 (apply bind_inv in E; destruct E as (? & ? & E)). apply bind_inv in E. destruct E as (? & _ & E).
    do 2 (apply bind_inv in E; destruct E as (? & _ & E)). assert (H' : cp_cipher cp = x) by (injection E as <-; reflexivity). rewrite H'. assumption.
  Qed.
  Lemma basis_length want degree moduli : forall fuel upper acc ext, extended_basis_loop isp fuel want degree upper moduli acc = Val ext -> length ext = want.
  Proof.
    induction fuel as [|f IH]; intros upper acc ext E; cbn [extended_basis_loop] in E; destruct (Nat.eqb_spec (length acc) want) as [L|L]; try discriminate; try congruence.
    apply bind_inv in E. destruct E as (o & _ & E). apply bind_inv in E. destruct E as (p & _ & E). exact (IH _ _ _ E).
  Qed.
  Lemma friendly_length' N l : 8 <= Z.of_nat N -> NoDup l -> Forall (ntt_friendly N) l -> Z.of_nat (length l) <= 2 ^ 58.
  Proof.
    intros HN Hnd HF. rewrite <- (map_length (fun q => q / (2 * Z.of_nat N))). assert (E : W62 = 2 ^ 62) by reflexivity. apply nodup_bound; [lia|..].
    - apply nodup_map_div; [lia|exact Hnd|]. eapply Forall_impl; [|exact HF]. intros q (_ & _ & H). rewrite H, (Z.mod_small 1) by lia. reflexivity.
    - rewrite Forall_map. eapply Forall_impl; [|exact HF]. cbv beta. intros q (P & H & _). apply prime_ge_2 in P. split; [apply Z.div_pos; lia|]. apply Z.div_lt_upper_bound; lia.
  Qed.
  Theorem ag_build id b : is_builder b -> agrees (build isp cands id b) (rel_build isp cands id b).
  Proof.
    intros Hb. unfold build, rel_build. cbv zeta. apply ag_bind; [apply ag_refl|]. intros [] Ec. apply (config_val b Hb) in Ec. destruct Ec as (HK & Hvar & Hms).
    pose proof (proj1 (proj2 Hb)) as Ht. apply ag_bind; [apply ag_refl|]. intros small Esm. apply plaintext_small_val in Esm; [|exact Ht].
    pose proof (chosen_facts isp cands Ho b Hb HK) as HU. unfold chosen_moduli in HU. destruct HK as (K & HK & EK).
    assert (Hn : 8 <= b_degree b <= 65536) by (rewrite EK; change 8 with (2 ^ 3); change 65536 with (2 ^ 16); split; apply Z.pow_le_mono_r; lia).
    assert (EN : Z.of_nat (Z.to_nat (b_degree b)) = b_degree b) by lia.
    apply ag_bind; [destruct (b_sizes b); [apply ag_refl|apply ag_eq, moduli_eq; lia]|]. intros moduli Emo.
    assert (Hu : Forall is_u64 moduli) by (destruct HU as [(ms & E & Hu & _)|(e & E & _)]; [|congruence]; assert (ms = moduli) by congruence; subst ms; exact Hu).
    apply ag_bind; [apply ag_refl|]. intros [] Eval. apply (validate_val isp Hisp _ _ moduli Hu) in Eval. destruct Eval as (Hnd & HF & Htp & Hco).
    assert (HFr : Forall (ntt_friendly (Z.to_nat (b_degree b))) moduli).
    { eapply Forall_impl; [|exact HF]. cbv beta. intros q (P & Mq & L). split; [exact P|]. split; [exact L|]. rewrite EN. exact Mq. }
    pose proof (friendly_length' (Z.to_nat (b_degree b)) moduli ltac:(lia) Hnd HFr) as Lm.
    apply ag_bind; [apply ag_context|]. intros plain Epl. destruct (context_new_good isp Hisp cands Hcands _ _ _ Epl) as (Hgp & _ & _). pose proof (good_ok _ Hgp) as Hcp.
    apply ag_bind; [destruct small as [m|]; [apply ag_ntt_new, Esm|apply ag_refl]|]. intros ntt _.
    apply ag_bind; [apply ag_mapM; intros i _; apply ag_cipher_plain; [exact Ht|exact Hcp|rewrite firstn_length; lia]|]. intros cps Ecps.
    apply ag_bind; [apply ag_eq, basis_eq; [lia|vm_compute; split; congruence]|]. intros ext Eext. apply basis_length in Eext.
    apply ag_bind; [|intros levels _].
    - apply ag_mapM. intros [l cp] Hin. apply in_combine_r, in_rev in Hin. apply mapM_val_inv in Ecps.
      assert (Hc : exists i, cipher_plain isp cands (Z.to_nat (b_degree b)) (b_plaintext b) plain (firstn (length moduli - i) moduli) = Val cp).
      { clear - Ecps Hin. induction Ecps as [|i c l' l'' H HH IH]; [destruct Hin|]. destruct Hin as [->|Hin]; [eauto|auto]. }
      destruct Hc as (i & Ei). apply cipher_plain_ctx in Ei. destruct (context_new_good isp Hisp cands Hcands _ _ _ Ei) as (Hg & Em & _).
      apply ag_build_level; [exact Ht|exact (good_ok _ Hg)|rewrite Em, firstn_length; lia|rewrite Eext; lia].
    - unfold index_map, rel_index_map. set (L := index_loop _ _ _ _ _). intros Hx. pose proof (ag_index (b_degree b) (Z.to_nat (Z.shiftr (b_degree b) 1)) 0 1 (repeat 0%nat (Z.to_nat (b_degree b)))) as H.
      fold L in H. destruct L as [x|e|]; [|discriminate H; discriminate|cbn [bind] in Hx; congruence]. assert (E : x = rel_index_loop (b_degree b) (Z.to_nat (Z.shiftr (b_degree b) 1)) 0 1 (repeat 0%nat (Z.to_nat (b_degree b)))) by (specialize (H ltac:(discriminate)); congruence). rewrite <- E. reflexivity.
  Qed.
  Theorem ag_from_proto id m : is_u64 (pp_degree m) -> is_u64 (pp_variance m) -> Forall is_u64 (pp_moduli m) ->
    match pp_plain m with Some (PpU64 v) => is_u64 v | Some (PpBig l) => Forall (fun x => 0 <= x < 256) l | None => True end ->
    agrees (params_from_proto isp cands id m) (rel_params_from_proto isp cands id m).
  Proof.
    intros H1 H2 H3 H4. unfold params_from_proto, rel_params_from_proto. apply ag_bind; [apply ag_refl|]. intros t Et. apply ag_build.
    unfold is_builder. cbn [b_degree b_plaintext b_variance b_moduli b_sizes]. split; [exact H1|]. split; [|split; [exact H2|split; [exact H3|constructor]]].
    destruct (pp_plain m) as [[v|l]|]; [assert (t = v) by congruence; subst t; apply H4| |discriminate].
    assert (t = big_from_bytes l) by congruence. subst t. clear - H4. induction H4 as [|x l Hx H IH]; cbn [big_from_bytes]; lia.
  Qed.

  Lemma rel_prime_pos nb modulo ub t : rel_generate_prime isp nb modulo ub = Val (Some t) -> 1 <= t.
  Proof.
    unfold rel_generate_prime. destruct (Z.leb_spec 10 nb); [|discriminate]. destruct (Z.leb_spec nb 62); [|discriminate]. cbn [andb negb]. cbv zeta. intros E.
    do 3 (apply bind_inv in E; destruct E as (? & _ & E)). destruct (Z.eqb_spec (leading_zeros64 x1) (64 - nb)) as [L|]; [|discriminate]. cbn [andb] in E. destruct (isp x1); [|discriminate].
    assert (x1 = t) by congruence. subst x1. apply lz_pos in L; lia.
  Qed.
  Lemma ag_default_row nb id row : is_u64 (fst row) -> Forall is_u64 (snd row) -> agrees (rel_default_row isp (build isp cands) nb id row) (rel_default_row isp (rel_build isp cands) nb id row).
  Proof.
    intros H1 H2. unfold rel_default_row. apply ag_bind; [apply ag_refl|]. intros [t|] Et; [|apply ag_refl]. apply rel_prime_pos in Et. destruct (nb <=? _); [|apply ag_refl].
    assert (Hb : is_builder (mkBuilder (fst row) t 10 (snd row) [])).
    { unfold is_builder. cbn [b_degree b_plaintext b_variance b_moduli b_sizes]. split; [exact H1|]. split; [lia|]. split; [split; [discriminate|reflexivity]|]. split; [exact H2|constructor]. }
    pose proof (ag_build id _ Hb) as H. intros Hn. destruct (build isp cands id _); [rewrite H by discriminate; reflexivity|rewrite H by discriminate; reflexivity|congruence].
  Qed.
  Lemma default_words : Forall (fun p => is_u64 (fst (snd p)) /\ Forall is_u64 (snd (snd p))) (combine (seq 0 5) default_table).
  Proof.
    assert (H : forallb (fun p : nat * (Z * list Z) => let w x := (0 <=? x) && (x <? W64) in w (fst (snd p)) && forallb w (snd (snd p))) (combine (seq 0 5) default_table) = true) by (vm_compute; reflexivity).
    apply Forall_forall. intros p Hp. apply (proj1 (forallb_forall _ _) H) in Hp. cbv zeta in Hp. apply andb_prop in Hp. destruct Hp as (Hx & Hl).
    assert (W : forall x, (0 <=? x) && (x <? W64) = true -> is_u64 x) by (intros x Hw; apply andb_prop in Hw; rewrite Z.leb_le, Z.ltb_lt in Hw; exact Hw).
    split; [apply W, Hx|]. apply Forall_forall. intros x Hin. apply W. exact (proj1 (forallb_forall _ _) Hl x Hin).
  Qed.
  Theorem ag_default ids nb : 1 <= nb <= 63 -> agrees (default_parameters_128 isp cands ids nb) (rel_default_parameters_128 isp (rel_build isp cands) ids nb).
  Proof.
    intros Hn. rewrite <- default_eq by exact Hn. unfold rel_default_parameters_128. apply ag_bind; [|intros os _; apply ag_refl].
    apply ag_mapM. intros p Hp. pose proof default_words as H. rewrite Forall_forall in H. destruct (H p Hp). apply ag_default_row; assumption.
  Qed.

  (** Without a non-residue among the draws the debug build panics (the end of the search for a root) and the release build has no operator. *)
  Lemma loop_residue m n lambda l w : valid_modulus m -> prime (mod_p m) -> canonical (mod_p m) l -> 0 <= 2 * n < mod_p m -> 0 <= lambda < mod_p m ->
    primitive_root_loop isp m n lambda l = Val w -> exists c, In c l /\ cong (mod_p m) (c ^ (lambda * n)) (-1).
  Proof.
    intros Hm Hp Hc Hn Hl. assert (Hp2 : 2 <= mod_p m) by apply valid_fields, Hm.
    induction Hc as [|c cs Hc Hcs IH]; intros E; [discriminate|]. cbn [primitive_root_loop] in E.
    rewrite zq_pow_spec in E by assumption. cbn [bind] in E. set (r := c ^ lambda mod mod_p m) in *.
    assert (Hr : 0 <= r < mod_p m) by (apply Z.mod_pos_bound; lia).
    apply bind_inv in E. destruct E as (b & Eb & E). destruct b; [|destruct (IH E) as (x & Hx & H); exists x; split; [right; exact Hx|exact H]].
    exists c. split; [left; reflexivity|]. rewrite Z.pow_mul_r by lia. apply cong_trans with (r ^ n); [apply cong_sym, cong_pow_mod; lia|]. eapply is_primitive_root_inv; eassumption.
  Qed.
  Lemma entry_no_draw K p : (3 <= K < 63)%nat -> ntt_friendly (2 ^ K) p -> ~ has_nonresidue p (cands p) ->
    ctx_entry isp cands (2 ^ K) p = Panic /\ rel_ctx_entry isp cands (2 ^ K) p = Err (NttOperatorUnavailable p (Z.of_nat (2 ^ K))).
  Proof.
    intros HK Hf Hno. destruct Hf as (Hp & Hlt & Hmod). pose proof (prime_ge_2 _ Hp). destruct (modulus_new_ex p ltac:(lia)) as (m & Em & Hm & Ep).
    assert (Es : supports_ntt isp p (Z.of_nat (2 ^ K)) = Val true) by (apply supports_pow2; [exact Hisp|exact HK|lia|]; split; [exact Hp|]; split; assumption).
    assert (Hn : 8 <= Z.of_nat (2 ^ K)) by (rewrite nat_pow2_Z; change 8 with (2 ^ 3); apply Z.pow_le_mono_r; lia).
    pose proof (mod_1_ge p (2 * Z.of_nat (2 ^ K)) ltac:(lia) ltac:(lia) Hmod) as Hnp.
    unfold ctx_entry, rel_ctx_entry. rewrite Em. cbn [bind]. pose proof (new_all isp Hisp p m Em (cands p) (Hcands p) (2 ^ K)) as H'.
    destruct (ntt_new isp (cands p) m (2 ^ K)) as [o|e|] eqn:En.
    - exfalso. unfold ntt_new in En. cbv zeta in En. rewrite Ep, Es in En. cbn [bind negb] in En.
      destruct (zq_inv_some isp m (Z.of_nat (2 ^ K)) Hisp Hm) as (si & Esi & _); [rewrite Ep; exact Hp|rewrite Ep; lia|]. rewrite Esi in En. cbn [bind] in En.
      apply bind_inv in En. destruct En as (w & Ew & _). unfold primitive_root in Ew. rewrite Ep, Es in Ew. cbn [bind] in Ew. rewrite bind_guard in Ew by reflexivity. cbv zeta in Ew.
      apply loop_residue in Ew; [|exact Hm|rewrite Ep; exact Hp|rewrite Ep; apply Hcands|rewrite Ep; lia|rewrite Ep; split; [apply Z.div_pos; lia|apply Z.div_lt_upper_bound; nia]].
      rewrite Ep in Ew. apply Hno. destruct Ew as (c & Hc & Hcong). exists c. split; [exact Hc|]. replace ((p - 1) / 2) with ((p - 1) / (2 * Z.of_nat (2 ^ K)) * Z.of_nat (2 ^ K)); [exact Hcong|].
      set (N := Z.of_nat (2 ^ K)) in *. pose proof (Z.div_mod p (2 * N) ltac:(lia)) as D. rewrite Hmod in D. set (k := p / (2 * N)) in *.
      replace (p - 1) with (k * (2 * N)) by lia. rewrite Z.div_mul by lia. replace (k * (2 * N)) with (k * N * 2) by ring. rewrite Z.div_mul by lia. reflexivity.
    - destruct H'.
    - destruct H' as [(Hx & _)|(_ & ->)]; [congruence|]. split; reflexivity.
  Qed.
  Lemma residue_dec p l : {has_nonresidue p l} + {~ has_nonresidue p l}.
  Proof.
    destruct (Exists_dec (fun c => cong p (c ^ ((p - 1) / 2)) (-1)) l) as [H|H]; [intros c; apply Z.eq_dec|left|right].
    - apply Exists_exists in H. exact H.
    - intros Hx. apply H, Exists_exists. exact Hx.
  Qed.
  Lemma entries_no_draw K ms : (3 <= K < 63)%nat -> Forall (ntt_friendly (2 ^ K)) ms -> (exists p, In p ms /\ ~ has_nonresidue p (cands p)) ->
    mapM (ctx_entry isp cands (2 ^ K)) ms = Panic /\
    exists p, In p ms /\ ~ has_nonresidue p (cands p) /\ mapM (rel_ctx_entry isp cands (2 ^ K)) ms = Err (NttOperatorUnavailable p (Z.of_nat (2 ^ K))).
  Proof.
    intros HK HF. induction HF as [|q ms Hq HF IH]; intros (p & Hp & Hno); [destruct Hp|]. cbn [mapM]. destruct (residue_dec q (cands q)) as [Hr|Hr].
    - destruct (ctx_entry_total isp Hisp cands Hcands K q HK Hq Hr) as (e & Ee). pose proof (ag_entry (2 ^ K) q) as A. rewrite Ee in A. rewrite Ee, (A ltac:(discriminate)). cbn [bind].
      destruct IH as (E1 & p' & H1 & H2 & E2); [exists p; split; [|exact Hno]; destruct Hp as [->|Hp]; [contradiction|exact Hp]|]. rewrite E1, E2. cbn [bind]. split; [reflexivity|].
      exists p'. split; [right; exact H1|]. split; [exact H2|reflexivity].
    - destruct (entry_no_draw K q HK Hq Hr) as (-> & ->). cbn [bind]. split; [reflexivity|]. exists q. split; [left; reflexivity|]. split; [exact Hr|reflexivity].
  Qed.
  Theorem context_no_draw K ms : (3 <= K < 63)%nat -> ms <> [] -> NoDup ms -> Forall (ntt_friendly (2 ^ K)) ms -> (exists p, In p ms /\ ~ has_nonresidue p (cands p)) ->
    context_new isp cands ms (2 ^ K) = Panic /\
    exists p, In p ms /\ ~ has_nonresidue p (cands p) /\ rel_context_new isp cands ms (2 ^ K) = Err (NttOperatorUnavailable p (Z.of_nat (2 ^ K))).
  Proof.
    intros HK Hne Hnd HF Hex. unfold context_new, rel_context_new. cbn [context_new_fuel rel_context_new_fuel]. cbv zeta. rewrite degree_test by lia. rewrite rel_rns_new_eq.
    assert (Hb : rns_basis ms) by (apply distinct_primes_basis; try assumption; apply Forall_impl with (2 := HF); intros p (H1 & H2 & _); auto).
    destruct (rns_new_ok ms Hb) as (rns & -> & _ & _). cbn [bind]. destruct (entries_no_draw K ms HK HF Hex) as (-> & p & H1 & H2 & ->). cbn [bind]. split; [reflexivity|].
    exists p. split; [exact H1|]. split; [exact H2|reflexivity].
  Qed.
End Build.
