(** What the operations return, when they return, is a ciphertext of the parameters: shapes are preserved whatever the values. *)
From Verif Require Import Outcome BasicSpec OutcomeLemmas ZqModel ZqProofs NumTheory NttModel PolySpec PolyRing NttPure NttStages NttProofs CbdModel CbdSpec CbdProofs.
From Verif Require Import RnsModel RnsSpec RnsProofs RqModel RqSpec RqCtx RqRows RqProofs RingRn RqOps RqIO RnPoly.
From Verif Require Import ParamsModel BfvSpec ParamsProofs PlainModel SchemeSpec PlainProofs CipherModel CipherSpec EncryptProofs CipherProofs OpsModel.

(** *** Scaling polynomials *)
Lemma reduce1_inv x p r : 0 < p -> reduce1 x p = Val r -> 0 <= r < p.
Proof.
  intros Hp H. unfold reduce1 in H. apply bind_inv in H. destruct H as (_ & _ & H). apply bind_inv in H. destruct H as (p2 & _ & H). apply bind_inv in H. destruct H as (_ & _ & H). cbv zeta in H. apply bind_inv in H. destruct H as (u & H1 & H2).
  apply guard_inv in H1. apply andb_prop in H1. destruct H1 as (_ & H1). apply Z.eqb_eq in H1. injection H2 as <-. rewrite H1. apply Z.mod_pos_bound. exact Hp.
Qed.
Lemma reduce_u128_inv m a r : 0 < mod_p m -> reduce_u128 m a = Val r -> 0 <= r < mod_p m.
Proof. intros Hp H. unfold reduce_u128 in H. apply bind_inv in H. destruct H as (x & _ & H). exact (reduce1_inv _ _ _ Hp H). Qed.
Lemma scale_one_inv s rests v ws w i r q : (i < length (rns_moduli (sc_to s)))%nat -> nth_error (rns_moduli (sc_to s)) i = Some q -> 0 < mod_p q -> scale_one s rests v ws w i = Val r -> 0 <= r < mod_p q.
Proof.
  intros Hi Eq Hp H. unfold scale_one in H. apply bind_inv in H. destruct H as (q' & E1 & H). unfold get in E1. rewrite Eq in E1. injection E1 as <-.
  do 9 (apply bind_inv in H; destruct H as (? & _ & H)). apply bind_inv in H. destruct H as (y & _ & H). exact (reduce_u128_inv _ _ _ Hp H).
Qed.
Lemma mapM_inv_Forall2 {A B} (f : A -> M B) l r : mapM f l = Val r -> Forall2 (fun a b => f a = Val b) l r.
Proof.
  revert r. induction l as [|a l IH]; intros r H; cbn [mapM] in H; [injection H as <-; constructor|]. apply bind_inv in H. destruct H as (b & E & H). apply bind_inv in H. destruct H as (bs & Es & H). injection H as <-. constructor; [exact E|apply IH, Es].
Qed.
Lemma scale_inv s rests start n r : scale s rests start n = Val r -> length (rns_moduli (sc_to s)) = length (rns_u64 (sc_to s)) -> Forall (fun q => 0 < mod_p q) (rns_moduli (sc_to s)) ->
  length r = n /\ forall i q, (i < n)%nat -> nth_error (rns_moduli (sc_to s)) (start + i) = Some q -> 0 <= nth i r 0 < mod_p q.
Proof.
  intros H Hl Hp. unfold scale in H. apply bind_inv in H. destruct H as (? & _ & H). apply bind_inv in H. destruct H as (? & _ & H). apply bind_inv in H. destruct H as (? & Hle & H). apply guard_inv in Hle. apply Nat.leb_le in Hle.
  apply bind_inv in H. destruct H as (v & _ & H). apply bind_inv in H. destruct H as ((ws & w) & _ & H). apply mapM_inv_Forall2 in H. pose proof (Forall2_length_eq _ _ _ H) as L. rewrite seq_length in L. split; [congruence|].
  intros i q Hi Eq. assert (E : forall j, (j < n)%nat -> scale_one s rests v ws w (start + j) = Val (nth j r 0)).
  { clear -H. assert (G : forall k m r, Forall2 (fun a b => scale_one s rests v ws w (start + a) = Val b) (seq k m) r -> forall j, (j < m)%nat -> scale_one s rests v ws w (start + (k + j)) = Val (nth j r 0)).
    { intros k m. revert k. induction m as [|m IH]; intros k r0 F j Hj; [lia|]. cbn [seq] in F. inversion F as [|? b ? bs E1 E2]; subst. destruct j as [|j]; [rewrite Nat.add_0_r; exact E1|]. cbn [nth]. replace (k + S j)%nat with (S k + j)%nat by lia. apply IH; [exact E2|lia]. }
    exact (G O n r H). }
  eapply scale_one_inv; [|exact Eq| |apply E, Hi]; [lia|]. rewrite Forall_forall in Hp. apply Hp. eapply nth_error_In, Eq.
Qed.
Lemma fwd_rows_inv n v ops : forall rows rows', (forall op, In op ops -> exists K w, ntt_ok op K w /\ nt_size op = n) ->
  Forall2 (fun op r => length r = n /\ canonical (mod_p (nt_p op)) r) ops rows -> fwd_rows v ops rows = Val rows' -> Forall2 (fun op r => length r = n /\ canonical (mod_p (nt_p op)) r) ops rows'.
Proof.
  induction ops as [|op ops IH]; intros rows rows' Hops F H; inversion F as [|? r ? rs (Lr & Cr) F']; subst; unfold fwd_rows in H; cbn [zip_upd] in H; [injection H as <-; constructor|].
  apply bind_inv in H. destruct H as (y & E1 & H). apply bind_inv in H. destruct H as (ys & E2 & H). injection H as <-. destruct (Hops op (or_introl eq_refl)) as (K & w & Hok & Hsz).
  constructor; [|exact (IH rs ys (fun o Ho => Hops o (or_intror Ho)) F' E2)].
  assert (Er : row PowerBasis op r = r). { cbn [row]. rewrite <- (map_id r) at 2. apply map_ext_in. intros a Ha. unfold canonical in Cr. rewrite Forall_forall in Cr. apply Z.mod_small, Cr, Ha. }
  pose proof (fwd_row op K w Hok r v ltac:(congruence)) as Ef. rewrite Er in Ef. assert (y = row Ntt op r) by congruence. subst y. split; [rewrite (row_length op K w Hok) by congruence; exact Hsz|apply (row_canonical op K w Hok); congruence].
Qed.
Section Scale.
  Variables (from to : ctx) (Hf : ctx_ok from) (Ht : ctx_ok to).
  Lemma poly_scale_wf {R} f s (p q : poly R) : R <> NttShoup -> poly_scaler_new from to f = Val s -> p_ctx p = from -> well_formed p -> poly_scale s p = Val q ->
    c_degree from = c_degree to /\ p_ctx q = to /\ well_formed q.
  Proof.
    intros HR Es Ep Hw H. unfold poly_scaler_new in Es. destruct (Nat.eqb_spec (c_degree from) (c_degree to)) as [Hd|]; [|discriminate]. cbn [negb] in Es. apply bind_inv in Es. destruct Es as (rs & Ers & Es). injection Es as <-. split; [exact Hd|].
    assert (Eto : sc_to rs = c_rns to).
    { unfold scaler_new in Ers. apply bind_inv in Ers. destruct Ers as (? & _ & Ers). apply bind_inv in Ers. destruct Ers as (((? & ?) & ?) & _ & Ers). do 6 (apply bind_inv in Ers; destruct Ers as (? & _ & Ers)). injection Ers as <-. reflexivity. }
    destruct (wf_exists from Hf p Ep Hw) as (x & Lx & _ & Ex). unfold poly_scale in H. rewrite Ep in H. cbn [ps_from ps_to ps_common ps_rns] in H. rewrite ctx_eqb_refl in H. cbn [negb] in H.
    set (k := if f_one f then common_prefix (c_q from) (c_q to) else O) in *. apply bind_inv in H. destruct H as (tail & Htail & H). injection H as <-. cbn [p_ctx]. split; [reflexivity|].
    assert (Hk : (k <= length (c_q from))%nat /\ (k <= length (c_q to))%nat /\ Forall2 (fun a b => mod_p a = mod_p b) (firstn k (c_q from)) (firstn k (c_q to))).
    { unfold k. destruct (f_one f); [apply common_prefix_spec|]. cbn [firstn]. split; [lia|]. split; [lia|constructor]. }
    clearbody k. destruct Hk as (Hk1 & Hk2 & Hk3). split; [reflexivity|]. cbn [p_ctx p_coeffs p_shoup]. split; [|destruct R; [reflexivity..|congruence]].
    rewrite <- (firstn_skipn k (c_q to)). apply Forall2_app.
    - destruct Hw as (_ & Hw & _). rewrite Ep in Hw. revert Hk3. generalize (firstn k (c_q to)). assert (Hw' : Forall2 (fun q r => length r = c_degree from /\ canonical (mod_p q) r) (firstn k (c_q from)) (firstn k (p_coeffs p))).
      { clear -Hw. revert k. induction Hw as [|a b la lb Hab Hw IH]; intros [|k]; cbn [firstn]; constructor; auto. }
      revert Hw'. rewrite <- Hd. generalize (firstn k (c_q from)) (firstn k (p_coeffs p)). intros l0 l1 Hw' l2 Hk3. revert l2 Hk3. induction Hw' as [|a b la lb (H1 & H2) Hw' IH]; intros l2 Hk3; inversion Hk3; subst; constructor; [|apply IH; assumption]. split; [exact H1|congruence].
    - destruct (Nat.ltb_spec k (length (c_q to))) as [Hlt|Hge]; [|injection Htail as <-; rewrite skipn_all2 by lia; constructor].
      apply bind_inv in Htail. destruct Htail as (pb & Epb & Htail). apply bind_inv in Htail. destruct Htail as (cols & Ecols & Htail).
      assert (Hcols : Forall2 (fun op r => length r = c_degree to /\ canonical (mod_p (nt_p op)) r) (skipn k (c_ops to)) (transpose (length (c_q to) - k) cols)).
      { apply mapM_inv_Forall2 in Ecols. pose proof (Forall2_length_eq _ _ _ Ecols) as Lc. unfold transpose at 1 in Lc. rewrite map_length, seq_length in Lc.
        pose proof (co_rns _ Ht) as GR. pose proof (gr_moduli _ GR) as GM. pose proof (co_u64 _ Ht) as U. pose proof (Forall2_length_eq _ _ _ GM) as LM.
        assert (Hmods : forall i op, nth_error (c_ops to) i = Some op -> exists q, nth_error (rns_moduli (c_rns to)) i = Some q /\ mod_p q = mod_p (nt_p op)).
        { intros i op E. assert (E2 : nth_error (rns_u64 (c_rns to)) i = Some (mod_p (nt_p op))) by (rewrite U, (moduli_ops to Ht); apply (map_nth_error (fun op => mod_p (nt_p op))), E). revert E2. clear -GM. revert i. induction GM as [|a b la lb Hab GM IH]; intros [|i] E; cbn [nth_error] in *; try discriminate; [|apply IH, E].
          injection E as E. exists b. split; [reflexivity|]. rewrite <- E. symmetry. exact (proj2 (modulus_new_valid _ _ Hab)). }
        assert (Hpos : Forall (fun q => 0 < mod_p q) (rns_moduli (c_rns to))). { clear -GM. induction GM as [|a b la lb Hab GM IH]; constructor; [|exact IH]. destruct (valid_fields b (ex_intro _ a Hab)) as (H & _). lia. }
        assert (Hc : Forall (fun col => forall i op, (i < length (c_q to) - k)%nat -> nth_error (c_ops to) (k + i) = Some op -> 0 <= nth i col 0 < mod_p (nt_p op)) cols).
        { clear -Ecols Hmods Hpos Eto LM U. induction Ecols as [|a b la lb Hab _ IH]; constructor; [|exact IH]. rewrite <- Eto in *. destruct (scale_inv _ _ _ _ _ Hab) as (_ & H2); [congruence|exact Hpos|]. intros i op Hi Eop. destruct (Hmods _ _ Eop) as (q & Eq & <-). apply H2; assumption. }
        rewrite (q_length to Ht) in *. unfold transpose. clear -Hc Lc Hd. assert (G : forall m j, (length (c_ops to) - j)%nat = m -> (k <= j)%nat -> Forall2 (fun op r => length r = c_degree to /\ canonical (mod_p (nt_p op)) r) (skipn j (c_ops to)) (map (fun i => map (fun col => nth i col 0) cols) (seq (j - k) m))).
        { induction m as [|m IH]; intros j Hm Hj; [rewrite skipn_all2 by lia; constructor|]. destruct (nth_error (c_ops to) j) as [op|] eqn:Eop; [|apply nth_error_None in Eop; lia].
          assert (Esk : skipn j (c_ops to) = op :: skipn (S j) (c_ops to)). { clear -Eop. revert j Eop. induction (c_ops to) as [|a l IH]; intros [|j] E; cbn [nth_error] in E; try discriminate; [injection E as <-; reflexivity|]. cbn [skipn]. rewrite (IH j E). reflexivity. }
          rewrite Esk. cbn [seq map]. constructor.
          - split; [rewrite map_length; congruence|]. unfold canonical. apply Forall_map. eapply Forall_impl; [|exact Hc]. intros col Hcol. apply Hcol; [lia|]. replace (k + (j - k))%nat with j by lia. exact Eop.
          - replace (S (j - k)) with (S j - k)%nat by lia. apply IH; lia. }
        specialize (G (length (c_ops to) - k)%nat k eq_refl (Nat.le_refl _)). rewrite Nat.sub_diag in G. exact G. }
      assert (Hres : Forall2 (fun op r => length r = c_degree to /\ canonical (mod_p (nt_p op)) r) (skipn k (c_ops to)) tail).
      { destruct R; [injection Htail as <-; exact Hcols| |congruence]. eapply fwd_rows_inv; [|exact Hcols|exact Htail]. intros op Hop. apply (op_ok to Ht). rewrite <- (firstn_skipn k (c_ops to)). apply in_or_app. right. exact Hop. }
      rewrite (q_ops to Ht), skipn_map. clear -Hres. induction Hres; constructor; auto.
  Qed.
End Scale.

(** *** Lists of polynomials of a context *)
Section Rows.
  Context (c : ctx) (Hc : ctx_ok c) (N : nat) (HN : c_degree c = N).
  Set Default Proof Using "All".
  Definition all_P (ps : list (poly Ntt)) : Prop := exists vxs : list (bool * Rn N), ps = parts c vxs.
  Lemma all_P_Forall ps : all_P ps <-> Forall (fun p => exists v (x : Rn N), p = P Ntt c v x) ps.
  Proof.
    split.
    - intros (vxs & ->). unfold parts. apply Forall_map. apply Forall_forall. intros (v & x) _. eauto.
    - induction 1 as [|p ps (v & x & ->) _ (vxs & ->)]; [exists []; reflexivity|]. exists ((v, x) :: vxs). reflexivity.
  Qed.
  Lemma get_P ps i p : all_P ps -> get ps i = Val p -> exists v (x : Rn N), p = P Ntt c v x.
  Proof. intros H E. apply all_P_Forall in H. unfold get in E. destruct (nth_error ps i) as [q|] eqn:Eq; [|discriminate]. injection E as <-. rewrite Forall_forall in H. apply H. eapply nth_error_In, Eq. Qed.
  Lemma set_P ps i v (x : Rn N) : all_P ps -> all_P (set_nth ps i (P Ntt c v x)).
  Proof.
    intros H. apply all_P_Forall in H. apply all_P_Forall. revert i. induction H as [|p ps Hp H IH]; intros [|i]; cbn [set_nth]; [constructor|constructor|constructor; [eauto|exact H]|constructor; [exact Hp|apply IH]].
  Qed.
  Lemma mul_parts_P a b r : all_P a -> all_P b -> mul_parts c a b = Val r -> all_P r.
  Proof.
    intros Ha Hb H. unfold mul_parts in H. apply bind_inv in H. destruct H as (? & _ & H). cbv zeta in H. rewrite (P_zero c Hc N HN) in H.
    set (vz := forallb p_vt a && forallb p_vt b) in H. assert (Ez : (if vz then allow_vt (P Ntt c false (r0 N)) else P Ntt c false (r0 N)) = P Ntt c vz (r0 N)) by (destruct vz; [apply P_allow|reflexivity]). rewrite Ez in H. clear Ez. clearbody vz.
    assert (H0 : all_P (repeat (P Ntt c vz (r0 N)) (length a + length b - 1))) by (apply all_P_Forall, Forall_forall; intros p Hp; apply repeat_spec in Hp; eauto).
    revert H H0. generalize (repeat (P Ntt c vz (r0 N)) (length a + length b - 1)). generalize (list_prod (seq 0 (length a)) (seq 0 (length b))). clear -Ha Hb Hc HN.
    intros ps. induction ps as [|ij ps IH]; intros z H H0; cbn [foldM] in H; [injection H as <-; exact H0|]. apply bind_inv in H. destruct H as (z1 & E1 & H). apply (IH z1 H). clear H IH.
    unfold mul_step in E1. apply bind_inv in E1. destruct E1 as (ai & Ea & E1). destruct (get_P _ _ _ Ha Ea) as (va & xa & ->). apply bind_inv in E1. destruct E1 as (bj & Eb & E1). destruct (get_P _ _ _ Hb Eb) as (vb & xb & ->).
    rewrite (P_mul c Hc N HN) in E1. cbn [bind] in E1. apply bind_inv in E1. destruct E1 as (ck & Ek & E1). destruct (get_P _ _ _ H0 Ek) as (vk & xk & ->). rewrite (P_add c Hc N HN) in E1 by discriminate. cbn [bind] in E1. injection E1 as <-. apply set_P, H0.
  Qed.
End Rows.
Lemma scale_P from to (Hf : ctx_ok from) (Ht : ctx_ok to) N f s v (x : Rn N) q : c_degree from = N -> poly_scaler_new from to f = Val s -> poly_scale s (P Ntt from v x) = Val q -> c_degree to = N /\ exists w (y : Rn N), q = P Ntt to w y.
Proof.
  intros Hd Es E. destruct (poly_scale_wf from to Hf Ht f s (P Ntt from v x) q ltac:(discriminate) Es eq_refl (P_wf from Hf N Hd Ntt v x) E) as (Ed & Ec & Hw). rewrite Hd in Ed. split; [congruence|].
  destruct (P_ex to Ht N (eq_sym Ed) q Ec Hw) as (y & Ey & _). eauto.
Qed.
Lemma scale_all_P from to (Hf : ctx_ok from) (Ht : ctx_ok to) N f s ps r : c_degree from = N -> c_degree to = N -> poly_scaler_new from to f = Val s -> all_P from N ps -> mapM (poly_scale s) ps = Val r -> all_P to N r.
Proof.
  intros Hd Hd' Es H E. apply mapM_inv_Forall2 in E. apply (all_P_Forall from Hf N Hd) in H. apply (all_P_Forall to Ht N Hd'). induction E as [|a b la lb Hab _ IH]; [constructor|]. inversion H as [|? ? (v & x & ->) H']; subst. constructor; [|apply IH, H']. destruct (scale_P from to Hf Ht (c_degree from) f s v x b eq_refl Es Hab) as (_ & w & y & ->). eauto.
Qed.
