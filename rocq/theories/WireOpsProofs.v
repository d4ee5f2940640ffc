(** Operations with keys of any content: they never panic. *)
From Verif Require Import Outcome BasicSpec OutcomeLemmas ZqModel ZqProofs NumTheory NttModel PolySpec PolyRing NttPure NttStages NttProofs CbdModel CbdSpec CbdProofs.
From Verif Require Import TranscodeModel PrimesModel RnsModel RnsSpec RnsProofs RqModel RqSpec RqCtx RqRows RqProofs RingRn RqOps RqIO RqPropLemmas ParamsModel BfvSpec ParamsProofs BuildProofs ParamsPropLemmas PlainModel CipherModel OpsModel SchemeSpec CipherSpec PlainProofs RnPoly CipherProofs EncryptProofs CipherPropLemmas LinearPropLemmas SerialPropLemmas KeysModel KeysSpec KeysProofs KeySwitchProofs KeyNoiseProofs KeyOpsProofs KeyPropLemmas EvalSpec EvalKeyProofs EvalOpsProofs EvalExpandProofs WireSpec WireProofs WireKeysProofs.
From Coq Require Import Znumtheory.
Set Default Proof Using "Type".

Section Two.
  Context (isp : Z -> bool) (cands : Z -> list Z) (Ho : oracles isp cands) (par : params) (G : good_params isp cands par).
  Context (l1 : nat) (lv1 : level_ctx) (c1 : ctx) (A1 : at_level isp cands par l1 lv1 c1).
  Context (l2 : nat) (lv2 : level_ctx) (c2 : ctx) (A2 : at_level isp cands par l2 lv2 c2).
  Notation N := (pa_degree par).
  Notation Q2 := (prod_list (level_moduli (pa_moduli par) l2)).
  Add Ring Rn_wops : (Rn_ring N).
  Set Default Proof Using "All".
  (** Any key is a key for anything, with a large noise. *)
  Lemma any_rkey (s f : Rn N) gs : forall b0 b1 : list (Rn N), length b0 = length gs -> length b1 = length gs -> rkey Q2 s f Q2 gs (combine b0 b1).
  Proof.
    pose proof (Qpos isp cands Ho par G l2 lv2 c2 A2) as HQ. unfold rkey. induction gs as [|g gs IH]; intros [|x b0] [|y b1] L0 L1; try discriminate; cbn [combine]; constructor; [|apply IH; [injection L0 as L0; exact L0|injection L1 as L1; exact L1]].
    exists (rred Q2 (x + s * y - g *: f)%R). cbn [fst snd]. split.
    - assert (rnorm (rred Q2 (x + s * y - g *: f)%R) <= Q2 - 1); [|lia]. apply canonical_norm; [exact HQ|]. apply rred_canonical. exact HQ.
    - apply rcong_sym. eapply rcong_trans; [apply rcong_add; [apply rcong_refl|apply rred_cong; exact HQ]|]. replace (g *: f + (x + s * y - g *: f))%R with (x + s * y)%R by ring. apply rcong_refl.
  Qed.
  Lemma read_kskR k s f : read_ksk par l1 c1 l2 c2 k -> base_fits k -> kskR par l1 c1 l2 c2 (k_log_base k) k s f Q2.
  Proof.
    intros (sd & x0 & x1 & lb & -> & L0 & L1 & Hb & Hd & Hsd). unfold base_fits. cbn [k_log_base]. intros Hfit.
    assert (Hg : exists gs, gadget (level_moduli (pa_moduli par) l1) lb gs /\ length x0 = length gs /\ length x1 = length gs).
    { unfold key_count in L0, L1. destruct (Z.eqb_spec lb 0) as [E0|Hne].
      - rewrite E0. pose proof (good_ok _ (al_good _ _ _ _ _ _ A1)) as Hc1. pose proof (garner_weights _ (co_rns _ Hc1)) as W. rewrite (co_u64 _ Hc1), (al_mod _ _ _ _ _ _ A1) in W. eexists. split; [left; split; [reflexivity|exact W]|]. destruct W as (W & _). lia.
      - destruct (Hd Hne) as (Em1 & Em2). pose proof (single_iff isp cands par l1 G ltac:(lia)) as Hs. destruct Hs as (_ & Hs). specialize (Hs Em1).
        destruct (hd_moduli isp cands Ho par G) as (q & qs & Eq & Hq). assert (El : level_moduli (pa_moduli par) l1 = [q]).
        { unfold level_moduli in *. rewrite Eq in *. cbn [length] in *. destruct (S (length qs) - l1)%nat as [|[|n]]; [discriminate Hs|reflexivity|]. cbn [firstn length] in *. destruct qs; [reflexivity|discriminate Hs]. }
        exists (digit_weights lb (Z.to_nat (digit_count q lb))). rewrite El. split; [right; split; [lia|]; exists q; split; reflexivity|]. rewrite Eq in L0, L1. cbn [hd] in L0, L1. unfold digit_weights. rewrite map_length, seq_length. lia. }
    destruct Hg as (gs & Hg & Lg0 & Lg1). exists sd, (map (pair true) x0), (map (pair true) x1), gs. split; [reflexivity|]. split; [destruct (Z.eq_dec lb 0) as [E|E]; [left; exact E|right; destruct (Hd E); lia]|]. split; [exact Hg|]. rewrite !map_length. split; [exact Lg0|]. split; [exact Lg1|].
    assert (Hmm : forall xs : list (Rn N), map snd (map (pair true) xs) = xs) by (intros xs; rewrite map_map; apply map_id). rewrite !Hmm. apply any_rkey; assumption.
  Qed.
  (** Switching and going back to the first level. *)
  Definition pair_at (r : poly Ntt * poly Ntt) : Prop := exists w0 w1 (y0 y1 : Rn N), r = (P Ntt c1 w0 y0, P Ntt c1 w1 y1).
  Definition safe_key (k : ksk) : Prop := k_par k = par /\ k_ct_level k = l1 /\ forall v (x : Rn N),
    safe (bind (key_switch k (P PowerBasis c1 v x)) (ks_down c1 c1)) pair_at /\
    forall va vb (a b : Rn N), safe (bind (key_switch_assign k (P PowerBasis c1 v x) (P Ntt c1 va a) (P Ntt c1 vb b)) (ks_down c1 c1)) pair_at.
  Lemma read_safe k : read_ksk par l1 c1 l2 c2 k -> base_fits k -> safe_key k.
  Proof.
    intros HK Hfit. pose proof (Qpos isp cands Ho par G l2 lv2 c2 A2) as HQ. pose proof (good_ok _ (al_good _ _ _ _ _ _ A2)) as Hc2. pose proof (al_deg _ _ _ _ _ _ A2) as Hd2. destruct (le_lt_dec l2 l1) as [Hle|Hlt].
    - pose proof (read_kskR k (r0 N) (rZ N (level_ratio par l1 l2) * r0 N)%R HK Hfit) as HR. destruct (kskR_sw isp cands Ho par G l1 lv1 c1 A1 l2 lv2 c2 A2 Hle _ k _ _ Q2 (Z.lt_le_incl _ _ HQ) HR) as (E1 & E2 & H). split; [exact E1|]. split; [exact E2|]. intros v x.
      destruct (H v x) as (y0 & y1 & E & (w0 & w1 & Es) & Ea & _). split; [rewrite Es; exists w0, w1, y0, y1; reflexivity|]. intros va vb a b. destruct (Ea va vb a b) as (u0 & u1 & ->). exists u0, u1, y0, y1. reflexivity.
    - pose proof (read_kskR k (r0 N) (r0 N) HK Hfit) as HR. assert (Hlev : k_par k = par /\ k_ct_level k = l1) by (destruct HK as (? & ? & ? & ? & -> & _); split; reflexivity). destruct Hlev as (Ep & El). split; [exact Ep|]. split; [exact El|]. intros v x.
      destruct (kskR_switch isp cands Ho par G l1 lv1 c1 A1 l2 lv2 c2 A2 _ k _ _ Q2 (Z.lt_le_incl _ _ HQ) HR v x) as (u0 & u1 & w & e & (w0 & w1 & Ew) & Ea & _).
      assert (Ln : (length (c_moduli c2) < length (c_moduli c1))%nat) by (rewrite (al_moduli_length isp cands par l2 lv2 c2 A2), (al_moduli_length isp cands par l1 lv1 c1 A1); pose proof (al_lt _ _ _ _ _ _ A1); lia).
      assert (Hne : ctx_eqb c2 c1 = false) by (apply not_true_is_false; intros H; apply ctx_eqb_true in H; destruct H as (H & _); rewrite H in Ln; lia).
      assert (Hne' : ctx_eqb c1 c2 = false) by (apply not_true_is_false; intros H; apply ctx_eqb_true in H; destruct H as (H & _); rewrite H in Ln; lia).
      assert (Hdown : forall a0 a1, ks_down c1 c1 (P Ntt c2 a0 u0, P Ntt c2 a1 u1) = Err ContextNotReachable).
      { intros a0 a1. unfold ks_down. cbn [fst snd]. rewrite !P_ctx, Hne, !(P_ntt_pb c2 Hc2 N Hd2). cbn [bind]. unfold P at 1. rewrite (switch_down_to_err PowerBasis a0 c2 c1 _ eq_refl (al_good _ _ _ _ _ _ A2)); [reflexivity|]. intros (i & _ & _ & H). apply (f_equal (@length Z)) in H. rewrite firstn_length in H. lia. }
      split; [rewrite Ew; cbn [bind]; rewrite Hdown; exact I|]. intros va vb a b. destruct (Ea (P Ntt c1 va a) (P Ntt c1 vb b)) as (z0 & z1 & ->); [left; rewrite P_ctx; exact Hne'..|]. cbn [bind]. rewrite Hdown. exact I.
  Qed.
End Two.

Set Default Proof Using "Type".
Section Level.
  Context (isp : Z -> bool) (cands : Z -> list Z) (Ho : oracles isp cands) (par : params) (G : good_params isp cands par).
  Context (l1 : nat) (lv1 : level_ctx) (c1 : ctx) (A1 : at_level isp cands par l1 lv1 c1).
  Notation N := (pa_degree par).
  Set Default Proof Using "All".
  Local Lemma Hc1 : ctx_ok c1. Proof. exact (good_ok _ (al_good _ _ _ _ _ _ A1)). Qed.
  Local Lemma Hd1 : c_degree c1 = N. Proof. exact (al_deg _ _ _ _ _ _ A1). Qed.
  (** Ciphertexts of some level with any number of parts, and two-part ones of the level [l1]. *)
  Definition some_parts (ct : ciphertext) : Prop := exists l lv c (vxs : list (bool * Rn N)), at_level isp cands par l lv c /\ ct = mkCt par (ct_seed ct) (parts c vxs) l.
  Definition two_parts (ct : ciphertext) : Prop := exists v0 v1 (x0 x1 : Rn N), ct = mkCt par (ct_seed ct) (parts c1 [(v0, x0); (v1, x1)]) l1.
  Lemma two_some ct : two_parts ct -> some_parts ct.
  Proof. intros (v0 & v1 & x0 & x1 & E). exists l1, lv1, c1, [(v0, x0); (v1, x1)]. split; [exact A1|exact E]. Qed.
  Lemma some_validate ct : some_parts ct -> safe (ct_validate_for ct par) any.
  Proof.
    intros (l & lv & c & vxs & A & ->). unfold ct_validate_for. cbn [ct_par ct_level]. destruct (negb (par_same par par)); [exact I|]. rewrite (al_par_context isp cands par l lv c A). cbn [bind]. unfold ct_validate_context. repeat match goal with |- safe (if ?b then _ else _) _ => destruct b; [exact I|] end. exact I.
  Qed.
  Lemma some_level ct : some_parts ct -> ct_level ct = l1 -> exists vxs : list (bool * Rn N), ct = mkCt par (ct_seed ct) (parts c1 vxs) l1.
  Proof. intros (l & lv & c & vxs & A & E) El. rewrite E in El. cbn [ct_level] in El. subst l. destruct (at_level_unique _ _ _ _ _ _ _ _ A A1) as (_ & ->). exists vxs. exact E. Qed.
  Lemma some_two ct : some_parts ct -> safe (validate_two par l1 ct) (fun _ => two_parts ct).
  Proof.
    intros H. unfold validate_two. eapply safe_bind; [apply some_validate, H|]. intros _ _. destruct (Nat.eqb_spec (length (ct_c ct)) 2) as [E2|E2]; [|exact I]. destruct (Nat.eqb_spec (ct_level ct) l1) as [El|El]; [|exact I]. cbn [negb safe].
    destruct (some_level ct H El) as (vxs & E). rewrite E in E2. cbn [ct_c] in E2. rewrite parts_length in E2. destruct vxs as [|(v0 & x0) [|(v1 & x1) [|? ?]]]; try discriminate. exists v0, v1, x0, x1. exact E.
  Qed.
  Theorem relinearizes_safe k ct : safe_key par l1 c1 k -> some_parts ct -> safe (relinearizes k ct) two_parts.
  Proof.
    intros (Ep & El & HK) H. unfold relinearizes. rewrite Ep, El. eapply safe_bind; [apply some_validate, H|]. intros _ _. destruct (Nat.eqb_spec (ct_level ct) l1) as [E|E].
    - destruct (some_level ct H E) as (vxs & ->). cbn [ct_c ct_level ct_seed ct_par] in *. destruct vxs as [|(v0 & x0) [|(v1 & x1) [|(v2 & x2) [|? ?]]]]; try exact I. cbn [parts map fst snd negb].
      rewrite (P_ntt_pb c1 Hc1 N Hd1). cbn [bind]. rewrite !P_ctx, (bind_assoc isp cands Ho par G l1 lv1 c1 A1). eapply safe_bind; [apply (proj1 (HK v2 x2))|]. intros r (w0 & w1 & y0 & y1 & ->). cbn [fst snd]. rewrite !(P_add c1 Hc1 N Hd1) by discriminate. cbn [bind safe]. unfold ct_truncate. cbn [ct_c ct_par ct_seed ct_level firstn].
      exists (v0 && w0), (v1 && w1), (x0 + y0)%R, (x1 + y1)%R. reflexivity.
    - cbn [negb]. destruct (ct_c ct) as [|? [|? [|? [|? ?]]]]; exact I.
  Qed.

  Section Galois.
    Context (HN31 : Z.of_nat N <= 2 ^ 31).
    Definition safe_gk (g : galois_key) : Prop := (exists e, subst_ok N e (g_element g)) /\ safe_key par l1 c1 (g_ksk g).
    Theorem galois_apply_safe g ct : safe_gk g -> some_parts ct -> safe (galois_apply g ct) two_parts.
    Proof.
      intros ((e & Hi) & Ep & El & HK) H. unfold galois_apply. rewrite Ep, El. eapply safe_bind; [apply some_two, H|]. intros _ (v0 & v1 & x0 & x1 & ->). cbn [parts map fst snd ct_c get nth_error unwrap bind ct_par].
      rewrite (P_subst c1 Hc1 N Hd1) with (e := e) by assumption. cbn [bind]. rewrite (P_ntt_pb c1 Hc1 N Hd1). cbn [bind]. rewrite !P_ctx, (bind_assoc isp cands Ho par G l1 lv1 c1 A1). eapply safe_bind; [apply (proj1 (HK v1 _))|]. intros r (w0 & w1 & y0 & y1 & ->). cbn [fst snd].
      rewrite (P_subst c1 Hc1 N Hd1) with (e := e) by assumption. cbn [bind]. rewrite (P_add c1 Hc1 N Hd1) by discriminate. cbn [bind safe]. eexists _, _, _, _. reflexivity.
    Qed.
    Theorem galois_apply_into_safe g ct out : safe_gk g -> some_parts ct -> any_out par c1 out -> safe (galois_apply_into g ct out) (fun r => two_parts r /\ two_parts ct).
    Proof.
      intros ((e & Hi) & Ep & El & HK) H Hout. unfold galois_apply_into. rewrite Ep, El. eapply safe_bind; [apply some_two, H|]. intros tt0 H2; cbn beta in H2. pose proof H2 as (v0 & v1 & x0 & x1 & Ect). rewrite Ect. cbn [parts map fst snd ct_c get nth_error unwrap bind ct_par]. rewrite !P_ctx.
      rewrite (P_subst c1 Hc1 N Hd1) with (e := e) by assumption. cbn [bind]. rewrite (P_ntt_pb c1 Hc1 N Hd1). cbn [bind].
      assert (Hz : exists va vb, match ct_c out with
              | [o0; o1] => if negb (ctx_eqb (p_ctx o0) c1) || negb (ctx_eqb (p_ctx o1) c1)
                            then (poly_zero Ntt c1, poly_zero Ntt c1) else (o0, o1)
              | _ => (poly_zero Ntt c1, poly_zero Ntt c1)
              end = (P Ntt c1 (fst va) (snd va : Rn N), P Ntt c1 (fst vb) (snd vb : Rn N))).
      { rewrite (P_zero c1 Hc1 N Hd1). destruct (ct_c out) as [|o0 [|o1 [|? ?]]] eqn:Eo; try (exists (false, r0 N), (false, r0 N); reflexivity).
        destruct (ctx_eqb (p_ctx o0) c1) eqn:E0; [|exists (false, r0 N), (false, r0 N); reflexivity]. destruct (ctx_eqb (p_ctx o1) c1) eqn:E1; [|exists (false, r0 N), (false, r0 N); reflexivity].
        destruct (Hout o0 o1 Eo E0 E1) as (u0 & u1 & a & b & -> & ->). exists (u0, a), (u1, b). reflexivity. }
      destruct Hz as ((va & a) & (vb & b) & ->). cbn [fst snd]. rewrite !(P_zeroize_c1 isp cands Ho par G l1 lv1 c1 A1). rewrite (bind_assoc isp cands Ho par G l1 lv1 c1 A1). eapply safe_bind; [apply (proj2 (HK v1 _))|]. intros r (w0 & w1 & y0 & y1 & ->). cbn [fst snd].
      rewrite (P_subst c1 Hc1 N Hd1) with (e := e) by assumption. cbn [bind]. rewrite (P_add c1 Hc1 N Hd1) by discriminate. cbn [bind safe]. split; [eexists _, _, _, _; reflexivity|]. eexists _, _, _, _. reflexivity.
    Qed.
    Lemma any_two ct : two_parts ct -> any_out par c1 ct.
    Proof. intros (v0 & v1 & x0 & x1 & ->) o0 o1 H _ _. cbn [ct_c parts map fst snd] in H. injection H as <- <-. eauto 6. Qed.
    Lemma add_safe a b : two_parts a -> two_parts b -> safe (ct_add a b) two_parts /\ safe (ct_sub a b) two_parts.
    Proof.
      intros (v0 & v1 & x0 & x1 & ->) (w0 & w1 & y0 & y1 & ->). rewrite (ct_add_P isp cands par l1 lv1 c1 Ho G A1), (ct_sub_P isp cands par l1 lv1 c1 Ho G A1) by (reflexivity || discriminate). split; eexists _, _, _, _; reflexivity.
    Qed.

    (** *** Evaluation keys *)
    Context (ek : eval_key).
    Definition safe_ek : Prop := ek_par ek = par /\ ek_ct_level ek = l1 /\ rotation_table N (ek_rot ek) /\ (forall e g, lookup (ek_gk ek) e = Some g -> safe_gk g) /\
      Forall (fun p => exists v (x : Rn N), p = P NttShoup c1 v x) (ek_monomials ek).
    Context (HE : safe_ek).
    Lemma lookup_safe e err : safe (ok_or (lookup (ek_gk ek) e) err) safe_gk.
    Proof. destruct HE as (_ & _ & _ & H & _). destruct (lookup (ek_gk ek) e) as [g|] eqn:E; [apply (H e g E)|exact I]. Qed.
    Theorem rows_safe ct : some_parts ct -> safe (rotates_rows ek ct) two_parts.
    Proof.
      intros H. unfold rotates_rows. pose proof HE as (-> & -> & _). eapply safe_bind; [apply some_two, H|]. intros tt0 H2; cbn beta in H2. apply safe_if; [intros _; exact I|]. intros _. eapply safe_bind; [apply lookup_safe|]. intros g Hg.
      eapply safe_mono; [apply galois_apply_into_safe; [exact Hg|exact H|]|intros r (Hr & _); exact Hr]. intros o0 o1 E. discriminate.
    Qed.
    Theorem columns_safe ct i : some_parts ct -> safe (rotates_columns_by ek ct i) two_parts.
    Proof.
      intros H. unfold rotates_columns_by. pose proof HE as (-> & -> & _). eapply safe_bind; [apply some_two, H|]. intros tt0 H2; cbn beta in H2. apply safe_if; [intros _; exact I|]. intros _. apply (safe_bind _ _ any); [destruct (lookup (ek_rot ek) i); exact I|]. intros e _. eapply safe_bind; [apply lookup_safe|]. intros g Hg.
      eapply safe_mono; [apply galois_apply_into_safe; [exact Hg|exact H|]|intros r (Hr & _); exact Hr]. intros o0 o1 E. discriminate.
    Qed.
    Definition sum_state (st : ciphertext * ciphertext) : Prop := two_parts (fst st) /\ any_out par c1 (snd st).
    Lemma rot_add_safe st e : sum_state st -> safe (rot_add ek st e) sum_state.
    Proof.
      intros (H1 & H2). unfold rot_add. eapply safe_bind; [apply lookup_safe|]. intros g Hg. eapply safe_bind; [apply galois_apply_into_safe; [exact Hg|apply two_some, H1|exact H2]|]. intros t (Ht & _). eapply safe_bind; [exact (proj1 (add_safe _ _ H1 Ht))|]. intros o Hot. split; [exact Hot|apply any_two, Ht].
    Qed.
    Theorem sum_safe ct : some_parts ct -> safe (computes_inner_sum ek ct) two_parts.
    Proof.
      intros H. unfold computes_inner_sum. pose proof HE as (Ep & El & Hrot & _). rewrite Ep, El. eapply safe_bind; [apply some_two, H|]. intros tt0 H2; cbn beta in H2.
      apply (safe_bind _ _ any).
      { unfold supports_inner_sum. rewrite Ep. apply (safe_foldM _ any (fun i => is_step N i)); [|intros b i Hi _|exact I].
        - apply Forall_forall. intros i Hi. apply (steps_step isp cands Ho par G). exact Hi.
        - rewrite (proj2 (Hrot i (column_exponent N i)) (conj Hi eq_refl)). exact I. }
      intros b _. apply safe_if; [intros _; exact I|]. intros _. apply (safe_bind _ _ sum_state).
      { apply (safe_foldM _ sum_state any); [apply Forall_forall; intros; exact I| |].
        - intros st i _ Hst. apply (safe_bind _ _ any); [destruct (lookup (ek_rot ek) i); exact I|]. intros e _. apply rot_add_safe, Hst.
        - split; [exact H2|]. intros o0 o1 E. discriminate. }
      intros st Hst. eapply safe_bind; [apply rot_add_safe, Hst|]. intros st' (H3 & _). exact H3.
    Qed.

    (** Expansion. *)
    Definition exp_state (n : nat) (st : list ciphertext * ciphertext) : Prop := length (fst st) = n /\ Forall some_parts (fst st) /\ any_out par c1 (snd st).
    Lemma set_nth_Forall {X} (Px : X -> Prop) x l i : Px x -> Forall Px l -> Forall Px (set_nth l i x).
    Proof. intros Hx HF. revert i. induction HF as [|y l Hy HF IH]; intros [|i]; cbn [set_nth]; constructor; auto. Qed.
    Lemma mul_safe ct v (x : Rn N) : two_parts ct -> exists t0 t1 v0 v1 (y0 y1 : Rn N), get (ct_c ct) 0 = Val t0 /\ get (ct_c ct) 1 = Val t1 /\ poly_mul_shoup t0 (P NttShoup c1 v x) = Val (P Ntt c1 v0 y0) /\ poly_mul_shoup t1 (P NttShoup c1 v x) = Val (P Ntt c1 v1 y1) /\
      two_parts (ct_overwrite (ct_overwrite ct 0 (P Ntt c1 v0 y0)) 1 (P Ntt c1 v1 y1)).
    Proof.
      intros (v0 & v1 & x0 & x1 & ->). exists (P Ntt c1 v0 x0), (P Ntt c1 v1 x1), (v0 && v), (v1 && v), (x0 * x)%R, (x1 * x)%R. split; [reflexivity|]. split; [reflexivity|]. rewrite !(P_mul_shoup c1 Hc1 N Hd1). split; [reflexivity|]. split; [reflexivity|].
      unfold ct_overwrite. cbn [ct_c ct_par ct_seed ct_level parts map fst snd set_nth]. eexists _, _, _, _. reflexivity.
    Qed.
    Lemma one_safe g v (x : Rn N) step size n st i : safe_gk g -> (2 * step <= n)%nat -> (i < step)%nat -> exp_state n st -> safe (expand_one g (P NttShoup c1 v x) step size st i) (exp_state n).
    Proof.
      intros Hg Hn Hi (Hl & HF & Ho'). unfold expand_one. unfold get. assert (Hi' : (i < length (fst st))%nat) by lia. apply nth_error_Some in Hi'. destruct (nth_error (fst st) i) as [low|] eqn:Elow; [|congruence]. cbn [unwrap bind].
      assert (Hlow : some_parts low) by (rewrite Forall_forall in HF; apply HF; apply nth_error_In in Elow; exact Elow).
      eapply safe_bind; [apply galois_apply_into_safe; [exact Hg|exact Hlow|exact Ho']|]. intros sub (Hsub & Hlow2).
      apply (safe_bind _ _ (fun o => length o = n /\ Forall some_parts o)).
      { apply safe_if; [|intros _; split; assumption]. intros _. assert (Hlt : Nat.ltb (step + i) (length (fst st)) = true) by (apply Nat.ltb_lt; lia). rewrite Hlt. cbn [guard bind].
        eapply safe_bind; [exact (proj2 (add_safe _ _ Hlow2 Hsub))|]. intros t Ht. destruct (mul_safe t v x Ht) as (t0 & t1 & v0 & v1 & y0 & y1 & E0 & E1 & E2 & E3 & Hm). unfold get in E0, E1. rewrite E0. cbn [bind]. rewrite E1. cbn [bind]. rewrite E2. cbn [bind]. rewrite E3. cbn [bind safe]. rewrite set_len. split; [exact Hl|]. apply set_nth_Forall; [apply two_some, Hm|exact HF]. }
      intros o (Lo & Fo). eapply safe_bind; [exact (proj1 (add_safe _ _ Hlow2 Hsub))|]. intros t Ht. cbn [safe]. split; cbn [fst snd]; [rewrite set_len; exact Lo|]. split; [apply set_nth_Forall; [apply two_some, Ht|exact Fo]|apply any_two, Hsub].
    Qed.
    Lemma round_safe size L st l : (l < L)%nat -> Z.of_nat l < 64 -> exp_state (2 ^ L) st -> safe (expand_round ek size st l) (exp_state (2 ^ L)).
    Proof.
      intros Hl H64 Hst. unfold expand_round. pose proof HE as (Ep & _ & _ & _ & Hm). rewrite Forall_forall in Hm.
      destruct (nth_error (ek_monomials ek) l) as [m|] eqn:Em; [|exact I]. cbn [ok_or bind]. destruct (Hm m (nth_error_In _ _ Em)) as (v & x & ->). unfold shrM. rewrite chk_val by lia. cbn [bind]. eapply safe_bind; [apply lookup_safe|]. intros g Hg. cbv zeta.
      assert (Hp : (2 * 2 ^ l <= 2 ^ L)%nat) by (rewrite <- Nat.pow_succ_r'; apply Nat.pow_le_mono_r; lia). assert (Hle : Nat.leb (2 ^ l) (length (fst st)) = true) by (apply Nat.leb_le; destruct Hst as (-> & _); lia). rewrite Hle. cbn [guard bind].
      apply (safe_foldM _ (exp_state (2 ^ L)) (fun i => (i < 2 ^ l)%nat)); [apply Forall_forall; intros i Hi; apply in_seq in Hi; lia| |exact Hst]. intros s i Hi Hs. apply one_safe; assumption.
    Qed.
    Lemma zero_some : some_parts (ct_zero par).
    Proof. destruct (at_level_ex isp cands par 0 Ho G (Nat.le_0_l _)) as (lv & c & A). exists 0%nat, lv, c, []. split; [exact A|reflexivity]. Qed.
    Theorem expands_safe ct size : some_parts ct -> safe (expands ek ct size) (Forall some_parts).
    Proof.
      intros H. unfold expands. pose proof HE as (Ep & El & _). rewrite Ep, El. eapply safe_bind; [apply some_two, H|]. intros tt0 H2; cbn beta in H2. apply safe_if; [intros _; exact I|]. intros Hs0. apply Z.eqb_neq in Hs0. apply safe_if; [intros _; exact I|]. intros Hs1. apply Z.ltb_ge in Hs1.
      cbv zeta. set (L := Z.to_nat (Z.log2_up size)). apply safe_if; [intros _; repeat constructor; exact H|]. intros HL0. apply Nat.eqb_neq in HL0.
      assert (HL : (L <= 31)%nat). { assert (Z.log2_up size <= Z.log2_up (2 ^ 31)) by (apply Z.log2_up_le_mono; unfold degree_of in Hs1; lia). rewrite Z.log2_up_pow2 in H0 by lia. lia. }
      apply (safe_bind _ _ any).
      { unfold supports_expansion. apply safe_if; [intros _; exact I|]. intros _. apply safe_if; [intros _; exact I|]. intros _. apply (safe_foldM _ any (fun l => (l < L)%nat)); [apply Forall_forall; intros l Hl; apply in_seq in Hl; lia| |exact I]. intros b l Hl _. unfold shrM. rewrite chk_val by lia. exact I. }
      intros b _. apply safe_if; [|intros _; exact I]. intros _. apply (safe_bind _ _ (exp_state (2 ^ L))).
      { apply (safe_foldM _ (exp_state (2 ^ L)) (fun l => (l < L)%nat)); [apply Forall_forall; intros l Hl; apply in_seq in Hl; lia| |].
        - intros st l Hl Hst. apply round_safe; [exact Hl|lia|exact Hst].
        - assert (Epar : ct_par ct = par) by (destruct H as (? & ? & ? & ? & _ & ->); reflexivity). rewrite Epar. split; [|split].
          + cbn [fst length]. rewrite repeat_length. assert (0 < 2 ^ L)%nat by (apply Nat.neq_0_lt_0, Nat.pow_nonzero; lia). lia.
          + cbn [fst]. constructor; [exact H|]. apply Forall_forall. intros c Hc. apply repeat_spec in Hc. rewrite Hc. exact zero_some.
          + intros o0 o1 E. discriminate. }
      intros st (_ & HF & _). cbn [safe]. rewrite Forall_forall in HF |- *. intros c Hc. apply HF. rewrite <- (firstn_skipn (Z.to_nat size) (fst st)). apply in_or_app. left. exact Hc.
    Qed.
  End Galois.
End Level.
