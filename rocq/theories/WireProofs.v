(** Reading polynomials from arbitrary messages: no message makes the parser panic, and the polynomials it returns in the
    NTT representations are well formed. *)
From Verif Require Import Outcome BasicSpec OutcomeLemmas ZqModel ZqProofs ZqPow NumTheory TranscodeModel TranscodeProofs NttModel PolySpec PolyRing NttPure NttStages NttProofs.
From Verif Require Import RnsModel RnsSpec RnsProofs RqModel RqSpec RqCtx RqRows RqProofs RqPropLemmas RingRn RqOps RqIO ParamsProofs CipherModel RnPoly WireSpec.

Lemma digits_firstn w n l : digits w l -> digits w (firstn n l).
Proof. unfold digits. rewrite !Forall_forall. intros H x Hx. apply H. rewrite <- (firstn_skipn n l). apply in_or_app. left. exact Hx. Qed.
Lemma digits_skipn w n l : digits w l -> digits w (skipn n l).
Proof. unfold digits. rewrite !Forall_forall. intros H x Hx. apply H. rewrite <- (firstn_skipn n l). apply in_or_app. right. exact Hx. Qed.

Lemma ser_len m d : valid_modulus m -> 0 <= d < 2 ^ 32 -> d mod 8 = 0 -> exists s, serialization_length m d = Val s /\ 0 <= s <= 8 * d.
Proof.
  intros Hm Hd H8. unfold serialization_length. rewrite H8. cbn [Z.eqb guard bind]. cbv zeta. destruct (valid_fields _ Hm) as (Hp & _). destruct (pbits_spec _ Hp) as (Hw & _).
  set (w := 64 - leading_zeros64 (mod_p m - 1)) in *. unfold chk64. rewrite bind_chk by nia.
  exists (w * d / 8). split; [reflexivity|]. split; [apply Z.div_pos; nia|]. apply Z.le_trans with (64 * d / 8); [apply Z.div_le_mono; nia|]. replace (64 * d) with (8 * d * 8) by ring. rewrite Z.div_mul by lia. lia.
Qed.
Lemma parse_total d : 0 <= d < 2 ^ 32 -> d mod 8 = 0 -> forall qs a, Forall valid_modulus qs -> 0 <= a -> a + 8 * d * Z.of_nat (length qs) < W64 ->
  exists t, foldM (fun acc q => s <- serialization_length q d ;; chk64 (acc + s)) qs a = Val t /\ a <= t < W64 /\
  forall b, digits 8 b -> len b = t - a ->
    exists vs, parse_rows qs d b = Val (concat vs) /\ Forall2 (fun q v => len v = d /\ Forall (fun x => 0 <= x < 2 * mod_p q) v) qs vs.
Proof.
  intros Hd H8. induction qs as [|q qs IH]; intros a HF Ha Hb.
  - exists a. cbn [foldM length] in *. split; [reflexivity|]. split; [lia|]. intros b _ _. exists []. split; [reflexivity|constructor].
  - inversion HF as [|? ? Hq HF']; subst. destruct (ser_len q d Hq Hd H8) as (s & Es & Hs). cbn [foldM length] in *. rewrite Es. cbn [bind]. unfold chk64. rewrite bind_chk by nia.
    destruct (IH (a + s) HF' ltac:(lia) ltac:(nia)) as (t & Et & Ht & G). exists t. split; [exact Et|]. split; [lia|]. intros b Hdb Lb. cbn [parse_rows]. rewrite Es. cbn [bind].
    assert (L1 : len (firstn (Z.to_nat s) b) = s) by (unfold len in *; rewrite firstn_length; lia).
    assert (L2 : len (skipn (Z.to_nat s) b) = t - (a + s)) by (unfold len in *; rewrite skipn_length; lia).
    pose proof Hq as (p0 & Eq0). destruct (valid_fields _ Hq) as (Hp & _).
    destruct (deserialize_bound p0 q Eq0 (firstn (Z.to_nat s) b) (digits_firstn _ _ _ Hdb) ltac:(lia)) as (v & Ev & Bv).
    destruct (G (skipn (Z.to_nat s) b) (digits_skipn _ _ _ Hdb) L2) as (vs & Evs & Fvs). exists (v :: vs). rewrite Ev. cbn [bind]. rewrite Evs. split; [reflexivity|]. constructor; [|exact Fvs].
    split; [apply (deserialize_length q (firstn (Z.to_nat s) b) v d Hq ltac:(lia)); [rewrite L1; exact Es|exact Ev]|].
    destruct (modulus_new_ex p0) as (m1 & E1 & _ & E2); [apply modulus_new_inv in Eq0; exact Eq0|]. assert (q = m1) by congruence. subst m1. rewrite E2. exact Bv.
Qed.

Section Wire.
  Variables (c : ctx) (Hc : ctx_ok c).
  Notation N := (c_degree c).
  Hypothesis Hk : Z.of_nat (length (c_moduli c)) < 2 ^ 29.
  Lemma valid_c_q : Forall valid_modulus (c_q c).
  Proof using Hc. rewrite (q_ops c Hc). apply Forall_forall. intros q Hq. apply in_map_iff in Hq. destruct Hq as (op & <- & Hop). destruct (op_ok c Hc op Hop) as (K & w & Hok & _). apply (ok_m _ _ _ Hok). Qed.
  Lemma parse_proto_ok m : wire_rq m -> (exists e, parse_proto m c = Err e) \/
    exists r vs, parse_proto m c = Val (r, concat vs) /\ Forall2 (fun q v => len v = rq_degree m /\ Forall (fun x => 0 <= x < 2 * mod_p q) v) (c_q c) vs.
  Proof using Hc Hk.
    intros (Hb & Hd). unfold is_u32 in Hd. unfold parse_proto.
    destruct (if rq_repr m =? 1 then Val PowerBasis else if rq_repr m =? 2 then Val Ntt else if rq_repr m =? 3 then Val NttShoup else if rq_repr m =? 0 then Err UnknownRepresentation else Err (InvalidRepresentation (rq_repr m))) as [r|e|] eqn:Er;
      [|left; eexists; reflexivity|repeat destruct (_ =? _); discriminate]. cbn [bind]. cbv zeta.
    destruct (negb (rq_degree m mod 8 =? 0) || (rq_degree m <? 8)) eqn:E8; [left; eexists; reflexivity|]. apply orb_false_iff in E8. destruct E8 as (E8 & _). apply negb_false_iff, Z.eqb_eq in E8.
    assert (Lq : length (c_q c) = length (c_moduli c)) by (rewrite (co_moduli _ Hc), map_length; reflexivity).
    destruct (parse_total (rq_degree m) Hd E8 (c_q c) 0 valid_c_q ltac:(lia)) as (t & Et & Ht & G); [rewrite Lq; change W64 with (8 * 2 ^ 32 * 2 ^ 29); nia|].
    rewrite Et. cbn [bind]. destruct (negb (len (rq_coeffs m) =? t)) eqn:El; [left; eexists; reflexivity|]. apply negb_false_iff, Z.eqb_eq in El.
    destruct (G (rq_coeffs m) Hb ltac:(lia)) as (vs & Ev & Fv). right. exists r, vs. rewrite Ev. split; [reflexivity|exact Fv].
  Qed.
  (** Rows below 2p are as good as reduced ones. *)
  Lemma fwd_unreduced v rows : Forall2 (fun op r => length r = N /\ Forall (fun x => 0 <= x < 2 * mod_p (nt_p op)) r) (c_ops c) rows ->
    exists x, length x = N /\ forall R, R <> PowerBasis -> pb_into R (mkPoly (R := PowerBasis) c false v rows None) = Val (poly_of R c v x).
  Proof using Hc.
    intros HF. set (red := zipWith (fun op r => map (fun a => a mod mod_p (nt_p op)) r) (c_ops c) rows).
    assert (Fred : Forall2 (fun op r => length r = N /\ canonical (mod_p (nt_p op)) r) (c_ops c) red).
    { subst red. pose proof (op_ok c Hc) as G. revert rows HF G. induction (c_ops c) as [|op ops IH]; intros rows HF G; inversion HF as [|? r ? rs (H1 & H2) H3]; subst; cbn [zipWith]; constructor.
      - split; [rewrite map_length; exact H1|]. destruct (G op (or_introl eq_refl)) as (K & w & Hok & _). apply Forall_forall. intros a Ha. apply in_map_iff in Ha. destruct Ha as (a0 & <- & _). apply Z.mod_pos_bound. pose proof (p_pos op K w Hok). lia.
      - apply IH; [exact H3|]. intros; apply G; right; assumption. }
    destruct (rows_exist c Hc PowerBasis red Fred) as (x & Lx & _ & Ex). exists x. split; [exact Lx|].
    assert (E : fwd_rows v (c_ops c) rows = Val (map (fun op => row Ntt op x) (c_ops c))).
    { rewrite <- (fwd_eq c Hc v x Lx), Ex. subst red. clear Ex Fred Lx x. unfold fwd_rows. pose proof (op_ok c Hc) as G. revert rows HF G. induction (c_ops c) as [|op ops IH]; intros rows HF G; inversion HF as [|? r ? rs (H1 & H2) H3]; subst; [reflexivity|]. cbn [zipWith zip_upd].
      rewrite (IH rs H3) by (intros; apply G; right; assumption). destruct (G op (or_introl eq_refl)) as (K & w & Hok & Hs). pose proof (p_pos op K w Hok) as Hp.
      assert (B1 : below (4 * mod_p (nt_p op)) r) by (eapply Forall_impl; [|exact H2]; cbn beta; intros; lia).
      assert (B2 : below (4 * mod_p (nt_p op)) (map (fun a => a mod mod_p (nt_p op)) r)) by (apply Forall_forall; intros a Ha; apply in_map_iff in Ha; destruct Ha as (a0 & <- & _); pose proof (Z.mod_pos_bound a0 (mod_p (nt_p op)) ltac:(lia)); lia).
      assert (C : NTT op (map (fun a => a mod mod_p (nt_p op)) r) = NTT op r) by (apply NTT_cong, rmod_lcong; apply rmod_rmod).
      assert (L1 : length r = nt_size op) by congruence. assert (L2 : length (map (fun a => a mod mod_p (nt_p op)) r) = nt_size op) by (rewrite map_length; exact L1).
      destruct v; [rewrite !(forward_vt_NTT op K w Hok) by assumption|rewrite !(forward_NTT op K w Hok) by assumption]; rewrite C; reflexivity. }
    intros R HR. destruct R; [contradiction| |]; cbn [pb_into]; [unfold pb_into_ntt|unfold pb_into_ntt_shoup]; cbn [p_vt p_ctx p_coeffs p_lazy]; rewrite E; cbn [bind]; [reflexivity|]. 
    rewrite (shoup_rows_eq c Hc Ntt) by exact Lx. reflexivity.
  Qed.
  Theorem from_proto_ok m v : wire_rq m -> (forall R, exists e, poly_from_proto R m c v = Err e) \/
    (exists R, poly_from_proto R m c v <> Panic /\ (R <> PowerBasis -> exists x, length x = N /\ poly_from_proto R m c v = Val (poly_of R c v x)) /\ forall R', R' <> R -> poly_from_proto R' m c v = Err RepresentationMismatch) \/
    (exists R, (exists e, poly_from_proto R m c v = Err e) /\ forall R', R' <> R -> poly_from_proto R' m c v = Err RepresentationMismatch).
  Proof using Hc Hk.
    intros Hm. unfold poly_from_proto. destruct (parse_proto_ok m Hm) as [(e & ->)|(r & vs & -> & Fv)]; [left; intros R; exists e; reflexivity|]. cbn [bind]. right.
    assert (Hl : length (concat vs) = (length (c_q c) * Z.to_nat (rq_degree m))%nat).
    { clear - Fv. revert vs Fv. induction (c_q c) as [|q qs IH]; intros vs HF; inversion HF as [|? w ? ws (H1 & H2) H3]; subst; [reflexivity|]. cbn [concat length Nat.mul]. rewrite app_length, (IH _ H3). unfold len in H1. lia. }
    destruct Hm as (_ & Hd).
    assert (Eself : repn_eqb r r = true) by (unfold repn_eqb; apply Z.eqb_refl).
    unfold pb_from_u64 in *. destruct (Nat.eqb (length (concat vs)) (length (c_q c) * N)) eqn:En.
    - left. exists r. apply Nat.eqb_eq in En. assert (Ed : Z.to_nat (rq_degree m) = N).
      { assert (0 < length (c_q c))%nat by (rewrite (q_length c Hc); pose proof (co_ne _ Hc); destruct (c_ops c); [contradiction|cbn [length]; lia]). nia. }
      assert (Er : rows_of c (concat vs) = vs).
      { unfold rows_of. clear - Fv Ed. revert vs Fv. induction (c_q c) as [|q qs IH]; intros vs HF; inversion HF as [|? w ? ws (H1 & H2) H3]; subst; [reflexivity|]. cbn [concat length chunks_n].
        assert (Lw : length w = N) by (unfold len in H1; lia). specialize (IH _ H3). rewrite skipn_app, firstn_app, <- Lw, firstn_all, skipn_all, Nat.sub_diag, firstn_O, app_nil_r. cbn [app skipn]. rewrite Lw. destruct (chunks_n (length qs) N (concat ws)) as [a b]. cbn [fst] in IH |- *. congruence. }
      rewrite Er. rewrite Eself. cbn [negb bind].
      assert (HF : Forall2 (fun op r => length r = N /\ Forall (fun x => 0 <= x < 2 * mod_p (nt_p op)) r) (c_ops c) vs).
      { rewrite (q_ops c Hc) in Fv. clear - Fv Ed Hd. revert vs Fv. induction (c_ops c) as [|op ops IH]; intros vs HF; inversion HF as [|? w ? ws (H1 & H2) H3]; subst; constructor; [|apply IH, H3]. split; [unfold len in H1; lia|exact H2]. }
      destruct (fwd_unreduced v vs HF) as (x & Lx & Ex). split; [|split; [|intros R2 HR2; destruct r, R2; reflexivity || congruence]].
      + destruct r; [discriminate|rewrite Ex by discriminate; discriminate..].
      + intros HR. exists x. split; [exact Lx|apply Ex, HR].
    - destruct (Nat.leb (length (concat vs)) N) eqn:E2.
      + left. exists r. apply Nat.leb_le in E2.
        pose proof (from_u64_eq c Hc (concat vs) v E2) as FU. unfold pb_from_u64 in FU. rewrite En in FU. replace (Nat.leb (length (concat vs)) N) with true in FU by (symmetry; apply Nat.leb_le, E2).
        assert (Hu : Forall is_u64 (concat vs)).
        { pose proof valid_c_q as V. clear - Fv V. revert vs Fv. induction (c_q c) as [|q qs IH]; intros vs HF; inversion HF as [|? w ? ws (H1 & H2) H3]; subst; [constructor|]. inversion V as [|? ? V1 V2]; subst. cbn [concat]. apply Forall_app. split; [|apply IH; assumption].
          destruct (valid_fields _ V1) as (Hp & _). eapply Forall_impl; [|exact H2]. cbn beta. unfold is_u64. intros. lia. }
        assert (Hlt : (length (concat vs) < length (c_moduli c) * N)%nat).
        { apply Nat.eqb_neq in En. assert (Lm : length (c_moduli c) = length (c_q c)) by (rewrite (co_moduli _ Hc), map_length; reflexivity). rewrite Lm.
          assert (0 < length (c_q c))%nat by (rewrite (q_length c Hc); pose proof (co_ne _ Hc); destruct (c_ops c); [contradiction|cbn [length]; lia]). nia. }
        rewrite (FU Hu Hlt). cbn [bind]. rewrite Eself. cbn [negb]. rewrite (pb_into_eq c Hc) by (apply padded_length; exact E2).
        split; [discriminate|]. split; [intros _; eexists; split; [|reflexivity]; apply padded_length; exact E2|]. intros R' HR. destruct r, R'; reflexivity || congruence.
      + right. exists r. rewrite Eself. cbn [negb bind]. split; [eexists; reflexivity|]. intros R2 HR2; destruct r, R2; reflexivity || congruence.
  Qed.
  Corollary from_proto_no_panic R m v : wire_rq m -> poly_from_proto R m c v <> Panic.
  Proof using Hc Hk.
    intros Hm. destruct (from_proto_ok m v Hm) as [H|[(R0 & H1 & _ & H2)|(R0 & (e & H1) & H2)]].
    - destruct (H R) as (e & ->). discriminate.
    - destruct R, R0; try exact H1; rewrite H2 by discriminate; discriminate.
    - destruct R, R0; try (rewrite H1; discriminate); rewrite H2 by discriminate; discriminate.
  Qed.
  Corollary from_proto_wf R m v p : wire_rq m -> R <> PowerBasis -> poly_from_proto R m c v = Val p -> exists x : Rn N, p = P R c v x.
  Proof using Hc Hk.
    intros Hm HR Hp. destruct (from_proto_ok m v Hm) as [H|[(R0 & _ & H1 & H2)|(R0 & (e & H1) & H2)]].
    - destruct (H R) as (e & E). congruence.
    - assert (R = R0) by (destruct R, R0; try reflexivity; rewrite H2 in Hp by discriminate; discriminate). subst R0. destruct (H1 HR) as (x & Lx & E). exists (mkR x Lx). exact (f_equal (fun m => match m with Val a => a | _ => p end) (eq_trans (eq_sym Hp) E)).
    - assert (R = R0) by (destruct R, R0; try reflexivity; rewrite H2 in Hp by discriminate; discriminate). subst R0. congruence.
  Qed.
End Wire.
