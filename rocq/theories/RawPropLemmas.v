(** Closing lemmas for the property about the words of polynomials. *)
From Verif Require Import Outcome BasicSpec OutcomeLemmas ZqModel ZqProofs ZqPow NumTheory TranscodeModel TranscodeProofs CbdModel CbdSpec CbdProofs NttModel PolySpec PolyRing NttPure NttStages NttProofs.
From Verif Require Import RnsModel RnsSpec RnsProofs RnsScalerProofs RnsPropLemmas RqModel RqSpec RqCtx RqRows RqProofs RingRn RqOps RqIO RqPropLemmas RawSpec.

Lemma chunks_spec (n : nat) : forall k (v : list Z), length v = (k * n)%nat -> let rows := fst (chunks_n k n v) in
  length rows = k /\ Forall (fun r => length r = n) rows /\ concat rows = v /\ forall i j, (i < k)%nat -> (j < n)%nat -> nth j (nth i rows []) 0 = nth (i * n + j) v 0.
Proof.
  induction k as [|k IH]; intros v L; cbv zeta; cbn [chunks_n].
  - cbn [Nat.mul] in L. destruct v; [|discriminate]. cbn [fst length concat]. repeat split; [constructor|]. intros; lia.
  - cbn [Nat.mul] in L. specialize (IH (skipn n v)). rewrite skipn_length in IH. specialize (IH ltac:(lia)). cbv zeta in IH. destruct (chunks_n k n (skipn n v)) as (cs, r). cbn [fst] in *. destruct IH as (I1 & I2 & I3 & I4).
    split; [cbn [length]; lia|]. split; [constructor; [rewrite firstn_length; lia|exact I2]|]. split; [cbn [concat]; rewrite I3; apply firstn_skipn|].
    intros i j Hi Hj. destruct i as [|i]; cbn [nth Nat.mul].
    + rewrite <- (firstn_skipn n v) at 2. rewrite app_nth1 by (rewrite firstn_length; lia). reflexivity.
    + rewrite I4 by lia. rewrite <- (firstn_skipn n v) at 2. rewrite app_nth2 by (rewrite firstn_length; lia). rewrite firstn_length. f_equal. lia.
Qed.
Lemma reduced_rows n : forall qs rows, length rows = length qs -> Forall (fun r => length r = n) rows ->
  (Forall2 (fun q r => length r = n /\ canonical q r) qs rows <-> forall i j, (i < length qs)%nat -> (j < n)%nat -> 0 <= nth j (nth i rows []) 0 < nth i qs 0).
Proof.
  induction qs as [|q qs IH]; intros [|r rows] L F; try discriminate L.
  - split; [intros _ i j Hi; cbn [length] in Hi; lia|intros _; constructor].
  - cbn [length] in L. apply Forall_cons_iff in F. destruct F as (F1 & F2). specialize (IH rows ltac:(lia) F2). split.
    + intros H. inversion H as [|? ? ? ? (H1 & H2) H3]; subst. intros i j Hi Hj. destruct i as [|i]; cbn [nth]; [|apply IH; [exact H3|cbn [length] in Hi; lia|exact Hj]]. unfold canonical in H2. rewrite Forall_forall in H2. apply H2, nth_In. exact Hj.
    + intros H. constructor.
      * split; [exact F1|]. unfold canonical. apply Forall_forall. intros a Ha. destruct (In_nth r a 0 Ha) as (j & Hj & <-). apply (H 0%nat j); cbn [length]; lia.
      * apply IH. intros i j Hi Hj. apply (H (S i) j); cbn [length]; lia.
Qed.
Lemma F2_map_l {A B C} (f : A -> B) (P : B -> C -> Prop) : forall l l', Forall2 P (map f l) l' <-> Forall2 (fun a => P (f a)) l l'.
Proof.
  induction l as [|a l IH]; intros l'; cbn [map]; (split; intros H; inversion H; subst; constructor; try assumption; apply IH; assumption).
Qed.
Lemma shoup_vec_bad m a : ~ Forall (fun x => x < mod_p m) a -> shoup_vec m a = Panic.
Proof.
  intros H. unfold shoup_vec. induction a as [|x a IH]; [destruct H; constructor|]. cbn [mapM]. unfold shoup at 1. destruct (x <? mod_p m) eqn:E; [|reflexivity]. cbn [guard bind]. rewrite IH; [reflexivity|]. intros F. apply H. constructor; [apply Z.ltb_lt, E|exact F].
Qed.
Lemma shoup_rows_bad : forall qs rows, Forall valid_modulus qs -> length rows = length qs -> Forall (Forall is_u64) rows -> ~ Forall2 (fun q r => canonical (mod_p q) r) qs rows -> map2M (fun v q => shoup_vec q v) rows qs = Panic.
Proof.
  induction qs as [|q qs IH]; intros [|r rows] Hv L Hu H; try discriminate L; [destruct H; constructor|]. apply Forall_cons_iff in Hv. destruct Hv as (Hv1 & Hv2). apply Forall_cons_iff in Hu. destruct Hu as (Hu1 & Hu2). cbn [map2M].
  destruct (Forall_dec (fun x => x < mod_p q) (fun x => Z_lt_dec x (mod_p q)) r) as [F|F].
  - assert (Hr : canonical (mod_p q) r). { unfold canonical. apply Forall_forall. intros x Hx. rewrite Forall_forall in F, Hu1. specialize (F x Hx). specialize (Hu1 x Hx). unfold is_u64 in Hu1. lia. }
    rewrite (shoup_vec_spec q Hv1 r Hr). cbn [bind]. cbn [length] in L. rewrite IH; [reflexivity|exact Hv2|lia|exact Hu2|]. intros H2. apply H. constructor; assumption.
  - rewrite (shoup_vec_bad q r F). reflexivity.
Qed.
Lemma shoup_rows_good : forall qs rows, Forall valid_modulus qs -> Forall2 (fun q r => canonical (mod_p q) r) qs rows -> map2M (fun v q => shoup_vec q v) rows qs = Val (zipWith (fun q r => map (fun v => v * 2 ^ 64 / mod_p q) r) qs rows).
Proof.
  intros qs rows Hv H. induction H as [|q r qs rows Hr _ IH]; [reflexivity|]. apply Forall_cons_iff in Hv. destruct Hv as (Hv1 & Hv2). cbn [map2M zipWith]. rewrite (shoup_vec_spec q Hv1 r Hr). cbn [bind]. rewrite (IH Hv2). cbn [bind]. unfold zipWith. reflexivity.
Qed.
Section Raw.
  Context (isp : Z -> bool) (cands : Z -> list Z) (Ho : oracles isp cands) (c : ctx) (Hcx : is_context isp cands c).
  Set Default Proof Using "All".
  Lemma moduli_q : c_moduli c = map mod_p (c_q c).
  Proof. destruct (ctx_of isp cands c Ho Hcx) as (_ & Hc). exact (co_moduli _ Hc). Qed.
  Lemma raw_valid : Forall valid_modulus (c_q c).
  Proof. destruct (ctx_of isp cands c Ho Hcx) as (_ & Hc). rewrite (q_ops c Hc). apply Forall_forall. intros q Hq. apply in_map_iff in Hq. destruct Hq as (op & <- & Hop). destruct (op_ok c Hc op Hop) as (K & w & Hok & _). apply (ok_m _ _ _ Hok). Qed.
  (** Rows of the right shape. *)
  Lemma rows_case R rows vt : length rows = length (c_q c) -> Forall (fun r => length r = c_degree c) rows -> Forall (Forall is_u64) rows ->
    let m := sh <- match R with NttShoup => s <- shoup_rows c rows ;; Val (Some s) | _ => Val None end ;; Val (mkPoly (R := R) c false vt rows sh) in
    let good := Forall2 (fun q r => length r = c_degree c /\ canonical q r) (c_moduli c) rows in
    (good -> exists p, m = Val p /\ p_ctx p = c /\ p_vt p = vt /\ p_coeffs p = rows /\ well_formed p) /\
    (~ good -> match R with NttShoup => m = Panic | _ => exists p, m = Val p /\ p_ctx p = c /\ p_vt p = vt /\ p_coeffs p = rows /\ ~ well_formed p end).
  Proof.
    intros L F U m good. unfold good. rewrite moduli_q, F2_map_l. clear good. split.
    - intros H. assert (H' : Forall2 (fun q r => canonical (mod_p q) r) (c_q c) rows) by (clear -H; induction H as [|? ? ? ? (_ & H1) _ IH]; constructor; assumption).
      pose proof (shoup_rows_good _ _ raw_valid H') as E. destruct R; unfold m; cbn [bind]; [| |unfold shoup_rows; rewrite E; cbn [bind]]; (eexists; split; [reflexivity|]; cbn [p_ctx p_vt p_coeffs]; split; [reflexivity|]; split; [reflexivity|]; split; [reflexivity|]; split; [reflexivity|]; split; [exact H|reflexivity]).
    - intros H. destruct R; unfold m; cbn [bind]; [| |].
      1, 2: eexists; split; [reflexivity|]; cbn [p_ctx p_vt p_coeffs]; split; [reflexivity|]; split; [reflexivity|]; split; [reflexivity|]; intros (_ & Hw & _); apply H; exact Hw.
      unfold shoup_rows. rewrite (shoup_rows_bad (c_q c) rows raw_valid L U); [reflexivity|]. intros H'. apply H. clear -H' F. induction H' as [|q r qs rows H1 _ IH]; [constructor|]. apply Forall_cons_iff in F. destruct F as (F1 & F2). constructor; [split; assumption|apply IH, F2].
  Qed.
  Theorem words_all : forall R v vt, Forall is_u64 v -> let n := c_degree c in let k := length (c_moduli c) in
    (length v = (k * n)%nat -> words_reduced (c_moduli c) n v -> exists p, from_words R c v vt = Val p /\ holds p c vt v /\ well_formed p) /\
    (length v = (k * n)%nat -> ~ words_reduced (c_moduli c) n v -> match R with NttShoup => from_words R c v vt = Panic | _ => exists p, from_words R c v vt = Val p /\ holds p c vt v /\ ~ well_formed p end) /\
    (R <> PowerBasis -> length v <> (k * n)%nat -> from_words R c v vt = Err (InvalidCoefficientCount (Z.of_nat (length v)))).
  Proof.
    intros R v vt Hv n k. assert (Ek : length (c_q c) = k) by (unfold k; rewrite moduli_q, map_length; reflexivity).
    assert (HA : length v = (k * n)%nat -> from_words R c v vt = (sh <- match R with NttShoup => s <- shoup_rows c (rows_of c v) ;; Val (Some s) | _ => Val None end ;; Val (mkPoly (R := R) c false vt (rows_of c v) sh)) /\
      length (rows_of c v) = length (c_q c) /\ Forall (fun r => length r = c_degree c) (rows_of c v) /\ concat (rows_of c v) = v /\ Forall (Forall is_u64) (rows_of c v) /\
      (Forall2 (fun q r => length r = c_degree c /\ canonical q r) (c_moduli c) (rows_of c v) <-> words_reduced (c_moduli c) n v)).
    { intros L. destruct (chunks_spec n k v L) as (C1 & C2 & C3 & C4). unfold rows_of. rewrite Ek. fold n. split.
      - destruct R; cbn [from_words bind]; unfold pb_from_u64, ntt_from_u64, shoup_from_u64, rows_of; fold n; rewrite Ek, L, Nat.eqb_refl; [reflexivity|reflexivity|]. destruct (shoup_rows c (fst (chunks_n k n v))); reflexivity.
      - split; [exact C1|]. split; [exact C2|]. split; [exact C3|]. split.
        + rewrite <- C3 in Hv. apply Forall_concat in Hv. exact Hv.
        + rewrite (reduced_rows n (c_moduli c) _ C1 C2). unfold words_reduced. split; intros H i j Hi Hj; [rewrite <- C4 by assumption|rewrite C4 by assumption]; apply H; assumption. }
    split; [|split].
    - intros L Hr. destruct (HA L) as (E & L1 & F & C3 & U & Hiff). destruct (proj1 (rows_case R _ vt L1 F U) (proj2 Hiff Hr)) as (p & Ep & P1 & P2 & P3 & Hw). exists p. rewrite E. split; [exact Ep|]. split; [|exact Hw]. split; [exact P1|]. split; [exact P2|]. unfold poly_to_u64. rewrite P3. exact C3.
    - intros L Hr. destruct (HA L) as (E & L1 & F & C3 & U & Hiff). assert (Hr' : ~ Forall2 (fun q r => length r = c_degree c /\ canonical q r) (c_moduli c) (rows_of c v)) by (rewrite Hiff; exact Hr). pose proof (proj2 (rows_case R _ vt L1 F U) Hr') as H. rewrite E.
      destruct R; [| |exact H]; destruct H as (p & Ep & P1 & P2 & P3 & Hw); exists p; (split; [exact Ep|]; split; [|exact Hw]; split; [exact P1|]; split; [exact P2|]; unfold poly_to_u64; rewrite P3; exact C3).
    - intros HR L. destruct R; [contradiction| |]; cbn [from_words]; unfold ntt_from_u64, shoup_from_u64; rewrite Ek; fold n; rewrite (proj2 (Nat.eqb_neq _ _) L); reflexivity.
  Qed.
  Lemma wf_rows R (p : poly R) : p_ctx p = c -> well_formed p -> length (p_coeffs p) = length (c_moduli c) /\ Forall (fun r => length r = c_degree c) (p_coeffs p) /\ Forall (Forall is_u64) (p_coeffs p) /\ Forall2 (fun q r => length r = c_degree c /\ canonical q r) (c_moduli c) (p_coeffs p).
  Proof.
    intros Ep (_ & H & _). rewrite Ep in H. rewrite moduli_q, F2_map_l, map_length. pose proof raw_valid as V. split; [clear -H; induction H as [|? ? ? ? _ _ IH]; cbn [length]; [reflexivity|rewrite IH; reflexivity]|]. split; [clear -H; induction H as [|? ? ? ? (H1 & _) _ IH]; constructor; assumption|]. split; [|exact H].
    clear -H V. induction H as [|q r qs rows (_ & H1) _ IH]; constructor; inversion V as [|? ? Hq Hqs]; subst; [|apply IH; assumption]. eapply Forall_impl; [|exact H1]. cbv beta. intros a Ha. pose proof (proj1 (valid_fields q Hq)). unfold is_u64. lia.
  Qed.
  Theorem back_all : forall R (p : poly R), p_ctx p = c -> well_formed p -> length (poly_to_u64 p) = (length (c_moduli c) * c_degree c)%nat /\ Forall is_u64 (poly_to_u64 p) /\ words_reduced (c_moduli c) (c_degree c) (poly_to_u64 p) /\
    from_words R c (poly_to_u64 p) (p_vt p) = Val p /\ poly_from_array R c (p_coeffs p) (p_vt p) = Val p.
  Proof.
    intros R p Ep Hw. destruct (wf_rows R p Ep Hw) as (L & F & U & H).
    assert (Lv : length (poly_to_u64 p) = (length (c_moduli c) * c_degree c)%nat). { unfold poly_to_u64. rewrite <- L. clear -F. induction F as [|r rows Hr _ IH]; [reflexivity|]. cbn [concat length Nat.mul]. rewrite app_length, IH, Hr. reflexivity. }
    assert (Er : rows_of c (poly_to_u64 p) = p_coeffs p). { unfold rows_of, poly_to_u64. assert (E : length (c_q c) = length (p_coeffs p)) by (rewrite L, moduli_q, map_length; reflexivity). rewrite E. clear -F. induction F as [|r rows Hr _ IH]; [reflexivity|]. cbn [concat length chunks_n]. rewrite <- Hr, skipn_app, skipn_all, Nat.sub_diag, skipn_O. cbn [app]. rewrite Hr. destruct (chunks_n (length rows) (c_degree c) (concat rows)) as (cs, x). cbn [fst] in *. rewrite <- Hr, firstn_app, firstn_all, Nat.sub_diag, firstn_O, app_nil_r, IH. reflexivity. }
    assert (Uv : Forall is_u64 (poly_to_u64 p)) by (apply Forall_concat; exact U).
    split; [exact Lv|]. split; [exact Uv|]. split.
    - destruct (chunks_spec (c_degree c) _ _ Lv) as (C1 & C2 & C3 & C4). unfold rows_of in Er. rewrite <- (map_length mod_p), <- moduli_q in Er. rewrite Er in C4. intros i j Hi Hj. rewrite <- C4 by assumption. apply (reduced_rows (c_degree c) (c_moduli c) (p_coeffs p) L F); assumption.
    - pose proof Hw as (Hz & Hw2 & Hs). rewrite Ep in Hs, Hw2.
      assert (Es : (sh <- match R with NttShoup => s <- shoup_rows c (p_coeffs p) ;; Val (Some s) | _ => Val None end ;; Val (mkPoly (R := R) c false (p_vt p) (p_coeffs p) sh)) = Val p).
      { destruct p as [pc pl pv pr ps]. cbn [p_ctx p_lazy p_vt p_coeffs p_shoup] in *. subst pc pl. destruct R; cbn [bind]; [rewrite Hs; reflexivity|rewrite Hs; reflexivity|]. unfold shoup_rows. rewrite (shoup_rows_good (c_q c) pr raw_valid); [rewrite Hs; reflexivity|]. clear -Hw2. induction Hw2 as [|? ? ? ? (_ & H1) _ IH]; constructor; assumption. }
      split.
      + assert (Ek : length (c_q c) = length (c_moduli c)) by (rewrite moduli_q, map_length; reflexivity).
        rewrite <- Es. destruct R; cbn [from_words bind]; unfold pb_from_u64, ntt_from_u64, shoup_from_u64; rewrite Ek, Lv, Nat.eqb_refl, Er; [reflexivity|reflexivity|]. destruct (shoup_rows c (p_coeffs p)); reflexivity.
      + unfold poly_from_array. replace (shape_ok c (p_coeffs p)) with true; [cbn [negb]; exact Es|]. symmetry. unfold shape_ok. rewrite L, moduli_q, map_length, Nat.eqb_refl. cbn [andb]. apply forallb_forall. intros r Hr. apply Nat.eqb_eq. rewrite Forall_forall in F. apply F, Hr.
  Qed.
  Theorem array_all : forall R r k rows vt, is_array r k rows -> Forall (Forall is_u64) rows ->
    let fit := (r = length (c_moduli c) /\ k = c_degree c)%nat in let good := Forall2 canonical (c_moduli c) rows in
    (fit -> good -> exists p, poly_from_array R c rows vt = Val p /\ p_ctx p = c /\ p_vt p = vt /\ p_coeffs p = rows /\ well_formed p) /\
    (fit -> ~ good -> match R with NttShoup => poly_from_array R c rows vt = Panic | _ => exists p, poly_from_array R c rows vt = Val p /\ p_ctx p = c /\ p_vt p = vt /\ p_coeffs p = rows /\ ~ well_formed p end) /\
    (~ fit -> poly_from_array R c rows vt = Err InvalidCoefficientShape).
  Proof.
    intros R r k rows vt (Lr & Fr) U fit good. assert (Ek : length (c_q c) = length (c_moduli c)) by (rewrite moduli_q, map_length; reflexivity).
    assert (HA : fit -> length rows = length (c_q c) /\ Forall (fun x => length x = c_degree c) rows /\ shape_ok c rows = true /\ (Forall2 (fun q x => length x = c_degree c /\ canonical q x) (c_moduli c) rows <-> good)).
    { intros (E1 & E2). rewrite E2 in Fr. split; [lia|]. split; [exact Fr|]. split.
      - unfold shape_ok. rewrite Ek, <- E1, Lr, Nat.eqb_refl. cbn [andb]. apply forallb_forall. intros x Hx. apply Nat.eqb_eq. rewrite Forall_forall in Fr. apply Fr, Hx.
      - unfold good. clear -Fr. split; [intros H; induction H as [|? ? ? ? (_ & H1) _ IH]; inversion Fr; constructor; [assumption|apply IH; assumption]|]. intros H. induction H as [|? ? ? ? H1 _ IH]; inversion Fr; constructor; [split; assumption|apply IH; assumption]. }
    unfold poly_from_array. split; [|split].
    - intros Hf Hg. destruct (HA Hf) as (L & F & -> & Hi). cbn [negb]. exact (proj1 (rows_case R rows vt L F U) (proj2 Hi Hg)).
    - intros Hf Hg. destruct (HA Hf) as (L & F & -> & Hi). cbn [negb]. rewrite <- Hi in Hg. exact (proj2 (rows_case R rows vt L F U) Hg).
    - intros Hf. replace (shape_ok c rows) with false; [reflexivity|]. symmetry. unfold shape_ok. rewrite Ek, Lr. destruct (Nat.eqb_spec r (length (c_moduli c))) as [E|E]; [|reflexivity]. cbn [andb]. destruct rows as [|x rows]; [exfalso; destruct (ctx_of isp cands c Ho Hcx) as (_ & Hc); pose proof (co_ne _ Hc) as Hn; rewrite (moduli_ops c Hc), map_length in E; destruct (c_ops c); [contradiction|cbn [length] in *; lia]|]. apply Forall_cons_iff in Fr. destruct Fr as (Fx & _). cbn [forallb]. rewrite (proj2 (Nat.eqb_neq (length x) (c_degree c))); [reflexivity|]. intros E'. apply Hf. split; [exact E|lia].
  Qed.
  Theorem power_words_all : forall (p : poly PowerBasis) x, p_ctx p = c -> represents p x -> poly_to_u64 p = concat (map (fun q => map (fun a => a mod q) x) (c_moduli c)).
  Proof.
    intros p x Ep Hp. destruct (ctx_of isp cands c Ho Hcx) as (_ & Hc). apply rep_eq with (c := c) in Hp; [|exact Ep]. destruct Hp as (Lx & ->). unfold poly_to_u64. cbn [poly_of p_coeffs]. rewrite (moduli_ops c Hc), map_map. reflexivity.
  Qed.
End Raw.
