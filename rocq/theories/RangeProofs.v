(** Encoders and decoders panic on values outside their range, and on no others. *)
From Verif Require Import Outcome BasicSpec OutcomeLemmas ZqModel ZqProofs NumTheory NttModel PolySpec PolyRing NttPure NttStages NttProofs.
From Verif Require Import TranscodeModel PrimesModel RnsModel RnsSpec RnsProofs RqModel RqSpec RqCtx RqRows RqProofs RqOps RqIO NttPropLemmas ParamsModel BfvSpec SlotsProofs ParamsProofs BuildProofs ParamsPropLemmas.
From Verif Require Import PlainModel SchemeSpec RotProofs PlainProofs PlainPropLemmas RangeNtt RangeSpec.

Lemma Exists_impl_in {A} (P Q : A -> Prop) l : (forall a, In a l -> P a -> Q a) -> Exists P l -> Exists Q l.
Proof. intros H E. apply Exists_exists in E. destruct E as (a & Ha & HP). apply Exists_exists. eauto. Qed.
Lemma place_slots_map (f : Z -> Z) : forall idx v w, place_slots idx (map f v) (map f w) = bind (place_slots idx v w) (fun x => Val (map f x)).
Proof.
  induction idx as [|i idx IH]; intros [|x v] w; try reflexivity. cbn [map place_slots]. rewrite map_length. destruct (Nat.ltb i (length w)); [|reflexivity]. cbn [guard bind]. rewrite <- IH. f_equal.
  clear. revert i. induction w as [|y w IH]; intros [|i]; cbn [set_nth map]; try reflexivity. f_equal. apply IH.
Qed.

Section Level.
  Context (isp : Z -> bool) (cands : Z -> list Z) (Ho : oracles isp cands) (par : params) (G : good_params isp cands par).
  Context (l : nat) (lv : level_ctx) (c : ctx) (A : at_level isp cands par l lv c).
  Notation N := (pa_degree par).
  Notation t := (pa_t par).
  Notation Q := (level_modulus par l).
  Set Default Proof Using "All".
  Local Lemma Hc : ctx_ok c. Proof. exact (good_ok _ (al_good _ _ _ _ _ _ A)). Qed.
  Local Lemma Hdeg : c_degree c = N. Proof. exact (al_deg _ _ _ _ _ _ A). Qed.
  Lemma last_level : l = max_level par <-> length (c_moduli c) = 1%nat.
  Proof.
    pose proof (al_moduli_length isp cands par l lv c A) as E. pose proof (al_lt _ _ _ _ _ _ A). destruct (gp_levels _ _ _ G) as (plain & _ & EL & _). unfold max_level. rewrite EL. lia.
  Qed.
  (** Full vectors of words: what storing and transforming them does. *)
  Definition stored (vt : bool) (y : list Z) : M (poly Ntt) := p <- pb_from_u64 c y vt ;; pb_into_ntt p.
  Lemma stored_many vt y : length y = N -> Forall is_u64 y -> l <> max_level par -> stored vt y = Val (poly_of Ntt c vt y).
  Proof.
    intros Ly Hy Hl. unfold stored. rewrite last_level in Hl. pose proof (al_moduli_length isp cands par l lv c A) as E. pose proof (al_lt _ _ _ _ _ _ A).
    rewrite (from_u64_full isp cands par l lv c A) by (auto; left; lia). cbn [bind]. apply (pb_ntt_eq c Hc). rewrite Hdeg. exact Ly.
  Qed.
  Lemma stored_last vt y : length y = N -> Forall (fun a => 0 <= a) y -> l = max_level par ->
    (Exists (fun a => 4 * Q <= a) y -> stored vt y = Panic) /\ (Forall (fun a => a < 4 * Q) y -> stored vt y = Val (poly_of Ntt c vt y)).
  Proof.
    intros Ly Hy Hl. apply last_level in Hl. pose proof (moduli_ops c Hc) as Em. pose proof (q_length c Hc) as Eq.
    assert (Hml : length (c_moduli c) = length (c_ops c)) by (rewrite Em; apply map_length). rewrite Hl in Hml. destruct (c_ops c) as [|op [|? ?]] eqn:Eops; try discriminate. cbn [map] in Em.
    pose proof (co_ops _ Hc) as Fo. rewrite Eops in Fo. inversion Fo as [|? ? (K & w & Hok & Hsz) _]; subst.
    assert (EQ : Q = mod_p (nt_p op)). { unfold level_modulus. rewrite <- (al_mod _ _ _ _ _ _ A), Em. cbn [prod_list]. lia. }
    assert (En : nt_size op = N). { rewrite <- Hdeg. tauto. }
    destruct (fwd_cases op K w Hok vt y ltac:(congruence) Hy) as (H1 & H2). unfold fwd in H1, H2.
    assert (Es : stored vt y = bind (if vt then ntt_forward_vt op y else ntt_forward op y) (fun r => from_parts Ntt (mkPoly (R := PowerBasis) c false vt [r] None))).
    { unfold stored, pb_from_u64. rewrite Eq. cbn [length]. rewrite Hdeg, Ly, Nat.mul_1_l, Nat.eqb_refl. cbn [bind]. unfold rows_of. rewrite Eq, Hdeg. cbn [length chunks_n fst]. rewrite <- Ly, firstn_all.
      unfold pb_into_ntt. cbn [p_vt p_ctx p_coeffs]. rewrite Eops. unfold fwd_rows. cbn [zip_upd]. destruct (if vt then ntt_forward_vt op y else ntt_forward op y); reflexivity. }
    rewrite Es, EQ. split; intros H; [rewrite (H1 H); reflexivity|]. rewrite (H2 H). cbn [bind].
    assert (Ey : forall z, length z = N -> NTT op z = NTT op y -> from_parts Ntt (mkPoly (R := PowerBasis) c false vt [NTT op y] None) = Val (poly_of Ntt c vt z)).
    { intros z Lz Ez. unfold from_parts, poly_of. rewrite Eops. cbn [map row]. rewrite (evaluations_NTT op K w Hok) by congruence. rewrite Ez. reflexivity. }
    apply Ey; congruence.
  Qed.
  Lemma pos_u64 y : Forall is_u64 y -> Forall (fun a => 0 <= a) y.
  Proof. apply Forall_impl. unfold is_u64. intros. lia. Qed.
  Lemma exists_pad b v : 0 < b -> Exists (fun a => b <= a) (zpad par v) <-> Exists (fun a => b <= a) v.
  Proof.
    intros Hb. unfold zpad. rewrite Exists_app. split; [intros [H|H]; [exact H|]|auto]. apply Exists_exists in H. destruct H as (a & Ha & H). apply repeat_spec in Ha. lia.
  Qed.
  Lemma below_of b v : Forall (fun a => 0 <= a) v -> ~ Exists (fun a => b <= a) v -> Forall (fun a => a < b) v.
  Proof. intros _ H. apply Forall_forall. intros a Ha. destruct (Z.lt_ge_cases a b); [assumption|]. exfalso. apply H. apply Exists_exists. eauto. Qed.
  Lemma Q_pos : 2 <= Q. Proof. exact (al_Qpos isp cands par l lv c A). Qed.
  Lemma slot_op op : pa_ntt par = Some op -> exists K w, ntt_ok op K w /\ mod_p (nt_p op) = t /\ nt_size op = N /\ t < W62.
  Proof.
    intros Eop. destruct (ntt_facts isp cands par G op Eop) as (mm & Es & Em & En). destruct Ho as (H1 & H2). destruct (modulus_new_valid _ _ Em) as (Hmm & Et). assert (Ct : canonical (mod_p mm) (cands t)) by (rewrite <- Et; apply H2).
    destruct (ntt_new_ok isp H1 mm Hmm (cands t) N op Ct En) as (K & w & Hok & Emm & EN). exists K, w. split; [exact Hok|]. split; [congruence|]. split; [congruence|]. exact (small_bound isp cands par G mm Es).
  Qed.
  (** One chunk. *)
  Theorem chunk_poly vt v e : e_kind e = EncPoly -> e_level e = l -> (length v <= N)%nat -> Forall is_u64 v ->
    (too_large par e v -> encode_u64_chunk vt v e par c = Panic) /\ (~ too_large par e v -> encode_u64_chunk vt v e par c = Val (poly_of Ntt c vt (zpad par v))).
  Proof.
    intros Ek El Lv Hv. pose proof Q_pos as HQ.
    assert (E : encode_u64_chunk vt v e par c = stored vt (zpad par v)). { unfold encode_u64_chunk. rewrite Ek. destruct (Nat.leb_spec (length v) N); [|lia]. reflexivity. }
    pose proof (zpad_length par v Lv) as Lz. assert (Hz : Forall is_u64 (zpad par v)) by (apply zpad_forall; [unfold is_u64; lia|exact Hv]).
    unfold too_large. rewrite Ek, El, E. destruct (Nat.eq_dec l (max_level par)) as [Hl|Hl].
    - destruct (stored_last vt (zpad par v) Lz (pos_u64 _ Hz) Hl) as (H1 & H2). split.
      + intros (_ & H). apply H1. apply exists_pad; [lia|exact H].
      + intros H. apply H2. apply below_of; [apply pos_u64, Hz|]. intros H'. apply H. split; [exact Hl|]. apply (proj1 (exists_pad (4 * Q) v ltac:(lia))). exact H'.
    - split; [intros (H & _); contradiction|]. intros _. apply stored_many; assumption.
  Qed.
  Theorem chunk_simd vt v e op : e_kind e = EncSimd -> e_level e = l -> (length v <= N)%nat -> Forall is_u64 v -> pa_ntt par = Some op -> (l = max_level par -> t <= 4 * Q) ->
    (too_large par e v -> encode_u64_chunk vt v e par c = Panic) /\
    (~ too_large par e v -> exists b, length b = N /\ canonical t b /\ encode_u64_chunk vt v e par c = Val (poly_of Ntt c vt b) /\ encode_u64_chunk vt (map (fun a => a mod t) v) e par c = Val (poly_of Ntt c vt b)).
  Proof.
    intros Ek El Lv Hv Eop HtQ. destruct (slot_op op Eop) as (K & w0 & Hok & Et & En & Ht62). pose proof (gp_t _ _ _ G) as Ht. pose proof Q_pos as HQ.
    destruct (index_facts isp cands par G) as (Li & Hnd & Hlt). destruct (place_slots_spec (pa_index par) v (repeat 0 N)) as (w & Ew & Lw & Hw & Hwo & HP); [exact Hnd|rewrite repeat_length; exact Hlt|lia|]. rewrite repeat_length in Lw.
    assert (Hw64 : Forall is_u64 w). { apply HP; [exact Hv|]. apply Forall_forall. intros z Hz. apply repeat_spec in Hz. unfold is_u64. lia. }
    assert (E : forall vt', encode_u64_chunk vt' v e par c = bind (bwd op vt' w) (stored vt')). { intros vt'. unfold encode_u64_chunk. rewrite Ek, Ew. cbn [bind]. rewrite Eop. cbn [ok_or bind]. unfold bwd. destruct vt'; reflexivity. }
    assert (E' : encode_u64_chunk vt (map (fun a => a mod t) v) e par c = bind (bwd op vt (map (fun a => a mod t) w)) (stored vt)).
    { unfold encode_u64_chunk. rewrite Ek. replace (repeat 0 N) with (map (fun a => a mod t) (repeat 0 N)). 2: { clear -Ht. induction N; cbn [repeat map]; [reflexivity|]. rewrite IHn. reflexivity. }
      rewrite place_slots_map, Ew. cbn [bind]. rewrite Eop. cbn [ok_or bind]. unfold bwd. destruct vt; reflexivity. }
    destruct (bwd_cases op K w0 Hok vt w ltac:(congruence) (pos_u64 _ Hw64)) as (H1 & H2). rewrite Et in H1, H2. unfold too_large. rewrite Ek. split.
    - intros H. rewrite E, H1; [reflexivity|]. apply Exists_exists in H. destruct H as (a & Ha & H). apply (In_nth _ _ 0) in Ha. destruct Ha as (i & Hi & Ea). apply Exists_exists. exists a. split; [|exact H]. rewrite <- Ea, <- Hw by exact Hi. apply nth_In.
      rewrite Lw. rewrite Forall_forall in Hlt. apply Hlt, nth_In. lia.
    - intros H. assert (Hb : Forall (fun a => a < 2 * t) w).
      { apply HP; [apply below_of; [apply pos_u64, Hv|exact H]|]. apply Forall_forall. intros z Hz. apply repeat_spec in Hz. lia. }
      set (b := INTT op w). assert (Lb : length b = N) by (rewrite <- En; apply (INTT_length op K w0 Hok); congruence).
      assert (Cb : canonical t b) by (rewrite <- Et; apply (INTT_canonical op K w0 Hok)).
      assert (Eb : stored vt b = Val (poly_of Ntt c vt b)).
      { destruct (Nat.eq_dec l (max_level par)) as [Hl|Hl]; [|apply stored_many; [exact Lb| |exact Hl]; eapply Forall_impl; [|exact Cb]; unfold is_u64; assert (W62 < W64) by reflexivity; cbv beta; intros; lia].
        specialize (HtQ Hl). apply stored_last; [exact Lb|eapply Forall_impl; [|exact Cb]; cbv beta; intros; lia|exact Hl|eapply Forall_impl; [|exact Cb]; cbv beta; intros; lia]. }
      exists b. split; [exact Lb|]. split; [exact Cb|]. split; [rewrite E, (H2 Hb); exact Eb|]. rewrite E'.
      destruct (bwd_cases op K w0 Hok vt (map (fun a => a mod t) w)) as (_ & H4); [rewrite map_length; congruence|apply Forall_map, Forall_forall; intros a _; apply Z.mod_pos_bound; lia|].
      rewrite H4; [|apply Forall_map, Forall_forall; intros a _; pose proof (Z.mod_pos_bound a t ltac:(lia)); lia].
      cbn [bind]. replace (INTT op (map (fun a => a mod t) w)) with b; [exact Eb|]. unfold b. symmetry. apply INTT_cong. rewrite <- Et. apply lcong_map_mod.
  Qed.
  (** The polynomial that slots are turned into does not depend on the level. *)
  Lemma slots_poly v op : (length v <= N)%nat -> Forall (fun a => 0 <= a < 2 * t) v -> pa_ntt par = Some op ->
    exists b, length b = N /\ canonical t b /\ forall e vt c', e_kind e = EncSimd -> encode_u64_chunk vt v e par c' = bind (pb_from_u64 c' b vt) pb_into_ntt.
  Proof.
    intros Lv Hv Eop. destruct (slot_op op Eop) as (K & w0 & Hok & Et & En & Ht62). pose proof (gp_t _ _ _ G) as Ht.
    destruct (index_facts isp cands par G) as (Li & Hnd & Hlt). destruct (place_slots_spec (pa_index par) v (repeat 0 N)) as (w & Ew & Lw & Hw & Hwo & HP); [exact Hnd|rewrite repeat_length; exact Hlt|lia|]. rewrite repeat_length in Lw.
    assert (Hb : Forall (fun a => 0 <= a < 2 * t) w). { apply HP; [exact Hv|]. apply Forall_forall. intros z Hz. apply repeat_spec in Hz. lia. }
    exists (INTT op w). split; [rewrite <- En; apply (INTT_length op K w0 Hok); congruence|]. split; [rewrite <- Et; apply (INTT_canonical op K w0 Hok)|].
    intros e vt c' Ek. destruct (bwd_cases op K w0 Hok vt w ltac:(congruence)) as (_ & H2); [eapply Forall_impl; [|exact Hb]; cbv beta; intros; lia|]. rewrite Et in H2.
    unfold encode_u64_chunk. rewrite Ek, Ew. cbn [bind]. rewrite Eop. cbn [ok_or bind]. change (bind (bwd op vt w) (fun coeffs => bind (pb_from_u64 c' coeffs vt) pb_into_ntt) = bind (pb_from_u64 c' (INTT op w) vt) pb_into_ntt).
    rewrite H2; [reflexivity|]. eapply Forall_impl; [|exact Hb]. cbv beta. intros. lia.
  Qed.
  (** [encode_u64_chunk] is a value or a panic. *)
  Lemma chunk_cases vt v e : e_level e = l -> (e_kind e = EncSimd -> pa_ntt par <> None) -> (e_kind e = EncSimd -> l = max_level par -> t <= 4 * Q) -> (length v <= N)%nat -> Forall is_u64 v ->
    (too_large par e v /\ encode_u64_chunk vt v e par c = Panic) \/ (~ too_large par e v /\ exists p, encode_u64_chunk vt v e par c = Val p).
  Proof.
    intros El Hus HtQ Lv Hv. assert (Hdec : too_large par e v \/ ~ too_large par e v).
    { assert (He : forall b, Exists (fun a => b <= a) v \/ ~ Exists (fun a => b <= a) v). { intros b. destruct (Exists_dec (fun a => b <= a) v (fun a => Z_le_dec b a)); auto. }
      unfold too_large. destruct (e_kind e); [|apply He]. destruct (Nat.eq_dec (e_level e) (max_level par)); [|right; tauto]. destruct (He (4 * level_modulus par (e_level e))); tauto. }
    destruct (e_kind e) eqn:Ek.
    - destruct (chunk_poly vt v e Ek El Lv Hv) as (H1 & H2). destruct Hdec; [left|right]; split; auto. eauto.
    - destruct (pa_ntt par) as [op|] eqn:Eop; [|exfalso; apply Hus; reflexivity]. destruct (chunk_simd vt v e op Ek El Lv Hv Eop (HtQ eq_refl)) as (H1 & H2). destruct Hdec as [H|H]; [left|right]; split; auto. destruct (H2 H) as (b & _ & _ & E & _). eauto.
  Qed.
End Level.

Lemma mapM_panic {A B} (f : A -> M B) l : (forall a, In a l -> f a = Panic \/ exists b, f a = Val b) -> (mapM f l = Panic <-> Exists (fun a => f a = Panic) l).
Proof.
  induction l as [|a l IH]; intros H; cbn [mapM]; [split; [discriminate|intros E; inversion E]|]. specialize (IH (fun b Hb => H b (or_intror Hb))). destruct (H a (or_introl eq_refl)) as [E|(b & E)]; rewrite E; cbn [bind].
  - split; [intros _; left; exact E|reflexivity].
  - assert (Hn : noerr (mapM f l)). { intros e He. revert H He. clear. induction l as [|c l IH]; intros H He; cbn [mapM] in He; [discriminate|]. destruct (H c) as [E|(d & E)]; [right; left; reflexivity|rewrite E in He; discriminate|]. rewrite E in He. cbn [bind] in He.
      destruct (mapM f l) as [?|e'|] eqn:El; try discriminate. injection He as ->. apply IH; [|reflexivity]. intros x [->|Hx]; apply H; [left; reflexivity|right; right; exact Hx]. }
    destruct (mapM f l) as [r|e'|]; cbn [bind]; split; intros H'; try discriminate; try reflexivity.
    + inversion H' as [? ? E'|? ? E']; subst; [congruence|]. apply IH in E'. discriminate.
    + exfalso. exact (Hn e' eq_refl).
    + right. apply IH. reflexivity.
Qed.
(** The chunks of a vector. *)
Lemma exists_chunks (P : Z -> Prop) N n : (0 < N)%nat -> forall v, (length v <= n * N)%nat -> Exists P v <-> Exists (fun i => Exists P (firstn N (skipn (i * N) v))) (seq 0 n).
Proof.
  intros HN v Hv. rewrite !Exists_exists. split.
  - intros (a & Ha & HP). apply (In_nth _ _ 0) in Ha. destruct Ha as (k & Hk & Ek). exists (k / N)%nat. split.
    + apply in_seq. split; [lia|]. apply Nat.div_lt_upper_bound; lia.
    + apply Exists_exists. exists a. split; [|exact HP]. rewrite <- Ek. pose proof (Nat.div_mod k N ltac:(lia)) as E. pose proof (Nat.mod_upper_bound k N ltac:(lia)).
      replace (nth k v 0) with (nth (k mod N) (firstn N (skipn (k / N * N) v)) 0).
      * apply nth_In. rewrite firstn_length, skipn_length. lia.
      * rewrite nth_firstn_lt by lia. rewrite nth_skipn_Z. f_equal. lia.
  - intros (i & Hi & H). apply Exists_exists in H. destruct H as (a & Ha & HP). exists a. split; [|exact HP]. rewrite <- (firstn_skipn (i * N) v). apply in_or_app. right. rewrite <- (firstn_skipn N (skipn (i * N) v)). apply in_or_app. left. exact Ha.
Qed.
