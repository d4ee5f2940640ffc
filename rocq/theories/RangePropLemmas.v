(** Closing lemmas for the values that the encoders and decoders accept. *)
From Verif Require Import Outcome BasicSpec OutcomeLemmas ZqModel ZqProofs NumTheory NttModel PolySpec PolyRing NttPure NttStages NttProofs.
From Verif Require Import TranscodeModel PrimesModel RnsModel RnsSpec RnsProofs RqModel RqSpec RqCtx RqRows RqProofs RingRn RqOps RqIO RnPoly NttPropLemmas ParamsModel BfvSpec SlotsProofs ParamsProofs BuildProofs ParamsPropLemmas.
From Verif Require Import PlainModel CipherModel SchemeSpec RotProofs PlainProofs PlainPropLemmas CipherPropLemmas RangeNtt RangeSpec RangeProofs.

Lemma first_single {A} (r : M A) (f : A -> plaintext) : bind (bind r (fun p => Val [f p])) first_pt = bind r (fun p => Val (f p)).
Proof. destruct r; reflexivity. Qed.
Lemma val_panic {A B} (r : M A) (f : A -> B) : bind r (fun p => Val (f p)) = Panic <-> r = Panic.
Proof. destruct r; cbn [bind]; split; intros H; try discriminate; reflexivity. Qed.
Lemma available_dec par e : available par e \/ (e_kind e = EncSimd /\ pa_ntt par = None) \/ (usable par e /\ (max_level par < e_level e)%nat).
Proof.
  unfold available, usable. destruct (e_kind e) eqn:Ek.
  - destruct (Nat.le_gt_cases (e_level e) (max_level par)); [left|right; right]; (split; [discriminate|assumption]).
  - destruct (pa_ntt par) eqn:Eop; [|right; left; auto]. destruct (Nat.le_gt_cases (e_level e) (max_level par)); [left|right; right]; (split; [discriminate|assumption]).
Qed.
Lemma vec_unavailable par e chunk v : ~ available par e -> encode_with chunk v e par <> Panic.
Proof.
  intros Hn. unfold encode_with. destruct (available_dec par e) as [H|[(Ek & En)|(Hu & Hl)]]; [contradiction|rewrite Ek, En; discriminate|].
  assert (Ec : exists er, par_context par (e_level e) = Err er). { unfold par_context, context_level_at. destruct (nth_error (pa_levels par) (e_level e)) eqn:En; [|eexists; reflexivity]. assert (nth_error (pa_levels par) (e_level e) <> None) as Hs by congruence. apply nth_error_Some in Hs. unfold max_level in Hl. lia. }
  destruct Ec as (er & Ec). rewrite Ec. destruct (e_kind e); [discriminate|]. destruct (pa_ntt par); discriminate.
Qed.

Section Par.
  Context (isp : Z -> bool) (cands : Z -> list Z) (par : params) (Ho : oracles isp cands) (Hp : is_params isp cands par).
  Notation N := (pa_degree par).
  Notation t := (pa_t par).
  Lemma N_pos : (0 < N)%nat.
  Proof using Ho Hp. pose proof (params_good isp cands par Ho Hp) as G. destruct (at_level_ex isp cands par 0 Ho G ltac:(lia)) as (lv & c & A). pose proof (al_N8 isp cands par 0 lv c A). lia. Qed.

  Theorem vec_u64_panics vt v e : Forall is_u64 v -> (e_kind e = EncSimd -> e_level e = max_level par -> t <= 4 * level_modulus par (e_level e)) ->
    (encode_vec_u64 vt v e par = Panic <-> available par e /\ too_large par e v).
  Proof using Ho Hp.
    intros Hv HtQ. pose proof (params_good isp cands par Ho Hp) as G. pose proof N_pos as HN. destruct (available_dec par e) as [Ha|Hna].
    2: { assert (Hn : ~ available par e). { intros (H1 & H2). destruct Hna as [(H3 & H4)|(_ & H3)]; [exact (H1 H3 H4)|lia]. }
      split; [intros H; exfalso; revert H; apply vec_unavailable, Hn|intros (H & _); contradiction]. }
    destruct Ha as (Hus & Hl). destruct (at_level_ex isp cands par (e_level e) Ho G Hl) as (lv & c & A).
    set (n := Nat.max (Z.to_nat (div_ceil (len v) (Z.of_nat N))) 1).
    assert (E : encode_vec_u64 vt v e par = mapM (fun i => p <- encode_u64_chunk vt (firstn N (skipn (i * N) v)) e par c ;; Val (mkPt par (Some e) p)) (seq 0 n)).
    { unfold encode_vec_u64, encode_with. rewrite (al_par_context isp cands par _ lv c A). cbn [bind]. destruct (Nat.eqb_spec N 0); [lia|]. cbn [negb guard bind]. cbv zeta. fold n. destruct (e_kind e) eqn:Ek; [reflexivity|]. destruct (pa_ntt par) eqn:En; [reflexivity|]. exfalso. apply (Hus Ek En). }
    assert (Hlen : (length v <= n * N)%nat).
    { unfold n, div_ceil, len. replace (Z.of_nat (length v) + Z.of_nat N - 1) with (Z.of_nat (length v + N - 1)) by lia. rewrite <- Nat2Z.inj_div, Nat2Z.id. pose proof (Nat.div_mod (length v + N - 1) N ltac:(lia)). pose proof (Nat.mod_upper_bound (length v + N - 1) N ltac:(lia)). nia. }
    assert (Hone : forall i, (too_large par e (firstn N (skipn (i * N) v)) /\ encode_u64_chunk vt (firstn N (skipn (i * N) v)) e par c = Panic) \/
                             (~ too_large par e (firstn N (skipn (i * N) v)) /\ exists p, encode_u64_chunk vt (firstn N (skipn (i * N) v)) e par c = Val p)).
    { intros i. apply (chunk_cases isp cands Ho par G (e_level e) lv c A vt _ e eq_refl Hus HtQ); [apply (slice_le N i v)|apply (Forall_slice is_u64 N i v Hv)]. }
    rewrite E, mapM_panic. 2: { intros i _. rewrite val_panic. destruct (Hone i) as [(_ & H)|(_ & p & H)]; [left; exact H|right]. rewrite H. cbn [bind]. eauto. }
    assert (Hex : too_large par e v <-> Exists (fun i => too_large par e (firstn N (skipn (i * N) v))) (seq 0 n)).
    { unfold too_large. destruct (e_kind e); [|apply exists_chunks; assumption]. rewrite (exists_chunks _ N n HN v Hlen). split.
      - intros (H1 & H2). eapply Exists_impl; [|exact H2]. cbv beta. intros i Hi. split; assumption.
      - intros H. split; [|eapply Exists_impl; [|exact H]; cbv beta; intros i (_ & Hi); exact Hi]. apply Exists_exists in H. destruct H as (i & _ & H & _). exact H. }
    rewrite Hex. split.
    - intros H. split; [split; assumption|]. eapply Exists_impl; [|exact H]. cbv beta. intros i Hi. apply val_panic in Hi. destruct (Hone i) as [(H' & _)|(_ & p & H')]; [exact H'|congruence].
    - intros (_ & H). eapply Exists_impl; [|exact H]. cbv beta. intros i Hi. apply val_panic. destruct (Hone i) as [(_ & H')|(H' & _)]; [exact H'|contradiction].
  Qed.
  Theorem one_u64_panics vt v e : Forall is_u64 v -> (e_kind e = EncSimd -> e_level e = max_level par -> t <= 4 * level_modulus par (e_level e)) ->
    (encode_u64 vt v e par = Panic <-> (length v <= N)%nat /\ available par e /\ too_large par e v).
  Proof using Ho Hp.
    intros Hv HtQ. rewrite <- (vec_u64_panics vt v e Hv HtQ). unfold encode_u64. destruct (Nat.ltb_spec N (length v)) as [Lv|Lv]; [split; [discriminate|intros (H & _); lia]|].
    pose proof (params_good isp cands par Ho Hp) as G. destruct (available_dec par e) as [(Hus & Hl)|Hna].
    - destruct (at_level_ex isp cands par (e_level e) Ho G Hl) as (lv & c & A). unfold encode_vec_u64. rewrite (encode_one isp cands par _ lv c A (encode_u64_chunk vt) v e Lv eq_refl Hus). rewrite first_single, !val_panic. tauto.
    - assert (Hn : ~ available par e). { intros (H1 & H2). destruct Hna as [(H3 & H4)|(_ & H3)]; [exact (H1 H3 H4)|lia]. }
      destruct (encode_errors_all isp cands Ho par Hp e vt v) as (_ & H1 & H2). unfold encode_u64 in H1, H2. destruct (Nat.ltb_spec N (length v)); [lia|]. destruct Hna as [(H3 & H4)|(H3 & H4)].
      + destruct (H1 Lv H3 H4) as (-> & _). split; [discriminate|]. intros (_ & H'). exfalso. revert H'. apply vec_unavailable, Hn.
      + destruct (H2 Lv H3 H4) as (-> & _). split; [discriminate|]. intros (_ & H'). exfalso. revert H'. apply vec_unavailable, Hn.
  Qed.
  (** [BigUint] values. *)
  Lemma mapM_big v : Forall (fun a => 0 <= a) v -> (Forall is_u64 v /\ mapM big_to_u64 v = Val v) \/ (~ Forall is_u64 v /\ mapM big_to_u64 v = Err ValueTooLargeForU64).
  Proof.
    clear. induction v as [|a v IH]; intros H0; cbn [mapM]; [left; split; [constructor|reflexivity]|]. apply Forall_cons_iff in H0. destruct H0 as (Ha & Hv). specialize (IH Hv). unfold big_to_u64 at 1 3. destruct (Z.ltb_spec a W64).
    - destruct IH as [(H1 & H2)|(H1 & H2)]; rewrite H2; cbn [bind]; [left|right]; (split; [|reflexivity]).
      + constructor; [unfold is_u64; lia|exact H1].
      + intros H'. apply H1. apply Forall_cons_iff in H'. apply H'.
    - right. split; [|reflexivity]. intros H'. apply Forall_cons_iff in H'. unfold is_u64 in H'. lia.
  Qed.
  Theorem big_panics v e : Forall (fun a => 0 <= a) v -> (e_kind e = EncSimd -> e_level e = max_level par -> t <= 4 * level_modulus par (e_level e)) ->
    (encode_big v e par = Panic <-> (length v <= N)%nat /\ available par e /\ e_kind e = EncSimd /\ Forall is_u64 v /\ too_large par e v).
  Proof using Ho Hp.
    intros Hv HtQ. destruct (Nat.le_gt_cases (length v) N) as [Lv|Lv]. 2: { unfold encode_big. destruct (Nat.ltb_spec N (length v)); [|lia]. split; [discriminate|intros (Hle & _); lia]. }
    pose proof (params_good isp cands par Ho Hp) as G. destruct (available_dec par e) as [(Hus & Hl)|Hna].
    - destruct (at_level_ex isp cands par (e_level e) Ho G Hl) as (lv & c & A). destruct (e_kind e) eqn:Ek.
      + rewrite (encode_big_poly isp cands par (e_level e) lv c A v e Ek eq_refl Lv). split; [discriminate|intros (_ & _ & H & _); discriminate].
      + assert (E : encode_big v e par = bind (bind (mapM big_to_u64 v) (fun v => encode_u64_chunk false v e par c)) (fun p => Val (mkPt par (Some e) p))).
        { unfold encode_big. destruct (Nat.ltb_spec N (length v)); [lia|]. unfold encode_vec_big. rewrite (encode_one isp cands par _ lv c A encode_big_chunk v e Lv eq_refl Hus). rewrite first_single. unfold encode_big_chunk. rewrite Ek. reflexivity. }
        rewrite E, val_panic. destruct (mapM_big v Hv) as [(H1 & H2)|(H1 & H2)]; rewrite H2; cbn [bind].
        * destruct (chunk_cases isp cands Ho par G (e_level e) lv c A false v e eq_refl Hus (fun _ => HtQ eq_refl) Lv H1) as [(H3 & H4)|(H3 & p & H4)]; rewrite H4.
          -- split; [intros _|reflexivity]. repeat (split; [solve [assumption|reflexivity|split; assumption]|]). exact H3.
          -- split; [discriminate|]. intros (_ & _ & _ & _ & H5). contradiction.
        * split; [discriminate|]. intros (_ & _ & _ & H & _). contradiction.
    - assert (Hn : ~ available par e). { intros (H1 & H2). destruct Hna as [(H3 & H4)|(_ & H3)]; [exact (H1 H3 H4)|lia]. }
      destruct (encode_errors_all isp cands Ho par Hp e false v) as (_ & H1 & H2). destruct Hna as [(H3 & H4)|(H3 & H4)].
      + destruct (H1 Lv H3 H4) as (_ & ->). split; [discriminate|]. intros (_ & H' & _). contradiction.
      + destruct (H2 Lv H3 H4) as (_ & ->). split; [discriminate|]. intros (_ & H' & _). contradiction.
  Qed.
  (** [i64] values. *)
  Theorem i64_safe v e : Forall is_i64 v -> (pa_small par <> None -> e_level e = max_level par -> t <= 4 * level_modulus par (e_level e)) -> encode_i64 v e par <> Panic.
  Proof using Ho Hp.
    intros Hv HtQ. pose proof (params_good isp cands par Ho Hp) as G. pose proof (gp_t _ _ _ G) as Ht. pose proof (t_cases isp cands par G) as Hs. destruct (pa_small par) as [m|] eqn:Es.
    - rewrite (encode_i64_small isp cands par G m v e Es Hv). intros H. apply one_u64_panics in H.
      + destruct H as (_ & _ & H). unfold too_large in H. destruct (e_kind e) eqn:Ek.
        * destruct H as (El & H). specialize (HtQ ltac:(discriminate) El). apply Exists_exists in H. destruct H as (a & Ha & H). apply in_map_iff in Ha. destruct Ha as (x & <- & _). pose proof (Z.mod_pos_bound x t ltac:(lia)). lia.
        * apply Exists_exists in H. destruct H as (a & Ha & H). apply in_map_iff in Ha. destruct Ha as (x & <- & _). pose proof (Z.mod_pos_bound x t ltac:(lia)). lia.
      + apply Forall_map, Forall_forall. intros x _. pose proof (Z.mod_pos_bound x t ltac:(lia)). assert (W62 < W64) by reflexivity. unfold is_u64. lia.
      + intros _ El. apply HtQ; [discriminate|exact El].
    - rewrite (encode_i64_big isp cands par G v e Es). intros H. destruct (e_kind e) eqn:Ek.
      + apply big_panics in H; [|apply Forall_map, Forall_forall; intros x _; apply Z.mod_pos_bound; lia|congruence]. destruct H as (_ & _ & H & _). congruence.
      + assert (En : pa_ntt par = None). { destruct (pa_ntt par) as [op|] eqn:Eop; [|reflexivity]. destruct (ntt_facts isp cands par G op Eop) as (mm & E' & _). congruence. }
        destruct (Nat.le_gt_cases (length v) N) as [Lv|Lv]; [|unfold encode_big in H; rewrite map_length in H; destruct (Nat.ltb_spec N (length v)); [discriminate|lia]].
        destruct (encode_errors_all isp cands Ho par Hp e false (map (fun x => x mod t) v)) as (_ & H1 & _). destruct (H1 ltac:(rewrite map_length; exact Lv) Ek En) as (_ & E). congruence.
  Qed.
  Theorem i64_panics : pa_small par <> None -> 4 * level_modulus par (max_level par) < t -> encode_i64 [-1] (mkEnc EncPoly (max_level par)) par = Panic.
  Proof using Ho Hp.
    intros Hs Hlt. pose proof (params_good isp cands par Ho Hp) as G. pose proof (gp_t _ _ _ G) as Ht. pose proof (t_cases isp cands par G) as Hc. destruct (pa_small par) as [m|] eqn:Es; [|congruence]. pose proof N_pos.
    assert (Hi : Forall is_i64 [-1]) by (repeat constructor; unfold is_i64; assert (0 < W63) by reflexivity; lia). rewrite (encode_i64_small isp cands par G m _ _ Es Hi). cbn [map]. assert (Em : (-1) mod t = t - 1) by (symmetry; apply Z.mod_unique_pos with (q := -1); lia). rewrite Em.
    assert (W62 < W64) by reflexivity. apply one_u64_panics; [constructor; [unfold is_u64; lia|constructor]|discriminate|]. split; [cbn [length]; lia|]. split; [split; [discriminate|cbn [e_level]; lia]|]. split; [reflexivity|]. cbn [e_level]. constructor. lia.
  Qed.
  (** The values that are accepted. *)
  Theorem accepted vt v e : Forall is_u64 v -> (length v <= N)%nat -> available par e -> (e_kind e = EncSimd -> e_level e = max_level par -> t <= 4 * level_modulus par (e_level e)) -> ~ too_large par e v ->
    match e_kind e with
    | EncPoly => exists pt, encode_u64 vt v e par = Val pt /\ pt_enc pt = Some e /\ is_pt par (e_level e) pt (pad N v)
    | EncSimd => exists pt, encode_u64 vt v e par = Val pt /\ encode_u64 vt (map (fun a => a mod t) v) e par = Val pt
    end.
  Proof using Ho Hp.
    intros Hv Lv (Hus & Hl) HtQ Hn. pose proof (params_good isp cands par Ho Hp) as G. destruct (at_level_ex isp cands par (e_level e) Ho G Hl) as (lv & c & A).
    assert (E : forall w, (length w <= N)%nat -> encode_u64 vt w e par = bind (encode_u64_chunk vt w e par c) (fun p => Val (mkPt par (Some e) p))).
    { intros w Lw. unfold encode_u64. destruct (Nat.ltb_spec N (length w)); [lia|]. unfold encode_vec_u64. rewrite (encode_one isp cands par _ lv c A (encode_u64_chunk vt) w e Lw eq_refl Hus). apply first_single. }
    destruct (e_kind e) eqn:Ek.
    - destruct (chunk_poly isp cands Ho par G (e_level e) lv c A vt v e Ek eq_refl Lv Hv) as (_ & H). exists (mkPt par (Some e) (poly_of Ntt c vt (zpad par v))). split; [rewrite E, (H Hn) by exact Lv; reflexivity|]. split; [reflexivity|].
      split; [reflexivity|]. cbn [pt_poly]. split; [apply (al_par_context isp cands par _ lv c A)|]. split; [|reflexivity]. change (length (pad N v) = c_degree c). rewrite (al_deg _ _ _ _ _ _ A). apply (zpad_length par v Lv).
    - destruct (pa_ntt par) as [op|] eqn:Eop; [|exfalso; apply (Hus Ek Eop)]. destruct (chunk_simd isp cands Ho par G (e_level e) lv c A vt v e op Ek eq_refl Lv Hv Eop (HtQ eq_refl)) as (_ & H). destruct (H Hn) as (b & _ & _ & E1 & E2).
      exists (mkPt par (Some e) (poly_of Ntt c vt b)). rewrite !E by (try rewrite map_length; exact Lv). rewrite E1, E2. split; reflexivity.
  Qed.

  (** ** Decoders *)
  Lemma decoded_resolve pt o : (exists er, resolve_encoding pt o = Err er /\ forall e, ~ decoded_as pt o e) \/ (exists e, resolve_encoding pt o = Val e /\ decoded_as pt o e /\ forall e', decoded_as pt o e' -> e' = e).
  Proof.
    clear. unfold resolve_encoding, decoded_as. destruct (pt_enc pt) as [s|], o as [p|].
    - unfold enc_eqb. destruct s as [ks ls], p as [kp lp]. cbn [e_kind e_level]. destruct ks, kp; try (left; eexists; split; [reflexivity|]; intros e [(H1 & [H2|H2])|(H1 & H2)]; congruence);
      (destruct (Nat.eqb_spec ls lp) as [->|Hne]; [right; eexists; split; [reflexivity|]; split; [left; auto|]; intros e [(H1 & _)|(H1 & _)]; congruence|left; eexists; split; [reflexivity|]; intros e [(H1 & [H2|H2])|(H1 & H2)]; congruence]).
    - right. exists s. split; [reflexivity|]. split; [left; auto|]. intros e [(H1 & _)|(H1 & _)]; congruence.
    - right. exists p. split; [reflexivity|]. split; [right; auto|]. intros e [(H1 & _)|(_ & H1)]; congruence.
    - left. eexists. split; [reflexivity|]. intros e [(H1 & _)|(_ & H1)]; congruence.
  Qed.
  Lemma mapM_i64 (f : Z -> Z) w : (mapM (fun x => big_to_i64 (f x)) w = Panic <-> Exists (fun a => ~ is_i64 (f a)) w).
  Proof.
    clear. rewrite mapM_panic.
    - split; intros H; (eapply Exists_impl; [|exact H]); cbv beta; unfold big_to_i64, chk, is_i64; change (2 ^ 63) with W63; intros a; destruct (Z.leb_spec (- W63) (f a)), (Z.ltb_spec (f a) W63); cbn [andb]; intros H'; try discriminate; try reflexivity; try lia.
    - intros a _. unfold big_to_i64, chk. destruct (_ && _); [right|left]; eauto.
  Qed.
  Theorem decoders l pt m o : (l <= max_level par)%nat -> is_pt par l pt m ->
    decode_big pt o <> Panic /\ decode_u64 pt o <> Panic /\
    (decode_i64 pt o = Panic <-> 2 ^ 64 <= t /\ exists e, decoded_as pt o e /\ e_kind e = EncPoly /\ Exists (fun a => ~ is_i64 (signed t (a mod decode_base par l))) m).
  Proof using Ho Hp.
    intros Hl Hpt. pose proof (params_good isp cands par Ho Hp) as G. destruct (at_level_ex isp cands par l Ho G Hl) as (lv & c & A). pose proof (gp_t _ _ _ G) as Ht. pose proof (t_cases isp cands par G) as Hs.
    destruct (pt_P isp cands Ho par G l lv c A pt m Hpt) as (x & Ept & Ex). assert (Lx : length (rl x) = N) by apply rl_length.
    assert (Ept' : pt = mkPt par (pt_enc pt) (poly_of Ntt c (p_vt (pt_poly pt)) (rl x))) by exact Ept. clear Ept. set (s := pt_enc pt) in Ept'. set (vt := p_vt (pt_poly pt)) in Ept'. clearbody s vt. subst pt.
    pose proof (coeffs_canonical isp cands par G l (rl x)) as Hcan. pose proof (coeffs_length par l (rl x)) as Lco.
    destruct (decoded_resolve (mkPt par s (poly_of Ntt c vt (rl x))) o) as [(er & Er & Hno)|(e & Er & Hdec & Huniq)].
    { unfold decode_i64, decode_big, decode_u64. rewrite Er. cbn [bind]. split; [discriminate|]. split; [discriminate|]. cbn [pt_par]. split; [destruct (pa_small par); discriminate|]. intros (_ & e & H & _). exfalso. exact (Hno e H). }
    destruct (e_kind e) eqn:Ek.
    - destruct (decode_poly isp cands par G l lv c A s o e vt (rl x) Er Ek Lx) as (E1 & E2). split; [rewrite E1; discriminate|]. split.
      + rewrite E2. destruct (pa_small par); [discriminate|]. destruct (mapM_big (coeffs_of par l (rl x))) as [(_ & H)|(_ & H)]; [eapply Forall_impl; [|exact Hcan]; cbv beta; intros; lia| |]; rewrite H; discriminate.
      + destruct (pa_small par) as [mm|] eqn:Es.
        * rewrite (decode_i64_small isp cands par G mm (mkPt par s (poly_of Ntt c vt (rl x))) o _ eq_refl Es E2 Hcan). split; [discriminate|]. intros (H & _). assert (W62 < 2 ^ 64) by reflexivity. lia.
        * assert (E3 : decode_i64 (mkPt par s (poly_of Ntt c vt (rl x))) o = mapM (fun a => big_to_i64 (centered par a)) (coeffs_of par l (rl x))).
          { unfold decode_i64. cbn [pt_par]. rewrite Es, E1. cbn [bind]. apply mapM_ext. intros a _. unfold centered. destruct (t / 2 <=? a); reflexivity. }
          rewrite E3, mapM_i64. unfold coeffs_of. rewrite (decode_base_eq isp cands par l G), Exists_map, Ex.
          assert (Ec : forall a, centered par ((a mod decode_base par l) mod t) = signed t (a mod decode_base par l)). { intros a. rewrite (signed_centered par _ ltac:(lia) (Z.mod_pos_bound _ t ltac:(lia))). apply signed_mod. }
          split.
          -- intros H. split; [exact Hs|]. exists e. split; [exact Hdec|]. split; [exact Ek|]. eapply Exists_impl; [|exact H]. cbv beta. intros a. rewrite Ec. auto.
          -- intros (_ & e' & _ & _ & H). eapply Exists_impl; [|exact H]. cbv beta. intros a. rewrite Ec. auto.
    - assert (Hno : ~ (2 ^ 64 <= t /\ exists e', decoded_as (mkPt par s (poly_of Ntt c vt (rl x))) o e' /\ e_kind e' = EncPoly /\ Exists (fun a => ~ is_i64 (signed t (a mod decode_base par l))) m)).
      { intros (_ & e' & H & H' & _). rewrite (Huniq e' H) in H'. congruence. }
      destruct (pa_ntt par) as [op|] eqn:Eop.
      + destruct (decode_simd isp cands par G l lv c A s o e vt (rl x) op Er Ek Lx Eop) as (E1 & E2). destruct (slot_op isp cands Ho par G l lv c A op Eop) as (K & w & Hok & Et & En & Ht62).
        destruct (ntt_facts isp cands par G op Eop) as (mm & Es & _ & _).
        destruct (fwd_cases op K w Hok false (coeffs_of par l (rl x))) as (_ & Hf); [congruence|eapply Forall_impl; [|exact Hcan]; cbv beta; intros; lia|]. unfold fwd in Hf. rewrite Et in Hf. specialize (Hf ltac:(eapply Forall_impl; [|exact Hcan]; cbv beta; intros; lia)).
        assert (LN : length (NTT op (coeffs_of par l (rl x))) = N) by (rewrite <- En; apply (NTT_length op K w Hok); congruence).
        destruct (index_facts isp cands par G) as (_ & _ & Hlt).
        assert (Eg : mapM (get (NTT op (coeffs_of par l (rl x)))) (pa_index par) = Val (map (fun i => nth i (NTT op (coeffs_of par l (rl x))) 0) (pa_index par))).
        { rewrite <- (map_id (pa_index par)) at 1. apply mapM_map. intros i Hi. rewrite Forall_forall in Hlt. apply get_nth. rewrite LN. apply Hlt, Hi. }
        rewrite Hf in E1, E2. cbn [bind] in E1, E2. rewrite Eg in E1, E2. split; [rewrite E1; discriminate|]. split; [rewrite E2; discriminate|].
        rewrite (decode_i64_small isp cands par G mm (mkPt par s (poly_of Ntt c vt (rl x))) o _ eq_refl Es E2). { split; [discriminate|]. intros H. contradiction. }
        apply Forall_map, Forall_forall. intros i Hi. pose proof (NTT_canonical op K w Hok (coeffs_of par l (rl x))) as Hc. unfold canonical in Hc. rewrite Et, Forall_forall in Hc. apply Hc, nth_In. rewrite LN. rewrite Forall_forall in Hlt. apply Hlt, Hi.
      + assert (Hb : exists er, decode_big (mkPt par s (poly_of Ntt c vt (rl x))) o = Err er). 
        { unfold decode_big. rewrite Er. cbn [bind]. rewrite (coefficients_eq isp cands par G l lv c A s vt (rl x) Lx). cbn [bind]. rewrite Ek. unfold decode_simd_u64. cbn [pt_par]. rewrite Eop.
          destruct (mapM_big (coeffs_of par l (rl x))) as [(_ & H)|(_ & H)]; [eapply Forall_impl; [|exact Hcan]; cbv beta; intros; lia| |]; destruct (pa_small par); rewrite H; cbn [bind ok_or]; eexists; reflexivity. }
        assert (Hu : exists er, decode_u64 (mkPt par s (poly_of Ntt c vt (rl x))) o = Err er).
        { unfold decode_u64. rewrite Er. cbn [bind]. rewrite (coefficients_eq isp cands par G l lv c A s vt (rl x) Lx). cbn [bind]. rewrite Ek. unfold decode_simd_u64. cbn [pt_par]. rewrite Eop.
          destruct (mapM_big (coeffs_of par l (rl x))) as [(_ & H)|(_ & H)]; [eapply Forall_impl; [|exact Hcan]; cbv beta; intros; lia| |]; destruct (pa_small par); try rewrite H; cbn [bind ok_or]; eexists; reflexivity. }
        destruct Hb as (er & Hb), Hu as (er' & Hu). split; [rewrite Hb; discriminate|]. split; [rewrite Hu; discriminate|]. unfold decode_i64. cbn [pt_par]. rewrite Hb, Hu. cbn [bind]. split; [destruct (pa_small par); discriminate|intros H; contradiction].
  Qed.
End Par.

Lemma encode_panics_all : forall isp cands, oracles isp cands -> forall par, is_params isp cands par -> forall e vt v, Forall is_u64 v ->
  (e_kind e = EncSimd -> e_level e = max_level par -> pa_t par <= 4 * level_modulus par (e_level e)) ->
  (encode_vec_u64 vt v e par = Panic <-> available par e /\ too_large par e v) /\
  (encode_u64 vt v e par = Panic <-> (length v <= pa_degree par)%nat /\ available par e /\ too_large par e v).
Proof. intros isp cands Ho par Hp e vt v Hv HtQ. split; [apply (vec_u64_panics isp cands par Ho Hp); assumption|apply (one_u64_panics isp cands par Ho Hp); assumption]. Qed.
Lemma encode_big_panics_all : forall isp cands, oracles isp cands -> forall par, is_params isp cands par -> forall e v, Forall (fun a => 0 <= a) v ->
  (e_kind e = EncSimd -> e_level e = max_level par -> pa_t par <= 4 * level_modulus par (e_level e)) ->
  (encode_big v e par = Panic <-> (length v <= pa_degree par)%nat /\ available par e /\ e_kind e = EncSimd /\ Forall is_u64 v /\ too_large par e v).
Proof. intros isp cands Ho par Hp e v. apply (big_panics isp cands par Ho Hp). Qed.
Lemma encode_signed_all : forall isp cands, oracles isp cands -> forall par, is_params isp cands par ->
  (forall e v, Forall is_i64 v -> 2 ^ 64 <= pa_t par \/ e_level e <> max_level par \/ pa_t par <= 4 * level_modulus par (e_level e) -> encode_i64 v e par <> Panic) /\
  (pa_t par < 2 ^ 64 -> 4 * level_modulus par (max_level par) < pa_t par -> encode_i64 [-1] (mkEnc EncPoly (max_level par)) par = Panic).
Proof.
  intros isp cands Ho par Hp. pose proof (params_good isp cands par Ho Hp) as G. pose proof (t_cases isp cands par G) as Hs. assert (W62 < 2 ^ 64) by reflexivity. split.
  - intros e v Hv Ht. apply (i64_safe isp cands par Ho Hp v e Hv). intros Hn El. destruct (pa_small par); [|congruence]. destruct Ht as [Ht|[Ht|Ht]]; [lia|contradiction|exact Ht].
  - intros Ht. apply (i64_panics isp cands par Ho Hp). destruct (pa_small par); [discriminate|]. change W64 with (2 ^ 64) in Hs. lia.
Qed.
Lemma accepted_all : forall isp cands, oracles isp cands -> forall par, is_params isp cands par -> forall e vt v, Forall is_u64 v -> (length v <= pa_degree par)%nat -> available par e ->
  (e_kind e = EncSimd -> e_level e = max_level par -> pa_t par <= 4 * level_modulus par (e_level e)) -> ~ too_large par e v ->
  match e_kind e with
  | EncPoly => exists pt, encode_u64 vt v e par = Val pt /\ pt_enc pt = Some e /\ is_pt par (e_level e) pt (pad (pa_degree par) v)
  | EncSimd => exists pt, encode_u64 vt v e par = Val pt /\ encode_u64 vt (map (fun a => a mod pa_t par) v) e par = Val pt
  end.
Proof. intros isp cands Ho par Hp e vt v. apply (accepted isp cands par Ho Hp). Qed.
Lemma decode_panics_all : forall isp cands, oracles isp cands -> forall par, is_params isp cands par -> forall l pt m o, (l <= max_level par)%nat -> is_pt par l pt m ->
  decode_big pt o <> Panic /\ decode_u64 pt o <> Panic /\
  (decode_i64 pt o = Panic <-> 2 ^ 64 <= pa_t par /\ exists e, decoded_as pt o e /\ e_kind e = EncPoly /\ Exists (fun a => ~ is_i64 (signed (pa_t par) (a mod decode_base par l))) m).
Proof. intros isp cands Ho par Hp l pt m o. apply (decoders isp cands par Ho Hp). Qed.
(** The signed decoder can panic exactly for the plaintext moduli above 2^64. *)
Lemma decode_signed_all : forall isp cands, oracles isp cands -> forall par, is_params isp cands par ->
  (pa_t par <= 2 ^ 64 -> forall l pt m o, (l <= max_level par)%nat -> is_pt par l pt m -> decode_i64 pt o <> Panic) /\
  (2 ^ 64 < pa_t par -> forall l, (l <= max_level par)%nat -> pa_t par <= level_modulus par l ->
   exists pt, encode_big [2 ^ 63] (mkEnc EncPoly l) par = Val pt /\ decode_big pt None = Val (pad (pa_degree par) [2 ^ 63]) /\ decode_i64 pt None = Panic).
Proof.
  intros isp cands Ho par Hp. pose proof (params_good isp cands par Ho Hp) as G. pose proof (gp_t _ _ _ G) as Ht. pose proof (N_pos isp cands par Ho Hp) as HN. split.
  - intros Hle l pt m o Hl Hpt H. apply (decode_panics_all isp cands Ho par Hp l pt m o Hl Hpt) in H. destruct H as (Hge & e & _ & _ & H). apply Exists_exists in H. destruct H as (a & _ & H). apply H. assert (Et : pa_t par = 2 ^ 64) by lia. rewrite Et.
    unfold signed, is_i64. cbv zeta. pose proof (Z.mod_pos_bound (a mod decode_base par l) (2 ^ 64) ltac:(lia)). assert (E2 : 2 ^ 64 = 2 * W63) by reflexivity. destruct (Z.ltb_spec (2 * ((a mod decode_base par l) mod 2 ^ 64) + 1) (2 ^ 64)); lia.
  - intros Hgt l Hl HtQ. set (e := mkEnc EncPoly l). set (v := [2 ^ 63]). assert (E64 : 2 ^ 64 = 2 * 2 ^ 63) by reflexivity. assert (H63 : 0 < 2 ^ 63) by reflexivity.
    assert (Hv : canonical (pa_t par) v). { constructor; [lia|constructor]. }
    destruct (at_level_ex isp cands par l Ho G Hl) as (lv & c & A). assert (Lv : (length v <= pa_degree par)%nat) by (cbn; lia).
    pose proof (encode_big_poly isp cands par l lv c A v e eq_refl eq_refl Lv) as E. eexists. split; [exact E|].
    assert (Lz : length (zpad par v) = pa_degree par) by (apply (zpad_length par v Lv)).
    assert (Hz : canonical (pa_t par) (zpad par v)) by (apply zpad_forall; [lia|exact Hv]).
    destruct (poly_holds isp cands par G l lv c A e false (zpad par v) eq_refl Lz) as (_ & Hd). destruct (Hd None (or_introl eq_refl)) as (H1 & _). split.
    + rewrite H1, (coeffs_id isp cands par G l (zpad par v) Hz HtQ). reflexivity.
    + apply (decode_panics_all isp cands Ho par Hp l _ (zpad par v) None Hl).
      * split; [reflexivity|]. cbn [pt_poly]. split; [apply (al_par_context isp cands par l lv c A)|]. split; [|reflexivity]. rewrite Lz. symmetry. apply (al_deg _ _ _ _ _ _ A).
      * split; [lia|]. exists e. split; [left; split; [reflexivity|left; reflexivity]|]. split; [reflexivity|].
        assert (Eb : decode_base par l = level_modulus par l). { unfold decode_base. destruct (Z.ltb_spec (pa_t par) (2 ^ 64)); [lia|reflexivity]. }
        unfold v, zpad. cbn [app]. constructor. rewrite Eb, Z.mod_small by lia. unfold signed, is_i64. cbv zeta. rewrite Z.mod_small by lia. change W63 with (2 ^ 63). destruct (Z.ltb_spec (2 * 2 ^ 63 + 1) (pa_t par)); lia.
Qed.
(** Slots at the last level, whatever its modulus: the coefficients of the polynomial with these slots decide. *)
Lemma encode_low_all : forall isp cands, oracles isp cands -> forall par, is_params isp cands par -> pa_ntt par <> None ->
  forall vt v, (length v <= pa_degree par)%nat -> Forall (fun a => 0 <= a < 2 * pa_t par) v ->
  exists pt b, encode_u64 vt v (mkEnc EncSimd 0) par = Val pt /\ decode_u64 (mkPt par None (pt_poly pt)) (Some (mkEnc EncPoly 0)) = Val b /\
    (encode_u64 vt v (mkEnc EncSimd (max_level par)) par = Panic <-> Exists (fun a => 4 * level_modulus par (max_level par) <= a) b).
Proof.
  intros isp cands Ho par Hp Hus vt v Lv Hv. pose proof (params_good isp cands par Ho Hp) as G. pose proof (gp_t _ _ _ G) as Ht. destruct (pa_ntt par) as [op|] eqn:Eop; [|congruence].
  destruct (at_level_ex isp cands par 0 Ho G ltac:(lia)) as (lv0 & c0 & A0). destruct (at_level_ex isp cands par (max_level par) Ho G ltac:(lia)) as (lv & c & A).
  destruct (slots_poly isp cands Ho par G 0 lv0 c0 A0 v op Lv Hv Eop) as (b & Lb & Cb & Hb). destruct (slot_op isp cands Ho par G 0 lv0 c0 A0 op Eop) as (_ & _ & _ & _ & _ & Ht62).
  assert (E : forall l lv c, at_level isp cands par l lv c -> encode_u64 vt v (mkEnc EncSimd l) par = bind (bind (pb_from_u64 c b vt) pb_into_ntt) (fun p => Val (mkPt par (Some (mkEnc EncSimd l)) p))).
  { intros l lv' c' A'. unfold encode_u64. destruct (Nat.ltb_spec (pa_degree par) (length v)); [lia|]. unfold encode_vec_u64. rewrite (encode_one isp cands par l lv' c' A' (encode_u64_chunk vt) v (mkEnc EncSimd l) Lv eq_refl ltac:(intros _; congruence)).
    rewrite first_single. rewrite (Hb (mkEnc EncSimd l) vt c' eq_refl). reflexivity. }
  assert (Pb : Forall (fun a => 0 <= a) b) by (eapply Forall_impl; [|exact Cb]; cbv beta; intros; lia).
  assert (HQ0 : pa_t par <= level_modulus par 0). { unfold level_modulus, level_moduli. rewrite Nat.sub_0_r, firstn_all. lia. }
  assert (E0 : bind (pb_from_u64 c0 b vt) pb_into_ntt = Val (poly_of Ntt c0 vt b)).
  { change (stored c0 vt b = Val (poly_of Ntt c0 vt b)). destruct (Nat.eq_dec 0 (max_level par)) as [Hl|Hl].
    - apply (stored_last isp cands Ho par G 0 lv0 c0 A0 vt b Lb Pb Hl). eapply Forall_impl; [|exact Cb]. cbv beta. intros. lia.
    - apply (stored_many isp cands Ho par G 0 lv0 c0 A0); [exact Lb| |exact Hl]. eapply Forall_impl; [|exact Cb]. unfold is_u64. assert (W62 < W64) by reflexivity. cbv beta. intros. lia. }
  exists (mkPt par (Some (mkEnc EncSimd 0)) (poly_of Ntt c0 vt b)), b. split; [rewrite (E 0%nat lv0 c0 A0), E0; reflexivity|]. split.
  - cbn [pt_poly]. destruct (decode_poly isp cands par G 0 lv0 c0 A0 None (Some (mkEnc EncPoly 0)) (mkEnc EncPoly 0) vt b eq_refl eq_refl Lb) as (_ & ->). rewrite (coeffs_id isp cands par G 0 b Cb HQ0).
    destruct (ntt_facts isp cands par G op Eop) as (mm & Es & _). rewrite Es. reflexivity.
  - rewrite (E (max_level par) lv c A), val_panic. change (stored c vt b = Panic <-> Exists (fun a => 4 * level_modulus par (max_level par) <= a) b).
    destruct (stored_last isp cands Ho par G (max_level par) lv c A vt b Lb Pb eq_refl) as (H1 & H2). split; [|exact H1]. intros H. destruct (Exists_dec (fun a => 4 * level_modulus par (max_level par) <= a) b (fun a => Z_le_dec _ a)) as [Hx|Hx]; [exact Hx|].
    rewrite H2 in H; [discriminate|]. apply Forall_Exists_neg in Hx. eapply Forall_impl; [|exact Hx]. cbv beta. intros. lia.
Qed.
