(** Closing lemmas for the properties about plaintexts. *)
From Verif Require Import Outcome BasicSpec OutcomeLemmas ZqModel ZqProofs NttModel PolySpec TranscodeModel RnsModel RnsSpec RnsProofs RqModel RqSpec RqCtx RqRows RqProofs RqOps RqIO.
From Verif Require Import ParamsModel BfvSpec SlotsProofs ParamsProofs BuildProofs PrimeCert ExampleParams ParamsPropLemmas PlainModel CipherModel SchemeSpec PlainProofs.
From Coq Require Import Znumtheory Permutation.

Lemma signed_centered par a : 2 <= pa_t par -> 0 <= a < pa_t par -> centered par a = signed (pa_t par) a.
Proof.
  intros Ht Ha. unfold centered, signed. cbv zeta. rewrite Z.mod_small by lia. pose proof (Z.div_mod (pa_t par) 2 ltac:(lia)). pose proof (Z.mod_pos_bound (pa_t par) 2 ltac:(lia)).
  destruct (Z.leb_spec (pa_t par / 2) a), (Z.ltb_spec (2 * a + 1) (pa_t par)); lia.
Qed.
Lemma signed_mod t a : signed t (a mod t) = signed t a.
Proof. unfold signed. cbv zeta. rewrite Zmod_mod. reflexivity. Qed.
Lemma signed_id t a : 2 <= t -> t / 2 - t <= a < t / 2 -> signed t a = a.
Proof.
  intros Ht Ha. unfold signed. cbv zeta. pose proof (Z.div_mod t 2 ltac:(lia)). pose proof (Z.mod_pos_bound t 2 ltac:(lia)). destruct (Z.le_gt_cases 0 a).
  - rewrite Z.mod_small by lia. destruct (Z.ltb_spec (2 * a + 1) t); lia.
  - replace (a mod t) with (a + t) by (apply Z.mod_unique_pos with (q := -1); lia). destruct (Z.ltb_spec (2 * (a + t) + 1) t); lia.
Qed.
Lemma pad_map (f : Z -> Z) n v : f 0 = 0 -> pad n (map f v) = map f (pad n v).
Proof. intros H. unfold pad. rewrite map_app, map_length. f_equal. induction (n - length v)%nat; cbn [repeat map]; congruence. Qed.
Lemma Forall_pad (P : Z -> Prop) n v : P 0 -> Forall P v -> Forall P (pad n v).
Proof. intros H0 H. unfold pad. apply Forall_app. split; [exact H|]. apply Forall_forall. intros z Hz. apply repeat_spec in Hz. subst. exact H0. Qed.
Lemma mapM_u64 v : Forall is_u64 v -> mapM big_to_u64 v = Val v.
Proof.
  intros Hv. rewrite <- (map_id v) at 1. rewrite <- (map_id v) at 2. apply mapM_map. intros a Ha. rewrite Forall_forall in Hv. apply Hv in Ha. unfold is_u64 in Ha. unfold big_to_u64.
  destruct (Z.ltb_spec a W64); [reflexivity|lia].
Qed.
Lemma t_cases isp cands par : good_params isp cands par -> match pa_small par with Some _ => pa_t par < W62 | None => W64 <= pa_t par end.
Proof.
  intros G. pose proof (gp_small _ _ _ G) as H. destruct (pa_small par) as [m|].
  - destruct H as (H & _). destruct (modulus_new_valid _ _ H) as (V & E). pose proof (valid_fields m V). lia.
  - destruct H. lia.
Qed.

(** What decoding gives on a plaintext holding the vector [w] *)
Definition holds (pt : plaintext) (e : encoding) (w : list Z) : Prop :=
  pt_enc pt = Some e /\ forall o, o = None \/ o = Some e ->
    decode_big pt o = Val w /\ (Forall is_u64 w -> decode_u64 pt o = Val w) /\
    (Forall (fun a => is_i64 (signed (pa_t (pt_par pt)) a)) w -> decode_i64 pt o = Val (map (signed (pa_t (pt_par pt))) w)).

Section Level.
  Variables (isp : Z -> bool) (cands : Z -> list Z) (Ho : oracles isp cands) (par : params) (G : good_params isp cands par).
  Variables (l : nat) (lv : level_ctx) (c : ctx) (A : at_level isp cands par l lv c).
  Notation N := (pa_degree par).
  Notation t := (pa_t par).
  Notation Q := (prod_list (level_moduli (pa_moduli par) l)).

  Lemma i64_of pt o w : pt_par pt = par -> canonical t w -> decode_big pt o = Val w -> (Forall is_u64 w -> decode_u64 pt o = Val w) ->
    Forall (fun a => is_i64 (signed t a)) w -> decode_i64 pt o = Val (map (signed t) w).
  Proof.
    intros Ep Hw Eb Eu Hi. pose proof (gp_t _ _ _ G) as Ht. pose proof (t_cases isp cands par G) as Hs. destruct (pa_small par) as [m|] eqn:Es.
    - rewrite (decode_i64_small isp cands par G m pt o w Ep Es); [|apply Eu; eapply Forall_impl; [|exact Hw]; unfold is_u64; cbv beta; intros; assert (W62 < W64) by reflexivity; lia|exact Hw].
      f_equal. apply map_ext_in. intros a Ha. apply signed_centered; [lia|]. unfold canonical in Hw. rewrite Forall_forall in Hw. apply Hw, Ha.
    - unfold decode_i64. rewrite Ep, Es, Eb. cbn [bind]. rewrite <- (map_id w) at 1. apply mapM_map. intros a Ha. unfold canonical in Hw. rewrite Forall_forall in Hw, Hi. specialize (Hw a Ha). specialize (Hi a Ha).
      rewrite <- signed_centered in Hi by lia. rewrite <- signed_centered by lia. unfold centered in *. unfold is_i64 in Hi. unfold big_to_i64. destruct (t / 2 <=? a); apply chk_val; lia.
  Qed.
  Lemma poly_holds e vt x : e_kind e = EncPoly -> length x = N -> holds (mkPt par (Some e) (poly_of Ntt c vt x)) e (coeffs_of par l x).
  Proof.
    intros Ek Lx. split; [reflexivity|]. intros o Heo. pose proof (resolve_same par c e o Heo) as Er. rewrite (resolve_poly par (Some e) _ (poly_of Ntt c vt x) o) in Er.
    destruct (decode_poly isp cands par G l lv c A (Some e) o e vt x Er Ek Lx) as (E1 & E2). pose proof (t_cases isp cands par G) as Hs. pose proof (coeffs_canonical isp cands par G l x) as Hcan.
    assert (E3 : Forall is_u64 (coeffs_of par l x) -> decode_u64 (mkPt par (Some e) (poly_of Ntt c vt x)) o = Val (coeffs_of par l x)) by (intros Hu; rewrite E2; destruct (pa_small par); [reflexivity|apply mapM_u64, Hu]).
    split; [exact E1|]. split; [exact E3|]. cbn [pt_par]. apply i64_of; auto.
  Qed.
  Lemma simd_holds e vt v b op : e_kind e = EncSimd -> pa_ntt par = Some op -> length b = N -> canonical t b -> t <= Q -> canonical t v -> (length v <= N)%nat ->
    bind (ntt_forward op b) (fun w => mapM (get w) (pa_index par)) = Val (zpad par v) -> holds (mkPt par (Some e) (poly_of Ntt c vt b)) e (pad N v).
  Proof.
    intros Ek Eop Lb Hb HtQ Hv Lv E. split; [reflexivity|]. intros o Heo. pose proof (resolve_same par c e o Heo) as Er. rewrite (resolve_poly par (Some e) _ (poly_of Ntt c vt b) o) in Er.
    destruct (decode_simd isp cands par G l lv c A (Some e) o e vt b op Er Ek Lb Eop) as (E1 & E2). rewrite (coeffs_id isp cands par G l b Hb HtQ) in E1, E2. rewrite E in E1, E2. fold (pad N v) in *. unfold zpad in E1, E2. fold (pad N v) in E1, E2.
    split; [exact E1|]. split; [intros _; exact E2|]. pose proof (gp_t _ _ _ G). apply i64_of; auto. apply Forall_pad; [lia|exact Hv].
  Qed.
  Lemma encode_u64_holds vt v e : e_level e = l -> usable par e -> t <= Q -> (length v <= N)%nat -> canonical t v -> Forall is_u64 v ->
    exists pt x, encode_u64 vt v e par = Val pt /\ holds pt e (pad N v) /\ pt = mkPt par (Some e) (poly_of Ntt c vt x) /\ length x = N /\ canonical t x.
  Proof.
    intros El Hus HtQ Lv Hv Hu. pose proof (gp_t _ _ _ G) as Ht. destruct (e_kind e) eqn:Ek.
    - eexists _, (zpad par v). split; [apply (encode_u64_poly isp cands par l lv c A vt v e Ek El Lv Hu); right; eapply Forall_impl; [|exact Hv]; cbv beta; intros; lia|].
      assert (Hz : canonical t (zpad par v)) by (apply Forall_pad; [lia|exact Hv]). pose proof (zpad_length par v Lv) as Lz.
      split; [|split; [reflexivity|split; assumption]]. pose proof (poly_holds e vt (zpad par v) Ek Lz) as H. rewrite (coeffs_id isp cands par G l _ Hz HtQ) in H. exact H.
    - destruct (pa_ntt par) as [op|] eqn:Eop; [|exfalso; apply Hus; assumption]. destruct (encode_u64_simd isp cands Ho par G l lv c A vt v e op Ek El Lv Hv Eop HtQ) as (b & Lb & Hb & E1 & _ & E3).
      eexists _, b. split; [exact E1|]. split; [|split; [reflexivity|split; assumption]]. eapply simd_holds; eassumption.
  Qed.
  Lemma encode_big_holds v e : e_level e = l -> usable par e -> t <= Q -> (length v <= N)%nat -> canonical t v ->
    exists pt x, encode_big v e par = Val pt /\ holds pt e (pad N v) /\ pt = mkPt par (Some e) (poly_of Ntt c false x) /\ length x = N /\ canonical t x.
  Proof.
    intros El Hus HtQ Lv Hv. pose proof (gp_t _ _ _ G) as Ht. destruct (e_kind e) eqn:Ek.
    - eexists _, (zpad par v). split; [apply (encode_big_poly isp cands par l lv c A v e Ek El Lv)|].
      assert (Hz : canonical t (zpad par v)) by (apply Forall_pad; [lia|exact Hv]). pose proof (zpad_length par v Lv) as Lz.
      split; [|split; [reflexivity|split; assumption]]. pose proof (poly_holds e false (zpad par v) Ek Lz) as H. rewrite (coeffs_id isp cands par G l _ Hz HtQ) in H. exact H.
    - destruct (pa_ntt par) as [op|] eqn:Eop; [|exfalso; apply Hus; assumption]. destruct (encode_u64_simd isp cands Ho par G l lv c A false v e op Ek El Lv Hv Eop HtQ) as (b & Lb & Hb & _ & E2 & E3).
      eexists _, b. split; [exact E2|]. split; [|split; [reflexivity|split; assumption]]. eapply simd_holds; eassumption.
  Qed.
  Lemma canonical_mod v : canonical t (map (fun x => x mod t) v).
  Proof. pose proof (gp_t _ _ _ G). apply Forall_map, Forall_forall. intros x _. apply Z.mod_pos_bound. lia. Qed.
  Lemma encode_i64_holds v e : e_level e = l -> usable par e -> t <= Q -> (length v <= N)%nat -> Forall is_i64 v ->
    exists pt x, encode_i64 v e par = Val pt /\ holds pt e (pad N (map (fun x => x mod t) v)) /\ pt = mkPt par (Some e) (poly_of Ntt c false x) /\ length x = N /\ canonical t x.
  Proof.
    intros El Hus HtQ Lv Hv. pose proof (t_cases isp cands par G) as Hs. destruct (pa_small par) as [m|] eqn:Es.
    - rewrite (encode_i64_small isp cands par G m v e Es Hv). apply encode_u64_holds; auto; [rewrite map_length; exact Lv|apply canonical_mod|].
      eapply Forall_impl; [|apply canonical_mod]. unfold is_u64. cbv beta. assert (W62 < W64) by reflexivity. intros; lia.
    - rewrite (encode_i64_big isp cands par G v e Es). apply encode_big_holds; auto; [rewrite map_length; exact Lv|apply canonical_mod].
  Qed.
  Lemma i64_signed v : Forall is_i64 v -> Forall (fun a => is_i64 (signed t a)) (pad N (map (fun x => x mod t) v)).
  Proof.
    intros Hv. pose proof (gp_t _ _ _ G) as Ht. pose proof (t_cases isp cands par G) as Hs. apply Forall_pad.
    - rewrite signed_id; [unfold is_i64; lia|lia|]. pose proof (Z.div_mod t 2 ltac:(lia)). pose proof (Z.mod_pos_bound t 2 ltac:(lia)). lia.
    - apply Forall_map. eapply Forall_impl; [|exact Hv]. cbv beta. intros a Ha. rewrite signed_mod. pose proof (Z.div_mod t 2 ltac:(lia)). pose proof (Z.mod_pos_bound t 2 ltac:(lia)).
      unfold is_i64 in *. destruct (pa_small par).
      + pose proof (Z.mod_pos_bound a t ltac:(lia)). unfold signed. cbv zeta. assert (W62 < 2 ^ 63) by reflexivity. destruct (2 * (a mod t) + 1 <? t); lia.
      + assert (W64 = 2 * 2 ^ 63) by reflexivity. rewrite signed_id by lia. lia.
  Qed.
End Level.

Lemma roundtrip_unsigned_all : forall isp cands, oracles isp cands -> forall par, is_params isp cands par -> forall l, (l <= max_level par)%nat -> pa_t par <= level_modulus par l ->
  forall e v, e_level e = l -> usable par e -> (length v <= pa_degree par)%nat -> Forall (fun a => 0 <= a < pa_t par) v ->
  (exists pt, encode_big v e par = Val pt /\ forall o, o = None \/ o = Some e ->
     decode_big pt o = Val (pad (pa_degree par) v) /\ (Forall is_u64 v -> decode_u64 pt o = Val (pad (pa_degree par) v))) /\
  (Forall is_u64 v -> forall vt, exists pt, encode_u64 vt v e par = Val pt /\ forall o, o = None \/ o = Some e ->
     decode_big pt o = Val (pad (pa_degree par) v) /\ decode_u64 pt o = Val (pad (pa_degree par) v)).
Proof.
  intros isp cands Ho par Hp l Hl HtQ e v El Hus Lv Hv. pose proof (params_good isp cands par Ho Hp) as G. destruct (at_level_ex isp cands par l Ho G Hl) as (lv & c & A). unfold level_modulus in HtQ.
  assert (Hu : Forall is_u64 v -> Forall is_u64 (pad (pa_degree par) v)) by (intros; apply Forall_pad; [unfold is_u64; lia|assumption]).
  split.
  - destruct (encode_big_holds isp cands Ho par G l lv c A v e El Hus HtQ Lv Hv) as (pt & _ & E & (_ & H) & _). exists pt. split; [exact E|]. intros o Heo. destruct (H o Heo) as (H1 & H2 & _). auto.
  - intros Huv vt. destruct (encode_u64_holds isp cands Ho par G l lv c A vt v e El Hus HtQ Lv Hv Huv) as (pt & _ & E & (_ & H) & _). exists pt. split; [exact E|]. intros o Heo. destruct (H o Heo) as (H1 & H2 & _). auto.
Qed.

Lemma roundtrip_signed_all : forall isp cands, oracles isp cands -> forall par, is_params isp cands par -> forall l, (l <= max_level par)%nat -> pa_t par <= level_modulus par l ->
  forall e v, e_level e = l -> usable par e -> (length v <= pa_degree par)%nat -> Forall is_i64 v ->
  exists pt, encode_i64 v e par = Val pt /\ forall o, o = None \/ o = Some e ->
    decode_i64 pt o = Val (pad (pa_degree par) (map (signed (pa_t par)) v)) /\
    decode_big pt o = Val (pad (pa_degree par) (map (fun a => a mod pa_t par) v)) /\
    (Forall (fun a => pa_t par / 2 - pa_t par <= a < pa_t par / 2) v -> decode_i64 pt o = Val (pad (pa_degree par) v)).
Proof.
  intros isp cands Ho par Hp l Hl HtQ e v El Hus Lv Hv. pose proof (params_good isp cands par Ho Hp) as G. destruct (at_level_ex isp cands par l Ho G Hl) as (lv & c & A). unfold level_modulus in HtQ.
  destruct (encode_i64_holds isp cands Ho par G l lv c A v e El Hus HtQ Lv Hv) as (pt & x & E & (_ & H) & Ept & _). exists pt. split; [exact E|]. intros o Heo. destruct (H o Heo) as (H1 & _ & H3).
  assert (Ep : pt_par pt = par) by (rewrite Ept; reflexivity). rewrite Ep in H3. specialize (H3 (i64_signed isp cands par G v Hv)). pose proof (gp_t _ _ _ G) as Ht.
  assert (E3 : map (signed (pa_t par)) (pad (pa_degree par) (map (fun a => a mod pa_t par) v)) = pad (pa_degree par) (map (signed (pa_t par)) v)).
  { rewrite <- pad_map; [rewrite map_map; f_equal; apply map_ext; intros; apply signed_mod|]. apply signed_id; [lia|]. pose proof (Z.div_mod (pa_t par) 2 ltac:(lia)). pose proof (Z.mod_pos_bound (pa_t par) 2 ltac:(lia)). lia. }
  rewrite E3 in H3. split; [exact H3|]. split; [exact H1|]. intros Hr. rewrite H3. do 2 f_equal. rewrite <- (map_id v) at 2. apply map_ext_in. intros a Ha. rewrite Forall_forall in Hr. apply signed_id; [lia|apply Hr, Ha].
Qed.

Lemma decode_base_eq isp cands par l : good_params isp cands par -> plain_base par l = decode_base par l.
Proof.
  intros G. pose proof (t_cases isp cands par G) as Hs. unfold plain_base, decode_base, level_modulus. destruct (pa_small par).
  - assert (W62 < 2 ^ 64) by reflexivity. destruct (Z.ltb_spec (pa_t par) (2 ^ 64)); [reflexivity|lia].
  - destruct (Z.ltb_spec (pa_t par) (2 ^ 64)); [change W64 with (2 ^ 64) in Hs; lia|reflexivity].
Qed.
Lemma unreduced_all : forall isp cands, oracles isp cands -> forall par, is_params isp cands par -> forall l, (l <= max_level par)%nat ->
  forall v, (length v <= pa_degree par)%nat ->
  let e := mkEnc EncPoly l in
  let w := map (fun a => (a mod decode_base par l) mod pa_t par) v in
  (exists pt, encode_big v e par = Val pt /\ decode_big pt (Some e) = Val (pad (pa_degree par) w)) /\
  (Forall is_u64 v -> (l < max_level par)%nat \/ Forall (fun a => 0 <= a < level_modulus par l) v -> forall vt,
   exists pt, encode_u64 vt v e par = Val pt /\ decode_big pt (Some e) = Val (pad (pa_degree par) w)).
Proof.
  intros isp cands Ho par Hp l Hl v Lv. cbv zeta. pose proof (params_good isp cands par Ho Hp) as G. destruct (at_level_ex isp cands par l Ho G Hl) as (lv & c & A). pose proof (gp_t _ _ _ G) as Ht.
  assert (Ew : coeffs_of par l (zpad par v) = pad (pa_degree par) (map (fun a => (a mod decode_base par l) mod pa_t par) v)).
  { unfold coeffs_of. rewrite (decode_base_eq isp cands par l G). symmetry. rewrite pad_map; [reflexivity|]. rewrite !Zmod_0_l. reflexivity. }
  split.
  - eexists. split; [apply (encode_big_poly isp cands par l lv c A v (mkEnc EncPoly l) eq_refl eq_refl Lv)|].
    destruct (poly_holds isp cands par G l lv c A (mkEnc EncPoly l) false (zpad par v) eq_refl (zpad_length par v Lv)) as (_ & H). destruct (H (Some (mkEnc EncPoly l)) (or_intror eq_refl)) as (H1 & _). rewrite Ew in H1. exact H1.
  - intros Hu Hv vt. assert (Hv' : (2 <= length (c_moduli c))%nat \/ canonical (prod_list (level_moduli (pa_moduli par) l)) v).
    { destruct Hv as [Hv|Hv]; [left|right; exact Hv]. rewrite (al_moduli_length isp cands par l lv c A). unfold max_level in Hv. destruct (gp_levels _ _ _ G) as (_ & _ & Hll & _). lia. }
    eexists. split; [apply (encode_u64_poly isp cands par l lv c A vt v (mkEnc EncPoly l) eq_refl eq_refl Lv Hu Hv')|].
    destruct (poly_holds isp cands par G l lv c A (mkEnc EncPoly l) vt (zpad par v) eq_refl (zpad_length par v Lv)) as (_ & H). destruct (H (Some (mkEnc EncPoly l)) (or_intror eq_refl)) as (H1 & _). rewrite Ew in H1. exact H1.
Qed.
Lemma unreduced_ok_all : forall isp cands, oracles isp cands -> forall par, is_params isp cands par -> forall l, (l <= max_level par)%nat ->
  forall v, (length v <= pa_degree par)%nat -> Forall (fun a => 0 <= a < decode_base par l) v ->
  let e := mkEnc EncPoly l in
  exists pt, encode_big v e par = Val pt /\ decode_big pt (Some e) = Val (pad (pa_degree par) (map (fun a => a mod pa_t par) v)).
Proof.
  intros isp cands Ho par Hp l Hl v Lv Hv. cbv zeta. destruct (unreduced_all isp cands Ho par Hp l Hl v Lv) as ((pt & E1 & E2) & _). exists pt. split; [exact E1|]. rewrite E2. do 2 f_equal. apply map_ext_in. intros a Ha.
  rewrite Forall_forall in Hv. rewrite (Z.mod_small a) by (apply Hv, Ha). reflexivity.
Qed.
Lemma head_prime isp cands par : good_params isp cands par -> exists q r, pa_moduli par = q :: r /\ prime q /\ Z.gcd (pa_t par) q = 1.
Proof.
  intros G. pose proof (gp_ne _ _ _ G). pose proof (gp_friendly _ _ _ G) as F. pose proof (gp_coprime _ _ _ G) as C. destruct (pa_moduli par) as [|q r]; [congruence|]. exists q, r. inversion F as [|? ? (P & _) _]; subst. inversion C; subst. auto.
Qed.
Lemma unreduced_bad_all : forall isp cands, oracles isp cands -> forall par, is_params isp cands par ->
  pa_t par < hd 0 (pa_moduli par) -> pa_t par < 2 ^ 64 -> (1 <= max_level par)%nat ->
  exists v pt, Forall is_u64 v /\ (length v <= pa_degree par)%nat /\ encode_u64 false v (mkEnc EncPoly 0) par = Val pt /\
    decode_u64 pt None <> Val (pad (pa_degree par) (map (fun a => a mod pa_t par) v)).
Proof.
  intros isp cands Ho par Hp Htq Ht64 Hm. pose proof (params_good isp cands par Ho Hp) as G. destruct (at_level_ex isp cands par 0 Ho G ltac:(lia)) as (lv & c & A). pose proof (gp_t _ _ _ G) as Ht. destruct (head_prime isp cands par G) as (q & r & Em & Pq & Gq).
  pose proof (gp_friendly _ _ _ G) as F. rewrite Em in F. inversion F as [|? ? (_ & Hq & _) _]; subst. pose proof (prime_ge_2 q Pq). pose proof (al_N8 _ _ _ _ _ _ A) as H8.
  assert (Lv : (length [q] <= pa_degree par)%nat) by (cbn; lia). assert (Hu : Forall is_u64 [q]) by (constructor; [unfold is_u64; assert (2 ^ 62 < W64) by reflexivity; lia|constructor]).
  exists [q]. eexists. split; [exact Hu|]. split; [exact Lv|]. split.
  { apply (encode_u64_poly isp cands par 0 lv c A false [q] (mkEnc EncPoly 0) eq_refl eq_refl Lv Hu). left. rewrite (al_moduli_length isp cands par 0 lv c A). unfold max_level in Hm. destruct (gp_levels _ _ _ G) as (_ & _ & Hll & _). lia. }
  destruct (poly_holds isp cands par G 0 lv c A (mkEnc EncPoly 0) false (zpad par [q]) eq_refl (zpad_length par [q] Lv)) as (_ & HH). destruct (HH None (or_introl eq_refl)) as (_ & H2 & _). intros E.
  assert (Hs : W62 > pa_t par). { pose proof (t_cases isp cands par G) as Hs. destruct (pa_small par); [lia|]. change W64 with (2 ^ 64) in Hs. lia. }
  rewrite H2 in E. 2: { eapply Forall_impl; [|apply (coeffs_canonical isp cands par G 0)]. unfold is_u64. assert (W62 < W64) by reflexivity. cbv beta. intros. lia. }
  assert (Eh := f_equal (fun m => match m with Val (x :: _) => x | _ => 0 end) E). cbv beta in Eh. unfold coeffs_of, zpad, pad in Eh. cbn [map app] in Eh. rewrite (decode_base_eq isp cands par 0 G) in Eh. unfold decode_base in Eh. rewrite Em in Eh, Htq. cbn [hd] in Eh, Htq.
  destruct (Z.ltb_spec (pa_t par) (2 ^ 64)); [|lia]. destruct (Z.ltb_spec (pa_t par) q); [|lia]. cbn [andb] in Eh. rewrite Z_mod_same_full, Zmod_0_l in Eh. symmetry in Eh. apply Z.mod_divide in Eh; [|lia].
  assert (pa_t par = 1 \/ pa_t par = q); [|lia]. apply prime_divisors in Eh; [|exact Pq]. lia.
Qed.
(** At a level whose modulus is below t, decoding does not give the message back *)
Lemma low_level_bad_all : forall isp cands, oracles isp cands -> forall par, is_params isp cands par -> forall l, (l <= max_level par)%nat -> level_modulus par l < pa_t par ->
  exists v pt, Forall (fun a => 0 <= a < pa_t par) v /\ (length v <= pa_degree par)%nat /\ encode_big v (mkEnc EncPoly l) par = Val pt /\
    decode_big pt None <> Val (pad (pa_degree par) v).
Proof.
  intros isp cands Ho par Hp l Hl Htq. pose proof (params_good isp cands par Ho Hp) as G. destruct (at_level_ex isp cands par l Ho G Hl) as (lv & c & A). pose proof (gp_t _ _ _ G) as Ht. pose proof (al_N8 _ _ _ _ _ _ A) as H8.
  pose proof (al_Qpos isp cands par l lv c A) as HQ. fold (level_modulus par l) in HQ.
  assert (Hb : decode_base par l = level_modulus par l).
  { unfold decode_base. destruct (al_q0 isp cands par G l lv c A) as (q & r & E1 & E2 & P & Hq). rewrite E2. cbn [hd]. unfold level_modulus in Htq |- *. rewrite E1 in *. cbn [prod_list] in *. destruct (Z.ltb_spec (pa_t par) q); [|rewrite andb_false_r; reflexivity].
    assert (Fr : Forall (fun q => 2 <= q < W62) (q :: r)). { rewrite <- E1. unfold level_moduli. apply Forall_firstn. eapply Forall_impl; [|exact (gp_friendly _ _ _ G)]. intros z (Pz & Hz & _). apply prime_ge_2 in Pz. lia. }
    inversion Fr as [|? ? ? Fr']; subst. pose proof (prod_list_pos r Fr'). nia. }
  assert (Lv : (length [level_modulus par l] <= pa_degree par)%nat) by (cbn; lia).
  exists [level_modulus par l]. eexists. split; [constructor; [lia|constructor]|]. split; [exact Lv|]. split; [apply (encode_big_poly isp cands par l lv c A _ (mkEnc EncPoly l) eq_refl eq_refl Lv)|].
  destruct (poly_holds isp cands par G l lv c A (mkEnc EncPoly l) false (zpad par [level_modulus par l]) eq_refl (zpad_length par _ Lv)) as (_ & H). destruct (H None (or_introl eq_refl)) as (H1 & _). intros E. rewrite H1 in E.
  assert (Eh := f_equal (fun m => match m with Val (x :: _) => x | _ => 0 end) E). cbv beta in Eh. unfold coeffs_of, zpad, pad in Eh. cbn [map app] in Eh. rewrite (decode_base_eq isp cands par l G), Hb in Eh. rewrite Z_mod_same_full, Zmod_0_l in Eh. lia.
Qed.

(** Requests that are refused *)
Lemma encode_errors_all : forall isp cands, oracles isp cands -> forall par, is_params isp cands par -> forall e vt v,
  ((pa_degree par < length v)%nat -> encode_u64 vt v e par = Err (TooManyValues (len v) (Z.of_nat (pa_degree par))) /\
     encode_big v e par = Err (TooManyValues (len v) (Z.of_nat (pa_degree par))) /\
     (Forall is_i64 v -> encode_i64 v e par = Err (TooManyValues (len v) (Z.of_nat (pa_degree par))))) /\
  ((length v <= pa_degree par)%nat -> e_kind e = EncSimd -> pa_ntt par = None -> encode_u64 vt v e par = Err SimdUnavailable /\ encode_big v e par = Err SimdUnavailable) /\
  ((length v <= pa_degree par)%nat -> usable par e -> (max_level par < e_level e)%nat ->
     encode_u64 vt v e par = Err (InvalidLevel (Z.of_nat (e_level e)) 0 (Z.of_nat (max_level par))) /\
     encode_big v e par = Err (InvalidLevel (Z.of_nat (e_level e)) 0 (Z.of_nat (max_level par)))).
Proof.
  intros isp cands Ho par Hp e vt v. pose proof (params_good isp cands par Ho Hp) as G. split; [|split].
  - intros Lv. assert (E : forall vt v', length v' = length v -> encode_u64 vt v' e par = Err (TooManyValues (len v) (Z.of_nat (pa_degree par))) /\ encode_big v' e par = Err (TooManyValues (len v) (Z.of_nat (pa_degree par)))).
    { intros vt' v' L. unfold encode_u64, encode_big, len. rewrite L. destruct (Nat.ltb_spec (pa_degree par) (length v)); [split; reflexivity|lia]. }
    split; [apply E; reflexivity|]. split; [apply (E vt); reflexivity|]. intros Hv. destruct (pa_small par) as [m|] eqn:Es.
    + rewrite (encode_i64_small isp cands par G m v e Es Hv). apply E, map_length.
    + rewrite (encode_i64_big isp cands par G v e Es). apply (E vt), map_length.
  - intros Lv Ek En. unfold encode_u64, encode_big, encode_vec_u64, encode_vec_big, encode_with. destruct (Nat.ltb_spec (pa_degree par) (length v)); [lia|]. rewrite Ek, En. split; reflexivity.
  - intros Lv Hus Hl. unfold encode_u64, encode_big, encode_vec_u64, encode_vec_big, encode_with. destruct (Nat.ltb_spec (pa_degree par) (length v)); [lia|].
    assert (El : par_context par (e_level e) = Err (InvalidLevel (Z.of_nat (e_level e)) 0 (Z.of_nat (max_level par)))).
    { unfold par_context, context_level_at. destruct (nth_error (pa_levels par) (e_level e)) eqn:E; [|reflexivity]. exfalso. assert (nth_error (pa_levels par) (e_level e) <> None) as H1 by congruence. apply nth_error_Some in H1. unfold max_level in Hl. lia. }
    rewrite El. cbn [bind]. destruct (e_kind e) eqn:Ek; [split; reflexivity|]. destruct (pa_ntt par) eqn:En; [split; reflexivity|]. exfalso. apply Hus; assumption.
Qed.
Lemma decode_errors_all : forall pt : plaintext,
  (forall a b, pt_enc pt = Some a -> a <> b -> decode_big pt (Some b) = Err EncodingMismatch /\ decode_u64 pt (Some b) = Err EncodingMismatch) /\
  (pt_enc pt = None -> decode_big pt None = Err MissingEncoding /\ decode_u64 pt None = Err MissingEncoding).
Proof.
  intros pt. split.
  - intros a b Ea Hab. unfold decode_big, decode_u64, resolve_encoding. rewrite Ea. replace (enc_eqb a b) with false; [split; reflexivity|]. symmetry. unfold enc_eqb. destruct a as [ka la], b as [kb lb]. cbn [e_kind e_level].
    destruct ka, kb; try reflexivity; (destruct (Nat.eqb_spec la lb); [congruence|reflexivity]).
  - intros Ee. unfold decode_big, decode_u64, resolve_encoding. rewrite Ee. split; reflexivity.
Qed.

(** ** Message scaling *)
Lemma scaling_all : forall isp cands, oracles isp cands -> forall par, is_params isp cands par -> forall l, (l <= max_level par)%nat -> pa_t par <= level_modulus par l ->
  forall pt m, is_pt par l pt m -> Forall (fun a => 0 <= a < decode_base par l) m ->
  exists c, par_context par l = Val c /\ returns (to_poly pt) c (map (fun a => level_modulus par l * (a mod pa_t par) / pa_t par) m).
Proof.
  intros isp cands Ho par Hp l Hl HtQ pt m (E1 & E2 & E3 & E4) Hm. pose proof (params_good isp cands par Ho Hp) as G. destruct (at_level_ex isp cands par l Ho G Hl) as (lv & c & A).
  rewrite (al_par_context isp cands par l lv c A) in E2. injection E2 as E2. exists c. split; [exact (al_par_context isp cands par l lv c A)|].
  destruct pt as [pp pe p]. cbn [pt_par pt_poly] in *. subst pp c. assert (Lm : length m = pa_degree par) by (rewrite E3; apply (al_deg _ _ _ _ _ _ A)). set (c := p_ctx p) in *. rewrite E4.
  pose proof (to_poly_eq isp cands par G l lv c A pe (p_vt p) m Lm HtQ) as E. unfold returns. rewrite E. eexists. split; [reflexivity|]. split; [reflexivity|].
  assert (Ec : coeffs_of par l m = map (fun a => a mod pa_t par) m). { unfold coeffs_of. apply map_ext_in. intros a Ha. rewrite (decode_base_eq isp cands par l G). rewrite Forall_forall in Hm. rewrite (Z.mod_small a) by (apply Hm, Ha). reflexivity. }
  assert (Lr : length (map (fun a => level_modulus par l * (a mod pa_t par) / pa_t par) m) = c_degree c) by (rewrite map_length; exact E3).
  assert (Ex : map (fun a => prod_list (level_moduli (pa_moduli par) l) * a / pa_t par) (coeffs_of par l m) = map (fun a => level_modulus par l * (a mod pa_t par) / pa_t par) m) by (rewrite Ec, map_map; reflexivity).
  rewrite Ex. split; [split; [exact Lr|reflexivity]|]. apply poly_of_wf; [apply good_ok, (al_good _ _ _ _ _ _ A)|exact Lr].
Qed.

(** ** Vectors of plaintexts *)
Definition slice (n i : nat) (v : list Z) : list Z := firstn n (skipn (i * n) v).
Lemma slice_le n i v : (length (slice n i v) <= n)%nat.
Proof. unfold slice. rewrite firstn_length. lia. Qed.
Lemma Forall_slice (P : Z -> Prop) n i v : Forall P v -> Forall P (slice n i v).
Proof. intros H. unfold slice. apply Forall_firstn. rewrite <- (firstn_skipn (i * n) v) in H. apply Forall_app in H. apply H. Qed.
Lemma skipn_add {A} a b (l : list A) : skipn a (skipn b l) = skipn (b + a) l.
Proof. revert l. induction b as [|b IH]; intros l; [reflexivity|]. destruct l; [rewrite !skipn_nil; reflexivity|]. cbn [skipn Nat.add]. apply IH. Qed.
Lemma concat_slices n k : (0 < n)%nat -> forall v, (length v <= k * n)%nat -> concat (map (fun i => pad n (slice n i v)) (seq 0 k)) = pad (k * n) v.
Proof.
  intros Hn. induction k as [|k IH]; intros v Lv.
  - destruct v; [reflexivity|cbn in Lv; lia].
  - cbn [seq map concat]. rewrite <- seq_shift, map_map.
    assert (E : map (fun i => pad n (slice n (S i) v)) (seq 0 k) = map (fun i => pad n (slice n i (skipn n v))) (seq 0 k)).
    { apply map_ext. intros i. unfold slice. rewrite skipn_add. reflexivity. }
    rewrite E, IH by (rewrite skipn_length; cbn [Nat.mul] in Lv; lia). unfold slice. rewrite Nat.mul_0_l. cbn [skipn]. unfold pad at 1 2. rewrite skipn_length.
    destruct (Nat.le_gt_cases n (length v)) as [H|H].
    + rewrite firstn_length_le by exact H. rewrite Nat.sub_diag. cbn [repeat]. rewrite app_nil_r, app_assoc, firstn_skipn. unfold pad. do 2 f_equal. cbn [Nat.mul]. lia.
    + rewrite firstn_all2 by lia. rewrite skipn_all2 by lia. unfold pad. rewrite <- app_assoc. cbn [app]. rewrite <- repeat_app. do 2 f_equal. cbn [Nat.mul]. lia.
Qed.
Lemma encode_vec_all : forall isp cands, oracles isp cands -> forall par, is_params isp cands par -> forall l, (l <= max_level par)%nat -> pa_t par <= level_modulus par l ->
  forall e v, e_level e = l -> usable par e -> Forall (fun a => 0 <= a < pa_t par) v -> Forall is_u64 v -> forall vt,
  exists pts ws, encode_vec_u64 vt v e par = Val pts /\ length pts = Nat.max ((length v + pa_degree par - 1) / pa_degree par) 1 /\   mapM (fun pt => decode_u64 pt (Some e)) pts = Val ws /\ concat ws = pad (length pts * pa_degree par) v.
Proof.
  intros isp cands Ho par Hp l Hl HtQ e v El Hus Hv Hu vt. pose proof (params_good isp cands par Ho Hp) as G. destruct (at_level_ex isp cands par l Ho G Hl) as (lv & c & A). unfold level_modulus in HtQ. pose proof (al_N8 _ _ _ _ _ _ A) as H8.
  set (N := pa_degree par) in *. set (k := Nat.max ((length v + N - 1) / N) 1).
  assert (Hone : forall i, exists pt, encode_u64 vt (slice N i v) e par = Val pt /\ bind (encode_u64_chunk vt (slice N i v) e par c) (fun p => Val (mkPt par (Some e) p)) = Val pt /\ decode_u64 pt (Some e) = Val (pad N (slice N i v))).
  { intros i. destruct (encode_u64_holds isp cands Ho par G l lv c A vt (slice N i v) e El Hus HtQ (slice_le N i v) (Forall_slice _ N i v Hv) (Forall_slice _ N i v Hu)) as (pt & x & E & (_ & H) & Ept & _).
    exists pt. split; [exact E|]. split.
    - unfold encode_u64, encode_vec_u64 in E. destruct (Nat.ltb_spec (pa_degree par) (length (slice N i v))); [discriminate|]. rewrite (encode_one isp cands par l lv c A _ _ _ (slice_le N i v) El Hus) in E. destruct (encode_u64_chunk vt (slice N i v) e par c); cbn [bind] in E |- *; [|discriminate|discriminate]. exact E.
    - destruct (H (Some e) (or_intror eq_refl)) as (_ & H2 & _). apply H2. apply Forall_pad; [unfold is_u64; lia|apply Forall_slice, Hu]. }
  assert (Hex : exists pts, mapM (fun i => bind (encode_u64_chunk vt (slice N i v) e par c) (fun p => Val (mkPt par (Some e) p))) (seq 0 k) = Val pts /\ length pts = k /\    mapM (fun pt => decode_u64 pt (Some e)) pts = Val (map (fun i => pad N (slice N i v)) (seq 0 k))).
  { clear -Hone. generalize 0%nat as s. induction k as [|k IH]; intros s; [exists []; cbn; auto|]. cbn [seq mapM map]. destruct (Hone s) as (pt & _ & E2 & E3). rewrite E2. cbn [bind]. destruct (IH (S s)) as (pts & F1 & F2 & F3). rewrite F1. cbn [bind]. exists (pt :: pts).
    split; [reflexivity|]. split; [cbn; lia|]. cbn [mapM]. rewrite E3, F3. reflexivity. }
  destruct Hex as (pts & F1 & F2 & F3). exists pts, (map (fun i => pad N (slice N i v)) (seq 0 k)).
  split; [|split; [exact F2|split; [exact F3|]]].
  - unfold encode_vec_u64, encode_with. rewrite El, (al_par_context isp cands par l lv c A). cbn [bind]. fold N. destruct (Nat.eqb_spec N 0); [lia|]. cbn [negb guard bind]. cbv zeta.
    assert (Ek : Nat.max (Z.to_nat (div_ceil (len v) (Z.of_nat N))) 1 = k). { unfold k, div_ceil, len. f_equal. replace (Z.of_nat (length v) + Z.of_nat N - 1) with (Z.of_nat (length v + N - 1)) by lia. rewrite <- Nat2Z.inj_div. apply Nat2Z.id. }
    rewrite Ek. destruct (e_kind e) eqn:Ekind; [exact F1|]. destruct (pa_ntt par) eqn:En; [exact F1|]. exfalso. apply (Hus Ekind En).
  - rewrite F2. apply concat_slices; [lia|]. unfold k. pose proof (Nat.div_mod (length v + N - 1) N ltac:(lia)). pose proof (Nat.mod_upper_bound (length v + N - 1) N ltac:(lia)). nia.
Qed.

(** Parameter sets of degree 8 for the examples *)
Definition primes62 : list Z := [4611686018427387761; 4611686018427387617; 4611686018427387409; 4611686018427387329].
Lemma primes62_ok : forallb (fun q => isp_bfv q && (2 ^ 61 <=? q) && (q <? 2 ^ 62) && (q mod 16 =? 1)) primes62 = true.
Proof. vm_compute. reflexivity. Qed.
Lemma bfv_prime q : 0 <= q -> isp_bfv q = true -> q < 2 ^ 62 -> q mod 16 = 1 -> ntt_prime 8 q.
Proof. intros H0 H1 H2 H3. split; [|split; assumption]. apply (isp_bfv_ok q); [|exact H1]. assert (2 ^ 62 < W64) by reflexivity. unfold is_u64. lia. Qed.
Lemma ex_params t moduli : 2 <= t < 2 ^ 62 -> moduli <> [] -> NoDup moduli -> (length moduli <= 3)%nat ->
  forallb (fun q => (0 <=? q) && (q <? 2 ^ 61) && isp_bfv q && (q mod 16 =? 1) && (Z.gcd t q =? 1)) moduli = true -> t < prod_list moduli ->
  exists par, is_params isp_bfv cands_bfv par /\ pa_moduli par = moduli /\ pa_t par = t /\ pa_degree par = 8%nat.
Proof.
  intros Ht Hne Hnd Hlen Hf Htp. rewrite forallb_forall in Hf. assert (Hm : forall q, In q moduli -> ntt_prime 8 q /\ q < 2 ^ 61 /\ Z.gcd t q = 1).
  { intros q Hq. specialize (Hf q Hq). rewrite !andb_true_iff, Z.leb_le, Z.ltb_lt, !Z.eqb_eq in Hf. destruct Hf as ((((H1 & H2) & H3) & H4) & H5). assert (2 ^ 61 < 2 ^ 62) by reflexivity. split; [apply bfv_prime; (assumption || lia)|]. auto. }
  assert (H62 : forall q, In q primes62 -> ntt_prime 8 q /\ 2 ^ 61 <= q).
  { intros q Hq. pose proof primes62_ok as H. rewrite forallb_forall in H. specialize (H q Hq). rewrite !andb_true_iff, Z.leb_le, Z.ltb_lt, Z.eqb_eq in H. destruct H as (((H1 & H2) & H3) & H4). split; [apply bfv_prime; (assumption || lia)|lia]. }
  destruct (accepts_all isp_bfv cands_bfv oracles_bfv cands_bfv_complete 1 8 t 10 moduli) as (par & E).
  - exists 3. split; [lia|reflexivity].
  - lia.
  - lia.
  - lia.
  - exact Hne.
  - split; [exact Hnd|]. split; [apply Forall_forall; intros q Hq; apply Hm, Hq|]. split; [exact Htp|]. apply Forall_forall. intros q Hq. apply Hm, Hq.
  - exists (firstn (S (length moduli)) primes62). split; [rewrite firstn_length; cbn [length primes62]; lia|]. split.
    + apply NoDup_firstn. repeat constructor; cbn [In]; intuition discriminate.
    + apply Forall_firstn, Forall_forall. intros q Hq. destruct (H62 q Hq) as (H1 & H2). split; [exact H1|]. split; [exact H2|]. intros Hin. destruct (Hm q Hin) as (_ & H & _). lia.
  - assert (Hb : is_builder (mkBuilder 8 t 10 moduli [])).
    { split; [unfold is_u64; cbn; lia|]. split; [cbn [b_plaintext]; lia|]. split; [unfold is_u64; cbn; lia|]. split; [|constructor]. cbn [b_moduli]. apply Forall_forall. intros q Hq. destruct (Hm q Hq) as ((P & H & _) & _). apply prime_ge_2 in P. assert (2 ^ 62 < W64) by reflexivity. unfold is_u64. lia. }
    destruct (built_all isp_bfv cands_bfv oracles_bfv 1 _ par Hb E) as (_ & Ed & _ & (_ & Et) & _ & _ & Em & _). exists par. split; [exists 1; eexists; split; [exact Hb|exact E]|]. split; [apply Em; reflexivity|]. split; [exact Et|]. cbn [b_degree] in Ed. lia.
Qed.
Lemma max_level_eq isp cands par : oracles isp cands -> is_params isp cands par -> max_level par = (length (pa_moduli par) - 1)%nat.
Proof. intros Ho Hp. pose proof (params_good isp cands par Ho Hp) as G. unfold max_level. destruct (gp_levels _ _ _ G) as (_ & _ & -> & _). reflexivity. Qed.
Lemma low_level_exists : exists par, is_params isp_bfv cands_bfv par /\ (1 <= max_level par)%nat /\ level_modulus par 1 < pa_t par.
Proof.
  destruct (ex_params 101 [97; 193]) as (par & Hp & Em & Et & _); [lia|discriminate| |cbn; lia|vm_compute; reflexivity|vm_compute; reflexivity|].
  - constructor; [|constructor; [|constructor]]; cbn; intuition discriminate.
  - exists par. split; [exact Hp|]. rewrite (max_level_eq _ _ par oracles_bfv Hp). unfold level_modulus. rewrite Em, Et. split; [cbn; lia|vm_compute; reflexivity].
Qed.
