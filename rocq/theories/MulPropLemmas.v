(** Closing lemmas for the property about products of ciphertexts. *)
From Verif Require Import Outcome BasicSpec OutcomeLemmas ZqModel ZqProofs NumTheory NttModel PolySpec PolyRing NttPure NttStages NttProofs CbdModel CbdSpec CbdProofs.
From Verif Require Import TranscodeModel RnsModel RnsSpec RnsProofs RqModel RqSpec RqCtx RqRows RqProofs RingRn RqOps RqIO ParamsModel BfvSpec ParamsProofs BuildProofs PrimeCert ExampleParams ParamsPropLemmas PlainModel CipherModel OpsModel SchemeSpec CipherSpec PlainProofs RnPoly CipherProofs EncryptProofs CipherPropLemmas LinearPropLemmas SerialPropLemmas MulProofs.
From Coq Require Import Znumtheory.
Set Default Proof Using "Type".

Lemma sum_fold l a : fold_left Z.add l a = a + sum_of l.
Proof. revert a. induction l as [|x l IH]; intros a; cbn [fold_left sum_of]; [lia|rewrite IH; lia]. Qed.
Lemma extra_count l : Forall (fun q => 2 <= q < W62) l -> Z.of_nat (mul_moduli_count (map nbits l)) = extra_primes l.
Proof.
  intros H. unfold mul_moduli_count, extra_primes, sum_sizes. pose proof (sum_sizes_bound 0%nat l H 0 ltac:(lia)). rewrite Z2Nat.id by (apply Z.div_pos; lia). rewrite sum_fold. f_equal. lia.
Qed.
Lemma Forall2_map_l {A B C} (f : A -> B) (R : B -> C -> Prop) l m : Forall2 (fun x y => R (f x) y) l m <-> Forall2 R (map f l) m.
Proof. split; [induction 1; cbn [map]; constructor; assumption|]. revert m. induction l as [|x l IH]; intros m H; inversion H; subst; constructor; auto. Qed.

Section Level.
  Context (isp : Z -> bool) (cands : Z -> list Z) (Ho : oracles isp cands) (par : params) (G : good_params isp cands par) (l : nat) (lv : level_ctx) (c : ctx) (A : at_level isp cands par l lv c).
  Notation N := (pa_degree par).
  Notation t := (pa_t par).
  Notation qs := (level_moduli (pa_moduli par) l).
  Notation Q := (prod_list qs).
  Add Ring RnMPL : (Rn_ring N).
  Set Default Proof Using "All".
  (** The multiplication basis of a level. *)
  Lemma mul_basis : exists ext, good_ctx (mp_to (lv_mul lv)) /\ c_degree (mp_to (lv_mul lv)) = N /\ c_moduli (mp_to (lv_mul lv)) = qs ++ ext /\ built isp cands (mp_to (lv_mul lv)) /\
    Z.of_nat (length ext) = extra_primes qs /\ (length ext <= length qs + 1)%nat /\ Forall (fun p => 2 ^ 61 <= p < 2 ^ 62) ext /\ Q * 2 ^ 60 <= 2 ^ (62 * Z.of_nat (length ext)) /\
    poly_scaler_new c (mp_to (lv_mul lv)) (mkFactor 1 1 true) = Val (mp_extender (lv_mul lv)) /\
    poly_scaler_new (mp_to (lv_mul lv)) c (mkFactor t Q (t =? Q)) = Val (mp_down (lv_mul lv)).
  Proof.
    pose proof (level_range isp cands Ho par G l lv c A) as R. destruct (al_gl _ _ _ _ _ _ A) as (plain & _ & _ & _ & _ & GL). destruct (gl_mul _ _ _ _ _ _ _ _ GL) as (ext & E1 & _ & E2 & E3). fold qs in E1, E3.
    destruct Ho as (H1 & H2). destruct (context_new_good isp H1 cands H2 _ _ _ E3) as (Hg & Em & Ed). exists ext. split; [exact Hg|]. split; [exact Ed|]. split; [exact Em|]. split; [eexists _, _; exact E3|].
    split; [rewrite E1; apply extra_count, R|]. split; [rewrite E1; apply (mul_count_le N), R|]. split; [eapply Forall_impl; [|exact E2]; cbv beta; intros p (_ & Hp & _); exact Hp|].
    split; [rewrite E1; apply mul_count_room; eapply Forall_impl; [|exact R]; cbv beta; intros; lia|].
    pose proof (gl_extender _ _ _ _ _ _ _ _ GL) as Eu. pose proof (gl_down _ _ _ _ _ _ _ _ GL) as Edn. rewrite (al_ctx _ _ _ _ _ _ A) in Eu, Edn. split; [exact Eu|exact Edn].
  Qed.
  Lemma level_core : supported par -> forall vxs vys : list (bool * Rn N), (1 <= length vxs)%nat -> (1 <= length vys)%nat -> mul_room par l (length vxs) ->
    exists (vxs' vys' vzs vws : list (bool * Rn N)), mapM (poly_scale (mp_extender (lv_mul lv))) (parts c vxs) = Val (parts (mp_to (lv_mul lv)) vxs') /\ mapM (poly_scale (mp_extender (lv_mul lv))) (parts c vys) = Val (parts (mp_to (lv_mul lv)) vys') /\
      mul_parts (mp_to (lv_mul lv)) (parts (mp_to (lv_mul lv)) vxs') (parts (mp_to (lv_mul lv)) vys') = Val (parts (mp_to (lv_mul lv)) vzs) /\ mapM (poly_scale (mp_down (lv_mul lv))) (parts (mp_to (lv_mul lv)) vzs) = Val (parts c vws) /\
      length vxs' = length vxs /\ length vys' = length vys /\ length vws = (length vxs + length vys - 1)%nat /\
      Forall2 (rcong Q) (map snd vxs') (map snd vxs) /\ Forall (fun y => 2 ^ 45 * rnorm y <= Q * (2 ^ 44 + 1)) (map snd vxs') /\
      Forall2 (rcong Q) (map snd vys') (map snd vys) /\ Forall (fun y => 2 ^ 45 * rnorm y <= Q * (2 ^ 44 + 1)) (map snd vys') /\
      forall s, 2 ^ 43 * rnorm (Q *: rphase s (map snd vws) - t *: (rphase s (map snd vxs') * rphase s (map snd vys')))%R <= Q * (2 ^ 42 + 1) * geometric (rnorm1 s) (length vxs + length vys - 1).
  Proof.
    intros Hs vxs vys Hx Hy Hr. destruct (level_supported isp cands Ho par G l lv c A Hs) as (Hs1 & Hs2). destruct mul_basis as (ext & Gt & Ed & Em & Bt & L1 & L2 & Hext & Hroom & Eu & Edn).
    assert (Bc : built isp cands c) by (eexists _, _; exact (al_new _ _ _ _ _ _ A)). pose proof (gp_t _ _ _ G) as Ht.
    apply (core_mul c (mp_to (lv_mul lv)) (good_ok _ (al_good _ _ _ _ _ _ A)) (good_ok _ Gt) N (al_deg _ _ _ _ _ _ A) Ed) with (ext := ext); try assumption; try lia.
    - apply (built_same_ops isp cands); [exact Bc|exact Bt|rewrite Ed; apply (al_deg _ _ _ _ _ _ A)].
    - apply (built_same_ops isp cands); [exact Bt|exact Bc|rewrite Ed; symmetry; apply (al_deg _ _ _ _ _ _ A)].
    - apply (al_mod _ _ _ _ _ _ A).
    - apply (level_range isp cands Ho par G l lv c A).
    - rewrite L1. exact Hr.
  Qed.
  Lemma parts_eqb (vxs vys : list (bool * Rn N)) sa sb : ct_eqb (mkCt par sb (parts c vys) l) (mkCt par sa (parts c vxs) l) = true -> Forall2 (rcong Q) (map snd vxs) (map snd vys).
  Proof.
    intros H. apply ct_eqb_all in H. destruct H as (_ & _ & _ & _ & _ & _ & H). cbn [ct_c] in H. revert vxs H. induction vys as [|(v & y) vys IH]; intros [|(w & x) vxs] H; try (inversion H; fail); [constructor|].
    inversion H as [|? ? ? ? H1 H2]; subst. cbn [map fst snd] in *. constructor; [|apply IH; exact H2]. destruct H1 as (_ & _ & _ & H1 & _). apply P_coeffs_eq in H1.
    apply (P_eq c (good_ok _ (al_good _ _ _ _ _ _ A)) N (al_deg _ _ _ _ _ _ A)) in H1. destruct H1 as (_ & H1). unfold modulus_of in H1. rewrite (al_mod _ _ _ _ _ _ A) in H1. apply rcong_sym. exact H1.
  Qed.
  Lemma ct_mul_P sa sb (vxs vys : list (bool * Rn N)) : supported par -> (1 <= length vxs)%nat -> (1 <= length vys)%nat -> mul_room par l (length vxs) ->
    exists (vws : list (bool * Rn N)) (xs' ys' : list (Rn N)), ct_mul (mkCt par sa (parts c vxs) l) (mkCt par sb (parts c vys) l) = Val (mkCt par None (parts c vws) l) /\ length vws = (length vxs + length vys - 1)%nat /\
      Forall2 (rcong Q) xs' (map snd vxs) /\ Forall (fun y => 2 ^ 45 * rnorm y <= Q * (2 ^ 44 + 1)) xs' /\
      Forall2 (rcong Q) ys' (map snd vys) /\ Forall (fun y => 2 ^ 45 * rnorm y <= Q * (2 ^ 44 + 1)) ys' /\
      forall s, 2 ^ 43 * rnorm (Q *: rphase s (map snd vws) - t *: (rphase s xs' * rphase s ys'))%R <= Q * (2 ^ 42 + 1) * geometric (rnorm1 s) (length vxs + length vys - 1).
  Proof.
    intros Hs Hx Hy Hr. unfold ct_mul. unfold is_empty at 1. cbn [ct_c ct_par ct_level]. rewrite parts_length. replace (length vxs =? 0)%nat with false by (symmetry; apply Nat.eqb_neq; lia).
    rewrite (al_context_level isp cands par l lv c A). destruct (ct_eqb _ _) eqn:Eq; cbn [no_err bind].
    - apply parts_eqb in Eq. destruct (level_core Hs vxs vxs Hx Hx Hr) as (vxs' & vys' & vzs & vws & E1 & E2 & E3 & E4 & L1 & L2 & L3 & C1 & B1 & C2 & B2 & Hd). rewrite E1 in E2. injection E2 as E2. rewrite <- E2 in E3.
      exists vws, (map snd vxs'), (map snd vys'). rewrite E1. cbn [no_err bind]. rewrite E3. cbn [bind]. rewrite E4. cbn [no_err bind]. pose proof (Forall2_len2 _ _ _ Eq) as Le. rewrite !map_length in Le. rewrite <- Le.
      repeat split; auto. clear - C2 Eq. revert Eq. generalize (map snd vys). induction C2 as [|a b u w Hab Hu IH]; intros z Hz; inversion Hz; subst; constructor; [eapply rcong_trans; eassumption|apply IH; assumption].
    - destruct (level_core Hs vxs vys Hx Hy Hr) as (vxs' & vys' & vzs & vws & E1 & E2 & E3 & E4 & L1 & L2 & L3 & C1 & B1 & C2 & B2 & Hd). exists vws, (map snd vxs'), (map snd vys').
      unfold par_same. rewrite Z.eqb_refl, Nat.eqb_refl. cbn [guard bind]. rewrite E1. cbn [no_err bind]. rewrite E2. cbn [no_err bind]. rewrite E3. cbn [bind]. rewrite E4. cbn [no_err bind]. repeat split; auto.
  Qed.
End Level.

Set Default Proof Using "Type".
Section Props.
  Context (isp : Z -> bool) (cands : Z -> list Z) (par : params).
  Notation N := (pa_degree par).
  Notation t := (pa_t par).
  Add Ring RnMPP : (Rn_ring N).
  Lemma lifts_map Q (xs' xs : list (Rn N)) : 0 < Q -> Forall2 (rcong Q) xs' xs -> Forall (fun y => 2 ^ 45 * rnorm y <= Q * (2 ^ 44 + 1)) xs' -> Forall2 (lifts Q) (map rl xs) (map rl xs').
  Proof.
    intros HQ H F. induction H as [|a b u w Hab Hu IH]; cbn [map]; constructor; [|apply IH; exact (Forall_inv_tail F)]. split; [exact Hab|]. pose proof (Forall_inv F) as Ha. cbv beta in Ha.
    assert (H1 : bounded_by (Q * (2 ^ 44 + 1) / 2 ^ 45) (rl a)). { apply rnorm_bounded; [apply Z.div_pos; [apply Z.mul_nonneg_nonneg; lia|lia]|]. apply Z.div_le_lower_bound; [lia|exact Ha]. }
    eapply Forall_impl; [|exact H1]. cbv beta. intros z Hz. pose proof (Z.mul_div_le (Q * (2 ^ 44 + 1)) (2 ^ 45) ltac:(lia)). lia.
  Qed.
  Lemma scale_map k (x : Rn N) : rl (k *: x)%R = map (Z.mul k) (rl x).
  Proof. reflexivity. Qed.
  Theorem mul_all : oracles isp cands -> is_params isp cands par -> supported par -> forall l, (l <= max_level par)%nat -> forall a b xs ys, is_ct par l a xs -> is_ct par l b ys -> xs <> [] -> ys <> [] -> mul_room par l (length xs) ->
    exists ct zs xs' ys', ct_mul a b = Val ct /\ ct_seed ct = None /\ is_ct par l ct zs /\ length zs = (length xs + length ys - 1)%nat /\
      Forall2 (lifts (level_modulus par l)) xs xs' /\ Forall2 (lifts (level_modulus par l)) ys ys' /\
      forall s, length s = N -> Forall (fun a => 2 ^ 43 * Z.abs a <= level_modulus par l * (2 ^ 42 + 1) * geometric (norm1 s) (length zs))
        (zipWith Z.sub (map (Z.mul (level_modulus par l)) (phase N s zs)) (map (Z.mul t) (negacyclic N (phase N s xs') (phase N s ys')))).
  Proof.
    intros Ho Hp Hs l Hl a b xs ys Ha Hb Hx Hy Hr. pose proof (params_good isp cands par Ho Hp) as G. destruct (at_level_ex isp cands par l Ho G Hl) as (lv & c & A). unfold level_modulus in *.
    destruct (ct_parts isp cands Ho par G l lv c A a xs Ha) as (vxs & Ea & <-). destruct (ct_parts isp cands Ho par G l lv c A b ys Hb) as (vys & Eb & <-). rewrite !map_length in Hr.
    assert (L1 : (1 <= length vxs)%nat) by (destruct vxs; [exfalso; apply Hx; reflexivity|cbn [length]; lia]). assert (L2 : (1 <= length vys)%nat) by (destruct vys; [exfalso; apply Hy; reflexivity|cbn [length]; lia]).
    destruct (ct_mul_P isp cands Ho par G l lv c A (ct_seed a) (ct_seed b) vxs vys Hs L1 L2 Hr) as (vws & xs' & ys' & E & L & C1 & B1 & C2 & B2 & Hd). rewrite <- Ea, <- Eb in E. pose proof (Qpos isp cands Ho par G l lv c A) as HQ.
    exists (mkCt par None (parts c vws) l), (map rl (map snd vws)), (map rl xs'), (map rl ys'). split; [exact E|]. split; [reflexivity|]. split; [apply (parts_ct isp cands Ho par G l lv c A)|]. split; [rewrite !map_length; exact L|].
    split; [apply lifts_map; assumption|]. split; [apply lifts_map; assumption|]. intros s Ls. specialize (Hd (mkR s Ls)). rewrite rnorm1_norm1, rl_mkR in Hd. change s with (rl (mkR s Ls)) at 2 3 4. rewrite !phase_rphase, <- rl_mul, <- !scale_map, <- rl_sub, !map_length, L.
    set (z := (_ - _)%R) in *. set (g := geometric _ _) in *. assert (Hg : 0 <= g) by (apply geometric_nonneg; pose proof (rnorm1_nonneg (mkR s Ls)) as H1; rewrite rnorm1_norm1 in H1; exact H1). 
    set (k := prod_list (level_moduli (pa_moduli par) l)) in *. assert (H0 : 0 <= k * (2 ^ 42 + 1) * g) by (apply Z.mul_nonneg_nonneg; [apply Z.mul_nonneg_nonneg; lia|exact Hg]).
    assert (H1 : bounded_by (k * (2 ^ 42 + 1) * g / 2 ^ 43) (rl z)) by (apply rnorm_bounded; [apply Z.div_pos; lia|apply Z.div_le_lower_bound; [lia|exact Hd]]).
    eapply Forall_impl; [|exact H1]. cbv beta. intros w Hw. pose proof (Z.mul_div_le (k * (2 ^ 42 + 1) * g) (2 ^ 43) ltac:(lia)). lia.
  Qed.
  Lemma phase_lift_norm Q s (xs : list (Rn N)) : 0 < Q -> Forall (fun y => 2 ^ 45 * rnorm y <= Q * (2 ^ 44 + 1)) xs -> 2 ^ 45 * rnorm (rphase s xs) <= Q * ((2 ^ 44 + 1) * geometric (rnorm1 s) (length xs)).
  Proof.
    intros HQ H. set (M := Q * (2 ^ 44 + 1) / 2 ^ 45). assert (HM : 0 <= M) by (apply Z.div_pos; [apply Z.mul_nonneg_nonneg; lia|lia]).
    assert (H1 : Forall (fun x => rnorm x <= M) xs) by (eapply Forall_impl; [|exact H]; cbv beta; intros y Hy; apply Z.div_le_lower_bound; [lia|exact Hy]). pose proof (rphase_norm s xs M HM H1) as H2.
    pose proof (geometric_nonneg (rnorm1 s) (length xs) ltac:(apply rnorm1_nonneg)) as Hg. pose proof (Z.mul_div_le (Q * (2 ^ 44 + 1)) (2 ^ 45) ltac:(lia)) as H3. fold M in H3.
    apply Z.le_trans with (2 ^ 45 * M * geometric (rnorm1 s) (length xs)); [lia|]. replace (Q * ((2 ^ 44 + 1) * geometric (rnorm1 s) (length xs))) with (Q * (2 ^ 44 + 1) * geometric (rnorm1 s) (length xs)) by ring. apply Z.mul_le_mono_nonneg_r; [exact Hg|exact H3].
  Qed.
  Theorem enc_mul_all : oracles isp cands -> is_params isp cands par -> supported par -> forall l, (l <= max_level par)%nat -> forall sk a b m1 m2 B1 B2, is_sk par sk -> encrypts par sk l a m1 B1 -> encrypts par sk l b m2 B2 ->
    2 * t * (B1 + 1) <= level_modulus par l -> 2 * t * (B2 + 1) <= level_modulus par l -> mul_room par l (length (ct_c a)) ->
    exists ct, ct_mul a b = Val ct /\ ct_seed ct = None /\ length (ct_c ct) = (length (ct_c a) + length (ct_c b) - 1)%nat /\
      encrypts par sk l ct (negacyclic N m1 m2) (mul_noise N t (level_modulus par l) (norm1 (sk_coeffs sk)) (length (ct_c a)) (length (ct_c b)) B1 B2).
  Proof.
    intros Ho Hp Hs l Hl sk a b m1 m2 B1 B2 (_ & Ls & _) Ha Hb S1 S2 Hr. pose proof (params_good isp cands par Ho Hp) as G. destruct (at_level_ex isp cands par l Ho G Hl) as (lv & c & A). pose proof (gp_t _ _ _ G) as Ht. unfold level_modulus in *.
    destruct (encrypts_parts isp cands Ho par G l lv c A sk a m1 B1 Ls Ha) as (vxs & x & e1 & Ea & L1 & L1' & <- & (He1 & He1') & Hc1). destruct (encrypts_parts isp cands Ho par G l lv c A sk b m2 B2 Ls Hb) as (vys & y & e2 & Eb & L2 & L2' & <- & (He2 & He2') & Hc2).
    rewrite <- L1' in Hr. destruct (ct_mul_P isp cands Ho par G l lv c A (ct_seed a) (ct_seed b) vxs vys Hs ltac:(lia) ltac:(lia) Hr) as (vws & xs' & ys' & E & L & C1 & N1 & C2 & N2 & Hd). rewrite <- Ea, <- Eb in E.
    pose proof (Qpos isp cands Ho par G l lv c A) as HQ. set (Q := prod_list (level_moduli (pa_moduli par) l)) in *. set (s := mkR (sk_coeffs sk) Ls) in *.
    pose proof (rphase_cong Q s _ _ HQ C1) as D1. pose proof (rphase_cong Q s _ _ HQ C2) as D2. pose proof (rcong_trans _ _ _ _ _ D1 Hc1) as F1. pose proof (rcong_trans _ _ _ _ _ D2 Hc2) as F2.
    apply rcong_exists in F1; [|exact HQ]. apply rcong_exists in F2; [|exact HQ]. destruct F1 as (r1 & F1). destruct F2 as (r2 & F2).
    pose proof (phase_lift_norm Q s xs' HQ N1) as M1. pose proof (phase_lift_norm Q s ys' HQ N2) as M2. pose proof (Forall2_len2 _ _ _ C1) as K1. pose proof (Forall2_len2 _ _ _ C2) as K2. rewrite map_length in K1, K2. rewrite K1 in M1. rewrite K2 in M2.
    specialize (Hd s). assert (HS : 0 <= rnorm1 s) by apply rnorm1_nonneg. replace (Q * (2 ^ 42 + 1) * geometric (rnorm1 s) (length vxs + length vys - 1)) with (Q * ((2 ^ 42 + 1) * geometric (rnorm1 s) (length vxs + length vys - 1))) in Hd by ring.
    destruct (product_noise Q t B1 B2 (geometric (rnorm1 s) (length vxs)) (geometric (rnorm1 s) (length vys)) ((2 ^ 42 + 1) * geometric (rnorm1 s) (length vxs + length vys - 1)) (rphase s xs') (rphase s ys') (rphase s (map snd vws)) x y e1 e2 r1 r2) as (e & Ec & En); try assumption; try exact (proj1 Ht); try (apply geometric_nonneg; exact HS).
    { apply Z.mul_nonneg_nonneg; [lia|apply geometric_nonneg; exact HS]. }
    exists (mkCt par None (parts c vws) l). split; [exact E|]. split; [reflexivity|]. split; [cbn [ct_c]; rewrite parts_length, L; congruence|]. rewrite <- rl_mul.
    apply (parts_encrypts isp cands Ho par G l lv c A) with (e := e) (Hl := Ls); [lia| |exact Ec]. unfold mul_noise, mul_factor. rewrite <- L1', <- L2'. change (sk_coeffs sk) with (rl s). rewrite <- rnorm1_norm1. exact En.
  Qed.
  Theorem mul_decrypt_all : oracles isp cands -> is_params isp cands par -> supported par -> decryptable par -> forall l, (l <= max_level par)%nat -> forall sk a b m1 m2 B1 B2, is_sk par sk -> encrypts par sk l a m1 B1 -> encrypts par sk l b m2 B2 ->
    2 * t * (B1 + 1) <= level_modulus par l -> 2 * t * (B2 + 1) <= level_modulus par l -> mul_room par l (length (ct_c a)) ->
    small_noise par l (mul_noise N t (level_modulus par l) (norm1 (sk_coeffs sk)) (length (ct_c a)) (length (ct_c b)) B1 B2) ->
    exists ct pt, ct_mul a b = Val ct /\ sk_decrypt sk ct = Val pt /\ is_pt par l pt (map (fun a => a mod t) (negacyclic N m1 m2)).
  Proof.
    intros Ho Hp Hs Hd l Hl sk a b m1 m2 B1 B2 Hsk Ha Hb S1 S2 Hr Hn. destruct (enc_mul_all Ho Hp Hs l Hl sk a b m1 m2 B1 B2 Hsk Ha Hb S1 S2 Hr) as (ct & E & _ & _ & He).
    destruct (decrypt_all isp cands par Ho Hp l Hl Hs Hd sk ct _ _ Hsk He Hn) as (pt & E1 & E2 & _). exists ct, pt. auto.
  Qed.
  (** Degenerate operands *)
  Theorem mul_mismatch_all : forall a b, ct_c a <> [] -> ct_eqb b a = false -> pa_id (ct_par a) <> pa_id (ct_par b) \/ ct_level a <> ct_level b -> ct_mul a b = Panic.
  Proof.
    intros a b Ha He H. unfold ct_mul, is_empty. rewrite He. destruct (ct_c a) as [|p ps]; [congruence|]. cbn [length Nat.eqb]. unfold par_same. destruct (Z.eqb_spec (pa_id (ct_par a)) (pa_id (ct_par b))); [|reflexivity]. cbn [guard bind].
    destruct (Nat.eqb_spec (ct_level a) (ct_level b)); [|reflexivity]. destruct H; congruence.
  Qed.
  Theorem mul_zero_left_all : forall b, ct_mul (ct_zero par) b = Val (ct_zero par).
  Proof. reflexivity. Qed.
  Theorem mul_zero_right_all : oracles isp cands -> is_params isp cands par -> supported par -> forall a xs, is_ct par 0 a xs -> length xs = 2%nat -> exists ct, ct_mul a (ct_zero par) = Val ct /\ length (ct_c ct) = 1%nat /\
    forall sk, sk_par sk = par -> sk_decrypt sk ct = Err (TooFewPolynomials 1 2).
  Proof.
    intros Ho Hp Hs a xs Ha Hx. pose proof (params_good isp cands par Ho Hp) as G. destruct (at_level_ex isp cands par 0 Ho G ltac:(lia)) as (lv & c & A). destruct (ct_parts isp cands Ho par G 0 lv c A a xs Ha) as (vxs & Ea & <-). rewrite !map_length in Hx.
    destruct (level_supported isp cands Ho par G 0 lv c A Hs) as (Hs1 & Hs2). destruct (mul_basis isp cands Ho par G 0 lv c A) as (ext & Gt & Ed & Em & Bt & L1 & L2 & Hext & Hroom & Eu & Edn).
    assert (Bc : built isp cands c) by (eexists _, _; exact (al_new _ _ _ _ _ _ A)). pose proof (gp_t _ _ _ G) as Ht. pose proof (al_deg _ _ _ _ _ _ A) as Hdeg. set (to := mp_to (lv_mul lv)) in *.
    assert (O1 : same_ops c to) by (apply (built_same_ops isp cands); [exact Bc|exact Bt|congruence]). assert (O2 : same_ops to c) by (apply (built_same_ops isp cands); [exact Bt|exact Bc|congruence]).
    pose proof (level_range isp cands Ho par G 0 lv c A) as R. pose proof (good_ok _ (al_good _ _ _ _ _ _ A)) as Hc. pose proof (good_ok _ Gt) as Ht'.
    destruct (core_up c to Hc Ht' N Hdeg Ed O1 O2 _ ext (al_mod _ _ _ _ _ _ A) Em R Hs1 Hs2 Hext ltac:(lia) Hroom t ltac:(lia)) as (up & Eu' & Hup).
    destruct (core_down c to Hc Ht' N Hdeg Ed O1 O2 _ ext (al_mod _ _ _ _ _ _ A) Em R Hs1 Hs2 Hext ltac:(lia) Hroom t ltac:(lia)) as (dn & Ed' & Hdn). rewrite Eu in Eu'. injection Eu' as <-. rewrite Edn in Ed'. injection Ed' as <-.
    destruct (Hup vxs) as (vys & E1 & E2 & _). destruct (Hdn [(forallb p_vt (parts to vys), r0 N)]) as (vzs & E3 & E4 & _). { constructor; [|constructor]. cbn [snd]. rewrite (rnorm_0 N). rewrite Z.mul_0_r. apply Z.mul_nonneg_nonneg; apply Z.lt_le_incl; [apply (prod_list_pos _ R)|]. apply prod_list_pos. eapply Forall_impl; [|exact Hext]; cbv beta; intros; lia. }
    destruct vzs as [|z [|z' r]]; try discriminate E4. exists (mkCt par None (parts c [z]) 0). split; [|split; [reflexivity|]].
    - rewrite Ea. unfold ct_mul. unfold is_empty at 1. cbn [ct_c ct_par ct_level]. rewrite parts_length, Hx. cbn [Nat.eqb].
      assert (En : ct_eqb (ct_zero par) (mkCt par (ct_seed a) (parts c vxs) 0) = false). { destruct (ct_eqb _ _) eqn:En; [|reflexivity]. apply ct_eqb_all in En. destruct En as (_ & _ & _ & _ & _ & _ & En). cbn [ct_c ct_zero] in En. apply Forall2_len2 in En. rewrite parts_length in En. cbn [length] in En. lia. }
      rewrite En. unfold par_same. cbn [ct_par ct_zero ct_level ct_c]. rewrite Z.eqb_refl. cbn [Nat.eqb guard bind]. rewrite (al_context_level isp cands par 0 lv c A). cbn [no_err bind mapM]. rewrite E1. cbn [no_err bind]. unfold mul_parts at 1. rewrite parts_length, E2, Hx. cbn [length Nat.add Nat.leb guard bind seq list_prod foldM map app Nat.sub repeat forallb].
      rewrite Bool.andb_true_r. fold to. rewrite (P_zero to Ht' N Ed).
      replace (if forallb p_vt (parts to vys) then allow_vt (P Ntt to false (r0 N)) else P Ntt to false (r0 N)) with (P Ntt to (forallb p_vt (parts to vys)) (r0 N)) by (destruct (forallb p_vt (parts to vys)); reflexivity).
      change [P Ntt to (forallb p_vt (parts to vys)) (r0 N)] with (parts to [(forallb p_vt (parts to vys), r0 N)]). cbn [bind]. rewrite E3. reflexivity.
    - intros sk <-. unfold sk_decrypt, ct_validate_for, par_same. cbn [ct_par ct_level]. rewrite Z.eqb_refl. cbn [negb]. rewrite (al_par_context isp cands _ 0 lv c A). reflexivity.
  Qed.
End Props.
