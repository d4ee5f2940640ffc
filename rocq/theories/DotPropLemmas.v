(** Closing lemmas for the dot product of ciphertexts and plaintexts. *)
From Verif Require Import Outcome BasicSpec OutcomeLemmas ZqModel ZqProofs NumTheory NttModel PolySpec PolyRing NttPure NttStages NttProofs CbdModel CbdSpec CbdProofs.
From Verif Require Import TranscodeModel RnsModel RnsSpec RnsProofs RqModel RqSpec RqCtx RqRows RqProofs RingRn RqOps RqIO ParamsModel BfvSpec ParamsProofs BuildProofs PrimeCert ExampleParams ParamsPropLemmas PlainModel CipherModel OpsModel SchemeSpec CipherSpec PlainProofs PlainPropLemmas RnPoly CipherProofs EncryptProofs CipherPropLemmas LinearPropLemmas CtDot.
From Coq Require Import Znumtheory.
Set Default Proof Using "Type".

Lemma scalar_N par l c : ctx_ok c -> par_context par l = Val c -> (l + length (c_moduli c))%nat = length (pa_moduli par) -> forall N, c_degree c = N ->
  forall (zs : list (tagged N)) k, pa_degree par = N -> zs <> [] -> (2 <= k)%nat -> Forall (fun z : tagged N => length (fst (snd z)) = k) zs ->
  exists vs, length vs = k /\ dot_product_scalar (map (as_ct par l c) zs) (map (as_pt par c) zs) = Val (mkCt par None (parts c (combine vs (dsum k (map snd zs)))) l).
Proof. intros Hc E1 E2 N <- zs k. apply (scalar_P par l c Hc E1 E2). Qed.

Section Sums.
  Context (N : nat).
  Add Ring RnDP : (Rn_ring N).
  Lemma rphase_dstep s (S : list (Rn N)) (it : item N) : length (fst it) = length S -> rphase s (dstep S it) = (rphase s S + rphase s (map snd (fst it)) * snd (snd it))%R.
  Proof.
    destruct it as (vxs & (w & m)). cbn [fst snd]. revert S. induction vxs as [|(v & x) vxs IH]; intros [|y S] H; try discriminate; [cbn; ring|].
    change (dstep (y :: S) ((v, x) :: vxs, (w, m))) with ((y + x * m)%R :: dstep S (vxs, (w, m))). cbn [map snd]. rewrite !rphase_cons, IH by (cbn in H; lia). ring.
  Qed.
  Lemma rphase_dfold s k (its : list (item N)) : Forall (fun it => length (fst it) = k) its -> forall S, length S = k ->
    rphase s (fold_left dstep its S) = fold_left (fun a it => a + rphase s (map snd (fst it)) * snd (snd it))%R its (rphase s S).
  Proof. induction 1 as [|it its H _ IH]; intros S HS; [reflexivity|]. cbn [fold_left]. rewrite IH by (rewrite dstep_length; congruence). rewrite rphase_dstep by congruence. reflexivity. Qed.
  Lemma rphase_zero s k : rphase s (repeat (r0 N) k) = r0 N.
  Proof. induction k; [reflexivity|]. cbn [repeat]. rewrite rphase_cons, IHk. ring. Qed.
  Definition iterms (its : list (item N)) := map (fun it => (map rl (map snd (fst it)), rl (snd (snd it)))) its.
  Lemma rl_dstep (S : list (Rn N)) it : map rl (dstep S it) = add_parts (map rl S) (map (fun x => negacyclic N x (rl (snd (snd it)))) (map rl (map snd (fst it)))).
  Proof.
    destruct it as (vxs & (w & m)). cbn [fst snd]. revert S. induction vxs as [|(v & x) vxs IH]; intros [|y S]; try reflexivity.
    change (dstep (y :: S) ((v, x) :: vxs, (w, m))) with ((y + x * m)%R :: dstep S (vxs, (w, m))). unfold add_parts in *. cbn [map snd combine]. rewrite IH, rl_add, rl_mul. reflexivity.
  Qed.
  Lemma rl_dsum k (its : list (item N)) : map rl (dsum k its) = dot_parts N k (iterms its).
  Proof.
    unfold dsum, dot_parts. assert (E : repeat (repeat 0 N) k = map rl (repeat (r0 N) k)) by (rewrite map_repeat; reflexivity). rewrite E. generalize (repeat (r0 N) k).
    induction its as [|it its IH]; intros S; [reflexivity|]. cbn [fold_left iterms map fst snd]. rewrite IH, rl_dstep. reflexivity.
  Qed.
  Lemma phase_dsum (s : Rn N) k (its : list (item N)) : Forall (fun it => length (fst it) = k) its ->
    phase N (rl s) (dot_parts N k (iterms its)) = poly_sum N (map (fun z => negacyclic N (phase N (rl s) (fst z)) (snd z)) (iterms its)).
  Proof.
    intros H. rewrite <- rl_dsum, phase_rphase. unfold dsum. rewrite (rphase_dfold s k) by (exact H || apply repeat_length). rewrite rphase_zero. unfold poly_sum.
    change (repeat 0 N) with (rl (r0 N)). generalize (r0 N). clear H. induction its as [|it its IH]; intros a; [reflexivity|]. cbn [fold_left iterms map fst snd]. rewrite IH, phase_rphase, rl_add, rl_mul. reflexivity.
  Qed.
End Sums.

Section Props.
  Context (isp : Z -> bool) (cands : Z -> list Z) (par : params).
  Notation N := (pa_degree par).
  Notation t := (pa_t par).
  Add Ring RnDQ : (Rn_ring N).
  (** The terms of a dot product as ring elements. *)
  Lemma level_count l lv c : good_params isp cands par -> at_level isp cands par l lv c -> (l + length (c_moduli c))%nat = length (pa_moduli par).
  Proof. intros G A. rewrite (al_mod _ _ _ _ _ _ A). unfold level_moduli. rewrite firstn_length. pose proof (al_lt _ _ _ _ _ _ A). lia. Qed.
  Theorem dot_all : oracles isp cands -> is_params isp cands par -> forall l, (l <= max_level par)%nat -> forall k (zs : list (ciphertext * list (list Z) * plaintext * list Z)), zs <> [] -> (2 <= k)%nat ->
    Forall (fun '(ct, xs, pt, m) => is_ct par l ct xs /\ length xs = k /\ is_pt par l pt m) zs ->
    exists ct, dot_product_scalar (map (fun '(ct, _, _, _) => ct) zs) (map (fun '(_, _, pt, _) => pt) zs) = Val ct /\ ct_seed ct = None /\
      is_ct par l ct (dot_parts N k (map (fun '(_, xs, _, m) => (xs, m)) zs)) /\
      forall s, length s = N -> phase N s (dot_parts N k (map (fun '(_, xs, _, m) => (xs, m)) zs)) = poly_sum N (map (fun '(_, xs, _, m) => negacyclic N (phase N s xs) m) zs).
  Proof.
    intros Ho Hp l Hl k zs Hne Hk HF. pose proof (params_good isp cands par Ho Hp) as G. destruct (at_level_ex isp cands par l Ho G Hl) as (lv & c & A).
    assert (exists ts : list (tagged N), map (fun '(ct, _, _, _) => ct) zs = map (as_ct par l c) ts /\ map (fun '(_, _, pt, _) => pt) zs = map (as_pt par c) ts /\ map (fun '(_, xs, _, m) => (xs, m)) zs = iterms N (map snd ts) /\ Forall (fun z : tagged N => length (fst (snd z)) = k) ts) as (ts & E1 & E2 & E3 & HT).
    { clear Hne. induction HF as [|(((ct & xs) & pt) & m) zs (Hct & Hxs & Hpt) HF (ts & E1 & E2 & E3 & HT)]; [exists []; repeat split; constructor|].
      destruct (pt_P isp cands Ho par G l lv c A pt m Hpt) as (mr & Ept & Em). destruct (ct_parts isp cands Ho par G l lv c A ct _ Hct) as (vxs & Ect & Ex).
      exists ((ct_seed ct, pt_enc pt, (vxs, (p_vt (pt_poly pt), mr))) :: ts). cbn [map iterms fst snd]. rewrite E1, E2, E3. split; [f_equal; exact Ect|]. split; [f_equal; exact Ept|]. split; [cbn [map fst snd]; rewrite Ex, Em; reflexivity|].
      constructor; [|exact HT]. cbn [fst snd]. rewrite <- Hxs, <- Ex, !map_length. reflexivity. }
    assert (HT' : Forall (fun it => length (fst it) = k) (map snd ts)) by (apply Forall_forall; intros it Hit; apply in_map_iff in Hit; destruct Hit as (z & <- & Hz); rewrite Forall_forall in HT; apply HT, Hz).
    destruct (scalar_N par l c (good_ok _ (al_good _ _ _ _ _ _ A)) (al_par_context isp cands par l lv c A) (level_count l lv c G A) N (al_deg _ _ _ _ _ _ A) ts k eq_refl) as (vs & Lv & E); [intros ->; destruct zs; [congruence|discriminate]|exact Hk|exact HT|].
    rewrite E1, E2, E, E3. eexists. split; [reflexivity|]. split; [reflexivity|]. split.
    - rewrite <- rl_dsum. pose proof (dsum_length k (map snd ts) HT') as Ld.
      assert (Es : map snd (combine vs (dsum k (map snd ts))) = dsum k (map snd ts)).
      { assert (Ld' : length (dsum k (map snd ts)) = length vs) by congruence. revert Ld'. generalize (dsum k (map snd ts)). clear. induction vs as [|v vs IH]; intros [|x D] H; cbn [length] in H; try lia; try reflexivity. cbn [combine map snd]. f_equal. apply IH. cbn in H. lia. }
      pose proof (parts_ct isp cands Ho par G l lv c A None (combine vs (dsum k (map snd ts)))) as Hp'. rewrite Es in Hp'. exact Hp'.
    - intros s Ls. change s with (rl (mkR s Ls)) at 1. rewrite phase_dsum by exact HT'. rewrite rl_mkR. f_equal. rewrite <- E3, map_map. apply map_ext. intros (((? & ?) & ?) & ?). reflexivity.
  Qed.
  Theorem enc_dot_all : oracles isp cands -> is_params isp cands par -> forall l, (l <= max_level par)%nat -> forall k sk (zs : list (ciphertext * list Z * Z * plaintext * list Z)), is_sk par sk -> zs <> [] ->
    Forall (fun '(ct, m, B, pt, n) => encrypts par sk l ct m B /\ length (ct_c ct) = k /\ is_pt par l pt n) zs ->
    exists ct, dot_product_scalar (map (fun '(ct, _, _, _, _) => ct) zs) (map (fun '(_, _, _, pt, _) => pt) zs) = Val ct /\
      encrypts par sk l ct (poly_sum N (map (fun '(_, m, _, _, n) => negacyclic N m n) zs)) (dot_noise (map (fun '(_, _, B, _, n) => (n, B)) zs)).
  Proof.
    intros Ho Hp l Hl k sk zs Hsk Hne HF. pose proof Hsk as (Esk & Ls & Hi). pose proof (params_good isp cands par Ho Hp) as G. destruct (at_level_ex isp cands par l Ho G Hl) as (lv & c & A). pose proof (gp_t _ _ _ G) as Ht.
    set (Q := level_modulus par l). set (s := mkR (sk_coeffs sk) Ls).
    assert (exists ts : list (tagged N), map (fun '(ct, _, _, _, _) => ct) zs = map (as_ct par l c) ts /\ map (fun '(_, _, _, pt, _) => pt) zs = map (as_pt par c) ts /\ Forall (fun z : tagged N => length (fst (snd z)) = k) ts /\ (zs <> [] -> (2 <= k)%nat) /\
      forall a ma, exists ms es : Rn N, rl ms = fold_left (zipWith Z.add) (map (fun '(_, m, _, _, n) => negacyclic N m n) zs) (rl ma) /\ rnorm es <= rnorm (a - rscaled Q t ma)%R + dot_noise (map (fun '(_, _, B, _, n) => (n, B)) zs) /\
        rcong Q (fold_left (fun a it => a + rphase s (map snd (fst it)) * snd (snd it))%R (map snd ts) a) (rscaled Q t ms + es)%R) as (ts & E1 & E2 & HT & Hk & HE).
    { clear Hne. induction HF as [|((((ct & m) & B) & pt) & n) zs (Hct & Hxs & Hpt) HF (ts & E1 & E2 & HT & Hk & IH)].
      - exists []. split; [reflexivity|]. split; [reflexivity|]. split; [constructor|]. split; [congruence|]. intros a ma. exists ma, (a - rscaled Q t ma)%R. split; [reflexivity|]. split; [cbn [map dot_noise fold_right]; lia|]. cbn [map fold_left]. match goal with |- rcong _ ?u ?w => replace w with u by ring end. apply rcong_refl.
      - destruct (pt_P isp cands Ho par G l lv c A pt n Hpt) as (y & Ept & Em). destruct (encrypts_parts isp cands Ho par G l lv c A sk ct m B Ls Hct) as (vxs & x & e & Ect & L1 & L2 & Ex & (He & He') & Hc). fold s in Hc.
        exists ((ct_seed ct, pt_enc pt, (vxs, (p_vt (pt_poly pt), y))) :: ts). cbn [map]. rewrite E1, E2. split; [f_equal; exact Ect|]. split; [f_equal; exact Ept|]. split; [constructor; [cbn [fst snd]; lia|exact HT]|]. split; [lia|].
        intros a ma. specialize (IH (a + (rscaled Q t x + e) * y)%R (ma + x * y)%R). destruct IH as (ms & es & Ems & Hes & Hcong). exists ms, es. split; [|split].
        + cbn [map fold_left]. rewrite Ems, rl_add, rl_mul, Em, Ex. reflexivity.
        + eapply Z.le_trans; [exact Hes|]. cbn [map dot_noise fold_right fst snd]. rewrite <- Em.
          replace (a + (rscaled Q t x + e) * y - rscaled Q t (ma + x * y))%R with ((a - rscaled Q t ma) + ((rscaled Q t ma + rscaled Q t (x * y) - rscaled Q t (ma + x * y)) + ((rscaled Q t x * y - rscaled Q t (x * y)) + e * y)))%R by ring.
          match goal with |- rnorm (?u + (?v + (?w + ?z)))%R + _ <= _ => pose proof (rnorm_add N u (v + (w + z))%R); pose proof (rnorm_add N v (w + z)%R); pose proof (rnorm_add N w z) end.
          pose proof (rscaled_add Q t ma (x * y)%R ltac:(lia)). pose proof (rscaled_mul Q t x y ltac:(lia)). pose proof (rnorm_mul1' e y). pose proof (rnorm1_nonneg y). rewrite rnorm1_norm1 in *.
          assert (norm1 (rl y) * rnorm e <= norm1 (rl y) * B) by (apply Z.mul_le_mono_nonneg_l; assumption). fold (dot_noise (map (fun '(_, _, B, _, n) => (n, B)) zs)). lia.
        + cbn [map fold_left fst snd]. eapply rcong_trans; [|exact Hcong].
          assert (HQ' : 0 < Q) by apply (HQ isp cands par l lv c Ho G A).
          assert (Hst : rcong Q (a + rphase s (map snd vxs) * y)%R (a + (rscaled Q t x + e) * y)%R) by (apply rcong_add; [apply rcong_refl|]; apply rcong_mul; [exact HQ'|exact Hc|apply rcong_refl]).
          revert Hst. generalize (a + rphase s (map snd vxs) * y)%R (a + (rscaled Q t x + e) * y)%R. generalize (map snd ts). clear. intros its. induction its as [|it its IH]; intros u w H; [exact H|]. cbn [fold_left]. apply IH. apply rcong_add; [exact H|apply rcong_refl]. }
    specialize (Hk Hne).
    assert (HT' : Forall (fun it => length (fst it) = k) (map snd ts)) by (apply Forall_forall; intros it Hit; apply in_map_iff in Hit; destruct Hit as (z & <- & Hz); rewrite Forall_forall in HT; apply HT, Hz).
    destruct (scalar_N par l c (good_ok _ (al_good _ _ _ _ _ _ A)) (al_par_context isp cands par l lv c A) (level_count l lv c G A) N (al_deg _ _ _ _ _ _ A) ts k eq_refl) as (vs & Lv & E); [intros ->; destruct zs; [congruence|discriminate]|exact Hk|exact HT|].
    rewrite E1, E2, E. eexists. split; [reflexivity|]. pose proof (dsum_length k (map snd ts) HT') as Ld.
    assert (Es : map snd (combine vs (dsum k (map snd ts))) = dsum k (map snd ts)).
    { assert (Ld' : length (dsum k (map snd ts)) = length vs) by congruence. revert Ld'. generalize (dsum k (map snd ts)). clear. induction vs as [|v vs IH]; intros [|x D] H; cbn [length] in H; try lia; try reflexivity. cbn [combine map snd]. f_equal. apply IH. cbn in H. lia. }
    destruct (HE (r0 N) (r0 N)) as (ms & es & Ems & Hes & Hcong). unfold poly_sum. change (repeat 0 N) with (rl (r0 N)). rewrite <- Ems.
    apply (parts_encrypts isp cands Ho par G l lv c A) with (e := es) (Hl := Ls).
    - rewrite combine_length. lia.
    - assert (E0 : (r0 N - rscaled Q t (r0 N))%R = r0 N).
      { apply rl_inj. rewrite rl_sub, rl_scaled. change (rl (r0 N)) with (repeat 0 N). unfold scaled. rewrite map_repeat, Z.mul_0_r, Z.div_0_l by lia. clear. induction (N : nat); [reflexivity|]. cbn [repeat zipWith combine map]. unfold zipWith in *. cbn [repeat combine map fst snd]. f_equal. assumption. }
      rewrite E0 in Hes. rewrite rnorm_0 in Hes. lia.
    - rewrite Es. fold s Q. unfold dsum. rewrite (rphase_dfold N s k) by (exact HT' || apply repeat_length). rewrite rphase_zero. exact Hcong.
  Qed.
End Props.

(** Rejected arguments *)
Theorem dot_errors_all : (forall pts, dot_product_scalar [] pts = Err DpEmptyInput) /\ (forall cts, dot_product_scalar cts [] = Err DpEmptyInput) /\
  (forall cts pts, cts <> [] -> pts <> [] -> length cts <> length pts -> dot_product_scalar cts pts = Err (DpOperandCountMismatch (Z.of_nat (length cts)) (Z.of_nat (length pts)))).
Proof.
  split; [reflexivity|]. split; [intros [|]; reflexivity|]. intros [|ct cts] [|pt pts] H1 H2 H; try congruence. unfold dot_product_scalar. destruct (Nat.eqb_spec (length (ct :: cts)) (length (pt :: pts))); [contradiction|]. reflexivity.
Qed.
