(** The traces of key generation: they are determined by the keys. *)
From Verif Require Import Outcome BasicSpec OutcomeLemmas ZqModel ZqProofs NumTheory NttModel PolySpec PolyRing NttPure NttStages NttProofs CbdModel CbdSpec CbdProofs.
From Verif Require Import TranscodeModel PrimesModel RnsModel RnsSpec RnsProofs RqModel RqSpec RqCtx RqRows RqProofs RingRn RqOps RqIO ParamsModel BfvSpec ParamsProofs BuildProofs PlainModel CipherModel OpsModel SchemeSpec CipherSpec PlainProofs RnPoly CipherProofs EncryptProofs KeysModel KeysSpec KeysProofs KeySwitchProofs ParamsPropLemmas KeyNoiseProofs KeyOpsProofs MbfvModel CipherPropLemmas KeyPropLemmas EvalSpec EvalKeyProofs EvalOpsProofs.
From Verif Require Import LeakModel LeakSpec LeakErase LeakProofs LeakAlike.
Set Default Proof Using "Type".

Lemma bindT_val {A B} (x : T A) l a (f : A -> T B) : x = (l, Val a) -> bindT x f = (l ++ fst (f a), snd (f a)).
Proof. intros ->. reflexivity. Qed.

Section Entries.
  Variables (c : ctx) (Hc : ctx_ok c) (N : nat) (HN : c_degree c = N).
  Definition entry_events (vf : bool) (f : Rn N) (g : Z) (b : Rn N) : list event :=
    (if vf then [Vt VtScalarMul [p_coeffs (P PowerBasis c vf f); [[g]]]] else []) ++ [Vt VtForward [p_coeffs (P PowerBasis c true b)]].
  Lemma t_ksk_entry_P variance (s f : Rn N) vf rng (a : Rn N) g : words rng -> 1 <= variance <= 32 ->
    exists b, t_ksk_entry variance (P Ntt c false s) (P PowerBasis c vf f) rng (P NttShoup c true a) g = (entry_events vf f g b, Val (P NttShoup c true b)).
  Proof using Hc HN.
    intros Hr Hv. set (b := (cbd_rn N variance rng - a * s + (g *: f))%R). exists b. unfold t_ksk_entry. rewrite P_shoup_ntt.
    unfold quiet at 1. unfold bindT at 1. cbn [fst snd app]. rewrite P_disallow.
    rewrite (bindT_val _ [] (P Ntt c false (a * s)%R)) by (unfold t_mul, note; rewrite (P_mul c Hc N HN); reflexivity). cbn [app].
    rewrite (bindT_val _ [] (P PowerBasis c false (a * s)%R)) by (unfold t_ntt_into_pb, note; rewrite (P_ntt_pb c Hc N HN); reflexivity). cbn [app]. rewrite P_ctx.
    rewrite (bindT_val _ [] (P PowerBasis c false (cbd_rn N variance rng))) by (rewrite (surjective_pairing (t_poly_small _ _ _ _)), e_poly_small, (s_poly_small PowerBasis c variance rng : fst _ = []), (P_small c Hc N HN) by assumption; reflexivity). cbn [app].
    rewrite (bindT_val _ [] (P PowerBasis c false (cbd_rn N variance rng - a * s)%R)) by (unfold t_sub, note; rewrite (P_sub c Hc N HN) by discriminate; reflexivity). cbn [app].
    rewrite (bindT_val _ (if vf then [Vt VtScalarMul [p_coeffs (P PowerBasis c vf f); [[g]]]] else []) (P PowerBasis c vf (g *: f)%R)) by (unfold t_scalar_mul, note; rewrite (P_scale c Hc N HN) by discriminate; reflexivity).
    rewrite (bindT_val _ [] (P PowerBasis c false b)) by (unfold t_add, note; rewrite (P_add c Hc N HN) by discriminate; reflexivity). cbn [app].
    rewrite P_allow. unfold t_pb_into_ntt_shoup, note. rewrite (P_pb_shoup c Hc N HN). reflexivity.
  Qed.
  Lemma shoup_inj (b b' : Rn N) : P NttShoup c true b = P NttShoup c true b' -> P PowerBasis c true b = P PowerBasis c true b'.
  Proof using Hc HN.
    intros H. assert (E : P Ntt c true b = P Ntt c true b').
    { assert (X : shoup_into_ntt (P NttShoup c true b) = shoup_into_ntt (P NttShoup c true b')) by (rewrite H; reflexivity). rewrite !P_shoup_ntt in X. congruence. }
    assert (X : ntt_into_pb (P Ntt c true b) = ntt_into_pb (P Ntt c true b')) by (rewrite E; reflexivity). rewrite !(P_ntt_pb c Hc N HN) in X. congruence.
  Qed.
  Lemma entries_trace F variance (s s' f f' : Rn N) vf vf' rngs rngs' : (forall i, words (rngs i)) -> (forall i, words (rngs' i)) -> 1 <= variance <= 32 -> poly_alike (P PowerBasis c vf f) (P PowerBasis c vf' f') ->
    forall L : list (nat * poly NttShoup), Forall (fun ic => exists a : Rn N, snd ic = P NttShoup c true a) L ->
    same_trace_if eq (mapT (fun ic => bindT (quiet (F (fst ic))) (fun g => t_ksk_entry variance (P Ntt c false s) (P PowerBasis c vf f) (rngs (fst ic)) (snd ic) g)) L)
                     (mapT (fun ic => bindT (quiet (F (fst ic))) (fun g => t_ksk_entry variance (P Ntt c false s') (P PowerBasis c vf' f') (rngs' (fst ic)) (snd ic) g)) L).
  Proof using Hc HN.
    intros Hr Hr' Hv Ha L HL. induction HL as [|(i & p) L (a & Ep) HL IH]; intros bs bs' Eb Eb' <-; cbn [mapT] in *; [reflexivity|]. cbn [fst snd] in *. subst p.
    destruct (F i) as [g|e|]; [|discriminate..].
    destruct (t_ksk_entry_P variance s f vf (rngs i) a g (Hr i) Hv) as (b & E). destruct (t_ksk_entry_P variance s' f' vf' (rngs' i) a g (Hr' i) Hv) as (b' & E').
    assert (Q : forall (k : Z -> T (poly NttShoup)), bindT (quiet (Val g)) k = k g) by (intros k; unfold bindT; cbn [quiet fst snd app]; rewrite <- surjective_pairing; reflexivity).
    rewrite Q in *. rewrite (bindT_val _ _ _ _ E) in *. rewrite (bindT_val _ _ _ _ E') in *. cbn [fst snd] in *. vinv. cbn [quiet snd] in *.
    assert (P NttShoup c true b = P NttShoup c true b' /\ v0 = v) as (Eh & ->) by (split; congruence). apply shoup_inj in Eh.
    rewrite (fst_bindT_val _ _ _ E0), (fst_bindT_val _ _ _ E1). cbn [quiet fst]. rewrite !app_nil_r. rewrite (IH v v E0 E1 eq_refl). f_equal. unfold entry_events.
    rewrite Eh. f_equal. destruct Ha as (_ & Hvt & Heq). cbn [p_vt P poly_of] in *. unfold P in Hvt, Heq. cbn [p_vt poly_of] in Hvt, Heq. subst vf'. destruct vf; [|reflexivity]. specialize (Heq eq_refl). unfold P. rewrite Heq. reflexivity.
  Qed.
  Lemma plain_coeffs_P (b : Rn N) : plain_coeffs (P NttShoup c true b) = Val (p_coeffs (P PowerBasis c true b)).
  Proof using Hc HN. unfold plain_coeffs. rewrite P_shoup_ntt. cbn [bind]. rewrite (P_ntt_pb c Hc N HN). reflexivity. Qed.
  Lemma entries_sim F variance (s f : Rn N) rngs : (forall i, words (rngs i)) -> 1 <= variance <= 32 ->
    forall L : list (nat * poly NttShoup), Forall (fun ic => exists a : Rn N, snd ic = P NttShoup c true a) L ->
    forall bs, snd (mapT (fun ic => bindT (quiet (F (fst ic))) (fun g => t_ksk_entry variance (P Ntt c false s) (P PowerBasis c false f) (rngs (fst ic)) (snd ic) g)) L) = Val bs ->
    exists rows, mapM plain_coeffs bs = Val rows /\
      fst (mapT (fun ic => bindT (quiet (F (fst ic))) (fun g => t_ksk_entry variance (P Ntt c false s) (P PowerBasis c false f) (rngs (fst ic)) (snd ic) g)) L) = map (fun r => Vt VtForward [r]) rows.
  Proof using Hc HN.
    intros Hr Hv L HL. induction HL as [|(i & p) L (a & Ep) HL IH]; intros bs Eb; cbn [mapT] in *; [injection Eb as <-; exists []; split; reflexivity|]. cbn [fst snd] in *. subst p.
    destruct (F i) as [g|e|]; [|discriminate..]. destruct (t_ksk_entry_P variance s f false (rngs i) a g (Hr i) Hv) as (b & E).
    assert (Q : forall (k : Z -> T (poly NttShoup)), bindT (quiet (Val g)) k = k g) by (intros k; unfold bindT; cbn [quiet fst snd app]; rewrite <- surjective_pairing; reflexivity).
    rewrite Q in *. rewrite (bindT_val _ _ _ _ E) in *. cbn [fst snd] in *. vinv. cbn [quiet snd] in *. injection Eb as <-. destruct (IH _ E0) as (rows & R1 & R2).
    exists (p_coeffs (P PowerBasis c true b) :: rows). cbn [mapM]. rewrite plain_coeffs_P, R1. cbn [bind]. split; [reflexivity|]. rewrite (fst_bindT_val _ _ _ E0). cbn [quiet fst]. rewrite app_nil_r, R2. reflexivity.
  Qed.
End Entries.

(** ** Composition *)
Lemma tif_bind_same {A B} (R : B -> B -> Prop) (x : T A) f g : (forall a, snd x = Val a -> same_trace_if R (f a) (g a)) -> same_trace_if R (bindT x f) (bindT x g).
Proof.
  intros H b b' E E' HR. apply snd_bindT_val in E, E'. destruct E as (a & Ea & E), E' as (a' & Ea' & E'). assert (a' = a) as -> by congruence.
  rewrite (fst_bindT_val x f a Ea), (fst_bindT_val x g a Ea). f_equal. exact (H a Ea b b' E E' HR).
Qed.
Lemma tif_bind_alike {A A' B B'} (S : A -> A' -> Prop) (R : B -> B' -> Prop) (x : T A) (y : T A') f g : runs_alike S x y ->
  (forall a b, snd x = Val a -> snd y = Val b -> S a b -> same_trace_if R (f a) (g b)) -> same_trace_if R (bindT x f) (bindT y g).
Proof.
  intros Hxy H b b' E E' HR. apply snd_bindT_val in E, E'. destruct E as (a & Ea & E), E' as (a' & Ea' & E'). destruct (Hxy a a' Ea Ea') as (Ht & HS).
  rewrite (fst_bindT_val x f a Ea), (fst_bindT_val y g a' Ea'), Ht. f_equal. exact (H a a' Ea Ea' HS b b' E E' HR).
Qed.
Lemma tif_bind_last {A A' B B'} (S : A -> A' -> Prop) (R : B -> B' -> Prop) (x : T A) (y : T A') (h : A -> M B) (h' : A' -> M B') : same_trace_if S x y ->
  (forall a a' b b', h a = Val b -> h' a' = Val b' -> R b b' -> S a a') -> same_trace_if R (bindT x (fun a => quiet (h a))) (bindT y (fun a => quiet (h' a))).
Proof.
  intros Hxy H b b' E E' HR. apply snd_bindT_val in E, E'. destruct E as (a & Ea & E), E' as (a' & Ea' & E').
  rewrite (fst_bindT_val x _ a Ea), (fst_bindT_val y _ a' Ea'). cbn [quiet fst snd] in *. rewrite !app_nil_r. exact (Hxy a a' Ea Ea' (H a a' b b' E E' HR)).
Qed.
Lemma tif_bind {A A' B B'} (S : A -> A' -> Prop) (R : B -> B' -> Prop) (x : T A) (y : T A') f g : same_trace_if S x y ->
  (forall a a' b b', snd x = Val a -> snd y = Val a' -> snd (f a) = Val b -> snd (g a') = Val b' -> R b b' -> S a a' /\ fst (f a) = fst (g a')) -> same_trace_if R (bindT x f) (bindT y g).
Proof.
  intros Hxy H b b' E E' HR. apply snd_bindT_val in E, E'. destruct E as (a & Ea & E), E' as (a' & Ea' & E').
  destruct (H a a' b b' Ea Ea' E E' HR) as (HS & HF). rewrite (fst_bindT_val x _ a Ea), (fst_bindT_val y _ a' Ea'), HF. f_equal. exact (Hxy a a' Ea Ea' HS).
Qed.
Lemma tif_pair {A B C} (x x' : T A) (y y' : T B) (h : A -> B -> C) : (forall a b a' b', h a b = h a' b' -> a = a' /\ b = b') -> same_trace_if eq x x' -> same_trace_if eq y y' ->
  same_trace_if eq (bindT x (fun a => bindT y (fun b => quiet (Val (h a b))))) (bindT x' (fun a => bindT y' (fun b => quiet (Val (h a b))))).
Proof.
  intros Hh Hx Hy r r' E E' <-. apply snd_bindT_val in E, E'. destruct E as (a & Ea & E), E' as (a' & Ea' & E'). rewrite (fst_bindT_val _ _ _ Ea), (fst_bindT_val _ _ _ Ea').
  apply snd_bindT_val in E, E'. destruct E as (b & Eb & E), E' as (b' & Eb' & E'). rewrite (fst_bindT_val _ _ _ Eb), (fst_bindT_val _ _ _ Eb'). cbn [quiet fst snd] in *.
  destruct (Hh a b a' b') as (<- & <-); [congruence|]. rewrite (Hx a a Ea Ea' eq_refl), (Hy b b Eb Eb' eq_refl). reflexivity.
Qed.
Lemma tif_err {A B} (R : A -> B -> Prop) e y : same_trace_if R (quiet (Err e)) y.
Proof. intros a b H. discriminate. Qed.

Section Two.
  Context (isp : Z -> bool) (cands : Z -> list Z) (par : params) (Ho : oracles isp cands) (Hp : is_params isp cands par).
  Context (expand : expander) (derive : deriver) (Hx : expands_well expand).
  Notation N := (pa_degree par).
  Set Default Proof Using "All".
  Lemma Qt {A B} (m : A) (k : A -> T B) : bindT (quiet (Val m)) k = k m.
  Proof using. unfold bindT; cbn [quiet fst snd app]; rewrite <- surjective_pairing; reflexivity. Qed.
  Lemma pure {A B} (x : T A) (a : A) (k : A -> T B) : fst x = [] -> snd x = Val a -> bindT x k = k a.
  Proof using. intros H1 H2. unfold bindT. rewrite H1, H2. cbn [app]. rewrite <- surjective_pairing. reflexivity. Qed.
  Lemma ksk_trace_seed sk sk' l1 l2 (from from' : poly PowerBasis) f f' sd rngs rngs' : is_sk par sk -> is_sk par sk' -> (l1 <= max_level par)%nat -> (l2 <= max_level par)%nat ->
    is_poly par l2 from f -> is_poly par l2 from' f' -> poly_alike from from' -> (forall i, words (rngs i)) -> (forall i, words (rngs' i)) ->
    same_trace_if eq (t_ksk_new expand derive sk from l1 l2 sd rngs) (t_ksk_new expand derive sk' from' l1 l2 sd rngs').
  Proof.
    intros (Es & Ls & Hi) (Es' & Ls' & Hi') Hl1 Hl2 Hf Hf' Ha Hr Hr'. pose proof (params_good isp cands par Ho Hp) as G. destruct (at_level_ex isp cands par l1 Ho G Hl1) as (lv1 & c1 & A1). destruct (at_level_ex isp cands par l2 Ho G Hl2) as (lv2 & c2 & A2).
    assert (Hc : ctx_ok c2) by exact (good_ok _ (al_good _ _ _ _ _ _ A2)). assert (Hd : c_degree c2 = N) by exact (al_deg _ _ _ _ _ _ A2). pose proof (var_good isp cands par l2 lv2 c2 Ho G A2) as Hv.
    destruct (is_poly_P isp cands Ho par G l2 lv2 c2 A2 from f Hf) as (y & Ey & _). destruct (is_poly_P isp cands Ho par G l2 lv2 c2 A2 from' f' Hf') as (y' & Ey' & _). rewrite Ey, Ey' in Ha |- *. clear Ey Ey' Hf Hf'. revert Ha.
    generalize (p_vt from) as vf, (p_vt from') as vf'. clear from from'. intros vf vf' Ha.
    assert (HL : forall xs : list (Rn N), Forall (fun ic : nat * poly NttShoup => exists a : Rn N, snd ic = P NttShoup c2 true a) (enumerate (shoups c2 (map (pair true) xs)))).
    { intros xs. unfold enumerate. generalize (length (shoups c2 (map (pair true) xs))) as n, 0%nat as i. intros n. revert xs. induction n as [|n IH]; intros xs i; [constructor|]. destruct xs as [|x xs]; [constructor|]. cbn [seq map shoups combine]. constructor; [exists x; reflexivity|apply IH]. }
    assert (HS : runs_alike (fun s s' => s = P Ntt c2 false (mkR (sk_coeffs sk) Ls) /\ s' = P Ntt c2 false (mkR (sk_coeffs sk') Ls')) (t_sk_poly sk c2) (t_sk_poly sk' c2)).
    { apply alike_silent; try apply s_sk_poly. intros a b Ea Eb. rewrite e_sk_poly in Ea, Eb. rewrite (sk_poly_eq isp cands Ho par G l2 lv2 c2 A2 sk Ls Hi) in Ea. rewrite (sk_poly_eq isp cands Ho par G l2 lv2 c2 A2 sk' Ls' Hi') in Eb. split; congruence. }
    unfold t_ksk_new. rewrite Es, Es', (al_par_context isp cands par l2 lv2 c2 A2), (al_par_context isp cands par l1 lv1 c1 A1). cbv zeta. rewrite !Qt. rewrite !P_ctx, !ctx_eqb_refl. cbn [negb].
    assert (M : same_trace_if eq
        (bindT (quiet (generate_c1 expand derive c2 sd (length (c_moduli c1)))) (fun c0 => bindT (t_generate_c0 sk (P PowerBasis c2 vf y) c0 rngs) (fun c3 => quiet (Val (mkKsk par (Some sd) c3 c0 l1 c1 l2 c2 0)))))
        (bindT (quiet (generate_c1 expand derive c2 sd (length (c_moduli c1)))) (fun c0 => bindT (t_generate_c0 sk' (P PowerBasis c2 vf' y') c0 rngs') (fun c3 => quiet (Val (mkKsk par (Some sd) c3 c0 l1 c1 l2 c2 0)))))).
    { destruct (generate_c1_P c2 Hc N Hd expand derive sd (length (c_moduli c1)) Hx) as (xs & _ & Ex). rewrite Ex, !Qt.
      apply (tif_bind_last eq); [|intros; congruence]. unfold t_generate_c0. specialize (HL xs). destruct xs as [|x xs]; [apply tif_err|]. cbn [map shoups] in HL |- *. rewrite P_ctx.
      eapply tif_bind_alike; [exact HS|]. intros s s' _ _ (-> & ->). rewrite Es, Es'. apply tif_bind_same. intros ms _. apply tif_bind_same. intros rns _.
      apply (entries_trace c2 Hc N Hd (fun i => unwrap (get_garner rns i))); auto. }
    destruct (c_moduli c2) as [|q [|q' qs]]; [exact M| |exact M]. clear M.
    apply tif_bind_same. intros lm _. apply tif_bind_same. intros n _.
    destruct (generate_c1_P c2 Hc N Hd expand derive sd (Z.to_nat n) Hx) as (xs & _ & Ex). rewrite Ex, !Qt.
    apply (tif_bind_last eq); [|intros; congruence]. unfold t_generate_c0_decomposition. specialize (HL xs). destruct xs as [|x xs]; [apply tif_err|]. cbn [map shoups] in HL |- *. rewrite P_ctx.
    eapply tif_bind_alike; [exact HS|]. intros s s' _ _ (-> & ->). rewrite Es, Es'.
    pose proof (entries_trace c2 Hc N Hd (fun i => bind (chk 0 64 (Z.of_nat i * (lm / 2))) (fun e => Val (Z.shiftl 1 e))) (pa_variance par) (mkR (sk_coeffs sk) Ls) (mkR (sk_coeffs sk') Ls') y y' vf vf' rngs rngs' Hr Hr' Hv Ha _ HL) as X.
    assert (EX : forall A (s : A -> nat -> Z -> T (poly NttShoup)) (L : list (nat * A)), mapT (fun ic => bindT (quiet (bind (chk 0 64 (Z.of_nat (fst ic) * (lm / 2))) (fun e => Val (Z.shiftl 1 e)))) (fun g => s (snd ic) (fst ic) g)) L = mapT (fun ic => bindT (quiet (chk 0 64 (Z.of_nat (fst ic) * (lm / 2)))) (fun e => s (snd ic) (fst ic) (Z.shiftl 1 e))) L).
    { intros A s L. induction L as [|(i & p) L IH]; cbn [mapT]; [reflexivity|]. rewrite IH. cbn [fst snd]. destruct (chk 0 64 (Z.of_nat i * (lm / 2))); reflexivity. }
    rewrite (EX _ (fun p i g => t_ksk_entry (pa_variance par) (P Ntt c2 false (mkR (sk_coeffs sk) Ls)) (P PowerBasis c2 vf y) (rngs i) p g)) in X.
    rewrite (EX _ (fun p i g => t_ksk_entry (pa_variance par) (P Ntt c2 false (mkR (sk_coeffs sk') Ls')) (P PowerBasis c2 vf' y') (rngs' i) p g)) in X. exact X.
  Qed.
  Theorem ksk_sim sk l1 l2 (from : poly PowerBasis) f sd rngs k : is_sk par sk -> (l1 <= max_level par)%nat -> (l2 <= max_level par)%nat ->
    is_poly par l2 from f -> private from -> (forall i, words (rngs i)) -> snd (t_ksk_new expand derive sk from l1 l2 sd rngs) = Val k -> key_events k (fst (t_ksk_new expand derive sk from l1 l2 sd rngs)).
  Proof.
    intros (Es & Ls & Hi) Hl1 Hl2 Hf Ha Hr. pose proof (params_good isp cands par Ho Hp) as G. destruct (at_level_ex isp cands par l1 Ho G Hl1) as (lv1 & c1 & A1). destruct (at_level_ex isp cands par l2 Ho G Hl2) as (lv2 & c2 & A2).
    assert (Hc : ctx_ok c2) by exact (good_ok _ (al_good _ _ _ _ _ _ A2)). assert (Hd : c_degree c2 = N) by exact (al_deg _ _ _ _ _ _ A2). pose proof (var_good isp cands par l2 lv2 c2 Ho G A2) as Hv.
    destruct (is_poly_P isp cands Ho par G l2 lv2 c2 A2 from f Hf) as (y & Ey & _). rewrite Ey. unfold private in Ha. rewrite Ha. clear Ey Hf Ha.
    assert (HL : forall xs : list (Rn N), Forall (fun ic : nat * poly NttShoup => exists a : Rn N, snd ic = P NttShoup c2 true a) (enumerate (shoups c2 (map (pair true) xs)))).
    { intros xs. unfold enumerate. generalize (length (shoups c2 (map (pair true) xs))) as n, 0%nat as i. intros n. revert xs. induction n as [|n IH]; intros xs i; [constructor|]. destruct xs as [|x xs]; [constructor|]. cbn [seq map shoups combine]. constructor; [exists x; reflexivity|apply IH]. }
    assert (HS : fst (t_sk_poly sk c2) = [] /\ snd (t_sk_poly sk c2) = Val (P Ntt c2 false (mkR (sk_coeffs sk) Ls))) by (split; [apply s_sk_poly|rewrite e_sk_poly; exact (sk_poly_eq isp cands Ho par G l2 lv2 c2 A2 sk Ls Hi)]).
    unfold t_ksk_new. rewrite Es, (al_par_context isp cands par l2 lv2 c2 A2), (al_par_context isp cands par l1 lv1 c1 A1). cbv zeta. rewrite !Qt. rewrite !P_ctx, !ctx_eqb_refl. cbn [negb].
    assert (X : forall (x : T (list (poly NttShoup))) c1' lb, (forall bs, snd x = Val bs -> exists rows, mapM plain_coeffs bs = Val rows /\ fst x = map (fun r => Vt VtForward [r]) rows) ->
      snd (bindT x (fun c0 => quiet (Val (mkKsk par (Some sd) c0 c1' l1 c1 l2 c2 lb)))) = Val k -> key_events k (fst (bindT x (fun c0 => quiet (Val (mkKsk par (Some sd) c0 c1' l1 c1 l2 c2 lb)))))).
    { intros x c1' lb H E. apply snd_bindT_val in E. destruct E as (bs & Ebs & E). rewrite (fst_bindT_val _ _ _ Ebs). cbn [quiet fst snd] in *. injection E as <-. rewrite app_nil_r. exact (H bs Ebs). }
    assert (Y : snd (bindT (quiet (generate_c1 expand derive c2 sd (length (c_moduli c1)))) (fun c0 => bindT (t_generate_c0 sk (P PowerBasis c2 false y) c0 rngs) (fun c3 => quiet (Val (mkKsk par (Some sd) c3 c0 l1 c1 l2 c2 0))))) = Val k ->
      key_events k (fst (bindT (quiet (generate_c1 expand derive c2 sd (length (c_moduli c1)))) (fun c0 => bindT (t_generate_c0 sk (P PowerBasis c2 false y) c0 rngs) (fun c3 => quiet (Val (mkKsk par (Some sd) c3 c0 l1 c1 l2 c2 0))))))).
    { destruct (generate_c1_P c2 Hc N Hd expand derive sd (length (c_moduli c1)) Hx) as (xs & _ & Ex). rewrite Ex, !Qt. apply X. intros bs. unfold t_generate_c0. specialize (HL xs). destruct xs as [|x xs]; [discriminate|]. cbn [map shoups] in HL |- *. rewrite P_ctx.
      rewrite (pure (t_sk_poly sk c2) _ _ (proj1 HS) (proj2 HS)), Es. intros E. apply snd_bindT_val in E. destruct E as (ms & Ems & E). rewrite (fst_bindT_val _ _ _ Ems). apply snd_bindT_val in E. destruct E as (rns & Ern & E). rewrite (fst_bindT_val _ _ _ Ern). cbn [quiet fst app].
      exact (entries_sim c2 Hc N Hd (fun i => unwrap (get_garner rns i)) (pa_variance par) (mkR (sk_coeffs sk) Ls) y rngs Hr Hv _ HL bs E). }
    destruct (c_moduli c2) as [|q [|q' qs]]; [exact Y| |exact Y]. clear Y. intros E.
    apply snd_bindT_val in E. destruct E as (lm & Elm & E). rewrite (fst_bindT_val _ _ _ Elm). apply snd_bindT_val in E. destruct E as (n & En & E). rewrite (fst_bindT_val _ _ _ En). cbn [quiet fst app]. revert E.
    destruct (generate_c1_P c2 Hc N Hd expand derive sd (Z.to_nat n) Hx) as (xs & _ & Ex). rewrite Ex, !Qt. apply X. intros bs. unfold t_generate_c0_decomposition. specialize (HL xs). destruct xs as [|x xs]; [discriminate|]. cbn [map shoups] in HL |- *. rewrite P_ctx.
    rewrite (pure (t_sk_poly sk c2) _ _ (proj1 HS) (proj2 HS)), Es.
    pose proof (entries_sim c2 Hc N Hd (fun i => bind (chk 0 64 (Z.of_nat i * (lm / 2))) (fun e => Val (Z.shiftl 1 e))) (pa_variance par) (mkR (sk_coeffs sk) Ls) y rngs Hr Hv _ HL bs) as W.
    assert (EX : forall A (s : A -> nat -> Z -> T (poly NttShoup)) (L : list (nat * A)), mapT (fun ic => bindT (quiet (bind (chk 0 64 (Z.of_nat (fst ic) * (lm / 2))) (fun e => Val (Z.shiftl 1 e)))) (fun g => s (snd ic) (fst ic) g)) L = mapT (fun ic => bindT (quiet (chk 0 64 (Z.of_nat (fst ic) * (lm / 2)))) (fun e => s (snd ic) (fst ic) (Z.shiftl 1 e))) L).
    { intros A s L. induction L as [|(i & p) L IH]; cbn [mapT]; [reflexivity|]. rewrite IH. cbn [fst snd]. destruct (chk 0 64 (Z.of_nat i * (lm / 2))); reflexivity. }
    rewrite (EX _ (fun p i g => t_ksk_entry (pa_variance par) (P Ntt c2 false (mkR (sk_coeffs sk) Ls)) (P PowerBasis c2 false y) (rngs i) p g)) in W. exact W.
  Qed.
  Theorem ksk_trace sk sk' l1 l2 (from from' : poly PowerBasis) f f' sd sd' rngs rngs' : is_sk par sk -> is_sk par sk' -> (l1 <= max_level par)%nat -> (l2 <= max_level par)%nat ->
    is_poly par l2 from f -> is_poly par l2 from' f' -> poly_alike from from' -> (forall i, words (rngs i)) -> (forall i, words (rngs' i)) ->
    same_trace_if eq (t_ksk_new expand derive sk from l1 l2 sd rngs) (t_ksk_new expand derive sk' from' l1 l2 sd' rngs').
  Proof.
    intros Hs Hs' Hl1 Hl2 Hf Hf' Ha Hr Hr' k k' E E' <-.
    assert (H : forall sk from sd rngs, snd (t_ksk_new expand derive sk from l1 l2 sd rngs) = Val k -> k_seed k = Some sd).
    { clear. intros sk from sd rngs E. rewrite e_ksk_new in E. unfold ksk_new in E. vinv. destruct (c_moduli v) as [|? [|? ?]]; vinv; injection E as <-; reflexivity. }
    pose proof (H _ _ _ _ E) as H1. pose proof (H _ _ _ _ E') as H2. assert (sd' = sd) as -> by congruence.
    exact (ksk_trace_seed sk sk' l1 l2 from from' f f' sd rngs rngs' Hs Hs' Hl1 Hl2 Hf Hf' Ha Hr Hr' k k E E' eq_refl).
  Qed.
  Theorem relin_trace sk sk' l1 l2 sd sd' rngs rngs' : is_sk par sk -> is_sk par sk' -> (l1 <= max_level par)%nat -> (l2 <= l1)%nat -> (forall i, words (rngs i)) -> (forall i, words (rngs' i)) ->
    same_trace_if eq (t_relin_new expand derive sk l1 l2 sd rngs) (t_relin_new expand derive sk' l1 l2 sd' rngs').
  Proof.
    intros Hs Hs' Hl1 Hle Hr Hr'. pose proof Hs as (Es & Ls & Hi). pose proof Hs' as (Es' & Ls' & Hi'). pose proof (params_good isp cands par Ho Hp) as G. assert (Hl2 : (l2 <= max_level par)%nat) by lia. destruct (at_level_ex isp cands par l1 Ho G Hl1) as (lv1 & c1 & A1). destruct (at_level_ex isp cands par l2 Ho G Hl2) as (lv2 & c2 & A2).
    assert (Hc : ctx_ok c1) by exact (good_ok _ (al_good _ _ _ _ _ _ A1)). assert (Hd : c_degree c1 = N) by exact (al_deg _ _ _ _ _ _ A1).
    destruct (switch_up isp cands Ho par G l1 lv1 c1 A1 l2 lv2 c2 A2 Hle) as (sw & Ew & Hw).
    unfold t_relin_new. rewrite Es, Es', (al_par_context isp cands par l2 lv2 c2 A2), (al_par_context isp cands par l1 lv1 c1 A1), !Qt. destruct (Nat.eqb _ 1); [apply tif_err|].
    rewrite (pure (t_sk_poly sk c1) (P Ntt c1 false (mkR (sk_coeffs sk) Ls))) by first [apply s_sk_poly|rewrite e_sk_poly; exact (sk_poly_eq isp cands Ho par G l1 lv1 c1 A1 sk Ls Hi)].
    rewrite (pure (t_sk_poly sk' c1) (P Ntt c1 false (mkR (sk_coeffs sk') Ls'))) by first [apply s_sk_poly|rewrite e_sk_poly; exact (sk_poly_eq isp cands Ho par G l1 lv1 c1 A1 sk' Ls' Hi')].
    generalize (mkR (sk_coeffs sk) Ls) as s, (mkR (sk_coeffs sk') Ls') as s'. intros s s'.
    assert (M : forall s : Rn N, snd (t_mul (P Ntt c1 false s) (P Ntt c1 false s)) = Val (P Ntt c1 false (s * s)%R)) by (intros; apply (P_mul c1 Hc N Hd)).
    assert (B : forall s : Rn N, snd (t_ntt_into_pb (P Ntt c1 false s)) = Val (P PowerBasis c1 false s)) by (intros; apply (P_ntt_pb c1 Hc N Hd)).
    rewrite (pure (t_mul (P Ntt c1 false s) (P Ntt c1 false s)) _ _ eq_refl (M s)), (pure (t_mul (P Ntt c1 false s') (P Ntt c1 false s')) _ _ eq_refl (M s')).
    rewrite (pure (t_ntt_into_pb (P Ntt c1 false (s * s)%R)) _ _ eq_refl (B (s * s)%R)), (pure (t_ntt_into_pb (P Ntt c1 false (s' * s')%R)) _ _ eq_refl (B (s' * s')%R)), Ew, !Qt.
    rewrite (pure (@t_scale PowerBasis sw (P PowerBasis c1 false (s * s)%R)) _ _ eq_refl (Hw false (s * s)%R)), (pure (@t_scale PowerBasis sw (P PowerBasis c1 false (s' * s')%R)) _ _ eq_refl (Hw false (s' * s')%R)).
    eapply ksk_trace; try eassumption; try apply (P_is_poly isp cands Ho par G l2 lv2 c2 A2). apply pal_private; reflexivity.
  Qed.
  Theorem galois_trace sk sk' l1 l2 e sd sd' rngs rngs' : is_sk par sk -> is_sk par sk' -> (l1 <= max_level par)%nat -> (l2 <= l1)%nat -> 0 <= e -> Z.odd e = true -> (forall i, words (rngs i)) -> (forall i, words (rngs' i)) ->
    same_trace_if eq (t_galois_new expand derive sk e l1 l2 sd rngs) (t_galois_new expand derive sk' e l1 l2 sd' rngs').
  Proof.
    intros Hs Hs' Hl1 Hle He Hodd Hr Hr'. pose proof Hs as (Es & Ls & Hi). pose proof Hs' as (Es' & Ls' & Hi'). pose proof (params_good isp cands par Ho Hp) as G. assert (Hl2 : (l2 <= max_level par)%nat) by lia. destruct (at_level_ex isp cands par l1 Ho G Hl1) as (lv1 & c1 & A1). destruct (at_level_ex isp cands par l2 Ho G Hl2) as (lv2 & c2 & A2).
    assert (Hc : ctx_ok c1) by exact (good_ok _ (al_good _ _ _ _ _ _ A1)). assert (Hd : c_degree c1 = N) by exact (al_deg _ _ _ _ _ _ A1).
    destruct (subst_new_ok c1 e Hc ltac:(rewrite Hd; exact (N31 isp cands Ho par G)) He Hodd) as (i & Ei & _ & Hix). rewrite Hd in Hix.
    destruct (switch_up isp cands Ho par G l1 lv1 c1 A1 l2 lv2 c2 A2 Hle) as (sw & Ew & Hw).
    unfold t_galois_new. rewrite Es, Es', (al_par_context isp cands par l2 lv2 c2 A2), (al_par_context isp cands par l1 lv1 c1 A1), !Qt, Ei, !Qt, Ew, !Qt.
    rewrite (pure (t_pb_from_i64 c1 (sk_coeffs sk) false) _ _ eq_refl (P_from_i64 c1 Hc N Hd (sk_coeffs sk) false Ls Hi)), (pure (t_pb_from_i64 c1 (sk_coeffs sk') false) _ _ eq_refl (P_from_i64 c1 Hc N Hd (sk_coeffs sk') false Ls' Hi')).
    rewrite !(P_subst c1 Hc N Hd) with (e := e mod (2 * Z.of_nat N)) by (exact Hix || exact (N31 isp cands Ho par G)). rewrite !Qt.
    rewrite (pure (@t_scale PowerBasis sw (P PowerBasis c1 false (raut (Z.to_nat (e mod (2 * Z.of_nat N))) (mkR (sk_coeffs sk) Ls)))) _ _ eq_refl (Hw false _)), (pure (@t_scale PowerBasis sw (P PowerBasis c1 false (raut (Z.to_nat (e mod (2 * Z.of_nat N))) (mkR (sk_coeffs sk') Ls')))) _ _ eq_refl (Hw false _)).
    apply (tif_bind_last eq); [|intros; congruence].
    eapply ksk_trace; try eassumption; try apply (P_is_poly isp cands Ho par G l2 lv2 c2 A2). apply pal_private; reflexivity.
  Qed.
  Theorem relin_sim sk l1 l2 sd rngs k : is_sk par sk -> (l1 <= max_level par)%nat -> (l2 <= l1)%nat -> (forall i, words (rngs i)) ->
    snd (t_relin_new expand derive sk l1 l2 sd rngs) = Val k -> key_events k (fst (t_relin_new expand derive sk l1 l2 sd rngs)).
  Proof.
    intros Hs Hl1 Hle Hr. pose proof Hs as (Es & Ls & Hi). pose proof (params_good isp cands par Ho Hp) as G. assert (Hl2 : (l2 <= max_level par)%nat) by lia. destruct (at_level_ex isp cands par l1 Ho G Hl1) as (lv1 & c1 & A1). destruct (at_level_ex isp cands par l2 Ho G Hl2) as (lv2 & c2 & A2).
    assert (Hc : ctx_ok c1) by exact (good_ok _ (al_good _ _ _ _ _ _ A1)). assert (Hd : c_degree c1 = N) by exact (al_deg _ _ _ _ _ _ A1).
    destruct (switch_up isp cands Ho par G l1 lv1 c1 A1 l2 lv2 c2 A2 Hle) as (sw & Ew & Hw).
    unfold t_relin_new. rewrite Es, (al_par_context isp cands par l2 lv2 c2 A2), (al_par_context isp cands par l1 lv1 c1 A1), !Qt. destruct (Nat.eqb _ 1); [discriminate|].
    rewrite (pure (t_sk_poly sk c1) (P Ntt c1 false (mkR (sk_coeffs sk) Ls))) by first [apply s_sk_poly|rewrite e_sk_poly; exact (sk_poly_eq isp cands Ho par G l1 lv1 c1 A1 sk Ls Hi)].
    generalize (mkR (sk_coeffs sk) Ls) as s. intros s.
    rewrite (pure (t_mul (P Ntt c1 false s) (P Ntt c1 false s)) _ _ eq_refl (P_mul c1 Hc N Hd false false s s : snd (t_mul (P Ntt c1 false s) (P Ntt c1 false s)) = _)). cbn [andb].
    rewrite (pure (t_ntt_into_pb (P Ntt c1 false (s * s)%R)) _ _ eq_refl (P_ntt_pb c1 Hc N Hd _ _)), Ew, !Qt.
    rewrite (pure (@t_scale PowerBasis sw (P PowerBasis c1 false (s * s)%R)) _ _ eq_refl (Hw false (s * s)%R)).
    eapply ksk_sim; try eassumption; [apply (P_is_poly isp cands Ho par G l2 lv2 c2 A2)|reflexivity].
  Qed.
  Theorem galois_sim sk l1 l2 e sd rngs g : is_sk par sk -> (l1 <= max_level par)%nat -> (l2 <= l1)%nat -> 0 <= e -> Z.odd e = true -> (forall i, words (rngs i)) ->
    snd (t_galois_new expand derive sk e l1 l2 sd rngs) = Val g -> key_events (g_ksk g) (fst (t_galois_new expand derive sk e l1 l2 sd rngs)).
  Proof.
    intros Hs Hl1 Hle He Hodd Hr. pose proof Hs as (Es & Ls & Hi). pose proof (params_good isp cands par Ho Hp) as G. assert (Hl2 : (l2 <= max_level par)%nat) by lia. destruct (at_level_ex isp cands par l1 Ho G Hl1) as (lv1 & c1 & A1). destruct (at_level_ex isp cands par l2 Ho G Hl2) as (lv2 & c2 & A2).
    assert (Hc : ctx_ok c1) by exact (good_ok _ (al_good _ _ _ _ _ _ A1)). assert (Hd : c_degree c1 = N) by exact (al_deg _ _ _ _ _ _ A1).
    destruct (subst_new_ok c1 e Hc ltac:(rewrite Hd; exact (N31 isp cands Ho par G)) He Hodd) as (i & Ei & _ & Hix). rewrite Hd in Hix.
    destruct (switch_up isp cands Ho par G l1 lv1 c1 A1 l2 lv2 c2 A2 Hle) as (sw & Ew & Hw).
    unfold t_galois_new. rewrite Es, (al_par_context isp cands par l2 lv2 c2 A2), (al_par_context isp cands par l1 lv1 c1 A1), !Qt, Ei, !Qt, Ew, !Qt.
    rewrite (pure (t_pb_from_i64 c1 (sk_coeffs sk) false) _ _ eq_refl (P_from_i64 c1 Hc N Hd (sk_coeffs sk) false Ls Hi)).
    rewrite !(P_subst c1 Hc N Hd) with (e := e mod (2 * Z.of_nat N)) by (exact Hix || exact (N31 isp cands Ho par G)). rewrite !Qt.
    rewrite (pure (@t_scale PowerBasis sw (P PowerBasis c1 false (raut (Z.to_nat (e mod (2 * Z.of_nat N))) (mkR (sk_coeffs sk) Ls)))) _ _ eq_refl (Hw false _)).
    intros E. apply snd_bindT_val in E. destruct E as (k & Ek & E). rewrite (fst_bindT_val _ _ _ Ek). cbn [quiet fst snd] in *. injection E as <-. rewrite app_nil_r. cbn [g_ksk].
    eapply ksk_sim; try eassumption; [apply (P_is_poly isp cands Ho par G l2 lv2 c2 A2)|reflexivity].
  Qed.
  Lemma ek_fold (F : Z -> T galois_key) : forall idx m gk, snd (foldT (fun m e => bindT (F e) (fun g => quiet (Val (insert m e g)))) idx m) = Val gk ->
    fst (foldT (fun m e => bindT (F e) (fun g => quiet (Val (insert m e g)))) idx m) = flat_map (fun e => fst (F e)) idx /\
    (forall e, ~ In e idx -> lookup gk e = lookup m e) /\ (forall e, In e idx -> exists g, snd (F e) = Val g /\ lookup gk e = Some g).
  Proof using.
    induction idx as [|e idx IH]; intros m gk E; cbn [foldT flat_map] in *.
    - injection E as <-. split; [reflexivity|]. split; [reflexivity|]. intros e [].
    - apply snd_bindT_val in E. destruct E as (m1 & E1 & E). rewrite (fst_bindT_val _ _ _ E1). apply snd_bindT_val in E1. destruct E1 as (g & Eg & Em). rewrite (fst_bindT_val _ _ _ Eg). cbn [quiet fst snd] in *. injection Em as <-.
      destruct (IH _ _ E) as (H1 & H2 & H3). rewrite H1, app_nil_r. split; [reflexivity|]. split.
      + intros x Hin. rewrite H2 by (intros X; apply Hin; right; exact X). rewrite lookup_insert. destruct (Z.eqb_spec e x) as [->|]; [exfalso; apply Hin; left; reflexivity|reflexivity].
      + intros x Hi. destruct (in_dec Z.eq_dec x idx) as [Hin|Hin]; [exact (H3 x Hin)|]. destruct Hi as [<-|Hi]; [|contradiction]. exists g. split; [exact Eg|]. rewrite (H2 e Hin), lookup_insert, Z.eqb_refl. reflexivity.
  Qed.
  Theorem rgsw_trace sk sk' l pt pt' m m' sd0 sd1 sd0' sd1' rngs0 rngs1 rngs0' rngs1' : is_sk par sk -> is_sk par sk' -> (l <= max_level par)%nat -> is_pt par l pt m -> is_pt par l pt' m' -> pt_alike pt pt' ->
    (forall i, words (rngs0 i)) -> (forall i, words (rngs1 i)) -> (forall i, words (rngs0' i)) -> (forall i, words (rngs1' i)) ->
    same_trace_if eq (t_rgsw_encrypt expand derive sk pt sd0 sd1 rngs0 rngs1) (t_rgsw_encrypt expand derive sk' pt' sd0' sd1' rngs0' rngs1').
  Proof.
    intros Hs Hs' Hll Hpt Hpt' Ha Hr0 Hr1 Hr0' Hr1'. pose proof Hs as (Es & Ls & Hi). pose proof Hs' as (Es' & Ls' & Hi'). pose proof (params_good isp cands par Ho Hp) as G. destruct (at_level_ex isp cands par l Ho G Hll) as (lv & c & A).
    assert (Hc : ctx_ok c) by exact (good_ok _ (al_good _ _ _ _ _ _ A)). assert (Hd : c_degree c = N) by exact (al_deg _ _ _ _ _ _ A).
    destruct (pt_P isp cands Ho par G l lv c A pt m Hpt) as (mr & Ept & _). destruct (pt_P isp cands Ho par G l lv c A pt' m' Hpt') as (mr' & Ept' & _). rewrite Ept, Ept' in Ha |- *. clear Ept Ept'. revert Ha.
    generalize (p_vt (pt_poly pt)) as v, (p_vt (pt_poly pt')) as v', (pt_enc pt) as pe, (pt_enc pt') as pe'. intros v v' pe pe' Ha.
    destruct Ha as (_ & Ha). cbn [pt_poly] in Ha.
    assert (V1 : forall e v (x : Rn N), pt_validate_for (mkPt par e (P Ntt c v x)) par = Val tt) by (intros; apply (pt_validate_eq isp cands par l lv c A)).
    assert (V2 : forall e v (x : Rn N), pt_level (mkPt par e (P Ntt c v x)) = Val l) by (intros; apply (pt_level_eq isp cands par l lv c A)).
    unfold t_rgsw_encrypt. rewrite Es, Es', !V1, !Qt, !V2, !Qt, (al_par_context isp cands par l lv c A), !Qt. cbn [pt_poly].
    eapply tif_bind_alike; [apply a_ntt_into_pb; exact Ha|]. intros q q' Eq Eq' Hq.
    assert (B : forall v (s : Rn N), snd (t_ntt_into_pb (P Ntt c v s)) = Val (P PowerBasis c v s)) by (intros; apply (P_ntt_pb c Hc N Hd)).
    rewrite B in Eq, Eq'. assert (q = P PowerBasis c v mr /\ q' = P PowerBasis c v' mr') as (-> & ->) by (split; congruence).
    rewrite (pure (t_sk_poly sk c) (P Ntt c false (mkR (sk_coeffs sk) Ls))) by first [apply s_sk_poly|rewrite e_sk_poly; exact (sk_poly_eq isp cands Ho par G l lv c A sk Ls Hi)].
    rewrite (pure (t_sk_poly sk' c) (P Ntt c false (mkR (sk_coeffs sk') Ls'))) by first [apply s_sk_poly|rewrite e_sk_poly; exact (sk_poly_eq isp cands Ho par G l lv c A sk' Ls' Hi')].
    generalize (mkR (sk_coeffs sk) Ls) as s, (mkR (sk_coeffs sk') Ls') as s'. intros s s'.
    assert (M : forall (s m : Rn N) v, snd (t_mul (P Ntt c false s) (P Ntt c v m)) = Val (P Ntt c false (s * m)%R)) by (intros; apply (P_mul c Hc N Hd)).
    rewrite (pure (t_mul (P Ntt c false s) (P Ntt c v mr)) _ _ eq_refl (M s mr v)), (pure (t_mul (P Ntt c false s') (P Ntt c v' mr')) _ _ eq_refl (M s' mr' v')).
    rewrite (pure (t_ntt_into_pb (P Ntt c false (s * mr)%R)) _ _ eq_refl (B false (s * mr)%R)), (pure (t_ntt_into_pb (P Ntt c false (s' * mr')%R)) _ _ eq_refl (B false (s' * mr')%R)).
    pose proof (P_is_poly isp cands Ho par G l lv c A) as HP.
    apply tif_pair; [intros; split; congruence| |].
    - eapply (ksk_trace sk sk' l l); [exact Hs|exact Hs'|exact Hll|exact Hll|apply HP|apply HP|exact Hq|exact Hr0|exact Hr0'].
    - eapply (ksk_trace sk sk' l l); [exact Hs|exact Hs'|exact Hll|exact Hll|apply HP|apply HP|apply pal_private; reflexivity|exact Hr1|exact Hr1'].
  Qed.
  Theorem rgsw_sim sk l pt m sd0 sd1 rngs0 rngs1 r : is_sk par sk -> (l <= max_level par)%nat -> is_pt par l pt m -> private (pt_poly pt) -> (forall i, words (rngs0 i)) -> (forall i, words (rngs1 i)) ->
    snd (t_rgsw_encrypt expand derive sk pt sd0 sd1 rngs0 rngs1) = Val r -> exists t0 t1, key_events (r_ksk0 r) t0 /\ key_events (r_ksk1 r) t1 /\ fst (t_rgsw_encrypt expand derive sk pt sd0 sd1 rngs0 rngs1) = t0 ++ t1.
  Proof.
    intros Hs Hll Hpt Ha Hr0 Hr1. pose proof Hs as (Es & Ls & Hi). pose proof (params_good isp cands par Ho Hp) as G. destruct (at_level_ex isp cands par l Ho G Hll) as (lv & c & A).
    assert (Hc : ctx_ok c) by exact (good_ok _ (al_good _ _ _ _ _ _ A)). assert (Hd : c_degree c = N) by exact (al_deg _ _ _ _ _ _ A).
    destruct (pt_P isp cands Ho par G l lv c A pt m Hpt) as (mr & Ept & _). unfold private in Ha. rewrite Ept, Ha. clear Ept Ha. generalize (pt_enc pt) as pe. intros pe.
    assert (V1 : forall e v (x : Rn N), pt_validate_for (mkPt par e (P Ntt c v x)) par = Val tt) by (intros; apply (pt_validate_eq isp cands par l lv c A)).
    assert (V2 : forall e v (x : Rn N), pt_level (mkPt par e (P Ntt c v x)) = Val l) by (intros; apply (pt_level_eq isp cands par l lv c A)).
    unfold t_rgsw_encrypt. rewrite Es, !V1, !Qt, !V2, !Qt, (al_par_context isp cands par l lv c A), !Qt. cbn [pt_poly].
    assert (B : forall v (s : Rn N), snd (t_ntt_into_pb (P Ntt c v s)) = Val (P PowerBasis c v s)) by (intros; apply (P_ntt_pb c Hc N Hd)).
    rewrite (pure (t_ntt_into_pb (P Ntt c false mr)) _ _ eq_refl (B false mr)).
    rewrite (pure (t_sk_poly sk c) (P Ntt c false (mkR (sk_coeffs sk) Ls))) by first [apply s_sk_poly|rewrite e_sk_poly; exact (sk_poly_eq isp cands Ho par G l lv c A sk Ls Hi)].
    generalize (mkR (sk_coeffs sk) Ls) as s. intros s.
    assert (M : forall (s m : Rn N) v, snd (t_mul (P Ntt c false s) (P Ntt c v m)) = Val (P Ntt c false (s * m)%R)) by (intros; apply (P_mul c Hc N Hd)).
    rewrite (pure (t_mul (P Ntt c false s) (P Ntt c false mr)) _ _ eq_refl (M s mr false)), (pure (t_ntt_into_pb (P Ntt c false (s * mr)%R)) _ _ eq_refl (B false (s * mr)%R)).
    pose proof (P_is_poly isp cands Ho par G l lv c A) as HP. clear M B V1 V2.
    assert (K0 : forall k, snd (t_ksk_new expand derive sk (P PowerBasis c false mr) l l sd0 rngs0) = Val k -> key_events k (fst (t_ksk_new expand derive sk (P PowerBasis c false mr) l l sd0 rngs0))) by (intros k; apply (ksk_sim sk l l _ _ sd0 rngs0 k Hs Hll Hll (HP _ _ _) eq_refl Hr0)).
    assert (K1 : forall k, snd (t_ksk_new expand derive sk (P PowerBasis c false (s * mr)%R) l l sd1 rngs1) = Val k -> key_events k (fst (t_ksk_new expand derive sk (P PowerBasis c false (s * mr)%R) l l sd1 rngs1))) by (intros k; apply (ksk_sim sk l l _ _ sd1 rngs1 k Hs Hll Hll (HP _ _ _) eq_refl Hr1)).
    revert K0 K1. generalize (t_ksk_new expand derive sk (P PowerBasis c false mr) l l sd0 rngs0) as x, (t_ksk_new expand derive sk (P PowerBasis c false (s * mr)%R) l l sd1 rngs1) as y. intros x y K0 K1 E.
    apply snd_bindT_val in E. destruct E as (k0 & E0 & E). rewrite (fst_bindT_val _ _ _ E0). apply snd_bindT_val in E. destruct E as (k1 & E1 & E). rewrite (fst_bindT_val _ _ _ E1). cbn [quiet fst snd] in *. injection E as <-. rewrite app_nil_r. cbn [r_ksk0 r_ksk1].
    exists (fst x), (fst y). auto.
  Qed.
  Lemma flat_map_same {A B} (f g : A -> list B) l : (forall x, In x l -> f x = g x) -> flat_map f l = flat_map g l.
  Proof using. induction l as [|x l IH]; intros H; [reflexivity|]. cbn [flat_map]. rewrite (H x (or_introl eq_refl)), IH; [reflexivity|]. intros y Hy. apply H. right. exact Hy. Qed.
  Theorem ek_trace sk sk' l1 l2 b cols sds sds' rngs rngs' : is_sk par sk -> is_sk par sk' -> (l1 <= max_level par)%nat -> (l2 <= l1)%nat -> is_ekb par sk l1 l2 b cols -> (forall e i, words (rngs e i)) -> (forall e i, words (rngs' e i)) ->
    same_trace_if eq (t_ek_build expand derive b sds rngs) (t_ek_build expand derive (mkEkb sk' (eb_ct_level b) (eb_level b) (eb_inner_sum b) (eb_row b) (eb_expansion b) (eb_columns b) (eb_rot b)) sds' rngs').
  Proof.
    intros Hs Hs' Hl1 Hle Hb Hr Hr'. pose proof Hs as (Es & Ls & Hi). pose proof Hs' as (Es' & Ls' & Hi'). pose proof (params_good isp cands par Ho Hp) as G.
    destruct (build_idx_ok isp cands Ho par G sk l1 l2 b cols Hb) as (idx & Ei & HI). pose proof (fun e => asked_odd isp cands Ho par G b cols e l1 l2 sk Hb) as Hodd. destruct Hb as (E1 & E2 & E3 & _).
    unfold build_idx in Ei. cbv zeta in Ei. apply bind_inv in Ei. destruct Ei as (ix1 & Ei1 & Ei2).
    unfold t_ek_build. cbv zeta. cbn [eb_sk eb_ct_level eb_level eb_inner_sum eb_row eb_expansion eb_columns eb_rot]. rewrite E1, E2, E3, Es, Es', Ei1, !Qt, Ei2, !Qt.
    apply tif_bind_same. intros c _. apply tif_bind_same. intros ms _.
    intros k k' E E' <-. apply snd_bindT_val in E, E'. destruct E as (gk & Eg & E), E' as (gk' & Eg' & E'). rewrite (fst_bindT_val _ _ _ Eg), (fst_bindT_val _ _ _ Eg'). cbn [quiet fst snd] in *. assert (gk' = gk) as -> by congruence. rewrite !app_nil_r.
    destruct (ek_fold (fun e => t_galois_new expand derive sk e l1 l2 (sds e) (rngs e)) _ _ _ Eg) as (-> & _ & H).
    destruct (ek_fold (fun e => t_galois_new expand derive sk' e l1 l2 (sds' e) (rngs' e)) _ _ _ Eg') as (-> & _ & H').
    apply flat_map_same. intros e He. destruct (H e He) as (g & H1 & H2), (H' e He) as (g' & H1' & H2'). assert (g' = g) as -> by congruence. apply HI, Hodd in He. destruct He as (He & Hoe).
    exact (galois_trace sk sk' l1 l2 e _ _ _ _ Hs Hs' Hl1 Hle (proj1 He) Hoe (Hr e) (Hr' e) g g H1 H1' eq_refl).
  Qed.
End Two.
