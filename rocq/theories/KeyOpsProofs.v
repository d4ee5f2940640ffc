(** Relinearization and automorphisms of ciphertexts, on elements of Z[X]/(X^N+1). *)
From Verif Require Import Outcome BasicSpec OutcomeLemmas ZqModel ZqProofs NumTheory NttModel PolySpec PolyRing NttPure NttStages NttProofs CbdModel CbdSpec CbdProofs.
From Verif Require Import TranscodeModel PrimesModel RnsModel RnsSpec RnsProofs RqModel RqSpec RqCtx RqRows RqProofs RingRn RqOps RqIO RqPropLemmas ParamsModel BfvSpec ParamsProofs BuildProofs PlainModel CipherModel OpsModel SchemeSpec CipherSpec PlainProofs RnPoly CipherProofs EncryptProofs KeysModel KeysSpec KeysProofs KeySwitchProofs KeyNoiseProofs.
From Coq Require Import Znumtheory.
Set Default Proof Using "Type".

Lemma P_subst c (Hc : ctx_ok c) N (HN : c_degree c = N) R v e i (x : Rn N) : subst_ok N e i -> Z.of_nat N <= 2 ^ 31 -> substitute (P R c v x) i = Val (P R c v (@raut N (Z.to_nat e) x)).
Proof. destruct HN. apply (substitute_eq c Hc). Qed.

Section Level.
  Context (isp : Z -> bool) (cands : Z -> list Z) (Ho : oracles isp cands) (par : params) (G : good_params isp cands par).
  Context (l1 : nat) (lv1 : level_ctx) (c1 : ctx) (A1 : at_level isp cands par l1 lv1 c1).
  Notation N := (pa_degree par).
  Notation qs1 := (level_moduli (pa_moduli par) l1).
  Notation Q1 := (prod_list qs1).
  Add Ring Rn_kops : (Rn_ring N).
  Set Default Proof Using "All".
  Local Lemma Hc1 : ctx_ok c1. Proof. exact (good_ok _ (al_good _ _ _ _ _ _ A1)). Qed.
  Local Lemma Hd1 : c_degree c1 = N. Proof. exact (al_deg _ _ _ _ _ _ A1). Qed.
  Local Lemma HQ1 : 0 < Q1. Proof. exact (Qpos isp cands Ho par G l1 lv1 c1 A1). Qed.

  (** A key for [f0] on ciphertexts of level [l1]: switching and going back to [l1] multiplies by [f0], with noise [B]. *)
  Definition sw_key (k : ksk) (s f0 : Rn N) (B : Z) : Prop :=
    k_par k = par /\ k_ct_level k = l1 /\
    forall v (x : Rn N), exists y0 y1 E,
      (exists w0 w1, bind (key_switch k (P PowerBasis c1 v x)) (ks_down c1 c1) = Val (P Ntt c1 w0 y0, P Ntt c1 w1 y1)) /\
      (forall va vb (a b : Rn N), exists w0 w1, bind (key_switch_assign k (P PowerBasis c1 v x) (P Ntt c1 va a) (P Ntt c1 vb b)) (ks_down c1 c1) = Val (P Ntt c1 w0 y0, P Ntt c1 w1 y1)) /\
      rnorm E <= B /\ rcong Q1 (y0 + s * y1)%R (x * f0 + E)%R.
  Lemma bind_assoc {X Y Z'} (m : M X) (f : X -> M Y) (g : Y -> M Z') : bind m (fun x => bind (f x) g) = bind (bind m f) g.
  Proof. destruct m; reflexivity. Qed.

  Theorem relinearizes_P k s B : sw_key k s (s * s)%R B -> forall sd v0 v1 v2 (x0 x1 x2 : Rn N),
    exists w0 w1 z0 z1 E, relinearizes k (mkCt par sd (parts c1 [(v0, x0); (v1, x1); (v2, x2)]) l1) = Val (mkCt par sd (parts c1 [(w0, z0); (w1, z1)]) l1) /\
      rnorm E <= B /\ rcong Q1 (z0 + s * z1)%R (rphase s [x0; x1; x2] + E)%R.
  Proof.
    intros (Ep & El & HK) sd v0 v1 v2 x0 x1 x2. destruct (HK v2 x2) as (y0 & y1 & E & (w0 & w1 & Es) & _ & HE & HC).
    exists (v0 && w0), (v1 && w1), (x0 + y0)%R, (x1 + y1)%R, E. unfold relinearizes. rewrite Ep, (ct_validate_eq isp cands Ho par G l1 lv1 c1 A1) by (cbn [length]; lia). cbn [bind ct_c parts map fst snd ct_level]. rewrite El, Nat.eqb_refl. cbn [negb].
    rewrite (P_ntt_pb c1 Hc1 N Hd1). cbn [bind]. rewrite !P_ctx, bind_assoc, Es. cbn [bind fst snd]. rewrite !(P_add c1 Hc1 N Hd1) by discriminate. cbn [bind]. split; [reflexivity|]. split; [exact HE|].
    replace (x0 + y0 + s * (x1 + y1))%R with (x0 + s * x1 + (y0 + s * y1))%R by ring. replace (rphase s [x0; x1; x2] + E)%R with (x0 + s * x1 + (x2 * (s * s) + E))%R by (rewrite !rphase_cons; cbn [rphase fold_right]; ring).
    apply rcong_add; [apply rcong_refl|exact HC].
  Qed.
  Lemma P_zeroize_c1 v (x : Rn N) : poly_zeroize (P Ntt c1 v x) = P Ntt c1 v (r0 N).
  Proof. apply (zeroize_P isp cands Ho par G l1 lv1 c1 A1 l1 lv1 c1 A1). discriminate. Qed.

  Section Galois.
    Context (HN31 : Z.of_nat N <= 2 ^ 31).
    Context (e : Z) (i : subst_exp) (Hi : subst_ok N e i).
    Notation sg := (@raut N (Z.to_nat e)).
    Lemma sg_odd : Nat.odd (Z.to_nat e) = true.
    Proof. pose proof (so_range _ _ _ Hi). apply odd_nat; [lia|exact (so_odd _ _ _ Hi)]. Qed.
    (** The result of an automorphism: the phase of the result is the image of the phase. *)
    Definition galois_result (s : Rn N) B (x0 x1 z0 z1 : Rn N) : Prop :=
      exists E, rnorm E <= B /\ rcong Q1 (z0 + s * z1)%R (sg (x0 + s * x1)%R + E)%R.
    Lemma galois_step s B k v (x0 x1 : Rn N) : sw_key k s (sg s) B -> exists z0 z1, galois_result s B x0 x1 (z0 + sg x0)%R z1 /\
      (exists w0 w1, bind (key_switch k (P PowerBasis c1 v (sg x1))) (ks_down c1 c1) = Val (P Ntt c1 w0 z0, P Ntt c1 w1 z1)) /\
      (forall va vb (a b : Rn N), exists w0 w1, bind (key_switch_assign k (P PowerBasis c1 v (sg x1)) (P Ntt c1 va a) (P Ntt c1 vb b)) (ks_down c1 c1) = Val (P Ntt c1 w0 z0, P Ntt c1 w1 z1)).
    Proof.
      intros (Ep & El & HK). destruct (HK v (sg x1)) as (y0 & y1 & E & H1 & H2 & HE & HC). exists y0, y1. split; [|split; assumption]. exists E. split; [exact HE|].
      rewrite raut_add, raut_mul by (exact sg_odd || (pose proof (al_N8 isp cands par l1 lv1 c1 A1); lia)). replace (y0 + sg x0 + s * y1)%R with (sg x0 + (y0 + s * y1))%R by ring. replace (sg x0 + sg s * sg x1 + E)%R with (sg x0 + (sg x1 * sg s + E))%R by ring. apply rcong_add; [apply rcong_refl|exact HC].
    Qed.
    Lemma validate_two_P sd (vxs : list (bool * Rn N)) : length vxs = 2%nat -> validate_two par l1 (mkCt par sd (parts c1 vxs) l1) = Val tt.
    Proof.
      intros H. unfold validate_two. rewrite (ct_validate_eq isp cands Ho par G l1 lv1 c1 A1) by lia. cbn [bind ct_c ct_level]. rewrite parts_length, H, !Nat.eqb_refl. reflexivity.
    Qed.
    Theorem galois_apply_P k s B : sw_key k s (sg s) B -> forall sd v0 v1 (x0 x1 : Rn N), exists w0 w1 z0 z1,
      galois_apply (mkGk i k) (mkCt par sd (parts c1 [(v0, x0); (v1, x1)]) l1) = Val (mkCt par None (parts c1 [(w0, z0); (w1, z1)]) l1) /\ galois_result s B x0 x1 z0 z1.
    Proof.
      intros HK sd v0 v1 x0 x1. destruct (galois_step s B k v1 x0 x1 HK) as (z0 & z1 & HR & (w0 & w1 & Es) & _). destruct HK as (Ep & El & _).
      exists (w0 && v0), w1, (z0 + sg x0)%R, z1. split; [|exact HR]. unfold galois_apply. cbn [g_ksk g_element]. rewrite Ep, El, validate_two_P by reflexivity. cbn [bind parts map fst snd ct_c get nth_error unwrap].
      rewrite (P_subst c1 Hc1 N Hd1) with (e := e) by assumption. cbn [bind]. rewrite (P_ntt_pb c1 Hc1 N Hd1). cbn [bind]. rewrite !P_ctx, bind_assoc, Es. cbn [bind fst snd].
      rewrite (P_subst c1 Hc1 N Hd1) with (e := e) by assumption. cbn [bind]. rewrite (P_add c1 Hc1 N Hd1) by discriminate. reflexivity.
    Qed.
    (** The value to overwrite: anything whose parts, if there are two of the same context, are polynomials. *)
    Definition any_out (out : ciphertext) : Prop :=
      forall o0 o1, ct_c out = [o0; o1] -> ctx_eqb (p_ctx o0) c1 = true -> ctx_eqb (p_ctx o1) c1 = true -> exists u0 u1 (a b : Rn N), o0 = P Ntt c1 u0 a /\ o1 = P Ntt c1 u1 b.
    Lemma any_out_zero : any_out (ct_zero par).
    Proof. intros o0 o1 H. discriminate. Qed.
    Lemma any_out_parts p sd l (vxs : list (bool * Rn N)) : any_out (mkCt p sd (parts c1 vxs) l).
    Proof.
      intros o0 o1 H _ _. cbn [ct_c] in H. destruct vxs as [|(u0 & a) [|(u1 & b) [|? ?]]]; try discriminate. cbn [parts map fst snd] in H. injection H as <- <-. eauto 6.
    Qed.
    Theorem galois_apply_into_P k s B : sw_key k s (sg s) B -> forall sd v0 v1 (x0 x1 : Rn N), exists z0 z1, galois_result s B x0 x1 z0 z1 /\
      forall out, any_out out -> exists w0 w1, galois_apply_into (mkGk i k) (mkCt par sd (parts c1 [(v0, x0); (v1, x1)]) l1) out = Val (mkCt par None (parts c1 [(w0, z0); (w1, z1)]) l1).
    Proof.
      intros HK sd v0 v1 x0 x1. destruct (galois_step s B k v1 x0 x1 HK) as (z0 & z1 & HR & _ & Es). destruct HK as (Ep & El & _). exists (z0 + sg x0)%R, z1. split; [exact HR|].
      intros out Hout. unfold galois_apply_into. cbn [g_ksk g_element]. rewrite Ep, El, validate_two_P by reflexivity. cbn [bind parts map fst snd ct_c get nth_error unwrap]. rewrite !P_ctx.
      rewrite (P_subst c1 Hc1 N Hd1) with (e := e) by assumption. cbn [bind]. rewrite (P_ntt_pb c1 Hc1 N Hd1). cbn [bind].
      assert (Hz : exists va vb, match ct_c out with
              | [o0; o1] => if negb (ctx_eqb (p_ctx o0) c1) || negb (ctx_eqb (p_ctx o1) c1)
                            then (poly_zero Ntt c1, poly_zero Ntt c1) else (o0, o1)
              | _ => (poly_zero Ntt c1, poly_zero Ntt c1)
              end = (P Ntt c1 (fst va) (snd va : Rn N), P Ntt c1 (fst vb) (snd vb : Rn N))).
      { rewrite (P_zero c1 Hc1 N Hd1). destruct (ct_c out) as [|o0 [|o1 [|? ?]]] eqn:Eo; try (exists (false, r0 N), (false, r0 N); reflexivity).
        destruct (ctx_eqb (p_ctx o0) c1) eqn:E0; [|exists (false, r0 N), (false, r0 N); reflexivity]. destruct (ctx_eqb (p_ctx o1) c1) eqn:E1; [|exists (false, r0 N), (false, r0 N); reflexivity].
        destruct (Hout o0 o1 Eo E0 E1) as (u0 & u1 & a & b & -> & ->). exists (u0, a), (u1, b). reflexivity. }
      destruct Hz as ((va & a) & (vb & b) & ->). cbn [fst snd]. rewrite !P_zeroize_c1. destruct (Es va vb (r0 N) (r0 N)) as (w0 & w1 & E'). rewrite bind_assoc, E'. cbn [bind fst snd].
      rewrite (P_subst c1 Hc1 N Hd1) with (e := e) by assumption. cbn [bind]. rewrite (P_add c1 Hc1 N Hd1) by discriminate. exists (w0 && v0), w1. reflexivity.
    Qed.
  End Galois.
End Level.

Set Default Proof Using "Type".
Section Two.
  Context (isp : Z -> bool) (cands : Z -> list Z) (Ho : oracles isp cands) (par : params) (G : good_params isp cands par).
  Context (l1 : nat) (lv1 : level_ctx) (c1 : ctx) (A1 : at_level isp cands par l1 lv1 c1).
  Context (l2 : nat) (lv2 : level_ctx) (c2 : ctx) (A2 : at_level isp cands par l2 lv2 c2).
  Context (Hle : (l2 <= l1)%nat).
  Notation N := (pa_degree par).
  Notation qs1 := (level_moduli (pa_moduli par) l1).
  Notation qs2 := (level_moduli (pa_moduli par) l2).
  Notation Pz := (level_ratio par l1 l2).
  Add Ring Rn_kops2 : (Rn_ring N).
  Set Default Proof Using "All".
  Lemma single_level : length qs2 = 1%nat -> l1 = l2.
  Proof. pose proof (al_lt _ _ _ _ _ _ A1). pose proof (al_lt _ _ _ _ _ _ A2). unfold level_moduli. rewrite firstn_length. lia. Qed.
  (** A key for [Pz * f0] between the levels is a key for [f0]. *)
  Lemma kskR_sw lb k s f0 B : 0 <= B -> kskR par l1 c1 l2 c2 lb k s (rZ N Pz * f0)%R B -> sw_key par l1 c1 k s f0 (divided_noise (rnorm1 s) Pz (switch_noise par l1 lb B)).
  Proof.
    intros HB HK. pose proof HK as HK'. destruct HK' as (sd & b0 & b1 & gs & -> & _). split; [reflexivity|]. split; [reflexivity|]. intros v x.
    destruct (switched isp cands Ho par G l1 lv1 c1 A1 l2 lv2 c2 A2 Hle lb _ s f0 B HB HK v x) as (y0 & y1 & E & H1 & H2 & HE & HC). exists y0, y1, E. split; [exact H1|]. split; [|split; assumption].
    intros va vb a b. assert (Ha : forall w (z : Rn N), any_acc par c2 (P Ntt c1 w z)).
    { intros w z. destruct (Nat.eq_dec l1 l2) as [El|El].
      - right. pose proof A2 as A2'. rewrite <- El in A2'. destruct (at_level_unique _ _ _ _ _ _ _ _ A2' A1) as (_ & ->). eauto.
      - left. rewrite P_ctx. apply not_true_is_false. intros H. apply ctx_eqb_true in H. destruct H as (H & _). apply (f_equal (@length Z)) in H. rewrite (al_moduli_length isp cands par l2 lv2 c2 A2), (al_moduli_length isp cands par l1 lv1 c1 A1) in H.
        pose proof (al_lt _ _ _ _ _ _ A1). pose proof (al_lt _ _ _ _ _ _ A2). lia. }
    apply H2; apply Ha.
  Qed.
  Context (expand : expander) (derive : deriver) (Hx : expands_well expand) (sk : secret_key) (Hl : length (sk_coeffs sk) = N) (Esk : sk_par sk = par) (Hi64 : Forall is_i64 (sk_coeffs sk)).
  Notation s := (mkR (sk_coeffs sk) Hl).
  Theorem relin_new_R sd rngs : (forall i, words (rngs i)) -> length qs2 <> 1%nat ->
    exists k, relin_new expand derive sk l1 l2 sd rngs = Val k /\ kskR par l1 c1 l2 c2 0 k s (rZ N Pz * (s * s))%R (2 * pa_variance par).
  Proof.
    intros Hr H1. unfold relin_new. rewrite Esk, (al_par_context isp cands par l2 lv2 c2 A2), (al_par_context isp cands par l1 lv1 c1 A1). cbn [bind]. rewrite (al_mod _ _ _ _ _ _ A2).
    replace (length qs2 =? 1)%nat with false by (symmetry; apply Nat.eqb_neq; exact H1). rewrite (sk_poly_eq isp cands Ho par G l1 lv1 c1 A1 sk Hl Hi64). cbn [bind].
    rewrite (P_mul c1 (Hc1 isp cands Ho par G l1 lv1 c1 A1) N (Hd1 isp cands Ho par G l1 lv1 c1 A1)). cbn [bind]. rewrite (P_ntt_pb c1 (Hc1 isp cands Ho par G l1 lv1 c1 A1) N (Hd1 isp cands Ho par G l1 lv1 c1 A1)). cbn [bind].
    destruct (switch_up isp cands Ho par G l1 lv1 c1 A1 l2 lv2 c2 A2 Hle) as (sw & Ew & Hw). rewrite Ew. cbn [bind]. rewrite Hw. cbn [bind]. rewrite <- rscale_mul.
    assert (Eb : key_base par l2 = 0) by (unfold key_base; destruct qs2 as [|q [|q' qs]]; [reflexivity|exfalso; apply H1; reflexivity|reflexivity]). rewrite <- Eb.
    apply (ksk_new_R isp cands Ho par G l1 lv1 c1 A1 l2 lv2 c2 A2); auto. intros H. contradiction.
  Qed.
  Theorem galois_new_R e sd rngs : Z.of_nat N <= 2 ^ 31 -> 0 <= e -> Z.odd e = true -> (forall i, words (rngs i)) ->
    exists i k, galois_new expand derive sk e l1 l2 sd rngs = Val (mkGk i k) /\ subst_new c1 e = Val i /\ subst_ok N (e mod (2 * Z.of_nat N)) i /\
      kskR par l1 c1 l2 c2 (key_base par l2) k s (rZ N Pz * @raut N (Z.to_nat (e mod (2 * Z.of_nat N))) s)%R (2 * pa_variance par).
  Proof.
    intros HN31 He Hodd Hr. pose proof (Hc1 isp cands Ho par G l1 lv1 c1 A1) as Hc. pose proof (Hd1 isp cands Ho par G l1 lv1 c1 A1) as Hd.
    destruct (subst_new_ok c1 e Hc ltac:(rewrite Hd; exact HN31) He Hodd) as (i & Ei & _ & Hi). rewrite Hd in Hi. exists i.
    destruct (switch_up isp cands Ho par G l1 lv1 c1 A1 l2 lv2 c2 A2 Hle) as (sw & Ew & Hw).
    destruct (ksk_new_R isp cands Ho par G l1 lv1 c1 A1 l2 lv2 c2 A2 expand derive sk Hl false (level_ratio par l1 l2 *: @raut N (Z.to_nat (e mod (2 * Z.of_nat N))) s)%R sd rngs Hx Esk Hi64 Hr single_level) as (k & Ek & HK).
    exists k. split; [|split; [exact Ei|split; [exact Hi|rewrite <- rscale_mul; exact HK]]]. unfold galois_new. rewrite Esk, (al_par_context isp cands par l2 lv2 c2 A2), (al_par_context isp cands par l1 lv1 c1 A1). cbn [bind]. rewrite Ei. cbn [bind]. rewrite Ew. cbn [bind].
    rewrite (P_from_i64 c1 Hc N Hd _ false Hl Hi64). cbn [bind]. rewrite (P_subst c1 Hc N Hd) with (e := e mod (2 * Z.of_nat N)) by assumption. cbn [bind]. rewrite Hw. cbn [bind].
    change (prod_list (extra par l1 l2)) with (level_ratio par l1 l2). rewrite Ek. reflexivity.
  Qed.
End Two.
