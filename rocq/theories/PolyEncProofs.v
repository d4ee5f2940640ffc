(** Coefficient encoding: the plaintext polynomial is the vector itself. *)
From Verif Require Import Outcome BasicSpec OutcomeLemmas ZqModel ZqProofs NumTheory NttModel PolySpec PolyRing NttPure NttStages NttProofs CbdModel CbdSpec CbdProofs.
From Verif Require Import TranscodeModel PrimesModel RnsModel RnsSpec RnsProofs RqModel RqSpec RqCtx RqRows RqProofs RingRn RqOps RqIO RqPropLemmas ParamsModel BfvSpec ParamsProofs BuildProofs ParamsPropLemmas PlainModel CipherModel OpsModel SchemeSpec CipherSpec PlainProofs PlainPropLemmas RnPoly CipherProofs EncryptProofs CipherPropLemmas.
Set Default Proof Using "Type".

Section Props.
  Variables (isp : Z -> bool) (cands : Z -> list Z) (par : params).
  Notation N := (pa_degree par).
  Notation t := (pa_t par).
  Lemma pad_length n (v : list Z) : (length v <= n)%nat -> length (pad n v) = n.
  Proof. intros H. unfold pad. rewrite app_length, repeat_length. lia. Qed.
  Theorem encode_poly_all : oracles isp cands -> is_params isp cands par -> forall l, (l <= max_level par)%nat -> t <= level_modulus par l ->
    forall vt v, (length v <= N)%nat -> canonical t v -> Forall is_u64 v ->
    exists pt, encode_u64 vt v (mkEnc EncPoly l) par = Val pt /\ is_pt par l pt (pad N v) /\ pt_enc pt = Some (mkEnc EncPoly l) /\ p_vt (pt_poly pt) = vt.
  Proof.
    intros Ho Hp l Hl HtQ vt v Lv Hv Hu. pose proof (params_good isp cands par Ho Hp) as G. pose proof (gp_t _ _ _ G) as Ht. destruct (at_level_ex isp cands par l Ho G Hl) as (lv & c & A). unfold level_modulus in HtQ.
    eexists. split; [apply (encode_u64_poly isp cands par l lv c A vt v (mkEnc EncPoly l) eq_refl eq_refl Lv Hu); right; eapply Forall_impl; [|exact Hv]; cbv beta; intros; lia|].
    pose proof (zpad_length par v Lv) as Lz. split; [|split; reflexivity]. exact (P_pt isp cands Ho par G l lv c A (Some (mkEnc EncPoly l)) vt (mkR (zpad par v) Lz)).
  Qed.
  Theorem decode_poly_all : oracles isp cands -> is_params isp cands par -> forall l, (l <= max_level par)%nat -> t <= level_modulus par l ->
    forall pt m, is_pt par l pt m -> canonical t m -> Forall is_u64 m -> pt_enc pt = None \/ pt_enc pt = Some (mkEnc EncPoly l) -> decode_u64 pt (Some (mkEnc EncPoly l)) = Val m.
  Proof.
    intros Ho Hp l Hl HtQ pt m Hpt Hm Hu He. pose proof (params_good isp cands par Ho Hp) as G. destruct (at_level_ex isp cands par l Ho G Hl) as (lv & c & A).
    assert (Lm : length m = N) by (destruct (pt_P isp cands Ho par G l lv c A pt m Hpt) as (x & _ & <-); apply rl_length).
    assert (Epad : pad N m = m) by (unfold pad; rewrite Lm, Nat.sub_diag; apply app_nil_r).
    destruct (encode_poly_all Ho Hp l Hl HtQ false m ltac:(lia) Hm Hu) as (pt0 & E0 & H0 & Ee & _). rewrite Epad in H0.
    destruct (same_decoding isp cands Ho par G l lv c A pt0 pt m (mkEnc EncPoly l) H0 Hpt ltac:(left; exact Ee) ltac:(tauto)) as (_ & -> & _).
    destruct (encode_u64_holds isp cands Ho par G l lv c A false m (mkEnc EncPoly l) eq_refl ltac:(intros HU; discriminate HU) HtQ ltac:(lia) Hm Hu) as (pt1 & _ & E1 & (_ & Hh) & _). rewrite E0 in E1. injection E1 as <-.
    rewrite Epad in Hh. exact (proj1 (proj2 (Hh (Some (mkEnc EncPoly l)) (or_intror eq_refl))) Hu).
  Qed.
End Props.
