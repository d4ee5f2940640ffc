(** The functions that return a [Result] do not panic on ciphertexts that a program can hold. *)
From Verif Require Import Outcome BasicSpec OutcomeLemmas ZqModel ZqProofs NumTheory NttModel PolySpec PolyRing NttPure NttStages NttProofs CbdModel CbdSpec CbdProofs.
From Verif Require Import TranscodeModel PrimesModel RnsModel RnsSpec RnsProofs RqModel RqSpec RqCtx RqRows RqProofs RingRn RqOps RqIO RqPropLemmas ParamsModel BfvSpec ParamsProofs BuildProofs ParamsPropLemmas PlainModel CipherModel OpsModel SchemeSpec CipherSpec PlainProofs RnPoly CipherProofs EncryptProofs CipherPropLemmas LinearPropLemmas SerialPropLemmas MulPropLemmas CtDot DotPropLemmas KeysModel KeysSpec KeysProofs KeySwitchProofs KeyNoiseProofs KeyOpsProofs KeyPropLemmas EvalSpec EvalKeyProofs EvalOpsProofs EvalExpandProofs RgswPropLemmas MbfvModel MbfvProofs WireSpec WireProofs WireKeysProofs WireOpsProofs WirePropLemmas ReachSpec ShapeProofs ReachProofs SafeSpec.
From Coq Require Import Znumtheory.
Set Default Proof Using "Type".

Section Level.
  Context (isp : Z -> bool) (cands : Z -> list Z) (Ho : oracles isp cands) (par : params) (G : good_params isp cands par).
  Context (l : nat) (lv : level_ctx) (c : ctx) (A : at_level isp cands par l lv c).
  Notation N := (pa_degree par).
  Notation t := (pa_t par).
  Set Default Proof Using "All".
  Local Lemma Hc : ctx_ok c. Proof. exact (good_ok _ (al_good _ _ _ _ _ _ A)). Qed.
  Local Lemma Hdeg : c_degree c = N. Proof. exact (al_deg _ _ _ _ _ _ A). Qed.
  Lemma first_le_Q : hd 0 (pa_moduli par) <= prod_list (level_moduli (pa_moduli par) l).
  Proof.
    pose proof (level_range isp cands Ho par G l lv c A) as Hr. pose proof (gp_ne _ _ _ G) as Hne. pose proof (al_lt _ _ _ _ _ _ A) as Hlt. unfold level_moduli in *. destruct (pa_moduli par) as [|q0 ms]; [congruence|]. cbn [length hd] in *.
    destruct (S (length ms) - l)%nat as [|k] eqn:Ek; [lia|]. cbn [firstn prod_list] in *. inversion Hr as [|? ? Hq Hr']; subst. pose proof (prod_list_pos (firstn k ms) ltac:(exact Hr')). nia.
  Qed.
  (** Decryption of any ciphertext of two parts or more returns some plaintext. *)
  Theorem decrypt_any sk (Hl : length (sk_coeffs sk) = N) sd (vxs : list (bool * Rn N)) : sk_par sk = par -> Forall is_i64 (sk_coeffs sk) -> (2 <= length vxs)%nat -> supported par ->
    exists y : Rn N, canonical t (rl y) /\ sk_decrypt sk (mkCt par sd (parts c vxs) l) = Val (mkPt par None (P Ntt c false y)).
  Proof.
    intros Esk Hi Hlen Hsup. unfold sk_decrypt. rewrite Esk, (ct_validate_eq isp cands Ho par G l lv c A) by exact Hlen. cbn [bind ct_c ct_level]. destruct vxs as [|(v0 & x0) vxs]; [cbn in Hlen; lia|].
    cbn [parts map get nth_error unwrap bind tl fst snd]. rewrite P_ctx, (sk_poly_eq isp cands Ho par G l lv c A sk Hl Hi). cbn [bind]. set (s := mkR (sk_coeffs sk) Hl) in *. fold (parts c vxs). rewrite P_disallow.
    destruct (phase_loop_eq c Hc Hdeg s false vxs false false s x0) as (v' & Ep). rewrite Ep. cbn [bind]. rewrite (al_context_level isp cands par l lv c A). cbn [bind]. rewrite (P_ntt_pb c Hc N Hdeg). cbn [bind].
    set (ph := (x0 + s * rphase s (map snd vxs))%R) in *.
    destruct (plain_scale isp cands Ho par G l lv c A Hsup) as (plain & Hpl & Edp & Emp & (rest & Erest) & Hsc). destruct (Hsc v' ph) as (y & Hy & Ey). rewrite Ey. cbn [bind].
    pose proof (gp_t _ _ _ G) as Ht. destruct (pa_small par) as [ms|] eqn:Es.
    - destruct (small_eq isp cands par G ms Es) as (Vms & Ems). pose proof (small_bound isp cands par G ms Es) as Hsb.
      pose proof first_le_Q as HqQ. set (q0 := hd 0 (pa_moduli par)) in *. assert (Hq0 : 2 <= q0 < W62). { unfold q0. pose proof (moduli_range isp cands Ho par G l lv c A) as Hr. pose proof (gp_ne _ _ _ G) as Hne. destruct (pa_moduli par); [congruence|]. inversion Hr; subst. assumption. }
      unfold poly_to_u64, P at 1. cbn [p_coeffs poly_of]. pose proof (moduli_ops plain Hpl) as Eo. rewrite Erest in Eo. destruct (c_ops plain) as [|op ops] eqn:Eops; [discriminate|]. cbn [map] in Eo. injection Eo as Eq _.
      cbn [map concat row]. rewrite <- Eq.
      set (tail := concat (map (fun op0 => map (fun v0 : Z => v0 mod mod_p (nt_p op0)) (rl y)) ops)).
      assert (Hchk : mapM (fun x => chk64 (x + mod_p ms)) (map (fun v => v mod q0) (rl y) ++ tail) = Val (map (fun x => x + t) (map (fun v => v mod q0) (rl y) ++ tail))).
      { rewrite <- (map_id (map (fun v => v mod q0) (rl y) ++ tail)) at 1. apply mapM_map. intros a Ha. rewrite Ems. apply chk_val. assert (0 <= a < W62); [|assert (2 * W62 < W64) by reflexivity; lia].
        apply in_app_or in Ha. destruct Ha as [Ha|Ha]; [apply in_map_iff in Ha; destruct Ha as (b & <- & _); pose proof (Z.mod_pos_bound b q0); lia|].
        unfold tail in Ha. apply in_concat in Ha. destruct Ha as (r & Hr & Ha). apply in_map_iff in Hr. destruct Hr as (op' & <- & Hop). apply in_map_iff in Ha. destruct Ha as (b & <- & _).
        pose proof (co_ops _ Hpl) as Fo. rewrite Eops in Fo. rewrite Forall_forall in Fo. destruct (Fo op' (or_intror Hop)) as (K & w & Hok & _). pose proof (valid_fields _ (ok_m _ _ _ Hok)). pose proof (Z.mod_pos_bound b (mod_p (nt_p op'))). lia. }
      rewrite Hchk. cbn [bind]. unfold slice_to. rewrite map_app, app_length, !map_length, rl_length. destruct (Nat.leb_spec N (N + length tail)); [|lia]. cbn [guard bind].
      replace (firstn N (map (fun x => x + t) (map (fun v => v mod q0) (rl y)) ++ map (fun x => x + t) tail)) with (map (fun v => v mod q0 + t) (rl y)).
      2: { rewrite firstn_app. rewrite !map_length, rl_length, Nat.sub_diag. cbn [firstn]. rewrite app_nil_r, map_map. symmetry. apply firstn_all2. rewrite map_length, rl_length. lia. }
      replace (get (pa_moduli par) 0) with (Val q0) by (unfold q0; pose proof (gp_ne _ _ _ G) as Hne; destruct (pa_moduli par); [congruence|reflexivity]). cbn [bind].
      destruct (modulus_new_ex q0 Hq0) as (mq & Emq & Vmq & Epq). rewrite Emq. cbn [bind].
      destruct (reduce_vec_spec mq Vmq (map (fun v => v mod q0 + t) (rl y))) as (-> & _).
      { apply Forall_forall. intros z Hz. apply in_map_iff in Hz. destruct Hz as (b & <- & _). pose proof (Z.mod_pos_bound b q0). unfold is_u64. assert (2 * W62 < W64) by reflexivity. lia. }
      cbn [bind]. rewrite Epq. set (w := map (fun x => x mod q0) (map (fun v => v mod q0 + t) (rl y))).
      destruct (reduce_vec_spec ms Vms w) as (-> & _).
      { apply Forall_forall. intros z Hz. apply in_map_iff in Hz. destruct Hz as (b & <- & _). pose proof (Z.mod_pos_bound b q0). unfold is_u64. assert (2 * W62 < W64) by reflexivity. lia. }
      cbn [bind]. rewrite Ems.
      assert (Ew : map (fun x => x mod t) w = map (fun v => ((v mod q0 + t) mod q0) mod t) (rl y)) by (unfold w; rewrite !map_map; reflexivity).
      rewrite Ew. set (um := map (fun v => ((v mod q0 + t) mod q0) mod t) (rl y)).
      assert (Hum : Forall (fun z => 0 <= z < t /\ z < q0) um).
      { apply Forall_forall. intros z Hz. apply in_map_iff in Hz. destruct Hz as (a & <- & _). pose proof (Z.mod_pos_bound (a mod q0 + t) q0 ltac:(lia)) as H1. split; [apply Z.mod_pos_bound; lia|]. pose proof (Z.mod_le ((a mod q0 + t) mod q0) t ltac:(lia) ltac:(lia)). lia. }
      assert (Lum : length um = N) by (unfold um; rewrite map_length; apply rl_length).
      rewrite (from_u64_full isp cands par l lv c A).
      2: exact Lum.
      2: { eapply Forall_impl; [|exact Hum]. cbv beta. intros z Hz. assert (W62 < W64) by reflexivity. unfold is_u64. lia. }
      2: { right. eapply Forall_impl; [|exact Hum]. cbv beta. intros z Hz. lia. }
      cbn [bind]. exists (mkR um Lum). split; [rewrite rl_mkR; eapply Forall_impl; [|exact Hum]; cbv beta; intros z Hz; lia|].
      pose proof (P_pb_ntt c Hc N Hdeg false (mkR um Lum)) as E. unfold P in E at 1. rewrite rl_mkR in E. rewrite E. reflexivity.
    - rewrite (P_to_big plain Hpl N Edp). cbn [bind]. rewrite Emp. unfold slice_to. rewrite !map_length, rl_length, Nat.leb_refl. cbn [guard bind]. rewrite firstn_all2 by (rewrite !map_length, rl_length; lia).
      rewrite P_ctx. assert (Erp : rns_product (c_rns plain) = plain_prod par) by (rewrite (gr_product _ (co_rns _ Hpl)), (co_u64 _ Hpl); exact Emp). rewrite Erp. pose proof (plain_prod_pos isp cands Ho par G l lv c A) as Hpp.
      unfold reduce_big. replace (plain_prod par =? 0) with false by (symmetry; apply Z.eqb_neq; lia). replace (t =? 0) with false by (symmetry; apply Z.eqb_neq; lia). cbn [negb guard bind]. rewrite !map_map.
      match goal with |- context [pb_from_big c ?u false] => set (um := u) end. assert (Lum : length um = N) by (unfold um; rewrite map_length; apply rl_length).
      rewrite (P_from_big c Hc N Hdeg um false Lum). cbn [bind]. exists (mkR um Lum). split.
      + rewrite rl_mkR. apply Forall_forall. intros z Hz. apply in_map_iff in Hz. destruct Hz as (a & <- & _). apply Z.mod_pos_bound. lia.
      + rewrite (P_pb_ntt c Hc N Hdeg). reflexivity.
  Qed.
End Level.

Section Calls.
  Context (isp : Z -> bool) (cands : Z -> list Z) (Ho : oracles isp cands) (par : params) (G : good_params isp cands par) (Hp : is_params isp cands par).
  Notation N := (pa_degree par).
  Notation shaped := (some_parts isp cands par).
  Set Default Proof Using "All".
  Lemma validate_shaped ct : shaped ct -> safe (ct_validate_for ct par) (fun _ => (2 <= length (ct_c ct))%nat).
  Proof.
    intros (l & lv & c & vxs & A & ->). unfold ct_validate_for. cbn [ct_par ct_level]. destruct (negb (par_same par par)); [exact I|]. rewrite (al_par_context isp cands par l lv c A). cbn [bind]. unfold ct_validate_context. cbn [ct_c].
    destruct (Nat.ltb_spec (length (parts c vxs)) 2) as [|H2]; [exact I|]. destruct (negb _); [exact I|]. destruct (existsb _ _); [exact I|]. exact H2.
  Qed.
  Lemma decrypt_safe sk ct : supported par -> is_sk par sk -> shaped ct -> safe (sk_decrypt sk ct) (fun pt => exists m, canonical (pa_t par) m /\ is_pt par (ct_level ct) pt m).
  Proof.
    intros Hsup (E1 & E2 & E3) Hs. pose proof Hs as (l & lv & c & vxs & A & E). destruct (Nat.leb_spec 2 (length vxs)) as [H2|H2].
    - destruct (decrypt_any isp cands Ho par G l lv c A sk E2 (ct_seed ct) vxs E1 E3 H2 Hsup) as (y & Hy & Ey). rewrite E, Ey. cbn [safe ct_level]. exists (rl y). split; [exact Hy|apply (P_pt isp cands Ho par G l lv c A)].
    - unfold sk_decrypt. rewrite E1. pose proof (validate_shaped ct Hs) as Hv. destruct (ct_validate_for ct par); [|exact I|destruct Hv]. cbn [safe] in Hv. rewrite E in Hv. cbn [ct_c] in Hv. rewrite parts_length in Hv. lia.
  Qed.
  Lemma noise_safe sk ct : supported par -> is_sk par sk -> shaped ct -> pa_t par <= level_modulus par (ct_level ct) -> safe (measure_noise sk ct) any.
  Proof.
    intros Hsup Hsk Hs HtQ. pose proof (decrypt_safe sk ct Hsup Hsk Hs) as Hd. pose proof (validate_shaped ct Hs) as Hv. pose proof Hs as (l & lv & c & vxs & A & E). pose proof Hsk as (E1 & E2 & E3). unfold measure_noise. assert (Hval : sk_decrypt sk ct = bind (ct_validate_for ct par) (fun _ => sk_decrypt sk ct)).
    { unfold sk_decrypt. rewrite E1. destruct (ct_validate_for ct par) as [[]| |]; reflexivity. }
    destruct (sk_decrypt sk ct) as [pt| |] eqn:Ed; [|exact I|destruct Hd]. cbn [safe bind] in *. destruct (ct_validate_for ct par) as [[]| |]; [|discriminate..]. cbn [safe] in Hv. clear Hval.
    destruct Hd as (m & Hm & Hpt). rewrite E in Hpt, Hv, HtQ |- *. cbn [ct_level ct_c] in *. rewrite parts_length in Hv.
    pose proof (good_ok _ (al_good _ _ _ _ _ _ A)) as Hc. pose proof (al_deg _ _ _ _ _ _ A) as Hd.
    destruct (pt_P isp cands Ho par G l lv c A pt m Hpt) as (x & Ex & Em). rewrite Ex, (to_poly_P isp cands par l lv c Ho G A) by (exact HtQ || (rewrite Em; exact Hm)). cbn [bind].
    destruct vxs as [|(v0 & x0) vxs]; [cbn in Hv; lia|]. cbn [parts map get nth_error unwrap bind tl fst snd]. rewrite P_ctx, (sk_poly_eq isp cands Ho par G l lv c A sk E2 E3). cbn [bind]. fold (parts c vxs). rewrite P_disallow.
    set (s := mkR (sk_coeffs sk) E2). destruct (phase_loop_all_eq c Hc Hd s false vxs false false s x0) as (v' & Ep). rewrite Ep. cbn [bind]. rewrite (P_sub c Hc N Hd) by discriminate. cbn [bind]. rewrite (P_ntt_pb c Hc N Hd). cbn [bind]. rewrite (P_to_big c Hc N Hd). exact I.
  Qed.
  Lemma down_safe a : shaped a -> safe (ct_switch_down a) shaped.
  Proof.
    intros (l & lv & c & vxs & A & ->). destruct (Nat.leb_spec (max_level par) l) as [H|H].
    - unfold ct_switch_down. cbn [ct_par ct_level]. destruct (Nat.leb_spec (max_level par) l); [exact I|lia].
    - destruct (at_level_ex isp cands par (S l) Ho G ltac:(lia)) as (lv' & c' & A'). rewrite (ct_switch_down_P isp cands par l lv c Ho G A lv' c' _ _ A'). apply (mk_shaped isp cands Ho par G Hp (S l) lv' c' _ _ A').
  Qed.
  Lemma iter_safe n : forall a, shaped a -> safe (iterM n ct_switch_down a) shaped.
  Proof. induction n as [|n IH]; intros a Ha; cbn [iterM]; [exact Ha|]. eapply safe_bind; [apply down_safe, Ha|exact IH]. Qed.
  Lemma level_safe a l : shaped a -> safe (ct_switch_to_level a l) shaped.
  Proof. intros Ha. unfold ct_switch_to_level. destruct (_ || _); [exact I|apply iter_safe, Ha]. Qed.
  Lemma dp_validate_safe first c cts pts : Forall shaped cts -> Forall (any_pt par) pts -> safe (dp_validate first c (combine cts pts)) any.
  Proof.
    intros Hc. revert pts. induction Hc as [|ct cts Hct Hcts IH]; intros [|pt pts] Hpts; try exact I. cbn [combine dp_validate]. inversion Hpts as [|? ? (l & m & Hl & Hpt) Hpts']; subst.
    eapply safe_bind with (Q := any); [unfold ct_validate_for_context, ct_validate_context; repeat match goal with |- safe (if ?b then _ else _) _ => destruct b end; exact I|]. intros _ _.
    eapply safe_bind with (Q := any).
    { unfold pt_validate_for_context, pt_validate_context. destruct (negb _); [exact I|]. destruct (at_level_ex isp cands par l Ho G Hl) as (lv & c' & A). destruct (pt_P isp cands Ho par G l lv c' A pt m Hpt) as (x & E & _). rewrite E. unfold P at 1. rewrite (pt_level_eq isp cands par l lv c' A). cbn [bind].
      repeat match goal with |- safe (if ?b then _ else _) _ => destruct b end; exact I. }
    intros _ _. eapply safe_bind with (Q := any); [match goal with |- safe (if ?b then _ else _) _ => destruct b end; exact I|]. intros _ _. apply IH, Hpts'.
  Qed.
  Lemma dot_safe cts pts : Forall shaped cts -> Forall (any_pt par) pts -> safe (dot_product_scalar cts pts) shaped.
  Proof.
    intros Hcts Hpts. destruct cts as [|first cts]; [exact I|]. destruct pts as [|pt0 pts]; [exact I|].
    destruct (Nat.eqb_spec (length (first :: cts)) (length (pt0 :: pts))) as [Elen|Hne]; [|unfold dot_product_scalar; apply Nat.eqb_neq in Hne; rewrite Hne; exact I].
    pose proof (Forall_inv Hcts) as Hf. pose proof Hf as (l & lv & c & vxs & A & E). assert (Ep : ct_par first = par) by (rewrite E; reflexivity). assert (El : ct_level first = l) by (rewrite E; reflexivity).
    pose proof (validate_shaped first Hf) as Hv. rewrite <- Ep in Hv at 1. pose proof (al_par_context isp cands par l lv c A) as Ec. rewrite <- Ep, <- El in Ec. pose proof (dp_validate_safe first c _ _ Hcts Hpts) as Hdp.
    destruct (ct_validate_for first (ct_par first)) as [u| |] eqn:Ev; [|unfold dot_product_scalar; rewrite Elen, Nat.eqb_refl, Ev; exact I|destruct Hv].
    destruct (dp_validate first c (combine (first :: cts) (pt0 :: pts))) as [u'| |] eqn:Edp; [|unfold dot_product_scalar; rewrite Elen, Nat.eqb_refl, Ev, Ec; cbn [negb bind]; cbv zeta; rewrite Edp; exact I|destruct Hdp].
    destruct (dot_valid isp cands Ho par G Hp first cts pt0 pts c u u' Hcts Hpts Elen Ev Ec Edp) as (ct & Ect & Hs). rewrite Ect. exact Hs.
  Qed.
  Lemma to_poly_total pt : usable_pt par pt -> exists l lv c (x : Rn N), at_level isp cands par l lv c /\ pt_level pt = Val l /\ (l <= max_level par)%nat /\ to_poly pt = Val (P Ntt c false x).
  Proof.
    intros (l & m & Hl & Hpt & HtQ). destruct (at_level_ex isp cands par l Ho G Hl) as (lv & c & A). destruct (pt_P isp cands Ho par G l lv c A pt m Hpt) as (x & E & _).
    assert (L : length (map (fun a => level_modulus par l * a / pa_t par) (coeffs_of par l (rl x))) = N) by (rewrite map_length, coeffs_length; apply rl_length).
    exists l, lv, c, (mkR _ L). split; [exact A|]. rewrite E. unfold P at 1. rewrite (pt_level_eq isp cands par l lv c A). split; [reflexivity|]. split; [exact Hl|]. exact (to_poly_eq isp cands par G l lv c A _ _ (rl x) (rl_length x) HtQ).
  Qed.
  Lemma pt_validate_safe pt : usable_pt par pt -> safe (pt_validate_for pt par) any.
  Proof.
    intros (l & m & Hl & Hpt & _). destruct (at_level_ex isp cands par l Ho G Hl) as (lv & c & A). destruct (pt_P isp cands Ho par G l lv c A pt m Hpt) as (x & E & _). unfold pt_validate_for. rewrite E. cbn [pt_par]. destruct (negb _); [exact I|].
    unfold P at 1. rewrite (pt_level_eq isp cands par l lv c A). cbn [bind]. rewrite (al_par_context isp cands par l lv c A). cbn [bind]. unfold pt_validate_context. unfold P at 1. rewrite (pt_level_eq isp cands par l lv c A). cbn [bind]. repeat match goal with |- safe (if ?b then _ else _) _ => destruct b end; exact I.
  Qed.
  Lemma sk_encrypt_safe expand sk pt sd rng : expands_well expand -> is_sk par sk -> usable_pt par pt -> words rng -> safe (sk_encrypt expand sk pt sd rng) shaped.
  Proof.
    intros Hx (E1 & E2 & E3) Hpt Hw. unfold sk_encrypt. rewrite E1. eapply safe_bind; [apply (pt_validate_safe pt Hpt)|]. intros _ _. destruct (to_poly_total pt Hpt) as (l & lv & c & x & A & _ & _ & ->). cbn [bind].
    destruct (encrypt_poly_P isp cands par l lv c Ho G A expand sk E2 sd rng false x Hx Hw E1 E3) as (a & _ & ->). apply (mk_shaped isp cands Ho par G Hp l lv c _ _ A).
  Qed.
  Lemma iter_level n : forall l lv c sd (vxs : list (bool * Rn N)), at_level isp cands par l lv c -> (l + n <= max_level par)%nat ->
    exists lv' c' sd' (vys : list (bool * Rn N)), at_level isp cands par (l + n) lv' c' /\ length vys = length vxs /\ iterM n ct_switch_down (mkCt par sd (parts c vxs) l) = Val (mkCt par sd' (parts c' vys) (l + n)).
  Proof.
    intros l lv c sd vxs A Hn. destruct (at_level_ex isp cands par (l + n) Ho G Hn) as (lv' & c' & A'). destruct (iter_switch_P isp cands par Ho G n l lv c lv' c' sd vxs A A') as (sd' & vys & E & L & _). exists lv', c', sd', vys. auto.
  Qed.
  Lemma pk_encrypt_safe pk pt ru r1 r2 : pk_shape par pk -> usable_pt par pt -> words ru -> words r1 -> words r2 -> safe (pk_encrypt pk pt ru r1 r2) shaped.
  Proof.
    destruct pk as [pp pc]. intros (Ep & n & Hn & Hpc) Hpt W0 W1 W2. cbn [pk_par pk_c] in *. subst pp. assert (Spc : shaped pc) by exact (some_ct_shaped isp cands Ho par G Hp 0 n pc (Nat.le_0_l _) Hpc). unfold pk_encrypt. cbn [pk_par pk_c]. cbv zeta.
    eapply safe_bind; [apply (pt_validate_safe pt Hpt)|]. intros _ _. eapply safe_bind; [apply (validate_shaped pc Spc)|]. intros ? H2. cbn beta in H2. destruct (to_poly_total pt Hpt) as (l & lv & c & x & A & -> & Hmax & ->). cbn [bind]. destruct (Nat.ltb_spec l (ct_level pc)) as [|Hle]; [exact I|].
    destruct Spc as (l0 & lv0 & c0 & vxs & A0 & Epc). pose proof (eq_refl (length (ct_c pc))) as Hq. rewrite Epc in Hq at 2. cbn [ct_c] in Hq. rewrite parts_length in Hq. rewrite Epc in Hle |- *. cbn [ct_level ct_c] in Hle |- *.
    destruct (iter_level (l - l0) l0 lv0 c0 (ct_seed pc) vxs A0) as (lv' & c' & sd' & vys & A' & Ly & ->); [lia|]. replace (l0 + (l - l0))%nat with l in A' |- * by lia. destruct (at_level_unique _ _ _ _ _ _ _ _ A A') as (<- & <-). cbn [bind ct_level ct_c].
    rewrite (al_par_context isp cands par l lv c A). cbn [bind]. pose proof (good_ok _ (al_good _ _ _ _ _ _ A)) as Hc. pose proof (al_deg _ _ _ _ _ _ A) as Hd. rewrite !(P_small c Hc N Hd Ntt (pa_variance par)) by (assumption || exact (var_good isp cands par l lv c Ho G A)). cbn [bind].
    destruct vys as [|(v0 & y0) [|(v1 & y1) vys]]; cbn [length] in Ly; [lia..|]. cbn [parts map fst snd get nth_error unwrap bind]. repeat (rewrite ?(P_mul c Hc N Hd); cbn [bind]; rewrite ?(P_add c Hc N Hd) by discriminate; cbn [bind]).
    rewrite !P_allow. apply (all_shaped isp cands Ho par G Hp l lv c); [exact A|]. eexists [(true, _); (true, _)]. reflexivity.
  Qed.
  Lemma new_safe ps : Forall (fun p => exists l x, (l <= max_level par)%nat /\ is_poly par l p x) ps -> safe (ct_new ps par) shaped.
  Proof.
    intros H. destruct ps as [|p0 [|p1 ps]]; try exact I. pose proof (Forall_inv H) as (l & x & Hl & Hp0). destruct (at_level_ex isp cands par l Ho G Hl) as (lv & c & A). destruct (is_poly_P isp cands Ho par G l lv c A p0 x Hp0) as (y & Ey & _). unfold ct_new. rewrite Ey at 1. rewrite P_ctx, (al_level_of isp cands par l lv c A). cbn [bind].
    destruct (existsb _ _) eqn:Ee; [exact I|]. cbn [safe]. apply (all_shaped isp cands Ho par G Hp l lv c); [exact A|]. apply (all_P_Forall c (good_ok _ (al_good _ _ _ _ _ _ A)) N (al_deg _ _ _ _ _ _ A)). rewrite Forall_forall in H |- *. intros p Hin. destruct (H p Hin) as (l' & x' & Hl' & Hpx). destruct (at_level_ex isp cands par l' Ho G Hl') as (lv' & c' & A').
    destruct (is_poly_P isp cands Ho par G l' lv' c' A' p x' Hpx) as (y' & Ey' & _). assert (E : c' = c); [|subst c'; eauto]. assert (Ec0 : p_ctx p0 = c) by (rewrite Ey; apply P_ctx). assert (Hex : negb (ctx_eqb (p_ctx p) c) = false). { destruct (negb (ctx_eqb (p_ctx p) c)) eqn:En; [|reflexivity]. rewrite <- Ee. symmetry. apply existsb_exists. exists p. split; [exact Hin|]. rewrite Ec0. exact En. }
    apply negb_false_iff in Hex. rewrite Ey', P_ctx in Hex. symmetry. exact (same_level isp cands Ho par G Hp l' lv' c' l lv c A' A Hex).
  Qed.
  Lemma share_safe sk1 sk2 a rng : is_sk par sk1 -> is_sk par sk2 -> words rng -> shaped a -> safe (sks_new sk1 sk2 a rng) any.
  Proof.
    intros H1 H2 Hr (l & lv & c & vxs & A & E). rewrite E. destruct (Nat.eqb_spec (length vxs) 2) as [E2|Hne].
    - destruct vxs as [|(v0 & x0) [|(v1 & x1) [|? ?]]]; try discriminate. rewrite (sks_new_P isp cands Ho par G l lv c A) by assumption. exact I.
    - unfold sks_new. rewrite (proj1 H1), (proj1 H2). cbn [ct_par ct_c]. rewrite par_eqb_refl. cbn [negb]. rewrite parts_length. apply Nat.eqb_neq in Hne. rewrite Hne. exact I.
  Qed.
  Lemma share_total sk1 sk2 a rng : is_sk par sk1 -> is_sk par sk2 -> words rng -> shaped a -> length (ct_c a) = 2%nat -> exists s, sks_new sk1 sk2 a rng = Val s.
  Proof.
    intros H1 H2 Hr (l & lv & c & vxs & A & E) L. rewrite E in L |- *. cbn [ct_c] in L. rewrite parts_length in L. destruct vxs as [|(v0 & x0) [|(v1 & x1) [|? ?]]]; try discriminate. rewrite (sks_new_P isp cands Ho par G l lv c A) by assumption. eauto.
  Qed.
  Lemma pt_level_total l pt m : (l <= max_level par)%nat -> is_pt par l pt m -> pt_level pt = Val l.
  Proof. intros Hl Hpt. destruct (at_level_ex isp cands par l Ho G Hl) as (lv & c & A). destruct (pt_P isp cands Ho par G l lv c A pt m Hpt) as (x & E & _). rewrite E. unfold P at 1. apply (pt_level_eq isp cands par l lv c A). Qed.
  Lemma zero_sk : is_sk par (mkSk par (repeat 0 N)).
  Proof. split; [reflexivity|]. split; [apply repeat_length|]. cbn [sk_coeffs]. apply Forall_forall. intros x Hx. apply repeat_spec in Hx. subst x. unfold is_i64. lia. Qed.
  (** Multiplicators whose scalers stay within the bound never fail. *)
  Definition scales (s : scaler) (from to : ctx) : Prop := forall v (x : Rn N), exists y : Rn N, poly_scale s (P Ntt from v x) = Val (P Ntt to v y).
  Definition tame_ok (m : multiplicator) : Prop := exists l lv c, at_level isp cands par l lv c /\ m_par m = par /\ m_level m = l /\ m_base m = c /\ ctx_ok (m_mul m) /\ c_degree (m_mul m) = N /\
    scales (m_lhs m) c (m_mul m) /\ scales (m_rhs m) c (m_mul m) /\ scales (m_down m) (m_mul m) c /\ match m_rk m with None => True | Some rk => safe_key par l c rk end.
  Lemma tame_scales from to f s : ctx_ok from -> ctx_ok to -> c_degree from = N -> c_degree to = N -> built isp cands from -> built isp cands to -> tame f (c_moduli from) -> poly_scaler_new from to f = Val s -> scales s from to.
  Proof.
    intros Hf Ht Df Dt Bf Bt (Ef & Hn & Hd & HL & Hlen) Es. destruct (poly_scale_eq from to Hf Ht ltac:(congruence) (built_same_ops isp cands from to Bf Bt ltac:(congruence)) _ _ f Hlen Hn Hd Ef HL) as (s' & Es' & Hs). rewrite Es in Es'. injection Es' as <-.
    intros v x. destruct (Hs Ntt v (rl x)) as (y & Ly & _ & Ey); [discriminate|rewrite Df; apply rl_length|]. rewrite Df in Ly. exists (mkR y Ly). exact Ey.
  Qed.
  Lemma tame_is_ok m : tame_multiplier isp cands par m -> tame_ok m.
  Proof.
    induction 1 as [lhs rhs basis post l m Hl H T1 T2 T3|m l1 l2 rk m' _ IH Hk Hf H|m m' _ IH H].
    - destruct (at_level_ex isp cands par l Ho G Hl) as (lv & c & A). unfold mult_new in H. rewrite (al_par_context isp cands par l lv c A) in H. cbn [bind] in H. apply bind_inv in H. destruct H as (mc & Emc & H). destruct (context_new_good isp (proj1 Ho) cands (proj2 Ho) _ _ _ Emc) as (Gm & Mm & Dm).
      apply bind_inv in H. destruct H as (el & E1 & H). apply bind_inv in H. destruct H as (er & E2 & H). apply bind_inv in H. destruct H as (ds & E3 & H). injection H as <-. exists l, lv, c. cbn [m_par m_level m_base m_mul m_lhs m_rhs m_down m_rk]. pose proof (good_ok _ Gm) as Hm. pose proof (good_ok _ (al_good _ _ _ _ _ _ A)) as Hc. pose proof (al_deg _ _ _ _ _ _ A) as Hd.
      assert (Bt : built isp cands mc) by (eexists _, _; exact Emc). assert (Bc : built isp cands c) by (eexists _, _; exact (al_new _ _ _ _ _ _ A)). rewrite <- (al_mod _ _ _ _ _ _ A) in T1, T2. rewrite <- Mm in T3.
      repeat (split; [first [assumption|reflexivity|eapply tame_scales; [..|eassumption]; eassumption]|]). exact I.
    - destruct IH as (l & lv & c & A & E1 & E2 & E3 & E4 & E5 & E6 & E7 & E8 & _). unfold mult_enable_relin in H. rewrite E1 in H. apply bind_inv in H. destruct H as (c1 & Ec & H). destruct (ctx_eqb c1 (m_base m)) eqn:Ecc; [|discriminate]. cbn [negb] in H. injection H as <-.
      exists l, lv, c. cbn [m_par m_level m_base m_mul m_lhs m_rhs m_down m_rk]. repeat (split; [first [assumption|reflexivity]|]). pose proof Hk as (_ & Kl & _ & Hl1 & _). rewrite Kl in Ec. destruct (at_level_ex isp cands par l1 Ho G Hl1) as (lv1 & c1' & A1). rewrite (al_par_context isp cands par l1 lv1 c1' A1) in Ec. injection Ec as <-.
      rewrite E3 in Ecc. apply ctx_eqb_true in Ecc. destruct Ecc as (Em & _). rewrite (al_mod _ _ _ _ _ _ A1), (al_mod _ _ _ _ _ _ A) in Em. apply (f_equal (@length Z)) in Em. pose proof (al_lt _ _ _ _ _ _ A) as L0. pose proof (al_lt _ _ _ _ _ _ A1) as L1. unfold level_moduli in Em. rewrite !firstn_length in Em. assert (El : l1 = l) by lia. clear - A Hk Hf El Ho G. rewrite El in Hk. exact (shape_safe isp cands Ho par G l l2 rk lv c A Hk Hf).
    - destruct IH as (l & lv & c & A & E1 & E2 & E3 & E4 & E5 & E6 & E7 & E8 & E9). unfold mult_enable_switch in H. apply bind_inv in H. destruct H as (c1 & _ & H). destruct (ctx_eqb c1 (m_base m)); [discriminate|]. injection H as <-. exists l, lv, c. cbn [m_par m_level m_base m_mul m_lhs m_rhs m_down m_rk]. auto 12.
  Qed.
  Lemma multiply_safe m a b : tame_multiplier isp cands par m -> shaped a -> shaped b -> safe (mult_multiply m a b) shaped.
  Proof.
    intros Hm Ha Hb. destruct (tame_is_ok m Hm) as (l & lv & c & A & E1 & E2 & E3 & Hmc & Hmd & S1 & S2 & S3 & Hrk). unfold mult_multiply. rewrite E1. eapply safe_bind; [apply (validate_shaped a Ha)|]. intros _ _. eapply safe_bind; [apply (validate_shaped b Hb)|]. intros _ _. rewrite E2.
    destruct (Nat.eqb_spec (ct_level a) l) as [La|]; [|exact I]. destruct (Nat.eqb_spec (ct_level b) l) as [Lb|]; [|exact I]. cbn [negb]. pose proof (good_ok _ (al_good _ _ _ _ _ _ A)) as Hc. pose proof (al_deg _ _ _ _ _ _ A) as Hd.
    destruct (some_level isp cands Ho par G l lv c A a Ha La) as (vxs & Ea). destruct (some_level isp cands Ho par G l lv c A b Hb Lb) as (vys & Eb). rewrite Ea, Eb. cbn [ct_c]. destruct vxs as [|(v0 & x0) [|(v1 & x1) [|? ?]]]; try exact I. destruct vys as [|(w0 & y0) [|(w1 & y1) [|? ?]]]; try exact I. cbn [parts map fst snd].
    destruct (S1 v0 x0) as (a00 & ->). cbn [bind]. destruct (S1 v1 x1) as (a01 & ->). cbn [bind]. destruct (S2 w0 y0) as (a10 & ->). cbn [bind]. destruct (S2 w1 y1) as (a11 & ->). cbn [bind].
    repeat (rewrite ?(P_mul _ Hmc N Hmd); cbn [bind]; rewrite ?(P_add _ Hmc N Hmd) by discriminate; cbn [bind]).
    do 3 match goal with |- context [poly_scale (m_down m) (P Ntt (m_mul m) ?v ?x)] => let y := fresh in destruct (S3 v x) as (y & ->); cbn [bind] end.
    match goal with |- safe (bind ?e _) _ => assert (HP : safe e (all_P c N)) end.
    { destruct (m_rk m) as [rk|]; [|eexists [(_, _); (_, _); (_, _)]; reflexivity]. rewrite (P_ntt_pb c Hc N Hd). cbn [bind]. rewrite !P_ctx, (bind_assoc isp cands Ho par G l lv c A). destruct Hrk as (_ & _ & HK). eapply safe_bind; [exact (proj1 (HK _ _))|]. intros pr (z0 & z1 & d0 & d1 & ->). cbn [fst snd].
      repeat (rewrite ?(P_add c Hc N Hd) by discriminate; cbn [bind]). eexists [(_, _); (_, _)]. reflexivity. }
    eapply safe_bind; [exact HP|]. intros ps Hps. cbv zeta. pose proof (all_shaped isp cands Ho par G Hp l lv c None ps A Hps) as Hs. destruct (m_switch m); [apply down_safe, Hs|exact Hs].
  Qed.
  Lemma relax {A} (m : M A) Q : safe m Q -> m <> Panic.
  Proof. destruct m; [discriminate..|intros []]. Qed.
  Theorem call_safe expand ins A (m : M A) : serializable par -> expands_well expand -> supported par -> Forall shaped ins -> call isp cands expand par ins A m -> m <> Panic.
  Proof.
    intros Hser Hx Hsup Hins Hcall. destruct Hcall; try (pose proof (Forall_inv Hins) as Ha); try (pose proof (some_any isp cands Ho par G _ Ha) as Hany).
    - eapply relax, new_safe; assumption.
    - eapply relax, (ct_read_all isp cands par Ho Hp Hser expand Hx); assumption.
    - eapply relax, sk_encrypt_safe; assumption.
    - eapply relax, pk_encrypt_safe; assumption.
    - eapply relax, decrypt_safe; assumption.
    - eapply relax, noise_safe; assumption.
    - eapply relax, dot_safe; assumption.
    - eapply relax, multiply_safe; [assumption..|]. exact (Forall_inv (Forall_inv_tail Hins)).
    - eapply relax, down_safe; assumption.
    - eapply relax, level_safe; assumption.
    - eapply relax, (relinearizes_safe_all isp cands par Ho Hp); eassumption.
    - eapply relax, (proj1 (galois_safe_all isp cands par Ho Hp l1 l2 g H H0 a Hany)).
    - eapply relax, (proj1 (ek_safe_all isp cands par Ho Hp l ek H H0 a Hany)).
    - eapply relax, (proj1 (proj2 (ek_safe_all isp cands par Ho Hp l ek H H0 a Hany))).
    - eapply relax, (proj1 (proj2 (proj2 (ek_safe_all isp cands par Ho Hp l ek H H0 a Hany)))).
    - eapply relax, (proj2 (proj2 (proj2 (ek_safe_all isp cands par Ho Hp l ek H H0 a Hany)))).
    - eapply relax, share_safe; assumption.
    - eapply relax. unfold dec_share_new. rewrite (proj1 H). apply share_safe; try assumption. exact zero_sk.
  Qed.
End Calls.
