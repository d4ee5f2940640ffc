(** Proofs about ciphertexts: phases, decryption, encryption. *)
From Verif Require Import Outcome BasicSpec OutcomeLemmas ZqModel ZqProofs NumTheory NttModel PolySpec PolyRing NttPure NttStages NttProofs CbdModel CbdSpec CbdProofs.
From Verif Require Import TranscodeModel RnsModel RnsSpec RnsProofs RqModel RqSpec RqCtx RqRows RqProofs RingRn RqOps RqIO ParamsModel BfvSpec ParamsProofs BuildProofs PlainModel CipherModel OpsModel SchemeSpec CipherSpec PlainProofs RnPoly.
From Coq Require Import Znumtheory.

(** ** Sums of moduli *)
Lemma sum_of_nonneg l : Forall (fun q => 0 <= q) l -> 0 <= sum_of l.
Proof. induction 1; cbn [sum_of]; lia. Qed.
Lemma sum_firstn i l : Forall (fun q => 0 <= q) l -> sum_of (firstn i l) <= sum_of l.
Proof.
  intros H. revert i. induction H as [|q l Hq Hl IH]; intros [|i]; cbn [firstn sum_of]; [lia|lia| |specialize (IH i); lia].
  pose proof (sum_of_nonneg l Hl). lia.
Qed.
Lemma sum_residues qs x : Forall (fun q => 0 < q) qs -> 0 <= sum_of (residues_of qs x) <= sum_of qs.
Proof. unfold residues_of. induction 1 as [|q l Hq Hl IH]; cbn [map sum_of]; [lia|]. pose proof (Z.mod_pos_bound x q Hq). lia. Qed.
Lemma sum_filtered (f : Z -> bool) qs : Forall (fun q => 0 <= q) qs -> sum_of (map (fun q => if f q then 0 else q) qs) <= sum_of qs.
Proof. induction 1 as [|q l Hq Hl IH]; cbn [map sum_of]; [lia|]. destruct (f q); lia. Qed.

(** ** The rounding of decryption *)
Lemma scaled_value_bounds qs num den x y : Forall (fun q => 2 <= q < W62) qs -> sum_of qs < 2 ^ 65 -> Z.of_nat (length qs) <= 2 ^ 20 -> 0 < den -> scaled_value qs num den x y ->
  exists x', x' mod prod_list qs = x mod prod_list qs /\ 2 ^ 45 * Z.abs x' <= prod_list qs * (2 ^ 44 + 1) /\
    2 ^ 61 * Z.abs (den * y - num * x') <= den * (2 ^ 60 + 1).
Proof.
  intros Hq Hs Hl Hd (x' & E & Hk & _ & Hy). exists x'. split; [exact E|]. pose proof (prod_list_pos qs Hq) as HQ.
  assert (Hs' : 0 <= sum_of (residues_of qs x) <= 2 ^ 65). { pose proof (sum_residues qs x ltac:(eapply Forall_impl; [|exact Hq]; cbv beta; intros; lia)). lia. }
  assert (H109 : 2 ^ (109 + 1) * Z.abs x' <= prod_list qs * (2 ^ 109 + sum_of (residues_of qs x))).
  { apply Hk; [lia|]. intros q Hin. rewrite Forall_forall in Hq. specialize (Hq q Hin). change (2 ^ (191 - 109)) with (W62 * 2 ^ 20). nia. }
  clear Hk. set (S := sum_of (residues_of qs x)) in *. generalize dependent (prod_list qs). intros Q E HQ H109. split.
  - clear Hy E. assert (prod : Q * (2 ^ 109 + S) <= Q * (2 ^ 65 * (2 ^ 44 + 1))) by (apply Z.mul_le_mono_nonneg_l; lia).
    change (2 ^ (109 + 1)) with (2 ^ 110) in H109. replace (2 ^ 110 * Z.abs x') with (2 ^ 65 * (2 ^ 45 * Z.abs x')) in H109 by ring. replace (Q * (2 ^ 65 * (2 ^ 44 + 1))) with (2 ^ 65 * (Q * (2 ^ 44 + 1))) in prod by ring.
    apply Z.mul_le_mono_pos_l with (p := 2 ^ 65); lia.
  - clear H109 E. assert (prod : den * (2 ^ 126 + 2 * S) <= den * (2 ^ 66 * (2 ^ 60 + 1))) by (apply Z.mul_le_mono_nonneg_l; lia).
    set (u := Z.abs (den * y - num * x')) in *. replace (2 ^ 127 * u) with (2 ^ 66 * (2 ^ 61 * u)) in Hy by ring. replace (den * (2 ^ 66 * (2 ^ 60 + 1))) with (2 ^ 66 * (den * (2 ^ 60 + 1))) in prod by ring.
    apply Z.mul_le_mono_pos_l with (p := 2 ^ 66); lia.
Qed.

Lemma dec_value qs t m e x y B : Forall (fun q => 2 <= q < W62) qs -> sum_of qs < 2 ^ 65 -> Z.of_nat (length qs) <= 2 ^ 20 -> 2 <= t ->
  let Q := prod_list qs in
  cong Q x (Q * m / t + e) -> scaled_value qs t Q x y -> 2 ^ 60 * (2 * t * (Z.abs e + 1)) <= (2 ^ 60 - 1) * Q -> 3 * t + t / 2 ^ 40 + 4 <= 2 * B ->
  - t <= y < B - t /\ y mod t = m mod t.
Proof.
  intros Hq Hs Hl Ht Q Hx Hsv He HB. pose proof (prod_list_pos qs Hq) as HQ. fold Q in HQ.
  destruct (scaled_value_bounds qs t Q x y Hq Hs Hl HQ Hsv) as (x' & E & H1 & H2). fold Q in E, H1.
  assert (Hx' : cong Q x' (Q * m / t + e)) by (unfold cong in *; congruence). apply cong_divide in Hx'; [|exact HQ]. destruct Hx' as (j & Hj).
  pose proof (Z.div_mod (Q * m) t ltac:(lia)) as Hd. pose proof (Z.mod_pos_bound (Q * m) t ltac:(lia)) as Hr. set (r := (Q * m) mod t) in *. set (f := Q * m / t) in *.
  assert (Etx : t * x' = Q * m - r + t * e + j * Q * t) by (assert (x' = f + e + j * Q) by lia; subst x'; nia).
  clearbody f r. clear Hsv Hx Hq Hs Hl E.
  assert (Hyk : y = m + j * t).
  { assert (A1 : Z.abs (Q * (y - m - j * t)) < Q).
    { replace (Q * (y - m - j * t)) with (Q * y - t * x' + (t * e - r)) by (rewrite Etx; ring).
      assert (A2 : Z.abs (t * e - r) < t * (Z.abs e + 1)) by (assert (Z.abs (t * e) = t * Z.abs e) by (rewrite Z.abs_mul; lia); lia).
      set (a := Q * y - t * x') in *. set (b := t * e - r) in *. set (g := t * (Z.abs e + 1)) in *.
      replace (2 ^ 60 * (2 * t * (Z.abs e + 1))) with (2 ^ 61 * g) in He by (unfold g; ring). clearbody a b g. clear -A2 He H2. lia. }
    rewrite Z.abs_mul, (Z.abs_eq Q) in A1 by lia. assert (Z.abs (y - m - j * t) < 1) by (clear -A1 HQ; nia). lia. }
  split; [|rewrite Hyk, Z_mod_plus_full; reflexivity].
  assert (A3 : 2 ^ 61 * (Q * Z.abs y) <= Q * (2 ^ 60 * t + 2 ^ 16 * t + 2 ^ 60 + 1)).
  { assert (B1 : Q * Z.abs y <= Z.abs (Q * y - t * x') + t * Z.abs x').
    { rewrite <- (Z.abs_eq Q) at 1 by lia. rewrite <- Z.abs_mul. rewrite <- (Z.abs_eq t) at 2 by lia. rewrite <- Z.abs_mul. lia. }
    assert (B2 : 2 ^ 61 * (t * Z.abs x') <= t * (Q * (2 ^ 60 + 2 ^ 16))).
    { replace (2 ^ 61 * (t * Z.abs x')) with (t * (2 ^ 16 * (2 ^ 45 * Z.abs x'))) by ring. replace (Q * (2 ^ 60 + 2 ^ 16)) with (2 ^ 16 * (Q * (2 ^ 44 + 1))) by ring. apply Z.mul_le_mono_nonneg_l; [lia|]. apply Z.mul_le_mono_nonneg_l; [lia|exact H1]. }
    clear -B1 B2 H2. set (a := Z.abs (Q * y - t * x')) in *. set (b := t * Z.abs x') in *. set (d := Q * Z.abs y) in *. replace (t * (Q * (2 ^ 60 + 2 ^ 16))) with (Q * t * (2 ^ 60 + 2 ^ 16)) in B2 by ring.
    replace (Q * (2 ^ 60 * t + 2 ^ 16 * t + 2 ^ 60 + 1)) with (Q * t * (2 ^ 60 + 2 ^ 16) + Q * (2 ^ 60 + 1)) by ring. lia. }
  assert (A4 : 2 ^ 61 * Z.abs y <= 2 ^ 60 * t + 2 ^ 16 * t + 2 ^ 60 + 1). { apply Z.mul_le_mono_pos_l with (p := Q); [exact HQ|]. replace (Q * (2 ^ 61 * Z.abs y)) with (2 ^ 61 * (Q * Z.abs y)) by ring. exact A3. }
  pose proof (Z.div_mod t (2 ^ 40) ltac:(lia)). pose proof (Z.mod_pos_bound t (2 ^ 40) ltac:(lia)). clear -A4 Ht HB H H0. set (k := t / 2 ^ 40) in *. lia.
Qed.

Set Default Proof Using "All".
Lemma Forall2_nth_Z (R : Z -> Z -> Prop) x y k : Forall2 R x y -> (k < length x)%nat -> R (nth k x 0) (nth k y 0).
Proof. intros H. revert k. induction H; intros [|k] Hk; cbn [length nth] in *; try lia; [assumption|]. apply IHForall2. lia. Qed.
Lemma load_bound t qs : Forall (fun q => 2 <= q < W62) qs -> load t (prod_list qs) qs <= sum_of qs.
Proof.
  intros H. unfold load. cbv zeta. rewrite Z_mod_mult, Z.eqb_refl. pose proof (sum_filtered (fun q => (t * (prod_list qs / q)) mod prod_list qs =? 0) qs) as Hs.
  assert (Forall (fun q => 0 <= q) qs) by (eapply Forall_impl; [|exact H]; cbv beta; intros; lia). specialize (Hs H0). cbv beta in Hs. rewrite Z.add_0_r. exact Hs.
Qed.

(** ** Phases *)
Section Phase.
  Context {N : nat}.
  Definition rphase (s : Rn N) (xs : list (Rn N)) : Rn N := fold_right (fun x acc => x + s * acc)%R (r0 N) xs.
  Definition parts (c : ctx) (vxs : list (bool * Rn N)) : list (poly Ntt) := map (fun vx => P Ntt c (fst vx) (snd vx)) vxs.
  Add Ring RnRing : (Rn_ring N).
  Lemma phase_loop_eq c (Hc : ctx_ok c) (HN : c_degree c = N) (s : Rn N) vs : forall vxs v vi si c0, exists v',
    phase_loop (P Ntt c vs s) (parts c vxs) (P Ntt c vi si) (P Ntt c v c0) = Val (P Ntt c v' (c0 + si * rphase s (map snd vxs))%R).
  Proof.
    induction vxs as [|(w & x) vxs IH]; intros v vi si c0.
    - exists v. cbn [parts map phase_loop rphase fold_right]. do 2 f_equal. ring.
    - cbn [parts map phase_loop]. rewrite P_disallow, (P_mul c Hc N HN). cbn [bind]. rewrite (P_add c Hc N HN) by discriminate. cbn [bind].
      fold (parts c vxs). destruct vxs as [|vx vxs].
      + cbn [parts map bind]. edestruct IH as (v' & E). cbn [parts map snd rphase fold_right] in E. exists v'. rewrite E. do 2 f_equal. cbn [map snd rphase fold_right fst]. ring.
      + cbn [parts map]. rewrite (P_mul c Hc N HN). cbn [bind]. edestruct IH as (v' & E). cbn [parts map] in E. exists v'. rewrite E. do 2 f_equal. cbn [map snd rphase fold_right]. ring.
  Qed.
  Lemma phase_loop_all_eq c (Hc : ctx_ok c) (HN : c_degree c = N) (s : Rn N) vs : forall vxs v vi si c0, exists v',
    phase_loop_all (P Ntt c vs s) (parts c vxs) (P Ntt c vi si) (P Ntt c v c0) = Val (P Ntt c v' (c0 + si * rphase s (map snd vxs))%R).
  Proof.
    induction vxs as [|(w & x) vxs IH]; intros v vi si c0.
    - exists v. cbn [parts map phase_loop_all rphase fold_right]. do 2 f_equal. ring.
    - cbn [parts map phase_loop_all]. rewrite P_disallow, (P_mul c Hc N HN). cbn [bind]. rewrite (P_add c Hc N HN) by discriminate. cbn [bind].
      fold (parts c vxs). rewrite (P_mul c Hc N HN). cbn [bind]. edestruct IH as (v' & E). exists v'. rewrite E. do 2 f_equal. cbn [snd]. change (rphase s (x :: map snd vxs)) with (x + s * rphase s (map snd vxs))%R. ring.
  Qed.
  Lemma rphase_cong Q s xs ys : 0 < Q -> Forall2 (rcong Q) xs ys -> rcong Q (rphase s xs) (rphase s ys).
  Proof. intros HQ. induction 1; cbn [rphase fold_right]; [apply rcong_refl|]. apply rcong_add; [assumption|]. apply rcong_mul; [exact HQ|apply rcong_refl|assumption]. Qed.
End Phase.

(** The message scaled by Q/t *)
Definition rscaled {N} (Q t : Z) (m : Rn N) : Rn N := mkR (map (fun a => Q * a / t) (rl m)) (eq_trans (map_length _ _) (rl_length m)).

Section Level.
  Variables (isp : Z -> bool) (cands : Z -> list Z) (Ho : oracles isp cands) (par : params) (G : good_params isp cands par).
  Variables (l : nat) (lv : level_ctx) (c : ctx) (A : at_level isp cands par l lv c).
  Notation N := (pa_degree par).
  Notation t := (pa_t par).
  Notation Q := (prod_list (level_moduli (pa_moduli par) l)).
  Local Lemma Hg : good_ctx c. Proof. exact (al_good _ _ _ _ _ _ A). Qed.
  Local Lemma Hc : ctx_ok c. Proof. exact (good_ok _ Hg). Qed.
  Local Lemma Hdeg : c_degree c = N. Proof. exact (al_deg _ _ _ _ _ _ A). Qed.
  Local Lemma Hmod : c_moduli c = level_moduli (pa_moduli par) l. Proof. exact (al_mod _ _ _ _ _ _ A). Qed.
  Lemma moduli_range : Forall (fun q => 2 <= q < W62) (pa_moduli par).
  Proof. eapply Forall_impl; [|exact (gp_friendly _ _ _ G)]. intros z (Pz & Hz & _). apply prime_ge_2 in Pz. lia. Qed.
  Lemma level_range : Forall (fun q => 2 <= q < W62) (level_moduli (pa_moduli par) l).
  Proof. apply Forall_firstn, moduli_range. Qed.
  Lemma level_supported : supported par -> sum_of (level_moduli (pa_moduli par) l) < 2 ^ 65 /\ Z.of_nat (length (level_moduli (pa_moduli par) l)) <= 2 ^ 20.
  Proof.
    intros (H1 & H2). split.
    - pose proof (sum_firstn (length (pa_moduli par) - l) (pa_moduli par)) as H. assert (Forall (fun q => 0 <= q) (pa_moduli par)) by (eapply Forall_impl; [|exact moduli_range]; cbv beta; intros; lia). specialize (H H0). unfold level_moduli. lia.
    - unfold level_moduli. rewrite firstn_length. lia.
  Qed.
  Lemma Qpos : 0 < Q.
  Proof. apply prod_list_pos, level_range. Qed.

  Definition plain_prod : Z := prod_list (firstn (plaintext_moduli_count (pa_moduli par) (pa_sizes par) t) (pa_moduli par)).
  Lemma plain_scale : supported par -> exists plain, ctx_ok plain /\ c_degree plain = N /\ modulus_of plain = plain_prod /\ (exists r, c_moduli plain = hd 0 (pa_moduli par) :: r) /\
    forall v (x : Rn N), exists y : Rn N, Forall2 (scaled_value (level_moduli (pa_moduli par) l) t Q) (rl x) (rl y) /\
      poly_scale (cp_scaler (lv_cp lv)) (P PowerBasis c v x) = Val (P PowerBasis plain v y).
  Proof.
    intros Hs. destruct (level_supported Hs) as (Hs1 & Hs2). destruct (al_gl _ _ _ _ _ _ A) as (plain & Gp & Em & Ed & Bp & GL). exists plain. split; [apply good_ok, Gp|]. split; [exact Ed|].
    split; [unfold modulus_of, plain_prod; rewrite Em; reflexivity|]. split.
    { rewrite Em. pose proof (gp_ne _ _ _ G) as Hne. destruct (pa_moduli par) as [|q0 ms]; [congruence|]. unfold plaintext_moduli_count.
      assert (H1 : (1 <= Nat.min (Nat.max (plain_count (pa_sizes par) (nbits t) 0) 1) (length (q0 :: ms)))%nat) by (cbn [length]; lia). revert H1. generalize (Nat.min (Nat.max (plain_count (pa_sizes par) (nbits t) 0) 1) (length (q0 :: ms))). intros [|k] H1; [lia|]. cbn [firstn hd]. eexists. reflexivity. }
    pose proof (gl_cp _ _ _ _ _ _ _ _ GL) as GC. pose proof (gc_scaler _ _ _ _ _ _ _ GC) as Esc. rewrite <- (gl_ctx _ _ _ _ _ _ _ _ GL), (al_ctx _ _ _ _ _ _ A) in Esc. fold (level_moduli (pa_moduli par) l) in Esc.
    pose proof (gp_t _ _ _ G) as Ht. pose proof Qpos as HQ.
    assert (Bc : built isp cands c) by (eexists _, _; exact (al_new _ _ _ _ _ _ A)).
    assert (Hops : same_ops c plain) by (apply (built_same_ops isp cands); [exact Bc|exact Bp|rewrite Hdeg, Ed; reflexivity]).
    assert (Ef : factor_new t Q = Val (mkFactor t Q (t =? Q))) by (unfold factor_new; replace (Q =? 0) with false by (symmetry; apply Z.eqb_neq; lia); reflexivity).
    destruct (poly_scale_eq c plain Hc (good_ok _ Gp) ltac:(rewrite Hdeg, Ed; reflexivity) Hops t Q (mkFactor t Q (t =? Q))) as (s & Es & Hsc).
    - rewrite Hmod. assert (2 ^ 20 < 2 ^ 60) by reflexivity. lia.
    - lia.
    - lia.
    - exact Ef.
    - right. rewrite Hmod. pose proof (load_bound t _ level_range). lia.
    - rewrite Esc in Es. injection Es as <-. intros v x. destruct (Hsc PowerBasis v (rl x) ltac:(discriminate) ltac:(rewrite Hdeg; apply rl_length)) as (y & Ly & Hy & E).
      assert (Ly' : length y = N) by (rewrite Ly; exact Hdeg). exists (mkR y Ly'). split; [rewrite Hmod in Hy; exact Hy|exact E].
  Qed.

  Lemma ct_validate_eq sd (vxs : list (bool * Rn N)) : (2 <= length vxs)%nat -> ct_validate_for (mkCt par sd (parts c vxs) l) par = Val tt.
  Proof.
    intros H. unfold ct_validate_for. cbn [ct_par ct_level]. unfold par_same. rewrite Z.eqb_refl. cbn [negb]. rewrite (al_par_context isp cands par l lv c A). cbn [bind]. unfold ct_validate_context. cbn [ct_c ct_level].
    unfold parts. rewrite map_length. destruct (Nat.ltb_spec (length vxs) 2); [lia|]. rewrite Nat.eqb_refl. cbn [negb].
    replace (existsb (fun p => negb (ctx_eqb (p_ctx p) c)) (map (fun vx => P Ntt c (fst vx) (snd vx)) vxs)) with false; [reflexivity|].
    symmetry. clear H H0. induction vxs as [|vx vxs IH]; [reflexivity|]. cbn [map existsb]. rewrite P_ctx, ctx_eqb_refl. cbn [negb orb]. exact IH.
  Qed.
  Lemma sk_poly_eq sk (Hl : length (sk_coeffs sk) = N) : Forall is_i64 (sk_coeffs sk) -> sk_poly sk c = Val (P Ntt c false (mkR (sk_coeffs sk) Hl)).
  Proof. intros H. unfold sk_poly. rewrite (P_from_i64 c Hc N Hdeg _ false Hl H). cbn [bind]. apply (P_pb_ntt c Hc N Hdeg). Qed.

  Definition dec_base : Z := match pa_small par with Some _ => hd 0 (pa_moduli par) | None => plain_prod end.
  Definition dec_room : Prop := 3 * t + t / 2 ^ 40 + 4 <= 2 * dec_base.
  Definition unscale (y : Rn N) : Rn N := mkR (map (fun v => ((v mod dec_base + t) mod dec_base) mod t) (rl y)) (eq_trans (map_length _ _) (rl_length y)).
  Lemma plain_prod_pos : 0 < plain_prod.
  Proof. apply prod_list_pos, Forall_firstn, moduli_range. Qed.
  Theorem decrypt_raw sk (Hl : length (sk_coeffs sk) = N) sd vxs : sk_par sk = par -> Forall is_i64 (sk_coeffs sk) -> (2 <= length vxs)%nat -> supported par -> t <= Q ->
    exists y : Rn N, Forall2 (scaled_value (level_moduli (pa_moduli par) l) t Q) (rl (rphase (mkR (sk_coeffs sk) Hl) (map snd vxs))) (rl y) /\
      sk_decrypt sk (mkCt par sd (parts c vxs) l) = Val (mkPt par None (P Ntt c false (unscale y))).
  Proof.
    intros Esk Hi Hlen Hsup HtQ. unfold sk_decrypt. rewrite Esk, ct_validate_eq by exact Hlen. cbn [bind ct_c ct_level]. destruct vxs as [|(v0 & x0) vxs]; [cbn in Hlen; lia|].
    cbn [parts map get nth_error unwrap bind tl fst snd]. rewrite P_ctx, (sk_poly_eq sk Hl Hi). cbn [bind]. set (s := mkR (sk_coeffs sk) Hl) in *. fold (parts c vxs). rewrite P_disallow.
    destruct (phase_loop_eq c Hc Hdeg s false vxs false false s x0) as (v' & Ep). rewrite Ep. cbn [bind]. rewrite (al_context_level isp cands par l lv c A). cbn [bind]. rewrite (P_ntt_pb c Hc N Hdeg). cbn [bind].
    change (x0 + s * rphase s (map snd vxs))%R with (rphase s (x0 :: map snd vxs)). set (ph := rphase s (x0 :: map snd vxs)) in *.
    destruct (plain_scale Hsup) as (plain & Hpl & Edp & Emp & (rest & Erest) & Hsc). destruct (Hsc v' ph) as (y & Hy & Ey). exists y. split; [exact Hy|]. rewrite Ey. cbn [bind].
    pose proof (gp_t _ _ _ G) as Ht. assert (EU : rl (unscale y) = map (fun v => ((v mod dec_base + t) mod dec_base) mod t) (rl y)) by reflexivity. revert EU. generalize (unscale y) as U. intros U EU. assert (Eb : dec_base = match pa_small par with Some _ => hd 0 (pa_moduli par) | None => plain_prod end) by reflexivity. destruct (pa_small par) as [ms|] eqn:Es.
    - destruct (small_eq isp cands par G ms Es) as (Vms & Ems). pose proof (small_bound isp cands par G ms Es) as Hsb.
      set (q0 := hd 0 (pa_moduli par)) in *. assert (Hq0 : 2 <= q0 < W62). { unfold q0. pose proof moduli_range as Hr. pose proof (gp_ne _ _ _ G) as Hne. destruct (pa_moduli par); [congruence|]. inversion Hr; subst. assumption. }
      unfold poly_to_u64, P at 1. cbn [p_coeffs poly_of]. pose proof (moduli_ops plain Hpl) as Eo. rewrite Erest in Eo. destruct (c_ops plain) as [|op ops] eqn:Eops; [discriminate|]. cbn [map] in Eo. injection Eo as Eq _.
      cbn [map concat row]. rewrite <- Eq.
      set (tail := concat (map (fun op0 => map (fun v0 : Z => v0 mod mod_p (nt_p op0)) (rl y)) ops)).
      assert (Hchk : mapM (fun x => chk64 (x + mod_p ms)) (map (fun v => v mod q0) (rl y) ++ tail) = Val (map (fun x => x + t) (map (fun v => v mod q0) (rl y) ++ tail))).
      { rewrite <- (map_id (map (fun v => v mod q0) (rl y) ++ tail)) at 1. apply mapM_map. intros a Ha. rewrite Ems. apply chk_val. assert (0 <= a < W62); [|assert (2 * W62 < W64) by reflexivity; lia].
        apply in_app_or in Ha. destruct Ha as [Ha|Ha]; [apply in_map_iff in Ha; destruct Ha as (b & <- & _); pose proof (Z.mod_pos_bound b q0); lia|].
        unfold tail in Ha. apply in_concat in Ha. destruct Ha as (r & Hr & Ha). apply in_map_iff in Hr. destruct Hr as (op' & <- & Hop). apply in_map_iff in Ha. destruct Ha as (b & <- & _).
        pose proof (co_ops _ Hpl) as Fo. rewrite Eops in Fo. rewrite Forall_forall in Fo. destruct (Fo op' (or_intror Hop)) as (K & w & Hok & _). pose proof (valid_fields _ (ok_m _ _ _ Hok)). pose proof (Z.mod_pos_bound b (mod_p (nt_p op'))). lia. }
      rewrite Hchk. cbn [bind]. unfold slice_to. rewrite map_app, app_length, !map_length, rl_length. destruct (Nat.leb_spec N (N + length tail)); [|lia]. cbn [guard bind].
      replace (firstn N (map (fun x => x + t) (map (fun v => v mod q0) (rl y)) ++ map (fun x => x + t) tail)) with (map (fun v => v mod q0 + t) (rl y)).
      2: { rewrite firstn_app. rewrite !map_length, rl_length, Nat.sub_diag. cbn [firstn]. rewrite app_nil_r, map_map. symmetry. apply firstn_all2. rewrite map_length, rl_length. lia. }
      replace (get (pa_moduli par) 0) with (Val q0) by (unfold q0; pose proof (gp_ne _ _ _ G) as Hne; destruct (pa_moduli par); [congruence|reflexivity]). cbn [bind].
      destruct (modulus_new_ex q0 Hq0) as (mq & Emq & Vmq & Epq). rewrite Emq. cbn [bind].
      destruct (reduce_vec_spec mq Vmq (map (fun v => v mod q0 + t) (rl y))) as (-> & _).
      { apply Forall_forall. intros z Hz. apply in_map_iff in Hz. destruct Hz as (b & <- & _). pose proof (Z.mod_pos_bound b q0). unfold is_u64. assert (2 * W62 < W64) by reflexivity. lia. }
      cbn [bind]. rewrite Epq. set (w := map (fun x => x mod q0) (map (fun v => v mod q0 + t) (rl y))).
      destruct (reduce_vec_spec ms Vms w) as (-> & _).
      { apply Forall_forall. intros z Hz. apply in_map_iff in Hz. destruct Hz as (b & <- & _). pose proof (Z.mod_pos_bound b q0). unfold is_u64. assert (2 * W62 < W64) by reflexivity. lia. }
      cbn [bind]. rewrite Ems.
      assert (Ew : map (fun x => x mod t) w = map (fun v => ((v mod q0 + t) mod q0) mod t) (rl y)) by (unfold w; rewrite !map_map; reflexivity).
      rewrite Ew. set (um := map (fun v => ((v mod q0 + t) mod q0) mod t) (rl y)). assert (Hum : canonical t um) by (apply Forall_forall; intros z Hz; apply in_map_iff in Hz; destruct Hz as (a & <- & _); apply Z.mod_pos_bound; lia).
      rewrite (from_u64_full isp cands par l lv c A).
      2: unfold um; rewrite map_length; apply rl_length.
      2: { eapply Forall_impl; [|exact Hum]. cbv beta. intros z Hz. assert (W62 < W64) by reflexivity. unfold is_u64. lia. }
      2: { right. eapply Forall_impl; [|exact Hum]. cbv beta. intros z Hz. lia. }
      cbn [bind]. rewrite Eb in EU. fold q0 in EU. fold um in EU. rewrite <- EU. pose proof (P_pb_ntt c Hc N Hdeg false U) as E. unfold P in E at 1. rewrite E. reflexivity.
    - rewrite (P_to_big plain Hpl N Edp). cbn [bind]. rewrite Emp. unfold slice_to. rewrite !map_length, rl_length, Nat.leb_refl. cbn [guard bind]. rewrite firstn_all2 by (rewrite !map_length, rl_length; lia).
      rewrite P_ctx. assert (Erp : rns_product (c_rns plain) = plain_prod) by (rewrite (gr_product _ (co_rns _ Hpl)), (co_u64 _ Hpl); exact Emp). rewrite Erp. pose proof plain_prod_pos as Hpp.
      unfold reduce_big. replace (plain_prod =? 0) with false by (symmetry; apply Z.eqb_neq; lia). replace (t =? 0) with false by (symmetry; apply Z.eqb_neq; lia). cbn [negb guard bind]. rewrite !map_map.
      rewrite Eb in EU. rewrite <- EU. rewrite (P_from_big c Hc N Hdeg (rl U) false (rl_length U)). cbn [bind]. pose proof (P_pb_ntt c Hc N Hdeg false (mkR (rl U) (rl_length U))) as E. unfold P in E. rewrite rl_mkR in E. unfold P. rewrite rl_mkR, E. reflexivity.
  Qed.
  Lemma unscale_ok (m e ph y : Rn N) : supported par -> dec_room -> canonical t (rl m) -> rcong Q ph (rscaled Q t m + e)%R -> 2 ^ 60 * (2 * t * (rnorm e + 1)) <= (2 ^ 60 - 1) * Q ->
    Forall2 (scaled_value (level_moduli (pa_moduli par) l) t Q) (rl ph) (rl y) -> unscale y = m.
  Proof.
    intros Hsup Hroom Hm Hph He Hy. pose proof (gp_t _ _ _ G) as Ht. destruct (level_supported Hsup) as (Hs1 & Hs2). apply rn_ext. intros k Hk.
    assert (Hmk : 0 <= nth k (rl m) 0 < t) by (unfold canonical in Hm; rewrite Forall_forall in Hm; apply Hm, nth_In; rewrite rl_length; exact Hk).
    assert (Hval : - t <= nth k (rl y) 0 < dec_base - t /\ (nth k (rl y) 0) mod t = nth k (rl m) 0).
    { rewrite <- (Z.mod_small (nth k (rl m) 0) t Hmk).
      apply (dec_value (level_moduli (pa_moduli par) l) t (nth k (rl m) 0) (nth k (rl e) 0) (nth k (rl ph) 0)); [exact level_range|exact Hs1|exact Hs2|lia| | | |exact Hroom].
      - pose proof (proj1 (rcong_nth N Q ph (rscaled Q t m + e)%R) Hph k Hk) as H. rewrite nth_radd in H. unfold rscaled in H. rewrite rl_mkR in H. rewrite (nth_indep (map (fun a => Q * a / t) (rl m)) 0 (Q * 0 / t)) in H by (rewrite map_length, rl_length; exact Hk).
        rewrite (map_nth (fun a => Q * a / t)) in H. exact H.
      - apply (Forall2_nth_Z _ _ _ k Hy). rewrite rl_length. exact Hk.
      - pose proof (rnorm_nth N e k). eapply Z.le_trans; [|exact He]. apply Z.mul_le_mono_nonneg_l; [lia|]. apply Z.mul_le_mono_nonneg_l; lia. }
    destruct Hval as (Hr & Hmm). unfold unscale. rewrite rl_mkR. rewrite (nth_indep _ 0 (((0 mod dec_base + t) mod dec_base) mod t)) by (rewrite map_length, rl_length; exact Hk). rewrite (map_nth (fun v => ((v mod dec_base + t) mod dec_base) mod t)).
    rewrite Zplus_mod_idemp_l, (Z.mod_small (nth k (rl y) 0 + t)) by lia. rewrite <- Hmm. rewrite <- (Z.mul_1_l t) at 1. apply Z_mod_plus_full.
  Qed.
  Theorem decrypt_eq sk (Hl : length (sk_coeffs sk) = N) sd vxs (m e : Rn N) : sk_par sk = par -> Forall is_i64 (sk_coeffs sk) -> (2 <= length vxs)%nat -> supported par -> dec_room -> t <= Q ->
    canonical t (rl m) -> rcong Q (rphase (mkR (sk_coeffs sk) Hl) (map snd vxs)) (rscaled Q t m + e)%R ->
    2 ^ 60 * (2 * t * (rnorm e + 1)) <= (2 ^ 60 - 1) * Q ->
    sk_decrypt sk (mkCt par sd (parts c vxs) l) = Val (mkPt par None (P Ntt c false m)).
  Proof.
    intros Esk Hi Hlen Hsup Hroom HtQ Hm Hph He. destruct (decrypt_raw sk Hl sd vxs Esk Hi Hlen Hsup HtQ) as (y & Hy & ->). rewrite (unscale_ok m e _ y Hsup Hroom Hm Hph He Hy). reflexivity.
  Qed.
End Level.
