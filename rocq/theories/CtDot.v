(** The dot product of ciphertexts and plaintexts on ring elements. *)
From Verif Require Import Outcome BasicSpec OutcomeLemmas ZqModel ZqProofs NumTheory NttModel PolySpec PolyRing NttPure NttStages NttProofs CbdModel CbdSpec CbdProofs.
From Verif Require Import TranscodeModel RnsModel RnsSpec RnsProofs RqModel RqSpec RqCtx RqRows RqProofs RingRn RqOps RqIO ParamsModel PlainModel CipherModel OpsModel CipherSpec RnPoly CipherProofs.
From Coq Require Import Znumtheory.
Set Default Proof Using "Type".

Definition item N : Type := list (bool * Rn N) * (bool * Rn N).
(** The sum of the products, part by part. *)
Definition dstep {N} (S : list (Rn N)) (it : item N) : list (Rn N) := map (fun p => fst p + snd (snd p) * snd (snd it))%R (combine S (fst it)).
Definition dsum {N} (k : nat) (its : list (item N)) : list (Rn N) := fold_left dstep its (repeat (r0 N) k).
Lemma dstep_length {N} (S : list (Rn N)) it : length (fst it) = length S -> length (dstep S it) = length S.
Proof. intros H. unfold dstep. rewrite map_length, combine_length. lia. Qed.
Lemma dfold_length {N} k (its : list (item N)) : Forall (fun it => length (fst it) = k) its -> forall S, length S = k -> length (fold_left dstep its S) = k.
Proof. induction 1 as [|it its Hit _ IH]; intros S HS; [exact HS|]. cbn [fold_left]. apply IH. rewrite dstep_length; congruence. Qed.
Lemma dsum_length {N} k (its : list (item N)) : Forall (fun it => length (fst it) = k) its -> length (dsum k its) = k.
Proof. intros H. apply dfold_length; [exact H|apply repeat_length]. Qed.

Section Dot.
  Variables (c : ctx) (Hc : ctx_ok c).
  Notation N := (c_degree c).
  Set Default Proof Using "All".
  Definition idot (i : nat) (it : item N) : term c := (nth i (fst it) (false, r0 N), snd it).
  Lemma nth_dstep S (it : item N) i : (i < length S)%nat -> length (fst it) = length S -> nth i (dstep S it) (r0 N) = (nth i S (r0 N) + tval c (idot i it))%R.
  Proof.
    intros Hi Hl. unfold dstep, tval, idot. cbn [fst snd]. set (f := fun p : Rn N * (bool * Rn N) => (fst p + snd (snd p) * snd (snd it))%R).
    rewrite (nth_indep (map f (combine S (fst it))) (r0 N) (f (r0 N, (false, r0 N)))) by (rewrite map_length, combine_length; lia). rewrite map_nth, combine_nth by congruence. reflexivity.
  Qed.
  Lemma nth_dsum its : forall S i, (i < length S)%nat -> Forall (fun it => length (fst it) = length S) its -> nth i (fold_left dstep its S) (r0 N) = tsum c (nth i S (r0 N)) (map (idot i) its).
  Proof.
    induction its as [|it its IH]; intros S i Hi HF; [reflexivity|]. inversion HF; subst. cbn [fold_left map]. rewrite IH; [|rewrite dstep_length by assumption; exact Hi|eapply Forall_impl; [|eassumption]; cbv beta; intros; rewrite dstep_length by assumption; assumption].
    rewrite nth_dstep by assumption. reflexivity.
  Qed.
  (** One part at a time *)
  Lemma get_parts (vxs : list (bool * Rn N)) i : (i < length vxs)%nat -> get (parts c vxs) i = Val (lhs c (nth i vxs (false, r0 N), (false, r0 N))).
  Proof.
    intros Hi. unfold get. destruct (nth_error (parts c vxs) i) as [p|] eqn:E.
    - cbn [unwrap]. f_equal. apply nth_error_nth with (d := lhs c ((false, r0 N), (false, r0 N))) in E. rewrite <- E. unfold parts. change (lhs c ((false, r0 N), (false, r0 N))) with ((fun vx : bool * Rn N => P Ntt c (fst vx) (snd vx)) (false, r0 N)) at 1. rewrite map_nth. reflexivity.
    - exfalso. apply nth_error_None in E. unfold parts in E. rewrite map_length in E. lia.
  Qed.
  Lemma columns i its : Forall (fun it : item N => (i < length (fst it))%nat) its -> mapM (fun ps => get ps i) (map (fun it => parts c (fst it)) its) = Val (map (lhs c) (map (idot i) its)).
  Proof.
    induction 1 as [|it its Hi _ IH]; [reflexivity|]. cbn [map mapM]. rewrite get_parts by exact Hi. cbn [bind]. rewrite IH. reflexivity.
  Qed.
  (** All parts at once *)
  Notation mx op := (Z.shiftl 1 (2 * leading_zeros64 (mod_p (nt_p op)))).
  Definition dacc (n : Z) (S : list (Rn N)) (accs : list (list (list Z))) : Prop := Forall2 (fun s a => Forall2 (fun op r => dq_inv c op n s r) (c_ops c) a) S accs.
  Lemma dacc_step n (w : bool) (m : Rn N) : 0 <= n -> (forall op, In op (c_ops c) -> n < mx op) -> forall (vxs : list (bool * Rn N)) S accs, length vxs = length S -> dacc n S accs ->
    exists accs', zip_upd (fun acci ci => zip_upd3 fma acci (p_coeffs ci) (p_coeffs (P Ntt c w m))) accs (parts c vxs) = Val accs' /\ dacc (n + 1) (dstep S (vxs, (w, m))) accs'.
  Proof.
    intros Hn Hmx vxs S accs Hl HF. revert vxs Hl. induction HF as [|s a S accs Ha HF IH]; intros [|(v & x) vxs] Hl; try discriminate; [exists []; split; [reflexivity|constructor]|].
    destruct (IH vxs ltac:(cbn in Hl; lia)) as (accs' & E & HF').
    destruct (dq_rows c Hc x m n s Hn (c_ops c) a) as (a' & Ea & Ha'); [intros op Hop; split; [exact Hop|apply Hmx, Hop]|exact Ha|].
    cbn [parts map zip_upd]. change (p_coeffs (P Ntt c (fst (v, x)) (snd (v, x)))) with (map (fun op => row Ntt op (rl x)) (c_ops c)). change (p_coeffs (P Ntt c w m)) with (map (fun op => row Ntt op (rl m)) (c_ops c)) at 1.
    rewrite Ea. cbn [bind]. fold (parts c vxs). rewrite E. cbn [bind]. eexists. split; [reflexivity|]. constructor; [exact Ha'|exact HF'].
  Qed.
  Lemma dacc_loop its : forall n S accs, 0 <= n -> (forall op, In op (c_ops c) -> n + Z.of_nat (length its) <= mx op) -> Forall (fun it : item N => length (fst it) = length S) its -> dacc n S accs ->
    exists accs', foldM (fun acc it => zip_upd (fun acci ci => zip_upd3 fma acci (p_coeffs ci) (p_coeffs (P Ntt c (fst (snd it)) (snd (snd it))))) acc (parts c (fst it))) its accs = Val accs' /\
      dacc (n + Z.of_nat (length its)) (fold_left dstep its S) accs'.
  Proof.
    induction its as [|(vxs & (w & m)) its IH]; intros n S accs Hn Hmx HF HA.
    - exists accs. split; [reflexivity|]. cbn [length fold_left]. rewrite Z.add_0_r. exact HA.
    - inversion HF as [|? ? H1 H2]; subst. cbn [length] in Hmx. destruct (dacc_step n w m Hn ltac:(intros op Hop; specialize (Hmx op Hop); lia) vxs S accs H1 HA) as (a1 & E1 & HA1).
      destruct (IH (n + 1) (dstep S (vxs, (w, m))) a1) as (a2 & E2 & HA2); [lia|intros op Hop; specialize (Hmx op Hop); lia|eapply Forall_impl; [|exact H2]; cbv beta; intros; rewrite dstep_length by exact H1; assumption|exact HA1|].
      exists a2. cbn [foldM fst snd fold_left length]. rewrite E1. cbn [bind]. split; [exact E2|]. replace (n + Z.of_nat (Datatypes.S (length its))) with (n + 1 + Z.of_nat (length its)) by lia. exact HA2.
  Qed.
  Lemma dacc_zero k : dacc 0 (repeat (r0 N) k) (repeat (repeat (repeat 0 N) (length (c_moduli c))) k).
  Proof.
    assert (H : Forall2 (fun op r => dq_inv c op 0 (r0 N) r) (c_ops c) (repeat (repeat 0 N) (length (c_moduli c)))).
    { replace (length (c_moduli c)) with (length (c_ops c)) by (rewrite (co_moduli _ Hc), (co_q _ Hc), !map_length; reflexivity).
      assert (Hin : forall op, In op (c_ops c) -> In op (c_ops c)) by auto. revert Hin. generalize (c_ops c) at 1 3 4. induction l as [|op l IH]; intros Hin; cbn [length repeat]; constructor; [|apply IH; intros; apply Hin; right; assumption].
      destruct (op_ok c Hc op (Hin op (or_introl eq_refl))) as (K & w & Hok & Hs). constructor; [apply repeat_length| |].
      - apply Forall_forall. intros z Hz. apply repeat_spec in Hz. subst z. lia.
      - rewrite (row_r0 c Hc op K w Hok Hs). unfold rmod. rewrite map_repeat. reflexivity. }
    induction k; cbn [repeat]; constructor; assumption.
  Qed.
  Lemma from_rows vt (s : Rn N) : poly_from_array Ntt c (map (fun op => row Ntt op (rl s)) (c_ops c)) vt = Val (P Ntt c vt s).
  Proof.
    unfold poly_from_array. replace (shape_ok c (map (fun op => row Ntt op (rl s)) (c_ops c))) with true; [reflexivity|]. symmetry. unfold shape_ok. rewrite map_length, (q_length c Hc), Nat.eqb_refl. cbn [andb].
    apply forallb_forall. intros r Hr. apply in_map_iff in Hr. destruct Hr as (op & <- & Hop). destruct (op_ok c Hc op Hop) as (K & w & Hok & Hs). rewrite (row_length op K w Hok Ntt (rl s)) by (rewrite rl_length; congruence). apply Nat.eqb_eq. exact Hs.
  Qed.
  Lemma final_part (vt : bool) n s a : 0 <= n -> (forall op, In op (c_ops c) -> n <= mx op) -> Forall2 (fun op r => dq_inv c op n s r) (c_ops c) a ->
    bind (map2M (fun r q => mapM (if vt then reduce_u128_vt q else reduce_u128 q) r) a (c_q c)) (fun rows => poly_from_array Ntt c rows vt) = Val (P Ntt c vt s).
  Proof.
    intros Hn Hmx HF. rewrite (q_ops c Hc). rewrite (final_rows c Hc vt s (c_ops c) a).
    - cbn [bind]. apply from_rows.
    - auto.
    - revert HF. assert (Hin : forall op, In op (c_ops c) -> In op (c_ops c)) by auto. revert Hin. generalize (c_ops c) at 1 3 4. intros ops Hin HF. induction HF as [|op r ops a [J1 J2 J3] HF IH]; constructor; [|apply IH; intros; apply Hin; right; assumption].
      pose proof (Hin op (or_introl eq_refl)) as Hop. destruct (op_ok c Hc op Hop) as (K & w & Hok & Hs). pose proof (mx_bound op K w Hok) as (M1 & M2). specialize (Hmx op Hop).
      eexists. split; [exact J2|]. split; [|exact J3]. destruct (valid_fields _ (ok_m _ _ _ Hok)) as (Hp & _). revert Hmx M1 M2. generalize (mx op). intros M Hmx M1 M2. set (p := mod_p (nt_p op)) in *.
      assert (n * ((p - 1) * (p - 1)) <= M * ((p - 1) * (p - 1))) by (apply Z.mul_le_mono_nonneg_r; [apply Z.mul_nonneg_nonneg|]; lia). assert (M * ((p - 1) * (p - 1)) < M * (p * p)) by (clear - Hp M1; nia). lia.
  Qed.
  Lemma final_parts (vt : bool) n S accs : 0 <= n -> (forall op, In op (c_ops c) -> n <= mx op) -> dacc n S accs ->
    mapM (fun acci => bind (map2M (fun r q => mapM (if vt then reduce_u128_vt q else reduce_u128 q) r) acci (c_q c)) (fun rows => poly_from_array Ntt c rows vt)) accs = Val (parts c (map (fun s => (vt, s)) S)).
  Proof.
    intros Hn Hmx HA. induction HA as [|s a S accs H HA IH]; [reflexivity|]. cbn [mapM map parts fst snd]. rewrite (final_part vt n s a Hn Hmx H). cbn [bind]. rewrite IH. reflexivity.
  Qed.
End Dot.

(** ** [dot_product_scalar] *)
Section Scalar.
  Variables (par : params) (l : nat) (c : ctx).
  Definition tagged N : Type := option seed * option encoding * item N.
  Definition as_ct {N} (z : tagged N) : ciphertext := mkCt par (fst (fst z)) (parts c (fst (snd z))) l.
  Definition as_pt {N} (z : tagged N) : plaintext := mkPt par (snd (fst z)) (P Ntt c (fst (snd (snd z))) (snd (snd (snd z)))).
  Variables (Hc : ctx_ok c) (Ectx : par_context par l = Val c) (Elev : (l + length (c_moduli c))%nat = length (pa_moduli par)).
  Set Default Proof Using "All".
  Lemma existsb_parts {N} (vxs : list (bool * Rn N)) : existsb (fun p => negb (ctx_eqb (p_ctx p) c)) (parts c vxs) = false.
  Proof. induction vxs as [|x vxs IH]; [reflexivity|]. cbn [parts map existsb]. rewrite P_ctx, ctx_eqb_refl. cbn [negb orb]. exact IH. Qed.
  Lemma as_ct_ok {N} (z : tagged N) : (2 <= length (fst (snd z)))%nat -> ct_validate_context (as_ct z) l c = Val tt.
  Proof.
    intros H. unfold ct_validate_context, as_ct. cbn [ct_c ct_level]. unfold parts at 1. rewrite map_length. destruct (Nat.ltb_spec (length (fst (snd z))) 2); [lia|]. rewrite Nat.eqb_refl, existsb_parts. reflexivity.
  Qed.
  Lemma as_pt_ok {N} (z : tagged N) : pt_validate_context (as_pt z) l c = Val tt.
  Proof. unfold pt_validate_context, pt_level, as_pt. cbn [pt_par pt_poly]. rewrite P_ctx. destruct (Nat.leb_spec (length (c_moduli c)) (length (pa_moduli par))); [|lia]. cbn [guard bind]. replace (length (pa_moduli par) - length (c_moduli c))%nat with l by lia. rewrite Nat.eqb_refl, ctx_eqb_refl. reflexivity. Qed.
  Lemma dp_validate_ok {N} k first (zs : list (tagged N)) : (2 <= k)%nat -> ct_par first = par -> ct_level first = l -> length (ct_c first) = k -> Forall (fun z : tagged _ => length (fst (snd z)) = k) zs ->
    dp_validate first c (map (fun z => (as_ct z, as_pt z)) zs) = Val tt.
  Proof.
    intros Hk E1 E2 E3 HF. induction HF as [|z zs Hz HF IH]; [reflexivity|]. cbn [map dp_validate]. unfold ct_validate_for_context, pt_validate_for_context, par_same. rewrite E1, E2. cbn [ct_par as_ct pt_par as_pt]. rewrite !Z.eqb_refl. cbn [negb].
    fold (as_ct z) (as_pt z). rewrite (as_ct_ok z) by (rewrite Hz; exact Hk). cbn [bind]. rewrite as_pt_ok. cbn [bind]. rewrite E3. cbn [ct_c as_ct]. unfold parts at 1. rewrite map_length, Hz, Nat.eqb_refl. cbn [negb bind]. exact IH.
  Qed.
  Theorem scalar_P (zs : list (tagged (c_degree c))) k : pa_degree par = c_degree c -> zs <> [] -> (2 <= k)%nat -> Forall (fun z : tagged _ => length (fst (snd z)) = k) zs ->
    exists vs, length vs = k /\ dot_product_scalar (map as_ct zs) (map as_pt zs) = Val (mkCt par None (parts c (combine vs (dsum k (map snd zs)))) l).
  Proof.
    intros Ed Hne Hk HF. destruct zs as [|z0 zs0] eqn:Ezs; [congruence|]. rewrite <- Ezs in *. clear Hne.
    assert (HF' : Forall (fun it => length (fst it) = k) (map snd zs)) by (apply Forall_forall; intros it Hit; apply in_map_iff in Hit; destruct Hit as (z & <- & Hz); rewrite Forall_forall in HF; apply HF, Hz).
    assert (Hz0 : length (fst (snd z0)) = k) by (rewrite Ezs in HF; inversion HF; assumption).
    set (vt := forallb (fun cp : ciphertext * plaintext => forallb p_vt (ct_c (fst cp)) && p_vt (pt_poly (snd cp))) (combine (map as_ct zs) (map as_pt zs))).
    assert (Es : dot_product_scalar (map as_ct zs) (map as_pt zs) =
      bind (unwrap (match map (fun q => Z.shiftl 1 (2 * leading_zeros64 q)) (c_moduli c) with [] => None | m :: t => Some (fold_left Z.min t m) end)) (fun min =>
        if min <? len (map as_ct zs) then
          bind (mapM (fun i => bind (mapM (fun ct => get (ct_c ct) i) (map as_ct zs)) (fun ps => dot_product ps (map pt_poly (map as_pt zs)))) (seq 0 k)) (fun parts => Val (mkCt par None parts l))
        else
          bind (foldM dp_acc (map (fun z => (as_ct z, as_pt z)) zs) (repeat (repeat (repeat 0 (c_degree c)) (length (c_moduli c))) k)) (fun acc =>
          bind (mapM (fun acci => bind (map2M (fun r q => mapM (if vt then reduce_u128_vt q else reduce_u128 q) r) acci (c_q c)) (fun rows => poly_from_array Ntt c rows vt)) acc) (fun parts => Val (mkCt par None parts l))))).
    { unfold vt. rewrite combine_map. rewrite Ezs at 1 2. cbn [map dot_product_scalar]. change (pt_poly (as_pt z0) :: map pt_poly (map as_pt zs0)) with (map pt_poly (map as_pt (z0 :: zs0))). change (as_ct z0 :: map as_ct zs0) with (map as_ct (z0 :: zs0)). change (as_pt z0 :: map as_pt zs0) with (map as_pt (z0 :: zs0)). rewrite <- Ezs. rewrite !map_length, Nat.eqb_refl. cbn [negb].
      unfold ct_validate_for, par_same. change (ct_par (as_ct z0)) with par. change (ct_level (as_ct z0)) with l. rewrite Z.eqb_refl. cbn [negb]. rewrite Ectx. cbn [bind]. rewrite (as_ct_ok z0) by (rewrite Hz0; exact Hk). cbn [bind]. rewrite combine_map.
      assert (Lz : length (ct_c (as_ct z0)) = k) by (cbn [ct_c as_ct]; unfold parts; rewrite map_length; exact Hz0). rewrite (dp_validate_ok k (as_ct z0) zs Hk eq_refl eq_refl Lz HF). cbn [bind]. rewrite Lz, Ed. reflexivity. }
    rewrite Es. clear Es.
    assert (exists min, match map (fun q => Z.shiftl 1 (2 * leading_zeros64 q)) (c_moduli c) with [] => None | m :: t => Some (fold_left Z.min t m) end = Some min /\ (forall op, In op (c_ops c) -> min <= Z.shiftl 1 (2 * leading_zeros64 (mod_p (nt_p op))))) as (mn & Emn & Hmn).
    { rewrite (co_moduli _ Hc), (co_q _ Hc), !map_map. set (maxs := map _ (c_ops c)). assert (Hne : maxs <> []). { unfold maxs. intros E. apply map_eq_nil in E. pose proof (co_ne _ Hc). contradiction. }
      destruct maxs as [|m ms] eqn:E; [contradiction|]. eexists. split; [reflexivity|]. intros op Hop.
      assert (H : In (Z.shiftl 1 (2 * leading_zeros64 (mod_p (nt_p op)))) (m :: ms)) by (rewrite <- E; unfold maxs; apply (in_map (fun x => Z.shiftl 1 (2 * leading_zeros64 (mod_p (nt_p x))))), Hop).
      destruct H as [<-|H]; [apply (proj1 (fold_min_le ms m 0))|apply (proj2 (fold_min_le ms m _)), H]. }
    rewrite Emn. cbn [unwrap bind]. unfold len. rewrite map_length. destruct (Z.ltb_spec mn (Z.of_nat (length zs))) as [Hlt|Hge].
    - set (vf := fun i => tvt c (map (idot c i) (map snd zs))). exists (map vf (seq 0 k)). split; [rewrite map_length, seq_length; reflexivity|].
      assert (Ecol : mapM (fun i => bind (mapM (fun ct => get (ct_c ct) i) (map as_ct zs)) (fun ps => dot_product ps (map pt_poly (map as_pt zs)))) (seq 0 k) = Val (map (fun i => P Ntt c (vf i) (nth i (dsum k (map snd zs)) (r0 (c_degree c)))) (seq 0 k))).
      { rewrite <- (map_id (seq 0 k)) at 1. apply mapM_map. intros i Hi. apply in_seq in Hi.
        assert (E1 : mapM (fun ct => get (ct_c ct) i) (map as_ct zs) = Val (map (lhs c) (map (idot c i) (map snd zs)))).
        { rewrite <- (columns c Hc i (map snd zs)) by (eapply Forall_impl; [|exact HF']; cbv beta; intros; lia). rewrite map_map. clear. induction zs as [|z zs IH]; [reflexivity|]. cbn [map mapM]. rewrite IH. reflexivity. }
        assert (E2 : map pt_poly (map as_pt zs) = map (rhs c) (map (idot c i) (map snd zs))) by (rewrite !map_map; reflexivity).
        rewrite E1, E2. cbn [bind]. unfold dsum, vf. rewrite (nth_dsum c Hc); [|rewrite repeat_length; lia|rewrite repeat_length; exact HF']. rewrite nth_repeat.
        destruct (map (idot c i) (map snd zs)) as [|t0 ts0] eqn:Et; [rewrite Ezs in Et; discriminate|]. rewrite (dot_product_eq c Hc). reflexivity. }
      rewrite Ecol. cbn [bind]. do 2 f_equal. pose proof (dsum_length k (map snd zs) HF') as Ld. generalize dependent (dsum k (map snd zs)). intros D _ Ld. clear - Ld. generalize (r0 (c_degree c)) as d. clear - Ld. intros d. subst k.
      assert (G : forall a, map (fun i => P Ntt c (vf (a + i)%nat) (nth i D d)) (seq 0 (length D)) = parts c (combine (map (fun i => vf (a + i)%nat) (seq 0 (length D))) D)).
      { induction D as [|x D IH]; intros a; [reflexivity|]. cbn [length seq map combine parts nth fst snd]. f_equal. rewrite <- seq_shift, !map_map. fold (parts c (combine (map (fun x0 => vf (a + Datatypes.S x0)%nat) (seq 0 (length D))) D)).
        specialize (IH (Datatypes.S a)). rewrite (map_ext (fun x0 => vf (a + Datatypes.S x0)%nat) (fun x0 => vf (Datatypes.S a + x0)%nat)) by (intros; f_equal; lia). rewrite <- IH. apply map_ext. intros i. cbn [nth]. f_equal. f_equal. lia. }
      apply (G 0%nat).
    - exists (repeat vt k). split; [apply repeat_length|].
      destruct (dacc_loop c Hc (map snd zs) 0 (repeat (r0 (c_degree c)) k) (repeat (repeat (repeat 0 (c_degree c)) (length (c_moduli c))) k)) as (accs & E & HA).
      + lia.
      + intros op Hop. rewrite map_length. rewrite Z.add_0_l. exact (Z.le_trans _ _ _ Hge (Hmn op Hop)).
      + rewrite repeat_length. exact HF'.
      + apply (dacc_zero c Hc).
      + assert (E' : foldM dp_acc (map (fun z => (as_ct z, as_pt z)) zs) (repeat (repeat (repeat 0 (c_degree c)) (length (c_moduli c))) k) = Val accs).
        { rewrite <- E. generalize (repeat (repeat (repeat 0 (c_degree c)) (length (c_moduli c))) k). clear. induction zs as [|z zs IH]; intros acc; [reflexivity|]. cbn [map foldM]. change (dp_acc acc (as_ct z, as_pt z)) with (zip_upd (fun acci ci => zip_upd3 fma acci (p_coeffs ci) (p_coeffs (P Ntt c (fst (snd (snd z))) (snd (snd (snd z)))))) acc (parts c (fst (snd z)))).
          destruct (zip_upd _ acc _); [|reflexivity|reflexivity]. cbn [bind]. apply IH. }
        rewrite E'. cbn [bind]. rewrite map_length in HA. rewrite (final_parts c Hc vt (0 + Z.of_nat (length zs)) _ accs ltac:(lia) ltac:(intros op Hop; rewrite Z.add_0_l; exact (Z.le_trans _ _ _ Hge (Hmn op Hop))) HA). cbn [bind]. do 2 f_equal. fold (dsum k (map snd zs)).
        pose proof (dsum_length k (map snd zs) HF') as Ld. revert Ld. generalize (dsum k (map snd zs)). intros D Ld. rewrite <- Ld. clear. induction D as [|x D IH]; [reflexivity|]. cbn [map length repeat combine parts]. f_equal. exact IH.
  Qed.
End Scalar.
