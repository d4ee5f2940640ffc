(** Closing lemmas for the properties about encryption, decryption and the linear operations. *)
From Verif Require Import Outcome BasicSpec OutcomeLemmas ZqModel ZqProofs NumTheory NttModel PolySpec PolyRing NttPure NttStages NttProofs CbdModel CbdSpec CbdProofs.
From Verif Require Import TranscodeModel RnsModel RnsSpec RnsProofs RqModel RqSpec RqCtx RqRows RqProofs RingRn RqOps RqIO ParamsModel BfvSpec ParamsProofs BuildProofs PrimeCert ExampleParams ParamsPropLemmas PlainModel CipherModel OpsModel SchemeSpec CipherSpec PlainProofs PlainPropLemmas RnPoly CipherProofs EncryptProofs.
From Coq Require Import Znumtheory.
Set Default Proof Using "Type".

(** ** Lists and ring elements *)
Lemma Rn_of n (x : list Z) : length x = n -> exists r : Rn n, rl r = x.
Proof. intros H. exists (mkR x H). reflexivity. Qed.
Lemma rl_add {n} (x y : Rn n) : rl (x + y)%R = zipWith Z.add (rl x) (rl y).
Proof. reflexivity. Qed.
Lemma rl_mul {n} (x y : Rn n) : rl (x * y)%R = negacyclic n (rl x) (rl y).
Proof. unfold rmul. rewrite rl_mkR. apply nmul_negacyclic; apply rl_length. Qed.
Lemma rl_scaled {n} Q t (m : Rn n) : rl (rscaled Q t m) = scaled Q t (rl m).
Proof. reflexivity. Qed.
Lemma rl_rmodt {n} t (m : Rn n) : rl (rmodt t m) = map (fun a => a mod t) (rl m).
Proof. reflexivity. Qed.
Lemma rl_r0 n : rl (r0 n) = repeat 0 n.
Proof. reflexivity. Qed.
Lemma phase_rphase {n} (s : Rn n) xs : phase n (rl s) (map rl xs) = rl (rphase s xs).
Proof. induction xs as [|x xs IH]; [reflexivity|]. cbn [map phase rphase fold_right]. rewrite IH, rl_add, rl_mul. reflexivity. Qed.
Lemma rnorm_bounded {n} (e : Rn n) B : 0 <= B -> rnorm e <= B <-> bounded_by B (rl e).
Proof. intros HB. apply lnorm_le. exact HB. Qed.
Lemma bounded_nonneg {n} (e : Rn n) B : (0 < n)%nat -> bounded_by B (rl e) -> 0 <= B.
Proof. intros Hn H. pose proof (rl_length e). destruct (rl e) as [|a r]; [cbn [length] in *; lia|]. inversion H; subst. lia. Qed.
Lemma rnorm1_norm1 {n} (s : Rn n) : rnorm1 s = norm1 (rl s).
Proof. reflexivity. Qed.
Lemma bounded_weaken B B' e : B <= B' -> bounded_by B e -> bounded_by B' e.
Proof. intros H. apply Forall_impl. intros a Ha. lia. Qed.

Lemma nbits_bound x : 0 <= x -> x <= 2 ^ nbits x - 1.
Proof. intros H. unfold nbits. destruct (Z.leb_spec x 0); [assert (x = 0) by lia; subst; cbn; lia|]. pose proof (Z.log2_spec x ltac:(lia)). replace (Z.succ (Z.log2 x)) with (Z.log2 x + 1) in * by lia. lia. Qed.
Lemma nbits_le x y : x <= y -> nbits x <= nbits y.
Proof. intros H. unfold nbits. pose proof (Z.log2_nonneg y). destruct (Z.leb_spec x 0); destruct (Z.leb_spec y 0); try lia. pose proof (Z.log2_le_mono x y ltac:(lia)). lia. Qed.
Lemma min_bits Q a : 2 * Z.abs a < Q -> Z.min (nbits (a mod Q)) (nbits (Q - a mod Q)) = nbits (Z.abs a).
Proof.
  intros H. destruct (Z_le_dec 0 a) as [Ha|Ha].
  - rewrite (Z.mod_small a Q) by lia. rewrite (Z.abs_eq a) in * by lia. apply Z.min_l, nbits_le. lia.
  - assert (E : a mod Q = Q + a). { symmetry. apply (Z.mod_unique_pos _ _ (-1)); lia. } rewrite E. replace (Q - (Q + a)) with (Z.abs a) by lia. apply Z.min_r, nbits_le. lia.
Qed.
Lemma fold_max_bits (g : Z -> Z) v : forall n, let r := fold_left (fun n x => Z.max n (g x)) v n in n <= r /\ (forall a, In a v -> g a <= r) /\ (r = n \/ exists a, In a v /\ r = g a).
Proof.
  induction v as [|b v IH]; intros n; cbn [fold_left]; [cbn; intuition lia|]. destruct (IH (Z.max n (g b))) as (H1 & H2 & H3). cbv zeta in *. split; [lia|]. split; [intros a [<-|Ha]; [lia|auto]|].
  destruct H3 as [H3|(a & Ha & H3)]; [|right; exists a; split; [right; exact Ha|exact H3]]. destruct (Z.max_spec n (g b)) as [(_ & E)|(_ & E)]; rewrite E in H3 at 2; [right; exists b; split; [left; reflexivity|exact H3]|left; exact H3].
Qed.

Lemma congruent_mod Q x y : congruent Q x y -> map (fun a => a mod Q) x = map (fun a => a mod Q) y.
Proof. induction 1 as [|a b u w Hab _ IH]; [reflexivity|]. cbn [map]. rewrite IH, Hab. reflexivity. Qed.
Lemma fold_left_map_max (f g : Z -> Z) v : forall n, fold_left (fun n x => Z.max n (g x)) (map f v) n = fold_left (fun n x => Z.max n (g (f x))) v n.
Proof. induction v as [|a v IH]; intros n; [reflexivity|]. apply IH. Qed.

(** ** Ciphertexts of a level *)
Section Level.
  Variables (isp : Z -> bool) (cands : Z -> list Z) (Ho : oracles isp cands) (par : params) (G : good_params isp cands par).
  Variables (l : nat) (lv : level_ctx) (c : ctx) (A : at_level isp cands par l lv c).
  Set Default Proof Using "All".
  Notation N := (pa_degree par).
  Notation t := (pa_t par).
  Notation Q := (prod_list (level_moduli (pa_moduli par) l)).
  Lemma N_pos : (0 < N)%nat.
  Proof. pose proof (al_N8 _ _ _ _ _ _ A). lia. Qed.
  Lemma ct_parts ct xs : is_ct par l ct xs -> exists vxs : list (bool * Rn N), ct = mkCt par (ct_seed ct) (parts c vxs) l /\ map rl (map snd vxs) = xs.
  Proof.
    intros (E1 & E2 & H). destruct ct as [pp sd ps ll]. cbn [ct_par ct_level ct_c ct_seed] in *. subst pp ll.
    assert (exists vxs : list (bool * Rn N), ps = parts c vxs /\ map rl (map snd vxs) = xs) as (vxs & -> & Ex).
    { induction H as [|p x ps xs (Ec & Hr) H (vxs & -> & <-)]; [exists []; split; reflexivity|]. rewrite (al_par_context isp cands par l lv c A) in Ec. injection Ec as Ec. destruct Hr as (Lx & Ep). rewrite <- Ec, (al_deg _ _ _ _ _ _ A) in Lx.
      exists ((p_vt p, mkR x Lx) :: vxs). split; [|reflexivity]. cbn [parts map fst snd]. f_equal. rewrite Ep at 1. unfold P. rewrite rl_mkR, Ec. reflexivity. }
    exists vxs. split; [reflexivity|exact Ex].
  Qed.
  Lemma parts_ct sd (vxs : list (bool * Rn N)) : is_ct par l (mkCt par sd (parts c vxs) l) (map rl (map snd vxs)).
  Proof.
    split; [reflexivity|]. split; [reflexivity|]. cbn [ct_c]. induction vxs as [|(v & x) vxs IH]; constructor; [|exact IH]. cbn [fst snd]. rewrite P_ctx. split; [apply (al_par_context isp cands par l lv c A)|].
    split; [rewrite P_ctx, rl_length; symmetry; apply (al_deg _ _ _ _ _ _ A)|reflexivity].
  Qed.
  Lemma pt_P pt m : is_pt par l pt m -> exists (x : Rn N), pt = mkPt par (pt_enc pt) (P Ntt c (p_vt (pt_poly pt)) x) /\ rl x = m.
  Proof.
    intros (E1 & Ec & (Lm & Ep)). rewrite (al_par_context isp cands par l lv c A) in Ec. injection Ec as Ec. rewrite <- Ec, (al_deg _ _ _ _ _ _ A) in Lm. exists (mkR m Lm). split; [|reflexivity].
    destruct pt as [pp e p]. cbn [pt_par pt_poly pt_enc] in *. subst pp. f_equal. rewrite Ep at 1. unfold P. rewrite rl_mkR, Ec. reflexivity.
  Qed.
  Lemma P_pt e v (x : Rn N) : is_pt par l (mkPt par e (P Ntt c v x)) (rl x).
  Proof. split; [reflexivity|]. cbn [pt_poly]. split; [apply (al_par_context isp cands par l lv c A)|]. split; [rewrite P_ctx, rl_length; symmetry; apply (al_deg _ _ _ _ _ _ A)|reflexivity]. Qed.
  Lemma encrypts_parts sk ct m B (Hl : length (sk_coeffs sk) = N) : encrypts par sk l ct m B ->
    exists (vxs : list (bool * Rn N)) (mr e : Rn N), ct = mkCt par (ct_seed ct) (parts c vxs) l /\ (2 <= length vxs)%nat /\ length vxs = length (ct_c ct) /\ rl mr = m /\ 0 <= rnorm e <= B /\
      rcong Q (rphase (mkR (sk_coeffs sk) Hl) (map snd vxs)) (rscaled Q t mr + e)%R.
  Proof.
    intros (xs & e & Hct & Hlen & Lm & Le & He & Hc). destruct (ct_parts ct xs Hct) as (vxs & Ect & Ex). exists vxs, (mkR m Lm), (mkR e Le). split; [exact Ect|].
    split; [rewrite <- Ex, !map_length in Hlen; exact Hlen|]. split; [rewrite Ect; cbn [ct_c]; rewrite parts_length; reflexivity|]. split; [reflexivity|].
    pose proof (bounded_nonneg (mkR e Le) B N_pos He). split; [split; [apply rnorm_nonneg|apply rnorm_bounded; assumption]|].
    unfold rcong. rewrite rl_add, rl_scaled, <- phase_rphase, Ex. exact Hc.
  Qed.
  Lemma parts_encrypts sk sd (vxs : list (bool * Rn N)) (m e : Rn N) B (Hl : length (sk_coeffs sk) = N) : (2 <= length vxs)%nat -> rnorm e <= B ->
    rcong Q (rphase (mkR (sk_coeffs sk) Hl) (map snd vxs)) (rscaled Q t m + e)%R -> encrypts par sk l (mkCt par sd (parts c vxs) l) (rl m) B.
  Proof.
    intros Hlen He Hc. exists (map rl (map snd vxs)), (rl e). split; [apply parts_ct|]. split; [rewrite !map_length; exact Hlen|]. split; [apply rl_length|]. split; [apply rl_length|].
    pose proof (rnorm_nonneg N e). split; [apply rnorm_bounded; [lia|exact He]|]. unfold rcong in Hc. rewrite rl_add, rl_scaled, <- phase_rphase in Hc. exact Hc.
  Qed.
  Lemma base_eq : dec_base par = decryption_base par.
  Proof. unfold dec_base, decryption_base. pose proof (t_cases isp cands par G) as Hs. destruct (pa_small par); destruct (Z.ltb_spec (pa_t par) (2 ^ 64)); try reflexivity; [assert (W62 < 2 ^ 64) by reflexivity; lia|change W64 with (2 ^ 64) in Hs; lia]. Qed.
  (** Plaintexts with the same polynomial decode to the same values. *)
  Lemma same_decoding pt pt' m e : is_pt par l pt m -> is_pt par l pt' m -> pt_enc pt = Some e \/ pt_enc pt = None -> pt_enc pt' = Some e \/ pt_enc pt' = None ->
    decode_big pt' (Some e) = decode_big pt (Some e) /\ decode_u64 pt' (Some e) = decode_u64 pt (Some e) /\ decode_i64 pt' (Some e) = decode_i64 pt (Some e).
  Proof.
    intros H H' He He'. destruct (pt_P pt m H) as (x & E & Ex). destruct (pt_P pt' m H') as (x' & E' & Ex'). assert (x' = x) by (apply rl_inj; congruence). subst x'. rewrite E, E'. clear E E' H H' Ex Ex'.
    assert (Er : forall s p, s = Some e \/ s = None -> resolve_encoding (mkPt par s p) (Some e) = Val e).
    { intros a p [-> | ->]; unfold resolve_encoding; cbn [pt_enc]; [|reflexivity]. unfold enc_eqb. rewrite Nat.eqb_refl. destruct e as [[] ?]; reflexivity. }
    unfold decode_i64, decode_big, decode_u64, decode_simd_u64, P. rewrite !Er by assumption. cbn [bind]. rewrite !(coefficients_eq isp cands par G l lv c A) by apply rl_length. cbn [pt_par]. repeat split; reflexivity.
  Qed.
End Level.

(** ** Closing lemmas *)
Section Props.
  Context (isp : Z -> bool) (cands : Z -> list Z) (par : params).
  Notation N := (pa_degree par).
  Notation t := (pa_t par).
  Add Ring RnPL : (Rn_ring N).
  Lemma fits_of_noise l B : 0 <= B -> 0 < t -> small_noise par l B -> t <= level_modulus par l.
  Proof. unfold small_noise. intros HB Ht H. assert (0 <= t * B) by (apply Z.mul_nonneg_nonneg; lia). assert (2 ^ 60 * (2 * t * 1) <= 2 ^ 60 * (2 * t * (B + 1))) by (apply Z.mul_le_mono_nonneg_l; lia). lia. Qed.
  Theorem decrypt_all : oracles isp cands -> is_params isp cands par -> forall l, (l <= max_level par)%nat -> supported par -> decryptable par ->
    forall sk ct m B, is_sk par sk -> encrypts par sk l ct m B -> small_noise par l B ->
    exists pt, sk_decrypt sk ct = Val pt /\ is_pt par l pt (map (fun a => a mod t) m) /\ pt_enc pt = None.
  Proof.
    intros Ho Hp l Hl Hsup Hdec sk ct m B (Esk & Ls & Hi) Henc Hn. pose proof (params_good isp cands par Ho Hp) as G. destruct (at_level_ex isp cands par l Ho G Hl) as (lv & c & A).
    destruct (encrypts_parts isp cands Ho par G l lv c A sk ct m B Ls Henc) as (vxs & mr & e & Ect & Hlen & _ & <- & (He0 & He) & Hc). pose proof (gp_t _ _ _ G) as Ht.
    assert (HtQ : t <= level_modulus par l) by (apply (fits_of_noise l B); [lia|lia|exact Hn]).
    rewrite Ect. eexists. split; [apply (decrypt_int isp cands par l lv c Ho G A sk Ls _ vxs mr e Esk Hi Hlen Hsup)|split; [rewrite <- rl_rmodt; apply (P_pt isp cands Ho par G l lv c A)|reflexivity]].
    - unfold dec_room. rewrite (base_eq isp cands Ho par G l lv c A). exact Hdec.
    - exact HtQ.
    - exact Hc.
    - eapply Z.le_trans; [|exact Hn]. apply Z.mul_le_mono_nonneg_l; [lia|]. apply Z.mul_le_mono_nonneg_l; lia.
  Qed.
  Theorem sk_encrypt_all : oracles isp cands -> is_params isp cands par -> forall l, (l <= max_level par)%nat ->
    forall expand sk sd rng pt m, expands_well expand -> words rng -> is_sk par sk -> is_pt par l pt m -> canonical t m -> t <= level_modulus par l ->
    exists ct, sk_encrypt expand sk pt sd rng = Val ct /\ encrypts par sk l ct m (2 * pa_variance par) /\ ct_seed ct = Some sd /\ length (ct_c ct) = 2%nat.
  Proof.
    intros Ho Hp l Hl expand sk sd rng pt m Hx Hw (Esk & Ls & Hi) Hpt Hm HtQ. pose proof (params_good isp cands par Ho Hp) as G. destruct (at_level_ex isp cands par l Ho G Hl) as (lv & c & A).
    destruct (pt_P isp cands Ho par G l lv c A pt m Hpt) as (x & -> & <-).
    destruct (sk_encrypt_P isp cands par l lv c Ho G A expand sk Ls sd rng (pt_enc pt) (p_vt (pt_poly pt)) x Hx Hw Esk Hi Hm HtQ) as (a & _ & b & -> & Hph).
    eexists. split; [reflexivity|]. split; [|split; reflexivity]. apply (parts_encrypts isp cands Ho par G l lv c A) with (e := cbd_rn N (pa_variance par) rng) (Hl := Ls); [cbn [length]; lia| |].
    - apply (cbd_bound c N (al_deg _ _ _ _ _ _ A)). pose proof (gp_var _ _ _ G). lia.
    - cbn [map snd]. rewrite Hph. apply rcong_refl.
  Qed.
  Theorem sk_random_all : oracles isp cands -> is_params isp cands par -> forall rng, words rng ->
    exists sk, sk_random par rng = Val sk /\ is_sk par sk /\ bounded_by (2 * pa_variance par) (sk_coeffs sk) /\ norm1 (sk_coeffs sk) <= Z.of_nat N * (2 * pa_variance par).
  Proof.
    intros Ho Hp rng Hw. pose proof (params_good isp cands par Ho Hp) as G. pose proof (gp_var _ _ _ G) as Hv. unfold sk_random. destruct (sample_vec_cbd_ok rng N (pa_variance par) Hw Hv) as (k & -> & _).
    assert (Hb : bounded_by (2 * pa_variance par) (map (cbd_value rng (pa_variance par)) (seq 0 N))).
    { apply Forall_forall. intros a Ha. apply in_map_iff in Ha. destruct Ha as (i & <- & _). pose proof (cbd_value_bounds rng (pa_variance par) i ltac:(lia)). lia. }
    eexists. split; [reflexivity|]. split; [split; [reflexivity|]; split|split; [exact Hb|]].
    - cbn [sk_coeffs]. rewrite map_length, seq_length. reflexivity.
    - eapply Forall_impl; [|exact Hb]. intros a Ha. cbv beta in Ha. unfold is_i64. lia.
    - assert (E : forall v, bounded_by (2 * pa_variance par) v -> norm1 v <= Z.of_nat (length v) * (2 * pa_variance par)).
      { induction 1 as [|a v Ha _ IH]; [cbn; lia|]. cbn [norm1 fold_right length]. fold (norm1 v). rewrite Nat2Z.inj_succ. lia. }
      specialize (E _ Hb). rewrite map_length, seq_length in E. exact E.
  Qed.
  Theorem pk_new_all : oracles isp cands -> is_params isp cands par -> forall expand sk sd rng, expands_well expand -> words rng -> is_sk par sk ->
    exists pk, pk_new expand sk sd rng = Val pk /\ is_pk par sk 0 pk (2 * pa_variance par) /\ ct_seed (pk_c pk) = Some sd.
  Proof.
    intros Ho Hp expand sk sd rng Hx Hw (Esk & Ls & Hi). pose proof (params_good isp cands par Ho Hp) as G. destruct (at_level_ex isp cands par 0 Ho G (Nat.le_0_l _)) as (lv & c & A).
    destruct (pk_new_P isp cands par Ho G expand sk Ls sd rng lv c A Hx Hw Esk Hi) as (a & _ & b & -> & Hph). eexists. split; [reflexivity|]. split; [|reflexivity]. split; [reflexivity|]. split; [reflexivity|]. cbn [pk_c].
    rewrite <- rl_r0. apply (parts_encrypts isp cands Ho par G 0 lv c A) with (e := cbd_rn N (pa_variance par) rng) (Hl := Ls); [cbn [length]; lia| |].
    - apply (cbd_bound c N (al_deg _ _ _ _ _ _ A)). pose proof (gp_var _ _ _ G). lia.
    - cbn [map snd]. rewrite Hph. apply rcong_refl.
  Qed.
  Theorem pk_encrypt_all : oracles isp cands -> is_params isp cands par -> forall l0 l, (l0 <= l)%nat -> (l <= max_level par)%nat ->
    forall sk pk B ru r1 r2 pt m, is_sk par sk -> is_pk par sk l0 pk B -> words ru -> words r1 -> words r2 -> is_pt par l pt m -> canonical t m -> t <= level_modulus par l ->
    exists ct, pk_encrypt pk pt ru r1 r2 = Val ct /\ ct_seed ct = None /\ length (ct_c ct) = 2%nat /\
      encrypts par sk l ct m (pk_noise par (norm1 (sk_coeffs sk)) (dropped_noise (norm1 (sk_coeffs sk)) 2 (dropped (pa_moduli par) l0 (l - l0)) B)).
  Proof.
    intros Ho Hp l0 l Hll Hl sk pk B ru r1 r2 pt m (Esk & Ls & Hi) (Epk & Lpk & Hpk) W0 W1 W2 Hpt Hm HtQ. pose proof (params_good isp cands par Ho Hp) as G.
    destruct (at_level_ex isp cands par l Ho G Hl) as (lv & c & A). destruct (at_level_ex isp cands par l0 Ho G ltac:(lia)) as (lv0 & c0 & A0).
    destruct (pt_P isp cands Ho par G l lv c A pt m Hpt) as (x & -> & <-).
    destruct (encrypts_parts isp cands Ho par G l0 lv0 c0 A0 sk (pk_c pk) _ B Ls Hpk) as (vxs & mr & e & Ect & Hlen & Elen & Emr & (He0 & He) & Hc).
    assert (mr = r0 N) by (apply rl_inj; rewrite Emr; reflexivity). subst mr. rewrite Lpk in Elen. destruct vxs as [|(v0 & a0) [|(v1 & a1) [|? ?]]]; try discriminate. destruct pk as [pp ct0]. cbn [pk_par pk_c] in *. subst pp. rewrite Ect. cbn [map snd] in Hc.
    replace l with (l0 + (l - l0))%nat in A by lia. assert (HtQ' : pa_t par <= prod_list (level_moduli (pa_moduli par) (l0 + (l - l0)))) by (replace (l0 + (l - l0))%nat with l by lia; exact HtQ).
    destruct (pk_encrypt_P isp cands par Ho G sk Ls ru r1 r2 (ct_seed ct0) (pt_enc pt) (p_vt (pt_poly pt)) v0 v1 a0 a1 e x l0 lv0 c0 (l - l0) lv c A0 A W0 W1 W2 Hm HtQ' Hc) as (b0 & b1 & e' & -> & Hc' & He').
    eexists. split; [reflexivity|]. split; [reflexivity|]. split; [reflexivity|]. set (k := (l - l0)%nat) in *. replace l with (l0 + k)%nat by (unfold k; lia).
    apply (parts_encrypts isp cands Ho par G (l0 + k) lv c A) with (e := e') (Hl := Ls); [cbn [length]; lia| |exact Hc']. eapply Z.le_trans; [exact He'|]. rewrite rnorm1_norm1. cbn [rl].
    assert (Hd : dropped_noise (norm1 (sk_coeffs sk)) 2 (dropped (pa_moduli par) l0 k) (rnorm e) <= dropped_noise (norm1 (sk_coeffs sk)) 2 (dropped (pa_moduli par) l0 k) B).
    { apply dropped_noise_mono; [|exact He]. apply (dropped_pos isp cands par Ho G). unfold k. lia. }
    unfold pk_noise. rewrite rl_mkR. pose proof (gp_var _ _ _ G). apply Z.add_le_mono_r, Z.add_le_mono_r, Z.mul_le_mono_nonneg_l; [|exact Hd]. apply Z.mul_nonneg_nonneg; lia.
  Qed.
  Theorem pk_encrypt_up_all : oracles isp cands -> is_params isp cands par -> forall l0 l, (l < l0)%nat -> (l0 <= max_level par)%nat ->
    forall sk pk B ru r1 r2 pt m, is_sk par sk -> is_pk par sk l0 pk B -> is_pt par l pt m ->
    pk_encrypt pk pt ru r1 r2 = Err (InvalidLevel (Z.of_nat l) (Z.of_nat l0) (Z.of_nat (max_level par))).
  Proof.
    intros Ho Hp l0 l Hll Hl sk pk B ru r1 r2 pt m (Esk & Ls & Hi) (Epk & Lpk & Hpk) Hpt. pose proof (params_good isp cands par Ho Hp) as G.
    destruct (at_level_ex isp cands par l0 Ho G Hl) as (lv0 & c0 & A0). destruct (at_level_ex isp cands par l Ho G ltac:(lia)) as (lv & c & A).
    destruct (pt_P isp cands Ho par G l lv c A pt m Hpt) as (x & -> & <-).
    destruct (encrypts_parts isp cands Ho par G l0 lv0 c0 A0 sk (pk_c pk) _ B Ls Hpk) as (vxs & mr & e & Ect & Hlen & _). destruct pk as [pp ct0]. cbn [pk_par pk_c] in *. subst pp.
    unfold pk_encrypt. cbn [pk_par pk_c]. rewrite Ect. unfold P. rewrite (pt_validate_eq isp cands par l lv c A). cbn [bind]. rewrite (ct_validate_eq isp cands Ho par G l0 lv0 c0 A0) by exact Hlen. cbn [bind].
    rewrite (pt_level_eq isp cands par l lv c A). cbn [bind ct_level]. destruct (Nat.ltb_spec l l0); [reflexivity|lia].
  Qed.
  Theorem same_decoding_all : oracles isp cands -> is_params isp cands par -> forall l, (l <= max_level par)%nat -> forall pt pt' m e, is_pt par l pt m -> is_pt par l pt' m ->
    pt_enc pt = Some e \/ pt_enc pt = None -> pt_enc pt' = Some e \/ pt_enc pt' = None ->
    decode_big pt' (Some e) = decode_big pt (Some e) /\ decode_u64 pt' (Some e) = decode_u64 pt (Some e) /\ decode_i64 pt' (Some e) = decode_i64 pt (Some e).
  Proof. intros Ho Hp l Hl. pose proof (params_good isp cands par Ho Hp) as G. destruct (at_level_ex isp cands par l Ho G Hl) as (lv & c & A). intros. eapply (same_decoding isp cands Ho par G l lv c A); eassumption. Qed.
  (** Round trips through encoding, encryption, decryption and decoding *)
  Lemma encoded_all : oracles isp cands -> is_params isp cands par -> forall l, (l <= max_level par)%nat -> t <= level_modulus par l ->
    forall e v, e_level e = l -> usable par e -> (length v <= N)%nat ->
    (canonical t v -> Forall is_u64 v -> forall vt, exists pt m, encode_u64 vt v e par = Val pt /\ is_pt par l pt m /\ canonical t m /\ pt_enc pt = Some e) /\
    (canonical t v -> exists pt m, encode_big v e par = Val pt /\ is_pt par l pt m /\ canonical t m /\ pt_enc pt = Some e) /\
    (Forall is_i64 v -> exists pt m, encode_i64 v e par = Val pt /\ is_pt par l pt m /\ canonical t m /\ pt_enc pt = Some e).
  Proof.
    intros Ho Hp l Hl HtQ e v El Hus Lv. pose proof (params_good isp cands par Ho Hp) as G. destruct (at_level_ex isp cands par l Ho G Hl) as (lv & c & A). unfold level_modulus in HtQ.
    assert (Hpt : forall w x, length x = N -> is_pt par l (mkPt par (Some e) (poly_of Ntt c w x)) x) by (intros w x Lx; apply (P_pt isp cands Ho par G l lv c A (Some e) w (mkR x Lx))).
    split; [|split].
    - intros Hv Hu vt. destruct (encode_u64_holds isp cands Ho par G l lv c A vt v e El Hus HtQ Lv Hv Hu) as (pt & x & E & _ & -> & Lx & Hx). eexists _, x. split; [exact E|]. split; [apply Hpt, Lx|]. split; [exact Hx|reflexivity].
    - intros Hv. destruct (encode_big_holds isp cands Ho par G l lv c A v e El Hus HtQ Lv Hv) as (pt & x & E & _ & -> & Lx & Hx). eexists _, x. split; [exact E|]. split; [apply Hpt, Lx|]. split; [exact Hx|reflexivity].
    - intros Hv. destruct (encode_i64_holds isp cands Ho par G l lv c A v e El Hus HtQ Lv Hv) as (pt & x & E & _ & -> & Lx & Hx). eexists _, x. split; [exact E|]. split; [apply Hpt, Lx|]. split; [exact Hx|reflexivity].
  Qed.
  Lemma map_mod_canonical m : canonical t m -> map (fun a => a mod t) m = m.
  Proof. intros H. rewrite <- (map_id m) at 2. apply map_ext_in. intros a Ha. unfold canonical in H. rewrite Forall_forall in H. apply Z.mod_small, H, Ha. Qed.
  Lemma decrypt_same : oracles isp cands -> is_params isp cands par -> forall l, (l <= max_level par)%nat -> supported par -> decryptable par ->
    forall sk ct m B e pt, is_sk par sk -> encrypts par sk l ct m B -> small_noise par l B -> canonical t m -> is_pt par l pt m -> pt_enc pt = Some e ->
    exists pt', sk_decrypt sk ct = Val pt' /\ decode_big pt' (Some e) = decode_big pt (Some e) /\ decode_u64 pt' (Some e) = decode_u64 pt (Some e) /\ decode_i64 pt' (Some e) = decode_i64 pt (Some e).
  Proof.
    intros Ho Hp l Hl Hsup Hdec sk ct m B e pt Hsk Henc Hn Hm Hpt He. destruct (decrypt_all Ho Hp l Hl Hsup Hdec sk ct m B Hsk Henc Hn) as (pt' & E & Hpt' & He'). rewrite map_mod_canonical in Hpt' by exact Hm.
    exists pt'. split; [exact E|]. apply (same_decoding_all Ho Hp l Hl pt pt' m e Hpt Hpt'); auto.
  Qed.
  Lemma roundtrip_of : oracles isp cands -> is_params isp cands par -> forall l, (l <= max_level par)%nat -> supported par -> decryptable par -> t <= level_modulus par l ->
    forall sk enc B, is_sk par sk -> small_noise par l B -> (forall pt m, is_pt par l pt m -> canonical t m -> exists ct, enc pt = Val ct /\ encrypts par sk l ct m B) -> roundtrips par l enc sk.
  Proof.
    intros Ho Hp l Hl Hsup Hdec HtQ sk enc B Hsk Hn Henc e v El Hus Lv. destruct (encoded_all Ho Hp l Hl HtQ e v El Hus Lv) as (E1 & E2 & E3). split; [|split].
    - intros Hv Hu vt. destruct (E1 Hv Hu vt) as (pt & m & E & Hpt & Hm & He). destruct (Henc pt m Hpt Hm) as (ct & Ec & Hct). destruct (decrypt_same Ho Hp l Hl Hsup Hdec sk ct m B e pt Hsk Hct Hn Hm Hpt He) as (pt' & Ed & _ & D & _).
      exists pt, ct, pt'. repeat (split; [assumption|]). rewrite D. destruct (roundtrip_unsigned_all isp cands Ho par Hp l Hl HtQ e v El Hus Lv Hv) as (_ & R). destruct (R Hu vt) as (pt0 & E0 & R'). rewrite E in E0. injection E0 as <-. apply R'. auto.
    - intros Hv. destruct (E2 Hv) as (pt & m & E & Hpt & Hm & He). destruct (Henc pt m Hpt Hm) as (ct & Ec & Hct). destruct (decrypt_same Ho Hp l Hl Hsup Hdec sk ct m B e pt Hsk Hct Hn Hm Hpt He) as (pt' & Ed & D & _).
      exists pt, ct, pt'. repeat (split; [assumption|]). rewrite D. destruct (roundtrip_unsigned_all isp cands Ho par Hp l Hl HtQ e v El Hus Lv Hv) as ((pt0 & E0 & R') & _). rewrite E in E0. injection E0 as <-. apply R'. auto.
    - intros Hv. destruct (E3 Hv) as (pt & m & E & Hpt & Hm & He). destruct (Henc pt m Hpt Hm) as (ct & Ec & Hct). destruct (decrypt_same Ho Hp l Hl Hsup Hdec sk ct m B e pt Hsk Hct Hn Hm Hpt He) as (pt' & Ed & _ & _ & D).
      exists pt, ct, pt'. repeat (split; [assumption|]). rewrite D. destruct (roundtrip_signed_all isp cands Ho par Hp l Hl HtQ e v El Hus Lv Hv) as (pt0 & E0 & R'). rewrite E in E0. injection E0 as <-. apply (R' (Some e)). auto.
  Qed.
  Theorem sk_roundtrip_all : oracles isp cands -> is_params isp cands par -> forall l, (l <= max_level par)%nat -> supported par -> decryptable par -> small_noise par l (2 * pa_variance par) ->
    forall expand sk sd rng, expands_well expand -> words rng -> is_sk par sk -> roundtrips par l (fun pt => sk_encrypt expand sk pt sd rng) sk.
  Proof.
    intros Ho Hp l Hl Hsup Hdec Hn expand sk sd rng Hx Hw Hsk. pose proof (params_good isp cands par Ho Hp) as G. pose proof (gp_t _ _ _ G) as Ht. pose proof (gp_var _ _ _ G) as Hv.
    assert (HtQ : t <= level_modulus par l) by (apply (fits_of_noise l (2 * pa_variance par)); [lia|lia|exact Hn]).
    apply (roundtrip_of Ho Hp l Hl Hsup Hdec HtQ sk _ (2 * pa_variance par) Hsk Hn). intros pt m Hpt Hm. destruct (sk_encrypt_all Ho Hp l Hl expand sk sd rng pt m Hx Hw Hsk Hpt Hm HtQ) as (ct & E & H & _). eauto.
  Qed.
  Theorem pk_roundtrip_all : oracles isp cands -> is_params isp cands par -> forall l, (l <= max_level par)%nat -> supported par -> decryptable par ->
    forall expand sk sd rng ru r1 r2, expands_well expand -> words rng -> words ru -> words r1 -> words r2 -> is_sk par sk ->
    small_noise par l (pk_noise par (norm1 (sk_coeffs sk)) (dropped_noise (norm1 (sk_coeffs sk)) 2 (dropped (pa_moduli par) 0 l) (2 * pa_variance par))) ->
    exists pk, pk_new expand sk sd rng = Val pk /\ roundtrips par l (fun pt => pk_encrypt pk pt ru r1 r2) sk.
  Proof.
    intros Ho Hp l Hl Hsup Hdec expand sk sd rng ru r1 r2 Hx Hw W0 W1 W2 Hsk Hn. pose proof (params_good isp cands par Ho Hp) as G. pose proof (gp_t _ _ _ G) as Ht. pose proof (gp_var _ _ _ G) as Hv.
    destruct (pk_new_all Ho Hp expand sk sd rng Hx Hw Hsk) as (pk & Epk & Hpk & _). exists pk. split; [exact Epk|]. pose proof Hsk as (Esk & Ls & Hi).
    set (S := norm1 (sk_coeffs sk)) in *. assert (HS : 0 <= S) by (apply (rnorm1_nonneg (mkR (sk_coeffs sk) Ls))).
    assert (Hd : forall qs B, Forall (fun q => 0 < q) qs -> 0 <= B -> 0 <= dropped_noise S 2 qs B).
    { induction qs as [|q qs IH]; intros B Hq HB; [exact HB|]. inversion Hq; subst. cbn [dropped_noise fold_left]. apply IH; [assumption|]. unfold switched_noise. apply Z.div_pos; [|lia]. pose proof (geometric_nonneg S 2 HS). nia. }
    assert (Hb : 0 <= pk_noise par S (dropped_noise S 2 (dropped (pa_moduli par) 0 l) (2 * pa_variance par))).
    { unfold pk_noise. specialize (Hd (dropped (pa_moduli par) 0 l) (2 * pa_variance par) (dropped_pos isp cands par Ho G 0 l Hl) ltac:(lia)). assert (0 <= S * (2 * pa_variance par)) by (apply Z.mul_nonneg_nonneg; lia). 
      assert (0 <= Z.of_nat N * (2 * pa_variance par) * dropped_noise S 2 (dropped (pa_moduli par) 0 l) (2 * pa_variance par)) by (apply Z.mul_nonneg_nonneg; [apply Z.mul_nonneg_nonneg; lia|exact Hd]). lia. }
    assert (HtQ : t <= level_modulus par l) by (eapply (fits_of_noise l _ Hb); [lia|exact Hn]).
    eapply (roundtrip_of Ho Hp l Hl Hsup Hdec HtQ sk _ _ Hsk Hn). intros pt m Hpt Hm.
    destruct (pk_encrypt_all Ho Hp 0 l (Nat.le_0_l _) Hl sk pk _ ru r1 r2 pt m Hsk Hpk W0 W1 W2 Hpt Hm HtQ) as (ct & E & _ & _ & H). rewrite Nat.sub_0_r in H. eauto.
  Qed.
  (** The noise meter *)
  Theorem measure_all : oracles isp cands -> is_params isp cands par -> forall l, (l <= max_level par)%nat -> supported par -> decryptable par ->
    forall sk ct xs m e B, is_sk par sk -> is_ct par l ct xs -> (2 <= length xs)%nat -> length m = N -> length e = N -> bounded_by B e -> small_noise par l B ->
    congruent (level_modulus par l) (phase N (sk_coeffs sk) xs) (zipWith Z.add (scaled (level_modulus par l) t m) e) ->
    exists n, measure_noise sk ct = Val n /\ noise_bits e n.
  Proof.
    intros Ho Hp l Hl Hsup Hdec sk ct xs m e B Hsk Hct Hlen Lm Le He Hn Hc. pose proof Hsk as (Esk & Ls & Hi). pose proof (params_good isp cands par Ho Hp) as G. destruct (at_level_ex isp cands par l Ho G Hl) as (lv & c & A). pose proof (gp_t _ _ _ G) as Ht.
    destruct (ct_parts isp cands Ho par G l lv c A ct xs Hct) as (vxs & Ect & Ex). pose proof (good_ok _ (al_good _ _ _ _ _ _ A)) as Hcx. pose proof (al_deg _ _ _ _ _ _ A) as Hdg.
    set (mr := mkR m Lm). set (er := mkR e Le). set (s := mkR (sk_coeffs sk) Ls). set (Q := prod_list (level_moduli (pa_moduli par) l)).
    pose proof (bounded_nonneg er B (N_pos isp cands Ho par G l lv c A) He) as HB. assert (HtQ : t <= level_modulus par l) by (apply (fits_of_noise l B); [lia|lia|exact Hn]).
    assert (Hc' : rcong Q (rphase s (map snd vxs)) (rscaled Q t mr + er)%R) by (unfold rcong; rewrite rl_add, rl_scaled, <- phase_rphase, Ex; exact Hc).
    assert (HQ : 0 < Q) by (apply (EncryptProofs.HQ isp cands par l lv c Ho G A)).
    assert (Hlen' : (2 <= length vxs)%nat) by (rewrite <- Ex, !map_length in Hlen; exact Hlen).
    assert (Hd : sk_decrypt sk ct = Val (mkPt par None (P Ntt c false (rmodt t mr)))).
    { rewrite Ect. apply (decrypt_int isp cands par l lv c Ho G A sk Ls _ vxs mr er Esk Hi Hlen' Hsup).
      - unfold dec_room. rewrite (base_eq isp cands Ho par G l lv c A). exact Hdec.
      - exact HtQ.
      - exact Hc'.
      - eapply Z.le_trans; [|exact Hn]. apply Z.mul_le_mono_nonneg_l; [lia|]. apply Z.mul_le_mono_nonneg_l; [lia|]. apply Z.add_le_mono_r, rnorm_bounded; assumption. }
    assert (Hsmall : forall a, In a e -> 2 * Z.abs a < Q).
    { intros a Ha. unfold bounded_by in He. rewrite Forall_forall in He. specialize (He a Ha). unfold small_noise, level_modulus in Hn. fold Q in Hn. assert (2 ^ 60 * (2 * 2 * (B + 1)) <= 2 ^ 60 * (2 * t * (B + 1))) by (apply Z.mul_le_mono_nonneg_l; [lia|]; apply Z.mul_le_mono_nonneg_r; lia). lia. }
    unfold measure_noise. rewrite Hd. cbn [bind]. rewrite (to_poly_P isp cands par l lv c Ho G A) by (exact HtQ || apply rmodt_canonical; lia). cbn [bind]. rewrite Ect. cbn [ct_c]. destruct vxs as [|(v0 & x0) vxs]; [cbn in Hlen'; lia|].
    cbn [parts map get nth_error unwrap bind tl fst snd]. rewrite P_ctx, (sk_poly_eq isp cands Ho par G l lv c A sk Ls Hi). cbn [bind]. fold s. fold (parts c vxs). rewrite P_disallow.
    destruct (phase_loop_all_eq c Hcx Hdg s false vxs false false s x0) as (v' & Ep). rewrite Ep. cbn [bind]. rewrite (P_sub c Hcx N Hdg) by discriminate. cbn [bind]. rewrite (P_ntt_pb c Hcx N Hdg). cbn [bind]. rewrite (P_to_big c Hcx N Hdg). cbn [bind].
    eexists. split; [reflexivity|].
    rewrite (gr_product _ (co_rns _ Hcx)), (co_u64 _ Hcx). unfold modulus_of. rewrite (al_mod _ _ _ _ _ _ A). fold Q.
match goal with |- context [map (fun a => a mod Q) ?v] => assert (Ev : map (fun a => a mod Q) v = map (fun a => a mod Q) e) end.
    { change e with (rl er). set (y := (x0 + s * rphase s (map snd vxs) - rscaled (prod_list (level_moduli (pa_moduli par) l)) t (rmodt t mr))%R).
      assert (Hy : rcong Q y er).
      { unfold y. change (x0 + s * rphase s (map snd vxs))%R with (rphase s (map snd ((v0, x0) :: vxs))). fold Q.
        eapply rcong_trans; [apply rcong_sub; [exact Hc'|apply rcong_refl]|]. eapply rcong_trans; [apply rcong_sub; [apply rcong_add; [apply rscaled_mod; lia|apply rcong_refl]|apply rcong_refl]|].
        replace (rscaled Q t (rmodt t mr) + er - rscaled Q t (rmodt t mr))%R with er by ring. apply rcong_refl. }
      exact (congruent_mod _ _ _ Hy). }
    rewrite Ev. rewrite fold_left_map_max. destruct (fold_max_bits (fun a => Z.min (nbits (a mod Q)) (nbits (Q - a mod Q))) e 0) as (H1 & H2 & H3). cbv zeta in *.
    set (n := fold_left _ e 0) in *. split; [exact H1|]. split.
    - apply Forall_forall. intros a Ha. specialize (H2 a Ha). rewrite min_bits in H2 by (apply Hsmall, Ha). pose proof (nbits_bound (Z.abs a) ltac:(lia)). assert (2 ^ nbits (Z.abs a) <= 2 ^ n) by (apply Z.pow_le_mono_r; lia). lia.
    - destruct H3 as [H3|(a & Ha & H3)]; [left; exact H3|]. rewrite min_bits in H3 by (apply Hsmall, Ha). destruct (Z.eq_dec n 0); [left; assumption|]. right. exists a. split; [exact Ha|]. rewrite H3. unfold nbits in *. destruct (Z.leb_spec (Z.abs a) 0); [lia|].
      replace (Z.log2 (Z.abs a) + 1 - 1) with (Z.log2 (Z.abs a)) by lia. apply Z.log2_spec. lia.
  Qed.
End Props.

Section Zeros.
  Context {n : nat}.
  Add Ring RnZ : (Rn_ring n).
  Lemma rmul_r0 (x : Rn n) : (x * r0 n = r0 n)%R.
  Proof. ring. Qed.
  Lemma radd_r0 (x : Rn n) : (x + r0 n = x)%R.
  Proof. ring. Qed.
End Zeros.
(** ** Decryption modulo a first modulus that is too small *)
Lemma base_bad : exists par sk ct m pt, is_params isp_bfv cands_bfv par /\ supported par /\ is_sk par sk /\ canonical (pa_t par) m /\ encrypts par sk 0 ct m 0 /\ small_noise par 0 0 /\
  sk_decrypt sk ct = Val pt /\ ~ is_pt par 0 pt m.
Proof.
  destruct (ex_params 101 [97; 193]) as (par & Hp & Em & Et & Ed); [lia|discriminate| |cbn; lia|vm_compute; reflexivity|vm_compute; reflexivity|].
  { constructor; [|constructor; [|constructor]]; cbn; intuition discriminate. }
  pose proof oracles_bfv as Ho. pose proof (params_good _ _ par Ho Hp) as G. destruct (at_level_ex _ _ par 0 Ho G (Nat.le_0_l _)) as (lv & c & A).
  assert (Ls : length (sk_coeffs (mkSk par (repeat 0 (pa_degree par)))) = pa_degree par) by apply repeat_length.
  assert (Hi : Forall is_i64 (repeat 0 (pa_degree par))) by (apply Forall_forall; intros x Hx; apply repeat_spec in Hx; subst; unfold is_i64; lia).
  assert (Lm : length (repeat 50 (pa_degree par)) = pa_degree par) by apply repeat_length. set (m := mkR (repeat 50 (pa_degree par)) Lm).
  assert (El : level_moduli (pa_moduli par) 0 = [97; 193]) by (rewrite Em; reflexivity).
  set (Q := prod_list (level_moduli (pa_moduli par) 0)). assert (EQ : Q = 18721) by (unfold Q; rewrite El; reflexivity).
  assert (Hsup : supported par) by (unfold supported; rewrite Em; cbn [sum_of length]; split; cbn; lia).
  set (vxs := [(false, rscaled Q (pa_t par) m); (false, r0 (pa_degree par))]).
  assert (Hph : rphase (mkR _ Ls) (map snd vxs) = rscaled Q (pa_t par) m).
  { cbn [vxs map snd]. rewrite rphase_2. rewrite rmul_r0. apply radd_r0. }
  destruct (decrypt_raw _ _ Ho par G 0 lv c A (mkSk par (repeat 0 (pa_degree par))) Ls None vxs eq_refl Hi ltac:(cbn; lia) Hsup) as (y & Hy & Ey); [fold Q; rewrite EQ, Et; lia|].
  rewrite Hph in Hy. eexists par, (mkSk par (repeat 0 (pa_degree par))), (mkCt par None (parts c vxs) 0), (rl m), _.
  split; [exact Hp|]. split; [exact Hsup|]. split; [split; [reflexivity|split; [exact Ls|exact Hi]]|]. split.
  { unfold m. rewrite rl_mkR. apply Forall_forall. intros x Hx. apply repeat_spec in Hx. subst. rewrite Et. lia. }
  split. { apply (parts_encrypts _ _ Ho par G 0 lv c A) with (e := r0 (pa_degree par)) (Hl := Ls); [cbn; lia| |]. - apply rnorm_bounded; [lia|]. rewrite rl_r0. apply Forall_forall. intros x Hx. apply repeat_spec in Hx. subst. cbn; lia.
    - fold Q. rewrite Hph, radd_r0. apply rcong_refl. }
  split. { unfold small_noise, level_modulus. fold Q. rewrite EQ, Et. lia. }
  split; [exact Ey|]. intros (_ & _ & Hr). cbn [pt_poly] in Hr.
  apply (P_represents c (good_ok _ (al_good _ _ _ _ _ _ A)) (pa_degree par) (al_deg _ _ _ _ _ _ A)) in Hr. destruct Hr as (z & Ez & Hz). apply rl_inj in Ez. subst z.
  pose proof (proj1 (rcong_nth (pa_degree par) _ _ _) Hz 0%nat ltac:(rewrite Ed; lia)) as H0. unfold modulus_of in H0. rewrite (al_mod _ _ _ _ _ _ A), El in H0. change (prod_list [97; 193]) with 18721 in H0.
  pose proof (rl_length y) as Ly. unfold m in Hy. unfold rscaled in Hy. rewrite !rl_mkR in Hy. unfold unscale in H0. rewrite rl_mkR in H0. unfold m in H0. rewrite rl_mkR in H0. clear Ey Hz. revert Hy Ly H0. generalize (rl y). rewrite Ed. intros [|y0 ys] Hy Ly H0; [discriminate|]. cbn [repeat map nth] in Hy, H0. inversion Hy as [|? ? ? ? Hv _]; subst. clear Hy Hph.
  fold Q in Hv. rewrite EQ, Et, El in Hv. destruct Hv as (x' & E1 & E2 & _ & E3). change (18721 * 50 / 101) with 9267 in *. change (prod_list [97; 193]) with 18721 in *. change (residues_of [97; 193] 9267) with [52; 3] in *.
  specialize (E2 127 ltac:(lia)). cbn [In length sum_of] in E2. assert (E2' : 2 ^ 128 * Z.abs x' <= 18721 * (2 ^ 127 + 55)) by (apply E2; intros q [<-|[<-|[]]]; cbn; lia). clear E2.
  assert (x' = 9267). { pose proof (Z.div_mod x' 18721 ltac:(lia)) as Hd. rewrite E1 in Hd. change (9267 mod 18721) with 9267 in Hd. set (k := x' / 18721) in *. assert (k = 0) by lia. lia. }
  subst x'. cbn [sum_of] in E3. assert (y0 = 50) by lia. subst y0. unfold dec_base in H0. rewrite Em, Et in H0. pose proof (t_cases _ _ par G) as Hs. destruct (pa_small par); [|rewrite Et in Hs; cbn in Hs; lia]. vm_compute in H0. discriminate.
Qed.
