(** What the slots of a ciphertext become when it is read with other roots of unity. *)
From Verif Require Import Outcome BasicSpec OutcomeLemmas ZqModel ZqProofs NumTheory NttModel PolySpec PolyRing NttPure NttStages NttProofs NttPropLemmas CbdModel CbdSpec CbdProofs.
From Verif Require Import TranscodeModel PrimesModel RnsModel RnsSpec RnsProofs RqModel RqSpec RqCtx RqRows RqProofs RingRn RqOps RqIO RqPropLemmas ParamsModel BfvSpec ParamsProofs SlotsProofs BuildProofs ParamsPropLemmas PlainModel CipherModel OpsModel SchemeSpec CipherSpec PlainProofs RnPoly CipherProofs EncryptProofs CipherPropLemmas KeysModel KeysSpec KeysProofs KeySwitchProofs KeyNoiseProofs KeyOpsProofs KeyPropLemmas EvalSpec RotProofs EvalPropLemmas TfheProofs.
From Verif Require Import BytesModel BytesSpec PortSpec PortPropLemmas.
From Coq Require Import Znumtheory Zpow_facts Permutation.

(** ** Two roots of one modulus *)
Section Roots.
  Context (op : ntt_op) (K : nat) (w : Z) (Hok : ntt_ok op K w) (HK : (2 <= K < 61)%nat).
  Notation t := (mod_p (nt_p op)).
  Notation n := (nt_size op).
  Notation nz := (Z.of_nat n).
  Context (psi psi' : Z) (Hpsi : cong t (psi ^ nz) (-1)) (Hpsi' : cong t (psi' ^ nz) (-1)).
  Set Default Proof Using "All".
  Lemma odd_point x : cong t (x ^ nz) (-1) -> exists a, 0 <= a /\ Z.odd a = true /\ cong t x (w ^ a).
  Proof.
    intros Hx. destruct (point_surj op K w Hok x Hx) as (i & _ & E). exists (2 * bitrev K (Z.of_nat i) + 1). pose proof (bitrev_bounds K (Z.of_nat i)). split; [lia|]. split; [|exact E].
    rewrite Z.add_comm, Z.odd_add_mul_2. reflexivity.
  Qed.
  Lemma w_ok : cong t (w ^ nz) (-1).
  Proof. rewrite (ok_size _ _ _ Hok), nat_pow2_Z. apply (ok_n _ _ _ Hok). Qed.
  Lemma psi_power : exists e, 0 <= e < 2 * nz /\ Z.odd e = true /\ cong t psi' (psi ^ e) /\ (cong t psi' psi -> e = 1).
  Proof.
    pose proof (n_ge8 op K w Hok) as Hn8. destruct (Z.eq_dec (psi' mod t) (psi mod t)) as [E|NE].
    - exists 1. split; [lia|]. split; [reflexivity|]. split; [rewrite Z.pow_1_r; exact E|reflexivity].
    - destruct (odd_point psi Hpsi) as (a & Ha & Oa & Ea). destruct (odd_point psi' Hpsi') as (b & Hb & Ob & Eb).
      assert (Hr : rel_prime a (2 * nz)).
      { replace (2 * nz) with (2 ^ (Z.of_nat K + 1)) by (rewrite (RotProofs.Ez op K w Hok HK psi Hpsi), Z.add_1_r, Z.pow_succ_r by lia; reflexivity).
        rewrite <- (Z.pow_1_r a). apply rel_prime_Zpower; [lia|lia|]. apply rel_prime_sym, prime_rel_prime; [apply prime_2|]. intros D. apply Z.odd_spec in Oa. destruct Oa as (k & ->). destruct D as (q & D). lia. }
      apply rel_prime_bezout in Hr. destruct Hr as [u v Huv].
      exists ((b * u) mod (2 * nz)). pose proof (Z.mod_pos_bound (b * u) (2 * nz) ltac:(lia)) as He. set (e := (b * u) mod (2 * nz)) in *.
      assert (Eae : (a * e) mod (2 * nz) = b mod (2 * nz)).
      { unfold e. rewrite Zmult_mod_idemp_r. replace (a * (b * u)) with (b * (u * a + v * (2 * nz)) + (- (b * v)) * (2 * nz)) by ring. rewrite Z_mod_plus_full, Huv, Z.mul_1_r. reflexivity. }
      split; [exact He|]. split; [|split; [|intros E; contradiction]].
      + assert (Od : Z.odd (a * e) = Z.odd b).
        { rewrite (Z.div_mod (a * e) (2 * nz)), (Z.div_mod b (2 * nz)), Eae by lia. rewrite <- !Z.mul_assoc, !(Z.add_comm (2 * _)), !Z.odd_add_mul_2. reflexivity. }
        rewrite Z.odd_mul, Oa, Ob in Od. exact Od.
      + apply cong_trans with (w ^ b); [exact Eb|]. apply cong_trans with (w ^ (b mod (2 * nz))); [apply cong_sym, (psi_mod op K w Hok HK w w_ok); exact Hb|]. rewrite <- Eae.
        apply cong_trans with (w ^ (a * e)); [apply (psi_mod op K w Hok HK w w_ok); nia|]. rewrite Z.pow_mul_r by lia. apply cong_pow; [lia|]. apply cong_sym, Ea.
  Qed.
  Lemma eval_power e j k a : 0 <= e -> (j < n)%nat -> (k < n)%nat -> cong t psi' (psi ^ e) -> slot_exponent n k * e mod (2 * nz) = slot_exponent n j ->
    eval a (psi' ^ slot_exponent n k) mod t = eval a (psi ^ slot_exponent n j) mod t.
  Proof.
    intros He Hj Hk E Es. pose proof (slot_exponent_range K HK k) as Rk. rewrite <- (RotProofs.En op K w Hok HK psi Hpsi) in Rk. apply (eval_cong op). rewrite <- Es.
    apply cong_trans with ((psi ^ e) ^ slot_exponent n k); [apply cong_pow; [lia|exact E]|]. rewrite <- Z.pow_mul_r, Z.mul_comm by lia. apply cong_sym, (psi_mod op K w Hok HK psi Hpsi). nia.
  Qed.
  Lemma slots_moved : exists i (sw : bool), (i < n / 2)%nat /\ (cong t psi' psi -> i = O /\ sw = false) /\
    forall a, slots n t psi' a = if sw then swapped_rows n (rotated_columns n i (slots n t psi a)) else rotated_columns n i (slots n t psi a).
  Proof.
    pose proof (n_ge8 op K w Hok) as Hn8. destruct psi_power as (e & He & Oe & Ee & E1). pose proof (RotProofs.halves op K w Hok HK psi Hpsi) as Hh. pose proof (RotProofs.En op K w Hok HK psi Hpsi) as EN.
    assert (Hm : forall a, (a mod (n / 2) < n / 2)%nat) by (intros a; apply Nat.mod_upper_bound; lia).
    assert (HR : exists! j, (j < n)%nat /\ slot_exponent n j = e). { rewrite EN. apply roots_of_slots_all; [exact HK| |exact Oe]. rewrite <- (RotProofs.Ez op K w Hok HK psi Hpsi). exact He. }
    destruct HR as (j & (Hj & Ej) & Hu). destruct (Nat.ltb_spec j (n / 2)) as [Hlt|Hge].
    - exists j, false. split; [exact Hlt|]. split.
      + intros C. split; [|reflexivity]. apply Hu. split; [lia|]. rewrite (E1 C). unfold slot_exponent. destruct (Nat.ltb_spec 0 (n / 2)); [|lia]. cbn [Z.of_nat]. apply Z.mod_small. change (3 ^ 0) with 1. lia.
      + intros a. cbv beta iota. apply list_ext_Z; [rewrite slots_length, rotated_length; auto using slots_length; lia|]. rewrite slots_length. intros k Hk. rewrite nth_rotated by auto using slots_length.
        set (j' := (if Nat.ltb k (n / 2) then (k + j) mod (n / 2) else n / 2 + (k - n / 2 + j) mod (n / 2))%nat). assert (Hj' : (j' < n)%nat) by (unfold j'; pose proof (Hm (k + j)%nat); pose proof (Hm (k - n / 2 + j)%nat); destruct (Nat.ltb k (n / 2)); lia).
        rewrite !nth_slots by assumption. apply (eval_power e); try assumption; [lia|]. rewrite <- Ej. unfold slot_exponent at 2. destruct (Nat.ltb_spec j (n / 2)); [|lia]. apply (slot_column op K w Hok HK psi Hpsi); assumption.
    - exists (j - n / 2)%nat, true. split; [lia|]. split.
      + intros C. exfalso. assert (j = O); [|lia]. apply Hu. split; [lia|]. rewrite (E1 C). unfold slot_exponent. destruct (Nat.ltb_spec 0 (n / 2)); [|lia]. cbn [Z.of_nat]. apply Z.mod_small. change (3 ^ 0) with 1. lia.
      + intros a. cbv beta iota. set (i := (j - n / 2)%nat) in *. assert (Hi : (i < n / 2)%nat) by (unfold i; lia). apply list_ext_Z; [rewrite slots_length, swapped_length; auto; rewrite rotated_length; auto using slots_length; lia|]. rewrite slots_length. intros k Hk.
        rewrite nth_swapped by (auto; rewrite rotated_length; auto using slots_length; lia). set (r := (if Nat.ltb k (n / 2) then n / 2 + k else k - n / 2)%nat). assert (Hr : (r < n)%nat) by (unfold r; destruct (Nat.ltb_spec k (n / 2)); lia).
        rewrite nth_rotated by auto using slots_length. set (j' := (if Nat.ltb r (n / 2) then (r + i) mod (n / 2) else n / 2 + (r - n / 2 + i) mod (n / 2))%nat). assert (Hj' : (j' < n)%nat) by (unfold j'; pose proof (Hm (r + i)%nat); pose proof (Hm (r - n / 2 + i)%nat); destruct (Nat.ltb r (n / 2)); lia).
        rewrite !nth_slots by assumption. apply (eval_power e); try assumption; [lia|]. unfold j'. rewrite <- (slot_column op K w Hok HK psi Hpsi i r Hi Hr). unfold r. rewrite <- (slot_row op K w Hok HK psi Hpsi k Hk).
        rewrite <- Ej. unfold slot_exponent at 2. destruct (Nat.ltb_spec j (n / 2)); [lia|]. fold i. rewrite Zmult_mod_idemp_l. rewrite !Zmult_mod_idemp_r.
        replace (slot_exponent n k * (2 * nz - 1) * 3 ^ Z.of_nat i) with (slot_exponent n k * - 3 ^ Z.of_nat i + (slot_exponent n k * 3 ^ Z.of_nat i) * (2 * nz)) by ring. rewrite Z_mod_plus_full. reflexivity.
  Qed.
End Roots.
Set Default Proof Using "Type".

(** ** Slots of parameter sets *)
Lemma root_all isp cands (Ho : oracles isp cands) par (Hp : is_params isp cands par) op : pa_ntt par = Some op -> exists psi, good_root par op psi.
Proof.
  intros Eop. pose proof (params_good isp cands par Ho Hp) as G. destruct (slot_values_all isp cands Ho par Hp) as (Li & _ & H). destruct (H op Eop) as (psi & Hpsi & Hn & Hv). pose proof (gp_t _ _ _ G) as Ht. exists psi. split; [unfold cong; rewrite Hn; apply (Z.mod_unique_pos (-1) (pa_t par) (-1)); lia|].
  intros a La Ca. destruct (Hv a La Ca) as (b & Eb & Lb & Hb). unfold reads. rewrite Eb. cbn [bind].
  assert (E : mapM (get b) (pa_index par) = Val (map (fun i => nth i b 0) (pa_index par))).
  { destruct (index_facts isp cands par G) as (_ & _ & Hlt). rewrite <- (map_id (pa_index par)) at 1. apply mapM_map. intros i Hi. rewrite Forall_forall in Hlt. apply get_nth. rewrite Lb. apply Hlt, Hi. }
  rewrite E. f_equal. apply list_ext_Z; [rewrite map_length, slots_length; exact Li|].
  rewrite map_length, Li. intros i Hi. rewrite nth_slots by exact Hi. rewrite (map_nth_lt _ _ i O) by (rewrite Li; exact Hi). apply Hb, Hi.
Qed.
Lemma same_psi N t psi psi' : (8 <= N)%nat -> 1 < t -> (forall a, length a = N -> canonical t a -> slots N t psi a = slots N t psi' a) -> cong t psi' psi.
Proof.
  intros HN Ht H. specialize (H (0 :: 1 :: repeat 0 (N - 2))). assert (L : length (0 :: 1 :: repeat 0 (N - 2)) = N) by (cbn [length]; rewrite repeat_length; lia).
  assert (C : canonical t (0 :: 1 :: repeat 0 (N - 2))). { constructor; [lia|]. constructor; [lia|]. apply Forall_forall. intros y Hy. apply repeat_spec in Hy. subst y. lia. }
  specialize (H L C). apply (f_equal (fun v => nth 0 v 0)) in H. rewrite !nth_slots in H by lia.
  assert (E0 : slot_exponent N 0 = 1). { unfold slot_exponent. assert (4 <= N / 2)%nat by (apply Nat.div_le_lower_bound; lia). destruct (Nat.ltb_spec 0 (N / 2)); [|lia]. cbn [Z.of_nat]. change (3 ^ 0) with 1. apply Z.mod_small. lia. }
  assert (E : forall z, eval (0 :: 1 :: repeat 0 (N - 2)) z = z).
  { intros z. cbn [eval]. replace (eval (repeat 0 (N - 2)) z) with 0; [ring|]. generalize (N - 2)%nat as k. intros k. induction k as [|k IH]; [reflexivity|]. cbn [repeat eval]. rewrite <- IH. ring. }
  rewrite E0, !E, !Z.pow_1_r in H. unfold cong. congruence.
Qed.

Lemma F2_len {A B} (R : A -> B -> Prop) xs ys : Forall2 R xs ys -> length xs = length ys.
Proof. intros H. induction H; [reflexivity|cbn [length]; congruence]. Qed.
Section Two.
  Context (isp : Z -> bool) (cands : Z -> list Z) (par : params) (isp' : Z -> bool) (cands' : Z -> list Z) (par' : params).
  Notation N := (pa_degree par).
  Notation t := (pa_t par).
  Lemma port_encrypts : oracles isp cands -> is_params isp cands par -> oracles isp' cands' -> is_params isp' cands' par' -> same_numbers par par' -> serializable par -> forall l, (l <= max_level par)%nat ->
    forall expand sk ct m B, expands_well expand -> encrypts2 par sk l ct m B -> ct_seed ct = None ->
    exists b, ct_to_bytes ct = Val b /\ (fits b -> exists ct', ct_from_bytes expand b par' = Val ct' /\ encrypts2 par' (key_under par' sk) l ct' m B).
  Proof.
    intros Ho Hp Ho' Hp' Hs Hser l Hl expand sk ct m B Hx (H2 & xs & e & Hct & Hlen & Lm & Le & He & Hcong) Es.
    destruct (port_ct_all isp cands par isp' cands' par' Ho Hp Ho' Hp' Hs Hser l Hl expand ct xs Hx Hct Hlen Es) as (b & Eb & Hb). exists b. split; [exact Eb|]. intros Hf. destruct (Hb Hf) as (ct' & Ect' & Hct' & _). exists ct'. split; [exact Ect'|].
    pose proof Hs as (S1 & S2 & S3 & S4). pose proof (same_modulus par par' Hs l) as EQ. split.
    - destruct Hct as (_ & _ & F). destruct Hct' as (_ & _ & F'). apply F2_len in F. apply F2_len in F'. congruence.
    - exists xs, e. rewrite <- S1, <- S4, <- EQ. split; [exact Hct'|]. split; [exact Hlen|]. split; [exact Lm|]. split; [exact Le|]. split; [exact He|exact Hcong].
  Qed.
  Theorem port_slots_all : oracles isp cands -> is_params isp cands par -> oracles isp' cands' -> is_params isp' cands' par' -> same_numbers par par' -> serializable par -> pa_ntt par <> None -> pa_ntt par' <> None ->
    exists i (sw : bool), (i < N / 2)%nat /\ (pa_ntt par = pa_ntt par' -> i = O /\ sw = false) /\
    let change v := if sw then swapped_rows N (rotated_columns N i v) else rotated_columns N i v in
    forall l, (l <= max_level par)%nat -> t <= level_modulus par l ->
    forall expand sk ct v B, expands_well expand -> is_sk par sk -> Forall (fun a => 0 <= a < t) v -> encrypts_slots par sk l ct v B -> ct_seed ct = None ->
    exists b, ct_to_bytes ct = Val b /\ (fits b -> exists ct', ct_from_bytes expand b par' = Val ct' /\ encrypts_slots par' (key_under par' sk) l ct' (change (pad N v)) B /\
      (supported par -> decryptable par -> small_noise par l B -> exists pt, sk_decrypt (key_under par' sk) ct' = Val pt /\ decode_u64 pt (Some (mkEnc EncSimd l)) = Val (change (pad N v)))).
  Proof.
    intros Ho Hp Ho' Hp' Hs Hser Hn Hn'. pose proof Hs as (S1 & S2 & S3 & S4). pose proof (params_good isp cands par Ho Hp) as G. pose proof (params_good isp' cands' par' Ho' Hp') as G'.
    destruct (pa_ntt par) as [op|] eqn:Eop; [|congruence]. destruct (pa_ntt par') as [op'|] eqn:Eop'; [|congruence].
    destruct (root_all isp cands Ho par Hp op Eop) as (psi & Hpsi). destruct (root_all isp' cands' Ho' par' Hp' op' Eop') as (psi' & Hpsi').
    destruct (ntt_facts isp cands par G op Eop) as (mm & _ & Em & En). destruct (modulus_new_valid _ _ Em) as (Hmm & Et). assert (Ct : canonical (mod_p mm) (cands t)) by (rewrite <- Et; apply (proj2 Ho)). destruct (ntt_new_ok isp (proj1 Ho) mm Hmm (cands t) N op Ct En) as (K & w & Hok & Emm & EN).
    destruct (gp_deg _ _ _ G) as (K' & HK' & EK' & Ei). assert (K = K') as -> by (pose proof (ok_size _ _ _ Hok); apply (Nat.pow_inj_r 2); lia).
    pose proof (n_ge8 op K' w Hok) as Hn8. pose proof (gp_t _ _ _ G) as Ht. rewrite <- Emm in Et.
    assert (HM : exists i (sw : bool), (i < N / 2)%nat /\ (cong t psi' psi -> i = O /\ sw = false) /\ forall a, slots N t psi' a = if sw then swapped_rows N (rotated_columns N i (slots N t psi a)) else rotated_columns N i (slots N t psi a)).
    { rewrite <- EN, Et. apply (slots_moved op K' w Hok ltac:(lia) psi psi'); rewrite EN, <- Et; [apply Hpsi|]. destruct Hpsi' as (H & _). rewrite <- S1, <- S4 in H. exact H. }
    destruct HM as (i & sw & Hi & H0 & HM). exists i, sw. split; [exact Hi|]. split.
    { intros E. injection E as <-. apply H0. apply (same_psi N); [lia|lia|]. intros a La Ca. destruct Hpsi as (_ & R). destruct Hpsi' as (_ & R'). specialize (R a La Ca). rewrite <- S1, <- S4 in R'. specialize (R' a La Ca). unfold reads in R, R'.
      destruct (gp_deg _ _ _ G') as (K2 & HK2 & EK2 & Ei2). assert (K2 = K') as -> by (apply (Nat.pow_inj_r 2); lia). rewrite Ei2 in R'. rewrite Ei in R. rewrite R in R'. injection R' as R'. exact R'. }
    intros change l Hl HtQ expand sk ct v B Hx Hsk Hv Henc Es. destruct (same_level isp cands par isp' cands' par' Ho Hp Ho' Hp' Hs l Hl) as (Hl' & _). pose proof (same_modulus par par' Hs l) as EQ.
    destruct (at_level_ex isp cands par l Ho G Hl) as (lv & c & A). destruct (at_level_ex isp' cands' par' l Ho' G' Hl') as (lv' & c' & A'). pose proof Hsk as (_ & Ls & _).
    assert (HtQ' : pa_t par' <= level_modulus par' l) by (rewrite <- S4, <- EQ; exact HtQ).
    destruct (encrypts_slots_enc isp cands Ho par Hp G l lv c A op Eop HtQ sk Ls psi ct v B Hpsi Hv Henc) as (m & Hm & Em').
    apply (enc_encrypts2 isp cands Ho par G l lv c A) in Hm.
    destruct (port_encrypts Ho Hp Ho' Hp' Hs Hser l Hl expand sk ct (rl m) B Hx Hm Es) as (b & Eb & Hb). exists b. split; [exact Eb|]. intros Hf. destruct (Hb Hf) as (ct' & Ect' & Hct'). exists ct'. split; [exact Ect'|].
    assert (Lm' : length (rl m) = pa_degree par') by (rewrite rl_length; exact S1).
    assert (Ls' : length (sk_coeffs (key_under par' sk)) = pa_degree par') by (cbn [key_under sk_coeffs]; congruence).
    assert (HS : encrypts_slots par' (key_under par' sk) l ct' (change (pad N v)) B).
    { assert (Ec : change (pad N v) = slots (pa_degree par') (pa_t par') psi' (rl (mkR (rl m) Lm'))). { rewrite rl_mkR, <- S1, <- S4, HM, Em'. reflexivity. }
      rewrite Ec. apply (enc_encrypts_slots isp' cands' Ho' par' Hp' G' l lv' c' A' op' Eop' HtQ' (key_under par' sk) Ls' psi' ct' (mkR (rl m) Lm') B Hpsi').
      apply (enc_encrypts2 isp' cands' Ho' par' G' l lv' c' A'). rewrite rl_mkR. exact Hct'. }
    split; [exact HS|]. intros Hsup Hdec Hsm. destruct (port_sk_all par par' Hs sk Hsk) as (Hsk' & _).
    assert (EC : change (pad N v) = slots N t psi' (rl m)) by (rewrite HM, Em'; reflexivity).
    assert (CC : Forall (fun a => 0 <= a < t) (change (pad N v))) by (rewrite EC; apply slots_canonical; lia).
    assert (LC : length (change (pad N v)) = N) by (rewrite EC; apply slots_length).
    destruct (slots_decrypt_all isp' cands' par' Ho' Hp') with (sk := key_under par' sk) (l := l) (ct := ct') (v := change (pad N v)) (B := B) as (pt & D1 & D2); try assumption.
    - rewrite Eop'. discriminate.
    - unfold supported. rewrite <- S2. exact Hsup.
    - unfold decryptable, decryption_base in *. rewrite (gp_sizes _ _ _ G'). rewrite (gp_sizes _ _ _ G) in Hdec. rewrite <- S4, <- S2. exact Hdec.
    - rewrite <- S4. exact CC.
    - apply Forall_impl with (2 := CC). cbv beta. intros z Hz. unfold is_u64. pose proof (modulus_new_inv _ _ Em). lia.
    - rewrite <- S1, LC. lia.
    - unfold small_noise. rewrite <- S4, <- EQ. exact Hsm.
    - exists pt. split; [exact D1|]. rewrite D2, <- S1. f_equal. revert LC. clear. generalize (change (pad N v)). intros u LC. unfold pad. rewrite LC, Nat.sub_diag. apply app_nil_r.
  Qed.
End Two.

(** ** Words of transformed polynomials *)
Lemma lcong_nth_inv p a : forall b, length a = length b -> (forall k, cong p (nth k a 0) (nth k b 0)) -> lcong p a b.
Proof.
  induction a as [|u a IH]; intros [|v b] L H; try discriminate L; constructor; [exact (H O)|]. apply IH; [cbn [length] in L; lia|]. intros k. exact (H (S k)).
Qed.
Lemma same_words N ops : forall ops', Forall (fun op => exists K w, ntt_ok op K w /\ nt_size op = N) ops -> Forall (fun op => exists K w, ntt_ok op K w /\ nt_size op = N) ops' -> map nt_p ops = map nt_p ops' ->
  exists es, Forall (fun e => Z.odd e = true /\ 0 < e < 2 * Z.of_nat N) es /\ length es = length ops /\ forall x y, length x = N -> length y = N ->
    (map (fun op => evaluations op y) ops' = map (fun op => evaluations op x) ops <-> Forall2 (fun q e => forall k, cong q (nth k y 0) (nth k (automorphism N e x) 0)) (map (fun op => mod_p (nt_p op)) ops) es).
Proof.
  induction ops as [|op ops IH]; intros [|op' ops'] H H' E; cbn [map] in E; try discriminate E.
  - exists []. split; [constructor|]. split; [reflexivity|]. intros x y _ _. cbn [map]. split; intros _; [constructor|reflexivity].
  - injection E as E0 E. inversion H as [|u us (K & w & Hok & Hs) HF]; subst u us. inversion H' as [|u us (K' & w' & Hok' & Hs') HF']; subst u us.
    assert (K = K') as <- by (apply (Nat.pow_inj_r 2); [lia|]; rewrite <- (ok_size _ _ _ Hok), <- (ok_size _ _ _ Hok'); congruence). assert (EN : N = (2 ^ K)%nat) by (rewrite <- (ok_size _ _ _ Hok); congruence).
    destruct (IH ops' HF HF' E) as (es & F & L & HI). destruct (root_power op' op K w' w Hok' Hok E0) as (e & Oe & Re & Ee). exists (e :: es). split; [constructor; [rewrite EN; auto|exact F]|]. split; [cbn [length]; congruence|].
    intros x y Lx Ly. cbn [map]. assert (HR : evaluations op x = NTT op' (automorphism N e x)).
    { rewrite (evaluations_NTT op K w Hok) by congruence. rewrite EN. apply (forward_rel op' op K w' w Hok' Hok E0); [lia|exact Ee|congruence]. }
    rewrite (evaluations_NTT op' K w' Hok' y) by congruence. rewrite HR.
    assert (HQ : NTT op' y = NTT op' (automorphism N e x) <-> forall k, cong (mod_p (nt_p op)) (nth k y 0) (nth k (automorphism N e x) 0)).
    { rewrite E0. split.
      - intros Q k. apply (NTT_inj op' K w' Hok') in Q; [apply lcong_nth, Q|congruence|rewrite aut_length; congruence].
      - intros Q. apply (NTT_cong op'). apply (lcong_nth_inv (mod_p (nt_p op'))); [rewrite aut_length; congruence|exact Q]. }
    specialize (HI x y Lx Ly). split.
    + intros Q. injection Q as Q1 Q2. constructor; [apply HQ, Q1|apply HI, Q2].
    + intros Q. inversion Q as [|a b as_ bs Q1 Q2]; subst. f_equal; [apply HQ, Q1|apply HI, Q2].
Qed.
Theorem port_words_all : forall isp cands isp' cands', oracles isp cands -> oracles isp' cands' -> forall c c', is_context isp cands c -> is_context isp' cands' c' -> c_moduli c = c_moduli c' -> c_degree c = c_degree c' ->
  exists es, length es = length (c_moduli c) /\ Forall (fun e => Z.odd e = true /\ 0 < e < 2 * Z.of_nat (c_degree c)) es /\
  forall (p p' : poly Ntt) x y, p_ctx p = c -> represents p x -> p_ctx p' = c' -> represents p' y ->
  (p_coeffs p' = p_coeffs p <-> Forall2 (fun q e => forall k, nth k y 0 mod q = nth k (automorphism (c_degree c) e x) 0 mod q) (c_moduli c) es).
Proof.
  intros isp cands isp' cands' Ho Ho' c c' Hc Hc' Em Ed. destruct (ctx_of isp cands c Ho Hc) as (_ & Ok). destruct (ctx_of isp' cands' c' Ho' Hc') as (_ & Ok'). pose proof (same_q c c' Ok Ok' Em) as Eq.
  destruct (same_words (c_degree c) (c_ops c) (c_ops c')) as (es & F & L & H); [apply (co_ops _ Ok)|rewrite Ed; apply (co_ops _ Ok')|rewrite <- (co_q _ Ok), <- (co_q _ Ok'); exact Eq|].
  assert (EM : c_moduli c = map (fun op => mod_p (nt_p op)) (c_ops c)) by (rewrite (co_moduli _ Ok), (co_q _ Ok), map_map; reflexivity).
  exists es. split; [rewrite EM, map_length; exact L|]. split; [exact F|]. intros p p' x y Ep (Lx & Rx) Ep' (Ly & Ry). rewrite Rx, Ry, Ep, Ep'. rewrite Ep in Lx. rewrite Ep', <- Ed in Ly. cbn [poly_of p_coeffs]. unfold row. rewrite EM. exact (H x y Lx Ly).
Qed.
