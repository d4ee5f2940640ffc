(** Automorphisms of ciphertexts, on messages and on slots. *)
From Verif Require Import Outcome BasicSpec OutcomeLemmas ZqModel ZqProofs NumTheory NttModel PolySpec PolyRing NttPure NttStages NttProofs NttPropLemmas CbdModel CbdSpec CbdProofs.
From Verif Require Import TranscodeModel PrimesModel RnsModel RnsSpec RnsProofs RqModel RqSpec RqCtx RqRows RqProofs RingRn RqOps RqIO RqPropLemmas ParamsModel BfvSpec ParamsProofs SlotsProofs BuildProofs ParamsPropLemmas PlainModel CipherModel OpsModel SchemeSpec CipherSpec PlainProofs RnPoly CipherProofs EncryptProofs CipherPropLemmas KeysModel KeysSpec KeysProofs KeySwitchProofs KeyNoiseProofs KeyOpsProofs KeyPropLemmas EvalSpec.
From Coq Require Import Znumtheory Permutation.
Set Default Proof Using "Type".

(** ** Two-part ciphertexts and their messages *)
Section Enc.
  Context (isp : Z -> bool) (cands : Z -> list Z) (Ho : oracles isp cands) (par : params) (G : good_params isp cands par).
  Context (l : nat) (lv : level_ctx) (c : ctx) (A : at_level isp cands par l lv c).
  Notation N := (pa_degree par).
  Notation t := (pa_t par).
  Notation Q := (prod_list (level_moduli (pa_moduli par) l)).
  Add Ring Rn_rot : (Rn_ring N).
  Set Default Proof Using "All".
  Local Lemma HcE : ctx_ok c. Proof. exact (good_ok _ (al_good _ _ _ _ _ _ A)). Qed.
  Local Lemma HdE : c_degree c = N. Proof. exact (al_deg _ _ _ _ _ _ A). Qed.
  Local Lemma HtE : 0 < t. Proof. pose proof (gp_t _ _ _ G). lia. Qed.

  Definition enc (s : Rn N) (ct : ciphertext) (m : Rn N) (B : Z) : Prop :=
    exists sd v0 v1 (x0 x1 e : Rn N), ct = mkCt par sd (parts c [(v0, x0); (v1, x1)]) l /\ rnorm e <= B /\ rcong Q (x0 + s * x1)%R (rscaled Q t m + e)%R.
  Lemma enc_encrypts2 sk (Hl : length (sk_coeffs sk) = N) ct (m : Rn N) B : encrypts2 par sk l ct (rl m) B <-> enc (mkR (sk_coeffs sk) Hl) ct m B.
  Proof.
    split.
    - intros (L & H). destruct (encrypts_parts isp cands Ho par G l lv c A sk ct _ B Hl H) as (vxs & mr & e & Ect & _ & L' & Em & (_ & He) & Hc). apply rl_inj in Em. subst mr. rewrite L in L'.
      destruct vxs as [|(v0 & x0) [|(v1 & x1) [|? ?]]]; try discriminate. cbn [map snd] in Hc. rewrite rphase_2 in Hc. exists (ct_seed ct), v0, v1, x0, x1, e. auto.
    - intros (sd & v0 & v1 & x0 & x1 & e & -> & He & Hc). split; [reflexivity|]. apply (parts_encrypts isp cands Ho par G l lv c A) with (e := e) (Hl := Hl); [cbn [length]; lia|exact He|]. cbn [map snd]. rewrite rphase_2. exact Hc.
  Qed.
  Lemma enc_cong s ct m m' B : rcong t m m' -> enc s ct m B -> enc s ct m' B.
  Proof.
    intros Hm (sd & v0 & v1 & x0 & x1 & e & Ec & He & Hc). exists sd, v0, v1, x0, x1, e. split; [exact Ec|]. split; [exact He|]. eapply rcong_trans; [exact Hc|]. apply rcong_add; [|apply rcong_refl].
    eapply rcong_trans; [apply (rscaled_mod Q t m HtE)|]. apply rcong_rmodt in Hm. rewrite Hm. apply rcong_sym, (rscaled_mod Q t m' HtE).
  Qed.
  Lemma enc_weaken s ct m B B' : B <= B' -> enc s ct m B -> enc s ct m B'.
  Proof. intros H (sd & v0 & v1 & x0 & x1 & e & Ec & He & Hc). exists sd, v0, v1, x0, x1, e. split; [exact Ec|]. split; [lia|exact Hc]. Qed.
  Lemma enc_any s ct m B : enc s ct m B -> any_out par c ct.
  Proof. intros (sd & v0 & v1 & x0 & x1 & e & -> & _) o0 o1 H _ _. cbn [ct_c parts map fst snd] in H. injection H as <- <-. eauto 6. Qed.
  Lemma enc_add s ct ct' m m' B B' : enc s ct m B -> enc s ct' m' B' -> exists r, ct_add ct ct' = Val r /\ enc s r (m + m')%R (B + B' + 1).
  Proof.
    intros (sd & v0 & v1 & x0 & x1 & e & -> & He & Hc) (sd' & v0' & v1' & x0' & x1' & e' & -> & He' & Hc'). eexists. split; [apply (ct_add_P isp cands par l lv c Ho G A); [reflexivity|discriminate]|]. cbn [combine map fst snd].
    set (d := (rscaled Q t m + rscaled Q t m' - rscaled Q t (m + m'))%R). eexists None, _, _, _, _, (e + e' + d)%R. split; [reflexivity|]. split.
    - pose proof (rscaled_add Q t m m' HtE) as Hd. fold d in Hd. pose proof (rnorm_add N (e + e')%R d). pose proof (rnorm_add N e e'). lia.
    - replace (x0 + x0' + s * (x1 + x1'))%R with ((x0 + s * x1) + (x0' + s * x1'))%R by ring. replace (rscaled Q t (m + m') + (e + e' + d))%R with ((rscaled Q t m + e) + (rscaled Q t m' + e'))%R by (unfold d; ring). apply rcong_add; assumption.
  Qed.
  Lemma enc_sub s ct ct' m m' B B' : enc s ct m B -> enc s ct' m' B' -> exists r, ct_sub ct ct' = Val r /\ enc s r (m - m')%R (B + B' + 1).
  Proof.
    intros (sd & v0 & v1 & x0 & x1 & e & -> & He & Hc) (sd' & v0' & v1' & x0' & x1' & e' & -> & He' & Hc'). eexists. split; [apply (ct_sub_P isp cands par l lv c Ho G A); [reflexivity|discriminate]|]. cbn [combine map fst snd].
    set (d := (rscaled Q t m - rscaled Q t m' - rscaled Q t (m - m'))%R). eexists None, _, _, _, _, (e - e' + d)%R. split; [reflexivity|]. split.
    - pose proof (rscaled_sub Q t m m' HtE) as Hd. fold d in Hd. pose proof (rnorm_add N (e - e')%R d). pose proof (rnorm_sub N e e'). lia.
    - replace (x0 - x0' + s * (x1 - x1'))%R with ((x0 + s * x1) - (x0' + s * x1'))%R by ring. replace (rscaled Q t (m - m') + (e - e' + d))%R with ((rscaled Q t m + e) - (rscaled Q t m' + e'))%R by (unfold d; ring). apply rcong_sub; assumption.
  Qed.
  Lemma rscaled_aut e (m : Rn N) : Nat.odd e = true -> rnorm (@raut N e (rscaled Q t m) - rscaled Q t (@raut N e m))%R <= 1.
  Proof.
    intros Hodd. destruct (gp_deg _ _ _ G) as (K & _ & EK & _). pose proof HtE as Ht. destruct (rscaled_spec Q t m Ht) as (r & Hr & Er). destruct (rscaled_spec Q t (@raut N e m) Ht) as (r' & Hr' & Er').
    assert (E : (rZ N t * (@raut N e (rscaled Q t m) - rscaled Q t (@raut N e m)) = r' - @raut N e r)%R).
    { replace (rZ N t * (@raut N e (rscaled Q t m) - rscaled Q t (@raut N e m)))%R with (rZ N t * @raut N e (rscaled Q t m) - rZ N t * rscaled Q t (@raut N e m))%R by ring. rewrite Er'.
      apply (f_equal (@raut N e)) in Er. rewrite <- !rscale_mul, raut_sub, !raut_scale, !rscale_mul in Er. rewrite Er. ring. }
    apply (f_equal rnorm) in E. rewrite rnorm_scale_eq in E. pose proof (rnorm_sub N r' (@raut N e r)). pose proof (rnorm_aut N e K r EK Hodd). pose proof (canonical_norm t r Ht Hr). pose proof (canonical_norm t r' Ht Hr').
    set (x := rnorm (@raut N e (rscaled Q t m) - rscaled Q t (@raut N e m))%R) in *. rewrite Z.abs_eq in E by lia. nia.
  Qed.
  Lemma raut_rcong e (x y : Rn N) : rcong Q x y -> rcong Q (@raut N e x) (@raut N e y).
  Proof. apply raut_cong. exact (Qpos isp cands Ho par G l lv c A). Qed.
  Theorem enc_galois s e i k D : Z.of_nat N <= 2 ^ 31 -> subst_ok N e i -> sw_key par l c k s (@raut N (Z.to_nat e) s) D -> forall ct m B, enc s ct m B ->
    (exists r, galois_apply (mkGk i k) ct = Val r /\ enc s r (@raut N (Z.to_nat e) m) (B + 1 + D)) /\
    forall out, any_out par c out -> exists r, galois_apply_into (mkGk i k) ct out = Val r /\ enc s r (@raut N (Z.to_nat e) m) (B + 1 + D).
  Proof.
    intros HN Hi Hk ct m B (sd & v0 & v1 & x0 & x1 & n & -> & Hn & Hc). pose proof (sg_odd isp cands Ho par G l lv c A HN e i Hi) as Hodd.
    assert (HR : forall z0 z1, galois_result par l e s D x0 x1 z0 z1 -> exists n', rnorm n' <= B + 1 + D /\ rcong Q (z0 + s * z1)%R (rscaled Q t (@raut N (Z.to_nat e) m) + n')%R).
    { intros z0 z1 (E & HE & HC). set (d := (@raut N (Z.to_nat e) (rscaled Q t m) - rscaled Q t (@raut N (Z.to_nat e) m))%R). exists (@raut N (Z.to_nat e) n + d + E)%R. destruct (gp_deg _ _ _ G) as (K & _ & EK & _). split.
      - pose proof (rscaled_aut (Z.to_nat e) m Hodd) as Hd. fold d in Hd. pose proof (rnorm_aut N (Z.to_nat e) K n EK Hodd). pose proof (rnorm_add N (@raut N (Z.to_nat e) n + d)%R E). pose proof (rnorm_add N (@raut N (Z.to_nat e) n) d). lia.
      - eapply rcong_trans; [exact HC|]. replace (rscaled Q t (@raut N (Z.to_nat e) m) + (@raut N (Z.to_nat e) n + d + E))%R with (@raut N (Z.to_nat e) (rscaled Q t m) + @raut N (Z.to_nat e) n + E)%R by (unfold d; ring). apply rcong_add; [|apply rcong_refl]. rewrite <- raut_add. apply raut_rcong. exact Hc. }
    split.
    - destruct (galois_apply_P isp cands Ho par G l lv c A HN e i Hi k s D Hk sd v0 v1 x0 x1) as (w0 & w1 & z0 & z1 & Eg & Hr). destruct (HR z0 z1 Hr) as (n' & Hn' & Hc'). eexists. split; [exact Eg|]. exists None, w0, w1, z0, z1, n'. auto.
    - destruct (galois_apply_into_P isp cands Ho par G l lv c A HN e i Hi k s D Hk sd v0 v1 x0 x1) as (z0 & z1 & Hr & Hg). destruct (HR z0 z1 Hr) as (n' & Hn' & Hc'). intros out Hout. destruct (Hg out Hout) as (w0 & w1 & Eg). eexists. split; [exact Eg|]. exists None, w0, w1, z0, z1, n'. auto.
  Qed.
End Enc.
Set Default Proof Using "Type".

(** ** Slots *)
Definition slots (n : nat) (t psi : Z) (a : list Z) : list Z := map (fun i => eval a (psi ^ slot_exponent n i) mod t) (seq 0 n).
Lemma slots_length n t psi a : length (slots n t psi a) = n.
Proof. unfold slots. rewrite map_length, seq_length. reflexivity. Qed.
Lemma nth_slots n t psi a i : (i < n)%nat -> nth i (slots n t psi a) 0 = eval a (psi ^ slot_exponent n i) mod t.
Proof. intros Hi. unfold slots. rewrite (map_nth_lt _ _ i O) by (rewrite seq_length; exact Hi). rewrite seq_nth by exact Hi. reflexivity. Qed.
Lemma slots_canonical n t psi a : 0 < t -> canonical t (slots n t psi a).
Proof. intros Ht. apply Forall_map, Forall_forall. intros i _. apply Z.mod_pos_bound, Ht. Qed.
Lemma nth_skipn_Z (l : list Z) : forall i k, nth k (skipn i l) 0 = nth (i + k) l 0.
Proof. induction l as [|a l IH]; intros [|i] k; cbn [skipn plus]; try reflexivity; [destruct k, i; reflexivity|]. cbn [nth]. apply IH. Qed.
Lemma nth_rotated n i (v : list Z) k : (n / 2 + n / 2 = n)%nat -> length v = n -> (i < n / 2)%nat -> (k < n)%nat ->
  nth k (rotated_columns n i v) 0 = nth (if Nat.ltb k (n / 2) then (k + i) mod (n / 2) else n / 2 + (k - n / 2 + i) mod (n / 2)) v 0.
Proof.
  intros Hn Lv Hi Hk. set (h := (n / 2)%nat) in *. unfold rotated_columns. fold h.
  assert (R : forall row : list Z, length row = h -> forall j, (j < h)%nat -> nth j (rotate_left i row) 0 = nth ((j + i) mod h) row 0).
  { intros row Lr j Hj. unfold rotate_left. destruct (Nat.lt_ge_cases (j + i) h) as [Hlt|Hge].
    - rewrite app_nth1 by (rewrite skipn_length; lia). rewrite nth_skipn_Z, Nat.mod_small by lia. f_equal. lia.
    - rewrite app_nth2 by (rewrite skipn_length; lia). rewrite skipn_length, Lr. replace ((j + i) mod h)%nat with (j + i - h)%nat; [|apply (Nat.mod_unique (j + i) h 1); lia].
      rewrite nth_firstn_lt by lia. f_equal. lia. }
  assert (L1 : length (rotate_left i (firstn h v)) = h) by (unfold rotate_left; rewrite app_length, skipn_length, !firstn_length; lia).
  assert (Hm : forall a, (a mod h < h)%nat) by (intros a; apply Nat.mod_upper_bound; lia).
  destruct (Nat.ltb_spec k h).
  - rewrite app_nth1 by lia. rewrite R by (try rewrite firstn_length; lia). apply nth_firstn_lt, Hm.
  - rewrite app_nth2 by lia. rewrite L1, R by (try rewrite skipn_length; lia). rewrite nth_skipn_Z. reflexivity.
Qed.
Lemma nth_swapped n (v : list Z) k : (n / 2 + n / 2 = n)%nat -> length v = n -> (k < n)%nat ->
  nth k (swapped_rows n v) 0 = nth (if Nat.ltb k (n / 2) then n / 2 + k else k - n / 2)%nat v 0.
Proof.
  intros Hn Lv Hk. unfold swapped_rows. set (h := (n / 2)%nat) in *. destruct (Nat.ltb_spec k h).
  - rewrite app_nth1 by (rewrite skipn_length; lia). apply nth_skipn_Z.
  - rewrite app_nth2 by (rewrite skipn_length; lia). rewrite skipn_length. rewrite nth_firstn_lt by lia. f_equal. lia.
Qed.
Lemma rotated_length n i v : (n / 2 + n / 2 = n)%nat -> length v = n -> (i <= n / 2)%nat -> length (rotated_columns n i v) = n.
Proof. intros Hn Lv Hi. unfold rotated_columns, rotate_left. rewrite !app_length, !skipn_length, !firstn_length, !skipn_length. lia. Qed.
Lemma swapped_length n v : (n / 2 + n / 2 = n)%nat -> length v = n -> length (swapped_rows n v) = n.
Proof. intros Hn Lv. unfold swapped_rows. rewrite !app_length, !skipn_length, !firstn_length. lia. Qed.

Section SlotAut.
  Context (op : ntt_op) (K : nat) (w : Z) (Hok : ntt_ok op K w) (HK : (2 <= K < 61)%nat).
  Notation t := (mod_p (nt_p op)).
  Notation n := (nt_size op).
  Notation nz := (Z.of_nat n).
  Context (psi : Z) (Hpsi : cong t (psi ^ nz) (-1)).
  Add Ring Rn_slots : (Rn_ring n).
  Set Default Proof Using "All".
  Local Lemma En : n = (2 ^ K)%nat. Proof. exact (ok_size _ _ _ Hok). Qed.
  Local Lemma Ez : nz = 2 ^ Z.of_nat K. Proof. rewrite En. apply nat_pow2_Z. Qed.
  Local Lemma n0 : (0 < n)%nat. Proof. pose proof (n_ge8 op K w Hok). lia. Qed.
  Local Lemma halves : (n / 2 + n / 2 = n)%nat. Proof. rewrite En. pose proof (n_halves K HK). lia. Qed.
  Lemma psi_2n : cong t (psi ^ (2 * nz)) 1.
  Proof. replace (2 * nz) with (nz + nz) by lia. rewrite Z.pow_add_r by lia. eapply cong_trans; [apply cong_mul; exact Hpsi|]. apply cong_eq. reflexivity. Qed.
  Lemma psi_mod a : 0 <= a -> cong t (psi ^ (a mod (2 * nz))) (psi ^ a).
  Proof.
    intros Ha. pose proof n0. rewrite (Z.div_mod a (2 * nz)) at 2 by lia. pose proof (Z.mod_pos_bound a (2 * nz) ltac:(lia)). assert (0 <= a / (2 * nz)) by (apply Z.div_pos; lia).
    rewrite Z.pow_add_r by nia. rewrite (Z.pow_mul_r _ (2 * nz)) by nia. apply cong_trans with (1 ^ (a / (2 * nz)) * psi ^ (a mod (2 * nz))); [apply cong_eq; rewrite Z.pow_1_l by lia; ring|].
    apply cong_mul; [apply cong_sym, cong_pow; [lia|exact psi_2n]|apply cong_refl].
  Qed.
  Lemma psi_odd a : 0 <= a -> Z.odd a = true -> cong t ((psi ^ a) ^ nz) (-1).
  Proof.
    intros Ha Hodd. rewrite <- Z.pow_mul_r, Z.mul_comm, Z.pow_mul_r by lia. eapply cong_trans; [apply cong_pow; [exact Ha|exact Hpsi]|].
    apply Z.odd_spec in Hodd. destruct Hodd as (b & ->). apply cong_eq. rewrite Z.pow_add_r, Z.pow_mul_r by lia. change ((-1) ^ 2) with 1. rewrite Z.pow_1_l by lia. reflexivity.
  Qed.
  (** The slots of the image of an automorphism are slots of the polynomial. *)
  Lemma slot_aut e (x : Rn n) i j : slot_exponent n i * Z.of_nat e mod (2 * nz) = slot_exponent n j ->
    eval (rl (@raut n e x)) (psi ^ slot_exponent n i) mod t = eval (rl x) (psi ^ slot_exponent n j) mod t.
  Proof.
    intros E. pose proof (slot_exponent_range K HK i) as Hi. pose proof (slot_exponent_range K HK j) as Hj. rewrite <- En in Hi, Hj.
    assert (Hz : cong t ((psi ^ slot_exponent n i) ^ nz) (-1)) by (apply psi_odd; [lia|apply Hi]).
    pose proof (eval_aut op K w Hok e (rl x) _ Hz) as H. unfold cong in H at 1. unfold raut. rewrite H.
    apply (eval_cong op). rewrite <- Z.pow_mul_r by lia. rewrite <- E. apply cong_sym, psi_mod. nia.
  Qed.
  Lemma pow3_half : 3 ^ Z.of_nat (n / 2) mod (2 * nz) = 1.
  Proof.
    pose proof (ok_K _ _ _ Hok) as HK3. destruct (pow3_2k (K - 2)) as (u & Hu). rewrite En. rewrite (half_z K). rewrite (nat_pow2_Z K).
    replace (2 ^ Z.of_nat K / 2) with (2 ^ (Z.of_nat (K - 2) + 1)).
    2: { apply Z.div_unique_exact; [lia|]. rewrite <- Z.pow_succ_r by lia. f_equal. lia. }
    rewrite Hu. replace (2 ^ (Z.of_nat (K - 2) + 3)) with (2 * 2 ^ Z.of_nat K) by (rewrite <- Z.pow_succ_r by lia; f_equal; lia).
    replace (1 + 2 * 2 ^ Z.of_nat K * (2 * u + 1)) with (1 + (2 * u + 1) * (2 * 2 ^ Z.of_nat K)) by ring. rewrite Z_mod_plus_full. apply Z.mod_small.
    assert (2 ^ 1 <= 2 ^ Z.of_nat K) by (apply Z.pow_le_mono_r; lia). lia.
  Qed.
  Lemma pow3_mod_half a : 3 ^ Z.of_nat (a mod (n / 2)) mod (2 * nz) = 3 ^ Z.of_nat a mod (2 * nz).
  Proof.
    pose proof n0. pose proof halves. rewrite (Nat.div_mod a (n / 2)) at 2 by lia. rewrite Nat2Z.inj_add, Nat2Z.inj_mul, Z.pow_add_r, Z.pow_mul_r by lia.
    change (cong (2 * nz) (3 ^ Z.of_nat (a mod (n / 2))) ((3 ^ Z.of_nat (n / 2)) ^ Z.of_nat (a / (n / 2)) * 3 ^ Z.of_nat (a mod (n / 2)))).
    apply cong_trans with (1 ^ Z.of_nat (a / (n / 2)) * 3 ^ Z.of_nat (a mod (n / 2))); [apply cong_eq; rewrite Z.pow_1_l by lia; ring|]. apply cong_mul; [|apply cong_refl]. apply cong_sym, cong_pow; [lia|].
    unfold cong. rewrite pow3_half. symmetry. apply Z.mod_small. lia.
  Qed.
  Lemma slot_column i k : (i < n / 2)%nat -> (k < n)%nat ->
    slot_exponent n k * (3 ^ Z.of_nat i mod (2 * nz)) mod (2 * nz) = slot_exponent n (if Nat.ltb k (n / 2) then (k + i) mod (n / 2) else n / 2 + (k - n / 2 + i) mod (n / 2))%nat.
  Proof.
    intros Hi Hk. pose proof halves as Hh. rewrite Zmult_mod_idemp_r. unfold slot_exponent. assert (Hm : forall a, (a mod (n / 2) < n / 2)%nat) by (intros a; apply Nat.mod_upper_bound; lia).
    destruct (Nat.ltb_spec k (n / 2)).
    - destruct (Nat.ltb_spec ((k + i) mod (n / 2)) (n / 2)) as [_|Hx]; [|specialize (Hm (k + i)%nat); lia]. rewrite pow3_mod_half, Zmult_mod_idemp_l, <- Z.pow_add_r, <- Nat2Z.inj_add by lia. reflexivity.
    - destruct (Nat.ltb_spec (n / 2 + (k - n / 2 + i) mod (n / 2)) (n / 2)) as [Hx|_]; [lia|].
      replace (n / 2 + (k - n / 2 + i) mod (n / 2) - n / 2)%nat with ((k - n / 2 + i) mod (n / 2))%nat by lia.
      rewrite Zmult_mod_idemp_l. pose proof (pow3_mod_half (k - n / 2 + i)) as E. apply cong_opp in E. unfold cong in E. rewrite E. rewrite Nat2Z.inj_add, Z.pow_add_r by lia. f_equal. ring.
  Qed.
  Lemma slot_row k : (k < n)%nat -> slot_exponent n k * (2 * nz - 1) mod (2 * nz) = slot_exponent n (if Nat.ltb k (n / 2) then n / 2 + k else k - n / 2)%nat.
  Proof.
    intros Hk. pose proof halves as Hh. replace (slot_exponent n k * (2 * nz - 1)) with (- slot_exponent n k + slot_exponent n k * (2 * nz)) by ring. rewrite Z_mod_plus_full. unfold slot_exponent. destruct (Nat.ltb_spec k (n / 2)).
    - destruct (Nat.ltb_spec (n / 2 + k) (n / 2)) as [Hx|_]; [lia|]. replace (n / 2 + k - n / 2)%nat with k by lia. apply cong_opp. unfold cong. apply Zmod_mod.
    - destruct (Nat.ltb_spec (k - n / 2) (n / 2)) as [_|Hx]; [|lia]. apply opp_opp_mod.
  Qed.
  Theorem slots_rotate i (x : Rn n) : (i < n / 2)%nat -> slots n t psi (rl (@raut n (Z.to_nat (3 ^ Z.of_nat i mod (2 * nz))) x)) = rotated_columns n i (slots n t psi (rl x)).
  Proof.
    intros Hi. pose proof halves as Hh. pose proof n0. apply list_ext_Z; [rewrite slots_length, rotated_length; auto using slots_length; lia|]. rewrite slots_length. intros k Hk. assert (Hm : forall a, (a mod (n / 2) < n / 2)%nat) by (intros a; apply Nat.mod_upper_bound; lia).
    rewrite nth_rotated by auto using slots_length. set (j := (if Nat.ltb k (n / 2) then (k + i) mod (n / 2) else n / 2 + (k - n / 2 + i) mod (n / 2))%nat).
    assert (Hj : (j < n)%nat) by (unfold j; pose proof (Hm (k + i)%nat); pose proof (Hm (k - n / 2 + i)%nat); destruct (Nat.ltb k (n / 2)); lia). rewrite !nth_slots by assumption. apply slot_aut.
    pose proof (Z.mod_pos_bound (3 ^ Z.of_nat i) (2 * nz) ltac:(lia)). rewrite Z2Nat.id by lia. apply slot_column; assumption.
  Qed.
  Theorem slots_swap (x : Rn n) : slots n t psi (rl (@raut n (Z.to_nat (2 * nz - 1)) x)) = swapped_rows n (slots n t psi (rl x)).
  Proof.
    pose proof halves as Hh. pose proof n0. apply list_ext_Z; [rewrite slots_length, swapped_length; auto using slots_length|]. rewrite slots_length. intros k Hk.
    rewrite nth_swapped by auto using slots_length. set (j := (if Nat.ltb k (n / 2) then n / 2 + k else k - n / 2)%nat). assert (Hj : (j < n)%nat) by (unfold j; destruct (Nat.ltb_spec k (n / 2)); lia). rewrite !nth_slots by assumption. apply slot_aut.
    rewrite Z2Nat.id by lia. apply slot_row, Hk.
  Qed.
  Theorem slots_cong (x y : Rn n) : rcong t x y -> slots n t psi (rl x) = slots n t psi (rl y).
  Proof.
    intros H. apply map_ext. intros i. apply lcong_eval; [|apply cong_refl]. exact H.
  Qed.
End SlotAut.
Set Default Proof Using "Type".
Lemma slots_add n t psi (x y : Rn n) : slots n t psi (rl (x + y)%R) = zipWith (fun a b => (a + b) mod t) (slots n t psi (rl x)) (slots n t psi (rl y)).
Proof.
  unfold slots. induction (seq 0 n) as [|i is IH]; [reflexivity|]. cbn [map zipWith]. f_equal; [|exact IH]. rewrite rl_add. fold (ladd (rl x) (rl y)). rewrite eval_ladd by (rewrite !rl_length; reflexivity). apply Zplus_mod.
Qed.

Section Coding.
  Context (isp : Z -> bool) (cands : Z -> list Z) (Ho : oracles isp cands) (par : params) (Hp : is_params isp cands par) (G : good_params isp cands par).
  Context (l : nat) (lv : level_ctx) (c : ctx) (A : at_level isp cands par l lv c) (op : ntt_op) (Eop : pa_ntt par = Some op).
  Notation N := (pa_degree par).
  Notation t := (pa_t par).
  Notation Q := (prod_list (level_moduli (pa_moduli par) l)).
  Context (HtQ : t <= Q).
  Set Default Proof Using "All".
  Definition reads (a v : list Z) : Prop := bind (ntt_forward op a) (fun w => mapM (get w) (pa_index par)) = Val v.
  Definition good_root (psi : Z) : Prop := cong t (psi ^ Z.of_nat N) (-1) /\ forall a, length a = N -> canonical t a -> reads a (slots N t psi a).
  Lemma get_all w : length w = N -> mapM (get w) (pa_index par) = Val (map (fun i => nth i w 0) (pa_index par)).
  Proof.
    intros Lw. destruct (index_facts isp cands par G) as (_ & _ & Hlt). rewrite <- (map_id (pa_index par)) at 1. apply mapM_map. intros i Hi. rewrite Forall_forall in Hlt. apply get_nth. rewrite Lw. apply Hlt, Hi.
  Qed.
  Lemma root_ex : exists psi, good_root psi.
  Proof.
    destruct (slot_values_all isp cands Ho par Hp) as (Li & _ & H). destruct (H op Eop) as (psi & Hpsi & Hn & Hv). pose proof (gp_t _ _ _ G) as Ht. exists psi. split; [unfold cong; rewrite Hn; apply (Z.mod_unique_pos (-1) t (-1)); lia|].
    intros a La Ca. destruct (Hv a La Ca) as (b & Eb & Lb & Hb). unfold reads. rewrite Eb. cbn [bind]. rewrite get_all by exact Lb. f_equal. apply list_ext_Z; [rewrite map_length, slots_length; exact Li|].
    rewrite map_length, Li. intros i Hi. rewrite nth_slots by exact Hi. rewrite (map_nth_lt _ _ i O) by (rewrite Li; exact Hi). apply Hb, Hi.
  Qed.
  Lemma reads_inj a b v : length a = N -> length b = N -> canonical t a -> canonical t b -> reads a v -> reads b v -> a = b.
  Proof.
    intros La Lb Ca Cb Ha Hb. destruct (ntt_facts isp cands par G op Eop) as (m & Es & Em & En). destruct Ho as (H1 & H2).
    destruct (inverse_all isp H1 t m Em (cands t) (H2 t) N op En a La Ca) as ((wa & Ea & La' & _ & Ba) & _). destruct (inverse_all isp H1 t m Em (cands t) (H2 t) N op En b Lb Cb) as ((wb & Eb & Lb' & _ & Bb) & _).
    unfold reads in Ha, Hb. rewrite Ea in Ha. rewrite Eb in Hb. cbn [bind] in Ha, Hb. rewrite get_all in Ha, Hb by assumption. rewrite <- Hb in Ha. injection Ha as Ha.
    assert (wa = wb); [|congruence]. apply list_ext_Z; [congruence|]. intros k Hk. destruct (slot_values_all isp cands (conj H1 H2) par Hp) as (_ & HP & _).
    assert (Hin : In k (pa_index par)) by (apply (Permutation_in _ (Permutation_sym HP)), in_seq; lia). revert Ha Hin. clear. generalize (pa_index par). intros is. induction is as [|i is IH]; intros E Hin; [destruct Hin|]. cbn [map] in E. injection E as E1 E2. destruct Hin as [->|Hin]; auto.
  Qed.
  Lemma encode_reads v : (length v <= N)%nat -> canonical t v -> exists b, length b = N /\ canonical t b /\ encode_u64 false v (mkEnc EncSimd l) par = Val (mkPt par (Some (mkEnc EncSimd l)) (poly_of Ntt c false b)) /\ reads b (pad N v).
  Proof.
    intros Lv Cv. destruct (encode_u64_simd isp cands Ho par G l lv c A false v (mkEnc EncSimd l) op eq_refl eq_refl Lv Cv Eop HtQ) as (b & Lb & Cb & E & _ & R). exists b. auto.
  Qed.
  Lemma slots_encode psi (m : Rn N) : good_root psi -> canonical t (rl m) ->
    encode_u64 false (slots N t psi (rl m)) (mkEnc EncSimd l) par = Val (mkPt par (Some (mkEnc EncSimd l)) (P Ntt c false m)).
  Proof.
    intros (_ & Hr) Cm. pose proof (gp_t _ _ _ G) as Ht. destruct (encode_reads (slots N t psi (rl m))) as (b & Lb & Cb & E & R); [rewrite slots_length; lia|apply slots_canonical; lia|].
    unfold pad in R. rewrite slots_length, Nat.sub_diag in R. cbn [repeat] in R. rewrite app_nil_r in R. rewrite E. unfold P. do 3 f_equal. apply (reads_inj b (rl m) _ Lb (rl_length m) Cb Cm R). apply Hr; [apply rl_length|exact Cm].
  Qed.
  Lemma encrypts_slots_enc sk (Hl : length (sk_coeffs sk) = N) psi ct v B : good_root psi -> canonical t v -> encrypts_slots par sk l ct v B ->
    exists m : Rn N, enc par l c (mkR (sk_coeffs sk) Hl) ct m B /\ slots N t psi (rl m) = pad N v.
  Proof.
    intros (Hn & Hr) Cv (pt & m & E & Hpt & Cm & Henc). assert (Lv : (length v <= N)%nat). { unfold encode_u64 in E. destruct (Nat.ltb_spec N (length v)); [discriminate|lia]. }
    destruct (encode_reads v Lv Cv) as (b & Lb & Cb & E' & R). rewrite E in E'. injection E' as ->. destruct (pt_P isp cands Ho par G l lv c A _ m Hpt) as (x & Ep & <-). apply (f_equal pt_poly) in Ep. cbn [pt_poly] in Ep.
    change (P Ntt c false (mkR b Lb) = P Ntt c false x) in Ep. apply (P_eq c (good_ok _ (al_good _ _ _ _ _ _ A)) N (al_deg _ _ _ _ _ _ A)) in Ep. destruct Ep as (_ & Ep). unfold modulus_of in Ep. rewrite (al_mod _ _ _ _ _ _ A) in Ep.
    assert (Ex : x = mkR b Lb).
    { apply rn_ext. intros k Hk. apply rcong_nth with (k := k) in Ep; [|exact Hk]. unfold canonical in Cm, Cb. rewrite Forall_forall in Cm, Cb. rewrite rl_mkR in *. unfold cong in Ep.
      assert (In (nth k b 0) b) by (apply nth_In; lia). assert (In (nth k (rl x) 0) (rl x)) by (apply nth_In; rewrite rl_length; exact Hk). apply Cb in H. apply Cm in H0. rewrite !Z.mod_small in Ep by lia. symmetry. exact Ep. }
    exists x. split; [apply (enc_encrypts2 isp cands Ho par G l lv c A); exact Henc|]. pose proof (Hr (rl x) (rl_length x) Cm) as Rx. subst x. rewrite rl_mkR in *. unfold reads in *. rewrite R in Rx. injection Rx as ->. reflexivity.
  Qed.
  Lemma enc_encrypts_slots sk (Hl : length (sk_coeffs sk) = N) psi ct (m : Rn N) B : good_root psi -> enc par l c (mkR (sk_coeffs sk) Hl) ct m B ->
    encrypts_slots par sk l ct (slots N t psi (rl m)) B.
  Proof.
    intros Hr Henc. pose proof (gp_t _ _ _ G) as Ht. 
    assert (Hm : rcong t (rmodt t m) m) by (apply rmodt_cong; lia). exists (mkPt par (Some (mkEnc EncSimd l)) (P Ntt c false (rmodt t m))), (rl (rmodt t m)).
    assert (Cm : canonical t (rl (rmodt t m))) by (apply rmodt_canonical; lia). split; [|split; [apply (P_pt isp cands Ho par G l lv c A)|split; [exact Cm|]]].
    - rewrite <- (slots_encode psi (rmodt t m) Hr Cm). f_equal. unfold slots. apply map_ext. intros i. apply lcong_eval; [|apply cong_refl]. apply rcong_sym in Hm. exact Hm.
    - apply (enc_encrypts2 isp cands Ho par G l lv c A) with (Hl := Hl). apply (enc_cong isp cands Ho par G l lv c A) with (m := m); [apply rcong_sym, Hm|exact Henc].
  Qed.
  Lemma slots_galois psi (m : Rn N) : good_root psi ->
    (forall i, (i < N / 2)%nat -> slots N t psi (rl (@raut N (Z.to_nat (column_exponent N (Z.of_nat i))) m)) = rotated_columns N i (slots N t psi (rl m))) /\
    slots N t psi (rl (@raut N (Z.to_nat (row_exponent N)) m)) = swapped_rows N (slots N t psi (rl m)).
  Proof.
    intros (Hn & _). destruct (ntt_facts isp cands par G op Eop) as (mm & Es & Em & En). destruct Ho as (H1 & H2). destruct (modulus_new_valid _ _ Em) as (Hmm & Et). assert (Ct : canonical (mod_p mm) (cands t)) by (rewrite <- Et; apply H2). destruct (ntt_new_ok isp H1 mm Hmm (cands t) N op Ct En) as (K & w & Hok & Emm & EN).
    destruct (gp_deg _ _ _ G) as (K' & HK' & EK' & _). assert (K = K') as -> by (pose proof (ok_size _ _ _ Hok); apply (Nat.pow_inj_r 2); lia).
    rewrite <- Emm in Et. rewrite Et in *. revert m. rewrite <- EN in *. intros m. split.
    - intros i Hi. apply (slots_rotate op K' w Hok ltac:(lia) psi Hn i m Hi).
    - apply (slots_swap op K' w Hok ltac:(lia) psi Hn m).
  Qed.
End Coding.
