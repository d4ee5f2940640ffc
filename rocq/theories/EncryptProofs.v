(** Proofs about encryption, modulus switching and linear operations on ciphertexts, in terms of ring elements. *)
From Verif Require Import Outcome BasicSpec OutcomeLemmas ZqModel ZqProofs NumTheory NttModel PolySpec PolyRing NttPure NttStages NttProofs CbdModel CbdSpec CbdProofs.
From Verif Require Import TranscodeModel RnsModel RnsSpec RnsProofs RqModel RqSpec RqCtx RqRows RqProofs RingRn RqOps RqIO ParamsModel BfvSpec ParamsProofs BuildProofs PlainModel CipherModel OpsModel SchemeSpec CipherSpec PlainProofs RnPoly CipherProofs.
From Coq Require Import Znumtheory.
Set Default Proof Using "Type".

Section Scaled.
  Context {N : nat}.
  Add Ring RnRing : (Rn_ring N).
  Implicit Types x y m e : Rn N.

  Lemma nth_rscaled Q t m k : nth k (rl (rscaled Q t m)) 0 = Q * nth k (rl m) 0 / t.
  Proof.
    unfold rscaled. rewrite rl_mkR. destruct (Nat.lt_ge_cases k (length (rl m))) as [H|H].
    - rewrite (nth_indep _ 0 (Q * 0 / t)) by (rewrite map_length; exact H). apply (map_nth (fun a => Q * a / t)).
    - rewrite !nth_overflow by (rewrite ?map_length; exact H). rewrite Z.mul_0_r, Zdiv_0_l. reflexivity.
  Qed.
  Definition rmodt t x : Rn N := mkR (map (fun a => a mod t) (rl x)) (eq_trans (map_length _ _) (rl_length x)).
  Lemma nth_rmodt t x k : nth k (rl (rmodt t x)) 0 = nth k (rl x) 0 mod t.
  Proof.
    unfold rmodt. rewrite rl_mkR. destruct (Nat.lt_ge_cases k (length (rl x))) as [H|H].
    - rewrite (nth_indep _ 0 (0 mod t)) by (rewrite map_length; exact H). apply (map_nth (fun a => a mod t)).
    - rewrite !nth_overflow by (rewrite ?map_length; exact H). rewrite Zmod_0_l. reflexivity.
  Qed.
  Lemma rmodt_canonical t x : 0 < t -> canonical t (rl (rmodt t x)).
  Proof. intros Ht. apply Forall_forall. intros z Hz. apply in_map_iff in Hz. destruct Hz as (a & <- & _). apply Z.mod_pos_bound. exact Ht. Qed.
  Lemma rmodt_id t x : canonical t (rl x) -> rmodt t x = x.
  Proof. intros H. apply rl_inj. unfold rmodt. rewrite rl_mkR. rewrite <- (map_id (rl x)) at 2. apply map_ext_in. intros a Ha. unfold canonical in H. rewrite Forall_forall in H. apply Z.mod_small, H, Ha. Qed.
  Lemma rmodt_cong t x : 0 < t -> rcong t (rmodt t x) x.
  Proof. intros Ht. apply rcong_nth. intros k _. rewrite nth_rmodt. unfold cong. apply Zmod_mod. Qed.
  Lemma rcong_rmodt t x y : rcong t x y <-> rmodt t x = rmodt t y.
  Proof.
    rewrite rcong_nth. split.
    - intros H. apply rn_ext. intros k Hk. rewrite !nth_rmodt. apply H, Hk.
    - intros H k Hk. apply (f_equal (fun z => nth k (rl z) 0)) in H. rewrite !nth_rmodt in H. exact H.
  Qed.
  Lemma rscaled_mod Q t m : 0 < t -> rcong Q (rscaled Q t m) (rscaled Q t (rmodt t m)).
  Proof.
    intros Ht. apply rcong_nth. intros k _. rewrite !nth_rscaled, nth_rmodt. set (a := nth k (rl m) 0).
    replace (Q * a) with (Q * (a mod t) + (Q * (a / t)) * t) by (pose proof (Z.div_mod a t); nia). rewrite Z.div_add by lia. unfold cong. rewrite (Z.mul_comm Q (a / t)). apply Z_mod_plus_full.
  Qed.
  Lemma rscaled_spec Q t m : 0 < t -> exists r : Rn N, canonical t (rl r) /\ (rZ N t * rscaled Q t m = rZ N Q * m - r)%R.
  Proof.
    intros Ht. exists (rmodt t (Q *: m)%R). split; [apply rmodt_canonical, Ht|]. rewrite <- !rscale_mul. apply rn_ext. intros k _. rewrite nth_rsub, !nth_rscale, nth_rscaled, nth_rmodt, nth_rscale.
    pose proof (Z.div_mod (Q * nth k (rl m) 0) t). lia.
  Qed.
  Lemma canonical_norm t (r : Rn N) : 0 < t -> canonical t (rl r) -> rnorm r <= t - 1.
  Proof. intros Ht H. apply lnorm_le; [lia|]. eapply Forall_impl; [|exact H]. cbv beta. intros a Ha. lia. Qed.
  Lemma rnorm_scale_eq k x : rnorm (rZ N k * x)%R = Z.abs k * rnorm x.
  Proof.
    rewrite <- rscale_mul. unfold rnorm, rscale. rewrite rl_mkR. unfold lscale. induction (rl x) as [|a l IH]; cbn [map lnorm fold_right]; [lia|].
    fold (lnorm (map (fun b : Z => k * b) l)). fold (lnorm l). rewrite IH, Z.abs_mul. rewrite Z.mul_max_distr_nonneg_l by lia. reflexivity.
  Qed.
  Lemma rmul_cancel k x y : k <> 0 -> (rZ N k * x = rZ N k * y)%R -> x = y.
  Proof. intros Hk H. rewrite <- !rscale_mul in H. apply rn_ext. intros i _. apply (f_equal (fun z => nth i (rl z) 0)) in H. rewrite !nth_rscale in H. apply Z.mul_cancel_l in H; assumption. Qed.
  (** Rounding terms of linear operations *)
  Lemma rscaled_add Q t m m' : 0 < t -> rnorm (rscaled Q t m + rscaled Q t m' - rscaled Q t (m + m'))%R <= 1.
  Proof.
    intros Ht. apply rnorm_le; [lia|]. intros k _. rewrite nth_rsub, nth_radd, !nth_rscaled, nth_radd, Z.mul_add_distr_l.
    set (a := Q * nth k (rl m) 0). set (b := Q * nth k (rl m') 0). pose proof (Z.div_mod a t). pose proof (Z.div_mod b t). pose proof (Z.div_mod (a + b) t). pose proof (Z.mod_pos_bound a t Ht). pose proof (Z.mod_pos_bound b t Ht). pose proof (Z.mod_pos_bound (a + b) t Ht).
    assert (-2 * t < t * (a / t + b / t - (a + b) / t) < 1 * t) by lia. assert (- (2) < a / t + b / t - (a + b) / t < 1) by nia. lia.
  Qed.
  Lemma rscaled_opp Q t m : 0 < t -> rnorm (- rscaled Q t m - rscaled Q t (- m))%R <= 1.
  Proof.
    intros Ht. apply rnorm_le; [lia|]. intros k _. rewrite nth_rsub, nth_ropp, !nth_rscaled, nth_ropp.
    set (a := nth k (rl m) 0). replace (Q * - a) with (- (Q * a)) by ring. set (b := Q * a). pose proof (Z.div_mod b t). pose proof (Z.div_mod (- b) t). pose proof (Z.mod_pos_bound b t Ht). pose proof (Z.mod_pos_bound (- b) t Ht).
    assert (-1 * t < t * (- (b / t) - (- b) / t) < 2 * t) by lia. assert (-1 < - (b / t) - (- b) / t < 2) by nia. lia.
  Qed.
  Lemma rscaled_sub Q t m m' : 0 < t -> rnorm (rscaled Q t m - rscaled Q t m' - rscaled Q t (m - m'))%R <= 1.
  Proof.
    intros Ht. apply rnorm_le; [lia|]. intros k _. rewrite !nth_rsub, !nth_rscaled, nth_rsub, Z.mul_sub_distr_l.
    set (a := Q * nth k (rl m) 0). set (b := Q * nth k (rl m') 0). pose proof (Z.div_mod a t). pose proof (Z.div_mod b t). pose proof (Z.div_mod (a - b) t). pose proof (Z.mod_pos_bound a t Ht). pose proof (Z.mod_pos_bound b t Ht). pose proof (Z.mod_pos_bound (a - b) t Ht).
    assert (-1 * t < t * (a / t - b / t - (a - b) / t) < 2 * t) by lia. assert (- (1) < a / t - b / t - (a - b) / t < 2) by nia. lia.
  Qed.
  Lemma rnorm_mul1' x y : rnorm (x * y)%R <= rnorm1 y * rnorm x.
  Proof. replace (x * y)%R with (y * x)%R by ring. apply rnorm_mul1. Qed.
  Lemma rnorm1_nonneg x : 0 <= rnorm1 x.
  Proof. unfold rnorm1. induction (rl x); cbn [fold_right]; lia. Qed.
  Lemma rscaled_mul Q t m m' : 0 < t -> rnorm (rscaled Q t m * m' - rscaled Q t (m * m'))%R <= rnorm1 m'.
  Proof.
    intros Ht. destruct (rscaled_spec Q t m Ht) as (r & Hr & Er). destruct (rscaled_spec Q t (m * m')%R Ht) as (r' & Hr' & Er').
    assert (E : (rZ N t * (rscaled Q t m * m' - rscaled Q t (m * m')) = r' - r * m')%R).
    { replace (rZ N t * (rscaled Q t m * m' - rscaled Q t (m * m')))%R with ((rZ N t * rscaled Q t m) * m' - rZ N t * rscaled Q t (m * m'))%R by ring. rewrite Er, Er'. ring. }
    apply (f_equal rnorm) in E. rewrite rnorm_scale_eq in E. pose proof (rnorm_sub N r' (r * m')%R). pose proof (rnorm_mul1' r m'). pose proof (canonical_norm t r Ht Hr). pose proof (canonical_norm t r' Ht Hr'). pose proof (rnorm1_nonneg m').
    set (x := rnorm (rscaled Q t m * m' - rscaled Q t (m * m'))%R) in *. assert (rnorm1 m' * rnorm r <= rnorm1 m' * (t - 1)) by (apply Z.mul_le_mono_nonneg_l; lia). rewrite Z.abs_eq in E by lia. nia.
  Qed.
End Scaled.

(** ** Phases of operations *)
Section Phases.
  Context {N : nat}.
  Add Ring RnRing : (Rn_ring N).
  Implicit Types s x y : Rn N.
  Lemma rphase_add s : forall xs ys, length xs = length ys -> rphase s (map (fun p => fst p + snd p)%R (combine xs ys)) = (rphase s xs + rphase s ys)%R.
  Proof. induction xs as [|x xs IH]; intros [|y ys] H; try discriminate; cbn [combine map rphase fold_right fst snd]; [ring|]. fold (rphase s (map (fun p => fst p + snd p)%R (combine xs ys))). rewrite IH by (cbn [length] in H; lia). fold (rphase s xs) (rphase s ys). ring. Qed.
  Lemma rphase_sub s : forall xs ys, length xs = length ys -> rphase s (map (fun p => fst p - snd p)%R (combine xs ys)) = (rphase s xs - rphase s ys)%R.
  Proof. induction xs as [|x xs IH]; intros [|y ys] H; try discriminate; cbn [combine map rphase fold_right fst snd]; [ring|]. fold (rphase s (map (fun p => fst p - snd p)%R (combine xs ys))). rewrite IH by (cbn [length] in H; lia). fold (rphase s xs) (rphase s ys). ring. Qed.
  Lemma rphase_opp s xs : rphase s (map (fun x => - x)%R xs) = (- rphase s xs)%R.
  Proof. induction xs as [|x xs IH]; cbn [map rphase fold_right]; [ring|]. fold (rphase s (map (fun x => - x)%R xs)). rewrite IH. fold (rphase s xs). ring. Qed.
  Lemma rphase_mul s m xs : rphase s (map (fun x => x * m)%R xs) = (rphase s xs * m)%R.
  Proof. induction xs as [|x xs IH]; cbn [map rphase fold_right]; [ring|]. fold (rphase s (map (fun x => x * m)%R xs)). rewrite IH. fold (rphase s xs). ring. Qed.
  Lemma rphase_lmul s m xs : rphase s (map (fun x => m * x)%R xs) = (m * rphase s xs)%R.
  Proof. induction xs as [|x xs IH]; cbn [map rphase fold_right]; [ring|]. fold (rphase s (map (fun x => m * x)%R xs)). rewrite IH. fold (rphase s xs). ring. Qed.
  Lemma rphase_cons s x xs : rphase s (x :: xs) = (x + s * rphase s xs)%R.
  Proof. reflexivity. Qed.
  Lemma rphase_2 s a b : rphase s [a; b] = (a + s * b)%R.
  Proof. cbn [rphase fold_right]. ring. Qed.
  Lemma geometric_nonneg S n : 0 <= S -> 0 <= geometric S n.
  Proof. intros HS. induction n; cbn [geometric]; nia. Qed.
  Lemma rphase_norm s xs B : 0 <= B -> Forall (fun x => rnorm x <= B) xs -> rnorm (rphase s xs) <= B * geometric (rnorm1 s) (length xs).
  Proof.
    intros HB. induction 1 as [|x xs Hx Hxs IH]; cbn [rphase fold_right length geometric]; [rewrite rnorm_0; lia|]. fold (rphase s xs).
    pose proof (rnorm_add N x (s * rphase s xs)%R). pose proof (rnorm_mul1 N s (rphase s xs)). pose proof (rnorm1_nonneg s).
    assert (rnorm1 s * rnorm (rphase s xs) <= rnorm1 s * (B * geometric (rnorm1 s) (length xs))) by (apply Z.mul_le_mono_nonneg_l; assumption). nia.
  Qed.
  (** Dividing the parts *)
  Lemma rround_spec q x : 0 < q -> exists r, 2 * rnorm r <= q /\ (rZ N q * rround q x = x - r)%R.
  Proof.
    intros Hq. exists (x - rZ N q * rround q x)%R. split; [|ring].
    assert (H : forall k, 2 * Z.abs (nth k (rl (x - rZ N q * rround q x)%R) 0) <= q).
    { intros k. rewrite nth_rsub, <- rscale_mul, nth_rscale. unfold rround. rewrite rl_mkR. destruct (Nat.lt_ge_cases k (length (rl x))) as [H|H].
      - rewrite (nth_indep (map (round_div q) (rl x)) 0 (round_div q 0)) by (rewrite map_length; exact H). rewrite map_nth. unfold round_div. set (a := nth k (rl x) 0). pose proof (Z.div_mod (2 * a + q) (2 * q)). pose proof (Z.mod_pos_bound (2 * a + q) (2 * q)). lia.
      - rewrite !nth_overflow by (rewrite ?map_length; exact H). lia. }
    assert (H2 : rnorm (x - rZ N q * rround q x)%R <= q / 2). { apply rnorm_le; [apply Z.div_pos; lia|]. intros k _. specialize (H k). apply Z.div_le_lower_bound; lia. }
    pose proof (Z.mul_div_le q 2). lia.
  Qed.
  Lemma rphase_round s q xs : 0 < q -> exists r, 2 * rnorm r <= q * geometric (rnorm1 s) (length xs) /\ (rZ N q * rphase s (map (rround q) xs) = rphase s xs - r)%R.
  Proof.
    intros Hq. induction xs as [|x xs (r & Hr & Er)].
    - exists (r0 N). cbn [map rphase fold_right length geometric]. rewrite rnorm_0. split; [lia|ring].
    - destruct (rround_spec q x Hq) as (d & Hd & Ed). exists (d + s * r)%R. cbn [map length geometric]. rewrite !rphase_cons. split.
      + pose proof (rnorm_add N d (s * r)%R). pose proof (rnorm_mul1 N s r). pose proof (rnorm1_nonneg s). assert (rnorm1 s * (2 * rnorm r) <= rnorm1 s * (q * geometric (rnorm1 s) (length xs))) by (apply Z.mul_le_mono_nonneg_l; assumption). nia.
      + replace (rZ N q * (rround q x + s * rphase s (map (rround q) xs)))%R with (rZ N q * rround q x + s * (rZ N q * rphase s (map (rround q) xs)))%R by ring. rewrite Ed, Er. ring.
  Qed.
  Lemma rscaled_div Q t q m : 0 < t -> 0 < q -> exists d : Rn N, rnorm d <= q - 1 /\ rscaled (Q * q) t m = (rZ N q * rscaled Q t m + d)%R.
  Proof.
    intros Ht Hq. exists (rscaled (Q * q) t m - rZ N q * rscaled Q t m)%R. split; [|ring]. apply rnorm_le; [lia|]. intros k _. rewrite nth_rsub, <- rscale_mul, nth_rscale, !nth_rscaled.
    set (a := nth k (rl m) 0). set (F := Q * a / t). pose proof (Z.div_mod (Q * a) t). pose proof (Z.mod_pos_bound (Q * a) t Ht). fold F in H. set (f := (Q * a) mod t) in *.
    replace (Q * q * a / t) with (q * F + (q * f) / t). 2: { replace (Q * q * a) with (q * f + (q * F) * t) by nia. rewrite Z.div_add by lia. lia. }
    assert (0 <= q * f / t < q). { split; [apply Z.div_pos; nia|]. apply Z.div_lt_upper_bound; nia. } lia.
  Qed.
  (** The noise after a modulus switch *)
  Lemma switch_noise_ok s Q t q xs m e : 0 < t -> 0 < q -> 0 < Q -> rcong (Q * q) (rphase s xs) (rscaled (Q * q) t m + e)%R ->
    exists e', rnorm e' <= switched_noise (rnorm1 s) (length xs) q (rnorm e) /\ rcong Q (rphase s (map (rround q) xs)) (rscaled Q t m + e')%R.
  Proof.
    intros Ht Hq HQ H. apply rcong_exists in H; [|lia]. destruct H as (k & Hk). destruct (rphase_round s q xs Hq) as (r & Hr & Er). destruct (rscaled_div Q t q m Ht Hq) as (d & Hd & Ed).
    exists (rphase s (map (rround q) xs) - rscaled Q t m - rZ N Q * k)%R. rewrite rscale_mul, rZ_mul in Hk.
    assert (E : (rZ N q * (rphase s (map (rround q) xs) - rscaled Q t m - rZ N Q * k) = e + d - r)%R).
    { replace (rZ N q * (rphase s (map (rround q) xs) - rscaled Q t m - rZ N Q * k))%R with (rZ N q * rphase s (map (rround q) xs) - rZ N q * rscaled Q t m - rZ N Q * rZ N q * k)%R by ring. rewrite Er, Hk, Ed. ring. }
    split.
    - apply (f_equal rnorm) in E. rewrite rnorm_scale_eq, Z.abs_eq in E by lia. pose proof (rnorm_sub N (e + d)%R r). pose proof (rnorm_add N e d). unfold switched_noise. apply Z.div_le_lower_bound; [lia|]. nia.
    - apply rcong_exists; [exact HQ|]. exists k. rewrite rscale_mul. ring.
  Qed.
End Phases.

Lemma parts_length {N} c (vxs : list (bool * Rn N)) : length (parts c vxs) = length vxs.
Proof. apply map_length. Qed.
Lemma removelast_level ms l : (l < length ms)%nat -> removelast (level_moduli ms l) = level_moduli ms (S l).
Proof.
  intros H. unfold level_moduli. replace (length ms - l)%nat with (S (length ms - S l)) by lia. remember (length ms - S l)%nat as k eqn:Ek. assert (Hk : (k < length ms)%nat) by lia. clear H Ek. revert ms Hk.
  induction k as [|k IH]; intros [|a ms] Hk; try (cbn [length] in Hk; lia); [reflexivity|].
  change (removelast (a :: firstn (S k) ms) = a :: firstn k ms). rewrite <- IH by (cbn [length] in Hk; lia). destruct ms as [|b ms]; [cbn [length] in Hk; lia|]. reflexivity.
Qed.
Lemma prod_removelast ms : ms <> [] -> prod_list ms = prod_list (removelast ms) * last ms 1.
Proof.
  intros H. rewrite (app_removelast_last 1 H) at 1. generalize (removelast ms) (last ms 1). intros l a. induction l as [|b l IH]; cbn [app prod_list]; [lia|]. rewrite IH. ring.
Qed.

Section Ops.
  Variables (isp : Z -> bool) (cands : Z -> list Z) (par : params).
  Variables (l : nat) (lv : level_ctx) (c : ctx).
  Hypothesis Ho : oracles isp cands.
  Hypothesis G : good_params isp cands par.
  Hypothesis A : at_level isp cands par l lv c.
  Notation N := (pa_degree par).
  Notation t := (pa_t par).
  Notation Q := (prod_list (level_moduli (pa_moduli par) l)).
  Local Lemma Hg : good_ctx c. Proof using A. exact (al_good _ _ _ _ _ _ A). Qed.
  Local Lemma Hc : ctx_ok c. Proof using A. exact (good_ok _ Hg). Qed.
  Local Lemma Hdeg : c_degree c = N. Proof using A. exact (al_deg _ _ _ _ _ _ A). Qed.
  Local Lemma Hmod : c_moduli c = level_moduli (pa_moduli par) l. Proof using A. exact (al_mod _ _ _ _ _ _ A). Qed.
  Set Default Proof Using "All".
  Add Ring RnRing2 : (Rn_ring N).
  Lemma Ht : 2 <= t.
  Proof. pose proof (gp_t _ _ _ G). lia. Qed.
  Lemma HQ : 0 < Q.
  Proof. exact (Qpos isp cands Ho par G l lv c A). Qed.

  Lemma decrypt_int sk (Hl : length (sk_coeffs sk) = N) sd vxs (m e : Rn N) : sk_par sk = par -> Forall is_i64 (sk_coeffs sk) -> (2 <= length vxs)%nat -> supported par -> dec_room par -> t <= Q ->
    rcong Q (rphase (mkR (sk_coeffs sk) Hl) (map snd vxs)) (rscaled Q t m + e)%R ->
    2 ^ 60 * (2 * t * (rnorm e + 1)) <= (2 ^ 60 - 1) * Q ->
    sk_decrypt sk (mkCt par sd (parts c vxs) l) = Val (mkPt par None (P Ntt c false (rmodt t m))).
  Proof.
    intros Esk Hi Hn Hs Hr HtQ Hph He. pose proof Ht. apply (decrypt_eq isp cands Ho par G l lv c A sk Hl sd vxs (rmodt t m) e); try assumption; [apply rmodt_canonical; lia|].
    eapply rcong_trans; [exact Hph|]. apply rcong_add; [apply rscaled_mod; lia|apply rcong_refl].
  Qed.
  Lemma to_poly_P e v (m : Rn N) : canonical t (rl m) -> t <= Q -> to_poly (mkPt par e (P Ntt c v m)) = Val (P Ntt c false (rscaled Q t m)).
  Proof.
    intros Hm HtQ. unfold P. rewrite (to_poly_eq isp cands par G l lv c A e v (rl m) (rl_length m) HtQ).
    rewrite (coeffs_id isp cands par G l) by assumption. reflexivity.
  Qed.
  Definition var_ok : Prop := 1 <= pa_variance par <= 32.
  Lemma var_good : var_ok.
  Proof. exact (gp_var _ _ _ G). Qed.
  Lemma encrypt_poly_P expand sk (Hl : length (sk_coeffs sk) = N) sd rng v (x : Rn N) : expands_well expand -> words rng -> sk_par sk = par -> Forall is_i64 (sk_coeffs sk) ->
    exists a : Rn N, poly_from_seed expand Ntt c sd = Val (P Ntt c false a) /\
      encrypt_poly expand sk (P Ntt c v x) sd rng = Val (mkCt par (Some sd) (parts c [(true, cbd_rn N (pa_variance par) rng - a * mkR (sk_coeffs sk) Hl + x)%R; (true, a)]) l).
  Proof.
    intros Hx Hr Esk Hi. destruct (P_seed c Hc N Hdeg Ntt expand sd Hx) as (a & Ea). exists a. split; [exact Ea|]. unfold encrypt_poly. rewrite Esk, P_ctx, (al_level_of isp cands par l lv c A). cbn [bind].
    rewrite (sk_poly_eq isp cands Ho par G l lv c A sk Hl Hi). cbn [bind]. rewrite Ea. cbn [bind]. rewrite (P_mul c Hc N Hdeg). cbn [bind]. rewrite (P_small c Hc N Hdeg Ntt (pa_variance par) rng Hr var_good). cbn [bind].
    rewrite (P_sub c Hc N Hdeg) by discriminate. cbn [bind]. rewrite (P_add c Hc N Hdeg) by discriminate. cbn [bind]. reflexivity.
  Qed.
  Theorem sk_encrypt_P expand sk (Hl : length (sk_coeffs sk) = N) sd rng e v (m : Rn N) : expands_well expand -> words rng -> sk_par sk = par -> Forall is_i64 (sk_coeffs sk) -> canonical t (rl m) -> t <= Q ->
    exists a : Rn N, poly_from_seed expand Ntt c sd = Val (P Ntt c false a) /\ exists b,
      sk_encrypt expand sk (mkPt par e (P Ntt c v m)) sd rng = Val (mkCt par (Some sd) (parts c [(true, b); (true, a)]) l) /\
      rphase (mkR (sk_coeffs sk) Hl) [b; a] = (rscaled Q t m + cbd_rn N (pa_variance par) rng)%R.
  Proof.
    intros Hx Hr Esk Hi Hm HtQ. destruct (encrypt_poly_P expand sk Hl sd rng false (rscaled Q t m) Hx Hr Esk Hi) as (a & Ea & E). exists a. split; [exact Ea|]. eexists. split.
    - unfold sk_encrypt. rewrite Esk. unfold P at 1. rewrite (pt_validate_eq isp cands par l lv c A). cbn [bind]. change (poly_of Ntt c v (rl m)) with (P Ntt c v m). rewrite (to_poly_P e v m Hm HtQ). cbn [bind]. exact E.
    - rewrite rphase_2. ring.
  Qed.

  (** Modulus switching *)
  Lemma next_level lv' c' : at_level isp cands par (S l) lv' c' -> c_next c = Some c' /\ Q = prod_list (level_moduli (pa_moduli par) (S l)) * last (c_moduli c) 0 /\ 0 < last (c_moduli c) 0.
  Proof.
    intros A'. pose proof (al_lt _ _ _ _ _ _ A'). pose proof (al_moduli_length isp cands par l lv c A) as Lm.
    assert (Hne : level_moduli (pa_moduli par) l <> []) by (intros E; apply (f_equal (@length Z)) in E; rewrite <- Hmod, Lm in E; cbn [length] in E; lia).
    destruct (c_next c) as [c''|] eqn:En; [|apply (good_next_none c Hg) in En; lia].
    assert (B : built isp cands c) by (eexists _, _; exact (al_new _ _ _ _ _ _ A)).
    pose proof (built_next isp (proj1 Ho) cands (proj2 Ho) c c'' B En) as E. rewrite Hmod, removelast_level, Hdeg in E by lia. rewrite (al_new _ _ _ _ _ _ A') in E. injection E as <-. split; [reflexivity|].
    assert (El : last (c_moduli c) 0 = last (level_moduli (pa_moduli par) l) 1).
    { rewrite Hmod. generalize (level_moduli (pa_moduli par) l) Hne. clear. intros q. induction q as [|a q IH]; intros H; [congruence|]. destruct q; [reflexivity|]. apply IH. discriminate. }
    rewrite El. split; [rewrite (prod_removelast _ Hne), removelast_level by lia; reflexivity|].
    pose proof (level_range isp cands Ho par G l lv c A) as Hr. rewrite Forall_forall in Hr. specialize (Hr (last (level_moduli (pa_moduli par) l) 1)). 
    assert (In (last (level_moduli (pa_moduli par) l) 1) (level_moduli (pa_moduli par) l)). { rewrite (app_removelast_last 1 Hne) at 2. apply in_or_app. right. left. reflexivity. } specialize (Hr H0). lia.
  Qed.
  Theorem ct_switch_down_P lv' c' sd (vxs : list (bool * Rn N)) : at_level isp cands par (S l) lv' c' ->
    ct_switch_down (mkCt par sd (parts c vxs) l) = Val (mkCt par None (parts c' (map (fun vx => (fst vx, rround (last (c_moduli c) 0) (snd vx))) vxs)) (S l)).
  Proof.
    intros A'. destruct (next_level lv' c' A') as (En & _). unfold ct_switch_down. cbn [ct_par ct_level ct_c]. pose proof (at_level_bound isp cands par (S l) lv' c' G A'). destruct (Nat.leb_spec (max_level par) l); [lia|].
    unfold parts at 1. rewrite (mapM_map ntt_switch_down _ (fun vx : bool * Rn N => P Ntt c' (fst vx) (rround (last (c_moduli c) 0) (snd vx)))).
    - cbn [bind]. unfold parts. rewrite map_map. reflexivity.
    - intros (v & x) _. unfold ntt_switch_down. cbn [fst snd]. rewrite (P_ntt_pb c Hc N Hdeg). cbn [bind]. rewrite (P_switch_down c c' v x Hg Hdeg En). cbn [bind].
      apply (P_pb_ntt c' (good_ok _ (al_good _ _ _ _ _ _ A')) N (al_deg _ _ _ _ _ _ A')).
  Qed.

  (** Linear operations *)
  Theorem ct_add_P sd sd' (vxs vys : list (bool * Rn N)) : length vxs = length vys -> vxs <> [] ->
    ct_add (mkCt par sd (parts c vxs) l) (mkCt par sd' (parts c vys) l) =
      Val (mkCt par None (parts c (map (fun p => (fst (fst p) && fst (snd p), snd (fst p) + snd (snd p))%R) (combine vxs vys))) l).
  Proof.
    intros Hlen Hne. unfold ct_add, ct_op2, is_empty, par_same. cbn [ct_par ct_c ct_level]. rewrite Z.eqb_refl. cbn [guard bind]. rewrite !parts_length.
    destruct vxs as [|vx vxs]; [congruence|]. destruct vys as [|vy vys]; [discriminate|]. cbn [length Nat.eqb]. rewrite !Nat.eqb_refl. injection Hlen as Hlen. rewrite Hlen, Nat.eqb_refl. cbn [guard bind].
    assert (E : forall a b : list (bool * Rn N), length a = length b -> map2M poly_add (parts c a) (parts c b) = Val (parts c (map (fun p => (fst (fst p) && fst (snd p), snd (fst p) + snd (snd p))%R) (combine a b)))).
    { induction a as [|(v & x) a IH]; intros [|(w & y) b] H; try discriminate; [reflexivity|]. cbn [parts map map2M combine fst snd]. rewrite (P_add c Hc N Hdeg) by discriminate. cbn [bind]. fold (parts c a) (parts c b). rewrite IH by (cbn [length] in H; lia). reflexivity. }
    rewrite E by (cbn [length]; lia). reflexivity.
  Qed.
  Theorem ct_sub_P sd sd' (vxs vys : list (bool * Rn N)) : length vxs = length vys -> vxs <> [] ->
    ct_sub (mkCt par sd (parts c vxs) l) (mkCt par sd' (parts c vys) l) =
      Val (mkCt par None (parts c (map (fun p => (fst (fst p) && fst (snd p), snd (fst p) - snd (snd p))%R) (combine vxs vys))) l).
  Proof.
    intros Hlen Hne. unfold ct_sub, ct_op2, is_empty, par_same. cbn [ct_par ct_c ct_level]. rewrite Z.eqb_refl. cbn [guard bind]. rewrite !parts_length.
    destruct vxs as [|vx vxs]; [congruence|]. destruct vys as [|vy vys]; [discriminate|]. cbn [length Nat.eqb]. rewrite !Nat.eqb_refl. injection Hlen as Hlen. rewrite Hlen, Nat.eqb_refl. cbn [guard bind].
    assert (E : forall a b : list (bool * Rn N), length a = length b -> map2M poly_sub (parts c a) (parts c b) = Val (parts c (map (fun p => (fst (fst p) && fst (snd p), snd (fst p) - snd (snd p))%R) (combine a b)))).
    { induction a as [|(v & x) a IH]; intros [|(w & y) b] H; try discriminate; [reflexivity|]. cbn [parts map map2M combine fst snd]. rewrite (P_sub c Hc N Hdeg) by discriminate. cbn [bind]. fold (parts c a) (parts c b). rewrite IH by (cbn [length] in H; lia). reflexivity. }
    rewrite E by (cbn [length]; lia). reflexivity.
  Qed.
  Theorem ct_neg_P sd (vxs : list (bool * Rn N)) : ct_neg (mkCt par sd (parts c vxs) l) = Val (mkCt par None (parts c (map (fun vx => (fst vx, - snd vx)%R) vxs)) l).
  Proof.
    unfold ct_neg. cbn [ct_par ct_c ct_level]. unfold parts at 1. rewrite (mapM_map poly_neg _ (fun vx : bool * Rn N => P Ntt c (fst vx) (- snd vx)%R)).
    - cbn [bind]. unfold parts. rewrite map_map. reflexivity.
    - intros (v & x) _. apply (P_neg c Hc N Hdeg). discriminate.
  Qed.
  Lemma pt_level_P e v (m : Rn N) : pt_level (mkPt par e (P Ntt c v m)) = Val l.
  Proof. apply (pt_level_eq isp cands par l lv c A). Qed.
  Theorem ct_add_pt_P sd v x vxs e w (m : Rn N) : canonical t (rl m) -> t <= Q ->
    ct_add_pt (mkCt par sd (parts c ((v, x) :: vxs)) l) (mkPt par e (P Ntt c w m)) = Val (mkCt par None (parts c ((false, x + rscaled Q t m)%R :: vxs)) l).
  Proof.
    intros Hm HtQ. unfold ct_add_pt, ct_op_pt, is_empty, par_same. cbn [ct_par ct_c ct_level pt_par]. rewrite Z.eqb_refl, parts_length. cbn [length Nat.eqb negb guard bind]. rewrite pt_level_P. cbn [bind]. rewrite Nat.eqb_refl. cbn [guard bind]. rewrite (to_poly_P e w m Hm HtQ). cbn [bind].
    cbn [parts map fst snd]. rewrite (P_add c Hc N Hdeg) by discriminate. cbn [bind]. rewrite andb_false_r. reflexivity.
  Qed.
  Theorem ct_sub_pt_P sd v x vxs e w (m : Rn N) : canonical t (rl m) -> t <= Q ->
    ct_sub_pt (mkCt par sd (parts c ((v, x) :: vxs)) l) (mkPt par e (P Ntt c w m)) = Val (mkCt par None (parts c ((false, x - rscaled Q t m)%R :: vxs)) l).
  Proof.
    intros Hm HtQ. unfold ct_sub_pt, ct_op_pt, is_empty, par_same. cbn [ct_par ct_c ct_level pt_par]. rewrite Z.eqb_refl, parts_length. cbn [length Nat.eqb negb guard bind]. rewrite pt_level_P. cbn [bind]. rewrite Nat.eqb_refl. cbn [guard bind]. rewrite (to_poly_P e w m Hm HtQ). cbn [bind].
    cbn [parts map fst snd]. rewrite (P_sub c Hc N Hdeg) by discriminate. cbn [bind]. rewrite andb_false_r. reflexivity.
  Qed.
  Theorem pt_sub_ct_P sd v x vxs e w (m : Rn N) : canonical t (rl m) -> t <= Q ->
    pt_sub_ct (mkPt par e (P Ntt c w m)) (mkCt par sd (parts c ((v, x) :: vxs)) l) = Val (mkCt par None (parts c ((false, rscaled Q t m - x)%R :: map (fun vx => (fst vx, - snd vx)%R) vxs)) l).
  Proof.
    intros Hm HtQ. unfold pt_sub_ct. rewrite ct_sub_pt_P by assumption. cbn [bind]. rewrite ct_neg_P. do 2 f_equal. cbn [map fst snd]. do 3 f_equal. ring.
  Qed.
  Theorem ct_mul_pt_P sd vxs e w (m : Rn N) : vxs <> [] ->
    ct_mul_pt (mkCt par sd (parts c vxs) l) (mkPt par e (P Ntt c w m)) = Val (mkCt par None (parts c (map (fun vx => (fst vx && w, snd vx * m)%R) vxs)) l).
  Proof.
    intros Hne. unfold ct_mul_pt, is_empty, par_same. cbn [ct_par ct_c ct_level pt_par pt_poly]. rewrite Z.eqb_refl, parts_length. cbn [guard bind]. destruct vxs as [|vx vxs]; [congruence|]. cbn [length Nat.eqb]. rewrite pt_level_P. cbn [bind]. rewrite Nat.eqb_refl. cbn [guard bind].
    unfold parts at 1. rewrite (mapM_map _ _ (fun vx : bool * Rn N => P Ntt c (fst vx && w) (snd vx * m)%R)).
    - cbn [bind]. unfold parts. rewrite map_map. reflexivity.
    - intros (v & x) _. apply (P_mul c Hc N Hdeg).
  Qed.
  (** Public keys *)
  Theorem pk_encrypt_here sk (Hl : length (sk_coeffs sk) = N) ru r1 r2 sd e w v0 v1 (a0 a1 ep m : Rn N) : words ru -> words r1 -> words r2 -> canonical t (rl m) -> t <= Q ->
    rcong Q (rphase (mkR (sk_coeffs sk) Hl) [a0; a1]) ep ->
    exists b0 b1 e', bind (Val (mkCt par sd (parts c [(v0, a0); (v1, a1)]) l)) (fun ct =>
      bind (par_context par (ct_level ct)) (fun c' =>
      bind (poly_small Ntt c' (pa_variance par) ru) (fun u =>
      bind (poly_small Ntt c' (pa_variance par) r1) (fun e1 =>
      bind (poly_small Ntt c' (pa_variance par) r2) (fun e2 =>
      bind (to_poly (mkPt par e (P Ntt c w m))) (fun m =>
      bind (get (ct_c ct) 0) (fun a0 => bind (poly_mul u a0) (fun c0 => bind (poly_add c0 e1) (fun c0 => bind (poly_add c0 m) (fun c0 =>
      bind (get (ct_c ct) 1) (fun a1 => bind (poly_mul u a1) (fun c1 => bind (poly_add c1 e2) (fun c1 =>
      Val (mkCt par None [allow_vt c0; allow_vt c1] (ct_level ct))))))))))))))) = Val (mkCt par None (parts c [(true, b0); (true, b1)]) l) /\
    rcong Q (rphase (mkR (sk_coeffs sk) Hl) [b0; b1]) (rscaled Q t m + e')%R /\
    rnorm e' <= pk_noise par (rnorm1 (mkR (sk_coeffs sk) Hl)) (rnorm ep).
  Proof.
    intros Hu H1 H2 Hm HtQ Hph. set (s := mkR (sk_coeffs sk) Hl) in *. set (v := pa_variance par) in *. pose proof var_good as Hv. unfold var_ok in Hv. fold v in Hv.
    exists (cbd_rn N v ru * a0 + cbd_rn N v r1 + rscaled Q t m)%R, (cbd_rn N v ru * a1 + cbd_rn N v r2)%R, (cbd_rn N v ru * ep + cbd_rn N v r1 + s * cbd_rn N v r2)%R. split; [|split].
    - cbn [bind ct_level ct_c]. rewrite (al_par_context isp cands par l lv c A). cbn [bind]. rewrite !(P_small c Hc N Hdeg Ntt v) by assumption. cbn [bind]. rewrite (to_poly_P e w m Hm HtQ). cbn [bind parts map get nth_error unwrap fst snd].
      rewrite !(P_mul c Hc N Hdeg). cbn [bind]. rewrite (P_add c Hc N Hdeg) by discriminate. cbn [bind]. rewrite (P_add c Hc N Hdeg) by discriminate. cbn [bind]. rewrite (P_add c Hc N Hdeg) by discriminate. reflexivity.
    - rewrite rphase_2 in *. replace (cbd_rn N v ru * a0 + cbd_rn N v r1 + rscaled Q t m + s * (cbd_rn N v ru * a1 + cbd_rn N v r2))%R with (cbd_rn N v ru * (a0 + s * a1) + (cbd_rn N v r1 + rscaled Q t m + s * cbd_rn N v r2))%R by ring.
      replace (rscaled Q t m + (cbd_rn N v ru * ep + cbd_rn N v r1 + s * cbd_rn N v r2))%R with (cbd_rn N v ru * ep + (cbd_rn N v r1 + rscaled Q t m + s * cbd_rn N v r2))%R by ring.
      apply rcong_add; [|apply rcong_refl]. apply rcong_mul; [exact HQ|apply rcong_refl|exact Hph].
    - unfold pk_noise. fold v. pose proof (rnorm_add N (cbd_rn N v ru * ep + cbd_rn N v r1)%R (s * cbd_rn N v r2)%R). pose proof (rnorm_add N (cbd_rn N v ru * ep)%R (cbd_rn N v r1)). pose proof (rnorm_mul N (cbd_rn N v ru) ep). pose proof (rnorm_mul1 N s (cbd_rn N v r2)).
      pose proof (cbd_bound c N Hdeg v ru ltac:(lia)). pose proof (cbd_bound c N Hdeg v r1 ltac:(lia)). pose proof (cbd_bound c N Hdeg v r2 ltac:(lia)). pose proof (rnorm_nonneg N ep). pose proof (rnorm1_nonneg s).
      assert (rnorm1 s * rnorm (cbd_rn N v r2) <= rnorm1 s * (2 * v)) by (apply Z.mul_le_mono_nonneg_l; assumption).
      assert (rnorm (cbd_rn N v ru) * rnorm ep <= 2 * v * rnorm ep) by (apply Z.mul_le_mono_nonneg_r; assumption).
      assert (Z.of_nat N * (rnorm (cbd_rn N v ru) * rnorm ep) <= Z.of_nat N * (2 * v * rnorm ep)) by (apply Z.mul_le_mono_nonneg_l; [lia|assumption]). lia.
  Qed.
End Ops.

(** Switching through several levels *)
Lemma switched_noise_mono S n q B B' : 0 < q -> B <= B' -> switched_noise S n q B <= switched_noise S n q B'.
Proof. intros Hq H. unfold switched_noise. apply Z.div_le_mono; lia. Qed.
Lemma dropped_noise_mono S n qs : Forall (fun q => 0 < q) qs -> forall B B', B <= B' -> dropped_noise S n qs B <= dropped_noise S n qs B'.
Proof. induction 1 as [|q qs Hq Hqs IH]; intros B B' H; [exact H|]. cbn [dropped_noise fold_left]. apply IH, switched_noise_mono; assumption. Qed.
Lemma last_nth {T} (d : T) ms : last ms d = nth (length ms - 1) ms d.
Proof. induction ms as [|a ms IH]; [reflexivity|]. destruct ms as [|b ms]; [reflexivity|]. change (last (b :: ms) d = nth (length (b :: ms)) (a :: b :: ms) d). rewrite IH. cbn [length]. rewrite Nat.sub_succ, Nat.sub_0_r. reflexivity. Qed.
Section Switch.
  Variables (isp : Z -> bool) (cands : Z -> list Z) (par : params).
  Hypothesis Ho : oracles isp cands.
  Hypothesis G : good_params isp cands par.
  Set Default Proof Using "All".
  Notation N := (pa_degree par).
  Lemma last_dropped l lv c : at_level isp cands par l lv c -> last (c_moduli c) 0 = nth (length (pa_moduli par) - 1 - l) (pa_moduli par) 0.
  Proof.
    intros A. rewrite last_nth, (al_mod _ _ _ _ _ _ A). unfold level_moduli. pose proof (al_lt _ _ _ _ _ _ A). rewrite firstn_length. replace (Nat.min (length (pa_moduli par) - l) (length (pa_moduli par)) - 1)%nat with (length (pa_moduli par) - 1 - l)%nat by lia.
    apply nth_firstn_lt. lia.
  Qed.
  Lemma dropped_pos l k : (l + k <= max_level par)%nat -> Forall (fun q => 0 < q) (dropped (pa_moduli par) l k).
  Proof.
    revert l. induction k as [|k IH]; intros l H; cbn [dropped]; constructor; [|apply IH; lia]. destruct (at_level_ex isp cands par l Ho G ltac:(lia)) as (lv & c & A). destruct (at_level_ex isp cands par (S l) Ho G ltac:(lia)) as (lv' & c' & A').
    rewrite <- (last_dropped l lv c A). apply (next_level isp cands par l lv c Ho G A lv' c' A').
  Qed.
  Theorem iter_switch_P k : forall l lv c lv' c' sd (vxs : list (bool * Rn N)), at_level isp cands par l lv c -> at_level isp cands par (l + k) lv' c' ->
    exists sd' vys, iterM k ct_switch_down (mkCt par sd (parts c vxs) l) = Val (mkCt par sd' (parts c' vys) (l + k)) /\ length vys = length vxs /\ (sd' = match k with O => sd | _ => None end) /\
      (k = O -> vys = vxs) /\
      (forall s m e, rcong (prod_list (level_moduli (pa_moduli par) l)) (rphase s (map snd vxs)) (rscaled (prod_list (level_moduli (pa_moduli par) l)) (pa_t par) m + e)%R ->
        exists e', rnorm e' <= dropped_noise (rnorm1 s) (length vxs) (dropped (pa_moduli par) l k) (rnorm e) /\
          rcong (prod_list (level_moduli (pa_moduli par) (l + k))) (rphase s (map snd vys)) (rscaled (prod_list (level_moduli (pa_moduli par) (l + k))) (pa_t par) m + e')%R).
  Proof.
    induction k as [|k IH]; intros l lv c lv' c' sd vxs A A'.
    - rewrite Nat.add_0_r in *. destruct (at_level_unique _ _ _ _ _ _ _ _ A A') as (<- & <-). exists sd, vxs. split; [reflexivity|]. split; [reflexivity|]. split; [reflexivity|]. split; [reflexivity|]. intros s m e H. exists e. split; [apply Z.le_refl|exact H].
    - pose proof (at_level_bound isp cands par _ _ _ G A') as Hb. destruct (at_level_ex isp cands par (S l) Ho G ltac:(lia)) as (lv1 & c1 & A1).
      replace (l + S k)%nat with (S l + k)%nat in * by lia.
      destruct (IH (S l) lv1 c1 lv' c' None (map (fun vx => (fst vx, rround (last (c_moduli c) 0) (snd vx))) vxs) A1 A') as (sd' & vys & E & Ly & Es & _ & Hn).
      exists sd', vys. split; [cbn [iterM]; rewrite (ct_switch_down_P isp cands par l lv c Ho G A lv1 c1 sd vxs A1); cbn [bind]; exact E|]. split; [rewrite Ly; apply map_length|]. split; [rewrite Es; destruct k; reflexivity|]. split; [discriminate|].
      intros s m e H. destruct (next_level isp cands par l lv c Ho G A lv1 c1 A1) as (_ & EQ & Hq). rewrite EQ in H. pose proof (Ht isp cands par l lv c Ho G A). 
      destruct (switch_noise_ok s (prod_list (level_moduli (pa_moduli par) (S l))) (pa_t par) (last (c_moduli c) 0) (map snd vxs) m e ltac:(lia) Hq (HQ isp cands par (S l) lv1 c1 Ho G A1) H) as (e1 & He1 & H1).
      rewrite map_length in He1. destruct (Hn s m e1) as (e2 & He2 & H2).
      { rewrite map_map. cbn [snd]. rewrite map_map in H1. exact H1. }
      exists e2. split; [|exact H2]. cbn [dropped dropped_noise fold_left]. rewrite map_length in He2. rewrite <- (last_dropped l lv c A). eapply Z.le_trans; [exact He2|]. apply dropped_noise_mono; [apply dropped_pos; lia|exact He1].
  Qed.
  Theorem pk_new_P expand sk (Hl : length (sk_coeffs sk) = N) sd rng lv c : at_level isp cands par 0 lv c -> expands_well expand -> words rng -> sk_par sk = par -> Forall is_i64 (sk_coeffs sk) ->
    exists a : Rn N, poly_from_seed expand Ntt c sd = Val (P Ntt c false a) /\ exists b,
      pk_new expand sk sd rng = Val (mkPk par (mkCt par (Some sd) (parts c [(false, b); (false, a)]) 0)) /\
      rphase (mkR (sk_coeffs sk) Hl) [b; a] = (rscaled (prod_list (level_moduli (pa_moduli par) 0)) (pa_t par) (r0 N) + cbd_rn N (pa_variance par) rng)%R.
  Proof.
    intros A Hx Hr Esk Hi. assert (Htl : (pa_t par <= prod_list (level_moduli (pa_moduli par) 0))) by (unfold level_moduli; rewrite Nat.sub_0_r, firstn_all; pose proof (gp_t _ _ _ G); lia).
    pose proof (gp_t _ _ _ G) as Ht2. assert (Hz : canonical (pa_t par) (rl (r0 N))) by (apply Forall_forall; intros z Hz; apply repeat_spec in Hz; subst z; lia).
    destruct (sk_encrypt_P isp cands par 0 lv c Ho G A expand sk Hl sd rng (Some (mkEnc EncPoly 0)) false (r0 N) Hx Hr Esk Hi Hz Htl) as (a & Ea & b & Eb & Hb). exists a. split; [exact Ea|]. exists b. split; [|exact Hb].
    unfold pk_new. rewrite Esk. replace (pt_zero (mkEnc EncPoly 0) par) with (Val (mkPt par (Some (mkEnc EncPoly 0)) (P Ntt c false (r0 N)))).
    - cbn [no_err bind]. rewrite Eb. reflexivity.
    - unfold pt_zero. cbn [e_level]. rewrite (al_par_context isp cands par 0 lv c A). cbn [bind]. rewrite (P_zero c (good_ok _ (al_good _ _ _ _ _ _ A)) N (al_deg _ _ _ _ _ _ A)). reflexivity.
  Qed.
  Theorem pk_encrypt_P sk (Hl : length (sk_coeffs sk) = N) ru r1 r2 sd e w v0 v1 (a0 a1 ep m : Rn N) l0 lv0 c0 k lv c :
    at_level isp cands par l0 lv0 c0 -> at_level isp cands par (l0 + k) lv c -> words ru -> words r1 -> words r2 -> canonical (pa_t par) (rl m) -> pa_t par <= prod_list (level_moduli (pa_moduli par) (l0 + k)) ->
    rcong (prod_list (level_moduli (pa_moduli par) l0)) (rphase (mkR (sk_coeffs sk) Hl) [a0; a1]) (rscaled (prod_list (level_moduli (pa_moduli par) l0)) (pa_t par) (r0 N) + ep)%R ->
    exists b0 b1 e', pk_encrypt (mkPk par (mkCt par sd (parts c0 [(v0, a0); (v1, a1)]) l0)) (mkPt par e (P Ntt c w m)) ru r1 r2 = Val (mkCt par None (parts c [(true, b0); (true, b1)]) (l0 + k)) /\
      rcong (prod_list (level_moduli (pa_moduli par) (l0 + k))) (rphase (mkR (sk_coeffs sk) Hl) [b0; b1]) (rscaled (prod_list (level_moduli (pa_moduli par) (l0 + k))) (pa_t par) m + e')%R /\
      rnorm e' <= pk_noise par (rnorm1 (mkR (sk_coeffs sk) Hl)) (dropped_noise (rnorm1 (mkR (sk_coeffs sk) Hl)) 2 (dropped (pa_moduli par) l0 k) (rnorm ep)).
  Proof.
    intros A0 A Hu H1 H2 Hm HtQ Hph. set (s := mkR (sk_coeffs sk) Hl) in *.
    destruct (iter_switch_P k l0 lv0 c0 lv c sd [(v0, a0); (v1, a1)] A0 A) as (sd' & vys & Ei & Ly & _ & _ & Hn). destruct (Hn s (r0 N) ep Hph) as (ep' & Hep' & Hph').
    destruct vys as [|(w0 & y0) [|(w1 & y1) [|? ?]]]; try discriminate Ly. cbn [map snd] in Hph'.
    assert (Hz : rscaled (prod_list (level_moduli (pa_moduli par) (l0 + k))) (pa_t par) (r0 N) = r0 N) by (apply rn_ext; intros i Hi; rewrite nth_rscaled, nth_r0, Z.mul_0_r; apply Zdiv_0_l).
    assert (Hph2 : rcong (prod_list (level_moduli (pa_moduli par) (l0 + k))) (rphase s [y0; y1]) ep'). { rewrite Hz in Hph'. replace (r0 N + ep')%R with ep' in Hph' by (apply rn_ext; intros i Hi; rewrite nth_radd, nth_r0; reflexivity). exact Hph'. }
    destruct (pk_encrypt_here isp cands par (l0 + k) lv c Ho G A sk Hl ru r1 r2 sd' e w w0 w1 y0 y1 ep' m Hu H1 H2 Hm HtQ Hph2) as (b0 & b1 & e' & E & Hc & He).
    exists b0, b1, e'. split; [|split; [exact Hc|]].
    - unfold pk_encrypt. cbn [pk_par pk_c]. unfold P at 1. rewrite (pt_validate_eq isp cands par (l0 + k) lv c A). cbn [bind]. rewrite (ct_validate_eq isp cands Ho par G l0 lv0 c0 A0) by (cbn [length]; lia). cbn [bind]. unfold P at 1. rewrite (pt_level_eq isp cands par (l0 + k) lv c A). cbn [bind ct_level].
      destruct (Nat.ltb_spec (l0 + k) l0); [lia|]. replace (l0 + k - l0)%nat with k by lia. rewrite Ei. exact E.
    - eapply Z.le_trans; [exact He|]. unfold pk_noise. assert (0 <= pa_variance par) by (pose proof (gp_var _ _ _ G); lia). 
      assert (Z.of_nat N * (2 * pa_variance par) * rnorm ep' <= Z.of_nat N * (2 * pa_variance par) * dropped_noise (rnorm1 s) 2 (dropped (pa_moduli par) l0 k) (rnorm ep)) by (apply Z.mul_le_mono_nonneg_l; [apply Z.mul_nonneg_nonneg; lia|exact Hep']). fold s. lia.
  Qed.
End Switch.
