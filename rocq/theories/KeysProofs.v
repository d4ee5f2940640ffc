(** Key switching on elements of Z[X]/(X^N+1): the keys, the switch, relinearization and Galois keys. *)
From Verif Require Import Outcome BasicSpec OutcomeLemmas ZqModel ZqProofs NumTheory NttModel PolySpec PolyRing NttPure NttStages NttProofs CbdModel CbdSpec CbdProofs.
From Verif Require Import TranscodeModel PrimesModel RnsModel RnsSpec RnsProofs RqModel RqSpec RqCtx RqRows RqProofs RingRn RqOps RqIO ParamsModel BfvSpec ParamsProofs BuildProofs PlainModel CipherModel OpsModel SchemeSpec CipherSpec PlainProofs RnPoly CipherProofs EncryptProofs KeysModel KeysSpec.
Set Default Proof Using "Type".
From Coq Require Import Znumtheory.

(** ** Sums of products *)
Section Dot.
  Context {N : nat}.
  Add Ring Rn_dot : (Rn_ring N).
  Implicit Types x y s : Rn N.
  Local Open Scope rn_scope.
  Fixpoint rdot (xs ys : list (Rn N)) : Rn N :=
    match xs, ys with
    | x :: xs', y :: ys' => x * y + rdot xs' ys'
    | _, _ => r0 N
    end.
  Definition rred (q : Z) (x : Rn N) : Rn N := mkR (rmod q (rl x)) (eq_trans (rmod_length q (rl x)) (rl_length x)).
  Lemma rred_cong q x : 0 < q -> rcong q (rred q x) x.
  Proof. intros Hq. apply rmod_lcong. apply rmod_rmod. Qed.
  Lemma rred_canonical q x : 0 < q -> canonical q (rl (rred q x)).
  Proof. intros Hq. unfold rred. rewrite rl_mkR. apply canonical_map_mod. exact Hq. Qed.
  Lemma rdot_mul s xs : forall ys, rdot xs (map (fun y => y * s) ys) = rdot xs ys * s.
  Proof. induction xs as [|x xs IH]; intros [|y ys]; cbn [rdot map]; try ring. rewrite IH. ring. Qed.
  Lemma rdot_cong Q xs : 0 < Q -> forall ys ys', Forall2 (rcong Q) ys ys' -> rcong Q (rdot xs ys) (rdot xs ys').
  Proof.
    intros HQ. induction xs as [|x xs IH]; intros ys ys' H; [destruct H; apply rcong_refl|].
    destruct H as [|y y' ys ys' H1 H2]; [apply rcong_refl|]. cbn [rdot]. apply rcong_add; [|apply IH, H2]. apply rcong_mul; [exact HQ|apply rcong_refl|exact H1].
  Qed.
  Lemma rdot_norm B xs : forall ys, 0 <= B -> Forall (fun y => rnorm y <= B) ys -> (length xs <= length ys)%nat ->
    rnorm (rdot xs ys) <= Z.of_nat N * B * fold_right (fun x a => rnorm x + a)%Z 0 xs.
  Proof.
    induction xs as [|x xs IH]; intros [|y ys] HB H HL; cbn [rdot fold_right length] in *; try lia.
    - rewrite rnorm_0. lia.
    - rewrite rnorm_0. lia.
    - pose proof (rnorm_add _ (x * y) (rdot xs ys)). pose proof (rnorm_mul _ x y). pose proof (IH ys HB (Forall_inv_tail H) ltac:(lia)).
      pose proof (Forall_inv H) as Hy. cbn beta in Hy. pose proof (rnorm_nonneg _ x). pose proof (rnorm_nonneg _ y).
      assert (rnorm x * rnorm y <= rnorm x * B) by (apply Z.mul_le_mono_nonneg_l; lia).
      assert (Z.of_nat N * (rnorm x * rnorm y) <= Z.of_nat N * (rnorm x * B)) by (apply Z.mul_le_mono_nonneg_l; lia).
      lia.
  Qed.
End Dot.

Definition shoups {N} (c : ctx) (vxs : list (bool * Rn N)) : list (poly NttShoup) := map (fun vx => P NttShoup c (fst vx) (snd vx)) vxs.

(** ** Products with lazily reduced constants *)
  Lemma lazy_row op K w (Hok : ntt_ok op K w) v : nt_size op = length v -> Forall is_u64 v ->
    exists r0 r, lazy_reduce_vec (nt_p op) v = Val r0 /\ ntt_forward_vt_lazy op r0 = Val r /\ length r = length v /\ Forall is_u64 r /\ rmod (mod_p (nt_p op)) r = row Ntt op v.
  Proof.
    intros Hs Hv. set (p := mod_p (nt_p op)). pose proof (p_pos op K w Hok) as Hp. pose proof (ok_m _ _ _ Hok) as Hm.
    destruct (lazy_reduce_vec_spec _ Hm v Hv) as (r0 & E0 & F0). exists r0.
    assert (L0 : length r0 = length v) by (symmetry; apply (Forall2_length_eq _ _ _ F0)).
    assert (B0 : below (4 * p) r0).
    { apply Forall_forall. intros y Hy. clear -F0 Hy Hp. fold p in F0. fold p in Hp. induction F0 as [|a b l l' (H1 & H2) F IH]; [easy|]. destruct Hy as [<-|Hy]; [lia|auto]. }
    assert (C0 : lcong p r0 v).
    { clear -F0. fold p in F0. induction F0 as [|a b l l' (H1 & H2) F IH]; constructor; [exact H2|exact IH]. }
    destruct (forward_vt_lazy_NTT op K w Hok r0 ltac:(congruence) B0) as (r & E1 & B1 & C1). fold p in B1, C1.
    assert (L1 : length r = length v).
    { apply (f_equal (@length Z)) in C1. rewrite rmod_length in C1. rewrite C1. rewrite (NTT_length op K w Hok); congruence. }
    exists r. split; [exact E0|]. split; [exact E1|]. split; [exact L1|]. split.
    - destruct (valid_fields _ Hm) as (Hlt & _). fold p in Hlt. eapply Forall_impl; [|exact B1]. intros a Ha. cbn beta in Ha. unfold is_u64. lia.
    - fold p. rewrite C1. cbn [row]. rewrite (evaluations_NTT op K w Hok) by congruence. apply NTT_cong. exact C0.
  Qed.
Section Lazy.
  Variables (c : ctx) (Hc : ctx_ok c) (N : nat) (HN : c_degree c = N).
  Add Ring Rn_lazy : (Rn_ring N).
  Definition lazy_out (v : list Z) (op : ntt_op) : list Z := match bind (lazy_reduce_vec (nt_p op) v) (ntt_forward_vt_lazy op) with Val r => r | _ => [] end.
  Definition lazy_poly (v : list Z) : poly Ntt := mkPoly c true true (map (lazy_out v) (c_ops c)) None.
  Lemma lazy_out_eq op v : In op (c_ops c) -> length v = N -> Forall is_u64 v ->
    bind (lazy_reduce_vec (nt_p op) v) (ntt_forward_vt_lazy op) = Val (lazy_out v op) /\ length (lazy_out v op) = N /\ Forall is_u64 (lazy_out v op) /\ rmod (mod_p (nt_p op)) (lazy_out v op) = row Ntt op v.
  Proof using Hc HN.
    intros Hop Hl Hv. destruct (op_ok c Hc op Hop) as (K & w & Hok & Hs).
    destruct (lazy_row op K w Hok v ltac:(congruence) Hv) as (r0 & r & E0 & E1 & L & U & E). unfold lazy_out. rewrite E0. cbn [bind]. rewrite E1.
    repeat split; try assumption. congruence.
  Qed.
  Lemma lazy_constant_eq v : length v = N -> Forall is_u64 v -> ntt_lazy_constant c v = Val (lazy_poly v).
  Proof using Hc HN.
    intros Hl Hv. unfold ntt_lazy_constant. rewrite (q_ops c Hc). rewrite <- (map_id (c_ops c)) at 2.
    rewrite map2M_map with (r := lazy_out v); [reflexivity|]. intros op Hop. rewrite Hl, HN, Nat.eqb_refl. cbn [guard bind].
    apply (lazy_out_eq op v Hop Hl Hv).
  Qed.
  Lemma lazy_mul (x y : Rn N) v2 : Forall is_u64 (rl x) ->
    poly_mul_shoup (lazy_poly (rl x)) (P NttShoup c v2 y) = Val (P Ntt c v2 (x * y)%R).
  Proof using Hc HN.
    intros Hv. unfold poly_mul_shoup, lazy_poly, P. cbn [p_lazy p_ctx p_vt p_coeffs p_shoup poly_of negb guard bind unwrap]. rewrite ctx_eqb_refl. cbn [guard bind andb].
    rewrite (q_ops c Hc), combine_map. rewrite zip_upd3_map with (r := fun op => row Ntt op (rl (x * y)%R)); [reflexivity|].
    intros op Hop. destruct (op_ok c Hc op Hop) as (K & w & Hok & Hs). cbn [fst snd]. destruct (lazy_out_eq op (rl x) Hop (rl_length x) Hv) as (_ & L & U & E).
    pose proof (rl_length x) as Lx. pose proof (rl_length y) as Ly. assert (Hn : nt_size op = N) by congruence.
    change (rl (x * y)%R) with (nmul N (rl x) (rl y)). replace (nmul N (rl x) (rl y)) with (nmul (nt_size op) (rl x) (rl y)) by (rewrite Hn; reflexivity). rewrite (row_nmul op K w Hok) by congruence. change (row NttShoup op (rl y)) with (row Ntt op (rl y)).
    destruct (mul_shoup_vec_spec _ (ok_m _ _ _ Hok) (lazy_out (rl x) op) (row Ntt op (rl y)) (shoup_row op (row Ntt op (rl y)))) as (E1 & E2).
    - exact U.
    - apply (row_canonical op K w Hok). congruence.
    - rewrite (row_length op K w Hok); congruence.
    - apply (shoup_row_vec op K w Hok). congruence.
    - assert (Ez : zipWith (fun a b => (a * b) mod mod_p (nt_p op)) (lazy_out (rl x) op) (row Ntt op (rl y)) = zipWith (fun a b => (a * b) mod mod_p (nt_p op)) (row Ntt op (rl x)) (row Ntt op (rl y))).
      { rewrite <- E. clear. generalize (row Ntt op (rl y)). induction (lazy_out (rl x) op) as [|a l IH]; intros [|b m]; [reflexivity..|]. cbn [rmod map zipWith]. f_equal; [rewrite Zmult_mod_idemp_l; reflexivity|apply IH]. }
      rewrite Ez in E1, E2. destruct v2; assumption.
  Qed.
  (** Lazily reduced polynomials take no part in additions or in other products. *)
  Lemma lazy_refused v (p : poly Ntt) : poly_add (lazy_poly v) p = Panic /\ poly_add p (lazy_poly v) = Panic /\ poly_mul (lazy_poly v) p = Panic /\ poly_mul p (lazy_poly v) = Panic.
  Proof. unfold poly_add, poly_mul, poly_op2. cbn [lazy_poly p_lazy negb andb]. rewrite andb_false_r. repeat split; reflexivity. Qed.

  Lemma ks_loop_P xs : forall (b0 b1 : list (bool * Rn N)) v0 v1 (a0 a1 : Rn N), length b0 = length xs -> length b1 = length xs -> Forall (fun x : Rn N => Forall is_u64 (rl x)) xs ->
    exists w0 w1, ks_loop c (map (fun x : Rn N => rl x) xs) (shoups c b0) (shoups c b1) (P Ntt c v0 a0) (P Ntt c v1 a1) =
      Val (P Ntt c w0 (a0 + rdot xs (map snd b0))%R, P Ntt c w1 (a1 + rdot xs (map snd b1))%R).
  Proof using Hc HN.
    induction xs as [|x xs IH]; intros b0 b1 v0 v1 a0 a1 H0 H1 HU.
    - destruct b0, b1; try discriminate. exists v0, v1. cbn [shoups map ks_loop rdot]. do 2 f_equal; f_equal; ring.
    - destruct b0 as [|(z0 & y0) b0], b1 as [|(z1 & y1) b1]; try discriminate. cbn [shoups map ks_loop rdot fst snd].
      rewrite (lazy_constant_eq (rl x) (rl_length x) (Forall_inv HU)). cbn [bind].
      rewrite lazy_mul by exact (Forall_inv HU). cbn [bind]. rewrite (P_add c Hc N HN) by discriminate. cbn [bind].
      rewrite lazy_mul by exact (Forall_inv HU). cbn [bind]. rewrite (P_add c Hc N HN) by discriminate. cbn [bind]. fold (shoups c b0) (shoups c b1).
      injection H0 as H0. injection H1 as H1. edestruct (IH b0 b1) as (w0 & w1 & E); [exact H0|exact H1|exact (Forall_inv_tail HU)|]. exists w0, w1. rewrite E. do 2 f_equal; f_equal; ring.
  Qed.
  (** One element of a key. *)
  Lemma ksk_entry_P variance (s f : Rn N) vs vf rng (a : Rn N) g : words rng -> 1 <= variance <= 32 ->
    ksk_entry variance (P Ntt c vs s) (P PowerBasis c vf f) rng (P NttShoup c true a) g =
      Val (P NttShoup c true (cbd_rn N variance rng - a * s + (g *: f))%R).
  Proof using Hc HN.
    intros Hr Hv. unfold ksk_entry. rewrite P_shoup_ntt. cbn [bind]. rewrite P_disallow. rewrite (P_mul c Hc N HN). cbn [bind]. rewrite (P_ntt_pb c Hc N HN). cbn [bind].
    rewrite P_ctx. rewrite (P_small c Hc N HN) by assumption. cbn [bind]. rewrite (P_sub c Hc N HN) by discriminate. cbn [bind].
    rewrite (P_scale c Hc N HN) by discriminate. cbn [bind]. rewrite (P_add c Hc N HN) by discriminate. cbn [bind]. rewrite P_allow. apply (P_pb_shoup c Hc N HN).
  Qed.
End Lazy.

(** ** The recombination of the decomposed polynomial *)
Section Gadget.
  Context {N : nat}.
  Add Ring Rn_gadget : (Rn_ring N).
  Implicit Types x y s f : Rn N.
  Local Open Scope rn_scope.
  (** The elements (b, a) of a key satisfy b + a*s = g*f + e. *)
  Definition rkey (Q : Z) (s f : Rn N) (B : Z) (gs : list Z) (bas : list (Rn N * Rn N)) : Prop :=
    Forall2 (fun g ba => exists e, rnorm e <= B /\ rcong Q (fst ba + s * snd ba) (g *: f + e)) gs bas.
  Definition rnorms (xs : list (Rn N)) : Z := fold_right (fun x a => rnorm x + a)%Z 0 xs.
  Lemma rnorms_nonneg xs : 0 <= rnorms xs.
  Proof. induction xs as [|x xs IH]; cbn [rnorms fold_right]; [lia|]. fold (rnorms xs). pose proof (rnorm_nonneg _ x). lia. Qed.
  Lemma rkey_dot Q s f B gs bas : 0 < Q -> 0 <= B -> rkey Q s f B gs bas -> forall xs, length xs = length bas ->
    exists E, rnorm E <= Z.of_nat N * B * rnorms xs /\
      rcong Q (rdot xs (map fst bas) + s * rdot xs (map snd bas)) (rdot xs (map (rZ N) gs) * f + E).
  Proof.
    intros HQ HB. induction 1 as [|g ba gs bas (e & He & Hc) H IH]; intros [|x xs] L; try discriminate.
    - exists (r0 N). cbn [rdot map rnorms fold_right]. split; [rewrite rnorm_0; lia|]. replace (r0 N + s * r0 N) with (r0 N * f + r0 N) by ring. apply rcong_refl.
    - injection L as L. destruct (IH xs L) as (E & HE & HC). exists (x * e + E). cbn [rdot map]. split.
      + cbn [rnorms fold_right]. fold (rnorms xs). pose proof (rnorm_add _ (x * e) E). pose proof (rnorm_mul _ x e). pose proof (rnorm_nonneg _ x). pose proof (rnorm_nonneg _ e).
        assert (rnorm x * rnorm e <= rnorm x * B) by (apply Z.mul_le_mono_nonneg_l; lia). assert (Z.of_nat N * (rnorm x * rnorm e) <= Z.of_nat N * (rnorm x * B)) by (apply Z.mul_le_mono_nonneg_l; lia). lia.
      + replace (x * fst ba + rdot xs (map fst bas) + s * (x * snd ba + rdot xs (map snd bas))) with (x * (fst ba + s * snd ba) + (rdot xs (map fst bas) + s * rdot xs (map snd bas))) by ring.
        replace ((x * rZ N g + rdot xs (map (rZ N) gs)) * f + (x * e + E)) with (x * (g *: f + e) + (rdot xs (map (rZ N) gs) * f + E)) by (rewrite rscale_mul; ring).
        apply rcong_add; [|exact HC]. apply rcong_mul; [exact HQ|apply rcong_refl|exact Hc].
  Qed.
  Lemma nth_rdot_Z k : forall xs gs, nth k (rl (rdot xs (map (rZ N) gs))) 0 = inner (map (fun x => nth k (rl x) 0) xs) gs.
  Proof.
    induction xs as [|x xs IH]; intros [|g gs]; cbn [rdot map inner]; try apply nth_r0. rewrite nth_radd, IH. f_equal.
    replace (x * rZ N g) with (g *: x) by (rewrite rscale_mul; ring). rewrite nth_rscale. ring.
  Qed.
  (** Weights that are 1 modulo their own modulus and 0 modulo the others. *)
  Lemma crt_recombine qs gs x : rns_basis qs -> crt_weights qs gs -> rcong (prod_list qs) (rdot (map (fun q => rred q x) qs) (map (rZ N) gs)) x.
  Proof.
    intros Hb (L & W). apply rcong_nth. intros k Hk. rewrite nth_rdot_Z, map_map. apply (crt_cong _ _ _ Hb). intros j Hj.
    set (rs := map (fun q => nth k (rl (rred q x)) 0) qs). assert (Lr : length rs = length qs) by apply map_length.
    assert (H : cong (nth j qs 0) (inner rs gs) (nth j rs 0)).
    { destruct (rns_new_ok qs Hb) as (rc & _). apply (inner_cong rc); [congruence|lia| |].
      - pose proof (W j j Hj Hj) as Hw. rewrite Nat.eqb_refl in Hw. exact Hw.
      - intros i Hi Hij. pose proof (W i j ltac:(lia) Hj) as Hw. destruct (Nat.eqb_spec i j); [congruence|exact Hw]. }
    eapply cong_trans; [exact H|]. unfold rs. rewrite (map_nth_lt _ _ j 0) by exact Hj.
    pose proof (proj2 (proj2 Hb)) as Hr. rewrite Forall_forall in Hr. specialize (Hr (nth j qs 0) (nth_In _ _ Hj)).
    pose proof (rred_cong (nth j qs 0) x ltac:(lia)) as Hc. rewrite rcong_nth in Hc. apply Hc. exact Hk.
  Qed.
  Lemma garner_weights r : good_rns r -> crt_weights (rns_u64 r) (rns_garner r).
  Proof.
    intros Hg. split; [apply (gr_lg _ Hg)|]. intros i j Hi Hj. destruct (gr_entry _ Hg i Hi) as (_ & _ & _ & _ & C1 & C0).
    destruct (Nat.eqb_spec i j) as [->|Hn]; [exact C1|]. apply C0; [exact Hj|congruence].
  Qed.
  (** Digits in base 2^b. *)
  Definition rdigit (b : Z) (i : nat) (x : Rn N) : Rn N := mkR (map (fun a => (a / 2 ^ (Z.of_nat i * b)%Z) mod 2 ^ b) (rl x)) (eq_trans (map_length _ _) (rl_length x)).
  Lemma digits_eq b n (x : Rn N) : 0 < b -> Forall (fun a => 0 <= a) (rl x) -> digits b n (rl x) = map (fun d : Rn N => rl d) (map (fun i => rdigit b i x) (seq 0 n)).
  Proof.
    intros Hb. assert (Hp : 0 < 2 ^ b) by (apply Z.pow_pos_nonneg; lia).
    assert (G : forall n j v, v = map (fun a => a / 2 ^ (Z.of_nat j * b)%Z) (rl x) -> Forall (fun a => 0 <= a) (rl x) -> digits b n v = map (fun d : Rn N => rl d) (map (fun i => rdigit b i x) (seq j n))).
    { clear n. induction n as [|n IH]; intros j v Hv Hx; [reflexivity|]. cbn [digits seq map]. f_equal.
      - unfold rdigit. rewrite rl_mkR, Hv, map_map. apply map_ext. intros a. rewrite Z.shiftl_1_l. change (2 ^ b - 1)%Z with (Z.pred (2 ^ b)). rewrite <- Z.ones_equiv. apply Z.land_ones. lia.
      - apply IH; [|exact Hx]. rewrite Hv, map_map. apply map_ext. intros a. rewrite Z.shiftr_div_pow2 by lia. rewrite Z.div_div by (try apply Z.pow_pos_nonneg; try apply Z.pow_nonzero; lia). f_equal. rewrite <- Z.pow_add_r by lia. f_equal. lia. }
    intros Hx. apply G; [|exact Hx]. rewrite <- (map_id (rl x)) at 1. apply map_ext. intros a. change (Z.of_nat 0 * b)%Z with 0. rewrite Z.div_1_r. reflexivity.
  Qed.
  Lemma digit_recombine b n x : 0 < b -> Forall (fun a => 0 <= a < 2 ^ (Z.of_nat n * b)%Z) (rl x) -> rdot (map (fun i => rdigit b i x) (seq 0 n)) (map (rZ N) (digit_weights b n)) = x.
  Proof.
    intros Hb Hx. apply rn_ext. intros k Hk. rewrite nth_rdot_Z, map_map. unfold digit_weights.
    assert (Hp : forall i, 0 <= i -> 0 < 2 ^ i) by (intros; apply Z.pow_pos_nonneg; lia).
    set (a := nth k (rl x) 0). assert (Ha : 0 <= a < 2 ^ (Z.of_nat n * b)%Z) by (rewrite Forall_forall in Hx; apply Hx, nth_In; rewrite rl_length; exact Hk).
    assert (En : forall i, nth k (rl (rdigit b i x)) 0 = (a / 2 ^ (Z.of_nat i * b)%Z) mod 2 ^ b).
    { intros i. unfold rdigit. rewrite rl_mkR. rewrite (map_nth_lt _ _ k 0) by (rewrite rl_length; exact Hk). reflexivity. }
    rewrite (map_ext _ (fun i => (a / 2 ^ (Z.of_nat i * b)%Z) mod 2 ^ b)) by exact En. clear En Hk.
    assert (G : forall n j, inner (map (fun i => (a / 2 ^ (Z.of_nat i * b)%Z) mod 2 ^ b) (seq j n)) (map (fun i => 2 ^ (Z.of_nat i * b)%Z) (seq j n)) = (2 ^ (Z.of_nat j * b)%Z * ((a / 2 ^ (Z.of_nat j * b)%Z) mod 2 ^ (Z.of_nat n * b)%Z))%Z).
    { clear n Hx Ha. induction n as [|n IH]; intros j; cbn [seq map inner]; [change (Z.of_nat 0 * b)%Z with 0; rewrite Z.mod_1_r; ring|]. rewrite IH.
      set (u := a / 2 ^ (Z.of_nat j * b)%Z). replace (Z.of_nat (S j) * b)%Z with (Z.of_nat j * b + b)%Z by lia. rewrite (Z.pow_add_r _ (Z.of_nat j * b)%Z b) by lia.
      rewrite <- Z.div_div by (pose proof (Hp (Z.of_nat j * b)%Z); pose proof (Hp b); lia). fold u.
      replace (Z.of_nat (S n) * b)%Z with (b + Z.of_nat n * b)%Z by lia. rewrite (Z.pow_add_r _ b) by lia. pose proof (Hp b ltac:(lia)). pose proof (Hp (Z.of_nat n * b)%Z ltac:(lia)).
      rewrite Z.rem_mul_r by lia. ring. }
    rewrite G. change (Z.of_nat 0 * b)%Z with 0. rewrite Z.div_1_r, Z.mod_small by exact Ha. ring.
  Qed.
End Gadget.
