(** The model's NTT loops compute the pure stage chains of NttPure.v, within the lazy bounds. *)
From Verif Require Import Outcome OutcomeLemmas NumTheory ZqModel ZqProofs ZqPow NttModel PolySpec PolyRing NttPure.
From Coq Require Import Znumtheory.

Record ntt_ok (op : ntt_op) (K : nat) (w : Z) : Prop := {
  ok_m : valid_modulus (nt_p op);
  ok_prime : prime (mod_p (nt_p op));
  ok_p2 : nt_p_twice op = 2 * mod_p (nt_p op);
  ok_K : (3 <= K)%nat;
  ok_size : nt_size op = (2 ^ K)%nat;
  ok_w : 0 <= w < mod_p (nt_p op);
  ok_n : cong (mod_p (nt_p op)) (w ^ 2 ^ Z.of_nat K) (-1);
  ok_om : nt_omegas op = map (fun i => w ^ bitrev K (Z.of_nat i) mod mod_p (nt_p op)) (seq 0 (2 ^ K));
  ok_ze : exists wi, cong (mod_p (nt_p op)) (w * wi) 1 /\
          nt_zetas_inv op = map (fun i => wi ^ (bitrev K (Z.of_nat i) + 1) mod mod_p (nt_p op)) (seq 0 (2 ^ K));
  ok_oms : nt_omegas_shoup op = map (shoup_of (nt_p op)) (nt_omegas op);
  ok_zes : nt_zetas_inv_shoup op = map (shoup_of (nt_p op)) (nt_zetas_inv op);
  ok_si : 0 <= nt_size_inv op < mod_p (nt_p op);
  ok_si1 : cong (mod_p (nt_p op)) (2 ^ Z.of_nat K * nt_size_inv op) 1;
  ok_sis : nt_size_inv_shoup op = shoup_of (nt_p op) (nt_size_inv op)
}.

Definition below (b : Z) (l : list Z) : Prop := Forall (fun x => 0 <= x < b) l.
Definition slice (k n : nat) (l : list Z) : list Z := firstn n (skipn k l).

Lemma below_app b l l' : below b (l ++ l') <-> below b l /\ below b l'.
Proof. apply Forall_app. Qed.
Lemma below_le b b' l : b <= b' -> below b l -> below b' l.
Proof. intros H. apply Forall_impl. lia. Qed.

Lemma get_map_seq {A} (f : nat -> A) n i : (i < n)%nat -> get (map f (seq 0 n)) i = Val (f i).
Proof.
  intros H. unfold get. rewrite (map_nth_error f i (seq 0 n) (d := i)); [reflexivity|].
  rewrite (nth_error_nth' _ 0%nat) by (rewrite seq_length; exact H). rewrite seq_nth by exact H. reflexivity.
Qed.
Lemma get_nth (l : list Z) i : (i < length l)%nat -> get l i = Val (nth i l 0).
Proof. intros H. unfold get. rewrite (nth_error_nth' l 0 H). reflexivity. Qed.

Lemma skipn_cons_nth (l : list Z) k : (k < length l)%nat -> skipn k l = nth k l 0 :: skipn (S k) l.
Proof.
  revert k; induction l as [|x l IH]; intros k H; [cbn in H; lia|]. destruct k; [reflexivity|].
  cbn [skipn nth]. rewrite IH by (cbn in H; lia). reflexivity.
Qed.
Lemma slice_cons k n l : (k < length l)%nat -> slice k (S n) l = nth k l 0 :: slice (S k) n l.
Proof. intros H. unfold slice. rewrite skipn_cons_nth by exact H. reflexivity. Qed.
Lemma slice_length k n l : (k + n <= length l)%nat -> length (slice k n l) = n.
Proof. intros H. unfold slice. rewrite firstn_length, skipn_length. lia. Qed.
Lemma slice_nth k n l i : (i < n)%nat -> (k + n <= length l)%nat -> nth i (slice k n l) 0 = nth (k + i) l 0.
Proof.
  intros Hi Hl. unfold slice. revert k l Hl i Hi. induction n as [|n IH]; intros k l Hl i Hi; [lia|].
  rewrite skipn_cons_nth by lia. destruct i as [|i]; cbn [firstn nth]; [f_equal; lia|].
  rewrite IH by lia. f_equal. lia.
Qed.

Section Map2M.
  Variables (p : Z) (f : Z -> Z -> M (Z * Z)) (g h : Z -> Z -> Z) (B B' : Z).
  Hypothesis Hf : forall x y, 0 <= x < B -> 0 <= y < B -> exists x' y', f x y = Val (x', y') /\
    cong p x' (g x y) /\ cong p y' (h x y) /\ 0 <= x' < B' /\ 0 <= y' < B'.
  Lemma map2M_pairs L R : length L = length R -> below B L -> below B R ->
    exists xy, map2M f L R = Val xy /\ length xy = length L /\ lcong p (map fst xy) (zipWith g L R) /\ lcong p (map snd xy) (zipWith h L R) /\
      below B' (map fst xy) /\ below B' (map snd xy).
  Proof.
    intros Hl HL. revert R Hl. induction HL as [|x L Hx HL IH]; intros [|y R] Hl HR; try discriminate.
    - exists []. repeat split; constructor.
    - inversion HR as [|? ? Hy HR']; subst. destruct (Hf x y Hx Hy) as (x' & y' & E & C1 & C2 & B1 & B2).
      destruct (IH R ltac:(cbn in Hl; lia) HR') as (xy & E' & Hlen & C1' & C2' & B1' & B2').
      exists ((x', y') :: xy). cbn [map2M map fst snd zipWith]. rewrite E. cbn [bind]. rewrite E'. cbn [bind].
      repeat split; try (cbn [length]; lia); constructor; assumption.
  Qed.
End Map2M.

(** Index-based pair updates agree with the chunk-based ones. *)
Lemma get_app_mid {A} (pre post : list A) x : get (pre ++ x :: post) (length pre) = Val x.
Proof. unfold get. rewrite nth_error_app2, Nat.sub_diag by lia. reflexivity. Qed.
Lemma set_app_mid {A} (pre post : list A) x y : set_nth (pre ++ x :: post) (length pre) y = pre ++ y :: post.
Proof. induction pre as [|a pre IH]; cbn [app length set_nth]; [reflexivity|]. rewrite IH. reflexivity. Qed.

Lemma at_pairs f L : forall R pre mid post l, length L = length R -> (length L + length mid = l)%nat -> l <> O ->
  foldM (fun a j => at_pair f a j l) (seq (length pre) (length L)) (pre ++ L ++ mid ++ R ++ post) =
  (xy <- map2M f L R ;; Val (pre ++ map fst xy ++ mid ++ map snd xy ++ post)).
Proof.
  induction L as [|x L IH]; intros [|y R] pre mid post l Hl Hm Hl0; try discriminate.
  - cbn [length seq foldM map2M bind map app]. reflexivity.
  - cbn [length seq foldM map2M]. unfold at_pair at 1.
    rewrite bind_guard by (destruct l; [lia|reflexivity]).
    change (pre ++ (x :: L) ++ mid ++ (y :: R) ++ post) with (pre ++ x :: (L ++ mid ++ y :: (R ++ post))).
    rewrite get_app_mid. cbn [bind].
    assert (Es : pre ++ x :: L ++ mid ++ y :: R ++ post = (pre ++ x :: L ++ mid) ++ y :: (R ++ post))
      by (rewrite <- !app_assoc; cbn [app]; rewrite <- !app_assoc; reflexivity).
    assert (Hlen : (length pre + l)%nat = length (pre ++ x :: L ++ mid)) by (rewrite app_length; cbn [length]; rewrite app_length; cbn in Hm; lia).
    rewrite Es at 1. rewrite Hlen at 1. rewrite get_app_mid. cbn [bind].
    destruct (f x y) as [[x' y']| |]; cbn [bind]; try reflexivity.
    rewrite set_app_mid.
    assert (Es' : pre ++ x' :: L ++ mid ++ y :: R ++ post = (pre ++ x' :: L ++ mid) ++ y :: (R ++ post))
      by (rewrite <- !app_assoc; cbn [app]; rewrite <- !app_assoc; reflexivity).
    rewrite Es'. assert (Hlen' : (length pre + l)%nat = length (pre ++ x' :: L ++ mid)) by (rewrite app_length; cbn [length]; rewrite app_length; cbn in Hm; lia).
    rewrite Hlen'. rewrite set_app_mid.
    replace ((pre ++ x' :: L ++ mid) ++ y' :: R ++ post) with ((pre ++ [x']) ++ L ++ (mid ++ [y']) ++ R ++ post)
      by (rewrite <- !app_assoc; cbn [app]; rewrite <- !app_assoc; reflexivity).
    replace (S (length pre)) with (length (pre ++ [x'])) by (rewrite app_length; cbn; lia).
    rewrite IH by (try exact Hl0; cbn in Hl, Hm; try rewrite app_length; cbn [length]; lia).
    destruct (map2M f L R) as [xy| |]; cbn [bind]; try reflexivity.
    f_equal. cbn [map fst snd]. rewrite <- !app_assoc. reflexivity.
Qed.

Section Stages.
  Variables (op : ntt_op) (K : nat) (w : Z) (Hok : ntt_ok op K w).
  Notation m := (nt_p op).
  Notation p := (mod_p m).

  Lemma p_bounds : 2 <= p < W62.
  Proof. apply valid_fields, (ok_m _ _ _ Hok). Qed.

  Lemma omegas_length : length (nt_omegas op) = (2 ^ K)%nat.
  Proof. rewrite (ok_om _ _ _ Hok), map_length, seq_length. reflexivity. Qed.
  Lemma zetas_length : length (nt_zetas_inv op) = (2 ^ K)%nat.
  Proof. destruct (ok_ze _ _ _ Hok) as (wi & _ & ->). rewrite map_length, seq_length. reflexivity. Qed.
  Lemma omegas_canonical : canonical p (nt_omegas op).
  Proof.
    rewrite (ok_om _ _ _ Hok). unfold canonical. rewrite Forall_map, Forall_forall. intros i _. apply Z.mod_pos_bound.
    pose proof p_bounds. lia.
  Qed.
  Lemma zetas_canonical : canonical p (nt_zetas_inv op).
  Proof.
    destruct (ok_ze _ _ _ Hok) as (wi & _ & ->). unfold canonical. rewrite Forall_map, Forall_forall. intros i _. apply Z.mod_pos_bound.
    pose proof p_bounds. lia.
  Qed.
  Lemma canonical_nth q l i : canonical q l -> (i < length l)%nat -> 0 <= nth i l 0 < q.
  Proof. intros H Hi. unfold canonical in H. rewrite Forall_forall in H. apply H, nth_In, Hi. Qed.
  Lemma nth_map_lt f (l : list Z) i : (i < length l)%nat -> nth i (map f l) 0 = f (nth i l 0).
  Proof. intros H. rewrite (nth_indep _ 0 (f 0)) by (rewrite map_length; exact H). apply map_nth. Qed.
  Lemma get_omega k : (k < 2 ^ K)%nat ->
    exists v, get (nt_omegas op) k = Val v /\ get (nt_omegas_shoup op) k = Val (shoup_of m v) /\ v = nth k (nt_omegas op) 0 /\ 0 <= v < p.
  Proof.
    intros H. exists (nth k (nt_omegas op) 0). rewrite get_nth by (rewrite omegas_length; exact H).
    rewrite (ok_oms _ _ _ Hok), get_nth by (rewrite map_length, omegas_length; exact H). repeat split.
    - f_equal. apply nth_map_lt. rewrite omegas_length; exact H.
    - apply (canonical_nth p); [apply omegas_canonical|rewrite omegas_length; exact H].
    - apply (canonical_nth p); [apply omegas_canonical|rewrite omegas_length; exact H].
  Qed.
  Lemma get_zeta k : (k < 2 ^ K)%nat ->
    exists v, get (nt_zetas_inv op) k = Val v /\ get (nt_zetas_inv_shoup op) k = Val (shoup_of m v) /\ v = nth k (nt_zetas_inv op) 0 /\ 0 <= v < p.
  Proof.
    intros H. exists (nth k (nt_zetas_inv op) 0). rewrite get_nth by (rewrite zetas_length; exact H).
    rewrite (ok_zes _ _ _ Hok), get_nth by (rewrite map_length, zetas_length; exact H). repeat split.
    - f_equal. apply nth_map_lt. rewrite zetas_length; exact H.
    - apply (canonical_nth p); [apply zetas_canonical|rewrite zetas_length; exact H].
    - apply (canonical_nth p); [apply zetas_canonical|rewrite zetas_length; exact H].
  Qed.

  Definition r1_ok (r1 : Z -> Z -> M Z) : Prop := forall x q, 0 < q < W62 * 2 -> 0 <= x < 2 * q -> r1 x q = Val (x mod q).
  Lemma r1_ct : r1_ok reduce1. Proof. exact reduce1_spec. Qed.
  Lemma r1_vt : r1_ok reduce1_vt. Proof. exact reduce1_vt_spec. Qed.

  Lemma mod_2p_cong x : cong p (x mod (2 * p)) x.
  Proof. unfold cong. rewrite Z.mul_comm, Z.rem_mul_r by (pose proof p_bounds; lia). rewrite Z.mul_comm, Z_mod_plus_full, Z.mod_mod by (pose proof p_bounds; lia). reflexivity. Qed.

  Lemma butterfly_spec r1 v x y : r1_ok r1 -> 0 <= v < p -> 0 <= x < 4 * p -> 0 <= y < 4 * p ->
    exists x' y', butterfly_gen r1 op x y v (shoup_of m v) = Val (x', y') /\
      cong p x' (x + v * y) /\ cong p y' (x - v * y) /\ 0 <= x' < 4 * p /\ 0 <= y' < 4 * p.
  Proof.
    intros Hr1 Hv Hx Hy. pose proof p_bounds as Hp. unfold butterfly_gen. rewrite (ok_p2 _ _ _ Hok).
    assert (HW : W62 * 4 = W64) by reflexivity.
    unfold chk64. rewrite bind_chk by lia.
    rewrite bind_guard by (rewrite Z.ltb_lt; lia).
    rewrite bind_guard by (rewrite Z.ltb_lt; lia). rewrite bind_guard by (rewrite Z.ltb_lt; lia).
    rewrite (proj1 (shoup_spec m (ok_m _ _ _ Hok) v Hv)). cbn [bind].
    rewrite bind_guard by apply Z.eqb_refl.
    rewrite Hr1 by lia. cbn [bind].
    destruct (lazy_mul_shoup_spec m (ok_m _ _ _ Hok) y v ltac:(unfold is_u64; lia) Hv) as (t & -> & Ht & Et). cbn [bind].
    pose proof (Z.mod_pos_bound x (2 * p) ltac:(lia)) as Hm. pose proof (mod_2p_cong x) as Hc. set (x0 := x mod (2 * p)) in *.
    rewrite bind_chk by lia. rewrite bind_chk by lia. rewrite bind_chk by lia.
    rewrite bind_guard by (rewrite Z.ltb_lt; lia). rewrite bind_guard by (rewrite Z.ltb_lt; lia).
    assert (Ct : cong p t (v * y)) by (unfold cong; rewrite Et; f_equal; ring).
    eexists _, _. split; [reflexivity|]. repeat split; try lia.
    - rewrite Hc, Ct. reflexivity.
    - transitivity (x0 - t); [|rewrite Hc, Ct; reflexivity]. unfold cong.
      replace (x0 + 2 * p - t) with (x0 - t + 2 * p) by ring. apply Z_mod_plus_full.
  Qed.

  Lemma inv_butterfly_spec r1 v x y : r1_ok r1 -> 0 <= v < p -> 0 <= x < 2 * p -> 0 <= y < 2 * p ->
    exists x' y', inv_butterfly_gen r1 op x y v (shoup_of m v) = Val (x', y') /\
      cong p x' (x + y) /\ cong p y' ((x - y) * v) /\ 0 <= x' < 2 * p /\ 0 <= y' < 2 * p.
  Proof.
    intros Hr1 Hv Hx Hy. pose proof p_bounds as Hp. unfold inv_butterfly_gen. rewrite (ok_p2 _ _ _ Hok).
    assert (HW : W62 * 4 = W64) by reflexivity.
    rewrite bind_guard by (rewrite Z.ltb_lt; lia). rewrite bind_guard by (rewrite Z.ltb_lt; lia). rewrite bind_guard by (rewrite Z.ltb_lt; lia).
    rewrite (proj1 (shoup_spec m (ok_m _ _ _ Hok) v Hv)). cbn [bind].
    rewrite bind_guard by apply Z.eqb_refl.
    unfold chk64. rewrite bind_chk by lia.
    rewrite Hr1 by lia. cbn [bind]. rewrite bind_chk by lia. rewrite bind_chk by lia.
    destruct (lazy_mul_shoup_spec m (ok_m _ _ _ Hok) (2 * p + x - y) v ltac:(unfold is_u64; lia) Hv) as (t & -> & Ht & Et). cbn [bind].
    pose proof (Z.mod_pos_bound (y + x) (2 * p) ltac:(lia)) as Hm. pose proof (mod_2p_cong (y + x)) as Hc.
    rewrite bind_guard by (rewrite Z.ltb_lt; lia). rewrite bind_guard by (rewrite Z.ltb_lt; lia).
    eexists _, _. split; [reflexivity|]. repeat split; try lia.
    - rewrite Hc. apply cong_eq. ring.
    - unfold cong. rewrite Et. replace ((2 * p + x - y) * v) with ((x - y) * v + 2 * v * p) by ring. apply Z_mod_plus_full.
  Qed.

  Lemma reduce3_spec x : 0 <= x < 4 * p -> reduce3 op x = Val (x mod p) /\ reduce3_vt op x = Val (x mod p).
  Proof.
    intros Hx. pose proof p_bounds as Hp. assert (HW : W62 * 4 = W64) by reflexivity.
    pose proof (Z.mod_pos_bound x (2 * p) ltac:(lia)). pose proof (mod_2p_cong x) as Hc.
    unfold reduce3, reduce3_vt. rewrite (ok_p2 _ _ _ Hok). unfold chk64. split.
    - rewrite bind_chk by lia. rewrite bind_guard by (rewrite Z.ltb_lt; lia). rewrite reduce1_spec by lia. cbn [bind].
      rewrite reduce1_spec by lia. f_equal. exact Hc.
    - rewrite bind_chk by lia. rewrite bind_guard by (rewrite Z.ltb_lt; lia). rewrite reduce1_vt_spec by lia. cbn [bind].
      rewrite reduce1_vt_spec by lia. f_equal. exact Hc.
  Qed.

  (** ** Constant-time chunks *)
  Lemma chunk_split l (c : list Z) : length c = (2 * l)%nat ->
    length (firstn l c) = l /\ length (skipn l c) = l /\ firstn l c ++ skipn l c = c.
  Proof. intros H. rewrite firstn_length, skipn_length, firstn_skipn. repeat split; lia. Qed.
  Lemma below_split b l c : below b c -> below b (firstn l c) /\ below b (skipn l c).
  Proof. intros H. rewrite <- below_app, firstn_skipn. exact H. Qed.
  Lemma fstage_one l v L R : length L = l -> length R = l ->
    fstage l [v] (L ++ R) = zipWith (fun x y => x + v * y) L R ++ zipWith (fun x y => x - v * y) L R.
  Proof. intros HL HR. rewrite <- (app_nil_r R) at 1. rewrite fstage_cons by assumption. cbn [fstage]. rewrite app_nil_r. reflexivity. Qed.
  Lemma bstage_one l v L R : length L = l -> length R = l ->
    bstage l [v] (L ++ R) = zipWith (fun x y => x + y) L R ++ zipWith (fun x y => (x - y) * v) L R.
  Proof. intros HL HR. rewrite <- (app_nil_r R) at 1. rewrite bstage_cons by assumption. cbn [bstage]. rewrite app_nil_r. reflexivity. Qed.

  Lemma fwd_chunk_spec l v c : (0 < l)%nat -> 0 <= v < p -> length c = (2 * l)%nat -> below (4 * p) c ->
    exists r, fwd_chunk op l v (shoup_of m v) c = Val r /\ lcong p r (fstage l [v] c) /\ below (4 * p) r /\ (l = 1%nat -> below p r).
  Proof.
    intros Hl Hv Hc Hb. destruct (chunk_split l c Hc) as (H1 & H2 & E). destruct (below_split _ l _ Hb) as (B1 & B2).
    unfold fwd_chunk. rewrite bind_guard by (apply Nat.leb_le; lia).
    replace (fstage l [v] c) with (fstage l [v] (firstn l c ++ skipn l c)) by (rewrite E; reflexivity). rewrite fstage_one by assumption.
    set (L := firstn l c) in *. set (R := skipn l c) in *. clearbody L R. clear E c Hc Hb.
    destruct (Nat.eqb_spec l 1) as [->|Hl1].
    - destruct L as [|x [|]]; try discriminate. destruct R as [|y [|]]; try discriminate.
      inversion B1; inversion B2; subst. unfold butterfly.
      destruct (butterfly_spec reduce1 v x y r1_ct Hv ltac:(assumption) ltac:(assumption)) as (x' & y' & -> & C1 & C2 & R1 & R2).
      cbn [bind]. rewrite (proj1 (reduce3_spec x' R1)). cbn [bind]. rewrite (proj1 (reduce3_spec y' R2)). cbn [bind].
      eexists. split; [reflexivity|]. pose proof p_bounds. cbn [app zipWith].
      pose proof (Z.mod_pos_bound x' p ltac:(lia)). pose proof (Z.mod_pos_bound y' p ltac:(lia)).
      repeat split.
      + repeat constructor; [rewrite <- C1|rewrite <- C2]; apply cong_mod.
      + repeat constructor; lia.
      + intros _. repeat constructor; lia.
    - destruct (map2M_pairs p _ _ _ _ _ (fun x y Hx Hy => butterfly_spec reduce1 v x y r1_ct Hv Hx Hy) L R ltac:(lia) B1 B2)
        as (xy & E & _ & C1 & C2 & R1 & R2). unfold butterfly. rewrite E. cbn [bind].
      eexists. split; [reflexivity|]. repeat split.
      + apply lcong_app; assumption.
      + apply below_app. split; assumption.
      + contradiction.
  Qed.
  Lemma bwd_chunk_spec l v c : (0 < l)%nat -> 0 <= v < p -> length c = (2 * l)%nat -> below (2 * p) c ->
    exists r, bwd_chunk op l v (shoup_of m v) c = Val r /\ lcong p r (bstage l [v] c) /\ below (2 * p) r.
  Proof.
    intros Hl Hv Hc Hb. destruct (chunk_split l c Hc) as (H1 & H2 & E). destruct (below_split _ l _ Hb) as (B1 & B2).
    unfold bwd_chunk. rewrite bind_guard by (apply Nat.leb_le; lia).
    replace (bstage l [v] c) with (bstage l [v] (firstn l c ++ skipn l c)) by (rewrite E; reflexivity). rewrite bstage_one by assumption.
    set (L := firstn l c) in *. set (R := skipn l c) in *. clearbody L R. clear E c Hc Hb.
    destruct (Nat.eqb_spec l 1) as [->|Hl1].
    - destruct L as [|x [|]]; try discriminate. destruct R as [|y [|]]; try discriminate.
      inversion B1; inversion B2; subst. unfold inv_butterfly.
      destruct (inv_butterfly_spec reduce1 v x y r1_ct Hv ltac:(assumption) ltac:(assumption)) as (x' & y' & -> & C1 & C2 & R1 & R2).
      cbn [bind]. eexists. split; [reflexivity|]. cbn [app zipWith]. split; repeat constructor; assumption || lia.
    - destruct (map2M_pairs p _ _ _ _ _ (fun x y Hx Hy => inv_butterfly_spec reduce1 v x y r1_ct Hv Hx Hy) L R ltac:(lia) B1 B2)
        as (xy & E & _ & C1 & C2 & R1 & R2). unfold inv_butterfly. rewrite E. cbn [bind].
      eexists. split; [reflexivity|]. split; [apply lcong_app; assumption|apply below_app; split; assumption].
  Qed.

  Lemma fstage_app l v ws c rest : length c = (2 * l)%nat -> fstage l (v :: ws) (c ++ rest) = fstage l [v] c ++ fstage l ws rest.
  Proof.
    intros Hc. destruct (chunk_split l c Hc) as (H1 & H2 & E). rewrite <- E, <- app_assoc.
    rewrite fstage_cons, fstage_one by assumption. rewrite <- !app_assoc. reflexivity.
  Qed.
  Lemma bstage_app l v ws c rest : length c = (2 * l)%nat -> bstage l (v :: ws) (c ++ rest) = bstage l [v] c ++ bstage l ws rest.
  Proof.
    intros Hc. destruct (chunk_split l c Hc) as (H1 & H2 & E). rewrite <- E, <- app_assoc.
    rewrite bstage_cons, bstage_one by assumption. rewrite <- !app_assoc. reflexivity.
  Qed.

  Lemma fwd_chunks_spec l cs : forall k, (0 < l)%nat -> Forall (fun c => length c = (2 * l)%nat) cs -> below (4 * p) (concat cs) ->
    (k + length cs <= 2 ^ K)%nat ->
    exists rs, fwd_chunks op l k cs = Val (rs, (k + length cs)%nat) /\
      lcong p (concat rs) (fstage l (slice k (length cs) (nt_omegas op)) (concat cs)) /\
      below (4 * p) (concat rs) /\ (l = 1%nat -> below p (concat rs)).
  Proof.
    induction cs as [|c cs IH]; intros k Hl Hs Hb Hk.
    - exists []. cbn [fwd_chunks length concat]. rewrite Nat.add_0_r. repeat split; constructor.
    - inversion Hs as [|? ? Hc Hs']; subst. cbn [concat length] in *. apply below_app in Hb. destruct Hb as (Hb1 & Hb2).
      cbn [fwd_chunks]. destruct (get_omega k ltac:(lia)) as (v & -> & -> & Ev & Hv). cbn [bind].
      destruct (fwd_chunk_spec l v c Hl Hv Hc Hb1) as (r & -> & C & B & C'). cbn [bind].
      destruct (IH (S k) Hl Hs' Hb2 ltac:(lia)) as (rs & -> & D & B' & D'). cbn [bind].
      exists (r :: rs). split; [rewrite Nat.add_succ_comm; reflexivity|]. cbn [concat]. rewrite slice_cons by (rewrite omegas_length; lia). rewrite <- Ev.
      rewrite fstage_app by exact Hc. split; [|split].
      + apply lcong_app; assumption.
      + apply below_app; split; assumption.
      + intros H1. apply below_app; split; auto.
  Qed.
  Lemma bwd_chunks_spec l cs : forall k, (0 < l)%nat -> Forall (fun c => length c = (2 * l)%nat) cs -> below (2 * p) (concat cs) ->
    (k + length cs <= 2 ^ K)%nat ->
    exists rs, bwd_chunks op l k cs = Val (rs, (k + length cs)%nat) /\
      lcong p (concat rs) (bstage l (slice k (length cs) (nt_zetas_inv op)) (concat cs)) /\ below (2 * p) (concat rs).
  Proof.
    induction cs as [|c cs IH]; intros k Hl Hs Hb Hk.
    - exists []. cbn [bwd_chunks length concat]. rewrite Nat.add_0_r. repeat split; constructor.
    - inversion Hs as [|? ? Hc Hs']; subst. cbn [concat length] in *. apply below_app in Hb. destruct Hb as (Hb1 & Hb2).
      cbn [bwd_chunks]. destruct (get_zeta k ltac:(lia)) as (v & -> & -> & Ev & Hv). cbn [bind].
      destruct (bwd_chunk_spec l v c Hl Hv Hc Hb1) as (r & -> & C & B). cbn [bind].
      destruct (IH (S k) Hl Hs' Hb2 ltac:(lia)) as (rs & -> & D & B'). cbn [bind].
      exists (r :: rs). split; [rewrite Nat.add_succ_comm; reflexivity|]. cbn [concat]. rewrite slice_cons by (rewrite zetas_length; lia). rewrite <- Ev.
      rewrite bstage_app by exact Hc. split.
      + apply lcong_app; assumption.
      + apply below_app; split; assumption.
  Qed.

  Lemma as_chunks_exact l q (a : list Z) : (0 < l)%nat -> length a = (q * (2 * l))%nat ->
    exists cs, as_chunks (2 * l) a = (cs, []) /\ length cs = q /\ Forall (fun c => length c = (2 * l)%nat) cs /\ concat cs = a.
  Proof.
    intros Hl Ha. unfold as_chunks. rewrite Ha, Nat.div_mul by lia.
    destruct (chunks_n q (2 * l) a) as [cs r] eqn:E.
    destruct (chunks_n_shape _ _ _ _ _ E ltac:(lia)) as (S1 & S2 & S3). pose proof (chunks_n_concat _ _ _ _ _ E) as E'.
    destruct r; [|cbn in S3; lia]. rewrite app_nil_r in E'. exists cs. repeat split; assumption.
  Qed.

  (** ** The stage list *)
  Definition stage_at (s : nat) : stage :=
    ((2 ^ (K - 1 - s))%nat, slice (2 ^ s) (2 ^ s) (nt_omegas op), slice (2 ^ K - 2 ^ S s) (2 ^ s) (nt_zetas_inv op)).
  Definition all_stages : list stage := map stage_at (seq 0 K).

  Lemma pow2_nz s : (0 < 2 ^ s)%nat.
  Proof. apply Nat.neq_0_lt_0, Nat.pow_nonzero. lia. Qed.
  Lemma pow2_le s t : (s <= t)%nat -> (2 ^ s <= 2 ^ t)%nat.
  Proof. apply Nat.pow_le_mono_r. lia. Qed.

  Lemma fwd_loop_spec d : forall s f a, (s + S d = K)%nat -> (d < f)%nat -> length a = (2 ^ K)%nat -> below (4 * p) a ->
    exists r, fwd_loop f op (2 ^ d) (2 ^ s) a = Val r /\ lcong p r (fchain (map stage_at (seq s (S d))) a) /\ below p r.
  Proof.
    induction d as [|d IH]; intros s f a Hs Hf Ha Hb; (destruct f as [|f]; [lia|]); cbn [fwd_loop].
    - change (2 ^ 0)%nat with 1%nat. cbn [Nat.eqb].
      assert (HK : (2 ^ K = 2 ^ s * (2 * 1))%nat) by (rewrite <- Hs, Nat.pow_add_r; reflexivity).
      destruct (as_chunks_exact 1 (2 ^ s) a ltac:(lia) ltac:(lia)) as (cs & -> & Hl & Hcs & Ec).
      destruct (fwd_chunks_spec 1 cs (2 ^ s) ltac:(lia) Hcs ltac:(rewrite Ec; exact Hb) ltac:(lia)) as (rs & -> & C & B & B').
      cbn [bind]. change (Nat.div2 1) with 0%nat.
      exists (concat rs). split; [destruct f; cbn [fwd_loop Nat.eqb]; rewrite app_nil_r; reflexivity|].
      split; [|auto]. cbn [seq map fchain stage_at]. replace (K - 1 - s)%nat with 0%nat by lia. change (2 ^ 0)%nat with 1%nat.
      rewrite Hl, Ec in C. exact C.
    - pose proof (pow2_nz (S d)). destruct (Nat.eqb_spec (2 ^ S d) 0) as [|_]; [lia|].
      assert (HK : (2 ^ K = 2 ^ s * (2 * 2 ^ S d))%nat) by (rewrite <- Hs, Nat.pow_add_r; reflexivity).
      destruct (as_chunks_exact (2 ^ S d) (2 ^ s) a ltac:(lia) ltac:(lia)) as (cs & -> & Hl & Hcs & Ec).
      destruct (fwd_chunks_spec (2 ^ S d) cs (2 ^ s) ltac:(lia) Hcs ltac:(rewrite Ec; exact Hb)) as (rs & -> & C & B & _).
      { rewrite Hl. pose proof (pow2_le (S s) K ltac:(lia)) as HH. cbn [Nat.pow] in HH. lia. }
      cbn [bind]. rewrite app_nil_r.
      replace (Nat.div2 (2 ^ S d)) with (2 ^ d)%nat by (cbn [Nat.pow]; rewrite Nat.div2_double; reflexivity).
      replace (2 ^ s + length cs)%nat with (2 ^ S s)%nat by (cbn [Nat.pow]; lia).
      rewrite Hl, Ec in C.
      assert (Hlen : length (concat rs) = (2 ^ K)%nat).
      { rewrite (lcong_length _ _ _ C), fstage_length; [exact Ha|].
        rewrite slice_length; [lia|]. rewrite omegas_length. pose proof (pow2_le (S s) K ltac:(lia)) as HH. cbn [Nat.pow] in HH. lia. }
      destruct (IH (S s) f (concat rs) ltac:(lia) ltac:(lia) Hlen B) as (r & E & C' & B').
      exists r. split; [exact E|]. split; [|exact B'].
      change (seq s (S (S d))) with (s :: seq (S s) (S d)). cbn [map fchain]. unfold stage_at at 1.
      replace (K - 1 - s)%nat with (S d) by lia.
      eapply lcong_trans; [exact C'|]. apply fchain_cong. exact C.
  Qed.

  Lemma K_pos : (0 < K)%nat.
  Proof. pose proof (ok_K _ _ _ Hok). lia. Qed.
  Lemma half_size : Nat.div2 (nt_size op) = (2 ^ (K - 1))%nat.
  Proof.
    rewrite (ok_size _ _ _ Hok). pose proof K_pos. destruct K as [|k]; [lia|]. rewrite Nat.sub_succ, Nat.sub_0_r. cbn [Nat.pow].
    rewrite Nat.div2_double. reflexivity.
  Qed.
  Lemma K_lt_size : (K < 2 ^ K)%nat.
  Proof. apply Nat.pow_gt_lin_r. lia. Qed.

  Lemma ntt_forward_chain a : length a = nt_size op -> below (4 * p) a ->
    exists r, ntt_forward op a = Val r /\ lcong p r (fchain all_stages a) /\ below p r.
  Proof.
    intros Ha Hb. unfold ntt_forward. rewrite bind_guard by (apply Nat.eqb_eq; exact Ha). rewrite half_size.
    rewrite (ok_size _ _ _ Hok) in *. pose proof K_pos. pose proof K_lt_size.
    destruct (fwd_loop_spec (K - 1) 0 (2 ^ K) a ltac:(lia) ltac:(lia) Ha Hb) as (r & E & C & B).
    exists r. split; [exact E|]. split; [|exact B]. unfold all_stages. replace (S (K - 1)) with K in C by lia. exact C.
  Qed.

  (** ** Backward *)
  Lemma bchain_snoc T s a : bchain (T ++ [s]) a = bchain T (let '(l, _, zs) := s in bstage l zs a).
  Proof. induction T as [|[[l ws] zs] T IH]; [destruct s as [[? ?] ?]; reflexivity|]. cbn [app bchain]. rewrite IH. reflexivity. Qed.

  Lemma bwd_loop_spec s : forall d f a, (s + d = K)%nat -> (s <= f)%nat -> length a = (2 ^ K)%nat -> below (2 * p) a ->
    exists r, bwd_loop f op (2 ^ d) (2 ^ K - 2 ^ s) a = Val r /\ lcong p r (bchain (map stage_at (seq 0 s)) a) /\ below (2 * p) r.
  Proof.
    induction s as [|s IH]; intros d f a Hs Hf Ha Hb.
    - exists a. cbn [Nat.add] in Hs. subst d. split; [|split; [apply lcong_refl|exact Hb]].
      assert (E : Nat.ltb (2 ^ K) (nt_size op) = false) by (rewrite (ok_size _ _ _ Hok); apply Nat.ltb_irrefl).
      destruct f; cbn [bwd_loop]; rewrite E; reflexivity.
    - destruct f as [|f]; [lia|]. cbn [bwd_loop].
      pose proof (pow2_nz d) as Hd0. pose proof (pow2_nz s) as Hs0.
      assert (HK : (2 ^ K = 2 ^ s * (2 * 2 ^ d))%nat) by (rewrite <- Hs, Nat.pow_add_r; cbn [Nat.pow]; lia).
      assert (Hlt : Nat.ltb (2 ^ d) (nt_size op) = true) by (rewrite (ok_size _ _ _ Hok); apply Nat.ltb_lt; rewrite HK; nia).
      rewrite Hlt. cbn [negb].
      pose proof (pow2_le (S s) K ltac:(lia)) as HSs.
      destruct (as_chunks_exact (2 ^ d) (2 ^ s) a ltac:(lia) ltac:(lia)) as (cs & -> & Hl & Hcs & Ec).
      destruct (bwd_chunks_spec (2 ^ d) cs (2 ^ K - 2 ^ S s) ltac:(lia) Hcs ltac:(rewrite Ec; exact Hb)) as (rs & -> & C & B).
      { rewrite Hl. cbn [Nat.pow] in *. lia. }
      cbn [bind]. rewrite app_nil_r. change (2 * 2 ^ d)%nat with (2 ^ S d)%nat.
      replace (2 ^ K - 2 ^ S s + length cs)%nat with (2 ^ K - 2 ^ s)%nat by (cbn [Nat.pow] in *; lia).
      rewrite Hl, Ec in C.
      assert (Hlen : length (concat rs) = (2 ^ K)%nat).
      { rewrite (lcong_length _ _ _ C), bstage_length; [exact Ha|].
        rewrite slice_length; [lia|]. rewrite zetas_length. cbn [Nat.pow] in *. lia. }
      destruct (IH (S d) f (concat rs) ltac:(lia) ltac:(lia) Hlen B) as (r & E & C' & B').
      exists r. split; [exact E|]. split; [|exact B'].
      rewrite seq_S, map_app. cbn [map Nat.add]. rewrite bchain_snoc. unfold stage_at at 2.
      replace (K - 1 - s)%nat with d by lia. eapply lcong_trans; [exact C'|]. apply bchain_cong. exact C.
  Qed.

  Lemma scale_size_inv a b : below (2 * p) a -> lcong p a b ->
    mapM (fun ai => mul_shoup m ai (nt_size_inv op) (nt_size_inv_shoup op)) a = Val (map (fun x => (x * nt_size_inv op) mod p) a) /\
    lcong p (map (fun x => (x * nt_size_inv op) mod p) a) (lscale (nt_size_inv op) b) /\
    below p (map (fun x => (x * nt_size_inv op) mod p) a).
  Proof.
    intros Ha Hc. pose proof p_bounds as Hp. assert (HW : W62 * 4 = W64) by reflexivity. repeat split.
    - apply mapM_val. intros x Hx. unfold below in Ha. rewrite Forall_forall in Ha. specialize (Ha x Hx).
      rewrite (ok_sis _ _ _ Hok). apply mul_shoup_spec; [apply (ok_m _ _ _ Hok)|unfold is_u64; lia|apply (ok_si _ _ _ Hok)].
    - clear Ha. induction Hc; cbn; constructor; [|assumption]. rewrite cong_mod, H. apply cong_eq. ring.
    - apply Forall_map, Forall_forall. intros x _. apply Z.mod_pos_bound. lia.
  Qed.

  Lemma ntt_backward_chain a : length a = nt_size op -> below (2 * p) a ->
    exists r, ntt_backward op a = Val r /\ lcong p r (lscale (nt_size_inv op) (bchain all_stages a)) /\ below p r.
  Proof.
    intros Ha Hb. unfold ntt_backward. rewrite bind_guard by (apply Nat.eqb_eq; exact Ha).
    rewrite (ok_size _ _ _ Hok) in *. pose proof K_lt_size.
    destruct (bwd_loop_spec K 0 (2 ^ K) a ltac:(lia) ltac:(lia) Ha Hb) as (r & E & C & B).
    rewrite Nat.sub_diag in E. change (2 ^ 0)%nat with 1%nat in E. rewrite E. cbn [bind].
    destruct (scale_size_inv _ _ B C) as (E' & C' & B'). rewrite E'. eexists. split; [reflexivity|]. split; assumption.
  Qed.

  (** ** Variable-time loops *)
  Lemma fwd_vt_stage_spec l q : forall i0 k pre a, (0 < l)%nat -> length pre = (2 * i0 * l)%nat -> length a = (q * (2 * l))%nat ->
    below (4 * p) a -> (k + q <= 2 ^ K)%nat ->
    exists r, foldM (fwd_vt_block op l) (seq i0 q) (k, pre ++ a) = Val ((k + q)%nat, pre ++ r) /\
      lcong p r (fstage l (slice k q (nt_omegas op)) a) /\ below (4 * p) r.
  Proof.
    induction q as [|q IH]; intros i0 k pre a Hl Hpre Ha Hb Hk.
    - destruct a; [|cbn in Ha; lia]. exists []. cbn [seq foldM]. rewrite Nat.add_0_r. repeat split; constructor.
    - destruct (split3 l _ a Ha) as (L & R & rest & -> & HL & HR & Hr).
      apply below_app in Hb. destruct Hb as (B1 & Hb). apply below_app in Hb. destruct Hb as (B2 & B3).
      cbn [seq foldM]. unfold fwd_vt_block at 1. destruct (get_omega k ltac:(lia)) as (v & -> & -> & Ev & Hv). cbn [bind].
      rewrite <- Hpre. replace (pre ++ L ++ R ++ rest) with (pre ++ L ++ [] ++ R ++ rest) by reflexivity.
      pose proof (at_pairs (fun x y => butterfly_vt op x y v (shoup_of m v)) L R pre [] rest l ltac:(lia) ltac:(cbn; lia) ltac:(lia)) as AP.
      rewrite HL in AP. rewrite AP. clear AP. unfold butterfly_vt at 1.
      destruct (map2M_pairs p _ _ _ _ _ (fun x y Hx Hy => butterfly_spec reduce1_vt v x y r1_vt Hv Hx Hy) L R ltac:(lia) B1 B2)
        as (xy & E & Hxy & C1 & C2 & R1 & R2). rewrite E. cbn [bind app].
      destruct (IH (S i0) (S k) (pre ++ map fst xy ++ map snd xy) rest Hl) as (r & E' & C & B).
      { rewrite !app_length, !map_length. lia. } { exact Hr. } { exact B3. } { lia. }
      rewrite <- !app_assoc in E'. rewrite E'. exists (map fst xy ++ map snd xy ++ r).
      split; [rewrite <- Nat.add_succ_comm; rewrite ?app_assoc; reflexivity|].
      rewrite slice_cons by (rewrite omegas_length; lia). rewrite <- Ev, fstage_cons by assumption.
      split; [repeat apply lcong_app; assumption|]. rewrite !below_app. repeat split; assumption.
  Qed.
  Lemma bwd_vt_stage_spec l q : forall i0 k pre a, (0 < l)%nat -> length pre = (2 * i0 * l)%nat -> length a = (q * (2 * l))%nat ->
    below (2 * p) a -> (k + q <= 2 ^ K)%nat ->
    exists r, foldM (bwd_vt_block op l) (seq i0 q) (k, pre ++ a) = Val ((k + q)%nat, pre ++ r) /\
      lcong p r (bstage l (slice k q (nt_zetas_inv op)) a) /\ below (2 * p) r.
  Proof.
    induction q as [|q IH]; intros i0 k pre a Hl Hpre Ha Hb Hk.
    - destruct a; [|cbn in Ha; lia]. exists []. cbn [seq foldM]. rewrite Nat.add_0_r. repeat split; constructor.
    - destruct (split3 l _ a Ha) as (L & R & rest & -> & HL & HR & Hr).
      apply below_app in Hb. destruct Hb as (B1 & Hb). apply below_app in Hb. destruct Hb as (B2 & B3).
      cbn [seq foldM]. unfold bwd_vt_block at 1. destruct (get_zeta k ltac:(lia)) as (v & -> & -> & Ev & Hv). cbn [bind].
      rewrite <- Hpre. replace (pre ++ L ++ R ++ rest) with (pre ++ L ++ [] ++ R ++ rest) by reflexivity.
      pose proof (at_pairs (fun x y => inv_butterfly_vt op x y v (shoup_of m v)) L R pre [] rest l ltac:(lia) ltac:(cbn; lia) ltac:(lia)) as AP.
      rewrite HL in AP. rewrite AP. clear AP. unfold inv_butterfly_vt at 1.
      destruct (map2M_pairs p _ _ _ _ _ (fun x y Hx Hy => inv_butterfly_spec reduce1_vt v x y r1_vt Hv Hx Hy) L R ltac:(lia) B1 B2)
        as (xy & E & Hxy & C1 & C2 & R1 & R2). rewrite E. cbn [bind app].
      destruct (IH (S i0) (S k) (pre ++ map fst xy ++ map snd xy) rest Hl) as (r & E' & C & B).
      { rewrite !app_length, !map_length. lia. } { exact Hr. } { exact B3. } { lia. }
      rewrite <- !app_assoc in E'. rewrite E'. exists (map fst xy ++ map snd xy ++ r).
      split; [rewrite <- Nat.add_succ_comm; rewrite ?app_assoc; reflexivity|].
      rewrite slice_cons by (rewrite zetas_length; lia). rewrite <- Ev, bstage_cons by assumption.
      split; [repeat apply lcong_app; assumption|]. rewrite !below_app. repeat split; assumption.
  Qed.

  Lemma fwd_vt_loop_spec d : forall s f a, (s + S d = K)%nat -> (d < f)%nat -> length a = (2 ^ K)%nat -> below (4 * p) a ->
    exists r, fwd_vt_loop f op (2 ^ d) (2 ^ s) (2 ^ s) a = Val r /\ lcong p r (fchain (map stage_at (seq s (S d))) a) /\ below (4 * p) r.
  Proof.
    induction d as [|d IH]; intros s f a Hs Hf Ha Hb; (destruct f as [|f]; [lia|]); cbn [fwd_vt_loop].
    - change (2 ^ 0)%nat with 1%nat. cbn [Nat.eqb].
      assert (HK : (2 ^ K = 2 ^ s * (2 * 1))%nat) by (rewrite <- Hs, Nat.pow_add_r; reflexivity).
      destruct (fwd_vt_stage_spec 1 (2 ^ s) 0 (2 ^ s) [] a ltac:(lia) eq_refl ltac:(lia) Hb ltac:(lia)) as (r & E & C & B).
      cbn [app] in E. unfold fwd_vt_stage. rewrite E. cbn [bind]. change (Nat.div2 1) with 0%nat.
      exists r. split; [destruct f; cbn [fwd_vt_loop Nat.eqb]; reflexivity|].
      split; [|exact B]. cbn [seq map fchain stage_at]. replace (K - 1 - s)%nat with 0%nat by lia. exact C.
    - pose proof (pow2_nz (S d)). destruct (Nat.eqb_spec (2 ^ S d) 0) as [|_]; [lia|].
      assert (HK : (2 ^ K = 2 ^ s * (2 * 2 ^ S d))%nat) by (rewrite <- Hs, Nat.pow_add_r; reflexivity).
      assert (H2 : (2 ^ s + 2 ^ s <= 2 ^ K)%nat) by (pose proof (pow2_le (S s) K ltac:(lia)) as HH; cbn [Nat.pow] in HH; lia).
      destruct (fwd_vt_stage_spec (2 ^ S d) (2 ^ s) 0 (2 ^ s) [] a ltac:(lia) eq_refl ltac:(lia) Hb H2) as (r0 & E0 & C & B).
      cbn [app] in E0. unfold fwd_vt_stage. rewrite E0. cbn [bind].
      replace (Nat.div2 (2 ^ S d)) with (2 ^ d)%nat by (cbn [Nat.pow]; rewrite Nat.div2_double; reflexivity).
      replace (2 ^ s + 2 ^ s)%nat with (2 ^ S s)%nat by (cbn [Nat.pow]; lia).
      change (2 * 2 ^ s)%nat with (2 ^ S s)%nat.
      assert (Hlen : length r0 = (2 ^ K)%nat).
      { rewrite (lcong_length _ _ _ C), fstage_length; [exact Ha|]. rewrite slice_length; [lia|]. rewrite omegas_length. lia. }
      destruct (IH (S s) f r0 ltac:(lia) ltac:(lia) Hlen B) as (r & E & C' & B').
      exists r. split; [exact E|]. split; [|exact B'].
      change (seq s (S (S d))) with (s :: seq (S s) (S d)). cbn [map fchain]. unfold stage_at at 1.
      replace (K - 1 - s)%nat with (S d) by lia.
      eapply lcong_trans; [exact C'|]. apply fchain_cong. exact C.
  Qed.

  Lemma ntt_forward_vt_lazy_chain a : length a = nt_size op -> below (4 * p) a ->
    exists r, ntt_forward_vt_lazy op a = Val r /\ lcong p r (fchain all_stages a) /\ below (4 * p) r.
  Proof.
    intros Ha Hb. unfold ntt_forward_vt_lazy. rewrite bind_guard by (apply Nat.eqb_eq; exact Ha). rewrite half_size.
    rewrite (ok_size _ _ _ Hok) in *. pose proof K_pos. pose proof K_lt_size.
    destruct (fwd_vt_loop_spec (K - 1) 0 (2 ^ K) a ltac:(lia) ltac:(lia) Ha Hb) as (r & E & C & B).
    exists r. split; [exact E|]. split; [|exact B]. unfold all_stages. replace (S (K - 1)) with K in C by lia. exact C.
  Qed.
  Lemma ntt_forward_vt_chain a : length a = nt_size op -> below (4 * p) a ->
    exists r, ntt_forward_vt op a = Val r /\ lcong p r (fchain all_stages a) /\ below p r.
  Proof.
    intros Ha Hb. unfold ntt_forward_vt. destruct (ntt_forward_vt_lazy_chain a Ha Hb) as (r & -> & C & B). cbn [bind].
    rewrite (mapM_val _ (fun x => x mod p)).
    - eexists. split; [reflexivity|]. split.
      + eapply lcong_trans; [apply lcong_map_mod|exact C].
      + apply canonical_map_mod. pose proof p_bounds. lia.
    - intros x Hx. unfold below in B. rewrite Forall_forall in B. apply reduce3_spec. auto.
  Qed.

  Lemma bwd_vt_loop_spec s : forall d f a, (s + d = K)%nat -> (s <= f)%nat -> length a = (2 ^ K)%nat -> below (2 * p) a ->
    exists r, bwd_vt_loop f op (2 ^ d) (Nat.div2 (2 ^ s)) (2 ^ K - 2 ^ s) a = Val r /\
      lcong p r (bchain (map stage_at (seq 0 s)) a) /\ below (2 * p) r.
  Proof.
    induction s as [|s IH]; intros d f a Hs Hf Ha Hb.
    - exists a. change (Nat.div2 (2 ^ 0)) with 0%nat. split; [destruct f; reflexivity|split; [apply lcong_refl|exact Hb]].
    - destruct f as [|f]; [lia|]. cbn [bwd_vt_loop].
      pose proof (pow2_nz d) as Hd0. pose proof (pow2_nz s) as Hs0.
      replace (Nat.div2 (2 ^ S s)) with (2 ^ s)%nat by (cbn [Nat.pow]; rewrite Nat.div2_double; reflexivity).
      destruct (Nat.eqb_spec (2 ^ s) 0) as [|_]; [lia|].
      assert (HK : (2 ^ K = 2 ^ s * (2 * 2 ^ d))%nat) by (rewrite <- Hs, Nat.pow_add_r; cbn [Nat.pow]; lia).
      pose proof (pow2_le (S s) K ltac:(lia)) as HSs.
      destruct (bwd_vt_stage_spec (2 ^ d) (2 ^ s) 0 (2 ^ K - 2 ^ S s) [] a ltac:(lia) eq_refl ltac:(lia) Hb ltac:(cbn [Nat.pow] in *; lia))
        as (r0 & E0 & C & B). cbn [app] in E0. unfold bwd_vt_stage. rewrite E0. cbn [bind].
      change (2 * 2 ^ d)%nat with (2 ^ S d)%nat.
      replace (2 ^ K - 2 ^ S s + 2 ^ s)%nat with (2 ^ K - 2 ^ s)%nat by (cbn [Nat.pow] in *; lia).
      assert (Hlen : length r0 = (2 ^ K)%nat).
      { rewrite (lcong_length _ _ _ C), bstage_length; [exact Ha|].
        rewrite slice_length; [lia|]. rewrite zetas_length. cbn [Nat.pow] in *. lia. }
      destruct (IH (S d) f r0 ltac:(lia) ltac:(lia) Hlen B) as (r & E & C' & B').
      exists r. split; [exact E|]. split; [|exact B'].
      rewrite seq_S, map_app. cbn [map Nat.add]. rewrite bchain_snoc. unfold stage_at at 2.
      replace (K - 1 - s)%nat with d by lia. eapply lcong_trans; [exact C'|]. apply bchain_cong. exact C.
  Qed.
  Lemma ntt_backward_vt_chain a : length a = nt_size op -> below (2 * p) a ->
    exists r, ntt_backward_vt op a = Val r /\ lcong p r (lscale (nt_size_inv op) (bchain all_stages a)) /\ below p r.
  Proof.
    intros Ha Hb. unfold ntt_backward_vt. rewrite bind_guard by (apply Nat.eqb_eq; exact Ha).
    rewrite (ok_size _ _ _ Hok) in *. pose proof K_lt_size.
    destruct (bwd_vt_loop_spec K 0 (2 ^ K) a ltac:(lia) ltac:(lia) Ha Hb) as (r & E & C & B).
    rewrite Nat.sub_diag in E. change (2 ^ 0)%nat with 1%nat in E. rewrite E. cbn [bind].
    destruct (scale_size_inv _ _ B C) as (E' & C' & B'). rewrite E'. eexists. split; [reflexivity|]. split; assumption.
  Qed.
End Stages.
