(** The release build on arguments on which the debug build panics: what the transforms compute. *)
From Verif Require Import Outcome OutcomeLemmas NumTheory ZqModel ZqProofs ZqPow NttModel PolySpec PolyRing NttPure NttStages NttProofs ReleaseModel ReleaseSpec ReleaseProofs.
From Coq Require Import Zpow_facts. From Coq Require Import Znumtheory.

Definition rel_r1_ok (r1 : Z -> Z -> Z) : Prop := forall x q, is_u64 x -> 0 < q < W63 -> r1 x q = if x <? q then x else x - q.
Lemma rel_r1_ct : rel_r1_ok rel_reduce1.
Proof.
  intros x q Hx Hq. unfold rel_reduce1. rewrite cond_select_spec by (exact Hx || apply w64_u64).
  destruct (Z.ltb_spec x q); [reflexivity|]. apply w64_id. unfold is_u64 in *. lia.
Qed.
Lemma rel_r1_vt : rel_r1_ok rel_reduce1_vt.
Proof.
  intros x q Hx Hq. unfold rel_reduce1_vt. destruct (Z.leb_spec q x), (Z.ltb_spec x q); try lia. apply w64_id. unfold is_u64 in *. lia.
Qed.
Lemma rel_r1_u64 r1 x q : rel_r1_ok r1 -> is_u64 x -> 0 < q < W63 -> is_u64 (r1 x q).
Proof. intros H Hx Hq. rewrite H by assumption. unfold is_u64 in *. destruct (Z.ltb_spec x q); lia. Qed.

Lemma shifted_length p a : length (shifted p a) = length a.
Proof.
  assert (H : forall n a, (length a <= n)%nat -> length (shifted p a) = length a); [|apply (H (length a)); lia].
  induction n as [|n IH]; intros [|x [|y b]] Hn; try reflexivity; cbn [length] in Hn; [lia|].
  cbn [shifted length]. destruct (2 * p + x <? y); [|destruct (W64 <=? 2 * p + x - y)]; cbn [app length]; rewrite IH by lia; reflexivity.
Qed.

Section Rel.
  Variables (op : ntt_op) (K : nat) (w : Z) (Hok : ntt_ok op K w).
  Notation m := (nt_p op).
  Notation p := (mod_p m).
  Notation n := (nt_size op).

  Lemma p_range : 2 <= p < W62 /\ 0 < p < W63 /\ 0 < 2 * p < W63 /\ W62 * 4 = W64 /\ W63 * 2 = W64.
  Proof. pose proof (p_bounds op K w Hok). assert (W62 * 4 = W64) by reflexivity. assert (W63 * 2 = W64) by reflexivity. lia. Qed.

  Lemma rel_lms v y : 0 <= v < p -> is_u64 y ->
    exists t, rel_lazy_mul_shoup m y v (shoup_of m v) = t /\ 0 <= t < 2 * p /\ cong p t (y * v).
  Proof.
    intros Hv Hy. destruct (lazy_mul_shoup_spec m (ok_m _ _ _ Hok) y v Hy Hv) as (t & E & Ht & Et).
    exists t. split; [apply rel_lazy_mul_shoup_ok; exact E|]. split; [exact Ht|exact Et].
  Qed.
  Lemma rel_ms v y : 0 <= v < p -> is_u64 y -> rel_mul_shoup m y v (shoup_of m v) = (y * v) mod p.
  Proof. intros Hv Hy. apply rel_mul_shoup_ok, mul_shoup_spec; [apply (ok_m _ _ _ Hok)|exact Hy|exact Hv]. Qed.

  Lemma rel_butterfly_spec r1 v : rel_r1_ok r1 -> 0 <= v < p -> forall x y, 0 <= x < W64 -> 0 <= y < W64 ->
    exists x' y', Val (rel_butterfly r1 op x y v (shoup_of m v)) = Val (x', y') /\
      cong p x' (x + v * y) /\ cong p y' (x - v * y) /\ 0 <= x' < W64 /\ 0 <= y' < W64.
  Proof.
    intros Hr1 Hv x y Hx Hy. pose proof p_range as (Hp & Hp1 & Hp2 & HW & HW'). unfold rel_butterfly. rewrite (ok_p2 _ _ _ Hok).
    rewrite Hr1 by assumption. destruct (rel_lms v y Hv Hy) as (t & -> & Ht & Ct).
    assert (Ct' : cong p t (v * y)) by (rewrite Ct; apply cong_eq; ring).
    set (x0 := if x <? 2 * p then x else x - 2 * p).
    assert (H0 : 0 <= x0 /\ x0 + 2 * p < W64 /\ cong p x0 x).
    { unfold x0. destruct (Z.ltb_spec x (2 * p)); (split; [lia|]; split; [lia|]).
      - reflexivity.
      - replace (x - 2 * p) with (x + (-2) * p) by ring. unfold cong. apply Z_mod_plus_full. }
    clearbody x0. destruct H0 as (H0 & H1 & C0). cbv zeta.
    rewrite !w64_id by (unfold is_u64; rewrite ?w64_id by (unfold is_u64; lia); lia).
    eexists _, _. split; [reflexivity|]. split; [|split; [|lia]].
    - rewrite C0, Ct'. reflexivity.
    - transitivity (x0 - t); [|rewrite C0, Ct'; reflexivity]. unfold cong.
      replace (x0 + 2 * p - t) with (x0 - t + 2 * p) by ring. apply Z_mod_plus_full.
  Qed.
  Lemma rel_r1_cong r1 x q k : rel_r1_ok r1 -> is_u64 x -> 0 < q < W63 -> q = k * p -> cong p (r1 x q) x.
  Proof.
    intros H Hx Hq ->. rewrite H by assumption. destruct (x <? k * p); [reflexivity|].
    replace (x - k * p) with (x + (- k) * p) by ring. unfold cong. apply Z_mod_plus_full.
  Qed.
  Lemma rel_reduce3_spec x : is_u64 x -> is_u64 (rel_reduce3 op x) /\ cong p (rel_reduce3 op x) x.
  Proof.
    intros Hx. pose proof p_range as (Hp & Hp1 & Hp2 & _). unfold rel_reduce3. rewrite (ok_p2 _ _ _ Hok).
    assert (H : is_u64 (rel_reduce1 x (2 * p))) by (apply rel_r1_u64; [exact rel_r1_ct|exact Hx|exact Hp2]).
    split; [apply rel_r1_u64; [exact rel_r1_ct|exact H|exact Hp1]|].
    rewrite (rel_r1_cong _ _ p 1 rel_r1_ct H Hp1 ltac:(ring)). apply (rel_r1_cong _ _ _ 2 rel_r1_ct Hx Hp2 eq_refl).
  Qed.
  Lemma rel_reduce3_vt_spec x : is_u64 x -> is_u64 (rel_reduce3_vt op x) /\ cong p (rel_reduce3_vt op x) x.
  Proof.
    intros Hx. pose proof p_range as (Hp & Hp1 & Hp2 & _). unfold rel_reduce3_vt. rewrite (ok_p2 _ _ _ Hok).
    assert (H : is_u64 (rel_reduce1_vt x (2 * p))) by (apply rel_r1_u64; [exact rel_r1_vt|exact Hx|exact Hp2]).
    split; [apply rel_r1_u64; [exact rel_r1_vt|exact H|exact Hp1]|].
    rewrite (rel_r1_cong _ _ p 1 rel_r1_vt H Hp1 ltac:(ring)). apply (rel_r1_cong _ _ _ 2 rel_r1_vt Hx Hp2 eq_refl).
  Qed.

  (** ** Forward *)
  Lemma rel_fwd_chunk_spec l v c : (0 < l)%nat -> 0 <= v < p -> length c = (2 * l)%nat -> below W64 c ->
    exists r, rel_fwd_chunk op l v (shoup_of m v) c = Val r /\ lcong p r (fstage l [v] c) /\ below W64 r.
  Proof.
    intros Hl Hv Hc Hb. destruct (chunk_split l c Hc) as (H1 & H2 & E). destruct (below_split _ l _ Hb) as (B1 & B2).
    unfold rel_fwd_chunk. rewrite bind_guard by (apply Nat.leb_le; lia).
    replace (fstage l [v] c) with (fstage l [v] (firstn l c ++ skipn l c)) by (rewrite E; reflexivity). rewrite fstage_one by assumption.
    set (L := firstn l c) in *. set (R := skipn l c) in *. clearbody L R. clear E c Hc Hb.
    destruct (Nat.eqb_spec l 1) as [->|Hl1].
    - destruct L as [|x [|]]; try discriminate. destruct R as [|y [|]]; try discriminate.
      inversion B1; inversion B2; subst.
      destruct (rel_butterfly_spec rel_reduce1 v rel_r1_ct Hv x y ltac:(assumption) ltac:(assumption)) as (x' & y' & E & C1 & C2 & R1 & R2).
      apply val_inj in E. rewrite E. destruct (rel_reduce3_spec x' R1) as (U1 & D1). destruct (rel_reduce3_spec y' R2) as (U2 & D2).
      eexists. split; [reflexivity|]. cbn [app zipWith]. split.
      + constructor; [rewrite D1; exact C1|]. constructor; [rewrite D2; exact C2|constructor].
      + constructor; [exact U1|]. constructor; [exact U2|constructor].
    - destruct (map2M_pairs p _ _ _ _ _ (rel_butterfly_spec rel_reduce1 v rel_r1_ct Hv) L R ltac:(lia) B1 B2)
        as (xy & E & _ & C1 & C2 & R1 & R2). rewrite E. cbn [bind].
      eexists. split; [reflexivity|]. split; [apply lcong_app; assumption|apply below_app; split; assumption].
  Qed.
  Lemma rel_fwd_chunks_spec l cs : forall k, (0 < l)%nat -> Forall (fun c => length c = (2 * l)%nat) cs -> below W64 (concat cs) ->
    (k + length cs <= 2 ^ K)%nat ->
    exists rs, rel_fwd_chunks op l k cs = Val (rs, (k + length cs)%nat) /\
      lcong p (concat rs) (fstage l (slice k (length cs) (nt_omegas op)) (concat cs)) /\ below W64 (concat rs).
  Proof.
    induction cs as [|c cs IH]; intros k Hl Hs Hb Hk.
    - exists []. cbn [rel_fwd_chunks length concat]. rewrite Nat.add_0_r. repeat split; constructor.
    - inversion Hs as [|? ? Hc Hs']; subst. cbn [concat length] in *. apply below_app in Hb. destruct Hb as (Hb1 & Hb2).
      cbn [rel_fwd_chunks]. destruct (get_omega op K w Hok k ltac:(lia)) as (v & -> & -> & Ev & Hv). cbn [bind].
      destruct (rel_fwd_chunk_spec l v c Hl Hv Hc Hb1) as (r & -> & C & B). cbn [bind].
      destruct (IH (S k) Hl Hs' Hb2 ltac:(lia)) as (rs & -> & D & B'). cbn [bind].
      exists (r :: rs). split; [rewrite Nat.add_succ_comm; reflexivity|]. cbn [concat].
      rewrite slice_cons by (rewrite (omegas_length op K w Hok); lia). rewrite <- Ev.
      rewrite fstage_app by exact Hc. split; [apply lcong_app|apply below_app; split]; assumption.
  Qed.
  Lemma rel_fwd_loop_spec d : forall s f a, (s + S d = K)%nat -> (d < f)%nat -> length a = (2 ^ K)%nat -> below W64 a ->
    exists r, rel_fwd_loop f op (2 ^ d) (2 ^ s) a = Val r /\ lcong p r (fchain (map (stage_at op K) (seq s (S d))) a) /\ below W64 r.
  Proof.
    induction d as [|d IH]; intros s f a Hs Hf Ha Hb; (destruct f as [|f]; [lia|]); cbn [rel_fwd_loop].
    - change (2 ^ 0)%nat with 1%nat. cbn [Nat.eqb].
      assert (HK : (2 ^ K = 2 ^ s * (2 * 1))%nat) by (rewrite <- Hs, Nat.pow_add_r; reflexivity).
      destruct (as_chunks_exact 1 (2 ^ s) a ltac:(lia) ltac:(lia)) as (cs & -> & Hl & Hcs & Ec).
      destruct (rel_fwd_chunks_spec 1 cs (2 ^ s) ltac:(lia) Hcs ltac:(rewrite Ec; exact Hb) ltac:(lia)) as (rs & -> & C & B).
      cbn [bind]. change (Nat.div2 1) with 0%nat.
      exists (concat rs). split; [destruct f; cbn [rel_fwd_loop Nat.eqb]; rewrite app_nil_r; reflexivity|].
      split; [|exact B]. cbn [seq map fchain stage_at]. replace (K - 1 - s)%nat with 0%nat by lia. change (2 ^ 0)%nat with 1%nat.
      rewrite Hl, Ec in C. exact C.
    - pose proof (pow2_nz (S d)). destruct (Nat.eqb_spec (2 ^ S d) 0) as [|_]; [lia|].
      assert (HK : (2 ^ K = 2 ^ s * (2 * 2 ^ S d))%nat) by (rewrite <- Hs, Nat.pow_add_r; reflexivity).
      destruct (as_chunks_exact (2 ^ S d) (2 ^ s) a ltac:(lia) ltac:(lia)) as (cs & -> & Hl & Hcs & Ec).
      destruct (rel_fwd_chunks_spec (2 ^ S d) cs (2 ^ s) ltac:(lia) Hcs ltac:(rewrite Ec; exact Hb)) as (rs & -> & C & B).
      { rewrite Hl. pose proof (pow2_le (S s) K ltac:(lia)) as HH. cbn [Nat.pow] in HH. lia. }
      cbn [bind]. rewrite app_nil_r.
      replace (Nat.div2 (2 ^ S d)) with (2 ^ d)%nat by (cbn [Nat.pow]; rewrite Nat.div2_double; reflexivity).
      replace (2 ^ s + length cs)%nat with (2 ^ S s)%nat by (cbn [Nat.pow]; lia).
      rewrite Hl, Ec in C.
      assert (Hlen : length (concat rs) = (2 ^ K)%nat).
      { rewrite (lcong_length _ _ _ C), fstage_length; [exact Ha|].
        rewrite slice_length; [lia|]. rewrite (omegas_length op K w Hok). pose proof (pow2_le (S s) K ltac:(lia)) as HH. cbn [Nat.pow] in HH. lia. }
      destruct (IH (S s) f (concat rs) ltac:(lia) ltac:(lia) Hlen B) as (r & E & C' & B').
      exists r. split; [exact E|]. split; [|exact B'].
      change (seq s (S (S d))) with (s :: seq (S s) (S d)). cbn [map fchain]. unfold stage_at at 1.
      replace (K - 1 - s)%nat with (S d) by lia.
      eapply lcong_trans; [exact C'|]. apply fchain_cong. exact C.
  Qed.
  Lemma rel_forward_spec a : length a = n -> Forall is_u64 a ->
    exists r, rel_forward op a = Val r /\ rmod p r = NTT op a /\ Forall is_u64 r /\ length r = n.
  Proof.
    intros Ha Hb. unfold rel_forward. rewrite (half_size op K w Hok).
    pose proof Ha as Ha'. rewrite (ok_size _ _ _ Hok) in Ha' |- *. pose proof (K_pos op K w Hok). pose proof (K_lt_size K).
    destruct (rel_fwd_loop_spec (K - 1) 0 (2 ^ K) a ltac:(lia) ltac:(lia) Ha' Hb) as (r & E & C & B).
    exists r. split; [exact E|]. replace (S (K - 1)) with K in C by lia.
    assert (EN : rmod p r = NTT op a) by (apply rmod_lcong; rewrite (log2_size op K w Hok); exact C).
    split; [exact EN|]. split; [exact B|]. rewrite <- (ok_size _ _ _ Hok), <- (rmod_length p), EN. apply (NTT_length op K w Hok). exact Ha.
  Qed.

  (** ** Backward *)
  Lemma rel_inv_any r1 v : rel_r1_ok r1 -> 0 <= v < p -> forall x y, 0 <= x < W64 -> 0 <= y < W64 ->
    exists x' y', Val (rel_inv_butterfly r1 op x y v (shoup_of m v)) = Val (x', y') /\
      cong 1 x' (x + y) /\ cong 1 y' ((x - y) * v) /\ 0 <= x' < W64 /\ 0 <= y' < W64.
  Proof.
    intros Hr1 Hv x y Hx Hy. pose proof p_range as (Hp & Hp1 & Hp2 & HW & _). unfold rel_inv_butterfly. rewrite (ok_p2 _ _ _ Hok).
    destruct (rel_lms v (w64 (w64 (2 * p + x) - y)) Hv (w64_u64 _)) as (t & -> & Ht & _).
    pose proof (rel_r1_u64 r1 (w64 (y + x)) (2 * p) Hr1 (w64_u64 _) Hp2) as HU. unfold is_u64 in HU.
    eexists _, _. split; [reflexivity|]. split; [unfold cong; rewrite !Z.mod_1_r; reflexivity|]. split; [unfold cong; rewrite !Z.mod_1_r; reflexivity|]. lia.
  Qed.
  Definition wrap2 x y := if 2 * p + x <? y then W64 else if W64 <=? 2 * p + x - y then - W64 else 0.
  Lemma rel_inv_first r1 v : rel_r1_ok r1 -> 0 <= v < p -> forall x y, 0 <= x -> 0 <= y -> x + y < 4 * p ->
    exists x' y', rel_inv_butterfly r1 op x y v (shoup_of m v) = (x', y') /\
      cong p x' (x + y) /\ cong p y' ((x - y + wrap2 x y) * v) /\ 0 <= x' < 2 * p /\ 0 <= y' < 2 * p.
  Proof.
    intros Hr1 Hv x y Hx Hy Hxy. pose proof p_range as (Hp & Hp1 & Hp2 & HW & _). unfold rel_inv_butterfly. rewrite (ok_p2 _ _ _ Hok).
    destruct (rel_lms v (w64 (w64 (2 * p + x) - y)) Hv (w64_u64 _)) as (t & -> & Ht & Ct).
    rewrite (w64_id (y + x)) by (unfold is_u64; lia).
    assert (Hu : is_u64 (y + x)) by (unfold is_u64; lia).
    eexists _, _. split; [reflexivity|]. split; [|split; [|split; [|exact Ht]]].
    - rewrite (rel_r1_cong r1 _ _ 2 Hr1 Hu Hp2 eq_refl). apply cong_eq. ring.
    - rewrite Ct. unfold cong.
      assert (Ew : exists k, w64 (w64 (2 * p + x) - y) = (x - y + wrap2 x y) + k * p).
      { exists 2. unfold w64. rewrite Zminus_mod_idemp_l. unfold wrap2. destruct (Z.ltb_spec (2 * p + x) y) as [H|H].
        - replace (2 * p + x - y) with (2 * p + x - y + W64 + (-1) * W64) by ring. rewrite Z_mod_plus_full, Z.mod_small; lia.
        - destruct (Z.leb_spec W64 (2 * p + x - y)) as [H'|H'].
          + replace (2 * p + x - y) with (2 * p + x - y - W64 + 1 * W64) at 1 by ring. rewrite Z_mod_plus_full, Z.mod_small; lia.
          + rewrite Z.mod_small; lia. }
      destruct Ew as (k & ->). rewrite Z.mul_add_distr_r. replace (k * p * v) with (k * v * p) by ring. apply Z_mod_plus_full.
    - rewrite Hr1 by assumption. destruct (Z.ltb_spec (y + x) (2 * p)); lia.
  Qed.

  Lemma rel_bwd_chunk_any l v c : (0 < l)%nat -> 0 <= v < p -> length c = (2 * l)%nat -> below W64 c ->
    exists r, rel_bwd_chunk op l v (shoup_of m v) c = Val r /\ length r = length c /\ below W64 r.
  Proof.
    intros Hl Hv Hc Hb. destruct (chunk_split l c Hc) as (H1 & H2 & E). destruct (below_split _ l _ Hb) as (B1 & B2).
    unfold rel_bwd_chunk. rewrite bind_guard by (apply Nat.leb_le; lia). rewrite Hc.
    set (L := firstn l c) in *. set (R := skipn l c) in *. clearbody L R. clear E c Hc Hb.
    destruct (Nat.eqb_spec l 1) as [->|Hl1].
    - destruct L as [|x [|]]; try discriminate. destruct R as [|y [|]]; try discriminate.
      inversion B1; inversion B2; subst.
      destruct (rel_inv_any rel_reduce1 v rel_r1_ct Hv x y ltac:(assumption) ltac:(assumption)) as (x' & y' & E & _ & _ & R1 & R2).
      apply val_inj in E. rewrite E. eexists. split; [reflexivity|]. split; [reflexivity|]. constructor; [exact R1|]. constructor; [exact R2|constructor].
    - destruct (map2M_pairs 1 _ _ _ _ _ (rel_inv_any rel_reduce1 v rel_r1_ct Hv) L R ltac:(lia) B1 B2)
        as (xy & E & Hxy & _ & _ & R1 & R2). rewrite E. cbn [bind].
      eexists. split; [reflexivity|]. split; [rewrite app_length, !map_length; lia|apply below_app; split; assumption].
  Qed.
  Lemma rel_bwd_chunks_any l cs : forall k, (0 < l)%nat -> Forall (fun c => length c = (2 * l)%nat) cs -> below W64 (concat cs) ->
    (k + length cs <= 2 ^ K)%nat ->
    exists rs, rel_bwd_chunks op l k cs = Val (rs, (k + length cs)%nat) /\ length (concat rs) = length (concat cs) /\ below W64 (concat rs).
  Proof.
    induction cs as [|c cs IH]; intros k Hl Hs Hb Hk.
    - exists []. cbn [rel_bwd_chunks length concat]. rewrite Nat.add_0_r. repeat split; constructor.
    - inversion Hs as [|? ? Hc Hs']; subst. cbn [concat length] in *. apply below_app in Hb. destruct Hb as (Hb1 & Hb2).
      cbn [rel_bwd_chunks]. destruct (get_zeta op K w Hok k ltac:(lia)) as (v & -> & -> & Ev & Hv). cbn [bind].
      destruct (rel_bwd_chunk_any l v c Hl Hv Hc Hb1) as (r & -> & C & B). cbn [bind].
      destruct (IH (S k) Hl Hs' Hb2 ltac:(lia)) as (rs & -> & D & B'). cbn [bind].
      exists (r :: rs). split; [rewrite Nat.add_succ_comm; reflexivity|]. cbn [concat]. rewrite !app_length.
      split; [lia|apply below_app; split; assumption].
  Qed.
  Lemma rel_bwd_loop_any s : forall d f a, (s + d = K)%nat -> (s <= f)%nat -> length a = (2 ^ K)%nat -> below W64 a ->
    exists r, rel_bwd_loop f op (2 ^ d) (2 ^ K - 2 ^ s) a = Val r /\ length r = (2 ^ K)%nat /\ below W64 r.
  Proof.
    induction s as [|s IH]; intros d f a Hs Hf Ha Hb.
    - exists a. cbn [Nat.add] in Hs. subst d. split; [|split; [exact Ha|exact Hb]].
      assert (E : Nat.ltb (2 ^ K) (nt_size op) = false) by (rewrite (ok_size _ _ _ Hok); apply Nat.ltb_irrefl).
      destruct f; cbn [rel_bwd_loop]; rewrite E; reflexivity.
    - destruct f as [|f]; [lia|]. cbn [rel_bwd_loop].
      pose proof (pow2_nz d) as Hd0. pose proof (pow2_nz s) as Hs0.
      assert (HK : (2 ^ K = 2 ^ s * (2 * 2 ^ d))%nat) by (rewrite <- Hs, Nat.pow_add_r; cbn [Nat.pow]; lia).
      assert (Hlt : Nat.ltb (2 ^ d) (nt_size op) = true) by (rewrite (ok_size _ _ _ Hok); apply Nat.ltb_lt; rewrite HK; nia).
      rewrite Hlt. cbn [negb].
      pose proof (pow2_le (S s) K ltac:(lia)) as HSs.
      destruct (as_chunks_exact (2 ^ d) (2 ^ s) a ltac:(lia) ltac:(lia)) as (cs & -> & Hl & Hcs & Ec).
      destruct (rel_bwd_chunks_any (2 ^ d) cs (2 ^ K - 2 ^ S s) ltac:(lia) Hcs ltac:(rewrite Ec; exact Hb)) as (rs & -> & C & B).
      { rewrite Hl. cbn [Nat.pow] in *. lia. }
      cbn [bind]. rewrite app_nil_r. change (2 * 2 ^ d)%nat with (2 ^ S d)%nat.
      replace (2 ^ K - 2 ^ S s + length cs)%nat with (2 ^ K - 2 ^ s)%nat by (cbn [Nat.pow] in *; lia).
      rewrite Ec, Ha in C. apply (IH (S d) f (concat rs) ltac:(lia) ltac:(lia) C B).
  Qed.
  Lemma rel_scale a : Forall is_u64 a ->
    map (fun ai => rel_mul_shoup m ai (nt_size_inv op) (nt_size_inv_shoup op)) a = map (fun x => (x * nt_size_inv op) mod p) a.
  Proof.
    intros Ha. apply map_ext_in. intros x Hx. rewrite Forall_forall in Ha. rewrite (ok_sis _ _ _ Hok).
    apply rel_ms; [apply (ok_si _ _ _ Hok)|apply Ha; exact Hx].
  Qed.
  Lemma rel_backward_any a : length a = n -> Forall is_u64 a -> exists r, rel_backward op a = Val r /\ length r = n /\ canonical p r.
  Proof.
    intros Ha Hb. unfold rel_backward. rewrite (ok_size _ _ _ Hok) in *. pose proof (K_lt_size K).
    destruct (rel_bwd_loop_any K 0 (2 ^ K) a ltac:(lia) ltac:(lia) Ha Hb) as (r & E & L & B).
    rewrite Nat.sub_diag in E. change (2 ^ 0)%nat with 1%nat in E. rewrite E. cbn [bind]. eexists. split; [reflexivity|].
    rewrite (rel_scale r B). split; [rewrite map_length; exact L|]. apply Forall_map, Forall_forall. intros x _. apply Z.mod_pos_bound.
    pose proof p_range. lia.
  Qed.

  (** The first stage. *)
  Lemma rel_bwd_first cs : forall k, Forall (fun c => length c = 2%nat) cs -> small_pairs p (concat cs) -> (k + length cs <= 2 ^ K)%nat ->
    exists rs, rel_bwd_chunks op 1 k cs = Val (rs, (k + length cs)%nat) /\
      lcong p (concat rs) (bstage 1 (slice k (length cs) (nt_zetas_inv op)) (shifted p (concat cs))) /\ below (2 * p) (concat rs).
  Proof.
    induction cs as [|c cs IH]; intros k Hs Hb Hk.
    - exists []. cbn [rel_bwd_chunks length concat]. rewrite Nat.add_0_r. repeat split; constructor.
    - inversion Hs as [|? ? Hc Hs']; subst. destruct c as [|x [|y [|]]]; try discriminate. cbn [concat length app] in *.
      cbn [small_pairs] in Hb. destruct Hb as (Hx & Hy & Hxy & Hb).
      cbn [rel_bwd_chunks]. destruct (get_zeta op K w Hok k ltac:(lia)) as (v & -> & -> & Ev & Hv). cbn [bind].
      unfold rel_bwd_chunk at 1. cbn [length Nat.leb]. rewrite bind_guard by reflexivity. cbn [firstn skipn Nat.eqb].
      destruct (rel_inv_first rel_reduce1 v rel_r1_ct Hv x y Hx Hy Hxy) as (x' & y' & -> & C1 & C2 & R1 & R2). cbn [bind app].
      destruct (IH (S k) Hs' Hb ltac:(lia)) as (rs & -> & D & B'). cbn [bind].
      exists ([x'; y'] :: rs). split; [rewrite Nat.add_succ_comm; reflexivity|]. cbn [concat app].
      rewrite slice_cons by (rewrite (zetas_length op K w Hok); lia). rewrite <- Ev. cbn [shifted].
      split; [|constructor; [exact R1|]; constructor; [exact R2|exact B']].
      unfold wrap2 in C2. destruct (2 * p + x <? y); [|destruct (W64 <=? 2 * p + x - y)].
      + rewrite bstage_app by reflexivity. change [x + W63; y - W63] with ([x + W63] ++ [y - W63]). rewrite bstage_one by reflexivity.
        cbn [zipWith app]. constructor; [rewrite C1; apply cong_eq; ring|]. constructor; [|exact D].
        rewrite C2. apply cong_eq. change W64 with (W63 + W63). ring.
      + rewrite bstage_app by reflexivity. change [x - W63; y + W63] with ([x - W63] ++ [y + W63]). rewrite bstage_one by reflexivity.
        cbn [zipWith app]. constructor; [rewrite C1; apply cong_eq; ring|]. constructor; [|exact D].
        rewrite C2. apply cong_eq. change W64 with (W63 + W63). ring.
      + rewrite bstage_app by reflexivity. change [x; y] with ([x] ++ [y]). rewrite bstage_one by reflexivity.
        cbn [zipWith app]. constructor; [rewrite C1; apply cong_eq; ring|]. constructor; [|exact D].
        rewrite C2. apply cong_eq. ring.
  Qed.
  Lemma rel_backward_spec a : length a = n -> small_pairs p a -> rel_backward op a = Val (INTT op (shifted p a)).
  Proof.
    intros Ha Hb. pose proof Ha as Ha'. unfold rel_backward. rewrite (ok_size _ _ _ Hok) in Ha' |- *.
    pose proof (K_lt_size K) as HK. pose proof (K_pos op K w Hok) as HK0. destruct K as [|k] eqn:EK; [lia|]. rewrite <- EK in *.
    destruct (2 ^ K)%nat as [|f] eqn:Ef; [lia|]. rewrite <- Ef in Ha'. cbn [rel_bwd_loop].
    assert (Hlt : Nat.ltb 1 (nt_size op) = true).
    { rewrite (ok_size _ _ _ Hok). apply Nat.ltb_lt. pose proof (pow2_le 1 K ltac:(lia)) as H. cbn in H. lia. }
    rewrite Hlt. cbn [negb].
    assert (H2 : (2 ^ K = 2 ^ k * (2 * 1))%nat) by (rewrite EK; cbn [Nat.pow]; lia).
    destruct (as_chunks_exact 1 (2 ^ k) a ltac:(lia) ltac:(lia)) as (cs & -> & Hl & Hcs & Ec).
    destruct (rel_bwd_first cs 0 Hcs ltac:(rewrite Ec; exact Hb) ltac:(lia)) as (rs & -> & C & B). cbn [bind]. rewrite app_nil_r.
    rewrite Hl, Ec in C.
    assert (Hlen : length (concat rs) = (2 ^ K)%nat).
    { rewrite (lcong_length _ _ _ C), bstage_length; [rewrite shifted_length; exact Ha'|].
      rewrite slice_length; [rewrite shifted_length; lia|]. rewrite (zetas_length op K w Hok). lia. }
    destruct (bwd_loop_spec op K w Hok k 1 f (concat rs) ltac:(lia) ltac:(lia) Hlen B) as (r & E & C' & B').
    replace (0 + length cs)%nat with (2 ^ K - 2 ^ k)%nat by lia. change (2 * 1)%nat with (2 ^ 1)%nat.
    rewrite (rel_bwd_loop_ok _ _ _ _ _ _ E). cbn [bind]. f_equal.
    assert (Hu : Forall is_u64 r). { eapply Forall_impl; [|exact B']. cbv beta. intros x Hx. pose proof (p_bounds op K w Hok). unfold is_u64. lia. }
    rewrite (rel_scale r Hu). unfold INTT. rewrite (log2_size op K w Hok).
    assert (CC : lcong p r (bchain (all_stages op K) (shifted p a))).
    { assert (Es : seq 0 K = seq 0 k ++ [k]) by (rewrite EK; apply seq_S).
      unfold all_stages. rewrite Es, map_app. cbn [map]. rewrite bchain_snoc. unfold stage_at at 2.
      replace (K - 1 - k)%nat with 0%nat by lia. replace (2 ^ K - 2 ^ S k)%nat with 0%nat by (rewrite EK, Nat.sub_diag; reflexivity). change (2 ^ 0)%nat with 1%nat.
      eapply lcong_trans; [exact C'|]. apply bchain_cong. exact C. }
    clear - CC. induction CC as [|x y r b H _ IH]; [reflexivity|]. cbn [map lscale]. f_equal; [|exact IH].
    rewrite Z.mul_comm. apply (cong_mul p); [reflexivity|exact H].
  Qed.

  (** ** Variable time *)
  Lemma rel_fwd_vt_stage_spec l q : forall i0 k pre a, (0 < l)%nat -> length pre = (2 * i0 * l)%nat -> length a = (q * (2 * l))%nat ->
    below W64 a -> (k + q <= 2 ^ K)%nat ->
    exists r, foldM (rel_fwd_vt_block op l) (seq i0 q) (k, pre ++ a) = Val ((k + q)%nat, pre ++ r) /\
      lcong p r (fstage l (slice k q (nt_omegas op)) a) /\ below W64 r.
  Proof.
    induction q as [|q IH]; intros i0 k pre a Hl Hpre Ha Hb Hk.
    - destruct a; [|cbn in Ha; lia]. exists []. cbn [seq foldM]. rewrite Nat.add_0_r. repeat split; constructor.
    - destruct (split3 l _ a Ha) as (L & R & rest & -> & HL & HR & Hr).
      apply below_app in Hb. destruct Hb as (B1 & Hb). apply below_app in Hb. destruct Hb as (B2 & B3).
      cbn [seq foldM]. unfold rel_fwd_vt_block at 1. destruct (get_omega op K w Hok k ltac:(lia)) as (v & -> & -> & Ev & Hv). cbn [bind].
      rewrite <- Hpre. replace (pre ++ L ++ R ++ rest) with (pre ++ L ++ [] ++ R ++ rest) by reflexivity.
      pose proof (at_pairs (fun x y => Val (rel_butterfly rel_reduce1_vt op x y v (shoup_of m v))) L R pre [] rest l ltac:(lia) ltac:(cbn; lia) ltac:(lia)) as AP.
      rewrite HL in AP. rewrite AP. clear AP.
      destruct (map2M_pairs p _ _ _ _ _ (rel_butterfly_spec rel_reduce1_vt v rel_r1_vt Hv) L R ltac:(lia) B1 B2)
        as (xy & E & Hxy & C1 & C2 & R1 & R2). rewrite E. cbn [bind app].
      destruct (IH (S i0) (S k) (pre ++ map fst xy ++ map snd xy) rest Hl) as (r & E' & C & B).
      { rewrite !app_length, !map_length. lia. } { exact Hr. } { exact B3. } { lia. }
      rewrite <- !app_assoc in E'. rewrite E'. exists (map fst xy ++ map snd xy ++ r).
      split; [rewrite <- Nat.add_succ_comm; rewrite ?app_assoc; reflexivity|].
      rewrite slice_cons by (rewrite (omegas_length op K w Hok); lia). rewrite <- Ev, fstage_cons by assumption.
      split; [repeat apply lcong_app; assumption|]. rewrite !below_app. repeat split; assumption.
  Qed.
  Lemma rel_fwd_vt_loop_spec d : forall s f a, (s + S d = K)%nat -> (d < f)%nat -> length a = (2 ^ K)%nat -> below W64 a ->
    exists r, rel_fwd_vt_loop f op (2 ^ d) (2 ^ s) (2 ^ s) a = Val r /\ lcong p r (fchain (map (stage_at op K) (seq s (S d))) a) /\ below W64 r.
  Proof.
    induction d as [|d IH]; intros s f a Hs Hf Ha Hb; (destruct f as [|f]; [lia|]); cbn [rel_fwd_vt_loop].
    - change (2 ^ 0)%nat with 1%nat. cbn [Nat.eqb].
      assert (HK : (2 ^ K = 2 ^ s * (2 * 1))%nat) by (rewrite <- Hs, Nat.pow_add_r; reflexivity).
      destruct (rel_fwd_vt_stage_spec 1 (2 ^ s) 0 (2 ^ s) [] a ltac:(lia) eq_refl ltac:(lia) Hb ltac:(lia)) as (r & E & C & B).
      cbn [app] in E. rewrite E. cbn [bind]. change (Nat.div2 1) with 0%nat.
      exists r. split; [destruct f; cbn [rel_fwd_vt_loop Nat.eqb]; reflexivity|].
      split; [|exact B]. cbn [seq map fchain stage_at]. replace (K - 1 - s)%nat with 0%nat by lia. exact C.
    - pose proof (pow2_nz (S d)). destruct (Nat.eqb_spec (2 ^ S d) 0) as [|_]; [lia|].
      assert (HK : (2 ^ K = 2 ^ s * (2 * 2 ^ S d))%nat) by (rewrite <- Hs, Nat.pow_add_r; reflexivity).
      assert (H2 : (2 ^ s + 2 ^ s <= 2 ^ K)%nat) by (pose proof (pow2_le (S s) K ltac:(lia)) as HH; cbn [Nat.pow] in HH; lia).
      destruct (rel_fwd_vt_stage_spec (2 ^ S d) (2 ^ s) 0 (2 ^ s) [] a ltac:(lia) eq_refl ltac:(lia) Hb H2) as (r0 & E0 & C & B).
      cbn [app] in E0. rewrite E0. cbn [bind].
      replace (Nat.div2 (2 ^ S d)) with (2 ^ d)%nat by (cbn [Nat.pow]; rewrite Nat.div2_double; reflexivity).
      replace (2 ^ s + 2 ^ s)%nat with (2 ^ S s)%nat by (cbn [Nat.pow]; lia).
      change (2 * 2 ^ s)%nat with (2 ^ S s)%nat.
      assert (Hlen : length r0 = (2 ^ K)%nat).
      { rewrite (lcong_length _ _ _ C), fstage_length; [exact Ha|]. rewrite slice_length; [lia|]. rewrite (omegas_length op K w Hok). lia. }
      destruct (IH (S s) f r0 ltac:(lia) ltac:(lia) Hlen B) as (r & E & C' & B').
      exists r. split; [exact E|]. split; [|exact B'].
      change (seq s (S (S d))) with (s :: seq (S s) (S d)). cbn [map fchain]. unfold stage_at at 1.
      replace (K - 1 - s)%nat with (S d) by lia.
      eapply lcong_trans; [exact C'|]. apply fchain_cong. exact C.
  Qed.
  Lemma rel_forward_vt_lazy_spec a : length a = n -> Forall is_u64 a ->
    exists r, rel_forward_vt_lazy op a = Val r /\ rmod p r = NTT op a /\ Forall is_u64 r /\ length r = n.
  Proof.
    intros Ha Hb. unfold rel_forward_vt_lazy. rewrite bind_guard by (apply Nat.eqb_eq; exact Ha). rewrite (half_size op K w Hok).
    pose proof Ha as Ha'. rewrite (ok_size _ _ _ Hok) in Ha' |- *. pose proof (K_pos op K w Hok). pose proof (K_lt_size K).
    destruct (rel_fwd_vt_loop_spec (K - 1) 0 (2 ^ K) a ltac:(lia) ltac:(lia) Ha' Hb) as (r & E & C & B).
    exists r. split; [exact E|]. replace (S (K - 1)) with K in C by lia.
    assert (EN : rmod p r = NTT op a) by (apply rmod_lcong; rewrite (log2_size op K w Hok); exact C).
    split; [exact EN|]. split; [exact B|]. rewrite <- (ok_size _ _ _ Hok), <- (rmod_length p), EN. apply (NTT_length op K w Hok). exact Ha.
  Qed.
  Lemma rel_forward_vt_spec a : length a = n -> Forall is_u64 a ->
    exists r, rel_forward_vt op a = Val r /\ rmod p r = NTT op a /\ Forall is_u64 r /\ length r = n.
  Proof.
    intros Ha Hb. destruct (rel_forward_vt_lazy_spec a Ha Hb) as (r & E & EN & B & L). unfold rel_forward_vt. rewrite E. cbn [bind].
    eexists. split; [reflexivity|]. split; [|split; [|rewrite map_length; exact L]].
    - rewrite <- EN. apply rmod_lcong. clear - B Hok. induction B as [|x r Hx _ IH]; constructor; [|exact IH]. apply rel_reduce3_vt_spec. exact Hx.
    - apply Forall_map. eapply Forall_impl; [|exact B]. intros x Hx. apply rel_reduce3_vt_spec. exact Hx.
  Qed.

  Lemma rel_bwd_vt_stage_any l q : forall i0 k pre a, (0 < l)%nat -> length pre = (2 * i0 * l)%nat -> length a = (q * (2 * l))%nat ->
    below W64 a -> (k + q <= 2 ^ K)%nat ->
    exists r, foldM (rel_bwd_vt_block op l) (seq i0 q) (k, pre ++ a) = Val ((k + q)%nat, pre ++ r) /\ length r = length a /\ below W64 r.
  Proof.
    induction q as [|q IH]; intros i0 k pre a Hl Hpre Ha Hb Hk.
    - destruct a; [|cbn in Ha; lia]. exists []. cbn [seq foldM]. rewrite Nat.add_0_r. repeat split; constructor.
    - destruct (split3 l _ a Ha) as (L & R & rest & -> & HL & HR & Hr).
      apply below_app in Hb. destruct Hb as (B1 & Hb). apply below_app in Hb. destruct Hb as (B2 & B3).
      cbn [seq foldM]. unfold rel_bwd_vt_block at 1. cbv zeta. destruct (get_zeta op K w Hok k ltac:(lia)) as (v & -> & -> & Ev & Hv). cbn [bind].
      rewrite <- Hpre. replace (pre ++ L ++ R ++ rest) with (pre ++ L ++ [] ++ R ++ rest) by reflexivity.
      pose proof (at_pairs (fun x y => Val (rel_inv_butterfly rel_reduce1_vt op x y v (shoup_of m v))) L R pre [] rest l ltac:(lia) ltac:(cbn; lia) ltac:(lia)) as AP.
      rewrite HL in AP. rewrite AP. clear AP.
      destruct (map2M_pairs 1 _ _ _ _ _ (rel_inv_any rel_reduce1_vt v rel_r1_vt Hv) L R ltac:(lia) B1 B2)
        as (xy & E & Hxy & C1 & C2 & R1 & R2). rewrite E. cbn [bind app].
      destruct (IH (S i0) (S k) (pre ++ map fst xy ++ map snd xy) rest Hl) as (r & E' & C & B).
      { rewrite !app_length, !map_length. lia. } { exact Hr. } { exact B3. } { lia. }
      rewrite <- !app_assoc in E'. rewrite E'. exists (map fst xy ++ map snd xy ++ r).
      split; [rewrite <- Nat.add_succ_comm; rewrite ?app_assoc; reflexivity|].
      split; [rewrite !app_length, !map_length; lia|]. rewrite !below_app. repeat split; assumption.
  Qed.
  Lemma rel_bwd_vt_loop_any s : forall d f a, (s + d = K)%nat -> (s <= f)%nat -> length a = (2 ^ K)%nat -> below W64 a ->
    exists r, rel_bwd_vt_loop f op (2 ^ d) (Nat.div2 (2 ^ s)) (2 ^ K - 2 ^ s) a = Val r /\ length r = (2 ^ K)%nat /\ below W64 r.
  Proof.
    induction s as [|s IH]; intros d f a Hs Hf Ha Hb.
    - exists a. change (Nat.div2 (2 ^ 0)) with 0%nat. split; [destruct f; reflexivity|split; [exact Ha|exact Hb]].
    - destruct f as [|f]; [lia|]. cbn [rel_bwd_vt_loop].
      pose proof (pow2_nz d) as Hd0. pose proof (pow2_nz s) as Hs0.
      replace (Nat.div2 (2 ^ S s)) with (2 ^ s)%nat by (cbn [Nat.pow]; rewrite Nat.div2_double; reflexivity).
      destruct (Nat.eqb_spec (2 ^ s) 0) as [|_]; [lia|].
      assert (HK : (2 ^ K = 2 ^ s * (2 * 2 ^ d))%nat) by (rewrite <- Hs, Nat.pow_add_r; cbn [Nat.pow]; lia).
      pose proof (pow2_le (S s) K ltac:(lia)) as HSs.
      destruct (rel_bwd_vt_stage_any (2 ^ d) (2 ^ s) 0 (2 ^ K - 2 ^ S s) [] a ltac:(lia) eq_refl ltac:(lia) Hb ltac:(cbn [Nat.pow] in *; lia))
        as (r0 & E0 & C & B). cbn [app] in E0. rewrite E0. cbn [bind].
      change (2 * 2 ^ d)%nat with (2 ^ S d)%nat.
      replace (2 ^ K - 2 ^ S s + 2 ^ s)%nat with (2 ^ K - 2 ^ s)%nat by (cbn [Nat.pow] in *; lia).
      apply (IH (S d) f r0 ltac:(lia) ltac:(lia) ltac:(lia) B).
  Qed.
  Lemma rel_backward_vt_any a : length a = n -> Forall is_u64 a -> exists r, rel_backward_vt op a = Val r /\ length r = n /\ canonical p r.
  Proof.
    intros Ha Hb. unfold rel_backward_vt. rewrite bind_guard by (apply Nat.eqb_eq; exact Ha). rewrite (ok_size _ _ _ Hok) in *. pose proof (K_lt_size K).
    destruct (rel_bwd_vt_loop_any K 0 (2 ^ K) a ltac:(lia) ltac:(lia) Ha Hb) as (r & E & L & B).
    rewrite Nat.sub_diag in E. change (2 ^ 0)%nat with 1%nat in E. rewrite E. cbn [bind]. eexists. split; [reflexivity|].
    rewrite (rel_scale r B). split; [rewrite map_length; exact L|]. apply Forall_map, Forall_forall. intros x _. apply Z.mod_pos_bound.
    pose proof p_range. lia.
  Qed.
  Lemma rel_bwd_vt_first q : forall i0 k pre a, length pre = (2 * i0 * 1)%nat -> length a = (q * (2 * 1))%nat ->
    small_pairs p a -> (k + q <= 2 ^ K)%nat ->
    exists r, foldM (rel_bwd_vt_block op 1) (seq i0 q) (k, pre ++ a) = Val ((k + q)%nat, pre ++ r) /\
      lcong p r (bstage 1 (slice k q (nt_zetas_inv op)) (shifted p a)) /\ below (2 * p) r.
  Proof.
    induction q as [|q IH]; intros i0 k pre a Hpre Ha Hb Hk.
    - destruct a; [|cbn in Ha; lia]. exists []. cbn [seq foldM]. rewrite Nat.add_0_r. repeat split; constructor.
    - destruct (split3 1 _ a Ha) as (L & R & rest & -> & HL & HR & Hr).
      destruct L as [|x [|]]; try discriminate. destruct R as [|y [|]]; try discriminate. cbn [app] in Hb |- *.
      cbn [small_pairs] in Hb. destruct Hb as (Hx & Hy & Hxy & Hb).
      cbn [seq foldM]. unfold rel_bwd_vt_block at 1. cbv zeta. destruct (get_zeta op K w Hok k ltac:(lia)) as (v & -> & -> & Ev & Hv). cbn [bind].
      rewrite <- Hpre.
      pose proof (at_pairs (fun x y => Val (rel_inv_butterfly rel_reduce1_vt op x y v (shoup_of m v))) [x] [y] pre [] rest 1 eq_refl eq_refl ltac:(lia)) as AP.
      cbn [length app map2M bind] in AP. rewrite AP. clear AP.
      destruct (rel_inv_first rel_reduce1_vt v rel_r1_vt Hv x y Hx Hy Hxy) as (x' & y' & -> & C1 & C2 & R1 & R2). cbn [bind app map fst snd].
      destruct (IH (S i0) (S k) (pre ++ [x'; y']) rest) as (r & E' & C & B).
      { rewrite !app_length. cbn [length]. lia. } { exact Hr. } { exact Hb. } { lia. }
      rewrite <- !app_assoc in E'. cbn [app] in E'. rewrite E'. exists (x' :: y' :: r).
      split; [rewrite <- Nat.add_succ_comm; reflexivity|].
      rewrite slice_cons by (rewrite (zetas_length op K w Hok); lia). rewrite <- Ev. cbn [shifted].
      split; [|constructor; [exact R1|]; constructor; [exact R2|exact B]].
      unfold wrap2 in C2. destruct (2 * p + x <? y); [|destruct (W64 <=? 2 * p + x - y)].
      + rewrite bstage_app by reflexivity. change [x + W63; y - W63] with ([x + W63] ++ [y - W63]). rewrite bstage_one by reflexivity.
        cbn [zipWith app]. constructor; [rewrite C1; apply cong_eq; ring|]. constructor; [|exact C].
        rewrite C2. apply cong_eq. change W64 with (W63 + W63). ring.
      + rewrite bstage_app by reflexivity. change [x - W63; y + W63] with ([x - W63] ++ [y + W63]). rewrite bstage_one by reflexivity.
        cbn [zipWith app]. constructor; [rewrite C1; apply cong_eq; ring|]. constructor; [|exact C].
        rewrite C2. apply cong_eq. change W64 with (W63 + W63). ring.
      + rewrite bstage_app by reflexivity. change [x; y] with ([x] ++ [y]). rewrite bstage_one by reflexivity.
        cbn [zipWith app]. constructor; [rewrite C1; apply cong_eq; ring|]. constructor; [|exact C].
        rewrite C2. apply cong_eq. ring.
  Qed.
  Lemma rel_backward_vt_spec a : length a = n -> small_pairs p a -> rel_backward_vt op a = Val (INTT op (shifted p a)).
  Proof.
    intros Ha Hb. pose proof Ha as Ha'. unfold rel_backward_vt. rewrite bind_guard by (apply Nat.eqb_eq; exact Ha). rewrite (half_size op K w Hok).
    rewrite (ok_size _ _ _ Hok) in Ha' |- *.
    pose proof (K_lt_size K) as HK. pose proof (K_pos op K w Hok) as HK0. destruct K as [|k] eqn:EK; [lia|]. rewrite <- EK in *.
    destruct (2 ^ K)%nat as [|f] eqn:Ef; [lia|]. rewrite <- Ef in Ha'.
    assert (H2 : (2 ^ K = 2 ^ k * (2 * 1))%nat) by (rewrite EK; cbn [Nat.pow]; lia).
    replace (2 ^ (K - 1))%nat with (2 ^ k)%nat by (f_equal; lia). cbn [rel_bwd_vt_loop].
    destruct (Nat.eqb_spec (2 ^ k) 0) as [H0|_]; [pose proof (pow2_nz k); lia|].
    destruct (rel_bwd_vt_first (2 ^ k) 0 0 [] a eq_refl ltac:(lia) Hb ltac:(lia)) as (r0 & E0 & C & B).
    cbn [app] in E0. rewrite E0. cbn [bind].
    assert (Hlen : length r0 = (2 ^ K)%nat).
    { rewrite (lcong_length _ _ _ C), bstage_length; [rewrite shifted_length; exact Ha'|].
      rewrite slice_length; [rewrite shifted_length; lia|]. rewrite (zetas_length op K w Hok). lia. }
    destruct (bwd_vt_loop_spec op K w Hok k 1 f r0 ltac:(lia) ltac:(lia) Hlen B) as (r & E & C' & B').
    replace (0 + 2 ^ k)%nat with (2 ^ K - 2 ^ k)%nat by lia. change (2 * 1)%nat with (2 ^ 1)%nat.
    rewrite (rel_bwd_vt_loop_ok _ _ _ _ _ _ _ E). cbn [bind]. f_equal.
    assert (Hu : Forall is_u64 r). { eapply Forall_impl; [|exact B']. cbv beta. intros x Hx. pose proof (p_bounds op K w Hok). unfold is_u64. lia. }
    rewrite (rel_scale r Hu). unfold INTT. rewrite (log2_size op K w Hok).
    assert (CC : lcong p r (bchain (all_stages op K) (shifted p a))).
    { assert (Es : seq 0 K = seq 0 k ++ [k]) by (rewrite EK; apply seq_S).
      unfold all_stages. rewrite Es, map_app. cbn [map]. rewrite bchain_snoc. unfold stage_at at 2.
      replace (K - 1 - k)%nat with 0%nat by lia. replace (2 ^ K - 2 ^ S k)%nat with 0%nat by (rewrite EK, Nat.sub_diag; reflexivity). change (2 ^ 0)%nat with 1%nat.
      eapply lcong_trans; [exact C'|]. apply bchain_cong. exact C. }
    clear - CC. induction CC as [|x y r b H _ IH]; [reflexivity|]. cbn [map lscale]. f_equal; [|exact IH].
    rewrite Z.mul_comm. apply (cong_mul p); [reflexivity|exact H].
  Qed.

  (** ** When the inverse transform is right *)
  Lemma INTT_inj x y : length x = n -> length y = n -> INTT op x = INTT op y -> rmod p x = rmod p y.
  Proof. intros Hx Hy E. rewrite <- !(NTT_INTT op K w Hok) by assumption. rewrite E. reflexivity. Qed.
  Lemma p_odd : 2 < p.
  Proof.
    pose proof p_range as (Hp & _). destruct (Z.eq_dec p 2) as [E|E]; [|lia]. exfalso.
    pose proof (ok_n _ _ _ Hok) as H. pose proof (ok_w _ _ _ Hok) as Hw.
    pose proof (w_order op K w Hok 1) as HO. rewrite E in *.
    assert (H1 : w = 0 \/ w = 1) by lia.
    assert (HK : 0 <= Z.of_nat K) by lia. assert (H2K : 1 < 2 ^ Z.of_nat (S K)).
    { change 1 with (2 ^ 0). apply Z.pow_lt_mono_r; lia. }
    destruct H1 as [-> | ->].
    - rewrite Z.pow_0_l in H by (apply Z.pow_pos_nonneg; lia). discriminate H.
    - specialize (HO ltac:(lia) ltac:(reflexivity)). lia.
  Qed.
  Lemma half_unit : W63 mod p <> 0.
  Proof.
    intros E. apply Z.mod_divide in E; [|pose proof p_range; lia]. change W63 with (2 ^ 63) in E.
    apply (prime_power_prime p 2 63 ltac:(lia) (ok_prime _ _ _ Hok) prime_2) in E. pose proof p_odd. lia.
  Qed.
  Lemma shifted_right a : lcong p (shifted p a) a <-> no_wrap p a.
  Proof.
    assert (H : forall k a, (length a <= k)%nat -> (lcong p (shifted p a) a <-> no_wrap p a)); [|apply (H (length a)); lia].
    pose proof half_unit as HU.
    induction k as [|k IH]; intros [|x [|y b]] Hk; cbn [length] in Hk; try lia; cbn [shifted no_wrap]; try (split; [tauto|intros _; apply lcong_refl]).
    specialize (IH b ltac:(lia)).
    destruct (Z.ltb_spec (2 * p + x) y) as [H|H]; [|destruct (Z.leb_spec W64 (2 * p + x - y)) as [H'|H']]; cbn [app].
    - split; [|lia]. intros C. exfalso. inversion C as [|? ? ? ? C1 _]; subst. apply HU.
      apply cong_divide in C1; [|pose proof p_range; lia]. replace (x + W63 - x) with W63 in C1 by ring. apply Z.mod_divide; [pose proof p_range; lia|exact C1].
    - split; [|lia]. intros C. exfalso. inversion C as [|? ? ? ? _ C2]; subst. inversion C2 as [|? ? ? ? C1 _]; subst. apply HU.
      apply cong_divide in C1; [|pose proof p_range; lia]. replace (y + W63 - y) with W63 in C1 by ring. apply Z.mod_divide; [pose proof p_range; lia|exact C1].
    - split.
      + intros C. inversion C as [|? ? ? ? _ C2]; subst. inversion C2 as [|? ? ? ? _ C3]; subst. split; [lia|]. apply IH. exact C3.
      + intros (_ & Hn). constructor; [reflexivity|]. constructor; [reflexivity|]. apply IH. exact Hn.
  Qed.
  Lemma backward_right a : length a = n -> (INTT op (shifted p a) = INTT op a <-> no_wrap p a).
  Proof.
    intros Ha. rewrite <- shifted_right. split.
    - intros E. apply rmod_lcong. apply INTT_inj; [rewrite shifted_length; exact Ha|exact Ha|exact E].
    - apply (INTT_cong op).
  Qed.
End Rel.
