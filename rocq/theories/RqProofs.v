(** Equations for the polynomial operations on canonical representations. *)
From Verif Require Import Outcome BasicSpec OutcomeLemmas ZqModel ZqProofs ZqPow NumTheory NttModel PolySpec PolyRing NttPure NttStages NttProofs.
From Verif Require Import RnsModel RnsSpec RnsProofs RqModel RqSpec RqCtx RqRows.
From Coq Require Import Znumtheory.

Lemma congruent_lcong Q x y : congruent Q x y <-> lcong Q x y.
Proof. reflexivity. Qed.

Lemma map_repeat {A B} (f : A -> B) a n : map f (repeat a n) = repeat (f a) n.
Proof. induction n as [|n IH]; [reflexivity|]. cbn [repeat map]. f_equal. exact IH. Qed.

Section Poly.
  Variables (c : ctx) (Hc : ctx_ok c).
  Notation N := (c_degree c).
  Notation Q := (modulus_of c).

  Lemma op_ok op : In op (c_ops c) -> exists K w, ntt_ok op K w /\ nt_size op = N.
  Proof. intros H. pose proof (co_ops _ Hc) as F. rewrite Forall_forall in F. apply F, H. Qed.
  Lemma q_ops : c_q c = map nt_p (c_ops c).
  Proof. apply (co_q _ Hc). Qed.
  Lemma q_length : length (c_q c) = length (c_ops c).
  Proof. rewrite q_ops. apply map_length. Qed.
  Lemma moduli_ops : c_moduli c = map (fun op => mod_p (nt_p op)) (c_ops c).
  Proof. rewrite (co_moduli _ Hc), q_ops, map_map. reflexivity. Qed.
  Lemma basis : rns_basis (c_moduli c).
  Proof. rewrite <- (co_u64 _ Hc). apply (gr_basis _ (co_rns _ Hc)). Qed.
  Lemma Q_pos : 2 <= Q.
  Proof. apply basis_pos, basis. Qed.
  Lemma N_pow2 : exists K, (3 <= K < 63)%nat /\ N = (2 ^ K)%nat.
  Proof. destruct (co_deg _ Hc) as (K & H1 & H2 & _). eauto. Qed.
  Lemma N_ge8 : (8 <= N)%nat.
  Proof. destruct N_pow2 as (K & HK & ->). apply (Nat.pow_le_mono_r 2 3 K); lia. Qed.

  (** *** CRT *)
  Lemma lcong_all x y : length x = N -> length y = N ->
    (forall op, In op (c_ops c) -> lcong (mod_p (nt_p op)) x y) <-> lcong Q x y.
  Proof.
    intros Hx Hy. split; intros H.
    - assert (E : rmod Q x = rmod Q y).
      { apply list_ext_Z; [rewrite !rmod_length; congruence|]. rewrite rmod_length. intros k Hk. pose proof Q_pos.
        rewrite !nth_rmod by lia. apply (crt_cong _ _ _ basis). intros i Hi. rewrite moduli_ops in *. rewrite map_length in Hi.
        destruct (nth_error (c_ops c) i) as [op|] eqn:E; [|apply nth_error_None in E; lia].
        rewrite (nth_error_nth (map _ _) i 0 (map_nth_error _ _ _ E)). apply lcong_nth, H. apply nth_error_In in E. exact E. }
      apply rmod_lcong, E.
    - intros op Hop. apply (In_nth_error) in Hop. destruct Hop as (i & Ei). pose proof (map_nth_error (fun op => mod_p (nt_p op)) _ _ Ei) as Em.
      rewrite <- moduli_ops in Em. assert (Hi : (i < length (c_moduli c))%nat) by (apply nth_error_Some; congruence).
      apply (nth_error_nth _ _ 0) in Em. clear -H Em Hi Hc. induction H as [|a b x y Hab H IH]; constructor; [|exact IH].
      rewrite <- Em. apply (cong_prod_nth (c_moduli c) i); [apply basis|exact Hi|exact Hab].
  Qed.

  (** Rows assembled from residues. *)
  Lemma rows_lift rows : Forall2 (fun op r => length r = N /\ canonical (mod_p (nt_p op)) r) (c_ops c) rows ->
    exists x, length x = N /\ canonical Q x /\ map (fun op => rmod (mod_p (nt_p op)) x) (c_ops c) = rows.
  Proof.
    intros H. pose proof (Forall2_length_eq _ _ _ H) as Hlen.
    set (col := fun j => map (fun r => nth j r 0) rows).
    assert (Hcol : forall j, (j < N)%nat -> canonical_residues (c_moduli c) (col j)).
    { intros j Hj. rewrite moduli_ops. unfold canonical_residues, col. clear Hlen. induction H as [|op r ops rows (H1 & H2) H IH]; constructor; [|exact IH].
      apply (proj1 (Forall_forall _ _) H2), nth_In. lia. }
    set (x := map (fun j => inner (col j) (rns_garner (c_rns c)) mod Q) (seq 0 N)).
    assert (Hlift : forall j, lift (c_rns c) (col j) = Val (inner (col j) (rns_garner (c_rns c)) mod Q)).
    { intros j. rewrite (lift_val _ (co_rns _ Hc)). rewrite (co_u64 _ Hc). reflexivity. }
    assert (Hx : length x = N) by (unfold x; rewrite map_length, seq_length; reflexivity).
    exists x. split; [exact Hx|]. split.
    - unfold x. apply Forall_forall. intros v Hv. apply in_map_iff in Hv. destruct Hv as (j & <- & _). apply Z.mod_pos_bound. pose proof Q_pos. lia.
    - assert (Hrow : forall i, (i < length rows)%nat -> rmod (nth i (c_moduli c) 0) x = nth i rows []).
      { intros i Hi. assert (Hi' : (i < length (c_moduli c))%nat) by (rewrite moduli_ops, map_length; lia).
        assert (Hr : length (nth i rows []) = N).
        { apply (Forall2_nth _ _ _ i (hd (mkNtt (mkModulus 0 0 0 0 false) 0 0 [] [] [] [] 0 0) (c_ops c)) []) in H; [apply H|lia]. }
        apply list_ext_Z; [rewrite rmod_length; congruence|]. rewrite rmod_length, Hx. intros j Hj.
        rewrite nth_rmod by (pose proof (basis_nth _ i basis Hi'); lia).
        unfold x. rewrite nth_map_seq by exact Hj.
        destruct (project_lift _ (co_rns _ Hc) (col j) _ ltac:(rewrite (co_u64 _ Hc); apply Hcol, Hj) (Hlift j)) as (E & _).
        rewrite (co_u64 _ Hc) in E. apply (f_equal (fun l => nth i l 0)) in E.
        unfold residues_of in E. rewrite (map_nth_lt _ _ i 0) in E by exact Hi'. rewrite E.
        unfold col. rewrite (map_nth_lt _ _ i []) by exact Hi. reflexivity. }
      apply nth_ext with (d := []) (d' := []); rewrite map_length; [exact Hlen|]. intros i Hi.
      rewrite (map_nth_lt _ _ i (hd (mkNtt (mkModulus 0 0 0 0 false) 0 0 [] [] [] [] 0 0) (c_ops c))) by exact Hi.
      rewrite <- Hrow by lia. rewrite moduli_ops. rewrite (map_nth_lt _ _ i (hd (mkNtt (mkModulus 0 0 0 0 false) 0 0 [] [] [] [] 0 0) (c_ops c))) by exact Hi. reflexivity.
  Qed.
  Lemma rows_exist R rows : Forall2 (fun op r => length r = N /\ canonical (mod_p (nt_p op)) r) (c_ops c) rows ->
    exists x, length x = N /\ canonical Q x /\ map (fun op => row R op x) (c_ops c) = rows.
  Proof.
    intros H.
    assert (H' : exists rows', Forall2 (fun op r => length r = N /\ canonical (mod_p (nt_p op)) r) (c_ops c) rows' /\
                   rows = zipWith (fun op r => row R op r) (c_ops c) rows').
    { pose proof (co_ops _ Hc) as F. revert F. clear -H. induction H as [|op r ops rows (H1 & H2) H IH]; intros F.
      - exists []. split; [constructor|reflexivity].
      - inversion F; subst. destruct H4 as (K & w & Hok & Hs). destruct (IH H5) as (rows' & J1 & ->).
        destruct (row_surj op K w Hok R r ltac:(congruence) H2) as (x & X1 & X2 & X3).
        exists (x :: rows'). split; [constructor; [split; [congruence|exact X2]|exact J1]|]. cbn [zipWith]. f_equal. congruence. }
    destruct H' as (rows' & H1 & ->). destruct (rows_lift _ H1) as (x & X1 & X2 & <-). exists x. split; [exact X1|]. split; [exact X2|].
    assert (G : forall ops, (forall op, In op ops -> exists K w, ntt_ok op K w /\ nt_size op = N) ->
      map (fun op => row R op x) ops = zipWith (fun op r => row R op r) ops (map (fun op => rmod (mod_p (nt_p op)) x) ops)).
    { induction ops as [|op ops IH]; intros HF; [reflexivity|]. cbn [map zipWith]. f_equal; [|apply IH; intros; apply HF; right; assumption].
      destruct (HF op (or_introl eq_refl)) as (K & w & Hok & Hs). apply (row_cong op K w Hok); [congruence|rewrite rmod_length; congruence|].
      apply rmod_lcong. symmetry. apply rmod_rmod. }
    apply G. apply op_ok.
  Qed.

  (** *** [poly_of] *)
  Lemma poly_of_eq R vt vt' x y : length x = N -> length y = N ->
    poly_of R c vt x = poly_of R c vt' y <-> vt = vt' /\ congruent Q x y.
  Proof.
    intros Hx Hy. unfold congruent. change (Forall2 (fun a b => a mod Q = b mod Q) x y) with (lcong Q x y). rewrite <- (lcong_all x y Hx Hy). split.
    - intros E. split; [exact (f_equal p_vt E)|]. apply (f_equal p_coeffs) in E. cbn [poly_of p_coeffs] in E.
      intros op Hop. destruct (op_ok op Hop) as (K & w & Hok & Hs). apply (row_cong op K w Hok R); [congruence..|].
      clear -E Hop. induction (c_ops c) as [|o l IH]; [easy|]. cbn [map] in E. assert (row R o x = row R o y /\ map (fun op => row R op x) l = map (fun op => row R op y) l) as (E1 & E2) by (split; congruence).
      destruct Hop as [->|Hop]; auto.
    - intros (<- & H).
      assert (G : forall op, In op (c_ops c) -> row R op x = row R op y).
      { intros op Hop. destruct (op_ok op Hop) as (K & w & Hok & Hs). apply (row_cong op K w Hok R); [congruence..|]. apply H, Hop. }
      unfold poly_of. f_equal; [apply map_ext_in, G|]. destruct R; try reflexivity. f_equal. apply map_ext_in. intros op Hop. rewrite G by exact Hop. reflexivity.
  Qed.
  Lemma poly_of_wf R vt x : length x = N -> well_formed (poly_of R c vt x).
  Proof.
    intros Hx. unfold well_formed, poly_of. cbn [p_lazy p_ctx p_coeffs p_shoup]. split; [reflexivity|]. split.
    - rewrite q_ops. pose proof op_ok as G. revert G. generalize (c_ops c). induction l as [|op l IH]; intros G; cbn [map]; constructor.
      + destruct (G op (or_introl eq_refl)) as (K & w & Hok & Hs). split; [rewrite (row_length op K w Hok); congruence|apply (row_canonical op K w Hok); congruence].
      + apply IH. intros; apply G; right; assumption.
    - destruct R; try reflexivity. f_equal. rewrite q_ops. generalize (c_ops c). induction l as [|op l IH]; [reflexivity|]. cbn [map zipWith]. f_equal. exact IH.
  Qed.
  Lemma wf_exists {R} (p : poly R) : p_ctx p = c -> well_formed p ->
    exists x, length x = N /\ canonical Q x /\ p = poly_of R c (p_vt p) x.
  Proof.
    destruct p as [c0 lz vt rows sh]. cbn [p_ctx p_vt]. intros -> (H1 & H2 & H3). cbn [p_lazy p_ctx p_coeffs p_shoup] in *. subst lz.
    assert (H2' : Forall2 (fun op r => length r = N /\ canonical (mod_p (nt_p op)) r) (c_ops c) rows).
    { rewrite q_ops in H2. clear -H2. revert rows H2. induction (c_ops c) as [|o l IH]; intros rows H; inversion H; subst; constructor; auto. }
    destruct (rows_exist R rows H2') as (x & X1 & X2 & X3). exists x. split; [exact X1|]. split; [exact X2|].
    unfold poly_of. rewrite X3. f_equal. rewrite H3. destruct R; try reflexivity. f_equal. rewrite q_ops, <- X3.
    generalize (c_ops c). induction l as [|op l IH]; [reflexivity|]. cbn [map zipWith]. f_equal. exact IH.
  Qed.
  Lemma poly_of_ctx R vt x : p_ctx (poly_of R c vt x) = c.
  Proof. reflexivity. Qed.

  (** *** Arithmetic *)
  Ltac each_op := let op := fresh "op" in let Hop := fresh "Hop" in intros op Hop; destruct (op_ok op Hop) as (K & w & Hok & Hs).
  Lemma op2_eq R fvt fct (F : list Z -> list Z -> list Z) v1 v2 x y :
    length x = N -> length y = N -> R <> NttShoup ->
    (forall op, In op (c_ops c) ->
       fvt (nt_p op) (row R op x) (row R op y) = Val (row R op (F x y)) /\
       fct (nt_p op) (row R op x) (row R op y) = Val (row R op (F x y))) ->
    poly_op2 fvt fct (poly_of R c v1 x) (poly_of R c v2 y) = Val (poly_of R c (v1 && v2) (F x y)).
  Proof.
    intros Hx Hy HR H. unfold poly_op2. cbn [p_lazy p_ctx p_vt p_coeffs p_shoup poly_of negb andb guard bind]. rewrite ctx_eqb_refl. cbn [guard bind].
    rewrite q_ops. rewrite zip_upd3_map with (r := fun op => row R op (F x y)).
    - cbn [bind]. unfold poly_of. destruct R; [reflexivity..|congruence].
    - intros op Hop. destruct (H op Hop) as (E1 & E2). destruct (v1 && v2); assumption.
  Qed.
  Theorem add_eq R v1 v2 x y : length x = N -> length y = N -> R <> NttShoup ->
    poly_add (poly_of R c v1 x) (poly_of R c v2 y) = Val (poly_of R c (v1 && v2) (ladd x y)).
  Proof.
    intros Hx Hy HR. apply (op2_eq R _ _ ladd); try assumption. each_op.
    rewrite (row_ladd op K w Hok) by congruence. split; apply (add_vec_spec _ (ok_m _ _ _ Hok));
      try (apply (row_canonical op K w Hok); congruence); rewrite !(row_length op K w Hok); congruence.
  Qed.
  Theorem sub_eq R v1 v2 x y : length x = N -> length y = N -> R <> NttShoup ->
    poly_sub (poly_of R c v1 x) (poly_of R c v2 y) = Val (poly_of R c (v1 && v2) (lsub x y)).
  Proof.
    intros Hx Hy HR. apply (op2_eq R _ _ lsub); try assumption. each_op.
    rewrite (row_lsub op K w Hok) by congruence. split; apply (sub_vec_spec _ (ok_m _ _ _ Hok));
      try (apply (row_canonical op K w Hok); congruence); rewrite !(row_length op K w Hok); congruence.
  Qed.
  Theorem mul_eq v1 v2 x y : length x = N -> length y = N ->
    poly_mul (poly_of Ntt c v1 x) (poly_of Ntt c v2 y) = Val (poly_of Ntt c (v1 && v2) (nmul N x y)).
  Proof.
    intros Hx Hy. apply (op2_eq Ntt _ _ (nmul N)); try assumption; [discriminate|]. each_op.
    rewrite <- Hs. rewrite (row_nmul op K w Hok) by congruence. split; apply (mul_vec_spec _ (ok_m _ _ _ Hok));
      try (apply (row_canonical op K w Hok); congruence); rewrite !(row_length op K w Hok); congruence.
  Qed.
  Theorem mul_shoup_eq v1 v2 x y : length x = N -> length y = N ->
    poly_mul_shoup (poly_of Ntt c v1 x) (poly_of NttShoup c v2 y) = Val (poly_of Ntt c (v1 && v2) (nmul N x y)).
  Proof.
    intros Hx Hy. unfold poly_mul_shoup. cbn [p_lazy p_ctx p_vt p_coeffs p_shoup poly_of negb guard bind unwrap]. rewrite ctx_eqb_refl. cbn [guard bind].
    rewrite q_ops, combine_map. rewrite zip_upd3_map with (r := fun op => row Ntt op (nmul N x y)); [reflexivity|].
    each_op. cbn [fst snd]. rewrite <- Hs, (row_nmul op K w Hok) by congruence. change (row NttShoup op y) with (row Ntt op y).
    destruct (mul_shoup_vec_spec _ (ok_m _ _ _ Hok) (row Ntt op x) (row Ntt op y) (shoup_row op (row Ntt op y))) as (E1 & E2).
    - apply (row_u64 op K w Hok). congruence.
    - apply (row_canonical op K w Hok). congruence.
    - rewrite !(row_length op K w Hok); congruence.
    - apply (shoup_row_vec op K w Hok). congruence.
    - destruct (v1 && v2); assumption.
  Qed.
  Theorem neg_eq R v x : length x = N -> R <> NttShoup -> poly_neg (poly_of R c v x) = Val (poly_of R c v (lopp x)).
  Proof.
    intros Hx HR. unfold poly_neg. cbn [p_lazy p_ctx p_vt p_coeffs p_shoup poly_of negb guard bind].
    rewrite q_ops. rewrite zip_upd_map with (r := fun op => row R op (lopp x)).
    - cbn [bind]. unfold with_coeffs, poly_of. cbn [p_lazy p_ctx p_vt p_coeffs p_shoup]. destruct R; [reflexivity..|congruence].
    - each_op. rewrite (row_lopp op K w Hok) by congruence. destruct v; apply (neg_vec_spec _ (ok_m _ _ _ Hok)), (row_canonical op K w Hok); congruence.
  Qed.
  Lemma project_ops k : project (c_rns c) k = Val (map (fun op => k mod mod_p (nt_p op)) (c_ops c)).
  Proof. rewrite (project_spec _ (co_rns _ Hc)), (co_u64 _ Hc), moduli_ops. unfold residues_of. rewrite map_map. reflexivity. Qed.
  Theorem scalar_mul_eq R v k x : length x = N -> R <> NttShoup ->
    poly_scalar_mul (poly_of R c v x) k = Val (poly_of R c v (lscale k x)).
  Proof.
    intros Hx HR. unfold poly_scalar_mul. cbn [p_lazy p_ctx p_vt p_coeffs p_shoup poly_of]. rewrite project_ops. cbn [bind].
    rewrite q_ops. rewrite zip_upd3_map with (r := fun op => row R op (lscale k x)).
    - cbn [bind]. unfold with_coeffs, poly_of. cbn [p_lazy p_ctx p_vt p_coeffs p_shoup]. destruct R; [reflexivity..|congruence].
    - each_op. destruct (scalar_mul_vec_spec _ (ok_m _ _ _ Hok) (row R op x) (k mod mod_p (nt_p op))) as (E1 & E2).
      + apply (row_u64 op K w Hok). congruence.
      + apply Z.mod_pos_bound. pose proof (p_pos op K w Hok). lia.
      + rewrite (row_lscale op K w Hok) by congruence.
        assert (E : map (fun a => (k * a) mod mod_p (nt_p op)) (row R op x) = map (fun a => (a * (k mod mod_p (nt_p op))) mod mod_p (nt_p op)) (row R op x)).
        { apply map_ext. intros a. rewrite Z.mul_comm, Zmult_mod_idemp_r. reflexivity. }
        rewrite E. destruct v; assumption.
  Qed.

  (** *** Conversions *)
  Lemma fwd_eq v x : length x = N -> fwd_rows v (c_ops c) (map (fun op => row PowerBasis op x) (c_ops c)) = Val (map (fun op => row Ntt op x) (c_ops c)).
  Proof.
    intros Hx. unfold fwd_rows. rewrite <- (map_id (c_ops c)) at 2. apply zip_upd_map. each_op. apply (fwd_row op K w Hok). congruence.
  Qed.
  Lemma bwd_eq R v x : R <> PowerBasis -> length x = N -> bwd_rows v (c_ops c) (map (fun op => row R op x) (c_ops c)) = Val (map (fun op => row PowerBasis op x) (c_ops c)).
  Proof.
    intros HR Hx. unfold bwd_rows. rewrite <- (map_id (c_ops c)) at 2. apply zip_upd_map. each_op. apply (bwd_row op K w Hok); congruence.
  Qed.
  Lemma shoup_rows_eq R x : length x = N -> shoup_rows c (map (fun op => row R op x) (c_ops c)) = Val (map (fun op => shoup_row op (row R op x)) (c_ops c)).
  Proof. intros Hx. unfold shoup_rows. rewrite q_ops. apply map2M_map. each_op. apply (shoup_row_vec op K w Hok). congruence. Qed.
  Theorem pb_ntt_eq v x : length x = N -> pb_into_ntt (poly_of PowerBasis c v x) = Val (poly_of Ntt c v x).
  Proof. intros Hx. unfold pb_into_ntt. cbn [p_lazy p_ctx p_vt p_coeffs p_shoup poly_of]. rewrite fwd_eq by exact Hx. reflexivity. Qed.
  Theorem pb_shoup_eq v x : length x = N -> pb_into_ntt_shoup (poly_of PowerBasis c v x) = Val (poly_of NttShoup c v x).
  Proof.
    intros Hx. unfold pb_into_ntt_shoup. cbn [p_lazy p_ctx p_vt p_coeffs p_shoup poly_of]. rewrite fwd_eq by exact Hx. cbn [bind].
    rewrite shoup_rows_eq by exact Hx. reflexivity.
  Qed.
  Theorem ntt_pb_eq v x : length x = N -> ntt_into_pb (poly_of Ntt c v x) = Val (poly_of PowerBasis c v x).
  Proof. intros Hx. unfold ntt_into_pb. cbn [p_lazy p_ctx p_vt p_coeffs p_shoup poly_of]. rewrite bwd_eq by (exact Hx || discriminate). reflexivity. Qed.
  Theorem ntt_shoup_eq v x : length x = N -> ntt_into_shoup (poly_of Ntt c v x) = Val (poly_of NttShoup c v x).
  Proof. intros Hx. unfold ntt_into_shoup. cbn [p_lazy p_ctx p_vt p_coeffs p_shoup poly_of]. rewrite shoup_rows_eq by exact Hx. reflexivity. Qed.
  Theorem shoup_ntt_eq v x : shoup_into_ntt (poly_of NttShoup c v x) = Val (poly_of Ntt c v x).
  Proof. reflexivity. Qed.
  Theorem shoup_pb_eq v x : length x = N -> shoup_into_pb (poly_of NttShoup c v x) = Val (poly_of PowerBasis c v x).
  Proof. intros Hx. unfold shoup_into_pb. cbn [p_lazy p_ctx p_vt p_coeffs p_shoup poly_of]. rewrite bwd_eq by (exact Hx || discriminate). reflexivity. Qed.
  Theorem pb_into_eq R v x : length x = N -> pb_into R (poly_of PowerBasis c v x) = Val (poly_of R c v x).
  Proof. intros Hx. destruct R; [reflexivity|apply pb_ntt_eq, Hx|apply pb_shoup_eq, Hx]. Qed.
  Theorem into_pb_eq R v x : length x = N -> into_pb (poly_of R c v x) = Val (poly_of PowerBasis c v x).
  Proof. intros Hx. destruct R; [reflexivity|apply ntt_pb_eq, Hx|apply shoup_pb_eq, Hx]. Qed.

  (** *** From and to vectors *)
  Definition padded (v : list Z) : list Z := v ++ repeat 0 (N - length v).
  Lemma padded_length v : (length v <= N)%nat -> length (padded v) = N.
  Proof. intros H. unfold padded. rewrite app_length, repeat_length. lia. Qed.
  Lemma padded_full v : length v = N -> padded v = v.
  Proof. intros H. unfold padded. rewrite H, Nat.sub_diag. apply app_nil_r. Qed.
  Lemma rmod_padded p v : rmod p (padded v) = rmod p v ++ repeat 0 (N - length v).
  Proof. unfold padded, rmod. rewrite map_app, map_repeat. f_equal. Qed.
  Theorem from_i64_eq v vt : (length v <= N)%nat -> Forall is_i64 v -> pb_from_i64 c v vt = Val (poly_of PowerBasis c vt (padded v)).
  Proof.
    intros Hl Hv. unfold pb_from_i64. replace (Nat.leb (length v) N) with true by (symmetry; apply Nat.leb_le, Hl).
    rewrite q_ops. rewrite mapM_map with (r := fun op => row PowerBasis op (padded v)); [reflexivity|].
    each_op. cbn [row]. fold (rmod (mod_p (nt_p op)) (padded v)). rewrite rmod_padded.
    destruct (reduce_vec_i64_spec _ (ok_m _ _ _ Hok) v Hv) as (E1 & E2). destruct vt; [rewrite E2|rewrite E1]; reflexivity.
  Qed.
  Theorem from_i64_err v vt : (N < length v)%nat -> pb_from_i64 c v vt = Err (TooManyCoefficients (Z.of_nat (length v)) (Z.of_nat N)).
  Proof. intros Hl. unfold pb_from_i64. replace (Nat.leb (length v) N) with false by (symmetry; apply Nat.leb_gt, Hl). reflexivity. Qed.
  Theorem from_u64_eq v vt : (length v <= N)%nat -> Forall is_u64 v -> (length v < length (c_moduli c) * N)%nat ->
    pb_from_u64 c v vt = Val (poly_of PowerBasis c vt (padded v)).
  Proof.
    intros Hl Hv Hlt. unfold pb_from_u64. rewrite q_length.
    assert (Hml : length (c_moduli c) = length (c_ops c)) by (rewrite moduli_ops; apply map_length). rewrite Hml in Hlt.
    replace (Nat.eqb (length v) (length (c_ops c) * N)) with false by (symmetry; apply Nat.eqb_neq; lia).
    replace (Nat.leb (length v) N) with true by (symmetry; apply Nat.leb_le, Hl).
    rewrite q_ops. rewrite mapM_map with (r := fun op => row PowerBasis op (padded v)); [reflexivity|].
    each_op. fold (padded v).
    assert (Hv' : Forall is_u64 (padded v)).
    { unfold padded. apply Forall_app. split; [exact Hv|]. apply Forall_forall. intros z Hz. apply repeat_spec in Hz. subst. unfold is_u64. lia. }
    destruct (reduce_vec_spec _ (ok_m _ _ _ Hok) (padded v) Hv') as (E1 & E2). destruct vt; assumption.
  Qed.
  Lemma transpose_rows x : length x = N -> transpose N (map (fun op => row PowerBasis op x) (c_ops c)) = map (residues_of (c_moduli c)) x.
  Proof.
    intros Hx. unfold transpose. rewrite <- Hx at 1. clear Hx. rewrite moduli_ops.
    assert (G : forall i, map (fun col => nth i col 0) (map (fun op => row PowerBasis op x) (c_ops c)) = residues_of (map (fun op => mod_p (nt_p op)) (c_ops c)) (nth i x 0)).
    { intros i. unfold residues_of. rewrite !map_map. apply map_ext_in. intros op Hop. destruct (op_ok op Hop) as (K & w & Hok & _).
      cbn [row]. apply nth_rmod. apply (p_pos op K w Hok). }
    rewrite (map_ext _ _ G). clear. rewrite <- (map_map (fun i => nth i x 0) (residues_of _)). f_equal.
    induction x as [|a x IH]; [reflexivity|]. cbn [length seq map nth]. f_equal. rewrite <- seq_shift, map_map. exact IH.
  Qed.
  Theorem to_big_eq v x : length x = N -> poly_to_big (poly_of PowerBasis c v x) = Val (rmod Q x).
  Proof.
    intros Hx. unfold poly_to_big. cbn [p_ctx p_coeffs poly_of]. rewrite transpose_rows by exact Hx.
    unfold rmod. apply mapM_map. intros a _. rewrite <- (co_u64 _ Hc), (lift_project _ (co_rns _ Hc)). rewrite (co_u64 _ Hc). reflexivity.
  Qed.
  Lemma transpose_project v k : k = length (c_ops c) -> transpose k (map (fun a => map (fun op => a mod mod_p (nt_p op)) (c_ops c)) v) = map (fun op => rmod (mod_p (nt_p op)) v) (c_ops c).
  Proof.
    intros ->. unfold transpose. apply nth_ext with (d := []) (d' := []); rewrite !map_length, ?seq_length; [reflexivity|]. intros i Hi.
    rewrite nth_map_seq by exact Hi. set (d := hd (mkNtt (mkModulus 0 0 0 0 false) 0 0 [] [] [] [] 0 0) (c_ops c)).
    rewrite (map_nth_lt _ _ i d) by exact Hi. rewrite map_map. unfold rmod. apply map_ext. intros a. rewrite (map_nth_lt _ _ i d) by exact Hi. reflexivity.
  Qed.
  Theorem from_big_eq v vt : (length v <= N)%nat -> pb_from_big c v vt = Val (poly_of PowerBasis c vt (padded v)).
  Proof.
    intros Hl. unfold pb_from_big. replace (Nat.ltb N (length v)) with false by (symmetry; apply Nat.ltb_ge, Hl).
    rewrite (mapM_val _ (fun a => map (fun op => a mod mod_p (nt_p op)) (c_ops c))) by (intros; apply project_ops). cbn [bind].
    rewrite transpose_project by apply q_length. unfold poly_of. do 2 f_equal. rewrite map_map. apply map_ext. intros op. symmetry. apply rmod_padded.
  Qed.
  Theorem from_big_err v vt : (N < length v)%nat -> pb_from_big c v vt = Err (TooManyCoefficients (Z.of_nat (length v)) (Z.of_nat N)).
  Proof. intros Hl. unfold pb_from_big. replace (Nat.ltb N (length v)) with true by (symmetry; apply Nat.ltb_lt, Hl). reflexivity. Qed.
  Theorem poly_from_big_eq R v vt : (length v <= N)%nat -> poly_from_big R c v vt = Val (poly_of R c vt (padded v)).
  Proof. intros Hl. unfold poly_from_big. rewrite from_big_eq by exact Hl. cbn [bind]. apply pb_into_eq, padded_length, Hl. Qed.
  Lemma zero_eq R : poly_zero R c = poly_of R c false (lzero N).
  Proof.
    unfold poly_zero, poly_of.
    assert (E : forall op, In op (c_ops c) -> row R op (lzero N) = repeat 0 N).
    { intros op Hop. destruct (op_ok op Hop) as (K & w & Hok & Hs).
      replace (lzero N) with (lscale 0 (lzero N)) by apply lscale_zero. rewrite (row_lscale op K w Hok) by (rewrite lzero_length; congruence).
      assert (Hl : length (row R op (lzero N)) = N) by (rewrite (row_length op K w Hok); rewrite ?lzero_length; congruence). revert Hl.
      generalize (row R op (lzero N)). intros l <-. induction l as [|a l IH]; [reflexivity|]. cbn [map length repeat]. f_equal. exact IH. }
    assert (E2 : zero_rows c = map (fun op => row R op (lzero N)) (c_ops c)).
    { unfold zero_rows. rewrite q_length. revert E. generalize (c_ops c). induction l as [|op l IH]; intros E; [reflexivity|]. cbn [length repeat map]. f_equal; [symmetry; apply E; left; reflexivity|].
      apply IH. intros; apply E; right; assumption. }
    rewrite E2. f_equal. destruct R; try reflexivity. f_equal. apply map_ext_in. intros op Hop. rewrite E by exact Hop. unfold shoup_row. rewrite map_repeat. reflexivity.
  Qed.
End Poly.
