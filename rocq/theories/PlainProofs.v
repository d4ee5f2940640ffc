(** Proofs about plaintexts: contexts of the levels, coefficients, message scaling, encoding and decoding. *)
From Verif Require Import Outcome BasicSpec OutcomeLemmas ZqModel ZqProofs ZqPow NumTheory NttModel PolySpec PolyRing NttPure NttStages NttProofs.
From Verif Require Import TranscodeModel PrimesModel RnsModel RnsSpec RnsProofs RqModel RqSpec RqCtx RqRows RqProofs RingRn RqOps RqIO NttPropLemmas ParamsModel BfvSpec SlotsProofs ParamsProofs BuildProofs PlainModel.
From Coq Require Import Znumtheory Permutation.

(** ** The contexts of the levels *)
Record at_level (isp : Z -> bool) (cands : Z -> list Z) (par : params) (l : nat) (lv : level_ctx) (c : ctx) : Prop := {
  al_lv : nth_error (pa_levels par) l = Some lv;
  al_ctx : lv_ctx lv = c;
  al_good : good_ctx c;
  al_new : context_new isp cands (level_moduli (pa_moduli par) l) (pa_degree par) = Val c;
  al_deg : c_degree c = pa_degree par;
  al_mod : c_moduli c = level_moduli (pa_moduli par) l;
  al_lt : (l < length (pa_moduli par))%nat;
  al_gl : exists plain, good_ctx plain /\ c_moduli plain = firstn (plaintext_moduli_count (pa_moduli par) (pa_sizes par) (pa_t par)) (pa_moduli par) /\
    c_degree plain = pa_degree par /\ built isp cands plain /\ good_level isp cands (pa_degree par) (pa_t par) plain (pa_moduli par) l lv
}.
Lemma at_level_ex isp cands par l : oracles isp cands -> good_params isp cands par -> (l <= max_level par)%nat ->
  exists lv c, at_level isp cands par l lv c.
Proof.
  intros (H1 & H2) G Hl. destruct (gp_levels _ _ _ G) as (plain & Epl & Hll & Hlv). pose proof (gp_ne _ _ _ G) as Hne.
  assert (Hpos : (0 < length (pa_moduli par))%nat) by (destruct (pa_moduli par); [congruence|cbn; lia]).
  unfold max_level in Hl. rewrite Hll in Hl. destruct (nth_error (pa_levels par) l) as [lv|] eqn:El; [|apply nth_error_None in El; lia]. pose proof (Hlv l lv El) as GL.
  pose proof (gl_cp _ _ _ _ _ _ _ _ GL) as GC. pose proof (gc_cipher _ _ _ _ _ _ _ GC) as Ec. destruct (context_new_good isp H1 cands H2 _ _ _ Ec) as (Hg & Em & Ed).
  destruct (context_new_good isp H1 cands H2 _ _ _ Epl) as (Hgp & Emp & Edp). rewrite <- (gl_ctx _ _ _ _ _ _ _ _ GL) in Ec, Hg, Em, Ed. exists lv, (lv_ctx lv). constructor; try assumption; try reflexivity; [lia|].
  exists plain. split; [exact Hgp|]. split; [exact Emp|]. split; [exact Edp|]. split; [eexists _, _; exact Epl|exact GL].
Qed.
Lemma at_level_bound isp cands par l lv c : good_params isp cands par -> at_level isp cands par l lv c -> (l <= max_level par)%nat.
Proof. intros G A. unfold max_level. destruct (gp_levels _ _ _ G) as (_ & _ & -> & _). pose proof (al_lt _ _ _ _ _ _ A). lia. Qed.
Lemma at_level_unique isp cands par l lv c lv' c' : at_level isp cands par l lv c -> at_level isp cands par l lv' c' -> lv = lv' /\ c = c'.
Proof. intros A B. pose proof (al_lv _ _ _ _ _ _ A). pose proof (al_lv _ _ _ _ _ _ B). assert (lv = lv') by congruence. split; [assumption|]. rewrite <- (al_ctx _ _ _ _ _ _ A), <- (al_ctx _ _ _ _ _ _ B). congruence. Qed.

Lemma prod_firstn_divide l i : (prod_list (firstn i l) | prod_list l).
Proof. revert i. induction l as [|q l IH]; intros [|i]; cbn [firstn prod_list]; try apply Z.divide_refl; [apply Z.divide_1_l|]. apply Z.mul_divide_mono_l, IH. Qed.

Lemma nth_firstn_lt {A} (l : list A) k i d : (i < k)%nat -> nth i (firstn k l) d = nth i l d.
Proof. revert k i. induction l as [|x l IH]; intros [|k] [|i] H; cbn [firstn nth]; try lia; try reflexivity. apply IH. lia. Qed.

Section Level.
  Variables (isp : Z -> bool) (cands : Z -> list Z) (Ho : oracles isp cands) (par : params) (G : good_params isp cands par).
  Variables (l : nat) (lv : level_ctx) (c : ctx) (A : at_level isp cands par l lv c).
  Notation N := (pa_degree par).
  Notation t := (pa_t par).
  Notation Q := (prod_list (level_moduli (pa_moduli par) l)).
  Local Lemma Hg : good_ctx c. Proof. exact (al_good _ _ _ _ _ _ A). Qed.
  Local Lemma Hc : ctx_ok c. Proof. exact (good_ok _ Hg). Qed.
  Local Lemma Hdeg : c_degree c = N. Proof. exact (al_deg _ _ _ _ _ _ A). Qed.
  Local Lemma Hmod : c_moduli c = level_moduli (pa_moduli par) l. Proof. exact (al_mod _ _ _ _ _ _ A). Qed.

  Lemma al_context_level : context_level_at par l = Val lv.
  Proof. unfold context_level_at. rewrite (al_lv _ _ _ _ _ _ A). reflexivity. Qed.
  Lemma al_par_context : par_context par l = Val c.
  Proof. unfold par_context. rewrite al_context_level. cbn [bind]. rewrite (al_ctx _ _ _ _ _ _ A). reflexivity. Qed.
  Lemma al_moduli_length : length (c_moduli c) = (length (pa_moduli par) - l)%nat.
  Proof. rewrite Hmod. unfold level_moduli. rewrite firstn_length. lia. Qed.
  Lemma al_level_of : level_of_context par c = Val l.
  Proof.
    pose proof (al_lt _ _ _ _ _ _ A) as Hl. unfold level_of_context. rewrite al_moduli_length. destruct (Nat.ltb_spec (length (pa_moduli par)) (length (pa_moduli par) - l)); [lia|].
    replace (length (pa_moduli par) - (length (pa_moduli par) - l))%nat with l by lia. rewrite (al_lv _ _ _ _ _ _ A). cbn [ok_or bind]. rewrite (al_ctx _ _ _ _ _ _ A), ctx_eqb_refl. reflexivity.
  Qed.
  Lemma al_N8 : (8 <= N)%nat.
  Proof. rewrite <- Hdeg. apply (N_ge8 c Hc). Qed.
  Lemma al_Q : modulus_of c = Q.
  Proof. unfold modulus_of. rewrite Hmod. reflexivity. Qed.
  Lemma al_Qpos : 2 <= Q.
  Proof. rewrite <- al_Q. apply (Q_pos c Hc). Qed.
  Lemma al_q0 : exists q0 rest, level_moduli (pa_moduli par) l = q0 :: rest /\ pa_moduli par = q0 :: tl (pa_moduli par) /\ prime q0 /\ 16 < q0 < W62.
  Proof.
    pose proof (al_lt _ _ _ _ _ _ A) as Hl. unfold level_moduli. pose proof (gp_friendly _ _ _ G) as F. destruct (pa_moduli par) as [|q0 ms] eqn:E; [cbn in Hl; lia|].
    exists q0, (firstn (length ms - l) ms). cbn [length] in *. replace (S (length ms) - l)%nat with (S (length ms - l)) by lia. split; [reflexivity|]. split; [reflexivity|].
    inversion F as [|? ? (P & L & M) _]; subst. split; [exact P|]. split; [|exact L]. pose proof al_N8. apply prime_ge_2 in P.
    destruct (Z_lt_ge_dec 16 q0); [assumption|exfalso].
    destruct (Z.eq_dec q0 (2 * Z.of_nat N)) as [E2|E2]; [rewrite <- E2, Z_mod_same_full in M; lia|]. rewrite Z.mod_small in M by lia. lia.
  Qed.
  Lemma pt_level_eq e v x : pt_level (mkPt par e (poly_of Ntt c v x)) = Val l.
  Proof.
    pose proof (al_lt _ _ _ _ _ _ A) as Hl. unfold pt_level. cbn [pt_poly pt_par p_ctx poly_of]. rewrite al_moduli_length.
    destruct (Nat.leb_spec (length (pa_moduli par) - l) (length (pa_moduli par))); [|lia]. cbn [guard bind]. f_equal. lia.
  Qed.
  Lemma pt_validate_eq e v x : pt_validate_for (mkPt par e (poly_of Ntt c v x)) par = Val tt.
  Proof.
    unfold pt_validate_for. cbn [pt_par]. unfold par_same. rewrite Z.eqb_refl. cbn [negb]. rewrite pt_level_eq. cbn [bind]. rewrite al_par_context. cbn [bind].
    unfold pt_validate_context. rewrite pt_level_eq. cbn [bind]. rewrite Nat.eqb_refl. cbn [negb pt_poly p_ctx poly_of]. rewrite ctx_eqb_refl. reflexivity.
  Qed.
  Lemma pt_validate_ctx_eq e v x : pt_validate_for_context (mkPt par e (poly_of Ntt c v x)) par l c = Val tt.
  Proof.
    unfold pt_validate_for_context. cbn [pt_par]. unfold par_same. rewrite Z.eqb_refl. cbn [negb].
    unfold pt_validate_context. rewrite pt_level_eq. cbn [bind]. rewrite Nat.eqb_refl. cbn [negb pt_poly p_ctx poly_of]. rewrite ctx_eqb_refl. reflexivity.
  Qed.

  (** [pb_from_u64] on vectors of full length; a single modulus stores the values unreduced. *)
  Lemma from_u64_full v vt : length v = N -> Forall is_u64 v -> (2 <= length (c_moduli c))%nat \/ canonical Q v ->
    pb_from_u64 c v vt = Val (poly_of PowerBasis c vt v).
  Proof.
    intros Lv Hv H. pose proof al_N8. assert (Hl1 : (1 <= length (c_moduli c))%nat).
    { rewrite al_moduli_length. pose proof (al_lt _ _ _ _ _ _ A). lia. }
    destruct (Nat.eq_dec (length (c_moduli c)) 1) as [E1|E1].
    - destruct H as [H|H]; [lia|]. unfold pb_from_u64. rewrite (q_length c Hc). assert (Hml : length (c_moduli c) = length (c_ops c)) by (rewrite (moduli_ops c Hc); apply map_length).
      rewrite <- Hml, E1, Hdeg, Lv, Nat.mul_1_l, Nat.eqb_refl. unfold rows_of. rewrite (q_length c Hc), <- Hml, E1, Hdeg. cbn [chunks_n fst].
      unfold poly_of. f_equal. f_equal. pose proof (moduli_ops c Hc) as Em. destruct (c_ops c) as [|op [|? ?]]; cbn [length] in *; try lia. cbn [map row].
      rewrite <- Lv, firstn_all. f_equal. rewrite <- Hmod, Em in H. cbn [map prod_list] in H. rewrite Z.mul_1_r in H. clear -H. induction H as [|a v Ha _ IH]; [reflexivity|]. cbn [map]. f_equal; [symmetry; apply Z.mod_small, Ha|exact IH].
    - assert (E : pb_from_u64 c v vt = Val (poly_of PowerBasis c vt (padded c v))).
      { apply from_u64_eq; [exact Hc|rewrite Hdeg; lia|exact Hv|rewrite Hdeg, Lv; nia]. }
      rewrite (padded_full c v) in E by (rewrite Hdeg; exact Lv). exact E.
  Qed.
  Lemma from_u64_short v vt : (length v < N)%nat -> Forall is_u64 v -> pb_from_u64 c v vt = Val (poly_of PowerBasis c vt (padded c v)).
  Proof. intros Lv Hv. apply from_u64_eq; [exact Hc|rewrite Hdeg; lia|exact Hv|]. rewrite al_moduli_length. pose proof (al_lt _ _ _ _ _ _ A). rewrite Hdeg. nia. Qed.

  (** ** Coefficients *)
  Definition plain_base : Z :=
    match pa_small par with
    | Some _ => if t <? hd 0 (pa_moduli par) then hd 0 (pa_moduli par) else Q
    | None => Q
    end.
  Definition coeffs_of (x : list Z) : list Z := map (fun a => (a mod plain_base) mod t) x.
  Lemma small_eq m : pa_small par = Some m -> valid_modulus m /\ mod_p m = t.
  Proof. intros E. pose proof (gp_small _ _ _ G) as H. rewrite E in H. destruct H as (H & _). apply modulus_new_valid in H. destruct H. split; [assumption|congruence]. Qed.
  Lemma small_bound m : pa_small par = Some m -> t < W62.
  Proof. intros E. destruct (small_eq m E) as (V & <-). apply valid_fields in V. apply V. Qed.
  Lemma plain_base_pos : 2 <= plain_base.
  Proof. unfold plain_base. destruct al_q0 as (q0 & rest & _ & E & P & _). pose proof al_Qpos. destruct (pa_small par); [|assumption]. assert (Eh : hd 0 (pa_moduli par) = q0) by (rewrite E; reflexivity). rewrite Eh. destruct (Z.ltb_spec t q0); [apply prime_ge_2, P|assumption]. Qed.
  Theorem coefficients_eq e v x : length x = N ->
    coefficients (mkPt par e (poly_of Ntt c v x)) = Val (match pa_small par with Some _ => Small (coeffs_of x) | None => Large (coeffs_of x) end).
  Proof.
    intros Lx. unfold coefficients. cbn [pt_poly pt_par]. rewrite (ntt_pb_eq c Hc) by (rewrite Hdeg; assumption). cbn [bind]. pose proof (gp_t _ _ _ G) as Ht.
    unfold coeffs_of, plain_base. destruct (pa_small par) as [m|] eqn:Em.
    - destruct (small_eq m Em) as (V & Ep). destruct al_q0 as (q0 & rest & El & E & P & Hq). cbn [p_ctx poly_of]. rewrite Hmod, El. assert (Eh : hd 0 (pa_moduli par) = q0) by (rewrite E; reflexivity). rewrite Eh, Ep.
      destruct (Z.ltb_spec t q0) as [Hlt|Hge].
      + unfold poly_to_u64. cbn [p_coeffs poly_of]. pose proof (moduli_ops c Hc) as Eo. rewrite Hmod, El in Eo. destruct (c_ops c) as [|op ops]; [discriminate|]. cbn [map] in Eo. injection Eo as Eq _.
        cbn [map concat row]. unfold slice_to. destruct (Nat.leb_spec N (length (map (fun v0 : Z => v0 mod mod_p (nt_p op)) x ++ concat (map (fun op0 => map (fun v0 : Z => v0 mod mod_p (nt_p op0)) x) ops)))) as [_|H].
        2: { rewrite app_length, map_length in H. lia. }
        rewrite firstn_app, map_length, Lx, Nat.sub_diag, app_nil_r. rewrite <- Lx, <- (map_length (fun v0 : Z => v0 mod mod_p (nt_p op)) x), firstn_all. cbn [bind].
        rewrite <- Eq. cbn [guard bind]. destruct (reduce_vec_spec m V (map (fun v0 => v0 mod q0) x)) as (-> & _).
        { apply Forall_forall. intros z Hz. apply in_map_iff in Hz. destruct Hz as (y & <- & _). pose proof (Z.mod_pos_bound y q0). unfold is_u64. assert (W62 < W64) by reflexivity. lia. }
        cbn [bind]. rewrite Ep. unfold rmod. rewrite map_map. reflexivity.
      + rewrite (to_big_eq c Hc) by (rewrite Hdeg; assumption). cbn [bind]. unfold reduce_big. replace (t =? 0) with false by (symmetry; apply Z.eqb_neq; lia). cbn [negb guard bind]. rewrite al_Q. unfold rmod. rewrite map_map.
        rewrite mapM_map with (r := fun a => (a mod Q) mod t); [rewrite El; reflexivity|]. intros a _. unfold to_u64. pose proof (Z.mod_pos_bound (a mod Q) t ltac:(lia)). pose proof (small_bound m Em). assert (W62 < W64) by reflexivity. apply chk_val. lia.
    - rewrite (to_big_eq c Hc) by (rewrite Hdeg; assumption). cbn [bind]. unfold reduce_big. replace (t =? 0) with false by (symmetry; apply Z.eqb_neq; lia). cbn [negb guard bind]. rewrite al_Q. unfold rmod. rewrite map_map. reflexivity.
  Qed.

  (** ** Message scaling *)
  Lemma coeffs_canonical x : canonical t (coeffs_of x).
  Proof. pose proof (gp_t _ _ _ G) as Ht. apply Forall_forall. intros z Hz. apply in_map_iff in Hz. destruct Hz as (a & <- & _). apply Z.mod_pos_bound. lia. Qed.
  Lemma coeffs_length x : length (coeffs_of x) = length x.
  Proof. apply map_length. Qed.
  Lemma coeffs_id x : canonical t x -> t <= Q -> coeffs_of x = x.
  Proof.
    intros Hx HtQ. unfold coeffs_of. pose proof (gp_t _ _ _ G) as Ht. induction Hx as [|a x Ha _ IH]; [reflexivity|]. cbn [map]. f_equal; [|exact IH].
    assert (t <= plain_base). { unfold plain_base. destruct (pa_small par); [|assumption]. destruct (Z.ltb_spec t (hd 0 (pa_moduli par))); lia. }
    rewrite (Z.mod_small a) by lia. apply Z.mod_small, Ha.
  Qed.
  Lemma scaled_cong d a : cong Q (d * t) (-1) -> cong Q (d * ((a * (Q mod t)) mod t)) (Q * a / t).
  Proof.
    intros Hd. pose proof (gp_t _ _ _ G) as Ht. pose proof al_Qpos. replace ((a * (Q mod t)) mod t) with ((Q * a) mod t) by (rewrite (Z.mul_comm a), Zmult_mod_idemp_l; reflexivity).
    rewrite Z.mod_eq by lia. replace (d * (Q * a - t * (Q * a / t))) with (Q * (d * a) - (d * t) * (Q * a / t)) by ring.
    apply cong_trans with (0 - (-1) * (Q * a / t)); [|apply cong_eq; ring]. apply cong_sub.
    - apply cong_0_divide; [lia|]. apply Z.divide_factor_l.
    - apply cong_mul; [exact Hd|apply cong_refl].
  Qed.
  Lemma padded_scale d : padded c [d] = lscale d (lone N).
  Proof. unfold padded. rewrite Hdeg. pose proof al_N8. destruct N as [|n]; [lia|]. cbn [lone lscale map app length]. rewrite Nat.sub_succ, Nat.sub_0_r, map_repeat, Z.mul_0_r, Z.mul_1_r. reflexivity. Qed.
  Theorem to_poly_eq e v x : length x = N -> t <= Q ->
    to_poly (mkPt par e (poly_of Ntt c v x)) = Val (poly_of Ntt c false (map (fun a => Q * a / t) (coeffs_of x))).
  Proof.
    intros Lx HtQ. unfold to_poly. rewrite pt_level_eq. cbn [bind pt_par]. rewrite (al_lv _ _ _ _ _ _ A). cbn [unwrap bind]. rewrite coefficients_eq by exact Lx. cbn [bind].
    destruct (al_gl _ _ _ _ _ _ A) as (plain & _ & _ & _ & _ & GL). pose proof (gl_cp _ _ _ _ _ _ _ _ GL) as GC. fold (level_moduli (pa_moduli par) l) in GC.
    rewrite (gc_qmodt _ _ _ _ _ _ _ GC). destruct (gc_delta _ _ _ _ _ _ _ GC) as (d & Hd & Ed & Epd). rewrite <- (gl_ctx _ _ _ _ _ _ _ _ GL), (al_ctx _ _ _ _ _ _ A) in Epd. rewrite Epd, (al_ctx _ _ _ _ _ _ A).
    pose proof (gp_t _ _ _ G) as Ht. pose proof (Z.mod_pos_bound Q t ltac:(lia)) as Hqt. set (m := coeffs_of x). assert (Hm : canonical t m) by apply coeffs_canonical. assert (Lm : length m = N) by (unfold m; rewrite coeffs_length; exact Lx).
    set (y := map (fun a => (a * (Q mod t)) mod t) m). assert (Ly : length y = N) by (unfold y; rewrite map_length; exact Lm).
    assert (Cy : canonical Q y). { apply Forall_forall. intros z Hz. apply in_map_iff in Hz. destruct Hz as (a & <- & _). pose proof (Z.mod_pos_bound (a * (Q mod t)) t ltac:(lia)). lia. }
    assert (E : bind match pa_small par with Some _ => Val tt | None => Val tt end (fun _ => Val tt) = Val tt) by (destruct (pa_small par); reflexivity). clear E.
    assert (Hfin : pb_into_ntt (poly_of PowerBasis c false y) = Val (poly_of Ntt c false y)) by (apply (pb_ntt_eq c Hc); rewrite Hdeg; exact Ly).
    assert (Hfin2 : poly_mul_shoup (poly_of Ntt c false y) (poly_of NttShoup c true (padded c [d])) = Val (poly_of Ntt c false (map (fun a => Q * a / t) m))).
    { rewrite (mul_shoup_eq c Hc); [|rewrite Hdeg; exact Ly|apply padded_length; rewrite Hdeg; pose proof al_N8; cbn [length]; lia]. f_equal. rewrite andb_false_l. rewrite Hdeg, padded_scale.
      rewrite nmul_scale_r by apply lone_length. rewrite nmul_one_r by exact Ly. apply (poly_of_eq c Hc); [rewrite lscale_length, Hdeg; exact Ly|rewrite map_length, Hdeg; exact Lm|]. split; [reflexivity|].
      fold (modulus_of c). rewrite al_Q. unfold y, lscale. rewrite map_map. clear - Ed G A Ho. induction m as [|a m IH]; [constructor|]. cbn [map]. constructor; [|exact IH]. apply scaled_cong, Ed. }
    destruct (pa_small par) as [mt|] eqn:Es.
    - destruct (small_eq mt Es) as (V & Ep). pose proof (small_bound mt Es). assert (W62 < W64) by reflexivity. cbn [unwrap bind]. unfold to_u64. rewrite chk_val by lia. cbn [bind].
      destruct (scalar_mul_vec_spec mt V m (Q mod t)) as (-> & _).
      { eapply Forall_impl; [|exact Hm]. cbv beta. unfold is_u64. intros. lia. }
      { rewrite Ep. exact Hqt. }
      cbn [bind]. rewrite Ep. fold y. rewrite from_u64_full; [|exact Ly| |right; exact Cy].
      2: { apply Forall_forall. intros z Hz. apply in_map_iff in Hz. destruct Hz as (a & <- & _). pose proof (Z.mod_pos_bound (a * (Q mod t)) t ltac:(lia)). unfold is_u64. lia. }
      cbn [bind]. rewrite Hfin. cbn [bind]. exact Hfin2.
    - unfold reduce_big. replace (t =? 0) with false by (symmetry; apply Z.eqb_neq; lia). cbn [negb guard bind]. rewrite map_map. fold y.
      rewrite (from_big_eq c Hc) by (rewrite Hdeg; lia). rewrite padded_full by (rewrite Hdeg; exact Ly). cbn [bind]. rewrite Hfin. cbn [bind]. exact Hfin2.
  Qed.

  (** ** Encoding and decoding *)
  Definition zpad (v : list Z) : list Z := v ++ repeat 0 (N - length v).
  Lemma zpad_length v : (length v <= N)%nat -> length (zpad v) = N.
  Proof. intros H. unfold zpad. rewrite app_length, repeat_length. lia. Qed.
  Lemma zpad_forall (P : Z -> Prop) v : P 0 -> Forall P v -> Forall P (zpad v).
  Proof. intros H0 H. unfold zpad. apply Forall_app. split; [exact H|]. apply Forall_forall. intros z Hz. apply repeat_spec in Hz. subst. exact H0. Qed.

  Lemma encode_one chunk v e : (length v <= N)%nat -> e_level e = l -> (e_kind e = EncSimd -> pa_ntt par <> None) ->
    encode_with chunk v e par = bind (chunk v e par c) (fun p => Val [mkPt par (Some e) p]).
  Proof.
    intros Lv El Hs. unfold encode_with.
    assert (Hrest : bind (par_context par (e_level e)) (fun c => guard (negb (Nat.eqb N 0)) ;;;
        let n := Nat.max (Z.to_nat (div_ceil (len v) (Z.of_nat N))) 1 in
        mapM (fun i => p <- chunk (firstn N (skipn (i * N) v)) e par c ;; Val (mkPt par (Some e) p)) (seq 0 n)) =
      bind (chunk v e par c) (fun p => Val [mkPt par (Some e) p])).
    { rewrite El, al_par_context. cbn [bind]. pose proof al_N8. destruct (Nat.eqb_spec N 0); [lia|]. cbn [negb guard bind]. cbv zeta.
      replace (Nat.max (Z.to_nat (div_ceil (len v) (Z.of_nat N))) 1) with 1%nat.
      2: { unfold div_ceil, len. assert ((Z.of_nat (length v) + Z.of_nat N - 1) / Z.of_nat N < 2) by (apply Z.div_lt_upper_bound; lia). assert (0 <= (Z.of_nat (length v) + Z.of_nat N - 1) / Z.of_nat N) by (apply Z.div_pos; lia). lia. }
      cbn [seq mapM]. rewrite Nat.mul_0_l. cbn [skipn]. rewrite firstn_all2 by lia. destruct (chunk v e par c); reflexivity. }
    destruct (e_kind e) eqn:Ek; [exact Hrest|]. destruct (pa_ntt par); [exact Hrest|]. exfalso. apply Hs; reflexivity.
  Qed.
  Theorem encode_u64_poly vt v e : e_kind e = EncPoly -> e_level e = l -> (length v <= N)%nat -> Forall is_u64 v ->
    (2 <= length (c_moduli c))%nat \/ canonical Q v ->
    encode_u64 vt v e par = Val (mkPt par (Some e) (poly_of Ntt c vt (zpad v))).
  Proof.
    intros Ek El Lv Hv H. unfold encode_u64. destruct (Nat.ltb_spec N (length v)); [lia|]. unfold encode_vec_u64. rewrite encode_one by (auto; congruence).
    unfold encode_u64_chunk. rewrite Ek. destruct (Nat.leb_spec (length v) N); [|lia]. cbn [guard bind]. fold (zpad v). pose proof al_Qpos.
    rewrite from_u64_full; [|apply zpad_length, Lv|apply zpad_forall; [unfold is_u64; lia|exact Hv]|destruct H as [H|H]; [left; exact H|right; apply zpad_forall; [lia|exact H]]].
    cbn [bind]. rewrite (pb_ntt_eq c Hc) by (rewrite Hdeg; apply zpad_length, Lv). reflexivity.
  Qed.
  Theorem encode_big_poly v e : e_kind e = EncPoly -> e_level e = l -> (length v <= N)%nat ->
    encode_big v e par = Val (mkPt par (Some e) (poly_of Ntt c false (zpad v))).
  Proof.
    intros Ek El Lv. unfold encode_big. destruct (Nat.ltb_spec N (length v)); [lia|]. unfold encode_vec_big. rewrite encode_one by (auto; congruence).
    unfold encode_big_chunk. rewrite Ek. destruct (Nat.leb_spec (length v) N); [|lia]. cbn [guard bind]. fold (zpad v).
    rewrite (from_big_eq c Hc) by (rewrite zpad_length by exact Lv; rewrite Hdeg; lia). rewrite padded_full by (rewrite zpad_length by exact Lv; rewrite Hdeg; reflexivity).
    cbn [bind]. rewrite (pb_ntt_eq c Hc) by (rewrite Hdeg; apply zpad_length, Lv). reflexivity.
  Qed.

  (** Slots *)
  Lemma place_slots_spec : forall idx v w, NoDup idx -> Forall (fun i => (i < length w)%nat) idx -> (length v <= length idx)%nat ->
    exists w', place_slots idx v w = Val w' /\ length w' = length w /\ (forall i, (i < length v)%nat -> nth (nth i idx O) w' 0 = nth i v 0) /\
      (forall k, ~ In k (firstn (length v) idx) -> nth k w' 0 = nth k w 0) /\ (forall P : Z -> Prop, Forall P v -> Forall P w -> Forall P w').
  Proof.
    clear. induction idx as [|i idx IH]; intros [|x v] w Hn Hi Hl; try (cbn in Hl; lia).
    - exists w. cbn [place_slots length]. repeat split; auto; intros; lia.
    - exists w. cbn [place_slots length]. repeat split; auto; intros; lia.
    - inversion Hn as [|? ? Hni Hnd]; subst. inversion Hi as [|? ? Hlt Hi']; subst. cbn [place_slots]. destruct (Nat.ltb_spec i (length w)); [|lia]. cbn [guard bind].
      destruct (IH v (set_nth w i x) Hnd) as (w' & Ew & Lw & Hv & Ho & HP); [rewrite set_nth_length; exact Hi'|cbn in Hl; lia|]. rewrite set_nth_length in Lw.
      exists w'. split; [exact Ew|]. split; [exact Lw|]. split; [|split].
      + intros [|j] Hj; cbn [nth].
        * rewrite Ho; [rewrite nth_set_nth by lia; rewrite Nat.eqb_refl; reflexivity|]. intros Hin. apply Hni. rewrite <- (firstn_skipn (length v) idx). apply in_or_app. left. exact Hin.
        * apply Hv. cbn in Hj. lia.
      + intros k Hk. cbn [length firstn In] in Hk. rewrite Ho by (intros Hin; apply Hk; right; exact Hin). rewrite nth_set_nth by lia. destruct (Nat.eqb_spec k i); [|reflexivity]. subst. exfalso. apply Hk. left. reflexivity.
      + intros P Hp Hw. inversion Hp; subst. apply HP; [assumption|]. clear -Hw H2. revert i. induction Hw; intros [|i]; cbn [set_nth]; constructor; auto.
  Qed.
  Lemma index_facts : length (pa_index par) = N /\ NoDup (pa_index par) /\ Forall (fun i => (i < N)%nat) (pa_index par).
  Proof.
    destruct (gp_deg _ _ _ G) as (K & HK & EK & Ei). rewrite Ei, EK. pose proof (index_map_perm K ltac:(lia)) as P.
    split; [rewrite map_length, seq_length; reflexivity|]. split; [apply (Permutation_NoDup (Permutation_sym P)), seq_NoDup|].
    apply Forall_forall. intros i Hi. apply (Permutation_in _ P) in Hi. apply in_seq in Hi. lia.
  Qed.
  Lemma ntt_facts op : pa_ntt par = Some op -> exists m, pa_small par = Some m /\ modulus_new t = Val m /\ ntt_new isp (cands t) m N = Val (Some op).
  Proof. intros E. pose proof (gp_small _ _ _ G) as H. destruct (pa_small par) as [m|]; [|destruct H; congruence]. exists m. destruct H as (H1 & H2). rewrite E in H2. auto. Qed.
  Lemma read_slots v w : (length v <= N)%nat -> length w = N -> (forall i, (i < length v)%nat -> nth (nth i (pa_index par) O) w 0 = nth i v 0) ->
    (forall k, ~ In k (firstn (length v) (pa_index par)) -> nth k w 0 = 0) -> mapM (get w) (pa_index par) = Val (zpad v).
  Proof.
    intros Lv Lw Hv Hz. destruct index_facts as (Li & Hnd & Hlt).
    assert (E : mapM (get w) (pa_index par) = Val (map (fun i => nth i w 0) (pa_index par))).
    { rewrite <- (map_id (pa_index par)) at 1. apply mapM_map. intros i Hi. rewrite Forall_forall in Hlt. apply get_nth. rewrite Lw. apply Hlt, Hi. }
    rewrite E. f_equal. apply (nth_ext _ _ 0 0); [rewrite map_length, zpad_length by exact Lv; exact Li|]. intros i Hi. rewrite map_length in Hi.
    rewrite (nth_indep _ 0 (nth O w 0)) by (rewrite map_length; exact Hi). rewrite (map_nth (fun i => nth i w 0)). unfold zpad. destruct (Nat.lt_ge_cases i (length v)) as [Hiv|Hiv].
    - rewrite app_nth1 by exact Hiv. apply Hv, Hiv.
    - rewrite app_nth2 by exact Hiv. rewrite nth_repeat. apply Hz. intros Hin. apply In_nth with (d := O) in Hin. destruct Hin as (j & Hj & Ej). rewrite firstn_length in Hj.
      rewrite nth_firstn_lt in Ej by lia. apply (proj1 (NoDup_nth (pa_index par) O) Hnd) in Ej; lia.
  Qed.
  Theorem encode_u64_simd vt v e op : e_kind e = EncSimd -> e_level e = l -> (length v <= N)%nat -> canonical t v -> pa_ntt par = Some op -> t <= Q ->
    exists b, length b = N /\ canonical t b /\ encode_u64 vt v e par = Val (mkPt par (Some e) (poly_of Ntt c vt b)) /\
      encode_big v e par = Val (mkPt par (Some e) (poly_of Ntt c false b)) /\
      bind (ntt_forward op b) (fun w => mapM (get w) (pa_index par)) = Val (zpad v).
  Proof.
    intros Ek El Lv Hv Eop HtQ. destruct (ntt_facts op Eop) as (m & Es & Em & En). destruct Ho as (H1 & H2). pose proof (gp_t _ _ _ G) as Ht. pose proof (small_bound m Es).
    destruct index_facts as (Li & Hnd & Hlt). destruct (place_slots_spec (pa_index par) v (repeat 0 N)) as (w & Ew & Lw & Hw & Hwo & HP); [exact Hnd|rewrite repeat_length; exact Hlt|lia|]. rewrite repeat_length in Lw.
    assert (Cw : canonical t w). { apply HP; [exact Hv|]. apply Forall_forall. intros z Hz. apply repeat_spec in Hz. lia. }
    destruct (inverse_all isp H1 t m Em (cands t) (H2 t) N op En w Lw Cw) as (_ & (b & Eb & Lb & Cb & Ef)).
    assert (Evt : ntt_backward_vt op w = Val b).
    { destruct (variants_all isp H1 t m Em (cands t) (H2 t) N op En w Lw) as (_ & V). destruct V as (b' & E1 & E2 & _); [eapply Forall_impl; [|exact Cw]; cbv beta; intros; lia|]. congruence. }
    assert (Hchunk : forall vt, encode_u64_chunk vt v e par c = Val (poly_of Ntt c vt b)).
    { intros vt'. unfold encode_u64_chunk. rewrite Ek, Ew. cbn [bind]. rewrite Eop. cbn [ok_or bind]. replace (if vt' then ntt_backward_vt op w else ntt_backward op w) with (Val b) by (destruct vt'; congruence). cbn [bind].
      rewrite from_u64_full; [|exact Lb| |right; eapply Forall_impl; [|exact Cb]; cbv beta; intros; lia].
      2: { eapply Forall_impl; [|exact Cb]. cbv beta. unfold is_u64. assert (W62 < W64) by reflexivity. intros. lia. }
      cbn [bind]. apply (pb_ntt_eq c Hc). rewrite Hdeg. exact Lb. }
    exists b. split; [exact Lb|]. split; [exact Cb|]. split; [|split].
    - unfold encode_u64. destruct (Nat.ltb_spec N (length v)); [lia|]. unfold encode_vec_u64. rewrite encode_one by (auto; congruence). rewrite Hchunk. reflexivity.
    - unfold encode_big. destruct (Nat.ltb_spec N (length v)); [lia|]. unfold encode_vec_big. rewrite encode_one by (auto; congruence). unfold encode_big_chunk. rewrite Ek.
      assert (E : mapM big_to_u64 v = Val v). { rewrite <- (map_id v) at 1. rewrite <- (map_id v) at 2. apply mapM_map. intros a Ha. unfold canonical in Hv. rewrite Forall_forall in Hv. apply Hv in Ha. unfold big_to_u64. assert (W62 < W64) by reflexivity. destruct (Z.ltb_spec a W64); [reflexivity|lia]. }
      rewrite E. cbn [bind]. rewrite Hchunk. reflexivity.
    - rewrite Ef. cbn [bind]. apply read_slots; [exact Lv|exact Lw|exact Hw|]. intros k Hk. rewrite Hwo by exact Hk. apply nth_repeat.
  Qed.

  (** Decoding a polynomial plaintext *)
  Lemma resolve_same e o : o = None \/ o = Some e -> resolve_encoding (mkPt par (Some e) (poly_zero Ntt c)) o = Val e.
  Proof. intros [-> | -> ]; unfold resolve_encoding; cbn [pt_enc]; [reflexivity|]. unfold enc_eqb. destruct (e_kind e); rewrite Nat.eqb_refl; reflexivity. Qed.
  Lemma resolve_poly s p q o : resolve_encoding (mkPt par s p) o = resolve_encoding (mkPt par s q) o.
  Proof. reflexivity. Qed.
  Theorem decode_poly s o e v x : resolve_encoding (mkPt par s (poly_of Ntt c v x)) o = Val e -> e_kind e = EncPoly -> length x = N ->
    decode_big (mkPt par s (poly_of Ntt c v x)) o = Val (coeffs_of x) /\
    decode_u64 (mkPt par s (poly_of Ntt c v x)) o = match pa_small par with Some _ => Val (coeffs_of x) | None => mapM big_to_u64 (coeffs_of x) end.
  Proof.
    intros E Ek Lx. unfold decode_big, decode_u64. rewrite E. cbn [bind]. rewrite coefficients_eq by exact Lx. cbn [bind]. rewrite Ek. split; [destruct (pa_small par); reflexivity|].
    destruct (pa_small par); [reflexivity|]. destruct (mapM big_to_u64 (coeffs_of x)); reflexivity.
  Qed.
  Lemma small_u64 m v : pa_small par = Some m -> canonical t v -> mapM big_to_u64 v = Val v.
  Proof.
    intros Es Hv. rewrite <- (map_id v) at 1. rewrite <- (map_id v) at 2. apply mapM_map. intros a Ha. unfold canonical in Hv. rewrite Forall_forall in Hv. apply Hv in Ha. unfold big_to_u64.
    pose proof (small_bound m Es). assert (W62 < W64) by reflexivity. destruct (Z.ltb_spec a W64); [reflexivity|lia].
  Qed.
  Theorem decode_simd s o e v x op : resolve_encoding (mkPt par s (poly_of Ntt c v x)) o = Val e -> e_kind e = EncSimd -> length x = N -> pa_ntt par = Some op ->
    decode_big (mkPt par s (poly_of Ntt c v x)) o = bind (ntt_forward op (coeffs_of x)) (fun w => mapM (get w) (pa_index par)) /\
    decode_u64 (mkPt par s (poly_of Ntt c v x)) o = bind (ntt_forward op (coeffs_of x)) (fun w => mapM (get w) (pa_index par)).
  Proof.
    intros E Ek Lx Eop. destruct (ntt_facts op Eop) as (m & Es & _). unfold decode_big, decode_u64. rewrite E. cbn [bind]. rewrite coefficients_eq by exact Lx. rewrite Es. cbn [bind]. rewrite Ek.
    rewrite (small_u64 m _ Es (coeffs_canonical x)). cbn [bind]. unfold decode_simd_u64. cbn [pt_par]. rewrite Eop. cbn [ok_or bind]. split; reflexivity.
  Qed.
  Definition centered (a : Z) : Z := if t / 2 <=? a then a - t else a.
  Lemma decode_i64_small m pt o v : pt_par pt = par -> pa_small par = Some m -> decode_u64 pt o = Val v -> canonical t v -> decode_i64 pt o = Val (map centered v).
  Proof.
    intros Ep Es E Hv. unfold decode_i64. rewrite Ep, Es, E. cbn [bind]. unfold center_vec. rewrite <- (map_id v) at 1. apply mapM_map. intros a Ha. destruct (small_eq m Es) as (V & Et). unfold canonical in Hv. rewrite Forall_forall in Hv.
    rewrite (center_spec m V a) by (rewrite Et; apply Hv, Ha). rewrite Et. reflexivity.
  Qed.
  Lemma encode_i64_small m v e : pa_small par = Some m -> Forall is_i64 v -> encode_i64 v e par = encode_u64 false (map (fun x => x mod t) v) e par.
  Proof. intros Es Hv. unfold encode_i64. rewrite Es. destruct (small_eq m Es) as (V & Et). destruct (reduce_vec_i64_spec m V v Hv) as (-> & _). cbn [bind]. rewrite Et. reflexivity. Qed.
  Lemma encode_i64_big v e : pa_small par = None -> encode_i64 v e par = encode_big (map (fun x => x mod t) v) e par.
  Proof.
    intros Es. pose proof (gp_t _ _ _ G) as Ht. unfold encode_i64. rewrite Es. replace (t =? 0) with false by (symmetry; apply Z.eqb_neq; lia). cbn [negb guard bind]. f_equal. apply map_ext. intros x. cbv zeta.
    pose proof (Z.quot_rem' x t). destruct (Z.ltb_spec (Z.rem x t) 0) as [Hneg|Hpos].
    - apply Z.mod_unique_pos with (q := Z.quot x t - 1); [|lia]. pose proof (Z.rem_bound_abs x t ltac:(lia)). lia.
    - apply Z.mod_unique_pos with (q := Z.quot x t); [|lia]. pose proof (Z.rem_bound_abs x t ltac:(lia)). lia.
  Qed.
End Level.
