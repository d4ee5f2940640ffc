(** Rows of a polynomial: the residues of an integer polynomial modulo one prime, in each representation. *)
From Verif Require Import Outcome BasicSpec OutcomeLemmas ZqModel ZqProofs ZqPow NumTheory NttModel PolySpec PolyRing NttPure NttStages NttProofs.
From Verif Require Import RnsModel RnsSpec RnsProofs RqModel RqSpec RqCtx.
From Coq Require Import Znumtheory.

Definition lsub (a b : list Z) : list Z := zipWith Z.sub a b.
Lemma lsub_opp a : forall b, lsub a b = ladd a (lopp b).
Proof. induction a as [|x a IH]; intros [|y b]; try reflexivity. cbn [lsub zipWith ladd lopp map]. f_equal. apply IH. Qed.
Lemma lsub_length a b n : length a = n -> length b = n -> length (lsub a b) = n.
Proof. intros. unfold lsub. rewrite zipWith_length. lia. Qed.
Lemma lopp_lscale a : lopp a = lscale (-1) a.
Proof. symmetry. apply lscale_m1. Qed.

Lemma rmod_ladd p a : forall b, rmod p (ladd a b) = zipWith (fun x y => (x + y) mod p) (rmod p a) (rmod p b).
Proof. induction a as [|x a IH]; intros [|y b]; try reflexivity. cbn [ladd zipWith rmod map]. f_equal; [apply Zplus_mod|apply IH]. Qed.
Lemma rmod_lsub p a : forall b, rmod p (lsub a b) = zipWith (fun x y => (x - y) mod p) (rmod p a) (rmod p b).
Proof. induction a as [|x a IH]; intros [|y b]; try reflexivity. cbn [lsub zipWith rmod map]. f_equal; [apply Zminus_mod|apply IH]. Qed.
Lemma rmod_lscale p c a : rmod p (lscale c a) = map (fun x => (c * x) mod p) (rmod p a).
Proof. unfold rmod, lscale. rewrite !map_map. apply map_ext. intros x. rewrite Zmult_mod_idemp_r. reflexivity. Qed.
Lemma rmod_rmod p a : rmod p (rmod p a) = rmod p a.
Proof. unfold rmod. rewrite map_map. apply map_ext. intros x. apply Zmod_mod. Qed.
Lemma canonical_u64 m l : valid_modulus m -> canonical (mod_p m) l -> Forall is_u64 l.
Proof. intros Hm H. destruct (valid_fields m Hm) as (Hp & _). assert (W62 * 4 = W64) by reflexivity. apply Forall_impl with (2 := H). unfold is_u64. intros; lia. Qed.
Lemma canonical_below p b l : p <= b -> canonical p l -> below b l.
Proof. intros H. apply Forall_impl. intros; lia. Qed.

Section Row.
  Variables (op : ntt_op) (K : nat) (w : Z) (Hok : ntt_ok op K w).
  Notation m := (nt_p op).
  Notation p := (mod_p m).
  Notation n := (nt_size op).
  Let Hm : valid_modulus m := ok_m _ _ _ Hok.
  Let Hp : 2 <= p < W62 := proj1 (valid_fields m Hm).

  Lemma n_ge8 : (8 <= n)%nat.
  Proof. rewrite (ok_size _ _ _ Hok). pose proof (ok_K _ _ _ Hok). apply (Nat.pow_le_mono_r 2 3 K); lia. Qed.
  Lemma ntt_root_w : ntt_root op = w.
  Proof.
    unfold ntt_root. rewrite (ok_om _ _ _ Hok), (ok_size _ _ _ Hok). pose proof (ok_K _ _ _ Hok) as HK. destruct K as [|k]; [lia|].
    replace (2 ^ S k / 2)%nat with (2 ^ k)%nat by (cbn [Nat.pow]; rewrite (Nat.mul_comm 2), Nat.div_mul by lia; reflexivity).
    rewrite nth_map_seq by (apply Nat.pow_lt_mono_r; lia). rewrite nat_pow2_Z.
    replace (2 ^ Z.of_nat k) with (2 ^ Z.of_nat k + 0) by ring. rewrite bitrev_heap by lia. rewrite bitrev_0.
    replace (S k - 1 - k)%nat with O by lia. cbn [Z.of_nat]. rewrite Z.pow_0_r, Z.mul_0_r, Z.add_0_l, Z.mul_1_l, Z.pow_1_r. apply Z.mod_small, (ok_w _ _ _ Hok).
  Qed.
  Lemma evaluations_NTT x : length x = n -> evaluations op x = NTT op x.
  Proof.
    intros Hx. unfold evaluations. rewrite (log2_size op K w Hok), ntt_root_w. apply list_ext_Z.
    - rewrite map_length, seq_length, (NTT_length op K w Hok); auto.
    - rewrite map_length, seq_length. intros k Hk. rewrite nth_map_seq by exact Hk. symmetry. apply (NTT_eval op K w Hok); assumption.
  Qed.

  Section Each.
  Variable R : repn.
  Lemma row_length x : length x = n -> length (row R op x) = n.
  Proof. intros Hx. destruct R; cbn [row]; [rewrite map_length; exact Hx|rewrite evaluations_NTT by exact Hx; apply (NTT_length op K w Hok), Hx..]. Qed.
  Lemma row_canonical x : length x = n -> canonical p (row R op x).
  Proof. intros Hx. destruct R; cbn [row]; [apply rmod_canonical; lia|rewrite evaluations_NTT by exact Hx; apply (NTT_canonical op K w Hok)..]. Qed.
  Lemma row_u64 x : length x = n -> Forall is_u64 (row R op x).
  Proof. intros Hx. apply (canonical_u64 m); [exact Hm|apply row_canonical, Hx]. Qed.
  Lemma row_cong x y : length x = n -> length y = n -> row R op x = row R op y <-> lcong p x y.
  Proof.
    intros Hx Hy. destruct R; cbn [row].
    - symmetry. apply rmod_lcong.
    - rewrite !evaluations_NTT by assumption. split; [apply (NTT_inj op K w Hok); assumption|apply NTT_cong].
    - rewrite !evaluations_NTT by assumption. split; [apply (NTT_inj op K w Hok); assumption|apply NTT_cong].
  Qed.
  Lemma row_ladd x y : length x = n -> length y = n ->
    row R op (ladd x y) = zipWith (fun a b => (a + b) mod p) (row R op x) (row R op y).
  Proof.
    intros Hx Hy. pose proof (ladd_length x y n Hx Hy) as H.
    destruct R; cbn [row]; [apply rmod_ladd|rewrite !evaluations_NTT by assumption; apply (NTT_ladd op K w Hok); assumption..].
  Qed.
  Lemma row_lscale k x : length x = n -> row R op (lscale k x) = map (fun a => (k * a) mod p) (row R op x).
  Proof.
    intros Hx. pose proof (lscale_length k x) as H. rewrite Hx in H.
    destruct R; cbn [row]; [apply rmod_lscale|rewrite !evaluations_NTT by assumption; apply (NTT_lscale op K w Hok); assumption..].
  Qed.
  Lemma row_lopp x : length x = n -> row R op (lopp x) = map (fun a => (- a) mod p) (row R op x).
  Proof. intros Hx. rewrite lopp_lscale, row_lscale by exact Hx. apply map_ext. intros a. f_equal; ring. Qed.
  Lemma row_lsub x y : length x = n -> length y = n ->
    row R op (lsub x y) = zipWith (fun a b => (a - b) mod p) (row R op x) (row R op y).
  Proof.
    intros Hx Hy. rewrite lsub_opp, row_ladd, row_lopp by (try rewrite lopp_length; assumption). rewrite zipWith_map_r.
    generalize (row R op x) (row R op y). clear. induction l as [|a l IH]; intros [|b l']; try reflexivity. cbn [zipWith]. f_equal; [|apply IH].
    rewrite Zplus_mod_idemp_r. f_equal; ring.
  Qed.
  Lemma row_surj r : length r = n -> canonical p r -> exists x, length x = n /\ canonical p x /\ row R op x = r.
  Proof.
    intros Hl Hc. destruct R; cbn [row].
    - exists r. split; [exact Hl|]. split; [exact Hc|]. apply rmod_small, Hc.
    - exists (INTT op r). pose proof (INTT_length op K w Hok r Hl) as H. split; [exact H|]. split; [apply (INTT_canonical op K w Hok)|].
      rewrite evaluations_NTT by exact H. rewrite (NTT_INTT op K w Hok) by exact Hl. apply rmod_small, Hc.
    - exists (INTT op r). pose proof (INTT_length op K w Hok r Hl) as H. split; [exact H|]. split; [apply (INTT_canonical op K w Hok)|].
      rewrite evaluations_NTT by exact H. rewrite (NTT_INTT op K w Hok) by exact Hl. apply rmod_small, Hc.
  Qed.
  End Each.

  Lemma row_nmul x y : length x = n -> length y = n ->
    row Ntt op (nmul n x y) = zipWith (fun a b => (a * b) mod p) (row Ntt op x) (row Ntt op y).
  Proof. intros Hx Hy. cbn [row]. rewrite !evaluations_NTT by (try apply nmul_length; assumption). apply (NTT_nmul op K w Hok); assumption. Qed.

  Lemma fwd_row x (vt : bool) : length x = n -> (if vt then ntt_forward_vt op (row PowerBasis op x) else ntt_forward op (row PowerBasis op x)) = Val (row Ntt op x).
  Proof.
    intros Hx. pose proof (row_length PowerBasis x Hx) as Hl. pose proof (canonical_below p (4 * p) _ ltac:(lia) (row_canonical PowerBasis x Hx)) as Hb.
    assert (E : NTT op (row PowerBasis op x) = row Ntt op x).
    { cbn [row]. rewrite evaluations_NTT by exact Hx. apply NTT_cong. apply rmod_lcong. apply rmod_rmod. }
    destruct vt; [rewrite (forward_vt_NTT op K w Hok)|rewrite (forward_NTT op K w Hok)]; try assumption; rewrite E; reflexivity.
  Qed.
  Lemma bwd_row R x (vt : bool) : R <> PowerBasis -> length x = n -> (if vt then ntt_backward_vt op (row R op x) else ntt_backward op (row R op x)) = Val (row PowerBasis op x).
  Proof.
    intros HR Hx. pose proof (row_length R x Hx) as Hl. pose proof (canonical_below p (2 * p) _ ltac:(lia) (row_canonical R x Hx)) as Hb.
    assert (E : INTT op (row R op x) = row PowerBasis op x).
    { destruct R; [congruence|..]; cbn [row]; rewrite evaluations_NTT by exact Hx; apply (INTT_NTT op K w Hok), Hx. }
    destruct vt; [rewrite (backward_vt_INTT op K w Hok)|rewrite (backward_INTT op K w Hok)]; try assumption; rewrite E; reflexivity.
  Qed.
  Lemma shoup_row_vec R x : length x = n -> shoup_vec m (row R op x) = Val (shoup_row op (row R op x)).
  Proof. intros Hx. rewrite (shoup_vec_spec m Hm) by (apply row_canonical, Hx). reflexivity. Qed.
End Row.

(** Zip loops over rows indexed by the same list. *)
Lemma zip_upd_map {A B C} (f : A -> B -> M A) (g : C -> A) (h : C -> B) (r : C -> A) l :
  (forall a, In a l -> f (g a) (h a) = Val (r a)) -> zip_upd f (map g l) (map h l) = Val (map r l).
Proof.
  induction l as [|a l IH]; intros H; [reflexivity|]. cbn [map zip_upd]. rewrite (H a (or_introl eq_refl)). cbn [bind].
  rewrite IH by (intros; apply H; right; assumption). reflexivity.
Qed.
Lemma zip_upd3_map {A B C D} (f : A -> B -> C -> M A) (g : D -> A) (h : D -> B) (k : D -> C) (r : D -> A) l :
  (forall a, In a l -> f (g a) (h a) (k a) = Val (r a)) -> zip_upd3 f (map g l) (map h l) (map k l) = Val (map r l).
Proof.
  induction l as [|a l IH]; intros H; [reflexivity|]. cbn [map zip_upd3]. rewrite (H a (or_introl eq_refl)). cbn [bind].
  rewrite IH by (intros; apply H; right; assumption). reflexivity.
Qed.
Lemma map2M_map {A B C D} (f : A -> B -> M D) (g : C -> A) (h : C -> B) (r : C -> D) l :
  (forall a, In a l -> f (g a) (h a) = Val (r a)) -> map2M f (map g l) (map h l) = Val (map r l).
Proof.
  induction l as [|a l IH]; intros H; [reflexivity|]. cbn [map map2M]. rewrite (H a (or_introl eq_refl)). cbn [bind].
  rewrite IH by (intros; apply H; right; assumption). reflexivity.
Qed.
Lemma mapM_map {A B C} (f : A -> M B) (g : C -> A) (r : C -> B) l :
  (forall a, In a l -> f (g a) = Val (r a)) -> mapM f (map g l) = Val (map r l).
Proof.
  induction l as [|a l IH]; intros H; [reflexivity|]. cbn [map mapM]. rewrite (H a (or_introl eq_refl)). cbn [bind].
  rewrite IH by (intros; apply H; right; assumption). reflexivity.
Qed.
Lemma combine_map {A B C} (f : A -> B) (g : A -> C) l : combine (map f l) (map g l) = map (fun a => (f a, g a)) l.
Proof. induction l as [|a l IH]; [reflexivity|]. cbn [map combine]. f_equal. exact IH. Qed.
