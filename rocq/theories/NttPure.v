(** Algebra of the NTT stages, up to congruence modulo p. *)
From Verif Require Import Outcome OutcomeLemmas NumTheory PolySpec PolyRing.
From Coq Require Import Znumtheory.

Definition lcong (p : Z) : list Z -> list Z -> Prop := Forall2 (cong p).

Lemma lcong_refl p a : lcong p a a.
Proof. induction a; constructor; [reflexivity|assumption]. Qed.
Lemma lcong_trans p a b c : lcong p a b -> lcong p b c -> lcong p a c.
Proof.
  intros H. revert c. induction H as [|x y a b Hxy _ IH]; intros c Hc; inversion Hc; subst; constructor.
  - etransitivity; eassumption. - apply IH. assumption.
Qed.
Lemma lcong_sym p a b : lcong p a b -> lcong p b a.
Proof. induction 1; constructor; [symmetry|]; assumption. Qed.
Lemma lcong_length p a b : lcong p a b -> length a = length b.
Proof. apply Forall2_length_eq. Qed.
Lemma lcong_nth p a b k : lcong p a b -> cong p (nth k a 0) (nth k b 0).
Proof. intros H. revert k. induction H; intros [|k]; cbn [nth]; auto; reflexivity. Qed.
Lemma lcong_app p a b a' b' : lcong p a a' -> lcong p b b' -> lcong p (a ++ b) (a' ++ b').
Proof. apply Forall2_app. Qed.
Lemma lcong_zipWith p f a b a' b' :
  (forall x y x' y', cong p x x' -> cong p y y' -> cong p (f x y) (f x' y')) ->
  lcong p a a' -> lcong p b b' -> lcong p (zipWith f a b) (zipWith f a' b').
Proof.
  intros Hf Ha. revert b b'. induction Ha; intros b b' Hb; [constructor|].
  inversion Hb; subst; cbn [zipWith]; constructor; auto. apply IHHa. assumption.
Qed.
Lemma lcong_scale p c a b : lcong p a b -> lcong p (lscale c a) (lscale c b).
Proof. induction 1; constructor; [rewrite H; reflexivity|assumption]. Qed.
Lemma lcong_canonical p a b : canonical p a -> canonical p b -> lcong p a b -> a = b.
Proof.
  intros Ha Hb H. revert Ha Hb. induction H; intros Ha Hb; [reflexivity|]. inversion Ha; inversion Hb; subst.
  f_equal; [eapply cong_small; eassumption|auto].
Qed.
Lemma lcong_eval p a b x y : lcong p a b -> cong p x y -> cong p (eval a x) (eval b y).
Proof. intros H Hx. induction H as [|c d a b Hc _ IH]; cbn [eval]; [reflexivity|]. rewrite Hc, IH, Hx. reflexivity. Qed.
Lemma lcong_map_mod p a : lcong p (map (fun x => x mod p) a) a.
Proof. induction a; constructor; [apply cong_mod|assumption]. Qed.

(** One forward stage: blocks of length 2l, block i uses the i-th root. *)
Fixpoint fstage (l : nat) (ws : list Z) (a : list Z) : list Z :=
  match ws with
  | [] => []
  | w :: ws' =>
      let L := firstn l a in let R := firstn l (skipn l a) in
      zipWith (fun x y => x + w * y) L R ++ zipWith (fun x y => x - w * y) L R ++ fstage l ws' (skipn l (skipn l a))
  end.
(** One backward stage. *)
Fixpoint bstage (l : nat) (zs : list Z) (a : list Z) : list Z :=
  match zs with
  | [] => []
  | z :: zs' =>
      let L := firstn l a in let R := firstn l (skipn l a) in
      zipWith (fun x y => x + y) L R ++ zipWith (fun x y => (x - y) * z) L R ++ bstage l zs' (skipn l (skipn l a))
  end.

Lemma split3 l m (a : list Z) : length a = (S m * (2 * l))%nat ->
  exists L R rest, a = L ++ R ++ rest /\ length L = l /\ length R = l /\ length rest = (m * (2 * l))%nat.
Proof.
  intros H. exists (firstn l a), (firstn l (skipn l a)), (skipn l (skipn l a)).
  rewrite !firstn_skipn. split; [reflexivity|]. rewrite !firstn_length, !skipn_length. lia.
Qed.
Lemma firstn_app_exact {A} (L R : list A) l : length L = l -> firstn l (L ++ R) = L.
Proof. intros <-. rewrite firstn_app, Nat.sub_diag, firstn_all. cbn. apply app_nil_r. Qed.
Lemma skipn_app_exact {A} (L R : list A) l : length L = l -> skipn l (L ++ R) = R.
Proof. intros <-. rewrite skipn_app, Nat.sub_diag, skipn_all. reflexivity. Qed.

Lemma fstage_cons l w ws L R rest : length L = l -> length R = l ->
  fstage l (w :: ws) (L ++ R ++ rest) =
  zipWith (fun x y => x + w * y) L R ++ zipWith (fun x y => x - w * y) L R ++ fstage l ws rest.
Proof.
  intros HL HR. cbn [fstage]. rewrite (firstn_app_exact L), (skipn_app_exact L) by exact HL.
  rewrite (firstn_app_exact R), (skipn_app_exact R) by exact HR. reflexivity.
Qed.
Lemma bstage_cons l w ws L R rest : length L = l -> length R = l ->
  bstage l (w :: ws) (L ++ R ++ rest) =
  zipWith (fun x y => x + y) L R ++ zipWith (fun x y => (x - y) * w) L R ++ bstage l ws rest.
Proof.
  intros HL HR. cbn [bstage]. rewrite (firstn_app_exact L), (skipn_app_exact L) by exact HL.
  rewrite (firstn_app_exact R), (skipn_app_exact R) by exact HR. reflexivity.
Qed.

Lemma fstage_length l ws a : length a = (length ws * (2 * l))%nat -> length (fstage l ws a) = length a.
Proof.
  revert a; induction ws as [|w ws IH]; intros a Ha; [cbn in *; lia|].
  destruct (split3 l _ a Ha) as (L & R & rest & -> & HL & HR & Hr). rewrite fstage_cons by assumption.
  rewrite !app_length, !zipWith_length, (IH rest Hr). lia.
Qed.
Lemma bstage_length l ws a : length a = (length ws * (2 * l))%nat -> length (bstage l ws a) = length a.
Proof.
  revert a; induction ws as [|w ws IH]; intros a Ha; [cbn in *; lia|].
  destruct (split3 l _ a Ha) as (L & R & rest & -> & HL & HR & Hr). rewrite bstage_cons by assumption.
  rewrite !app_length, !zipWith_length, (IH rest Hr). lia.
Qed.

Lemma lcong_firstn p n a b : lcong p a b -> lcong p (firstn n a) (firstn n b).
Proof. intros H. revert n. induction H; intros [|n]; cbn [firstn]; constructor; auto. apply IHForall2. Qed.
Lemma lcong_skipn p n a b : lcong p a b -> lcong p (skipn n a) (skipn n b).
Proof. intros H. revert n. induction H as [|x y a b Hxy Hab IH]; intros [|n]; cbn [skipn]; try (constructor; assumption). apply IH. Qed.

Lemma fstage_cong p l ws a b : lcong p a b -> lcong p (fstage l ws a) (fstage l ws b).
Proof.
  revert a b; induction ws as [|w ws IH]; intros a b H; cbn [fstage]; [constructor|].
  repeat apply lcong_app.
  - apply lcong_zipWith; [intros x y x' y' Hx Hy; rewrite Hx, Hy; reflexivity| |]; repeat first [apply lcong_firstn | apply lcong_skipn]; exact H.
  - apply lcong_zipWith; [intros x y x' y' Hx Hy; rewrite Hx, Hy; reflexivity| |]; repeat first [apply lcong_firstn | apply lcong_skipn]; exact H.
  - apply IH. repeat first [apply lcong_firstn | apply lcong_skipn]; exact H.
Qed.
Lemma bstage_cong p l ws a b : lcong p a b -> lcong p (bstage l ws a) (bstage l ws b).
Proof.
  revert a b; induction ws as [|w ws IH]; intros a b H; cbn [bstage]; [constructor|].
  repeat apply lcong_app.
  - apply lcong_zipWith; [intros x y x' y' Hx Hy; rewrite Hx, Hy; reflexivity| |]; repeat first [apply lcong_firstn | apply lcong_skipn]; exact H.
  - apply lcong_zipWith; [intros x y x' y' Hx Hy; rewrite Hx, Hy; reflexivity| |]; repeat first [apply lcong_firstn | apply lcong_skipn]; exact H.
  - apply IH. repeat first [apply lcong_firstn | apply lcong_skipn]; exact H.
Qed.

Lemma zipWith_lscale f c L R : (forall x y, f (c * x) (c * y) = c * f x y) ->
  zipWith f (lscale c L) (lscale c R) = lscale c (zipWith f L R).
Proof. intros Hf. revert R; induction L as [|x L IH]; intros [|y R]; cbn; try reflexivity. f_equal; [apply Hf|apply IH]. Qed.
Lemma lscale_app c a b : lscale c (a ++ b) = lscale c a ++ lscale c b.
Proof. apply map_app. Qed.
Lemma fstage_scale l ws c a : fstage l ws (lscale c a) = lscale c (fstage l ws a).
Proof.
  revert a; induction ws as [|w ws IH]; intros a; cbn [fstage]; [reflexivity|].
  unfold lscale at 1 2 3 4 5. rewrite !skipn_map, !firstn_map. fold (lscale c (firstn l a)).
  fold (lscale c (firstn l (skipn l a))). fold (lscale c (skipn l (skipn l a))). rewrite IH.
  rewrite !zipWith_lscale by (intros; ring). rewrite !lscale_app. reflexivity.
Qed.
Lemma bstage_scale l ws c a : bstage l ws (lscale c a) = lscale c (bstage l ws a).
Proof.
  revert a; induction ws as [|w ws IH]; intros a; cbn [bstage]; [reflexivity|].
  unfold lscale at 1 2 3 4 5. rewrite !skipn_map, !firstn_map. fold (lscale c (firstn l a)).
  fold (lscale c (firstn l (skipn l a))). fold (lscale c (skipn l (skipn l a))). rewrite IH.
  rewrite !zipWith_lscale by (intros; ring). rewrite !lscale_app. reflexivity.
Qed.

Lemma zip_roundtrip p (f g h : Z -> Z -> Z) c (L R : list Z) :
  (forall x y, cong p (h (f x y) (g x y)) (c * x)) -> length L = length R ->
  lcong p (zipWith h (zipWith f L R) (zipWith g L R)) (lscale c L).
Proof.
  intros H. revert R; induction L as [|x L IH]; intros [|y R] Hl; try discriminate; cbn; constructor; [apply H|].
  apply IH. cbn in Hl. lia.
Qed.
Lemma zip_roundtrip_r p (f g h : Z -> Z -> Z) c (L R : list Z) :
  (forall x y, cong p (h (f x y) (g x y)) (c * y)) -> length L = length R ->
  lcong p (zipWith h (zipWith f L R) (zipWith g L R)) (lscale c R).
Proof.
  intros H. revert R; induction L as [|x L IH]; intros [|y R] Hl; try discriminate; cbn; constructor; [apply H|].
  apply IH. cbn in Hl. lia.
Qed.

Lemma bstage_fstage p l ws zs a : Forall2 (fun w z => cong p (w * z) 1) ws zs ->
  length a = (length ws * (2 * l))%nat -> lcong p (bstage l zs (fstage l ws a)) (lscale 2 a).
Proof.
  intros H. revert a. induction H as [|w z ws zs Hwz _ IH]; intros a Ha.
  - destruct a; [constructor|cbn in Ha; lia].
  - destruct (split3 l _ a Ha) as (L & R & rest & -> & HL & HR & Hr). rewrite fstage_cons by assumption.
    rewrite bstage_cons by (rewrite zipWith_length; lia). rewrite !lscale_app. repeat apply lcong_app.
    + apply zip_roundtrip; [|lia]. intros x y. apply cong_eq. ring.
    + apply zip_roundtrip_r; [|lia]. intros x y. replace ((x + w * y - (x - w * y)) * z) with (2 * (w * z) * y) by ring.
      rewrite Hwz. apply cong_eq. ring.
    + apply IH. exact Hr.
Qed.
Lemma fstage_bstage p l ws zs a : Forall2 (fun w z => cong p (w * z) 1) ws zs ->
  length a = (length ws * (2 * l))%nat -> lcong p (fstage l ws (bstage l zs a)) (lscale 2 a).
Proof.
  intros H. revert a. induction H as [|w z ws zs Hwz _ IH]; intros a Ha.
  - destruct a; [constructor|cbn in Ha; lia].
  - destruct (split3 l _ a Ha) as (L & R & rest & -> & HL & HR & Hr). rewrite bstage_cons by assumption.
    rewrite fstage_cons by (rewrite zipWith_length; lia). rewrite !lscale_app. repeat apply lcong_app.
    + apply zip_roundtrip; [|lia]. intros x y. replace (x + y + w * ((x - y) * z)) with (x + y + (w * z) * (x - y)) by ring.
      rewrite Hwz. apply cong_eq. ring.
    + apply zip_roundtrip_r; [|lia]. intros x y. replace (x + y - w * ((x - y) * z)) with (x + y - (w * z) * (x - y)) by ring.
      rewrite Hwz. apply cong_eq. ring.
    + apply IH. exact Hr.
Qed.

(** Chains of stages. *)
Definition stage : Type := nat * list Z * list Z.
Fixpoint fchain (S : list stage) (a : list Z) : list Z :=
  match S with [] => a | (l, ws, _) :: S' => fchain S' (fstage l ws a) end.
Fixpoint bchain (S : list stage) (a : list Z) : list Z :=
  match S with [] => a | (l, _, zs) :: S' => bstage l zs (bchain S' a) end.
Definition stage_ok (p : Z) (n : nat) (s : stage) : Prop :=
  let '(l, ws, zs) := s in n = (length ws * (2 * l))%nat /\ Forall2 (fun w z => cong p (w * z) 1) ws zs.

Lemma fchain_length p n S a : Forall (stage_ok p n) S -> length a = n -> length (fchain S a) = n.
Proof.
  intros H. revert a. induction H as [|[[l ws] zs] S [Hs _] _ IH]; intros a Ha; [exact Ha|]. cbn [fchain].
  apply IH. rewrite fstage_length; congruence.
Qed.
Lemma bchain_length p n S a : Forall (stage_ok p n) S -> length a = n -> length (bchain S a) = n.
Proof.
  intros H. revert a. induction H as [|[[l ws] zs] S [Hs Hf] _ IH]; intros a Ha; [exact Ha|]. cbn [bchain].
  apply Forall2_length_eq in Hf. rewrite bstage_length; rewrite IH by exact Ha; congruence.
Qed.
Lemma fchain_cong p S a b : lcong p a b -> lcong p (fchain S a) (fchain S b).
Proof. revert a b; induction S as [|[[l ws] zs] S IH]; intros a b H; [exact H|]. cbn [fchain]. apply IH, fstage_cong, H. Qed.
Lemma bchain_cong p S a b : lcong p a b -> lcong p (bchain S a) (bchain S b).
Proof. revert a b; induction S as [|[[l ws] zs] S IH]; intros a b H; [exact H|]. cbn [bchain]. apply bstage_cong, IH, H. Qed.
Lemma fchain_scale S c a : fchain S (lscale c a) = lscale c (fchain S a).
Proof. revert a; induction S as [|[[l ws] zs] S IH]; intros a; [reflexivity|]. cbn [fchain]. rewrite fstage_scale, IH. reflexivity. Qed.

Lemma pow2_succ (n : nat) : 2 ^ Z.of_nat (S n) = 2 * 2 ^ Z.of_nat n.
Proof. rewrite Nat2Z.inj_succ, Z.pow_succ_r by lia. reflexivity. Qed.

Lemma bchain_fchain p n S a : Forall (stage_ok p n) S -> length a = n ->
  lcong p (bchain S (fchain S a)) (lscale (2 ^ Z.of_nat (length S)) a).
Proof.
  intros H. revert a. induction H as [|[[l ws] zs] S [Hs Hf] HS IH]; intros a Ha; cbn [fchain bchain length].
  - rewrite Z.pow_0_r, lscale_1. apply lcong_refl.
  - rewrite pow2_succ. eapply lcong_trans.
    + apply bstage_cong. apply IH. rewrite fstage_length; congruence.
    + rewrite bstage_scale. rewrite Z.mul_comm, <- lscale_scale. apply lcong_scale. apply bstage_fstage; congruence.
Qed.
Lemma fchain_bchain p n S a : Forall (stage_ok p n) S -> length a = n ->
  lcong p (fchain S (bchain S a)) (lscale (2 ^ Z.of_nat (length S)) a).
Proof.
  intros H. revert a. induction H as [|[[l ws] zs] S [Hs Hf] HS IH]; intros a Ha; cbn [fchain bchain length].
  - rewrite Z.pow_0_r, lscale_1. apply lcong_refl.
  - rewrite pow2_succ. eapply lcong_trans.
    + apply fchain_cong. apply fstage_bstage; [exact Hf|]. rewrite (bchain_length p n); congruence.
    + rewrite fchain_scale. rewrite <- lscale_scale. apply lcong_scale. apply IH. exact Ha.
Qed.

(** * Evaluation *)
Definition blk (l i : nat) (a : list Z) : list Z := firstn l (skipn (i * l) a).

Lemma eval_zip_add w L R x : length L = length R -> eval (zipWith (fun x y => x + w * y) L R) x = eval L x + w * eval R x.
Proof. revert R; induction L as [|c L IH]; intros [|d R] H; try discriminate; cbn [zipWith eval]; [ring|]. rewrite IH by (cbn in H; lia). ring. Qed.
Lemma eval_zip_sub w L R x : length L = length R -> eval (zipWith (fun x y => x - w * y) L R) x = eval L x - w * eval R x.
Proof. revert R; induction L as [|c L IH]; intros [|d R] H; try discriminate; cbn [zipWith eval]; [ring|]. rewrite IH by (cbn in H; lia). ring. Qed.

Lemma fstage_eval p l ws a i x : length a = (length ws * (2 * l))%nat -> (i < length ws)%nat ->
  (cong p (x ^ Z.of_nat l) (nth i ws 0) ->
     cong p (eval (blk l (2 * i) (fstage l ws a)) x) (eval (blk (2 * l) i a) x)) /\
  (cong p (x ^ Z.of_nat l) (- nth i ws 0) ->
     cong p (eval (blk l (2 * i + 1) (fstage l ws a)) x) (eval (blk (2 * l) i a) x)).
Proof.
  revert a i. induction ws as [|w ws IH]; intros a i Ha Hi; [cbn in Hi; lia|].
  destruct (split3 l _ a Ha) as (L & R & rest & -> & HL & HR & Hr). rewrite fstage_cons by assumption.
  assert (H1 : length (zipWith (fun x y => x + w * y) L R) = l) by (rewrite zipWith_length; lia).
  assert (H2 : length (zipWith (fun x y => x - w * y) L R) = l) by (rewrite zipWith_length; lia).
  destruct i as [|i].
  - cbn [nth]. unfold blk. cbn [Nat.mul Nat.add skipn].
    assert (E : eval (firstn (l + (l + 0)) (L ++ R ++ rest)) x = eval L x + x ^ Z.of_nat l * eval R x).
    { rewrite app_assoc. rewrite firstn_app_exact by (rewrite app_length; lia). rewrite eval_app, HL. reflexivity. }
    rewrite E. rewrite Nat.add_0_r. split; intros Hx.
    + rewrite firstn_app_exact by exact H1. rewrite eval_zip_add by lia. rewrite Hx. reflexivity.
    + rewrite skipn_app_exact by exact H1. rewrite firstn_app_exact by exact H2. rewrite eval_zip_sub by lia. rewrite Hx. apply cong_eq. ring.
  - cbn [nth]. destruct (IH rest i Hr ltac:(cbn in Hi; lia)) as (I1 & I2). unfold blk in *.
    assert (Es : forall j A B (C : list Z), length A = l -> length B = l -> skipn ((2 + j) * l) (A ++ B ++ C) = skipn (j * l) C).
    { intros j A B C HA HB. rewrite app_assoc, skipn_app, app_length, HA, HB. rewrite skipn_all2 by (rewrite app_length; lia).
      cbn [app]. f_equal. lia. }
    replace (S i * (2 * l))%nat with ((2 + 2 * i) * l)%nat by lia.
    replace (2 * S i)%nat with (2 + 2 * i)%nat by lia. replace (2 + 2 * i + 1)%nat with (2 + (2 * i + 1))%nat by lia.
    rewrite !Es by assumption. replace (2 * i * l)%nat with (i * (2 * l))%nat in * by lia. split; assumption.
Qed.

(** Exponents of the evaluation points. *)
Lemma bitrev_bounds k x : 0 <= bitrev k x < 2 ^ Z.of_nat k.
Proof.
  revert x; induction k as [|k IH]; intros x; [cbn; lia|]. cbn [bitrev]. rewrite pow2_succ.
  specialize (IH (x / 2)). pose proof (Z.mod_pos_bound x 2 ltac:(lia)). nia.
Qed.
Lemma bitrev_split t u i y : 0 <= i < 2 ^ Z.of_nat t ->
  bitrev (t + u) (i + 2 ^ Z.of_nat t * y) = 2 ^ Z.of_nat u * bitrev t i + bitrev u y.
Proof.
  revert i; induction t as [|t IH]; intros i Hi.
  - cbn [Nat.add]. change (Z.of_nat 0) with 0 in *. rewrite Z.pow_0_r in *. cbn [bitrev]. replace i with 0 by lia.
    replace (0 + 1 * y) with y by ring. ring.
  - cbn [Nat.add bitrev]. rewrite pow2_succ in *.
    replace (i + 2 * 2 ^ Z.of_nat t * y) with (i + (2 ^ Z.of_nat t * y) * 2) by ring.
    rewrite Z_mod_plus_full, Z.div_add by lia. rewrite IH.
    + rewrite Nat2Z.inj_add, Z.pow_add_r by lia. ring.
    + split; [apply Z.div_pos; lia|apply Z.div_lt_upper_bound; lia].
Qed.
Lemma bitrev_0 k : bitrev k 0 = 0.
Proof. induction k as [|k IH]; [reflexivity|]. cbn [bitrev]. change (0 / 2) with 0. rewrite IH. reflexivity. Qed.
Lemma bitrev_ones k : bitrev k (2 ^ Z.of_nat k - 1) = 2 ^ Z.of_nat k - 1.
Proof.
  induction k as [|k IH]; [reflexivity|]. cbn [bitrev]. rewrite pow2_succ.
  replace (2 * 2 ^ Z.of_nat k - 1) with (1 + (2 ^ Z.of_nat k - 1) * 2) by ring.
  rewrite Z_mod_plus_full, Z.div_add by lia. change (1 mod 2) with 1. change (1 / 2) with 0. rewrite Z.add_0_l, IH. ring.
Qed.
Lemma bitrev_inj k x y : 0 <= x < 2 ^ Z.of_nat k -> 0 <= y < 2 ^ Z.of_nat k -> bitrev k x = bitrev k y -> x = y.
Proof.
  revert x y; induction k as [|k IH]; intros x y Hx Hy E.
  - change (2 ^ Z.of_nat 0) with 1 in *. lia.
  - cbn [bitrev] in E. rewrite pow2_succ in *.
    pose proof (bitrev_bounds k (x / 2)). pose proof (bitrev_bounds k (y / 2)).
    pose proof (Z.mod_pos_bound x 2 ltac:(lia)). pose proof (Z.mod_pos_bound y 2 ltac:(lia)).
    assert (Em : x mod 2 = y mod 2) by nia.
    assert (Ed : x / 2 = y / 2).
    { apply IH; [split; [apply Z.div_pos; lia|apply Z.div_lt_upper_bound; lia]..|]. nia. }
    rewrite (Z.div_mod x 2), (Z.div_mod y 2) by lia. congruence.
Qed.
(** Heap index 2^s + i of stage s among K. *)
Lemma bitrev_heap K s i : (s < K)%nat -> 0 <= i < 2 ^ Z.of_nat s ->
  bitrev K (2 ^ Z.of_nat s + i) = 2 ^ Z.of_nat (K - 1 - s) * (2 * bitrev s i + 1).
Proof.
  intros Hs Hi. replace K with (s + S (K - 1 - s))%nat at 1 by lia.
  replace (2 ^ Z.of_nat s + i) with (i + 2 ^ Z.of_nat s * 1) by ring. rewrite bitrev_split by exact Hi.
  rewrite pow2_succ. cbn [bitrev]. change (1 mod 2) with 1. change (1 / 2) with 0. rewrite bitrev_0. ring.
Qed.
Lemma bitrev_heap_inv K s i : (s < K)%nat -> 0 <= i < 2 ^ Z.of_nat s ->
  bitrev K (2 ^ Z.of_nat K - 2 ^ Z.of_nat (S s) + i) + 1 = bitrev K (2 ^ Z.of_nat s + i).
Proof.
  intros Hs Hi. rewrite bitrev_heap by assumption.
  replace (2 ^ Z.of_nat K - 2 ^ Z.of_nat (S s) + i) with (i + 2 ^ Z.of_nat (S s) * (2 ^ Z.of_nat (K - 1 - s) - 1)).
  - replace K with (S s + (K - 1 - s))%nat at 1 by lia. rewrite bitrev_split by (rewrite pow2_succ; lia).
    rewrite bitrev_ones. replace (S s) with (s + 1)%nat by lia.
    replace i with (i + 2 ^ Z.of_nat s * 0) at 1 by ring. rewrite bitrev_split by exact Hi. rewrite bitrev_0.
    change (2 ^ Z.of_nat 1) with 2. ring.
  - replace (2 ^ Z.of_nat K) with (2 ^ Z.of_nat (S s) * 2 ^ Z.of_nat (K - 1 - s)); [ring|].
    rewrite <- Z.pow_add_r by lia. f_equal. lia.
Qed.

Section Evaluation.
  Variables (p omega : Z) (K : nat) (Hn : cong p (omega ^ 2 ^ Z.of_nat K) (-1)).
  Variable stages : nat -> stage.
  Hypothesis Hst : forall s, (s < K)%nat ->
    let '(l, ws, zs) := stages s in
    Z.of_nat l = 2 ^ Z.of_nat (K - 1 - s) /\ Z.of_nat (length ws) = 2 ^ Z.of_nat s /\
    forall i, 0 <= i < 2 ^ Z.of_nat s -> cong p (nth (Z.to_nat i) ws 0) (omega ^ bitrev K (2 ^ Z.of_nat s + i)).

  Definition pt (s : nat) (i : Z) : Z := 2 ^ Z.of_nat (K - s) * (2 * bitrev s i + 1).

  Lemma pt_nonneg s i : 0 <= pt s i.
  Proof. unfold pt. pose proof (bitrev_bounds s i). assert (0 < 2 ^ Z.of_nat (K - s)) by (apply Z.pow_pos_nonneg; lia). nia. Qed.

  Lemma fchain_snoc S s a : fchain (S ++ [s]) a = let '(l, ws, _) := s in fstage l ws (fchain S a).
  Proof. revert a; induction S as [|[[l ws] zs] S IH]; intros a; cbn [app fchain]; [destruct s as [[? ?] ?]; reflexivity|apply IH]. Qed.

  Lemma chain_eval s a : (s <= K)%nat -> Z.of_nat (length a) = 2 ^ Z.of_nat K ->
    let b := fchain (map stages (seq 0 s)) a in
    Z.of_nat (length b) = 2 ^ Z.of_nat K /\
    forall i x, 0 <= i < 2 ^ Z.of_nat s -> cong p (x ^ 2 ^ Z.of_nat (K - s)) (omega ^ pt s i) ->
      cong p (eval (blk (Z.to_nat (2 ^ Z.of_nat (K - s))) (Z.to_nat i) b) x) (eval a x).
  Proof.
    intros Hs Ha. induction s as [|s IH].
    - cbn [seq map fchain]. split; [exact Ha|]. intros i x Hi _. change (2 ^ Z.of_nat 0) with 1 in Hi.
      replace i with 0 by lia. unfold blk. cbn [Nat.mul Z.to_nat skipn]. rewrite Nat.sub_0_r, <- Ha, Nat2Z.id, firstn_all. reflexivity.
    - rewrite seq_S, map_app. cbn [map Nat.add]. rewrite fchain_snoc.
      specialize (Hst s ltac:(lia)). destruct (stages s) as [[l ws] zs]. destruct Hst as (Hl & Hw & Hws).
      destruct (IH ltac:(lia)) as (Hb & He). clear IH Hst. set (b := fchain (map stages (seq 0 s)) a) in *.
      assert (Hd : exists d, K = (s + S d)%nat) by (exists (K - S s)%nat; lia). destruct Hd as (d & Hd).
      assert (D1 : (K - S s)%nat = d) by (clear - Hd; lia). assert (D2 : (K - s)%nat = S d) by (clear - Hd; lia).
      assert (D3 : (K - 1 - s)%nat = d) by (clear - Hd; lia). rewrite D1, D2, D3 in *. 
      assert (Hbl : length b = (length ws * (2 * l))%nat).
      { apply Nat2Z.inj. rewrite Hb. rewrite !Nat2Z.inj_mul, Hl, Hw.
        replace (Z.of_nat 2 * 2 ^ Z.of_nat d) with (2 ^ Z.of_nat (S d)) by (rewrite pow2_succ; reflexivity).
        rewrite <- Z.pow_add_r by (clear; lia). f_equal. clear - Hd. lia. }
      split; [rewrite fstage_length by exact Hbl; exact Hb|].
      intros i x Hi Hx. rewrite pow2_succ in Hi.
      assert (El : Z.to_nat (2 ^ Z.of_nat d) = l) by (rewrite <- Hl; apply Nat2Z.id).
      assert (E2l : Z.to_nat (2 ^ Z.of_nat (S d)) = (2 * l)%nat) by (rewrite pow2_succ, <- Hl; clear; lia).
      rewrite El. rewrite <- Hl in Hx.
      assert (Hdiv : 0 <= i / 2 < 2 ^ Z.of_nat s) by (clear - Hi; split; [apply Z.div_pos; lia|apply Z.div_lt_upper_bound; lia]).
      pose proof (Z.div_mod i 2 ltac:(clear; lia)) as Edm. pose proof (Z.mod_pos_bound i 2 ltac:(clear; lia)) as Hmod.
      destruct (fstage_eval p l ws b (Z.to_nat (i / 2)) x Hbl ltac:(clear - Hdiv Hw; lia)) as (F1 & F2).
      assert (Hw' := Hws (i / 2) Hdiv). rewrite bitrev_heap, D3 in Hw' by (try exact Hdiv; clear - Hd; lia).
      set (e := 2 ^ Z.of_nat d * (2 * bitrev s (i / 2) + 1)) in *.
      assert (Hd0 : 0 < 2 ^ Z.of_nat d) by (apply Z.pow_pos_nonneg; clear; lia).
      assert (He0 : 0 <= e).
      { unfold e. pose proof (bitrev_bounds s (i / 2)). clear - H Hd0. nia. }
      assert (Ept : pt (S s) i = e + (i mod 2) * 2 ^ Z.of_nat K).
      { unfold pt, e. cbn [bitrev]. rewrite D1.
        replace (2 ^ Z.of_nat K) with (2 ^ Z.of_nat d * (2 * 2 ^ Z.of_nat s)).
        - ring.
        - rewrite <- pow2_succ, <- Z.pow_add_r by (clear; lia). f_equal. clear - Hd. lia. }
      assert (Ept2 : pt s (i / 2) = 2 * e).
      { unfold pt, e. rewrite D2. rewrite pow2_succ. ring. }
      assert (HK : 0 <= 2 ^ Z.of_nat K) by (apply Z.pow_nonneg; clear; lia).
      rewrite Ept in Hx. rewrite Z.pow_add_r in Hx by (clear - He0 HK Hmod; nia).
      rewrite (Z.mul_comm (i mod 2)), Z.pow_mul_r in Hx by (clear - Hmod HK; lia).
      assert (Hsq : cong p (x ^ 2 ^ Z.of_nat (S d)) (omega ^ pt s (i / 2))).
      { replace (2 ^ Z.of_nat (S d)) with (Z.of_nat l + Z.of_nat l) by (rewrite pow2_succ, Hl; ring).
        rewrite Z.pow_add_r by (clear; lia). rewrite Hx. rewrite Ept2. replace (2 * e) with (e + e) by ring. rewrite Z.pow_add_r by exact He0.
        set (W := omega ^ e). set (V := omega ^ 2 ^ Z.of_nat K) in *.
        replace (W * V ^ (i mod 2) * (W * V ^ (i mod 2))) with (W * W * (V ^ (i mod 2) * V ^ (i mod 2))) by ring.
        assert (HV : cong p (V ^ (i mod 2) * V ^ (i mod 2)) 1).
        { assert (Hm : i mod 2 = 0 \/ i mod 2 = 1) by (clear - Hmod; lia). destruct Hm as [-> | ->]; [reflexivity|].
          rewrite !Z.pow_1_r, Hn. reflexivity. }
        rewrite HV. apply cong_eq. ring. }
      specialize (He (i / 2) x Hdiv Hsq). rewrite E2l in He.
      assert (Hm : i mod 2 = 0 \/ i mod 2 = 1) by (clear - Hmod; lia).
      destruct Hm as [Hm|Hm]; rewrite Hm in *.
      + replace (Z.to_nat i) with (2 * Z.to_nat (i / 2))%nat by (clear - Edm Hdiv; lia). rewrite F1; [exact He|].
        rewrite Hx, Hw'. rewrite Z.pow_0_r. apply cong_eq. ring.
      + replace (Z.to_nat i) with (2 * Z.to_nat (i / 2) + 1)%nat by (clear - Edm Hdiv; lia). rewrite F2; [exact He|].
        rewrite Hx, Hw', Z.pow_1_r, Hn. apply cong_eq. ring.
  Qed.

  Lemma chain_eval_final a i : Z.of_nat (length a) = 2 ^ Z.of_nat K -> 0 <= i < 2 ^ Z.of_nat K ->
    cong p (nth (Z.to_nat i) (fchain (map stages (seq 0 K)) a) 0) (eval a (omega ^ (2 * bitrev K i + 1))).
  Proof.
    intros Ha Hi. destruct (chain_eval K a (Nat.le_refl K) Ha) as (Hb & He).
    rewrite Nat.sub_diag in He. change (2 ^ Z.of_nat 0) with 1 in He.
    specialize (He i (omega ^ (2 * bitrev K i + 1)) Hi). rewrite <- He.
    - unfold blk. change (Z.to_nat 1) with 1%nat. rewrite Nat.mul_1_r. set (b := fchain _ a) in *.
      assert (Hlt : (Z.to_nat i < length b)%nat) by lia. clear - Hlt. revert Hlt. generalize (Z.to_nat i) as k. revert b.
      induction b as [|c b IH]; intros k Hk; [cbn in Hk; lia|]. destruct k as [|k]; cbn [skipn nth firstn].
      + cbn [eval]. apply cong_eq. ring.
      + apply IH. cbn in Hk. lia.
    - rewrite Z.pow_1_r. apply cong_eq. f_equal. unfold pt. rewrite Nat.sub_diag. change (2 ^ Z.of_nat 0) with 1. ring.
  Qed.
End Evaluation.
