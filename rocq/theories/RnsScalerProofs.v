(** Proofs about [RnsScaler]. *)
From Verif Require Import Outcome BasicSpec RnsSpec OutcomeLemmas ZqModel ZqProofs NumTheory NttModel RnsModel RnsProofs.
From Coq Require Import Znumtheory.

Notation P127 := (2 ^ 127).
Notation P126 := (2 ^ 126).

(** Rounded quotient, remainder and scaled remainders. *)
Definition rnd (num den x : Z) : Z := (num * x + den / 2) / den.
Definition remd (num den x : Z) : Z := num * x - den * rnd num den x.
Definition Tup (num den x : Z) : Z := - (- (P127 * remd num den x) / den).
Definition Tdn (num den x : Z) : Z := P127 * remd num den x / den.

Lemma remd_bound num den x : 0 < den -> - den <= 2 * remd num den x <= den.
Proof.
  intros Hd. unfold remd, rnd. pose proof (Z.div_mod (num * x + den / 2) den ltac:(lia)) as E.
  pose proof (Z.mod_pos_bound (num * x + den / 2) den Hd) as B.
  pose proof (Z.div_mod den 2 ltac:(lia)) as E2. pose proof (Z.mod_pos_bound den 2 ltac:(lia)) as B2.
  remember (den * ((num * x + den / 2) / den)) as A. lia.
Qed.

Lemma Tup_bounds num den x : 0 < den ->
  P127 * remd num den x <= den * Tup num den x <= P127 * remd num den x + den - 1 /\ - P126 <= Tup num den x <= P126.
Proof.
  intros Hd. pose proof (remd_bound num den x Hd) as B. unfold Tup. set (D := remd num den x) in *.
  pose proof (Z.div_mod (- (P127 * D)) den ltac:(lia)) as E.
  pose proof (Z.mod_pos_bound (- (P127 * D)) den Hd) as B'.
  set (k := - (P127 * D) / den) in *. change P127 with (2 * P126) in *. remember P126 as p.
  assert (0 < p) by (subst p; reflexivity). split; [lia|]. split.
  - assert (k <= p); [|lia]. assert (den * k <= den * p) by nia. nia.
  - assert (- p <= k); [|lia]. assert (den * (- p) < den * (k + 1)) by nia. nia.
Qed.

Lemma Tdn_bounds num den x : 0 < den ->
  P127 * remd num den x - den + 1 <= den * Tdn num den x <= P127 * remd num den x /\ - P126 <= Tdn num den x <= P126.
Proof.
  intros Hd. pose proof (remd_bound num den x Hd) as B. unfold Tdn. set (D := remd num den x) in *.
  pose proof (Z.div_mod (P127 * D) den ltac:(lia)) as E.
  pose proof (Z.mod_pos_bound (P127 * D) den Hd) as B'.
  set (k := P127 * D / den) in *. change P127 with (2 * P126) in *. remember P126 as p.
  assert (0 < p) by (subst p; reflexivity). split; [lia|]. split.
  - assert (den * (- p) < den * (k + 1)) by nia. nia.
  - assert (den * k <= den * p) by nia. nia.
Qed.

Lemma Tup_0 num den x : 0 < den -> (den | num * x) -> Tup num den x = 0 /\ Tdn num den x = 0.
Proof.
  intros Hd [k E]. unfold Tup, Tdn.
  assert (R : remd num den x = 0).
  { unfold remd, rnd. rewrite E. rewrite Z.add_comm, Z.div_add by lia.
    rewrite Z.div_small; [ring|]. pose proof (Z.div_mod den 2 ltac:(lia)). pose proof (Z.mod_pos_bound den 2 ltac:(lia)). lia. }
  rewrite R. change (- (P127 * 0)) with 0. rewrite Z.mul_0_r, !Z.div_0_l by lia. split; reflexivity.
Qed.

(** The signed theta computed by the code. *)
Definition signed (s : bool) (t : Z) : Z := if s then - t else t.

Lemma extract_spec to x num den up : good_rns to -> 0 <= num -> 0 < den -> 0 <= x ->
  exists th s, extract to x num den up = Val (residues_of (rns_u64 to) (rnd num den x), th, s) /\
    signed s th = (if up then Tup num den x else Tdn num den x) /\ 0 <= th <= P126.
Proof.
  intros Hto Hn Hd Hx. unfold extract.
  assert (Sh : Z.shiftr den 1 = den / 2) by (rewrite shiftr_div by lia; reflexivity).
  rewrite Sh. fold (rnd num den x). rewrite (project_spec _ Hto). cbn [bind].
  set (N := num * x). 
  pose proof (Z.div_mod N den ltac:(lia)) as E. pose proof (Z.mod_pos_bound N den Hd) as B.
  set (f := N / den) in *. set (th0 := N mod den) in *.
  pose proof (Z.div_mod den 2 ltac:(lia)) as E2. pose proof (Z.mod_pos_bound den 2 ltac:(lia)) as B2.
  set (h := den / 2) in *.
  (* the flip decision *)
  set (flip := den <=? th0 + h).
  assert (Er : rnd num den x = if flip then f + 1 else f).
  { unfold rnd. fold N h. unfold flip. destruct (Z.leb_spec den (th0 + h)).
    - symmetry. apply Z.div_unique with (th0 + h - den); lia.
    - symmetry. apply Z.div_unique with (th0 + h); lia. }
  assert (Ef : (if 1 <? den then
      if Z.odd den then if h <? th0 then (den - th0, true) else (th0, false)
      else if h <=? th0 then (den - th0, true) else (th0, false) else (th0, false))
      = (if flip then den - th0 else th0, flip)).
  { unfold flip. pose proof (Zmod_odd den) as Ho.
    destruct (Z.ltb_spec 1 den).
    - destruct (Z.odd den).
      + destruct (Z.ltb_spec h th0), (Z.leb_spec den (th0 + h)); try reflexivity; lia.
      + destruct (Z.leb_spec h th0), (Z.leb_spec den (th0 + h)); try reflexivity; lia.
    - destruct (Z.leb_spec den (th0 + h)); [lia|reflexivity]. }
  rewrite Ef. clear Ef.
  assert (Erem : remd num den x = if flip then th0 - den else th0).
  { unfold remd. rewrite Er. fold N. destruct flip; lia. }
  pose proof (Tup_bounds num den x Hd) as [_ BU]. pose proof (Tdn_bounds num den x Hd) as [_ BD].
  assert (Efin : exists th, (if up then if flip then Z.shiftl (if flip then den - th0 else th0) 127 / den
      else (Z.shiftl (if flip then den - th0 else th0) 127 + den - 1) / den
      else if flip then (Z.shiftl (if flip then den - th0 else th0) 127 + den - 1) / den
      else Z.shiftl (if flip then den - th0 else th0) 127 / den) = th /\
     signed flip th = (if up then Tup num den x else Tdn num den x) /\ 0 <= th).
  { eexists. split; [reflexivity|]. rewrite !Z.shiftl_mul_pow2 by lia.
    set (a := if flip then den - th0 else th0).
    assert (Ha : 0 <= a) by (unfold a; destruct flip; lia).
    assert (Ra : remd num den x = signed flip a) by (rewrite Erem; unfold signed, a; destruct flip; lia).
    assert (HP : 0 < P127) by reflexivity.
    assert (Ceil : (a * P127 + den - 1) / den = - (- (a * P127) / den)).
    { symmetry. assert (X := Z.div_mod (- (a * P127)) den ltac:(lia)).
      assert (Y := Z.mod_pos_bound (- (a * P127)) den Hd).
      apply Z.div_unique with (den - 1 - (- (a * P127)) mod den); lia. }
    assert (C0 : 0 <= (a * P127 + den - 1) / den) by (apply Z.div_pos; nia).
    assert (D0 : 0 <= (a * P127) / den) by (apply Z.div_pos; nia).
    unfold Tup, Tdn. rewrite Ra. unfold signed.
    destruct up, flip; (split; [|assumption]); rewrite ?Ceil.
    - replace (- (P127 * - a)) with (a * P127) by ring. reflexivity.
    - replace (- (P127 * a)) with (- (a * P127)) by ring. reflexivity.
    - replace (P127 * - a) with (- (a * P127)) by ring. ring.
    - replace (P127 * a) with (a * P127) by ring. reflexivity. }
  destruct Efin as (th & Eth & Hs & H0). 
  assert (Hb : th <= P126).
  { unfold signed in Hs. destruct flip, up; lia. }
  match goal with |- context [chk 0 W128 ?e] => replace e with th end.
  rewrite bind_chk; [|change W128 with (4 * P126); assert (0 < P126) by reflexivity; lia].
  exists th, flip. rewrite Er. split; [reflexivity|]. split; [exact Hs|lia].
Qed.

(** ** The shift *)
Lemma fold_min_spec l a : let m := fold_left Z.min l a in
  m <= a /\ Forall (fun x => m <= x) l /\ (forall b, b <= a -> Forall (fun x => b <= x) l -> b <= m).
Proof.
  revert a. induction l as [|x l IH]; intros a; cbn [fold_left].
  - split; [lia|]. split; [constructor|]. auto.
  - destruct (IH (Z.min a x)) as (H1 & H2 & H3). split; [lia|]. split; [constructor; [lia|exact H2]|].
    intros b Hb Hf. inversion Hf; subst. apply H3; [lia|assumption].
Qed.

Lemma theta_shift_spec qs : rns_basis qs -> Z.of_nat (length qs) < 2 ^ 60 ->
  exists sh, theta_shift qs = Val sh /\ 69 <= sh <= 127 /\
    (forall q, In q qs -> q * Z.of_nat (length qs) <= 2 ^ (191 - sh)) /\
    (forall s, s <= 127 -> (forall q, In q qs -> q * Z.of_nat (length qs) <= 2 ^ (191 - s)) -> s <= sh).
Proof.
  intros (Hne & _ & Hr) Hn. unfold theta_shift. set (n := Z.of_nat (length qs)) in *.
  assert (Hn1 : 1 <= n) by (unfold n; destruct qs; [congruence|cbn [length]; lia]).
  rewrite Forall_forall in Hr.
  assert (B : forall q, In q qs -> 2 <= q * n <= 2 ^ 122 /\ 1 <= Z.log2_up (q * n) <= 122 /\ q * n <= 2 ^ Z.log2_up (q * n)).
  { intros q Hq. specialize (Hr q Hq).
    assert (B1 : 2 <= q * n <= 2 ^ 122).
    { split; [nia|]. change (2 ^ 122) with (W62 * 2 ^ 60). remember (2 ^ 60) as p. nia. }
    split; [exact B1|]. split.
    - pose proof (Z.log2_up_pos (q * n) ltac:(lia)). split; [lia|]. rewrite <- (Z.log2_up_pow2 122) by lia. apply Z.log2_up_le_mono. lia.
    - apply Z.log2_up_spec. lia. }
  assert (E : mapM (theta_shift1 n) qs = Val (map (fun q => 191 - Z.log2_up (q * n)) qs)).
  { apply mapM_val. intros q Hq. destruct (B q Hq) as (B1 & B2 & _). unfold theta_shift1, chk128.
    rewrite bind_chk by (change W128 with (2 ^ 122 * 64); lia). apply chk_val. lia. }
  rewrite E. cbn [bind].
  destruct qs as [|q0 qs0]; [congruence|]. cbn [map].
  pose proof (fold_min_spec (map (fun q => 191 - Z.log2_up (q * n)) qs0) (191 - Z.log2_up (q0 * n))) as M0.
  cbv zeta in M0. set (m := fold_left _ _ _) in *. destruct M0 as (M1 & M2 & M3). rewrite Forall_map, Forall_forall in M2.
  assert (All : forall q, In q (q0 :: qs0) -> m <= 191 - Z.log2_up (q * n)).
  { intros q [<-|Hq]; [exact M1|apply M2; exact Hq]. }
  eexists. split; [reflexivity|].
  assert (L : 69 <= m).
  { apply M3; [destruct (B q0 ltac:(left; reflexivity)); lia|]. rewrite Forall_map, Forall_forall. intros q Hq.
    destruct (B q ltac:(right; exact Hq)); lia. }
  split; [lia|]. split.
  - intros q Hq. destruct (B q Hq) as (_ & _ & B3). etransitivity; [exact B3|].
    apply Z.pow_le_mono_r; [lia|]. specialize (All q Hq). lia.
  - intros s Hs H.
    assert (forall q, In q (q0 :: qs0) -> s <= 191 - Z.log2_up (q * n)).
    { intros q Hq. assert (Z.log2_up (q * n) <= 191 - s); [|lia].
      destruct (Z.le_gt_cases 0 (191 - s)).
      - rewrite <- (Z.log2_up_pow2 (191 - s)) by lia. apply Z.log2_up_le_mono, H, Hq.
      - lia. }
    apply Z.min_glb; [|lia]. apply M3; [apply H0; left; reflexivity|].
    rewrite Forall_map, Forall_forall. intros q Hq. apply H0. right. exact Hq.
Qed.

(** ** The scaler *)
Record good_scaler (s : rns_scaler) : Prop := {
  gs_from : good_rns (sc_from s);
  gs_to : good_rns (sc_to s);
  gs_num : 0 <= f_num (sc_factor s);
  gs_den : 0 < f_den (sc_factor s);
  gs_one : f_one (sc_factor s) = (f_num (sc_factor s) =? f_den (sc_factor s));
  gs_n : Z.of_nat (length (rns_u64 (sc_from s))) < 2 ^ 60;
  gs_gamma : sc_gamma s = residues_of (rns_u64 (sc_to s))
      (rnd (f_num (sc_factor s)) (f_den (sc_factor s)) (rns_product (sc_from s)));
  gs_gamma_shoup : sc_gamma_shoup s = zipWith (fun q x => x * W64 / q) (rns_u64 (sc_to s)) (sc_gamma s);
  gs_omega : sc_omega s = map (fun q => map (fun g => rnd (f_num (sc_factor s)) (f_den (sc_factor s)) g mod q)
                                         (rns_garner (sc_from s))) (rns_u64 (sc_to s));
  gs_omega_shoup : sc_omega_shoup s = zipWith (fun q row => map (fun x => x * W64 / q) row)
                                         (rns_u64 (sc_to s)) (sc_omega s);
  gs_tg : signed (sc_theta_gamma_sign s) (sc_theta_gamma s) =
          Tdn (f_num (sc_factor s)) (f_den (sc_factor s)) (rns_product (sc_from s)) /\ 0 <= sc_theta_gamma s <= P126;
  gs_to_len : length (sc_theta_omega s) = length (rns_u64 (sc_from s)) /\
              length (sc_theta_omega_sign s) = length (rns_u64 (sc_from s));
  gs_tom : zipWith signed (sc_theta_omega_sign s) (sc_theta_omega s) =
           map (Tup (f_num (sc_factor s)) (f_den (sc_factor s))) (rns_garner (sc_from s));
  gs_tgar : sc_theta_garner s = map (fun g => (g * 2 ^ sc_shift s + rns_product (sc_from s) / 2) / rns_product (sc_from s))
                                  (rns_garner (sc_from s));
  gs_shift : 69 <= sc_shift s <= 127 /\
    (forall q, In q (rns_u64 (sc_from s)) -> q * Z.of_nat (length (rns_u64 (sc_from s))) <= 2 ^ (191 - sc_shift s)) /\
    (forall k, k <= 127 ->
       (forall q, In q (rns_u64 (sc_from s)) -> q * Z.of_nat (length (rns_u64 (sc_from s))) <= 2 ^ (191 - k)) -> k <= sc_shift s)
}.

Lemma good_garner c g : good_rns c -> In g (rns_garner c) -> 0 < g < rns_product c.
Proof.
  intros H Hin. apply (In_nth _ _ 0) in Hin. destruct Hin as (i & Hi & <-).
  rewrite (gr_lg _ H) in Hi. destruct (gr_entry _ H i Hi) as (E1 & E2 & E3 & _).
  pose proof (basis_pos _ (gr_basis _ H)). rewrite <- (gr_product _ H) in *.
  pose proof (basis_nth _ _ (gr_basis _ H) Hi). nia.
Qed.

Lemma map2M_val {A B C} (f : A -> B -> M C) (g : A -> B -> C) l l' :
  Forall2 (fun a b => f a b = Val (g a b)) l l' -> map2M f l l' = Val (zipWith g l l').
Proof. induction 1 as [|a b l l' H _ IH]; cbn [map2M zipWith]; [reflexivity|rewrite H, IH; reflexivity]. Qed.

Lemma nth_error_nth_lt {A} (l : list A) i d : (i < length l)%nat -> nth_error l i = Some (nth i l d).
Proof. intros H. apply nth_error_nth'. exact H. Qed.

Lemma get_lt {A} (l : list A) i d : (i < length l)%nat -> get l i = Val (nth i l d).
Proof. intros H. unfold get. rewrite (nth_error_nth_lt l i d H). reflexivity. Qed.

Lemma good_modulus c i : good_rns c -> (i < length (rns_u64 c))%nat ->
  exists m, get (rns_moduli c) i = Val m /\ valid_modulus m /\ mod_p m = nth i (rns_u64 c) 0.
Proof.
  intros H Hi. pose proof (Forall2_length_eq _ _ _ (gr_moduli _ H)) as L.
  exists (nth i (rns_moduli c) (mkModulus 0 0 0 0 false)).
  pose proof (Forall2_nth _ _ _ i 0 (mkModulus 0 0 0 0 false) (gr_moduli _ H) Hi) as E. cbn beta in E.
  split; [apply get_lt; lia|]. apply modulus_new_valid in E. destruct E. split; [assumption|congruence].
Qed.

Lemma mapM_seq_nth {A} (f : nat -> M A) (r : list A) n d : length r = n ->
  (forall i, (i < n)%nat -> f i = Val (nth i r d)) -> mapM f (seq 0 n) = Val r.
Proof.
  intros L H.
  rewrite (mapM_val f (fun i => nth i r d)).
  - f_equal. apply nth_ext with (d := d) (d' := d); [rewrite map_length, seq_length; lia|].
    rewrite map_length, seq_length. intros i Hi. rewrite (map_nth_lt _ _ i O) by (rewrite seq_length; exact Hi).
    rewrite seq_nth by exact Hi. reflexivity.
  - intros i Hi. apply in_seq in Hi. apply H. lia.
Qed.

Theorem scaler_new_good from to f : good_rns from -> good_rns to ->
  0 <= f_num f -> 0 < f_den f -> f_one f = (f_num f =? f_den f) -> Z.of_nat (length (rns_u64 from)) < 2 ^ 60 ->
  exists s, scaler_new from to f = Val s /\ good_scaler s /\ sc_from s = from /\ sc_to s = to /\ sc_factor s = f.
Proof.
  intros Hf Ht Hn Hd H1 HN. unfold scaler_new.
  rewrite bind_guard by (apply negb_true_iff, Z.eqb_neq; lia).
  pose proof (basis_pos _ (gr_basis _ Hf)) as HQ. rewrite <- (gr_product _ Hf) in HQ.
  destruct (extract_spec to (rns_product from) _ _ false Ht Hn Hd ltac:(lia)) as (tg & tgs & Eg & Sg & Bg).
  rewrite Eg. cbn [bind]. set (num := f_num f) in *. set (den := f_den f) in *.
  pose proof (residues_canonical _ Ht (rnd num den (rns_product from))) as Cg.
  set (gam := residues_of (rns_u64 to) _) in *.
  assert (Egs : map2M (fun wi m => shoup m wi) gam (rns_moduli to) = Val (zipWith (fun q x => x * W64 / q) (rns_u64 to) gam)).
  { pose proof (gr_moduli _ Ht) as GM. revert Cg. clear Eg. clearbody gam. revert gam.
    induction GM as [|q m qs ms Em _ IH]; intros g0 C; inversion C; subst; cbn [map2M zipWith]; [reflexivity|].
    destruct (modulus_new_valid _ _ Em) as [Vm ->].
    match goal with H : 0 <= ?r < mod_p m |- _ => destruct (shoup_spec m Vm r H) as [-> _] end. cbn [bind].
    rewrite IH by assumption. reflexivity. }
  rewrite Egs. cbn [bind].
  destruct (mapM_exists (fun g => extract to g num den true)
    (fun g e => let '(pr, t, sg) := e in pr = residues_of (rns_u64 to) (rnd num den g) /\
        signed sg t = Tup num den g /\ 0 <= t <= P126) (rns_garner from)) as (es & Ees & Hes).
  { intros g Hg. pose proof (good_garner _ _ Hf Hg).
    destruct (extract_spec to g num den true Ht Hn Hd ltac:(lia)) as (t & sg & E & S1 & B1).
    exists (residues_of (rns_u64 to) (rnd num den g), t, sg). rewrite E. auto. }
  rewrite Ees. cbn [bind].
  pose proof (Forall2_length_eq _ _ _ (gr_moduli _ Ht)) as Lm.
  pose proof (Forall2_length_eq _ _ _ Hes) as Le.
  set (om := map (fun q => map (fun g => rnd num den g mod q) (rns_garner from)) (rns_u64 to)).
  match goal with |- context [mapM ?F (seq 0 (length (rns_moduli to)))] =>
    assert (Eo : mapM F (seq 0 (length (rns_moduli to))) = Val om) end.
  { apply mapM_seq_nth with (d := []); [unfold om; rewrite map_length; lia|]. intros j Hj.
    rewrite <- Lm in Hj. unfold om. rewrite (map_nth_lt _ _ j 0) by exact Hj.
    destruct (good_modulus _ _ Ht Hj) as (m & Egm & Vm & Epm). rewrite Egm.
    set (q := nth j (rns_u64 to) 0) in *. pose proof (valid_fields m Vm) as (Bp & _).
    clear Ees Le. induction Hes as [|g [[pr t] sg] gs es He _ IH]; cbn [mapM map]; [reflexivity|].
    destruct He as (-> & _ & _). cbn [bind].
    rewrite (get_lt _ j 0) by (unfold residues_of; rewrite map_length; exact Hj). cbn [bind].
    unfold residues_of at 1. rewrite (map_nth_lt _ _ j 0) by exact Hj. fold q.
    pose proof (Z.mod_pos_bound (rnd num den g) q ltac:(lia)).
    rewrite reduce_spec by (try exact Vm; unfold is_u64; lia). cbn [bind]. rewrite Epm, Z.mod_mod by lia.
    cbn [bind] in IH. rewrite IH. reflexivity. }
  rewrite Eo. cbn [bind].
  assert (Eos : map2M (fun m row => mapM (shoup m) row) (rns_moduli to) om =
     Val (zipWith (fun q row => map (fun x => x * W64 / q) row) (rns_u64 to) om)).
  { unfold om. clear Eo om. clear Egs Cg Eg gam Lm Hes Le Ees. pose proof (gr_moduli _ Ht) as GM.
    induction GM as [|q m qs ms Em _ IH]; cbn [map2M map zipWith]; [reflexivity|].
    destruct (modulus_new_valid _ _ Em) as [Vm Eq].
    rewrite (mapM_val (shoup m) (fun x => x * W64 / q)).
    - cbn [bind]. rewrite IH. reflexivity.
    - intros x Hx. apply in_map_iff in Hx. destruct Hx as (g & <- & _). pose proof (valid_fields m Vm) as (Bp & _).
      subst q. pose proof (Z.mod_pos_bound (rnd num den g) (mod_p m) ltac:(lia)) as Bx.
      destruct (shoup_spec m Vm _ Bx) as [-> _]. reflexivity. }
  rewrite Eos. cbn [bind].
  destruct (theta_shift_spec _ (gr_basis _ Hf) HN) as (sh & Esh & Bsh & Msh & Xsh).
  rewrite Esh. cbn [bind].
  rewrite (mapM_val _ (fun g => (g * 2 ^ sh + rns_product from / 2) / rns_product from)).
  2:{ intros g Hg. pose proof (good_garner _ _ Hf Hg).
      rewrite bind_guard by (apply negb_true_iff, Z.eqb_neq; lia).
      rewrite Z.shiftl_mul_pow2, shiftr_div by lia. change (2 ^ 1) with 2. apply chk_val.
      set (Q := rns_product from) in *.
      pose proof (Z.div_mod Q 2 ltac:(lia)). pose proof (Z.mod_pos_bound Q 2 ltac:(lia)).
      assert (HP : 0 < 2 ^ sh) by (apply Z.pow_pos_nonneg; lia).
      assert (HP2 : 2 ^ sh <= P127) by (apply Z.pow_le_mono_r; lia).
      split; [apply Z.div_pos; nia|]. apply Z.div_lt_upper_bound; [lia|].
      change W128 with (2 * P127). remember (2 ^ sh) as p. remember P127 as p'. nia. }
  cbn [bind]. eexists. split; [reflexivity|]. split; [|auto].
  constructor; cbn [sc_from sc_to sc_factor sc_gamma sc_gamma_shoup sc_theta_gamma sc_theta_gamma_sign sc_omega sc_omega_shoup
    sc_theta_omega sc_theta_omega_sign sc_theta_garner sc_shift]; auto.
  - rewrite !map_length, <- Le. rewrite (gr_lg _ Hf). auto.
  - fold num den. clear Ees Le Eo Eos. clearbody om. clear om. induction Hes as [|g [[pr t] sg] gs es He _ IH]; cbn [map zipWith]; [reflexivity|].
    destruct He as (_ & E & _). rewrite E. f_equal. exact IH.
Qed.

(** ** Scaling *)
Definition sum_list (l : list Z) : Z := fold_right Z.add 0 l.

Lemma wsum_spec ts : forall rs acc, 0 <= acc < W256 -> wsum ts rs acc = (acc + inner ts rs) mod W256.
Proof.
  induction ts as [|t ts IH]; intros rs acc Ha; cbn [wsum inner].
  - rewrite Z.add_0_r, Z.mod_small by exact Ha. reflexivity.
  - destruct rs as [|r rs]; [rewrite Z.add_0_r, Z.mod_small by exact Ha; reflexivity|].
    rewrite IH by (apply Z.mod_pos_bound; lia). rewrite Zplus_mod_idemp_l. f_equal. ring.
Qed.

Lemma wsum_signed_spec ts : forall ss rs acc, 0 <= acc < W256 ->
  wsum_signed ts ss rs acc = (acc + inner (zipWith signed ss ts) rs) mod W256.
Proof.
  induction ts as [|t ts IH]; intros ss rs acc Ha; cbn [wsum_signed].
  - destruct ss; cbn [zipWith inner]; rewrite Z.add_0_r, Z.mod_small by exact Ha; reflexivity.
  - destruct ss as [|s ss]; cbn [zipWith inner]; [rewrite Z.add_0_r, Z.mod_small by exact Ha; reflexivity|].
    destruct rs as [|r rs]; [rewrite Z.add_0_r, Z.mod_small by exact Ha; reflexivity|].
    rewrite IH by (apply Z.mod_pos_bound; lia). rewrite Zplus_mod_idemp_l. f_equal. unfold signed. destruct s; ring.
Qed.

Lemma inner_comm l : forall l', inner l l' = inner l' l.
Proof. induction l as [|a l IH]; intros [|b l']; cbn [inner]; try reflexivity. rewrite IH. ring. Qed.

(** A weighted sum with weights between two multiples of another list. *)
Lemma inner_le (f g : Z -> Z) rs : forall gs, Forall (fun r => 0 <= r) rs -> (forall x, In x gs -> f x <= g x) ->
  inner rs (map f gs) <= inner rs (map g gs).
Proof.
  induction rs as [|r rs IH]; intros gs F H; cbn [inner]; [lia|].
  destruct gs as [|x gs]; cbn [map inner]; [lia|]. inversion F; subst.
  assert (f x <= g x) by (apply H; left; reflexivity).
  assert (inner rs (map f gs) <= inner rs (map g gs)) by (apply IH; [assumption|intros; apply H; right; assumption]).
  nia.
Qed.

Lemma inner_map_lin (f : Z -> Z) a b rs : forall gs, length gs = length rs ->
  inner rs (map (fun x => a * f x + b) gs) = a * inner rs (map f gs) + b * sum_list rs.
Proof.
  induction rs as [|r rs IH]; intros [|x gs] L; cbn [map inner sum_list fold_right length] in *; try lia.
  rewrite IH by lia. fold (sum_list rs). ring.
Qed.

Lemma inner_map_add (f g : Z -> Z) rs : forall gs,
  inner rs (map (fun x => f x + g x) gs) = inner rs (map f gs) + inner rs (map g gs).
Proof.
  induction rs as [|r rs IH]; intros [|x gs]; cbn [map inner]; try lia. rewrite IH. ring.
Qed.

Lemma inner_map_scal (f : Z -> Z) a rs : forall gs,
  inner rs (map (fun x => a * f x) gs) = a * inner rs (map f gs).
Proof. induction rs as [|r rs IH]; intros [|x gs]; cbn [map inner]; try lia. rewrite IH. ring. Qed.

Lemma sum_list_bound rs B : Forall (fun r => 0 <= r <= B) rs -> 0 <= sum_list rs <= Z.of_nat (length rs) * B.
Proof.
  induction 1 as [|r rs H _ IH]; cbn [sum_list fold_right length]; [lia|]. fold (sum_list rs).
  rewrite Nat2Z.inj_succ. lia.
Qed.

Lemma canonical_nonneg qs rs : canonical_residues qs rs -> Forall (fun r => 0 <= r) rs.
Proof. induction 1; constructor; [lia|assumption]. Qed.
Lemma canonical_W62 qs rs : canonical_residues qs rs -> Forall (fun q => 2 <= q < W62) qs -> Forall (fun r => 0 <= r < W62) rs.
Proof. induction 1; intros F; constructor; inversion F; subst; [lia|auto]. Qed.

Section Scale.
  Variable s : rns_scaler.
  Hypothesis Hs : good_scaler s.
  Let from := sc_from s.
  Let to := sc_to s.
  Let qs := rns_u64 from.
  Let Q := prod_list qs.
  Let num := f_num (sc_factor s).
  Let den := f_den (sc_factor s).
  Let gs := rns_garner from.
  Variable rs : list Z.
  Hypothesis Hrs : canonical_residues qs rs.
  Let n := length qs.
  Let Hf : good_rns from := gs_from _ Hs.
  Let Ht : good_rns to := gs_to _ Hs.
  Let sh := sc_shift s.

  Lemma HQ : 2 <= Q /\ rns_product from = Q.
  Proof. split; [apply basis_pos, (gr_basis _ Hf)|apply (gr_product _ Hf)]. Qed.
  Lemma rs_len : length rs = n.
  Proof. symmetry. apply (Forall2_length_eq _ _ _ Hrs). Qed.
  Lemma gs_len : length gs = n.
  Proof. apply (gr_lg _ Hf). Qed.
  Lemma rs_nonneg : Forall (fun r => 0 <= r) rs.
  Proof. exact (canonical_nonneg _ _ Hrs). Qed.
  Lemma rs_bound : Forall (fun r => 0 <= r < W62) rs.
  Proof.
    pose proof (gr_basis _ Hf) as (_ & _ & F). exact (canonical_W62 _ _ Hrs F).
  Qed.
  Lemma rsum_bound : 0 <= sum_list rs /\ sum_list rs < 2 ^ 122.
  Proof.
    assert (F : Forall (fun r => 0 <= r <= W62) rs).
    { eapply Forall_impl; [|exact rs_bound]. cbn beta. intros; lia. }
    apply sum_list_bound in F. rewrite rs_len in F. split; [lia|].
    pose proof (gs_n _ Hs) as B. fold from qs n in B. change (2 ^ 122) with (2 ^ 60 * W62). remember (2 ^ 60) as p. nia.
  Qed.

  Lemma sh_pow : exists p, 2 ^ sh = 2 * p /\ 2 ^ (sh - 1) = p /\ 1 <= p.
  Proof.
    exists (2 ^ (sh - 1)). pose proof (gs_shift _ Hs) as (B & _). fold sh in B.
    split; [|split; [reflexivity|]].
    - replace sh with (Z.succ (sh - 1)) at 1 by lia. rewrite Z.pow_succ_r by lia. reflexivity.
    - assert (0 < 2 ^ (sh - 1)) by (apply Z.pow_pos_nonneg; lia). lia.
  Qed.

  (** The rounded garner thetas. *)
  Let tgar (g : Z) : Z := (g * 2 ^ sh + Q / 2) / Q.
  Definition Sg : Z := inner rs (map tgar gs).
  Definition vq : Z := (Sg + 2 ^ (sh - 1)) / 2 ^ sh.

  Lemma tgar_bounds g : In g gs -> 0 <= tgar g <= 2 ^ sh /\ 2 * g * 2 ^ sh - Q <= 2 * Q * tgar g <= 2 * g * 2 ^ sh + Q.
  Proof.
    intros Hg. pose proof (good_garner _ _ Hf Hg) as B. pose proof HQ as [HQ2 EQ]. rewrite EQ in B.
    unfold tgar. pose proof (Z.div_mod Q 2 ltac:(lia)). pose proof (Z.mod_pos_bound Q 2 ltac:(lia)).
    pose proof (Z.div_mod (g * 2 ^ sh + Q / 2) Q ltac:(lia)) as E.
    pose proof (Z.mod_pos_bound (g * 2 ^ sh + Q / 2) Q ltac:(lia)) as B'.
    destruct sh_pow as (p & Ep & _ & Hp). rewrite Ep in *.
    set (k := (g * (2 * p) + Q / 2) / Q) in *. split; [|nia]. split.
    - apply Z.div_pos; nia.
    - assert (Q * k < Q * (2 * p + 1)); [nia|nia].
  Qed.

  Lemma Sg_bounds : 0 <= Sg <= 2 ^ sh * sum_list rs.
  Proof.
    split.
    - unfold Sg. transitivity (inner rs (map (fun x => 0 * x + 0) gs)).
      + rewrite (inner_map_lin (fun x => x)) by (rewrite gs_len, rs_len; reflexivity). lia.
      + apply inner_le; [exact rs_nonneg|]. intros x Hx. pose proof (tgar_bounds x Hx). lia.
    - transitivity (inner rs (map (fun x => 0 * x + 2 ^ sh) gs)).
      + apply inner_le; [exact rs_nonneg|]. intros x Hx. pose proof (tgar_bounds x Hx). lia.
      + rewrite (inner_map_lin (fun x => x)) by (rewrite gs_len, rs_len; reflexivity). lia.
  Qed.

  Lemma vq_bounds : 0 <= vq <= sum_list rs.
  Proof.
    pose proof Sg_bounds. pose proof rsum_bound. destruct sh_pow as (p & E1 & E2 & Hp).
    unfold vq. rewrite E2. rewrite E1 in *. split; [apply Z.div_pos; lia|].
    assert ((Sg + p) / (2 * p) < sum_list rs + 1); [|lia]. apply Z.div_lt_upper_bound; [lia|nia].
  Qed.

  Lemma scale_v_val : scale_v s rs = Val vq.
  Proof.
    unfold scale_v. rewrite wsum_spec by lia. rewrite (gs_tgar _ Hs).
    pose proof HQ as [HQ2 EQ]. fold from. rewrite EQ. fold sh gs.
    change (map _ gs) with (map tgar gs). rewrite inner_comm. fold Sg. rewrite Z.add_0_l.
    pose proof Sg_bounds as B. pose proof rsum_bound as R. pose proof (gs_shift _ Hs) as (Bs & _). fold sh in Bs.
    assert (Hsh : 2 ^ sh <= P127) by (apply Z.pow_le_mono_r; lia).
    destruct sh_pow as (p & E1 & E2 & Hp).
    rewrite Z.mod_small.
    2:{ split; [lia|]. change W256 with (P127 * 2 ^ 122 * 128). remember P127 as a. remember (2 ^ 122) as b. nia. }
    unfold chk64. rewrite bind_chk by lia. f_equal. rewrite shiftr_div by lia.
    unfold vq. rewrite E2, E1 in *.
    assert (D : Sg / p <= 2 * sum_list rs).
    { assert (Sg / p < 2 * sum_list rs + 1); [|lia]. apply Z.div_lt_upper_bound; [lia|nia]. }
    assert (D0 : 0 <= Sg / p) by (apply Z.div_pos; lia).
    rewrite Z.mod_small by (change W128 with (2 ^ 122 * 64); lia).
    unfold div_ceil2. rewrite (Z.mul_comm 2 p), <- Z.div_div by lia. f_equal.
    replace (Sg + p) with (Sg + 1 * p) by ring. rewrite Z.div_add by lia. reflexivity.
  Qed.

  (** The almost centered representative of the input. *)
  Definition xrep : Z := inner rs gs - vq * Q.

  Lemma xrep_cong i : (i < n)%nat -> cong (nth i qs 0) xrep (nth i rs 0).
  Proof.
    intros Hi. unfold xrep. rewrite <- (Z.sub_0_r (nth i rs 0)). apply cong_sub.
    - apply inner_residue; [exact Hf|fold qs n; apply rs_len|exact Hi].
    - pose proof (basis_nth _ _ (gr_basis _ Hf) Hi). fold qs in H. apply cong_0_divide; [lia|].
      apply Z.divide_mul_r, nth_divide_prod. exact Hi.
  Qed.

  Lemma xrep_bound : 2 ^ (sh + 1) * Z.abs xrep <= Q * (2 ^ sh + sum_list rs).
  Proof.
    pose proof HQ as [HQ2 _]. pose proof (gs_shift _ Hs) as (Bs & _). fold sh in Bs.
    rewrite Z.pow_add_r by lia. change (2 ^ 1) with 2.
    assert (L : length gs = length rs) by (rewrite gs_len, rs_len; reflexivity).
    assert (U : 2 * Q * Sg <= 2 * 2 ^ sh * inner rs gs + Q * sum_list rs).
    { unfold Sg. rewrite <- inner_map_scal.
      replace (inner rs gs) with (inner rs (map (fun x => x) gs)) by (rewrite map_id; reflexivity).
      rewrite <- (inner_map_lin (fun x => x)) by exact L. apply inner_le; [exact rs_nonneg|].
      intros x Hx. pose proof (tgar_bounds x Hx). lia. }
    assert (V : 2 * 2 ^ sh * inner rs gs - Q * sum_list rs <= 2 * Q * Sg).
    { unfold Sg. rewrite <- inner_map_scal.
      replace (inner rs gs) with (inner rs (map (fun x => x) gs)) by (rewrite map_id; reflexivity).
      replace (2 * 2 ^ sh * inner rs (map (fun x => x) gs) - Q * sum_list rs)
         with (2 * 2 ^ sh * inner rs (map (fun x => x) gs) + (- Q) * sum_list rs) by ring.
      rewrite <- (inner_map_lin (fun x => x)) by exact L. apply inner_le; [exact rs_nonneg|].
      intros x Hx. pose proof (tgar_bounds x Hx). lia. }
    assert (W : 2 * 2 ^ sh * vq <= 2 * Sg + 2 ^ sh /\ 2 * Sg - 2 ^ sh <= 2 * 2 ^ sh * vq).
    { unfold vq. destruct sh_pow as (p & E1 & E2 & Hp). rewrite E1, E2.
      pose proof (Z.div_mod (Sg + p) (2 * p) ltac:(lia)). pose proof (Z.mod_pos_bound (Sg + p) (2 * p) ltac:(lia)). lia. }
    unfold xrep. set (X := inner rs gs) in *. set (R := sum_list rs) in *.
    assert (P : 0 < 2 ^ sh) by (apply Z.pow_pos_nonneg; lia). set (p := 2 ^ sh) in *.
    destruct W as [W1 W2].
    assert (W1' : Q * (2 * p * vq) <= Q * (2 * Sg + p)) by (apply Z.mul_le_mono_nonneg_l; lia).
    assert (W2' : Q * (2 * Sg - p) <= Q * (2 * p * vq)) by (apply Z.mul_le_mono_nonneg_l; lia).
    destruct (Z.abs_spec (X - vq * Q)) as [[_ ->]|[_ ->]]; lia.
  Qed.

  (** The correction term. *)
  Definition St : Z := inner rs (map (Tup num den) gs) - vq * Tdn num den Q.
  Definition wq : Z := (St + P126) / P127.

  Lemma scale_w_val : f_one (sc_factor s) = false -> - 2 ^ 253 <= St < 2 ^ 191 ->
    exists sg w, scale_w s rs vq = Val (sg, w) /\ signed sg w = wq /\ 0 <= w < W128.
  Proof.
    intros H1 HS. unfold scale_w. rewrite H1.
    pose proof (gs_tg _ Hs) as (Eg & Bg). pose proof HQ as [HQ2 EQ]. fold from in Eg. rewrite EQ in Eg. fold num den in Eg.
    pose proof vq_bounds as Bv. pose proof rsum_bound as R.
    unfold chk256. rewrite bind_chk.
    2:{ change W256 with (2 ^ 122 * P126 * 256). remember (2 ^ 122) as a. remember P126 as b. nia. }
    rewrite wsum_signed_spec by lia. rewrite (gs_tom _ Hs). fold num den from gs. rewrite inner_comm, Z.add_0_l.
    match goal with |- context [0 <? Z.shiftr ?e _] => assert (E : e = St mod W256) end.
    { unfold St. rewrite <- Eg. unfold signed. destruct (sc_theta_gamma_sign s).
      - rewrite Zplus_mod_idemp_l. f_equal. ring.
      - rewrite Zminus_mod_idemp_l. reflexivity. }
    rewrite E. clear E. cbv zeta.
    unfold wq. change P127 with (P126 * 2). rewrite <- Z.div_div by (try discriminate; lia).
    replace (St + P126) with (St + 1 * P126) by ring. rewrite Z.div_add by discriminate.
    assert (K : 0 < P126) by reflexivity.
    change (2 ^ 253) with (P126 * 2 ^ 127) in HS. change (2 ^ 191) with (P126 * 2 ^ 65) in HS.
    destruct (Z.ltb_spec St 0) as [Hneg|Hpos].
    - replace (St mod W256) with (St + W256).
      2:{ apply Z.mod_unique with (-1); [left; change W256 with (P126 * 2 ^ 128 * 4); change (2 ^ 128) with (P127 * 2); remember P126 as p; remember P127 as p'; lia|lia]. }
      rewrite shiftr_div by lia.
      assert (G : 0 < (St + W256) / 2 ^ (63 + 128)).
      { apply Z.div_str_pos. split; [reflexivity|]. change (2 ^ (63 + 128)) with (P126 * 2 ^ 65).
        change W256 with (P126 * 2 ^ 128 * 4). change P127 with (2 ^ 65 * 2 ^ 62) in *. change (2 ^ 128) with (2 ^ 65 * 2 ^ 63).
        remember P126 as p. remember (2 ^ 65) as p'. change (2 ^ 63) with W63 in *. change (2 ^ 62) with W62 in *. nia. }
      apply Z.ltb_lt in G. rewrite G. rewrite shiftr_div by lia.
      replace (W256 - 1 - (St + W256)) with (- (St + 1)) by ring.
      set (b := St / P126).
      assert (Eb : - (St + 1) / P126 = - b - 1).
      { unfold b. pose proof (Z.div_mod St P126 ltac:(lia)). pose proof (Z.mod_pos_bound St P126 ltac:(lia)).
        symmetry. apply Z.div_unique with (P126 - 1 - St mod P126); lia. }
      rewrite Eb.
      assert (Bb : - P127 <= b < 0).
      { unfold b. split; [apply Z.div_le_lower_bound; lia|]. apply Z.div_lt_upper_bound; lia. }
      change P127 with W127 in Bb.
      rewrite Z.mod_small by lia. unfold chk128.
      rewrite bind_chk by lia. exists true, ((- b - 1 + 1) / 2). split; [reflexivity|]. cbn [signed].
      replace (- b - 1 + 1) with (- b) by ring.
      pose proof (Z.div_mod (- b) 2 ltac:(lia)). pose proof (Z.mod_pos_bound (- b) 2 ltac:(lia)).
      split; [|lia]. apply Z.div_unique with (b + 1 + 2 * ((- b) / 2)); lia.
    - rewrite Z.mod_small by (change W256 with (P126 * 2 ^ 65 * 2 ^ 65); remember P126 as p; change (2 ^ 65) with 36893488147419103232 in *; lia).
      rewrite shiftr_div by lia. change (2 ^ (63 + 128)) with (P126 * 2 ^ 65).
      rewrite (Z.div_small St) by lia. cbn [Z.ltb Z.compare]. rewrite shiftr_div by lia.
      set (b := St / P126).
      assert (Bb : 0 <= b < 2 ^ 65).
      { unfold b. split; [apply Z.div_pos; lia|apply Z.div_lt_upper_bound; lia]. }
      change (2 ^ 65) with 36893488147419103232 in Bb.
      rewrite Z.mod_small by lia. exists false, (div_ceil2 b). unfold div_ceil2. split; [reflexivity|]. cbn [signed].
      pose proof (Z.div_mod (b + 1) 2 ltac:(lia)). pose proof (Z.mod_pos_bound (b + 1) 2 ltac:(lia)).
      split; [reflexivity|lia].
  Qed.
  (** The integer whose residues are returned. *)
  Definition yq : Z := inner rs (map (rnd num den) gs) - vq * rnd num den Q + (if f_one (sc_factor s) then 0 else wq).

  Lemma dot_lazy_spec m os : valid_modulus m -> forall rests acc, Forall is_u64 rests -> length os = length rests ->
    canonical (mod_p m) os -> 0 <= acc -> acc + 2 * mod_p m * Z.of_nat (length rests) < W128 ->
    exists r, dot_lazy m rests os (map (fun x => x * W64 / mod_p m) os) acc = Val r /\
      0 <= r <= acc + 2 * mod_p m * Z.of_nat (length rests) /\ cong (mod_p m) r (acc + inner rests os).
  Proof.
    intros Vm. induction os as [|o os IH]; intros [|r rests] acc Fr L C Ha B; cbn [length] in *; try lia.
    - exists acc. cbn [dot_lazy inner]. split; [reflexivity|]. split; [lia|]. rewrite Z.add_0_r. apply cong_refl.
    - cbn [dot_lazy map inner]. inversion Fr; subst. inversion C; subst.
      destruct (lazy_mul_shoup_spec m Vm r o) as (t & Et & Bt & Ct); [assumption|assumption|].
      unfold shoup_of in Et. rewrite Et. cbn [bind]. pose proof (valid_fields m Vm) as (Bp & _).
      rewrite Nat2Z.inj_succ in B.
      assert (HB : acc + t + 2 * mod_p m * Z.of_nat (length rests) < W128) by lia.
      unfold chk128. rewrite bind_chk by lia.
      destruct (IH rests (acc + t)) as (r' & -> & Br & Cr); [assumption|lia|assumption|lia|lia|].
      exists r'. split; [reflexivity|]. split; [lia|]. eapply cong_trans; [exact Cr|].
      rewrite <- Z.add_assoc. apply cong_add; [apply cong_refl|]. apply cong_add; [|apply cong_refl].
      exact Ct.
  Qed.

  Lemma inner_cong_map (p : Z) (f g : Z -> Z) r0 : forall g0, (forall x, cong p (f x) (g x)) ->
    cong p (inner r0 (map f g0)) (inner r0 (map g g0)).
  Proof.
    induction r0 as [|r r0 IH]; intros [|x g0] H; cbn [map inner]; try apply cong_refl.
    apply cong_add; [apply cong_mul; [apply cong_refl|apply H]|apply IH; exact H].
  Qed.

  Lemma zipWith_map_same {A B C} (f : A -> B -> C) (g : A -> B) (l : list A) :
    zipWith f l (map g l) = map (fun a => f a (g a)) l.
  Proof. induction l as [|a l IH]; cbn [map zipWith]; [reflexivity|rewrite IH; reflexivity]. Qed.

  Lemma scale_one_val i sg w : (i < length (rns_u64 to))%nat ->
    (f_one (sc_factor s) = false -> signed sg w = wq /\ 0 <= w < W128) ->
    scale_one s rs vq sg w i = Val (yq mod nth i (rns_u64 to) 0).
  Proof.
    intros Hi Hw. unfold scale_one. fold to.
    destruct (good_modulus _ _ Ht Hi) as (m & -> & Vm & Em). cbn [bind].
    pose proof (valid_fields m Vm) as (Bp & _). set (q := nth i (rns_u64 to) 0) in *.
    pose proof HQ as [HQ2 EQ].
    assert (Lom : length (sc_omega s) = length (rns_u64 to)) by (rewrite (gs_omega _ Hs), map_length; reflexivity).
    assert (Eom : get (sc_omega s) i = Val (map (fun g => rnd num den g mod q) gs)).
    { rewrite (get_lt _ i []) by (rewrite Lom; exact Hi). rewrite (gs_omega _ Hs).
      rewrite (map_nth_lt _ _ i 0) by exact Hi. reflexivity. }
    assert (Eos : get (sc_omega_shoup s) i = Val (map (fun x => x * W64 / q) (map (fun g => rnd num den g mod q) gs))).
    { rewrite (gs_omega_shoup _ Hs), (gs_omega _ Hs), zipWith_map_same.
      rewrite (get_lt _ i []) by (rewrite map_length; exact Hi). rewrite (map_nth_lt _ _ i 0) by exact Hi. reflexivity. }
    assert (Ega : get (sc_gamma s) i = Val (rnd num den Q mod q)).
    { rewrite (gs_gamma _ Hs). unfold residues_of. rewrite (get_lt _ i 0) by (rewrite map_length; exact Hi).
      rewrite (map_nth_lt _ _ i 0) by exact Hi. fold from. rewrite EQ. reflexivity. }
    assert (Egs : get (sc_gamma_shoup s) i = Val (rnd num den Q mod q * W64 / q)).
    { rewrite (gs_gamma_shoup _ Hs), (gs_gamma _ Hs). unfold residues_of. rewrite zipWith_map_same.
      rewrite (get_lt _ i 0) by (rewrite map_length; exact Hi).
      rewrite (map_nth_lt _ _ i 0) by exact Hi. fold from. rewrite EQ. reflexivity. }
    rewrite Eom, Eos, Ega, Egs. cbn [bind]. clear Eom Eos Ega Egs Lom.
    unfold chk64. rewrite bind_chk by lia.
    pose proof vq_bounds as Bv. pose proof rsum_bound as R.
    rewrite reduce_u128_spec by (try exact Vm; unfold is_u128; change W128 with (2 ^ 122 * 64); lia). cbn [bind].
    rewrite Em.
    destruct (lazy_mul_shoup_spec m Vm (vq mod q) (rnd num den Q mod q)) as (t & Et & Bt & Ct).
    { pose proof (Z.mod_pos_bound vq q ltac:(lia)). unfold is_u64. lia. }
    { rewrite Em. apply Z.mod_pos_bound. lia. }
    unfold shoup_of in Et. rewrite Em in *. rewrite Et. cbn [bind].
    rewrite bind_chk by lia.
    match goal with |- bind ?e _ = _ => assert (Ey : exists y, e = Val y /\ 0 <= y <= 4 * q /\
        cong q y (- (vq * rnd num den Q) + (if f_one (sc_factor s) then 0 else wq))) end.
    { assert (Cg : cong q (q * 2 - t) (- (vq * rnd num den Q))).
      { apply cong_trans with (0 - t).
        - apply cong_sub; [|apply cong_refl]. unfold cong. rewrite Z.mul_comm, Z.mod_mul, Z.mod_0_l by lia. reflexivity.
        - rewrite Z.sub_0_l. apply cong_opp. eapply cong_trans; [exact Ct|]. apply cong_mul; apply cong_mod. }
      destruct (f_one (sc_factor s)) eqn:E1.
      - exists (q * 2 - t). split; [reflexivity|]. split; [lia|]. rewrite Z.add_0_r. exact Cg.
      - destruct (Hw eq_refl) as (Sw & Bw).
        destruct (lazy_reduce_u128_spec m w Vm Bw) as (wi & -> & Bwi & Cwi). rewrite Em in *. cbn [bind].
        destruct sg; unfold chk128.
        + rewrite bind_chk by lia. exists (q * 2 - t + (q * 2 - wi)). split; [apply chk_val; lia|]. split; [lia|].
          apply cong_add; [exact Cg|]. rewrite <- Sw. cbn [signed].
          apply cong_trans with (0 - wi).
          * apply cong_sub; [|apply cong_refl]. unfold cong. rewrite Z.mul_comm, Z.mod_mul, Z.mod_0_l by lia. reflexivity.
          * rewrite Z.sub_0_l. apply cong_opp. exact Cwi.
        + exists (q * 2 - t + wi). split; [apply chk_val; lia|]. split; [lia|].
          apply cong_add; [exact Cg|]. rewrite <- Sw. exact Cwi. }
    destruct Ey as (y & -> & By & Cy). cbn [bind].
    pose proof (gs_n _ Hs) as Bn. fold from qs n in Bn.
    assert (BB : y + 2 * mod_p m * Z.of_nat (length rs) < W128).
    { rewrite rs_len, Em. change W128 with (2 ^ 60 * 2 ^ 68). remember (2 ^ 60) as p. change (2 ^ 68) with 295147905179352825856. nia. }
    destruct (dot_lazy_spec m (map (fun g => rnd num den g mod q) gs) Vm rs y) as (r & Er & Br & Cr).
    { eapply Forall_impl; [|exact rs_bound]. cbn beta. intros; unfold is_u64; lia. }
    { rewrite map_length, gs_len, rs_len. reflexivity. }
    { rewrite Em. unfold canonical. rewrite Forall_map, Forall_forall. intros; apply Z.mod_pos_bound; lia. }
    { lia. }
    { exact BB. }
    rewrite Em in Er. rewrite Er. cbn [bind].
    rewrite reduce_u128_spec by (try exact Vm; unfold is_u128; lia). f_equal. rewrite Em in *.
    change (cong q r yq). eapply cong_trans; [exact Cr|].
    unfold yq. replace (inner rs (map (rnd num den) gs) - vq * rnd num den Q + (if f_one (sc_factor s) then 0 else wq))
      with ((- (vq * rnd num den Q) + (if f_one (sc_factor s) then 0 else wq)) + inner rs (map (rnd num den) gs)) by ring.
    apply cong_add; [exact Cy|]. apply inner_cong_map. intros x. apply cong_mod.
  Qed.

  Theorem scale_val start len : (0 < len)%nat -> (start + len <= length (rns_u64 to))%nat ->
    (f_one (sc_factor s) = true \/ - 2 ^ 253 <= St < 2 ^ 191) ->
    scale s rs start len = Val (map (fun q => yq mod q) (firstn len (skipn start (rns_u64 to)))).
  Proof.
    intros Hl Hb HS. unfold scale. fold from to.
    rewrite bind_guard by (apply Nat.eqb_eq; fold qs n; apply rs_len).
    rewrite bind_guard by (apply negb_true_iff, Nat.eqb_neq; lia).
    rewrite bind_guard by (apply Nat.leb_le; exact Hb).
    rewrite scale_v_val. cbn [bind].
    assert (W : exists sg w, scale_w s rs vq = Val (sg, w) /\ (f_one (sc_factor s) = false -> signed sg w = wq /\ 0 <= w < W128)).
    { destruct (f_one (sc_factor s)) eqn:E.
      - exists false, 0. unfold scale_w. rewrite E. split; [reflexivity|discriminate].
      - destruct HS as [HS|HS]; [discriminate|]. destruct (scale_w_val E HS) as (sg & w & Ew & H). eauto. }
    destruct W as (sg & w & -> & Hw). cbn [bind].
    apply mapM_seq_nth with (d := 0).
    - rewrite map_length, firstn_length, skipn_length. lia.
    - intros i Hi. rewrite scale_one_val by (try exact Hw; lia). f_equal.
      rewrite (map_nth_lt _ _ i 0) by (rewrite firstn_length, skipn_length; lia).
      f_equal. rewrite <- (firstn_skipn start (rns_u64 to)) at 1.
      rewrite app_nth2; rewrite firstn_length_le by lia; [|lia].
      replace (start + i - start)%nat with i by lia.
      rewrite <- (firstn_skipn len (skipn start (rns_u64 to))) at 1. rewrite app_nth1; [reflexivity|].
      rewrite firstn_length, skipn_length. lia.
  Qed.

  (** How far [yq] is from the scaled representative. *)
  Lemma yq_one : f_one (sc_factor s) = true -> yq = xrep.
  Proof.
    intros H1. pose proof (gs_one _ Hs) as E. rewrite H1 in E. symmetry in E. apply Z.eqb_eq in E. fold num den in E.
    pose proof (gs_den _ Hs) as Hd. fold den in Hd.
    assert (R : forall x, rnd num den x = x).
    { intros x. unfold rnd. rewrite E. pose proof (Z.div_mod den 2 ltac:(lia)). pose proof (Z.mod_pos_bound den 2 ltac:(lia)).
      rewrite Z.mul_comm, Z.add_comm, Z.div_add by lia. rewrite Z.div_small by lia. lia. }
    unfold yq, xrep. rewrite H1, R, Z.add_0_r. f_equal. f_equal.
    rewrite <- (map_id gs) at 2. apply map_ext. exact R.
  Qed.

  Lemma yq_bounds : f_one (sc_factor s) = false ->
    - (P126 * den) < P127 * (den * yq - num * xrep) <= P126 * den + (den - 1) * (sum_list rs + vq).
  Proof.
    intros H1. pose proof (gs_den _ Hs) as Hd. fold den in Hd.
    assert (L : length gs = length rs) by (rewrite gs_len, rs_len; reflexivity).
    unfold yq. rewrite H1.
    set (E := inner rs (map (remd num den) gs) - vq * remd num den Q).
    assert (EE : num * xrep = den * (inner rs (map (rnd num den) gs) - vq * rnd num den Q) + E).
    { unfold xrep, E. unfold remd.
      replace (inner rs (map (fun x => num * x - den * rnd num den x) gs))
        with (num * inner rs gs - den * inner rs (map (rnd num den) gs)); [ring|].
      rewrite (map_ext (fun x => num * x - den * rnd num den x) (fun x => num * x + (- den) * rnd num den x)) by (intros; ring).
      rewrite inner_map_add, (inner_map_scal (fun x => x)), (inner_map_scal (rnd num den)), map_id. ring. }
    assert (SU : den * St <= P127 * E + (den - 1) * (sum_list rs + vq)).
    { unfold St, E. rewrite Z.mul_sub_distr_l.
      assert (A : den * inner rs (map (Tup num den) gs) <= P127 * inner rs (map (remd num den) gs) + (den - 1) * sum_list rs).
      { rewrite <- inner_map_scal, <- inner_map_lin by exact L. apply inner_le; [exact rs_nonneg|].
        intros x _. pose proof (Tup_bounds num den x Hd). lia. }
      pose proof (Tdn_bounds num den Q Hd) as [B _]. pose proof vq_bounds.
      assert (vq * (P127 * remd num den Q - den + 1) <= vq * (den * Tdn num den Q)) by (apply Z.mul_le_mono_nonneg_l; lia).
      remember P127 as a. lia. }
    assert (SL : P127 * E <= den * St).
    { unfold St, E. rewrite !Z.mul_sub_distr_l.
      assert (A : P127 * inner rs (map (remd num den) gs) <= den * inner rs (map (Tup num den) gs)).
      { rewrite <- !inner_map_scal. apply inner_le; [exact rs_nonneg|].
        intros x _. pose proof (Tup_bounds num den x Hd). lia. }
      pose proof (Tdn_bounds num den Q Hd) as [B _]. pose proof vq_bounds.
      assert (vq * (den * Tdn num den Q) <= vq * (P127 * remd num den Q)) by (apply Z.mul_le_mono_nonneg_l; lia).
      remember P127 as a. lia. }
    assert (WB : St - P126 < P127 * wq <= St + P126).
    { unfold wq. pose proof (Z.div_mod (St + P126) P127 ltac:(discriminate)).
      pose proof (Z.mod_pos_bound (St + P126) P127 ltac:(reflexivity)).
      assert (P127 = 2 * P126) by reflexivity. lia. }
    rewrite EE. set (X := inner rs (map (rnd num den) gs) - vq * rnd num den Q).
    assert (W1 : den * (St - P126) < den * (P127 * wq)) by (apply Z.mul_lt_mono_pos_l; lia).
    assert (W2 : den * (P127 * wq) <= den * (St + P126)) by (apply Z.mul_le_mono_nonneg_l; lia).
    remember P127 as a. remember P126 as b. lia.
  Qed.

  (** When the sum of the thetas fits. *)
  Definition active_sum : Z :=
    inner rs (map (fun g => if (num * g) mod den =? 0 then 0 else 1) gs)
    + (if (num * Q) mod den =? 0 then 0 else vq).

  Lemma St_bound : - (P126 * active_sum) <= St <= P126 * active_sum.
  Proof.
    pose proof (gs_den _ Hs) as Hd. fold den in Hd. unfold St, active_sum.
    set (ind := fun g => if (num * g) mod den =? 0 then 0 else 1).
    assert (T : forall x, - P126 * ind x <= Tup num den x <= P126 * ind x).
    { intros x. unfold ind. destruct (Z.eqb_spec ((num * x) mod den) 0) as [E|E].
      - apply Z.mod_divide in E; [|lia]. destruct (Tup_0 num den x Hd E). lia.
      - pose proof (Tup_bounds num den x Hd). lia. }
    assert (A : - P126 * inner rs (map ind gs) <= inner rs (map (Tup num den) gs) <= P126 * inner rs (map ind gs)).
    { split; rewrite <- inner_map_scal; apply inner_le; try exact rs_nonneg; intros x _; apply T. }
    assert (B : - (P126 * (if (num * Q) mod den =? 0 then 0 else vq)) <= vq * Tdn num den Q
                <= P126 * (if (num * Q) mod den =? 0 then 0 else vq)).
    { pose proof vq_bounds. destruct (Z.eqb_spec ((num * Q) mod den) 0) as [E|E].
      - apply Z.mod_divide in E; [|lia]. destruct (Tup_0 num den Q Hd E) as [_ ->]. lia.
      - pose proof (Tdn_bounds num den Q Hd) as [_ C]. remember P126 as p. nia. }
    remember P126 as p. lia.
  Qed.
End Scale.

Arguments xrep s rs : clear implicits.
