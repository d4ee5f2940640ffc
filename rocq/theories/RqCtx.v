(** Proofs about [Context]: the invariant of contexts, and acceptance. *)
From Verif Require Import Outcome BasicSpec OutcomeLemmas ZqModel ZqProofs ZqPow NumTheory NttModel PolySpec PolyRing NttPure NttStages NttProofs.
From Verif Require Import RnsModel RnsSpec RnsProofs RqModel RqSpec.
From Coq Require Import Znumtheory.

(** The invariant of the fields of one context, apart from [c_next]. *)
Record ctx_ok (c : ctx) : Prop := {
  co_moduli : c_moduli c = map mod_p (c_q c);
  co_q : c_q c = map nt_p (c_ops c);
  co_ops : Forall (fun op => exists K w, ntt_ok op K w /\ nt_size op = c_degree c) (c_ops c);
  co_ne : c_ops c <> [];
  co_rns : good_rns (c_rns c);
  co_u64 : rns_u64 (c_rns c) = c_moduli c;
  co_deg : exists K, (3 <= K < 63)%nat /\ c_degree c = (2 ^ K)%nat /\
             c_bitrev c = map (fun j => Z.to_nat (bitrev K (Z.of_nat j))) (seq 0 (c_degree c));
  co_inv : Forall2 (fun op i => 0 <= i < mod_p (nt_p op) /\ cong (mod_p (nt_p op)) (last (c_moduli c) 0 * i) 1)
             (removelast (c_ops c)) (c_inv c);
  co_inv_shoup : Forall2 (fun op ii => snd ii = shoup_of (nt_p op) (fst ii)) (removelast (c_ops c)) (combine (c_inv c) (c_inv_shoup c));
  co_inv_len : length (c_inv_shoup c) = length (c_inv c)
}.
Inductive good_ctx : ctx -> Prop :=
| gc_last c : ctx_ok c -> length (c_moduli c) = 1%nat -> c_next c = None -> good_ctx c
| gc_cons c c' : ctx_ok c -> (2 <= length (c_moduli c))%nat -> c_next c = Some c' ->
    c_moduli c' = removelast (c_moduli c) -> c_ops c' = removelast (c_ops c) -> c_degree c' = c_degree c ->
    good_ctx c' -> good_ctx c.

Lemma good_ok c : good_ctx c -> ctx_ok c.
Proof. intros []; assumption. Qed.
Lemma good_next c c' : good_ctx c -> c_next c = Some c' ->
  good_ctx c' /\ c_moduli c' = removelast (c_moduli c) /\ c_ops c' = removelast (c_ops c) /\ c_degree c' = c_degree c.
Proof. intros H E. inversion H; subst; try congruence. rewrite H2 in E. injection E as <-. auto. Qed.
Lemma good_next_none c : good_ctx c -> c_next c = None -> length (c_moduli c) = 1%nat.
Proof. intros H E. inversion H; subst; congruence. Qed.

Lemma ctx_eqb_refl c : ctx_eqb c c = true.
Proof. unfold ctx_eqb. rewrite list_eqb_refl, Nat.eqb_refl. reflexivity. Qed.
Lemma ctx_eqb_true a b : ctx_eqb a b = true <-> c_moduli a = c_moduli b /\ c_degree a = c_degree b.
Proof. unfold ctx_eqb. rewrite andb_true_iff, list_eqb_eq, Nat.eqb_eq. reflexivity. Qed.

Lemma removelast_map {A B} (f : A -> B) l : removelast (map f l) = map f (removelast l).
Proof. induction l as [|a [|b l] IH]; [reflexivity|reflexivity|]. change (removelast (map f (a :: b :: l))) with (f a :: removelast (map f (b :: l))). rewrite IH. reflexivity. Qed.
Lemma removelast_length {A} (l : list A) : length (removelast l) = (length l - 1)%nat.
Proof. induction l as [|a [|b l] IH]; [reflexivity|reflexivity|]. change (length (removelast (a :: b :: l))) with (S (length (removelast (b :: l)))). rewrite IH. cbn. lia. Qed.
Lemma removelast_firstn {A} (l : list A) : removelast l = firstn (length l - 1) l.
Proof. rewrite removelast_firstn_len. f_equal. lia. Qed.
Lemma In_removelast {A} (l : list A) x : In x (removelast l) -> In x l.
Proof. induction l as [|a [|b l] IH]; [easy|easy|]. intros [->|H]; [left; reflexivity|right; apply IH, H]. Qed.
Lemma Forall2_removelast {A B} (P : A -> B -> Prop) l l' : Forall2 P l l' -> Forall2 P (removelast l) (removelast l').
Proof.
  intros H. induction H as [|a b l l' Hab H IH]; [constructor|]. destruct H; [constructor|].
  change (Forall2 P (a :: removelast (x :: l)) (b :: removelast (y :: l'))). constructor; assumption.
Qed.

Lemma exists_last_nth {A} (l : list A) d : l <> [] -> last l d = nth (length l - 1) l d.
Proof.
  intros H. induction l as [|a [|b l] IH]; [congruence|reflexivity|]. change (last (a :: b :: l) d) with (last (b :: l) d).
  rewrite IH by discriminate. cbn [length]. replace (S (S (length l)) - 1)%nat with (S (S (length l) - 1)) by lia. reflexivity.
Qed.

Section Acc.
  Variables (isp : Z -> bool) (Hisp : prime_oracle isp) (cands : Z -> list Z).
  Variable (Hcands : forall p, canonical p (cands p)).

  Lemma ctx_entry_inv degree p q op : ctx_entry isp cands degree p = Val (q, op) ->
    mod_p q = p /\ nt_p op = q /\ valid_modulus q /\ (exists K w, ntt_ok op K w /\ nt_size op = degree).
  Proof.
    unfold ctx_entry. intros E. apply bind_inv in E. destruct E as (m & Em & E). apply bind_inv in E. destruct E as (o & Eo & E).
    apply bind_inv in E. destruct E as (op' & Eop & E). assert (m = q /\ op' = op) as [-> ->] by (split; congruence). clear E.
    destruct o as [o|]; [|discriminate]. assert (o = op) by (unfold ok_or in Eop; congruence). subst o.
    destruct (modulus_new_valid p q Em) as (Hv & Hp). symmetry in Hp. split; [exact Hp|].
    destruct (ntt_new_ok isp Hisp q Hv (cands p) degree op) as (K & w & Hok & E1 & E2); [rewrite Hp; apply Hcands|exact Eo|].
    split; [exact E1|]. split; [exact Hv|]. eauto.
  Qed.

  Lemma entries_inv degree moduli es : mapM (ctx_entry isp cands degree) moduli = Val es ->
    moduli = map mod_p (map fst es) /\ map fst es = map nt_p (map snd es) /\
    Forall (fun op => exists K w, ntt_ok op K w /\ nt_size op = degree) (map snd es).
  Proof.
    intros E. apply mapM_val_inv in E. induction E as [|p [q op] l l' Hp H (IH1 & IH2 & IH3)]; [repeat split; constructor|].
    apply ctx_entry_inv in Hp. destruct Hp as (Ep & Eq & _ & Hk). cbn [map fst snd]. rewrite <- IH1, <- IH2, Eq, Ep.
    repeat split; constructor; assumption.
  Qed.

  Lemma pow2_degree degree : is_power_of_two (Z.of_nat degree) = true -> 8 <= Z.of_nat degree ->
    exists K : nat, (3 <= K)%nat /\ degree = (2 ^ K)%nat.
  Proof.
    intros H H8. unfold is_power_of_two in H. apply andb_true_iff in H. destruct H as (_ & H). apply Z.eqb_eq in H.
    exists (Z.to_nat (Z.log2 (Z.of_nat degree))). pose proof (Z.log2_nonneg (Z.of_nat degree)).
    split. { pose proof (Z.log2_le_mono 8 _ H8) as L. change (Z.log2 8) with 3 in L. lia. }
    apply Nat2Z.inj. rewrite nat_pow2_Z, Z2Nat.id by lia. exact H.
  Qed.

  Lemma ntt_ok_K op K w : ntt_ok op K w -> (K < 61)%nat.
  Proof.
    intros H. pose proof (ok_m _ _ _ H) as Hm. destruct (valid_fields _ Hm) as (Hp & _).
    pose proof (w_order op K w H) as Ho. pose proof (ok_prime _ _ _ H) as Hpr. pose proof (w_unit op K w H) as Hu.
    pose proof (ok_w _ _ _ H) as Hw. assert (HW : W62 = 2 ^ 62) by reflexivity.
    destruct (Nat.lt_ge_cases K 61) as [|HK]; [assumption|exfalso].
    assert (Hb : 2 ^ 62 <= 2 ^ Z.of_nat (S K)) by (apply Z.pow_le_mono_r; lia).
    assert (E : mod_p (nt_p op) - 1 = 0); [|lia]. apply Ho; [lia|]. apply fermat; [exact Hpr|].
    destruct (Z.eq_dec w 0) as [->|]; [|lia]. exfalso. apply rel_prime_sym in Hu. unfold rel_prime in Hu.
    apply Zis_gcd_gcd in Hu; [|lia]. rewrite Z.gcd_0_l in Hu. lia.
  Qed.

  Lemma ctx_inv_ok degree q_last q i : (exists op K w, nt_p op = q /\ ntt_ok op K w /\ nt_size op = degree) -> is_u64 q_last ->
    ctx_inv isp q_last q = Val i ->
    0 <= fst i < mod_p q /\ cong (mod_p q) (q_last * fst i) 1 /\ snd i = shoup_of q (fst i).
  Proof.
    intros (op & K & w & <- & Hok & _) Hq E. pose proof (ok_m _ _ _ Hok) as Hm. pose proof (ok_prime _ _ _ Hok) as Hpr.
    unfold ctx_inv in E. rewrite reduce_spec in E by assumption. cbn [bind] in E.
    apply bind_inv in E. destruct E as (o & Eo & E). apply bind_inv in E. destruct E as (v & Ev & E).
    destruct o as [o|]; [|discriminate]. assert (o = v) by (unfold unwrap in Ev; congruence). subst o.
    destruct (valid_fields _ Hm) as (Hp & _). set (p := mod_p (nt_p op)) in *.
    pose proof (Z.mod_pos_bound q_last p ltac:(lia)) as Hr.
    destruct (Z.eq_dec (q_last mod p) 0) as [E0|E0].
    - unfold zq_inv in Eo. fold p in Eo. rewrite E0 in Eo. rewrite Z.eqb_refl, orb_true_r in Eo. discriminate.
    - destruct (zq_inv_some isp (nt_p op) (q_last mod p) Hisp Hm) as (i' & Ei' & Hi' & Hc); [exact Hpr|fold p; lia|].
      rewrite Ei' in Eo. assert (i' = v) by congruence. subst i'. fold p in Hi', Hc.
      destruct (shoup_spec (nt_p op) Hm v) as (Es & _); [fold p; lia|]. rewrite Es in E. cbn [bind] in E.
      assert (i = (v, shoup_of (nt_p op) v)) by congruence. subst i. cbn [fst snd]. split; [lia|]. split; [|reflexivity].
      unfold cong in *. rewrite <- Z.mul_mod_idemp_l by lia. rewrite Hc. symmetry. apply Z.mod_small. lia.
  Qed.

  Lemma context_fuel_good fuel : forall moduli degree c, context_new_fuel isp cands fuel moduli degree = Val c ->
    good_ctx c /\ c_moduli c = moduli /\ c_degree c = degree.
  Proof.
    induction fuel as [|f IH]; intros moduli degree c E; [discriminate|]. cbn [context_new_fuel] in E. cbv zeta in E.
    destruct (negb (is_power_of_two (Z.of_nat degree)) || (Z.of_nat degree <? 8)) eqn:Eb; [discriminate|].
    apply orb_false_iff in Eb. destruct Eb as (Eb1 & Eb2). apply negb_false_iff in Eb1. apply Z.ltb_ge in Eb2.
    apply bind_inv in E. destruct E as (rns & Erns & E). apply bind_inv in E. destruct E as (es & Ees & E).
    apply bind_inv in E. destruct E as (ql & Eql & E). apply bind_inv in E. destruct E as (invs & Einvs & E).
    apply bind_inv in E. destruct E as (next & Enext & E).
    destruct (rns_new_good _ _ Erns) as (Hg & Hu). pose proof (rns_new_inv _ _ Erns) as Hb.
    destruct (entries_inv _ _ _ Ees) as (Em & Eq & Hops).
    assert (Hc : c = mkCtx moduli (map fst es) rns (map snd es) degree
      (map (fun j => Z.to_nat (bitrev_index (Z.of_nat degree) (Z.of_nat j))) (seq 0 degree)) (map fst invs) (map snd invs) next) by congruence.
    clear E.
    assert (Hne : moduli <> []) by apply Hb.
    assert (Hlast : ql = last moduli 0).
    { destruct moduli as [|m0 ms]; [congruence|]. unfold unwrap in Eql.
      destruct (nth_error (m0 :: ms) (length (m0 :: ms) - 1)) eqn:En; [|discriminate].
      rewrite (exists_last_nth (m0 :: ms) 0) by discriminate. apply nth_error_nth with (d := 0) in En. congruence. }
    assert (Hlen : length (map snd es) = length moduli) by (rewrite Em, Eq, !map_length; reflexivity).
    assert (Hok : ctx_ok c).
    { subst c. constructor; cbn [c_moduli c_q c_rns c_ops c_degree c_bitrev c_inv c_inv_shoup]; try assumption.
      - destruct (map snd es); [|discriminate]. destruct moduli; [congruence|discriminate].
      - destruct (pow2_degree degree Eb1 Eb2) as (K & HK & Ed).
        assert (HK' : (K < 61)%nat).
        { destruct (map snd es) as [|op ops]; [destruct moduli; [congruence|discriminate]|]. inversion Hops; subst.
          destruct H1 as (K' & w & Hok & Es). rewrite (ok_size _ _ _ Hok) in Es. apply Nat.pow_inj_r in Es; [|lia]. subst K'.
          apply (ntt_ok_K op K w Hok). }
        exists K. split; [lia|]. split; [exact Ed|]. apply map_ext_in. intros j Hj. rewrite in_seq in Hj. f_equal.
        rewrite Ed, nat_pow2_Z. apply bitrev_index_spec; [lia|]. rewrite <- nat_pow2_Z. lia.
      - rewrite <- Hlast. apply mapM_val_inv in Einvs. rewrite Eq in Einvs. rewrite removelast_map in Einvs.
        assert (Hops' : Forall (fun op => exists K w, ntt_ok op K w /\ nt_size op = degree) (removelast (map snd es))).
        { rewrite Forall_forall in *. intros op Hop. apply Hops, In_removelast, Hop. }
        assert (Hql : is_u64 ql).
        { destruct Hb as (_ & _ & F). rewrite Forall_forall in F. assert (In ql moduli) by (unfold unwrap in Eql; destruct (nth_error moduli _) eqn:En; [apply nth_error_In in En; congruence|discriminate]).
          specialize (F _ H). unfold is_u64. assert (W62 * 4 = W64) by reflexivity. lia. }
        clear -Einvs Hops' Hql Hisp. remember (map nt_p (removelast (map snd es))) as l. revert Heql.
        generalize dependent (removelast (map snd es)). induction Einvs as [|q i l invs Hi H IH]; intros ops Hops E.
        + destruct ops; [constructor|discriminate].
        + destruct ops as [|op ops]; [discriminate|]. inversion Hops; subst. cbn [map] in E. assert (q = nt_p op /\ l = map nt_p ops) as [-> ->] by (split; congruence).
          constructor; [|apply IH; [assumption|reflexivity]]. destruct H2 as (K & w & Hok & Es).
          destruct (ctx_inv_ok degree ql (nt_p op) i) as (J1 & J2 & J3); [exists op, K, w; auto|exact Hql|exact Hi|]. split; assumption.
      - apply mapM_val_inv in Einvs. rewrite Eq in Einvs. rewrite removelast_map in Einvs.
        assert (Hops' : Forall (fun op => exists K w, ntt_ok op K w /\ nt_size op = degree) (removelast (map snd es))).
        { rewrite Forall_forall in *. intros op Hop. apply Hops, In_removelast, Hop. }
        assert (Hql : is_u64 ql).
        { destruct Hb as (_ & _ & F). rewrite Forall_forall in F. assert (In ql moduli) by (unfold unwrap in Eql; destruct (nth_error moduli _) eqn:En; [apply nth_error_In in En; congruence|discriminate]).
          specialize (F _ H). unfold is_u64. assert (W62 * 4 = W64) by reflexivity. lia. }
        clear -Einvs Hops' Hql Hisp. remember (map nt_p (removelast (map snd es))) as l. revert Heql.
        generalize dependent (removelast (map snd es)). induction Einvs as [|q i l invs Hi H IH]; intros ops Hops E.
        + destruct ops; [constructor|discriminate].
        + destruct ops as [|op ops]; [discriminate|]. inversion Hops; subst. cbn [map] in E. assert (q = nt_p op /\ l = map nt_p ops) as [-> ->] by (split; congruence).
          cbn [map combine]. constructor; [|apply IH; [assumption|reflexivity]]. destruct H2 as (K & w & Hok & Es).
          destruct (ctx_inv_ok degree ql (nt_p op) i) as (J1 & J2 & J3); [exists op, K, w; auto|exact Hql|exact Hi|]. exact J3.
      - rewrite !map_length. reflexivity. }
    split; [|subst c; split; reflexivity].
    destruct (Nat.leb 2 (length moduli)) eqn:El.
    - apply Nat.leb_le in El. apply bind_inv in Enext. destruct Enext as (c' & Ec' & En).
      assert (next = Some c') by congruence. subst next. pose proof Ec' as Ec''. apply IH in Ec'. destruct Ec' as (Hg' & Hm' & Hd').
      apply gc_cons with c'; subst c; cbn [c_moduli c_next c_ops c_degree]; try assumption; [reflexivity|].
      (* the operators of the next context are the same *)
      destruct f as [|f]; [discriminate|]. cbn [context_new_fuel] in Ec''. cbv zeta in Ec''.
      destruct (negb (is_power_of_two (Z.of_nat degree)) || (Z.of_nat degree <? 8)); [discriminate|].
      apply bind_inv in Ec''. destruct Ec'' as (rns' & _ & E). apply bind_inv in E. destruct E as (es' & Ees' & E).
      apply bind_inv in E. destruct E as (ql' & _ & E). apply bind_inv in E. destruct E as (invs' & _ & E).
      apply bind_inv in E. destruct E as (next' & _ & E).
      assert (Eo : c_ops c' = map snd es') by (replace c' with (mkCtx (removelast moduli) (map fst es') rns' (map snd es') degree
        (map (fun j => Z.to_nat (bitrev_index (Z.of_nat degree) (Z.of_nat j))) (seq 0 degree)) (map fst invs') (map snd invs') next') by congruence; reflexivity).
      rewrite Eo, removelast_map. f_equal.
      apply mapM_val_inv in Ees, Ees'. apply Forall2_removelast in Ees. clear -Ees Ees'.
      revert es' Ees'. induction Ees as [|a b l l' Hab H IH]; intros es' H'; inversion H'; subst; [reflexivity|]. f_equal; [congruence|auto].
    - apply Nat.leb_gt in El. assert (next = None) by congruence. subst next. apply gc_last; subst c; cbn [c_moduli c_next]; try assumption; [|reflexivity].
      destruct moduli; [congruence|]. cbn in *. lia.
  Qed.
  Theorem context_new_good moduli degree c : context_new isp cands moduli degree = Val c ->
    good_ctx c /\ c_moduli c = moduli /\ c_degree c = degree.
  Proof. apply context_fuel_good. Qed.
End Acc.

(** ** Acceptance *)
Lemma modulus_new_ex p : 2 <= p < W62 -> exists m, modulus_new p = Val m /\ valid_modulus m /\ mod_p m = p.
Proof. intros H. eexists. split; [apply modulus_new_ok, H|]. split; [exists p; apply modulus_new_ok, H|reflexivity]. Qed.
Definition ntt_friendly (degree : nat) (p : Z) : Prop := prime p /\ p < W62 /\ p mod (2 * Z.of_nat degree) = 1.
Definition has_nonresidue (p : Z) (l : list Z) : Prop := exists c, In c l /\ cong p (c ^ ((p - 1) / 2)) (-1).

Lemma supports_pow2 isp K p : prime_oracle isp -> (3 <= K < 63)%nat -> 2 <= p < W62 ->
  (ntt_friendly (2 ^ K) p -> supports_ntt isp p (Z.of_nat (2 ^ K)) = Val true) /\
  (~ ntt_friendly (2 ^ K) p -> supports_ntt isp p (Z.of_nat (2 ^ K)) = Val false).
Proof.
  intros Hisp HK Hp. unfold ntt_friendly. rewrite nat_pow2_Z. set (k := Z.of_nat K) in *.
  assert (8 <= 2 ^ k) by (change 8 with (2 ^ 3); apply Z.pow_le_mono_r; lia).
  assert (2 ^ k <= 2 ^ 62) by (apply Z.pow_le_mono_r; lia). assert (W62 = 2 ^ 62) by reflexivity. assert (W64 = 4 * 2 ^ 62) by reflexivity.
  assert (E : supports_ntt isp p (2 ^ k) = Val ((p mod (2 * 2 ^ k) =? 1) && isp p)).
  { unfold supports_ntt. rewrite bind_guard.
    2:{ rewrite andb_true_iff. split; [apply Z.leb_le; lia|]. unfold is_power_of_two. rewrite Z.log2_pow2 by lia.
        rewrite andb_true_iff. split; [apply Z.ltb_lt; lia|apply Z.eqb_refl]. }
    cbv zeta. rewrite Z.shiftl_mul_pow2 by lia. change (2 ^ 1) with 2. rewrite (Z.mod_small (2 ^ k * 2)) by lia.
    rewrite bind_guard by (apply negb_true_iff, Z.eqb_neq; lia). rewrite (Z.mul_comm (2 ^ k)). reflexivity. }
  rewrite E. specialize (Hisp p ltac:(unfold is_u64; lia)). split; intros H'; f_equal.
  - destruct H' as (J1 & J2 & J3). rewrite J3. apply Hisp in J1. rewrite J1. reflexivity.
  - destruct (p mod (2 * 2 ^ k) =? 1) eqn:E1; [|reflexivity]. destruct (isp p) eqn:E2; [|reflexivity]. exfalso.
    apply H'. apply Z.eqb_eq in E1. split; [apply Hisp; reflexivity|]. split; [lia|exact E1].
Qed.

Lemma distinct_primes_coprime q r : prime q -> prime r -> q <> r -> Z.gcd q r = 1.
Proof.
  intros Hq Hr Hne. apply Zgcd_1_rel_prime. apply prime_rel_prime; [exact Hq|]. intros Hd.
  apply (prime_divisors r Hr) in Hd. destruct Hq, Hr. lia.
Qed.
Lemma distinct_primes_basis qs : qs <> [] -> NoDup qs -> Forall (fun q => prime q /\ q < W62) qs -> rns_basis qs.
Proof.
  intros Hne Hnd H. split; [exact Hne|]. split.
  - clear Hne. induction Hnd as [|q l Hin Hnd IH].
    + intros i j Hi. cbn in Hi. lia.
    + apply pairwise_cons. inversion H; subst. split; [|auto]. rewrite Forall_forall in *. intros r Hr.
      destruct (H3 r Hr) as (Hpr & _). destruct H2 as (Hpq & _).
      apply distinct_primes_coprime; try assumption. intros ->. exact (Hin Hr).
  - apply Forall_impl with (2 := H). intros q (Hp & Hq). apply prime_ge_2 in Hp. lia.
Qed.

Section Total.
  Variables (isp : Z -> bool) (Hisp : prime_oracle isp) (cands : Z -> list Z).
  Variable (Hcands : forall p, canonical p (cands p)).

  Lemma ctx_entry_total K p : (3 <= K < 63)%nat -> ntt_friendly (2 ^ K) p -> has_nonresidue p (cands p) ->
    exists e, ctx_entry isp cands (2 ^ K) p = Val e.
  Proof.
    intros HK Hf Hn. destruct Hf as (Hp & Hlt & Hmod). pose proof (prime_ge_2 _ Hp).
    destruct (modulus_new_ex p ltac:(lia)) as (m & Em & Hm & Ep). unfold ctx_entry. rewrite Em. cbn [bind].
    destruct (ntt_new_total isp Hisp m Hm (cands p) (2 ^ K)) as (op & Eop).
    - rewrite Ep. apply Hcands.
    - rewrite Ep. apply supports_pow2; [exact Hisp|exact HK|lia|]. split; [exact Hp|]. split; assumption.
    - rewrite Ep. exact Hn.
    - rewrite Eop. cbn [bind ok_or]. eauto.
  Qed.
  Lemma ctx_entry_err K p : (3 <= K < 63)%nat -> 2 <= p < W62 -> ~ ntt_friendly (2 ^ K) p ->
    ctx_entry isp cands (2 ^ K) p = Err (NttOperatorUnavailable p (Z.of_nat (2 ^ K))).
  Proof.
    intros HK Hp Hf. destruct (modulus_new_ex p Hp) as (m & Em & Hm & Ep). unfold ctx_entry. rewrite Em. cbn [bind].
    rewrite (ntt_new_none isp m); [reflexivity|]. rewrite Ep. apply supports_pow2; assumption.
  Qed.
  Lemma degree_test K : (3 <= K)%nat ->
    negb (is_power_of_two (Z.of_nat (2 ^ K))) || (Z.of_nat (2 ^ K) <? 8) = false.
  Proof.
    intros HK. rewrite nat_pow2_Z. apply orb_false_iff. split.
    - apply negb_false_iff. unfold is_power_of_two. rewrite Z.log2_pow2 by lia. apply andb_true_iff. split; [apply Z.ltb_lt; lia|apply Z.eqb_refl].
    - apply Z.ltb_ge. change 8 with (2 ^ 3). apply Z.pow_le_mono_r; lia.
  Qed.

  Lemma context_fuel_total K fuel : (3 <= K < 63)%nat -> forall moduli, (length moduli < fuel)%nat -> moduli <> [] -> NoDup moduli ->
    Forall (fun p => ntt_friendly (2 ^ K) p /\ has_nonresidue p (cands p)) moduli ->
    exists c, context_new_fuel isp cands fuel moduli (2 ^ K) = Val c.
  Proof.
    intros HK. induction fuel as [|f IH]; intros moduli Hl Hne Hnd HF; [lia|]. cbn [context_new_fuel]. cbv zeta.
    rewrite degree_test by lia.
    assert (Hb : rns_basis moduli).
    { apply distinct_primes_basis; try assumption. apply Forall_impl with (2 := HF). intros p ((H1 & H2 & _) & _). auto. }
    destruct (rns_new_ok moduli Hb) as (rns & -> & _ & _). cbn [bind].
    destruct (mapM_exists (ctx_entry isp cands (2 ^ K)) (fun p e => ctx_entry isp cands (2 ^ K) p = Val e) moduli) as (es & Ees & HF2).
    { rewrite Forall_forall in HF. intros p Hp. destruct (HF p Hp) as (H1 & H2). destruct (ctx_entry_total K p HK H1 H2) as (e & E). eauto. }
    rewrite Ees. cbn [bind].
    destruct (entries_inv isp Hisp cands Hcands _ _ _ Ees) as (Em & Eq & Hops).
    destruct (nth_error moduli (length moduli - 1)) as [ql|] eqn:En.
    2:{ apply nth_error_None in En. destruct moduli; [congruence|]. cbn in En. lia. }
    cbn [unwrap bind].
    pose proof HF as HF'. rewrite Forall_forall in HF'.
    assert (Hql : In ql moduli) by (apply nth_error_In in En; exact En).
    assert (Hlast : exists l, moduli = l ++ [ql]).
    { destruct (exists_last Hne) as (l & a & El). exists l. rewrite El in En |- *. rewrite app_length in En. cbn [length] in En.
      replace (length l + 1 - 1)%nat with (length l) in En by lia. rewrite nth_error_app2, Nat.sub_diag in En by lia. cbn in En. congruence. }
    destruct (mapM_exists (ctx_inv isp ql) (fun _ _ => True) (removelast (map fst es))) as (invs & -> & _).
    { intros q Hq. destruct Hlast as (l & El).
      assert (Hin : In (mod_p q) l).
      { assert (E1 : map mod_p (removelast (map fst es)) = l) by (rewrite <- removelast_map, <- Em, El, removelast_app by discriminate; cbn; apply app_nil_r).
        rewrite <- E1. apply in_map, Hq. }
      assert (Hneq : mod_p q <> ql).
      { intros E. rewrite El in Hnd. apply NoDup_remove_2 in Hnd. rewrite app_nil_r in Hnd. rewrite <- E in Hnd. exact (Hnd Hin). }
      rewrite Eq in Hq. rewrite removelast_map in Hq. apply in_map_iff in Hq. destruct Hq as (op & <- & Hop). apply In_removelast in Hop.
      rewrite Forall_forall in Hops. destruct (Hops op Hop) as (K' & w & Hok & _). pose proof (ok_m _ _ _ Hok) as Hm. pose proof (ok_prime _ _ _ Hok) as Hpr.
      destruct (HF' ql Hql) as ((Hpl & Hlt & _) & _). pose proof (prime_ge_2 _ Hpl). pose proof (prime_ge_2 _ Hpr). assert (W62 * 4 = W64) by reflexivity.
      unfold ctx_inv. rewrite reduce_spec by (try assumption; unfold is_u64; lia). cbn [bind].
      pose proof (Z.mod_pos_bound ql (mod_p (nt_p op)) ltac:(lia)).
      destruct (zq_inv_some isp (nt_p op) (ql mod mod_p (nt_p op)) Hisp Hm Hpr) as (r & -> & Hr & _).
      - assert (ql mod mod_p (nt_p op) <> 0); [|lia]. intros E0. apply Z.mod_divide in E0; [|lia].
        apply (prime_divisors _ Hpl) in E0. lia.
      - cbn [bind unwrap]. destruct (shoup_spec (nt_p op) Hm r ltac:(lia)) as (-> & _). cbn [bind]. eauto. }
    cbn [bind]. destruct (Nat.leb 2 (length moduli)) eqn:El; [|cbn [bind]; eauto]. apply Nat.leb_le in El.
    destruct (IH (removelast moduli)) as (c & ->); [..|cbn [bind]; eauto].
    - rewrite removelast_length. lia.
    - intros E. apply (f_equal (@length Z)) in E. rewrite removelast_length in E. cbn in E. lia.
    - destruct Hlast as (l & ->). rewrite removelast_app by discriminate. cbn [removelast]. rewrite app_nil_r. apply NoDup_remove_1 in Hnd. rewrite app_nil_r in Hnd. exact Hnd.
    - rewrite Forall_forall. intros p Hp. apply HF', In_removelast, Hp.
  Qed.

  Theorem context_new_accept moduli degree : 
    (forall p, In p moduli -> prime p -> p < W62 -> 2 < p -> has_nonresidue p (cands p)) ->
    ((exists c, context_new isp cands moduli degree = Val c) <->
     ((exists K : nat, (3 <= K)%nat /\ degree = (2 ^ K)%nat) /\ moduli <> [] /\ NoDup moduli /\ Forall (ntt_friendly degree) moduli)).
  Proof.
    intros Hn. split.
    - intros (c & E). destruct (context_new_good isp Hisp cands Hcands moduli degree c E) as (Hg & Em & Ed). pose proof (good_ok _ Hg) as Ho.
      destruct (co_deg _ Ho) as (K & HK & EK & _). rewrite Ed in EK. split; [exists K; split; [lia|exact EK]|].
      pose proof (gr_basis _ (co_rns _ Ho)) as (B1 & B2 & B3). rewrite (co_u64 _ Ho), Em in B1, B2, B3. split; [exact B1|]. split.
      + clear -B2 B3. induction B3 as [|q l Hq H IH]; [constructor|]. apply pairwise_cons in B2. destruct B2 as (F & B2).
        constructor; [|auto]. intros Hin. rewrite Forall_forall in F. specialize (F q Hin). rewrite Z.gcd_diag in F. lia.
      + rewrite Forall_forall. intros p Hp. unfold context_new in E. cbn [context_new_fuel] in E. cbv zeta in E.
        destruct (negb _ || _); [discriminate|]. apply bind_inv in E. destruct E as (rns & _ & E). apply bind_inv in E. destruct E as (es & Ees & _).
        destruct (mapM_inv_in _ _ _ p Ees Hp) as (e & Ee). rewrite Forall_forall in B3. specialize (B3 p Hp).
        rewrite EK in Ee |- *.
        destruct (supports_pow2 isp K p Hisp HK B3) as (_ & Hf). unfold ctx_entry in Ee.
        destruct (modulus_new_ex p B3) as (m & Emm & Hm & Ep). rewrite Emm in Ee. cbn [bind] in Ee.
        apply bind_inv in Ee. destruct Ee as (o & Eo & Ee). destruct o as [op|]; [|discriminate].
        destruct (ntt_new_ok isp Hisp m Hm (cands p) (2 ^ K) op) as (K' & w & Hok & E1 & E2); [rewrite Ep; apply Hcands|exact Eo|].
        pose proof (ok_prime _ _ _ Hok) as Hpr. rewrite E1, Ep in Hpr. split; [exact Hpr|]. split; [lia|].
        unfold ntt_new in Eo. apply bind_inv in Eo. destruct Eo as (s & Es & Eo). destruct s; [|discriminate]. rewrite Ep in Es.
        destruct (supports_ntt_inv isp p _ B3 Es) as (_ & _ & _ & Emod & _). exact Emod.
    - intros ((K & HK & ->) & Hne & Hnd & HF).
      assert (HK63 : (K < 63)%nat).
      { destruct moduli as [|p l]; [congruence|]. inversion HF; subst. destruct H1 as (Hp & Hlt & Hm). pose proof (prime_ge_2 _ Hp).
        apply mod_1_ge in Hm; [|lia|rewrite nat_pow2_Z; lia]. rewrite nat_pow2_Z in Hm. destruct (Nat.lt_ge_cases K 63) as [|HH]; [assumption|exfalso].
        assert (2 ^ 63 <= 2 ^ Z.of_nat K) by (apply Z.pow_le_mono_r; lia). assert (W62 * 2 = 2 ^ 63) by reflexivity. lia. }
      apply context_fuel_total; [lia|lia|assumption|assumption|]. rewrite Forall_forall in *. intros p Hp. split; [auto|].
      destruct (HF p Hp) as (H1 & H2 & H3). pose proof (prime_ge_2 _ H1). apply Hn; [exact Hp|exact H1|exact H2|].
      apply mod_1_ge in H3; [|lia|rewrite nat_pow2_Z; lia]. rewrite nat_pow2_Z in H3. assert (2 ^ 3 <= 2 ^ Z.of_nat K) by (apply Z.pow_le_mono_r; lia). lia.
  Qed.

  (** Rejection. *)
  Theorem context_err_degree moduli degree : ~ (exists K : nat, (3 <= K)%nat /\ degree = (2 ^ K)%nat) ->
    context_new isp cands moduli degree = Err (InvalidPolynomialDegree (Z.of_nat degree)).
  Proof.
    intros H. unfold context_new. cbn [context_new_fuel]. cbv zeta.
    destruct (negb (is_power_of_two (Z.of_nat degree)) || (Z.of_nat degree <? 8)) eqn:E; [reflexivity|exfalso].
    apply orb_false_iff in E. destruct E as (E1 & E2). apply negb_false_iff in E1. apply Z.ltb_ge in E2. apply H, pow2_degree; assumption.
  Qed.
  Theorem context_err_rns moduli K e : (3 <= K)%nat -> rns_new moduli = Err e ->
    context_new isp cands moduli (2 ^ K) = Err e.
  Proof. intros HK E. unfold context_new. cbn [context_new_fuel]. cbv zeta. rewrite degree_test by lia. rewrite E. reflexivity. Qed.
  Theorem context_err_ntt pre p post K : (3 <= K < 63)%nat -> rns_basis (pre ++ p :: post) ->
    Forall (fun q => ntt_friendly (2 ^ K) q /\ has_nonresidue q (cands q)) pre -> ~ ntt_friendly (2 ^ K) p ->
    context_new isp cands (pre ++ p :: post) (2 ^ K) = Err (NttOperatorUnavailable p (Z.of_nat (2 ^ K))).
  Proof.
    intros HK Hb HF Hp. unfold context_new. cbn [context_new_fuel]. cbv zeta. rewrite degree_test by lia.
    destruct (rns_new_ok _ Hb) as (rns & -> & _ & _). cbn [bind].
    destruct (mapM_exists (ctx_entry isp cands (2 ^ K)) (fun _ _ => True) pre) as (es & Ees & _).
    { intros q Hq. rewrite Forall_forall in HF. destruct (HF q Hq) as (H1 & H2). destruct (ctx_entry_total K q HK H1 H2) as (e & E). eauto. }
    rewrite (mapM_app_err _ pre p post _ es Ees (ctx_entry_err K p HK ltac:(destruct Hb as (_ & _ & F); rewrite Forall_forall in F; apply F, in_elt) Hp)).
    reflexivity.
  Qed.
End Total.

(** ** The chain *)
Fixpoint level_of (c : ctx) (i : nat) {struct i} : ctx :=
  match i with O => c | S i' => match c_next c with Some c' => level_of c' i' | None => c end end.
Lemma follow_spec i : forall c, good_ctx c -> (i < length (c_moduli c))%nat ->
  follow i c = Val (level_of c i) /\ good_ctx (level_of c i) /\ c_degree (level_of c i) = c_degree c /\
  c_moduli (level_of c i) = firstn (length (c_moduli c) - i) (c_moduli c) /\
  c_ops (level_of c i) = firstn (length (c_moduli c) - i) (c_ops c).
Proof.
  induction i as [|i IH]; intros c Hg Hi.
  - cbn [follow level_of]. rewrite Nat.sub_0_r, firstn_all. split; [reflexivity|]. split; [exact Hg|]. split; [reflexivity|]. split; [reflexivity|].
    rewrite firstn_all2; [reflexivity|]. pose proof (good_ok _ Hg) as Ho. rewrite (co_moduli _ Ho), (co_q _ Ho), !map_length. lia.
  - cbn [follow level_of]. destruct (c_next c) as [c'|] eqn:En; [|apply good_next_none in En; [lia|exact Hg]].
    destruct (good_next _ _ Hg En) as (Hg' & Hm & Ho & Hd). cbn [unwrap bind].
    assert (Hl : length (c_moduli c') = (length (c_moduli c) - 1)%nat) by (rewrite Hm; apply removelast_length).
    destruct (IH c' Hg' ltac:(lia)) as (E1 & E2 & E3 & E4 & E5). rewrite E1, E3, E4, E5, Hl, Hm, Ho, !removelast_firstn, !firstn_firstn.
    assert (Hlo : length (c_ops c) = length (c_moduli c)) by (pose proof (good_ok _ Hg) as Hok; rewrite (co_moduli _ Hok), (co_q _ Hok), !map_length; reflexivity).
    rewrite Hlo. repeat split; try assumption; f_equal; lia.
Qed.
Theorem context_at_level_spec c i : good_ctx c ->
  ((i < length (c_moduli c))%nat -> exists c', context_at_level c i = Val c' /\ good_ctx c' /\ c_degree c' = c_degree c /\
     c_moduli c' = firstn (length (c_moduli c) - i) (c_moduli c)) /\
  ((length (c_moduli c) <= i)%nat -> context_at_level c i = Err (InvalidContextLevel (Z.of_nat i) (Z.of_nat (length (c_moduli c)) - 1))).
Proof.
  intros Hg. unfold context_at_level. split; intros Hi.
  - replace (Nat.leb (length (c_moduli c)) i) with false by (symmetry; apply Nat.leb_gt, Hi).
    destruct (follow_spec i c Hg Hi) as (E1 & E2 & E3 & E4 & _). exists (level_of c i). auto.
  - replace (Nat.leb (length (c_moduli c)) i) with true by (symmetry; apply Nat.leb_le, Hi). do 2 f_equal.
    pose proof (good_ok _ Hg) as Ho. pose proof (gr_basis _ (co_rns _ Ho)) as (B & _). rewrite (co_u64 _ Ho) in B. destruct (c_moduli c); [congruence|]. cbn [length]. lia.
Qed.

Lemma firstn_eq_length {A} (l : list A) i j : (i <= length l)%nat -> (j <= length l)%nat -> firstn i l = firstn j l -> i = j.
Proof. intros Hi Hj E. apply (f_equal (@length A)) in E. rewrite !firstn_length in E. lia. Qed.

Lemma niterations_loop_spec i : forall c target, good_ctx c -> (0 < i < length (c_moduli c))%nat ->
  c_degree target = c_degree c -> c_moduli target = firstn (length (c_moduli c) - i) (c_moduli c) ->
  niterations_loop c target = Some i.
Proof.
  induction i as [|i IH]; intros c target Hg Hi Hd Hm; [lia|]. destruct c as [mo q r ops dg br iv ivs nx]. cbn [niterations_loop c_next] in *.
  set (c := mkCtx mo q r ops dg br iv ivs nx) in *.
  destruct nx as [c'|] eqn:En; [|apply (good_next_none c) in Hg; [lia|reflexivity]].
  destruct (good_next c c' Hg ltac:(reflexivity)) as (Hg' & Hm' & Ho' & Hd').
  assert (Hl : length (c_moduli c') = (length (c_moduli c) - 1)%nat) by (rewrite Hm'; apply removelast_length).
  destruct (ctx_eqb c' target) eqn:Ee.
  - apply ctx_eqb_true in Ee. destruct Ee as (Ee & _). rewrite Hm, Hm', removelast_firstn in Ee. apply firstn_eq_length in Ee; lia || (f_equal; lia).
  - destruct i as [|i].
    + exfalso. assert (Et : ctx_eqb c' target = true); [|congruence]. apply ctx_eqb_true. split; [rewrite Hm, Hm', removelast_firstn; reflexivity|congruence].
    + rewrite (IH c' target Hg'); [reflexivity|lia|congruence|]. rewrite Hm, Hl, Hm', removelast_firstn, firstn_firstn. f_equal. lia.
Qed.
Lemma niterations_loop_none n : forall c target, good_ctx c -> length (c_moduli c) = n ->
  ~ (exists i, (0 < i < length (c_moduli c))%nat /\ c_degree target = c_degree c /\ c_moduli target = firstn (length (c_moduli c) - i) (c_moduli c)) ->
  niterations_loop c target = None.
Proof.
  induction n as [|n IH]; intros c target Hg Hn H.
  - destruct (good_ok _ Hg) as [_ _ _ _ Hr Hu _ _ _ _]. pose proof (gr_basis _ Hr) as (B & _). rewrite Hu in B. destruct (c_moduli c); [congruence|discriminate].
  - destruct c as [mo q r ops dg br iv ivs nx]. cbn [niterations_loop c_next]. set (c := mkCtx mo q r ops dg br iv ivs nx) in *.
    destruct nx as [c'|] eqn:En; [|reflexivity].
    destruct (good_next c c' Hg ltac:(reflexivity)) as (Hg' & Hm' & Ho' & Hd').
    assert (Hl : length (c_moduli c') = (length (c_moduli c) - 1)%nat) by (rewrite Hm'; apply removelast_length).
    assert (Hl1 : (1 <= length (c_moduli c'))%nat).
    { destruct (good_ok _ Hg') as [_ _ _ _ Hr Hu _ _ _ _]. pose proof (gr_basis _ Hr) as (B & _). rewrite Hu in B. destruct (c_moduli c'); [congruence|cbn; lia]. }
    destruct (ctx_eqb c' target) eqn:Ee.
    + exfalso. apply H. exists 1%nat. split; [lia|]. apply ctx_eqb_true in Ee. rewrite <- (proj1 Ee), <- (proj2 Ee), Hm', removelast_firstn. auto.
    + rewrite (IH c' target Hg'); [reflexivity|lia|]. intros (i & Hi & Hd & Hmm). apply H. exists (S i). split; [lia|]. split; [congruence|].
      rewrite Hmm, Hl, Hm', removelast_firstn, firstn_firstn. f_equal. lia.
Qed.
Theorem niterations_to_spec c target : good_ctx c ->
  (forall i, (i < length (c_moduli c))%nat -> c_degree target = c_degree c ->
     c_moduli target = firstn (length (c_moduli c) - i) (c_moduli c) -> niterations_to c target = Val i) /\
  (~ (exists i, (i < length (c_moduli c))%nat /\ c_degree target = c_degree c /\ c_moduli target = firstn (length (c_moduli c) - i) (c_moduli c)) ->
     niterations_to c target = Err ContextNotReachable).
Proof.
  intros Hg. unfold niterations_to. split.
  - intros i Hi Hd Hm. destruct (ctx_eqb target c) eqn:E.
    + apply ctx_eqb_true in E. destruct E as (E & _). rewrite Hm in E. rewrite <- (firstn_all (c_moduli c)) in E at 3. apply firstn_eq_length in E; [f_equal; lia|lia|lia].
    + assert (i <> O).
      { intros ->. rewrite Nat.sub_0_r, firstn_all in Hm. assert (E' : ctx_eqb target c = true) by (apply ctx_eqb_true; auto). congruence. }
      rewrite (niterations_loop_spec i c target Hg); [reflexivity|lia|exact Hd|exact Hm].
  - intros H. destruct (ctx_eqb target c) eqn:E.
    + exfalso. apply H. apply ctx_eqb_true in E. exists O. pose proof (good_ok _ Hg) as Ho. pose proof (gr_basis _ (co_rns _ Ho)) as (B & _). rewrite (co_u64 _ Ho) in B.
      rewrite Nat.sub_0_r, firstn_all. split; [destruct (c_moduli c); [congruence|cbn; lia]|]. split; apply E.
    + rewrite (niterations_loop_none _ c target Hg eq_refl); [reflexivity|]. intros (i & Hi & Hd & Hm). apply H. exists i. split; [lia|auto].
Qed.

(** Contexts made with the same oracles are equal in every field when they agree on moduli and degree. *)
Section Built.
  Variables (isp : Z -> bool) (Hisp : prime_oracle isp) (cands : Z -> list Z) (Hcands : forall p, canonical p (cands p)).
  Definition built (c : ctx) : Prop := exists moduli degree, context_new isp cands moduli degree = Val c.
  Lemma context_fuel_indep f f' : forall moduli degree, (length moduli < f)%nat -> (length moduli < f')%nat ->
    context_new_fuel isp cands f moduli degree = context_new_fuel isp cands f' moduli degree.
  Proof.
    revert f'. induction f as [|f IH]; intros [|f'] moduli degree H H'; try lia. cbn [context_new_fuel].
    destruct (Nat.leb 2 (length moduli)) eqn:E; [|reflexivity]. apply Nat.leb_le in E.
    rewrite (IH f' (removelast moduli) degree); [reflexivity| |]; rewrite removelast_length; lia.
  Qed.
  Theorem built_eq c c' : built c -> built c' -> ctx_eqb c c' = true -> c = c'.
  Proof.
    intros (mo & d & E) (mo' & d' & E') H. apply ctx_eqb_true in H. destruct H as (H1 & H2).
    destruct (context_new_good isp Hisp cands Hcands _ _ _ E) as (_ & Em & Ed). destruct (context_new_good isp Hisp cands Hcands _ _ _ E') as (_ & Em' & Ed').
    rewrite Em, Em' in H1. rewrite Ed, Ed' in H2. subst. congruence.
  Qed.
  Theorem built_good c : built c -> good_ctx c.
  Proof. intros (mo & d & E). eapply context_new_good; eassumption. Qed.
  Theorem built_next c c' : built c -> c_next c = Some c' -> context_new isp cands (removelast (c_moduli c)) (c_degree c) = Val c'.
  Proof.
    intros (mo & d & E) En. destruct (context_new_good isp Hisp cands Hcands _ _ _ E) as (_ & Em & Ed). rewrite Em, Ed.
    unfold context_new in E. cbn [context_new_fuel] in E. cbv zeta in E. destruct (negb _ || _); [discriminate|].
    apply bind_inv in E. destruct E as (rns & _ & E). apply bind_inv in E. destruct E as (es & _ & E).
    apply bind_inv in E. destruct E as (ql & _ & E). apply bind_inv in E. destruct E as (invs & _ & E). apply bind_inv in E. destruct E as (nx & Enx & E).
    assert (Hnx : c_next c = nx) by (match type of E with Val ?x = _ => replace c with x by congruence end; reflexivity).
    rewrite En in Hnx. subst nx. destruct (Nat.leb 2 (length mo)) eqn:El; [|discriminate]. apply Nat.leb_le in El.
    apply bind_inv in Enx. destruct Enx as (c1 & E1 & E2). replace c' with c1 by congruence. unfold context_new. rewrite <- E1.
    apply context_fuel_indep; rewrite ?removelast_length; lia.
  Qed.
  Theorem built_level i : forall c, built c -> (i < length (c_moduli c))%nat -> built (level_of c i) /\
    context_new isp cands (firstn (length (c_moduli c) - i) (c_moduli c)) (c_degree c) = Val (level_of c i).
  Proof.
    intros c Hb Hi.
    assert (H : built (level_of c i)).
    { revert c Hb Hi. induction i as [|i IH]; intros c Hb Hi; [exact Hb|]. cbn [level_of].
      destruct (c_next c) as [c'|] eqn:En; [|exact Hb]. apply IH.
      - eexists _, _. exact (built_next c c' Hb En).
      - destruct (good_next c c' (built_good c Hb) En) as (_ & -> & _). rewrite removelast_length. lia. }
    split; [exact H|]. destruct (follow_spec i c (built_good c Hb) Hi) as (_ & _ & Ed & Em & _). rewrite <- Em, <- Ed.
    destruct H as (mo & d & E). destruct (context_new_good isp Hisp cands Hcands _ _ _ E) as (_ & -> & ->). exact E.
  Qed.
End Built.

(** The operators of two contexts of the same degree made with the same oracles are the same for the same prime. *)
Definition same_ops (a b : ctx) : Prop :=
  forall op op', In op (c_ops a) -> In op' (c_ops b) -> mod_p (nt_p op) = mod_p (nt_p op') -> op = op'.
Lemma mapM_out_in {A B} (f : A -> M B) l : forall r, mapM f l = Val r -> forall b, In b r -> exists a, In a l /\ f a = Val b.
Proof.
  induction l as [|x l IH]; intros r E b Hb; cbn [mapM] in E; [assert (r = []) by congruence; subst r; destruct Hb|].
  apply bind_inv in E. destruct E as (y & Ey & E). apply bind_inv in E. destruct E as (r' & Er & E). assert (r = y :: r') by congruence. subst r.
  destruct Hb as [->|Hb]; [exists x; split; [left; reflexivity|exact Ey]|]. destruct (IH r' Er b Hb) as (a & Ha & Ea). exists a. split; [right; exact Ha|exact Ea].
Qed.
Section SameOps.
  Variables (isp : Z -> bool) (cands : Z -> list Z).
  Lemma built_ops c op : built isp cands c -> In op (c_ops c) -> ctx_entry isp cands (c_degree c) (mod_p (nt_p op)) = Val (nt_p op, op).
  Proof.
    intros (mo & d & E) Hop. unfold context_new in E. cbn [context_new_fuel] in E. cbv zeta in E. destruct (negb _ || _); [discriminate|].
    apply bind_inv in E. destruct E as (rns & _ & E). apply bind_inv in E. destruct E as (es & Ees & E).
    apply bind_inv in E. destruct E as (ql & _ & E). apply bind_inv in E. destruct E as (invs & _ & E). apply bind_inv in E. destruct E as (nx & _ & E).
    assert (H1 : c_ops c = map snd es /\ c_degree c = d) by (match type of E with Val ?x = _ => replace c with x by congruence end; split; reflexivity).
    destruct H1 as (H1 & ->). rewrite H1 in Hop. apply in_map_iff in Hop. destruct Hop as ((q & op') & Eo & Hin). cbn [snd] in Eo. subst op'.
    destruct (mapM_out_in _ _ _ Ees _ Hin) as (p & Hp & Ep). pose proof Ep as Ep'. unfold ctx_entry in Ep'.
    apply bind_inv in Ep'. destruct Ep' as (q' & Eq & Ep'). apply bind_inv in Ep'. destruct Ep' as (o & Eo & Ep'). apply bind_inv in Ep'. destruct Ep' as (op' & Eok & Ep').
    assert (q' = q /\ op' = op) as (-> & ->) by (split; congruence).
    assert (Eqp : nt_p op = q).
    { destruct o as [o|]; [|discriminate]. assert (o = op) by (cbn in Eok; congruence). subst o. unfold ntt_new in Eo. revert Eo. clear. intros Eo.
      repeat (match type of Eo with bind _ _ = _ => apply bind_inv in Eo; destruct Eo as (? & _ & Eo) | (if ?b then _ else _) = _ => destruct b; try discriminate | match ?x with _ => _ end = _ => destruct x; try discriminate end).
      all: try (match type of Eo with Val (Some ?x) = _ => replace op with x by congruence end; reflexivity). }
    rewrite Eqp. assert (mod_p q = p); [|congruence].
    unfold modulus_new in Eq. revert Eq. clear. intros Eq.
    repeat (match type of Eq with bind _ _ = _ => apply bind_inv in Eq; destruct Eq as (? & _ & Eq) | (if ?b then _ else _) = _ => destruct b; try discriminate end).
    all: try (match type of Eq with Val ?x = _ => replace q with x by congruence end; reflexivity).
  Qed.
  Lemma built_same_ops a b : built isp cands a -> built isp cands b -> c_degree a = c_degree b -> same_ops a b.
  Proof.
    intros Ha Hb Hd op op' H H' E. pose proof (built_ops a op Ha H) as E1. pose proof (built_ops b op' Hb H') as E2. rewrite E, Hd in E1. congruence.
  Qed.
End SameOps.
