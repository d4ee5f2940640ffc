(** Chinese remaindering: proofs about [RnsContext]. *)
From Verif Require Import Outcome BasicSpec RnsSpec OutcomeLemmas ZqModel ZqProofs NumTheory NttModel RnsModel.
From Coq Require Import Znumtheory.

(** ** The modular inverse *)
Lemma egcd_spec a p fuel : forall r0 s0 r1 s1, 0 < r0 -> 0 <= r1 <= r0 -> r0 * r1 < 2 ^ Z.of_nat fuel ->
  cong p (s0 * a) r0 -> cong p (s1 * a) r1 ->
  forall g s, egcd fuel r0 s0 r1 s1 = (g, s) -> g = Z.gcd r0 r1 /\ cong p (s * a) g.
Proof.
  induction fuel as [|f IH]; intros r0 s0 r1 s1 H0 H1 Hm C0 C1 g s E; cbn [egcd] in E.
  - injection E as <- <-. change (2 ^ Z.of_nat 0) with 1 in Hm.
    assert (r1 = 0) by nia. subst r1. rewrite Z.gcd_0_r, Z.abs_eq by lia. split; [lia|exact C0].
  - destruct (Z.eqb_spec r1 0) as [->|Hn].
    + injection E as <- <-. rewrite Z.gcd_0_r, Z.abs_eq by lia. split; [lia|exact C0].
    + pose proof (Z.div_mod r0 r1 Hn) as D. pose proof (Z.mod_pos_bound r0 r1 ltac:(lia)) as B.
      assert (1 <= r0 / r1) by (apply Z.div_le_lower_bound; lia).
      apply IH in E.
      * destruct E as [-> E]. split; [|exact E].
        rewrite (Z.gcd_comm r1), Z.gcd_mod by lia. apply Z.gcd_comm.
      * lia.
      * lia.
      * rewrite Nat2Z.inj_succ, Z.pow_succ_r in Hm by lia. nia.
      * exact C1.
      * replace (r0 mod r1) with (r0 - r0 / r1 * r1) by lia.
        rewrite Z.mul_sub_distr_r. apply cong_sub; [exact C0|].
        rewrite <- Z.mul_assoc. apply cong_mul; [apply cong_refl|exact C1].
Qed.

Lemma mod_inverse_some a p : 2 <= p -> Z.gcd a p = 1 ->
  exists r, mod_inverse a p = Some r /\ 0 < r < p /\ cong p (r * a) 1.
Proof.
  intros Hp Hg. unfold mod_inverse.
  destruct (egcd _ p 0 (a mod p) 1) as [g s] eqn:E.
  pose proof (Z.mod_pos_bound a p ltac:(lia)) as B.
  apply (egcd_spec a p) in E.
  - destruct E as [-> Hs].
    rewrite Z.gcd_comm, Z.gcd_mod, Z.gcd_comm, Hg in * by lia. cbn [Z.eqb Pos.eqb].
    exists (s mod p). split; [reflexivity|].
    assert (C : cong p (s mod p * a) 1).
    { apply cong_trans with (s * a); [|exact Hs]. apply cong_mul; [apply cong_mod|apply cong_refl]. }
    split; [|exact C]. pose proof (Z.mod_pos_bound s p ltac:(lia)) as Bs.
    assert (s mod p <> 0); [|lia]. intros Hz. rewrite Hz in C. unfold cong in C.
    rewrite Z.mul_0_l, Z.mod_0_l, Z.mod_1_l in C by lia. lia.
  - lia.
  - lia.
  - assert (L := Z.log2_spec p ltac:(lia)). pose proof (Z.log2_nonneg p).
    rewrite Z2Nat.id by lia. replace (2 * Z.log2 p + 3) with (Z.succ (Z.log2 p) + (Z.succ (Z.log2 p) + 1)) by lia.
    rewrite !Z.pow_add_r by lia. set (P := 2 ^ Z.succ (Z.log2 p)) in *. change (2 ^ 1) with 2. nia.
  - unfold cong. rewrite Z.mul_0_l, Z.mod_same, Z.mod_0_l by lia. reflexivity.
  - rewrite Z.mul_1_l. apply cong_sym, cong_mod.
Qed.

(** ** Coprimality checks *)
Lemma check_pairs_val left js :
  check_pairs left js = Val tt <->
  (forall j q, In (j, q) js -> fst left <> j -> Z.gcd (snd left) q = 1).
Proof.
  induction js as [|[j q] js IH]; cbn [check_pairs].
  - split; [intros _ ? ? []|reflexivity].
  - destruct (Nat.eqb_spec (fst left) j) as [He|He]; cbn [negb andb].
    + rewrite IH. split.
      * intros H j' q' [E|E] Hn; [injection E as -> ->; congruence|eauto].
      * intros H j' q' Hi. apply H. right. exact Hi.
    + destruct (Z.eqb_spec (Z.gcd (snd left) q) 1) as [Hg|Hg]; cbn [negb].
      * rewrite IH. split.
        -- intros H j' q' [E|E] Hn; [injection E as -> ->; exact Hg|eauto].
        -- intros H j' q' Hi. apply H. right. exact Hi.
      * split; [discriminate|]. intros H. exfalso. apply Hg, (H j q); [left; reflexivity|exact He].
Qed.

Lemma check_pairs_total left js :
  check_pairs left js = Val tt \/
  exists pre j q post, js = pre ++ (j, q) :: post /\ fst left <> j /\ Z.gcd (snd left) q <> 1 /\
    check_pairs left pre = Val tt /\ check_pairs left js = Err (NonCoprimeModuli (snd left) q).
Proof.
  induction js as [|[j q] js IH]; cbn [check_pairs]; [left; reflexivity|].
  destruct (Nat.eqb_spec (fst left) j) as [He|He]; cbn [negb andb].
  - destruct IH as [E|(pre & j' & q' & post & -> & A & B & C & D)]; [left; exact E|right].
    exists ((j, q) :: pre), j', q', post. cbn [check_pairs app]. rewrite <- He, Nat.eqb_refl. cbn [negb andb]. auto.
  - destruct (Z.eqb_spec (Z.gcd (snd left) q) 1) as [Hg|Hg]; cbn [negb].
    + destruct IH as [E|(pre & j' & q' & post & -> & A & B & C & D)]; [left; exact E|right].
      exists ((j, q) :: pre), j', q', post. cbn [check_pairs app].
      destruct (Nat.eqb_spec (fst left) j); [congruence|]. rewrite Hg. cbn [negb andb Z.eqb Pos.eqb]. auto.
    + right. exists [], j, q, js. cbn [check_pairs app]. auto.
Qed.

Lemma foldM_total {A} (f : A -> M unit) l :
  (forall a, In a l -> f a = Val tt) /\ foldM (fun _ a => f a) l tt = Val tt \/
  exists pre a post, l = pre ++ a :: post /\ (forall b, In b pre -> f b = Val tt) /\ f a <> Val tt /\
    foldM (fun _ a => f a) l tt = (f a ;;; Panic).
Proof.
  induction l as [|a l IH]; cbn [foldM].
  - left. split; [intros ? []|reflexivity].
  - destruct (f a) as [[]|e|] eqn:E; cbn [bind].
    + destruct IH as [[A1 A2]|(pre & b & post & -> & B & C & D)].
      * left. split; [intros b [<-|Hb]; auto|exact A2].
      * right. exists (a :: pre), b, post. repeat split; auto. intros c [<-|Hc]; auto.
    + right. exists [], a, l. cbn [app]. rewrite E. repeat split; [intros ? []|discriminate].
    + right. exists [], a, l. cbn [app]. rewrite E. repeat split; [intros ? []|discriminate].
Qed.

Lemma combine_seq_nth {A} (l : list A) d s i : (i < length l)%nat ->
  nth i (combine (seq s (length l)) l) (O, d) = ((s + i)%nat, nth i l d).
Proof.
  intros H. rewrite combine_nth by (rewrite seq_length; reflexivity). rewrite seq_nth by exact H. reflexivity.
Qed.

Lemma combine_seq_in {A} (l : list A) d j q :
  In (j, q) (combine (seq 0 (length l)) l) <-> (j < length l)%nat /\ q = nth j l d.
Proof.
  split.
  - intros H. apply (In_nth _ _ (O, d)) in H. destruct H as (i & Hi & E).
    rewrite combine_length, seq_length, Nat.min_id in Hi.
    rewrite combine_seq_nth in E by exact Hi. injection E as <- <-. split; [exact Hi|reflexivity].
  - intros [Hj ->]. rewrite <- (combine_seq_nth l d 0 j Hj) at 1. apply nth_In.
    rewrite combine_length, seq_length, Nat.min_id. exact Hj.
Qed.

Lemma combine_seq_split {A} (l : list A) d pre j q post :
  combine (seq 0 (length l)) l = pre ++ (j, q) :: post ->
  (j < length l)%nat /\ q = nth j l d /\ length pre = j /\
  (forall j' q', In (j', q') pre <-> (j' < j)%nat /\ q' = nth j' l d).
Proof.
  intros E.
  assert (L : length (combine (seq 0 (length l)) l) = length l).
  { rewrite combine_length, seq_length, Nat.min_id. reflexivity. }
  assert (Hp : (length pre < length l)%nat).
  { rewrite <- L, E, app_length. cbn [length]. lia. }
  assert (P := combine_seq_nth l d 0 (length pre) Hp). rewrite E, app_nth2, Nat.sub_diag in P by lia.
  cbn [nth] in P. injection P as -> ->. cbn [Nat.add]. repeat split; auto.
  - apply (In_nth _ _ (O, d)) in H. destruct H as (i & Hi & Ei).
    assert (P := combine_seq_nth l d 0 i ltac:(lia)). rewrite E, app_nth1, Ei in P by lia. injection P as -> ->. lia.
  - apply (In_nth _ _ (O, d)) in H. destruct H as (i & Hi & Ei).
    assert (P := combine_seq_nth l d 0 i ltac:(lia)). rewrite E, app_nth1, Ei in P by lia. injection P as -> ->.
    reflexivity.
  - intros [H ->]. assert (P := combine_seq_nth l d 0 j' ltac:(lia)). rewrite E, app_nth1 in P by lia.
    cbn [Nat.add] in P. rewrite <- P. apply nth_In. exact H.
Qed.

Lemma check_coprime_val qs : check_coprime qs = Val tt <-> pairwise_coprime qs.
Proof.
  unfold check_coprime.
  destruct (foldM_total (fun iq => check_pairs iq (combine (seq 0 (length qs)) qs)) (combine (seq 0 (length qs)) qs))
    as [[H E]|(pre & [i q] & post & Hs & Hpre & Hne & E)].
  - split; [intros _|intros _; exact E].
    intros i j Hi Hj Hn. specialize (H (i, nth i qs 0)). rewrite combine_seq_in in H.
    specialize (H (conj Hi eq_refl)). rewrite check_pairs_val in H. cbn [fst snd] in H.
    apply (H j); [rewrite combine_seq_in; auto|exact Hn].
  - rewrite E. split.
    + destruct (check_pairs (i, q) _) as [[]| |]; cbn [bind]; discriminate.
    + intros P. exfalso. apply Hne. apply check_pairs_val. cbn [fst snd]. intros j q' Hin Hij.
      apply combine_seq_split with (d := 0) in Hs. destruct Hs as (Hi & -> & _ & _).
      rewrite combine_seq_in with (d := 0) in Hin. destruct Hin as [Hj ->]. apply P; auto.
Qed.

Lemma check_coprime_err qs : ~ pairwise_coprime qs ->
  exists i j, first_conflict qs i j /\ check_coprime qs = Err (NonCoprimeModuli (nth i qs 0) (nth j qs 0)).
Proof.
  intros HN. unfold check_coprime.
  destruct (foldM_total (fun iq => check_pairs iq (combine (seq 0 (length qs)) qs)) (combine (seq 0 (length qs)) qs))
    as [[H E]|(pre & [i q] & post & Hs & Hpre & Hne & E)].
  - exfalso. apply HN, check_coprime_val. exact E.
  - rewrite E.
    destruct (check_pairs_total (i, q) (combine (seq 0 (length qs)) qs)) as [V|(pre' & j & q' & post' & Hs' & A & B & C & D)].
    + contradiction.
    + rewrite D. cbn [bind snd fst] in *. apply combine_seq_split with (d := 0) in Hs, Hs'.
      destruct Hs as (Hi & -> & _ & Ii). destruct Hs' as (Hj & -> & _ & Ij).
      exists i, j. split; [|reflexivity]. repeat (split; [assumption|]).
      intros i' j' Hi' Hj' Hn [Hlt|[-> Hlt]].
      * specialize (Hpre (i', nth i' qs 0)). rewrite Ii in Hpre. specialize (Hpre (conj Hlt eq_refl)).
        rewrite check_pairs_val in Hpre. cbn [fst snd] in Hpre. apply (Hpre j'); [rewrite combine_seq_in; auto|exact Hn].
      * rewrite check_pairs_val in C. cbn [fst snd] in C. apply (C j'); [rewrite Ij; auto|exact Hn].
Qed.

(** ** Products and congruences over a basis *)
Lemma product_prod l : product l = prod_list l.
Proof.
  unfold product. rewrite fold_symmetric; [|intros; apply Z.mul_assoc|intros; apply Z.mul_comm].
  induction l as [|a l IH]; cbn [fold_right prod_list]; [reflexivity|rewrite IH; reflexivity].
Qed.

Lemma prod_list_app l l' : prod_list (l ++ l') = prod_list l * prod_list l'.
Proof. induction l as [|a l IH]; cbn [app prod_list]; [ring|rewrite IH; ring]. Qed.

Lemma prod_list_pos l : Forall (fun q => 2 <= q < W62) l -> 0 < prod_list l.
Proof. induction 1 as [|a l H _ IH]; cbn [prod_list]; [lia|nia]. Qed.

Lemma prod_list_ge2 l : l <> [] -> Forall (fun q => 2 <= q < W62) l -> 2 <= prod_list l.
Proof.
  destruct l as [|a l]; [congruence|]. intros _ H. inversion H; subst. cbn [prod_list].
  pose proof (prod_list_pos l ltac:(assumption)). nia.
Qed.

(** Ordered-pairs form of pairwise coprimality. *)
Lemma pairwise_cons q qs : pairwise_coprime (q :: qs) <-> Forall (fun r => Z.gcd q r = 1) qs /\ pairwise_coprime qs.
Proof.
  split.
  - intros H. split.
    + rewrite Forall_forall. intros r Hr. apply (In_nth _ _ 0) in Hr. destruct Hr as (j & Hj & <-).
      apply (H O (S j)); cbn [length]; lia.
    + intros i j Hi Hj Hn. apply (H (S i) (S j)); cbn [length]; lia.
  - intros [H1 H2] i j Hi Hj Hn. rewrite Forall_forall in H1. cbn [length] in *.
    destruct i as [|i], j as [|j]; cbn [nth].
    + lia.
    + apply H1, nth_In. lia.
    + rewrite Z.gcd_comm. apply H1, nth_In. lia.
    + apply H2; lia.
Qed.

Lemma pairwise_app l l' : pairwise_coprime (l ++ l') -> pairwise_coprime l /\ pairwise_coprime l'.
Proof.
  intros H. split.
  - intros i j Hi Hj Hn. specialize (H i j). rewrite app_length, !app_nth1 in H by lia. apply H; lia.
  - intros i j Hi Hj Hn. specialize (H (length l + i) (length l + j))%nat.
    rewrite app_length, !app_nth2_plus in H by lia. apply H; lia.
Qed.

Lemma gcd_prod q qs : Forall (fun r => Z.gcd q r = 1) qs -> Z.gcd q (prod_list qs) = 1.
Proof.
  induction 1 as [|r qs H _ IH]; cbn [prod_list]; [apply Z.gcd_1_r|].
  apply Zgcd_1_rel_prime, rel_prime_mult; apply Zgcd_1_rel_prime; assumption.
Qed.

Lemma divide_mul_coprime a b x : Z.gcd a b = 1 -> (a | x) -> (b | x) -> (a * b | x).
Proof.
  intros G [u ->] Hb. rewrite Z.mul_comm in Hb. apply Z.gauss in Hb; [|rewrite Z.gcd_comm; exact G].
  destruct Hb as [v ->]. exists v. ring.
Qed.

Lemma prod_divide qs x : pairwise_coprime qs -> Forall (fun q => (q | x)) qs -> (prod_list qs | x).
Proof.
  induction qs as [|q qs IH]; intros P D; cbn [prod_list]; [apply Z.divide_1_l|].
  apply pairwise_cons in P. destruct P as [P1 P2]. inversion D; subst.
  apply divide_mul_coprime; [apply gcd_prod; exact P1|assumption|apply IH; assumption].
Qed.

Lemma nth_divide_prod qs i : (i < length qs)%nat -> (nth i qs 0 | prod_list qs).
Proof.
  revert i. induction qs as [|q qs IH]; intros i H; cbn [length] in H; [lia|].
  destruct i as [|i]; cbn [nth prod_list]; [apply Z.divide_factor_l|].
  apply Z.divide_mul_r, IH. lia.
Qed.

(** Congruence modulo every element is congruence modulo the product. *)
Lemma crt_cong qs x y : rns_basis qs ->
  (forall i, (i < length qs)%nat -> cong (nth i qs 0) x y) -> cong (prod_list qs) x y.
Proof.
  intros (Hne & Hp & Hr) H. pose proof (prod_list_pos qs Hr). apply cong_divide; [lia|].
  apply prod_divide; [exact Hp|]. rewrite Forall_forall. intros q Hq.
  apply (In_nth _ _ 0) in Hq. destruct Hq as (i & Hi & <-).
  rewrite Forall_forall in Hr. specialize (Hr (nth i qs 0) (nth_In _ _ Hi)).
  apply cong_divide; [lia|]. apply H. exact Hi.
Qed.

Lemma cong_dividing q Q x y : 0 < q -> 0 < Q -> (q | Q) -> cong Q x y -> cong q x y.
Proof.
  intros Hq HQ [k ->] H. rewrite cong_divide in * by lia. destruct H as [u E]. exists (u * k). rewrite E. ring.
Qed.

Lemma basis_nth qs i : rns_basis qs -> (i < length qs)%nat -> 2 <= nth i qs 0 < W62.
Proof. intros (_ & _ & H) Hi. rewrite Forall_forall in H. apply H, nth_In. exact Hi. Qed.

Lemma basis_pos qs : rns_basis qs -> 2 <= prod_list qs.
Proof. intros (H & _ & H'). apply prod_list_ge2; assumption. Qed.

Lemma cong_prod_nth qs i x y : rns_basis qs -> (i < length qs)%nat ->
  cong (prod_list qs) x y -> cong (nth i qs 0) x y.
Proof.
  intros Hb Hi. pose proof (basis_nth qs i Hb Hi). pose proof (basis_pos qs Hb).
  apply cong_dividing; try lia. apply nth_divide_prod. exact Hi.
Qed.

(** The complementary product is coprime to its modulus. *)
Lemma gcd_cofactor_gen qs i : pairwise_coprime qs -> (i < length qs)%nat -> 0 < nth i qs 0 ->
  Z.gcd (prod_list qs / nth i qs 0) (nth i qs 0) = 1 /\
  prod_list qs / nth i qs 0 * nth i qs 0 = prod_list qs /\
  (forall j, (j < length qs)%nat -> j <> i -> (nth j qs 0 | prod_list qs / nth i qs 0)).
Proof.
  intros Hp Hi Hq.
  destruct (nth_split qs 0 Hi) as (l1 & l2 & E & L). remember (nth i qs 0) as q eqn:Eq.
  assert (EP : prod_list qs / q = prod_list (l1 ++ l2)).
  { rewrite E, !prod_list_app. cbn [prod_list].
    replace (prod_list l1 * (q * prod_list l2)) with ((prod_list l1 * prod_list l2) * q) by ring.
    apply Z.div_mul. lia. }
  rewrite EP. split; [|split].
  - rewrite Z.gcd_comm. apply gcd_prod. rewrite Forall_forall. intros r Hin. apply in_app_or in Hin.
    destruct Hin as [Hin|Hin]; apply (In_nth _ _ 0) in Hin; destruct Hin as (j & Hj & <-).
    + specialize (Hp i j). rewrite <- Eq in Hp. rewrite E in Hp. rewrite app_nth1 in Hp by lia.
      apply Hp; rewrite ?app_length; cbn [length]; lia.
    + specialize (Hp i (length l1 + S j)%nat). rewrite <- Eq in Hp. rewrite E in Hp.
      rewrite app_nth2_plus in Hp. cbn [nth] in Hp. apply Hp; rewrite ?app_length; cbn [length]; lia.
  - rewrite E, !prod_list_app. cbn [prod_list]. ring.
  - intros j Hj Hn. rewrite E in *. rewrite app_length in Hj. cbn [length] in Hj.
    destruct (lt_dec j (length l1)) as [Hl|Hl].
    + rewrite app_nth1 by exact Hl. rewrite <- (app_nth1 l1 l2 0 Hl). apply nth_divide_prod. rewrite app_length. lia.
    + replace j with (length l1 + S (j - length l1 - 1))%nat by lia. rewrite app_nth2_plus. cbn [nth].
      rewrite <- (app_nth2_plus l1 l2). apply nth_divide_prod. rewrite app_length. lia.
Qed.

Lemma gcd_cofactor qs i : rns_basis qs -> (i < length qs)%nat ->
  Z.gcd (prod_list qs / nth i qs 0) (nth i qs 0) = 1 /\
  prod_list qs / nth i qs 0 * nth i qs 0 = prod_list qs /\
  (forall j, (j < length qs)%nat -> j <> i -> (nth j qs 0 | prod_list qs / nth i qs 0)).
Proof.
  intros Hb Hi. pose proof (basis_nth qs i Hb Hi). apply gcd_cofactor_gen; [apply Hb|exact Hi|lia].
Qed.

(** ** The context *)
Record good_rns (c : rns_ctx) : Prop := {
  gr_basis : rns_basis (rns_u64 c);
  gr_moduli : Forall2 (fun q m => modulus_new q = Val m) (rns_u64 c) (rns_moduli c);
  gr_product : rns_product c = prod_list (rns_u64 c);
  gr_lt : length (rns_q_tilde c) = length (rns_u64 c);
  gr_lts : length (rns_q_tilde_shoup c) = length (rns_u64 c);
  gr_ls : length (rns_q_star c) = length (rns_u64 c);
  gr_lg : length (rns_garner c) = length (rns_u64 c);
  gr_entry : forall i, (i < length (rns_u64 c))%nat ->
    let q := nth i (rns_u64 c) 0 in
    nth i (rns_q_star c) 0 * q = rns_product c /\
    0 < nth i (rns_q_tilde c) 0 < q /\
    nth i (rns_garner c) 0 = nth i (rns_q_star c) 0 * nth i (rns_q_tilde c) 0 /\
    nth i (rns_q_tilde_shoup c) 0 = nth i (rns_q_tilde c) 0 * W64 / q /\
    cong q (nth i (rns_garner c) 0) 1 /\
    (forall j, (j < length (rns_u64 c))%nat -> j <> i -> cong (nth j (rns_u64 c) 0) (nth i (rns_garner c) 0) 0)
}.

Definition entry_of (qs : list Z) (Q q : Z) (e : modulus * Z * Z * Z * Z) : Prop :=
  let '(m, t, ts, st, g) := e in
  modulus_new q = Val m /\ st = Q / q /\ 0 < t < q /\ g = st * t /\ ts = t * W64 / q /\ cong q (t * (Q / q)) 1.

Lemma rns_entry_ok qs q : pairwise_coprime qs -> In q qs -> 2 <= q < W62 ->
  exists e, rns_entry (prod_list qs) q = Val e /\ entry_of qs (prod_list qs) q e.
Proof.
  intros Hb Hin Hq. apply (In_nth _ _ 0) in Hin. destruct Hin as (i & Hi & Eq). rewrite <- Eq in *.
  destruct (gcd_cofactor_gen qs i Hb Hi ltac:(lia)) as (G & _ & _). clear Eq q.
  set (q := nth i qs 0) in *. set (Q := prod_list qs) in *.
  unfold rns_entry. destruct (mod_inverse_some (Q / q) q ltac:(lia) G) as (r & Er & Br & Cr).
  rewrite (modulus_new_ok q Hq). cbn [bind]. rewrite Er. cbn [unwrap bind].
  unfold to_u64. rewrite bind_chk by lia.
  assert (V : modulus_new q = Val (mkModulus q (W128 / q / W64) (W128 / q mod W64) (leading_zeros64 q) (supports_opt q)))
    by (apply modulus_new_ok; exact Hq).
  destruct (modulus_new_valid _ _ V) as [Vm Ep].
  destruct (shoup_spec _ Vm r) as [Es _]; [cbn [mod_p]; lia|]. rewrite Es. cbn [bind].
  eexists. split; [reflexivity|]. unfold entry_of. unfold shoup_of. cbn [mod_p]. repeat split; auto; lia.
Qed.

Lemma mapM_exists {A B} (f : A -> M B) (P : A -> B -> Prop) l :
  (forall a, In a l -> exists b, f a = Val b /\ P a b) -> exists r, mapM f l = Val r /\ Forall2 P l r.
Proof.
  induction l as [|a l IH]; intros H; cbn [mapM].
  - exists []. split; [reflexivity|constructor].
  - destruct (H a (or_introl eq_refl)) as (b & E & Hb). rewrite E. cbn [bind].
    destruct IH as (r & Er & Hr); [intros; apply H; right; assumption|]. rewrite Er. cbn [bind].
    exists (b :: r). split; [reflexivity|constructor; assumption].
Qed.

Lemma Forall2_map_r {A B C} (P : A -> C -> Prop) (g : B -> C) l l' :
  Forall2 P l (map g l') <-> Forall2 (fun a b => P a (g b)) l l'.
Proof.
  split.
  - revert l. induction l' as [|b l' IH]; intros l H; cbn [map] in H; inversion H; subst; constructor; auto.
  - induction 1; cbn [map]; constructor; auto.
Qed.

Lemma Forall2_weaken {A B} (P Q : A -> B -> Prop) l l' :
  (forall a b, P a b -> Q a b) -> Forall2 P l l' -> Forall2 Q l l'.
Proof. intros H. induction 1; constructor; auto. Qed.

Lemma Forall2_nth {A B} (P : A -> B -> Prop) l l' i d d' :
  Forall2 P l l' -> (i < length l)%nat -> P (nth i l d) (nth i l' d').
Proof.
  intros H. revert i. induction H as [|a b l l' Hp _ IH]; intros i Hi; cbn [length] in Hi; [lia|].
  destruct i as [|i]; cbn [nth]; [exact Hp|apply IH; lia].
Qed.

Lemma map_nth_lt {A B} (f : A -> B) l i d d' : (i < length l)%nat -> nth i (map f l) d' = f (nth i l d).
Proof. intros H. rewrite (nth_indep _ d' (f d)) by (rewrite map_length; exact H). apply map_nth. Qed.

Theorem rns_new_ok qs : rns_basis qs -> exists c, rns_new qs = Val c /\ good_rns c /\ rns_u64 c = qs.
Proof.
  intros Hb. pose proof Hb as (Hne & Hp & Hr). unfold rns_new.
  destruct qs as [|q0 qs0]; [congruence|]. set (qs := q0 :: qs0) in *.
  rewrite (proj2 (check_coprime_val qs) Hp). cbn [bind]. rewrite product_prod.
  destruct (mapM_exists (rns_entry (prod_list qs)) (entry_of qs (prod_list qs)) qs) as (es & Ees & Hes).
  { intros q Hin. rewrite Forall_forall in Hr. apply rns_entry_ok; auto. }
  rewrite Ees. cbn [bind]. eexists. split; [reflexivity|]. split; [|reflexivity].
  pose proof (Forall2_length_eq _ _ _ Hes) as L.
  constructor; cbn [rns_u64 rns_moduli rns_q_tilde rns_q_tilde_shoup rns_q_star rns_garner rns_product];
    rewrite ?map_length; auto.
  - apply Forall2_map_r. revert Hes. apply Forall2_weaken. intros a [[[[m t] ts] st] g] H. apply H.
  - intros i Hi. set (q := nth i qs 0).
    set (d := (mkModulus 0 0 0 0 false, 0, 0, 0, 0)).
    pose proof (Forall2_nth _ _ _ i 0 d Hes Hi) as E. fold q in E.
    rewrite !(map_nth_lt _ _ i d) by lia.
    destruct (nth i es d) as [[[[m t] ts] st] g].
    destruct E as (Em & -> & Bt & -> & -> & C).
    destruct (gcd_cofactor qs i Hb Hi) as (_ & E2 & D). fold q in E2, D.
    pose proof (basis_nth qs i Hb Hi) as Hq. fold q in Hq.
    split; [exact E2|]. split; [exact Bt|]. split; [reflexivity|]. split; [reflexivity|]. split.
    + rewrite Z.mul_comm. exact C.
    + intros j Hj Hn. specialize (D j Hj Hn). pose proof (basis_nth qs j Hb Hj).
      apply cong_0_divide; [lia|]. apply Z.divide_mul_l. exact D.
Qed.

Lemma mapM_inv_in {A B} (f : A -> M B) l r a : mapM f l = Val r -> In a l -> exists b, f a = Val b.
Proof.
  revert r. induction l as [|x l IH]; intros r E Hin; [destruct Hin|]. cbn [mapM] in E.
  apply bind_inv in E. destruct E as (b & Eb & E). apply bind_inv in E. destruct E as (r' & Er & _).
  destruct Hin as [<-|Hin]; eauto.
Qed.

Theorem rns_new_inv qs c : rns_new qs = Val c -> rns_basis qs.
Proof.
  unfold rns_new. destruct qs as [|q0 qs0]; [discriminate|]. set (qs := q0 :: qs0). intros E.
  apply bind_inv in E. destruct E as ([] & E1 & E). apply bind_inv in E. destruct E as (es & E2 & _).
  apply check_coprime_val in E1. split; [discriminate|]. split; [exact E1|].
  rewrite Forall_forall. intros q Hq. destruct (mapM_inv_in _ _ _ q E2 Hq) as (e & Ee).
  unfold rns_entry in Ee. apply bind_inv in Ee. destruct Ee as (m & Em & _). apply modulus_new_inv in Em. exact Em.
Qed.

Theorem rns_new_good qs c : rns_new qs = Val c -> good_rns c /\ rns_u64 c = qs.
Proof.
  intros E. destruct (rns_new_ok qs (rns_new_inv _ _ E)) as (c' & E' & H). rewrite E in E'. injection E' as <-. exact H.
Qed.

Lemma first_bad (qs : list Z) : Forall (fun q => 2 <= q < W62) qs \/
  exists pre q post, qs = pre ++ q :: post /\ ~ (2 <= q < W62) /\ Forall (fun q => 2 <= q < W62) pre.
Proof.
  induction qs as [|q qs IH]; [left; constructor|].
  assert (D : 2 <= q < W62 \/ ~ (2 <= q < W62)) by lia. destruct D as [D|D].
  - destruct IH as [IH|(pre & b & post & -> & B & F)]; [left; constructor; assumption|right].
    exists (q :: pre), b, post. repeat split; auto; lia.
  - right. exists [], q, qs. repeat split; auto; lia.
Qed.

Lemma mapM_app_err {A B} (f : A -> M B) pre a post e r : mapM f pre = Val r -> f a = Err e ->
  mapM f (pre ++ a :: post) = Err e.
Proof.
  revert r. induction pre as [|x pre IH]; intros r E Ea; cbn [mapM app] in *.
  - rewrite Ea. reflexivity.
  - apply bind_inv in E. destruct E as (b & Eb & E). apply bind_inv in E. destruct E as (r' & Er & _).
    rewrite Eb. cbn [bind]. rewrite (IH _ Er Ea). reflexivity.
Qed.

(** The error reported on any other input. *)
Theorem rns_new_err qs : Forall is_u64 qs -> ~ rns_basis qs ->
  (qs = [] /\ rns_new qs = Err EmptyModuli) \/
  (exists i j, first_conflict qs i j /\ rns_new qs = Err (NonCoprimeModuli (nth i qs 0) (nth j qs 0))) \/
  (pairwise_coprime qs /\ exists i, (i < length qs)%nat /\ ~ (2 <= nth i qs 0 < W62) /\
     (forall k, (k < i)%nat -> 2 <= nth k qs 0 < W62) /\
     rns_new qs = Err (InvalidModulus (nth i qs 0))).
Proof.
  intros HU HN. destruct qs as [|q0 qs0]; [left; auto|]. right.
  assert (E0 : rns_new (q0 :: qs0) = (check_coprime (q0 :: qs0) ;;;
      es <- mapM (rns_entry (product (q0 :: qs0))) (q0 :: qs0) ;;
      Val (mkRns (q0 :: qs0) (map (fun '(m, _, _, _, _) => m) es) (map (fun '(_, t, _, _, _) => t) es)
             (map (fun '(_, _, s, _, _) => s) es) (map (fun '(_, _, _, st, _) => st) es)
             (map (fun '(_, _, _, _, g) => g) es) (product (q0 :: qs0))))) by reflexivity.
  assert (Hne : q0 :: qs0 <> []) by discriminate.
  remember (q0 :: qs0) as qs eqn:Eqs. clear Eqs q0 qs0.
  destruct (check_coprime qs) as [[]|e|] eqn:E.
  - right. apply check_coprime_val in E. split; [exact E|].
    destruct (first_bad qs) as [F|(pre & q & post & Es & Bq & F)].
    { exfalso. apply HN. split; [exact Hne|]. split; assumption. }
    exists (length pre).
    assert (Eq : nth (length pre) qs 0 = q) by (rewrite Es, app_nth2, Nat.sub_diag by lia; reflexivity).
    rewrite Eq. split; [rewrite Es, app_length; cbn [length]; lia|]. split; [exact Bq|]. split.
    + intros k Hk. rewrite Es, app_nth1 by exact Hk. rewrite Forall_forall in F. apply F, nth_In. exact Hk.
    + rewrite E0. cbn [bind]. rewrite product_prod.
      destruct (mapM_exists (rns_entry (prod_list qs)) (entry_of qs (prod_list qs)) pre) as (es & Ees & _).
      { intros x Hx. rewrite Forall_forall in F. apply rns_entry_ok; [exact E| |auto].
        rewrite Es. apply in_or_app. left. exact Hx. }
      rewrite Es at 2. rewrite (mapM_app_err _ _ _ _ (InvalidModulus q) _ Ees); [reflexivity|].
      unfold rns_entry. rewrite modulus_new_err; [reflexivity| |exact Bq].
      rewrite Forall_forall in HU. specialize (HU q). rewrite Es in HU. 
      assert (Hq : is_u64 q) by (apply HU, in_or_app; right; left; reflexivity). apply Hq.
  - left. destruct (check_coprime_err qs) as (i & j & Hf & Ec).
    { intros P. apply check_coprime_val in P. congruence. }
    exists i, j. split; [exact Hf|]. rewrite E0. cbn [bind]. congruence.
  - destruct (check_coprime_err qs) as (i & j & Hf & Ec).
    { intros P. apply check_coprime_val in P. congruence. }
    congruence.
Qed.

(** ** Projection and lifting *)
Section Ctx.
  Variable c : rns_ctx.
  Hypothesis Hg : good_rns c.
  Let qs := rns_u64 c.
  Let Q := prod_list qs.

  Lemma project_spec a : project c a = Val (residues_of qs a).
  Proof.
    unfold project, residues_of. apply mapM_val. intros q Hq.
    pose proof (gr_basis _ Hg) as (_ & _ & F). rewrite Forall_forall in F. specialize (F q Hq).
    rewrite bind_guard by (apply negb_true_iff, Z.eqb_neq; lia).
    unfold to_u64. pose proof (Z.mod_pos_bound a q ltac:(lia)). apply chk_val. lia.
  Qed.

  Lemma residues_canonical a : canonical_residues qs (residues_of qs a).
  Proof.
    unfold canonical_residues, residues_of. pose proof (gr_basis _ Hg) as (_ & _ & F). fold qs in F.
    induction F as [|q l Hq _ IH]; cbn [map]; constructor; [|exact IH]. apply Z.mod_pos_bound. lia.
  Qed.

  Lemma Q_ge2 : 2 <= Q.
  Proof. apply basis_pos, (gr_basis _ Hg). Qed.

  Lemma lift_val rs : lift c rs = Val (inner rs (rns_garner c) mod Q).
  Proof.
    unfold lift. rewrite (gr_product _ Hg). fold qs Q. pose proof Q_ge2.
    rewrite bind_guard by (apply negb_true_iff, Z.eqb_neq; lia). reflexivity.
  Qed.

  Lemma inner_cong p rs : forall gs, length gs = length rs ->
    forall k, (k < length rs)%nat -> cong p (nth k gs 0) 1 ->
    (forall j, (j < length rs)%nat -> j <> k -> cong p (nth j gs 0) 0) -> cong p (inner rs gs) (nth k rs 0).
  Proof.
    assert (Z0 : forall rs gs, length gs = length rs ->
      (forall j, (j < length rs)%nat -> cong p (nth j gs 0) 0) -> cong p (inner rs gs) 0).
    { induction rs0 as [|r rs0 IH]; intros gs L H; destruct gs as [|g gs]; cbn [inner length] in *; try lia;
        [apply cong_refl|].
      replace 0 with (r * 0 + 0) by ring. apply cong_add.
      - apply cong_mul; [apply cong_refl|]. apply (H O). lia.
      - apply IH; [lia|]. intros j Hj. apply (H (S j)). lia. }
    induction rs as [|r rs IH]; intros gs L k Hk H1 H0; destruct gs as [|g gs]; cbn [inner length] in *; try lia.
    destruct k as [|k]; cbn [nth] in *.
    - replace r with (r * 1 + 0) at 2 by ring. apply cong_add.
      + apply cong_mul; [apply cong_refl|exact H1].
      + apply Z0; [lia|]. intros j Hj. apply (H0 (S j)); lia.
    - replace (nth k rs 0) with (r * 0 + nth k rs 0) by ring. apply cong_add.
      + apply cong_mul; [apply cong_refl|]. apply (H0 O); lia.
      + apply IH; [lia|lia|exact H1|]. intros j Hj Hn. apply (H0 (S j)); lia.
  Qed.

  Lemma inner_residue rs k : length rs = length qs -> (k < length qs)%nat ->
    cong (nth k qs 0) (inner rs (rns_garner c)) (nth k rs 0).
  Proof.
    intros L Hk. apply inner_cong; [rewrite L; apply (gr_lg _ Hg)|lia| |].
    - destruct (gr_entry _ Hg k Hk) as (_ & _ & _ & _ & C & _). exact C.
    - intros j Hj Hn. rewrite L in Hj. destruct (gr_entry _ Hg j Hj) as (_ & _ & _ & _ & _ & C).
      apply C; [exact Hk|auto].
  Qed.

  Lemma nth_residues_of i a : (i < length qs)%nat -> nth i (residues_of qs a) 0 = a mod nth i qs 0.
  Proof. intros H. unfold residues_of. rewrite (map_nth_lt _ _ i 0) by exact H. reflexivity. Qed.

  Theorem lift_project a : lift c (residues_of qs a) = Val (a mod Q).
  Proof.
    rewrite lift_val. f_equal. apply crt_cong; [apply (gr_basis _ Hg)|]. intros i Hi.
    eapply cong_trans; [apply inner_residue; [apply map_length|exact Hi]|].
    fold qs in Hi |- *. rewrite nth_residues_of by exact Hi. apply cong_mod.
  Qed.

  Theorem project_lift rs x : canonical_residues qs rs -> lift c rs = Val x ->
    residues_of qs x = rs /\ 0 <= x < Q.
  Proof.
    intros Hc E. rewrite lift_val in E. injection E as <-. pose proof Q_ge2.
    split; [|apply Z.mod_pos_bound; lia].
    pose proof (Forall2_length_eq _ _ _ Hc) as L.
    apply nth_ext with (d := 0) (d' := 0); [unfold residues_of; rewrite map_length; lia|].
    unfold residues_of at 1. rewrite map_length. intros i Hi. rewrite nth_residues_of by exact Hi.
    pose proof (basis_nth qs i (gr_basis _ Hg) Hi) as Bq.
    pose proof (Forall2_nth _ _ _ i 0 0 Hc Hi) as Br. cbn beta in Br.
    apply cong_small with (nth i qs 0); [apply Z.mod_pos_bound; lia|exact Br|].
    eapply cong_trans; [apply cong_mod|].
    eapply cong_trans; [|apply inner_residue; [lia|exact Hi]].
    apply cong_prod_nth; [apply (gr_basis _ Hg)|exact Hi|]. apply cong_mod.
  Qed.
End Ctx.
