(** Proofs about [build]: the invariant of parameter sets. *)
From Verif Require Import Outcome BasicSpec OutcomeLemmas ZqModel ZqProofs ZqPow NumTheory NttModel PolySpec PolyRing NttPure NttStages NttProofs.
From Verif Require Import PrimesModel PrimesProofs RnsModel RnsSpec RnsProofs RnsScalerProofs RqModel RqSpec RqCtx RqRows RqProofs RingRn RqOps RqIO ParamsModel.
From Coq Require Import Znumtheory.

Lemma map_err_val {A} f (x : M A) a : map_err f x = Val a <-> x = Val a.
Proof. destruct x; cbn; split; congruence. Qed.
Lemma ok_or_val {A} (o : option A) e a : ok_or o e = Val a <-> o = Some a.
Proof. destruct o; cbn; split; congruence. Qed.
Lemma unwrap_val {A} (o : option A) a : unwrap o = Val a <-> o = Some a.
Proof. destruct o; cbn; split; congruence. Qed.
Lemma Forall2_rev {A B} (P : A -> B -> Prop) l l' : Forall2 P l l' -> Forall2 P (rev l) (rev l').
Proof. induction 1; cbn; [constructor|]. apply Forall2_app; [assumption|repeat constructor; assumption]. Qed.
Lemma enumerate_nth {A} (l : list A) i d : (i < length l)%nat -> nth i (enumerate l) (O, d) = (i, nth i l d).
Proof. intros H. unfold enumerate. rewrite (combine_seq_nth l d 0 i H). reflexivity. Qed.
Lemma enumerate_length {A} (l : list A) : length (enumerate l) = length l.
Proof. unfold enumerate. rewrite combine_length, seq_length. lia. Qed.
Lemma enumerate_in {A} (l : list A) a : In a l -> exists i, In (i, a) (enumerate l).
Proof.
  intros H. destruct (In_nth _ _ a H) as (i & Hi & E). exists i.
  replace (i, a) with (nth i (enumerate l) (O, a)) by (rewrite enumerate_nth by exact Hi; congruence).
  apply nth_In. rewrite enumerate_length. exact Hi.
Qed.
Lemma enumerate_in_inv {A} (l : list A) i a : In (i, a) (enumerate l) -> In a l.
Proof. apply in_combine_r. Qed.

(** ** Generation of moduli *)
Section Gen.
  Variables (isp : Z -> bool) (Hisp : prime_oracle isp) (n : Z) (Hn : 8 <= n <= 65536).

  Lemma wanted_facts nb upper p : 10 <= nb <= 62 -> wanted nb (2 * n) upper p -> prime p /\ 2 ^ (nb - 1) <= p < 2 ^ nb /\ p mod (2 * n) = 1 /\ p < upper.
  Proof. intros Hb (H1 & H2 & H3 & H4). rewrite (Z.mod_small 1) in H3 by lia. auto. Qed.

  Lemma wanted_upper nb m u u' p : wanted nb m u p -> p < u' -> wanted nb m u' p.
  Proof. intros (H1 & H2 & H3 & _) H. unfold wanted. auto. Qed.

  Definition below_count (u : Z) (l : list Z) : nat := length (filter (fun x => x <? u) l).
  Lemma below_count_le u l : (below_count u l <= length l)%nat.
  Proof. unfold below_count. induction l as [|a l IH]; cbn [filter length]; [lia|]. destruct (a <? u); cbn [length]; lia. Qed.
  Lemma below_count_mono u v l : v <= u -> (below_count v l <= below_count u l)%nat.
  Proof.
    intros H. unfold below_count. induction l as [|a l IH]; cbn [filter length]; [lia|].
    destruct (Z.ltb_spec a v); destruct (Z.ltb_spec a u); cbn [length]; lia.
  Qed.
  Lemma below_count_lt u v l : v < u -> In v l -> (below_count v l < below_count u l)%nat.
  Proof.
    intros H Hin. induction l as [|a l IH]; [destruct Hin|]. pose proof (below_count_mono u v l ltac:(lia)) as Hm. unfold below_count in *. cbn [filter].
    destruct Hin as [->|Hin].
    - rewrite Z.ltb_irrefl. destruct (Z.ltb_spec v u); [|lia]. cbn [length]. lia.
    - specialize (IH Hin). destruct (Z.ltb_spec a v); destruct (Z.ltb_spec a u); cbn [length]; lia.
  Qed.

  Lemma existsb_eqb p l : existsb (Z.eqb p) l = true <-> In p l.
  Proof.
    rewrite existsb_exists. split; [intros (x & Hx & E); apply Z.eqb_eq in E; congruence|intros H; exists p; split; [exact H|apply Z.eqb_refl]].
  Qed.
  Lemma existsb_eqb_f p l : existsb (Z.eqb p) l = false <-> ~ In p l.
  Proof. rewrite <- existsb_eqb. destruct (existsb (Z.eqb p) l); split; congruence. Qed.

  Lemma next_prime_spec nb acc : 10 <= nb <= 62 -> forall fuel upper, (below_count upper acc < fuel)%nat -> 1 <= upper <= 2 ^ nb ->
    (exists p, next_prime isp fuel nb n upper acc = Val p /\ wanted nb (2 * n) upper p /\ ~ In p acc /\
       (forall x, wanted nb (2 * n) upper x -> ~ In x acc -> x <= p)) \/
    (next_prime isp fuel nb n upper acc = Err (ParNotEnoughPrimes nb n) /\ forall x, wanted nb (2 * n) upper x -> In x acc).
  Proof.
    intros Hb. induction fuel as [|f IH]; intros upper Hf Hu; [lia|]. cbn [next_prime].
    destruct (generate_prime_spec isp nb (2 * n) upper Hisp Hb ltac:(lia) Hu) as [(p & E & Hw & Hmax)|(E & Hno)]; rewrite E; cbn [bind ok_or].
    - pose proof (wanted_facts nb upper p Hb Hw) as (Hp & Hr & Hmod & Hlt). destruct (existsb (Z.eqb p) acc) eqn:Ee.
      + apply existsb_eqb in Ee. assert (0 < p) by (apply prime_ge_2 in Hp; lia).
        destruct (IH p) as [(r & Er & Wr & Nr & Mr)|(Er & Nr)]; [pose proof (below_count_lt upper p acc Hlt Ee); lia|lia|left|right].
        * exists r. split; [exact Er|]. split; [apply (wanted_upper _ _ p _ _ Wr); pose proof (wanted_facts _ _ _ Hb Wr); lia|]. split; [exact Nr|].
          intros x Wx Nx. apply Mr; [|exact Nx]. specialize (Hmax x Wx). assert (x <> p) by congruence. apply (wanted_upper _ _ upper); [exact Wx|lia].
        * split; [exact Er|]. intros x Wx. specialize (Hmax x Wx). destruct (Z.eq_dec x p) as [->|]; [exact Ee|]. apply Nr. apply (wanted_upper _ _ upper); [exact Wx|lia].
      + apply existsb_eqb_f in Ee. left. exists p. auto.
    - right. split; [reflexivity|]. intros x Wx. destruct (Hno x Wx).
  Qed.

  Lemma generate_from_spec sizes : Forall is_u64 sizes -> forall i acc, Forall (fun p => prime p /\ p mod (2 * n) = 1 /\ p < W62) acc -> NoDup acc ->
    (exists ms, generate_moduli_from isp i sizes n acc = Val (acc ++ ms) /\ Forall2 (fun s p => prime p /\ p mod (2 * n) = 1 /\ 10 <= s <= 62 /\ 2 ^ (s - 1) <= p < 2 ^ s) sizes ms /\ NoDup (acc ++ ms)) \/
    (exists e, generate_moduli_from isp i sizes n acc = Err e /\
       ((exists j, (j < length sizes)%nat /\ ~ 10 <= nth j sizes 0 <= 62 /\ e = ParInvalidModulusSize (i + Z.of_nat j) (nth j sizes 0)) \/
        (exists s, In s sizes /\ 10 <= s <= 62 /\ e = ParNotEnoughPrimes s n))).
  Proof.
    intros Hs. induction Hs as [|s sizes Hs0 Hs IH]; intros i acc Ha Hnd; cbn [generate_moduli_from].
    - left. exists []. rewrite app_nil_r. split; [reflexivity|]. split; [constructor|exact Hnd].
    - destruct (Z.ltb_spec 62 s) as [H62|H62]; [|destruct (Z.ltb_spec s 10) as [H10|H10]]; cbn [orb].
      1,2: right; eexists; split; [reflexivity|]; left; exists O; split; [cbn; lia|]; split; [cbn [nth]; lia|]; cbn [nth]; rewrite Z.add_0_r; reflexivity.
      destruct (next_prime_spec s acc ltac:(lia) (S (length acc)) (Z.shiftl 1 s)) as [(p & -> & Hw & Hni & _)|(-> & _)].
      + pose proof (below_count_le (Z.shiftl 1 s) acc). lia.
      + rewrite Z.shiftl_mul_pow2 by lia. rewrite Z.mul_1_l. assert (0 < 2 ^ s) by (apply Z.pow_pos_nonneg; lia). lia.
      + cbn [bind]. apply wanted_facts in Hw; [|lia]. destruct Hw as (Hp & Hr & Hmod & _).
        assert (Hlt : p < W62) by (assert (2 ^ s <= 2 ^ 62) by (apply Z.pow_le_mono_r; lia); assert (W62 = 2 ^ 62) by reflexivity; lia).
        destruct (IH (i + 1) (acc ++ [p])) as [(ms & E & HF & Hnd')|(e & E & He)].
        * apply Forall_app. split; [exact Ha|apply Forall_cons; [auto|constructor]].
        * apply NoDup_rev in Hnd. rewrite <- (rev_involutive (acc ++ [p])). apply NoDup_rev. rewrite rev_app_distr. cbn. constructor; [rewrite <- in_rev; exact Hni|exact Hnd].
        * left. exists (p :: ms). rewrite <- app_assoc in E, Hnd'. cbn [app] in E, Hnd'. split; [exact E|]. split; [constructor; [split; [exact Hp|]; split; [exact Hmod|lia]|exact HF]|exact Hnd'].
        * right. exists e. split; [exact E|]. destruct He as [(j & Hj & Hb & ->)|(s' & Hin & Hb & ->)].
          { left. exists (S j). cbn [length nth]. split; [lia|]. split; [exact Hb|]. f_equal. lia. }
          { right. exists s'. split; [right; exact Hin|auto]. }
      + cbn [bind]. right. eexists. split; [reflexivity|]. right. exists s. split; [left; reflexivity|]. split; [lia|reflexivity].
  Qed.

  Lemma extended_loop_spec want moduli : forall fuel upper acc, (length acc <= want)%nat -> (want - length acc + below_count upper moduli <= fuel)%nat -> 1 <= upper <= 2 ^ 62 ->
    Forall (fun p => upper <= p) acc -> Forall (fun p => prime p /\ 2 ^ 61 <= p < 2 ^ 62 /\ p mod (2 * n) = 1 /\ ~ In p moduli) acc -> NoDup acc ->
    (exists ext, extended_basis_loop isp fuel want n upper moduli acc = Val ext /\ length ext = want /\ NoDup ext /\
       Forall (fun p => prime p /\ 2 ^ 61 <= p < 2 ^ 62 /\ p mod (2 * n) = 1 /\ ~ In p moduli) ext) \/
    extended_basis_loop isp fuel want n upper moduli acc = Err (ParNotEnoughPrimes 62 n).
  Proof.
    induction fuel as [|f IH]; intros upper acc Hl Hf Hu Ha Hw Hnd.
    - cbn [extended_basis_loop]. destruct (Nat.eqb_spec (length acc) want) as [E|E]; [|lia]. left. exists acc. auto.
    - cbn [extended_basis_loop]. destruct (Nat.eqb_spec (length acc) want) as [E|E]; [left; exists acc; auto|].
      destruct (generate_prime_spec isp 62 (2 * n) upper Hisp ltac:(lia) ltac:(lia) Hu) as [(p & -> & Wp & _)|(-> & _)]; cbn [bind ok_or]; [|right; reflexivity].
      apply wanted_facts in Wp; [|lia]. destruct Wp as (Pp & Rp & Mp & Lp). change (2 ^ (62 - 1)) with (2 ^ 61) in Rp.
      assert (Hna : ~ In p acc) by (intros Hin; rewrite Forall_forall in Ha; specialize (Ha p Hin); lia).
      rewrite (proj2 (existsb_eqb_f p acc) Hna). cbn [negb andb].
      assert (Ha' : Forall (fun x => p <= x) acc) by (eapply Forall_impl; [|exact Ha]; cbv beta; intros; lia).
      destruct (existsb (Z.eqb p) moduli) eqn:Em; cbn [negb].
      + apply existsb_eqb in Em. apply IH; try assumption; [|lia]. pose proof (below_count_lt upper p moduli Lp Em). lia.
      + apply existsb_eqb_f in Em. apply IH.
        * rewrite app_length. cbn [length]. lia.
        * rewrite app_length. cbn [length]. pose proof (below_count_mono upper p moduli ltac:(lia)). lia.
        * lia.
        * apply Forall_app. split; [exact Ha'|apply Forall_cons; [lia|constructor]].
        * apply Forall_app. split; [exact Hw|apply Forall_cons; [auto|constructor]].
        * apply NoDup_rev in Hnd. rewrite <- (rev_involutive (acc ++ [p])). apply NoDup_rev. rewrite rev_app_distr. cbn. constructor; [rewrite <- in_rev; exact Hna|exact Hnd].
  Qed.
  Lemma extended_loop_err want moduli e : forall fuel upper acc, 1 <= upper <= 2 ^ 62 -> (length acc <= want)%nat ->
    (forall x, prime x -> 2 ^ 61 <= x < 2 ^ 62 -> x mod (2 * n) = 1 -> upper <= x -> In x acc \/ In x moduli) ->
    extended_basis_loop isp fuel want n upper moduli acc = Err e ->
    forall l, NoDup l -> Forall (fun x => prime x /\ 2 ^ 61 <= x < 2 ^ 62 /\ x mod (2 * n) = 1 /\ ~ In x moduli) l -> (length l < want)%nat.
  Proof.
    induction fuel as [|f IH]; intros upper acc Hu Hl Hinv E l Hnd HF; cbn [extended_basis_loop] in E; destruct (Nat.eqb_spec (length acc) want) as [El|El]; try discriminate.
    destruct (generate_prime_spec isp 62 (2 * n) upper Hisp ltac:(lia) ltac:(lia) Hu) as [(p & Ep & Wp & Hmax)|(Ep & Hno)]; rewrite Ep in E; cbn [bind ok_or] in E.
    - apply wanted_facts in Wp; [|lia]. destruct Wp as (Pp & Rp & Mp & Lp). change (2 ^ (62 - 1)) with (2 ^ 61) in Rp.
      assert (Hge : forall x, prime x -> 2 ^ 61 <= x < 2 ^ 62 -> x mod (2 * n) = 1 -> p <= x -> x = p \/ In x acc \/ In x moduli).
      { intros x Px Rx Mx Hx. destruct (Z_le_dec upper x) as [Hux|Hux]; [right; apply Hinv; assumption|]. left.
        assert (x <= p); [|lia]. apply Hmax. split; [exact Px|]. change (2 ^ (62 - 1)) with (2 ^ 61). rewrite (Z.mod_small 1) by lia. split; [exact Rx|]. split; [exact Mx|lia]. }
      destruct (negb (existsb (Z.eqb p) acc) && negb (existsb (Z.eqb p) moduli)) eqn:Eb.
      + apply (IH p (acc ++ [p])) with (l := l); try assumption; [lia|rewrite app_length; cbn [length]; lia|].
        intros x Px Rx Mx Hx. destruct (Hge x Px Rx Mx Hx) as [->|[H|H]]; [left; apply in_or_app; right; left; reflexivity|left; apply in_or_app; left; exact H|right; exact H].
      + apply (IH p acc) with (l := l); try assumption; [lia|].
        intros x Px Rx Mx Hx. destruct (Hge x Px Rx Mx Hx) as [->|H]; [|exact H]. apply andb_false_iff in Eb. rewrite !negb_false_iff, !existsb_eqb in Eb. exact Eb.
    - assert (Hall : forall x, prime x -> 2 ^ 61 <= x < 2 ^ 62 -> x mod (2 * n) = 1 -> In x acc \/ In x moduli).
      { intros x Px Rx Mx. destruct (Z_le_dec upper x) as [Hux|Hux]; [apply Hinv; assumption|]. destruct (Hno x). split; [exact Px|]. change (2 ^ (62 - 1)) with (2 ^ 61). rewrite (Z.mod_small 1) by lia. split; [exact Rx|]. split; [exact Mx|lia]. }
      assert (Hinc : incl l acc) by (intros x Hx; rewrite Forall_forall in HF; destruct (HF x Hx) as (Px & Rx & Mx & Nx); destruct (Hall x Px Rx Mx); tauto).
      pose proof (NoDup_incl_length Hnd Hinc). lia.
  Qed.
  Lemma extended_err moduli e : extended_basis isp n moduli = Err e ->
    forall l, NoDup l -> Forall (fun x => prime x /\ 2 ^ 61 <= x < 2 ^ 62 /\ x mod (2 * n) = 1 /\ ~ In x moduli) l -> (length l <= length moduli)%nat.
  Proof.
    intros E l Hnd HF. assert (length l < length moduli + 1)%nat; [|lia]. unfold extended_basis in E. eapply extended_loop_err; [| | |exact E|exact Hnd|exact HF].
    - vm_compute. split; discriminate.
    - cbn [length]. lia.
    - intros x _ Hx _ H. change (Z.shiftl 1 62) with (2 ^ 62) in H. lia.
  Qed.
  Lemma generate_from_err nb e : 10 <= nb <= 62 -> forall sizes i acc done,
    Forall2 (fun s p => 10 <= s <= 62 /\ 2 ^ (s - 1) <= p < 2 ^ s) done acc ->
    generate_moduli_from isp i sizes n acc = Err e -> e = ParNotEnoughPrimes nb n ->
    forall l, NoDup l -> Forall (fun x => prime x /\ 2 ^ (nb - 1) <= x < 2 ^ nb /\ x mod (2 * n) = 1) l -> (length l < count_occ Z.eq_dec (done ++ sizes) nb)%nat.
  Proof.
    intros Hb. induction sizes as [|s sizes IH]; intros i acc done Hd E Ee l Hnd HF; cbn [generate_moduli_from] in E; [discriminate|].
    destruct (Z.ltb_spec 62 s) as [H62|H62]; [|destruct (Z.ltb_spec s 10) as [H10|H10]]; cbn [orb] in E; try congruence.
    destruct (next_prime_spec s acc ltac:(lia) (S (length acc)) (Z.shiftl 1 s)) as [(p & Ep & Hw & _)|(Ep & Hall)].
    - pose proof (below_count_le (Z.shiftl 1 s) acc). lia.
    - rewrite Z.shiftl_mul_pow2 by lia. rewrite Z.mul_1_l. assert (0 < 2 ^ s) by (apply Z.pow_pos_nonneg; lia). lia.
    - rewrite Ep in E. cbn [bind] in E. apply wanted_facts in Hw; [|lia]. destruct Hw as (_ & Hr & _). replace (done ++ s :: sizes) with ((done ++ [s]) ++ sizes) by (rewrite <- app_assoc; reflexivity).
      apply (IH (i + 1) (acc ++ [p])); try assumption. apply Forall2_app; [exact Hd|]. constructor; [split; [lia|exact Hr]|constructor].
    - rewrite Ep in E. cbn [bind] in E. assert (s = nb) by congruence. subst s.
      assert (Hinc : incl l (filter (fun x => (2 ^ (nb - 1) <=? x) && (x <? 2 ^ nb)) acc)).
      { intros x Hx. rewrite Forall_forall in HF. destruct (HF x Hx) as (Px & Rx & Mx). apply filter_In. split; [|apply andb_true_iff; split; [apply Z.leb_le|apply Z.ltb_lt]; lia].
        apply Hall. unfold wanted. split; [exact Px|]. split; [exact Rx|]. rewrite (Z.mod_small 1) by lia. split; [exact Mx|]. rewrite Z.shiftl_mul_pow2 by lia. lia. }
      pose proof (NoDup_incl_length Hnd Hinc) as Hlen. clear Hinc E IH HF Hall.
      assert (Hcnt : (length (filter (fun x => ((2 ^ (nb - 1) <=? x) && (x <? 2 ^ nb))%Z) acc) <= count_occ Z.eq_dec done nb)%nat).
      { clear - Hd Hb. induction Hd as [|s p ds ps (Hs & Hr) Hd IH]; [reflexivity|]. cbn [filter count_occ]. destruct (Z.eq_dec s nb) as [->|Hne].
        - destruct (_ && _); cbn [length]; lia.
        - destruct ((2 ^ (nb - 1) <=? p) && (p <? 2 ^ nb)) eqn:E; [|exact IH]. exfalso. apply andb_true_iff in E. rewrite Z.leb_le, Z.ltb_lt in E. destruct (Z_lt_dec s nb) as [H|H].
          + assert (2 ^ s <= 2 ^ (nb - 1)) by (apply Z.pow_le_mono_r; lia). lia.
          + assert (2 ^ nb <= 2 ^ (s - 1)) by (apply Z.pow_le_mono_r; lia). lia. }
      rewrite count_occ_app, count_occ_cons_eq by reflexivity. apply Nat.lt_le_trans with (S (count_occ Z.eq_dec done nb)); [apply Nat.lt_succ_r, (Nat.le_trans _ _ _ Hlen Hcnt)|rewrite Nat.add_succ_r; apply le_n_S, Nat.le_add_r].
  Qed.
  Lemma extended_spec moduli :
    (exists ext, extended_basis isp n moduli = Val ext /\ length ext = (length moduli + 1)%nat /\ NoDup ext /\
       Forall (fun p => prime p /\ 2 ^ 61 <= p < 2 ^ 62 /\ p mod (2 * n) = 1 /\ ~ In p moduli) ext) \/
    extended_basis isp n moduli = Err (ParNotEnoughPrimes 62 n).
  Proof.
    unfold extended_basis. apply extended_loop_spec; try constructor.
    - cbn [length]. lia.
    - pose proof (below_count_le (Z.shiftl 1 62) moduli). cbn [length]. lia.
    - vm_compute. discriminate.
    - vm_compute. discriminate.
  Qed.
End Gen.

(** ** Validation *)
Lemma mapM_unit {A B} (f : A -> M B) l : (exists r, mapM f l = Val r) <-> forall a, In a l -> exists b, f a = Val b.
Proof.
  split.
  - intros (r & E) a Ha. exact (mapM_inv_in f l r a E Ha).
  - intros H. destruct (mapM_exists f (fun _ _ => True) l) as (r & E & _); [|eauto]. intros a Ha. destruct (H a Ha) as (b & Hb). eauto.
Qed.
Lemma mapM_err_inv {A B} (f : A -> M B) l e : mapM f l = Err e -> exists a, In a l /\ f a = Err e.
Proof.
  induction l as [|a l IH]; cbn [mapM]; [discriminate|]. destruct (f a) eqn:Ea; cbn [bind]; try discriminate.
  - destruct (mapM f l) eqn:El; cbn [bind]; try discriminate. intros E. assert (E' : Err e0 = Err e :> M (list B)) by congruence. destruct (IH E') as (x & Hx & Ex). exists x. split; [right; exact Hx|exact Ex].
  - intros [= ->]. exists a. split; [left; reflexivity|exact Ea].
Qed.
Lemma mapM_no_panic {A B} (f : A -> M B) l : (forall a, In a l -> f a <> Panic) -> mapM f l <> Panic.
Proof.
  induction l as [|a l IH]; intros H; cbn [mapM]; [discriminate|]. specialize (H a (or_introl eq_refl)) as Ha. destruct (f a); cbn [bind]; try congruence; try discriminate.
  assert (mapM f l <> Panic) by (apply IH; intros; apply H; right; assumption). destruct (mapM f l); cbn [bind]; congruence.
Qed.
Lemma bind_err_inv {A B} (x : M A) (f : A -> M B) e : bind x f = Err e -> x = Err e \/ exists a, x = Val a /\ f a = Err e.
Proof. destruct x; cbn; intros E; [right; eauto|left; congruence|discriminate]. Qed.
Lemma bind_no_panic {A B} (x : M A) (f : A -> M B) : x <> Panic -> (forall a, x = Val a -> f a <> Panic) -> bind x f <> Panic.
Proof. destruct x; cbn; intros H1 H2; [apply H2; reflexivity|discriminate|congruence]. Qed.

Lemma count_nodup (l : list Z) : (forall q, In q l -> (length (filter (Z.eqb q) l) <= 1)%nat) <-> NoDup l.
Proof.
  assert (G : forall q l, ~ In q l <-> filter (Z.eqb q) l = []).
  { intros q l0. induction l0 as [|a l0 IH]; cbn [filter In]; [tauto|]. destruct (Z.eqb_spec q a) as [->|Hne].
    - split; [intros H; exfalso; apply H; left; reflexivity|discriminate].
    - rewrite <- IH. split; [tauto|]. intros H [E|E]; [congruence|auto]. }
  split.
  - intros H. induction l as [|a l IH]; constructor.
    + specialize (H a (or_introl eq_refl)). cbn [filter] in H. rewrite Z.eqb_refl in H. cbn [length] in H. apply G. destruct (filter (Z.eqb a) l); [reflexivity|cbn in H; lia].
    + apply IH. intros q Hq. specialize (H q (or_intror Hq)). cbn [filter] in H. destruct (q =? a); cbn [length] in H; lia.
  - induction 1 as [|a l Hni Hnd IH]; intros q Hq; [destruct Hq|]. cbn [filter]. destruct (Z.eqb_spec q a).
    + subst. apply G in Hni. rewrite Hni. cbn. lia.
    + destruct Hq as [E|Hq]; [congruence|]. apply IH, Hq.
Qed.

Lemma check_modulus_val moduli i q : (exists u, check_modulus moduli (i, q) = Val u) <-> (exists m, modulus_new q = Val m) /\ (length (filter (Z.eqb q) moduli) <= 1)%nat.
Proof.
  unfold check_modulus. cbn [snd fst]. split.
  - intros (u & E). apply bind_inv in E. destruct E as (m & Em & E). apply map_err_val in Em. split; [eauto|]. destruct (Nat.ltb_spec 1 (length (filter (Z.eqb q) moduli))); [discriminate|assumption].
  - intros ((m & Em) & H). rewrite Em. cbn [map_err bind]. destruct (Nat.ltb_spec 1 (length (filter (Z.eqb q) moduli))); [lia|]. eauto.
Qed.
Lemma validate_pairs_val l : validate_pairs l = Val tt <-> pairwise_coprime l.
Proof.
  induction l as [|a l IH]; cbn [validate_pairs].
  - split; [|reflexivity]. intros _ i j Hi. cbn in Hi. lia.
  - rewrite pairwise_cons, <- IH. split.
    + intros E. apply bind_inv in E. destruct E as (r & Er & E). split; [|exact E]. rewrite Forall_forall. intros q Hq. destruct (mapM_inv_in _ _ _ _ Er Hq) as (b & Eb).
      unfold check_coprime_pair in Eb. destruct (Z.eqb_spec (Z.gcd a q) 1); [assumption|discriminate].
    + intros (HF & E). destruct (proj2 (mapM_unit (check_coprime_pair a) l)) as (r & ->); [|exact E]. rewrite Forall_forall in HF. intros q Hq. specialize (HF q Hq).
      unfold check_coprime_pair. rewrite HF. cbn. eauto.
Qed.
Lemma validate_pairs_unit l u : validate_pairs l = Val u -> validate_pairs l = Val tt.
Proof. destruct u. auto. Qed.

Lemma product_fold l : fold_left Z.mul l 1 = prod_list l.
Proof.
  assert (G : forall l a, fold_left Z.mul l a = a * prod_list l); [|rewrite G; ring].
  clear l. induction l as [|q l IH]; intros a; cbn [fold_left prod_list]; [ring|]. rewrite IH. ring.
Qed.
Lemma gcd_mod_l a q : q <> 0 -> Z.gcd (a mod q) q = Z.gcd a q.
Proof. intros H. rewrite Z.gcd_mod by exact H. apply Z.gcd_comm. Qed.

Section Validate.
  Variables (isp : Z -> bool) (Hisp : prime_oracle isp) (N : Z) (t : Z) (moduli : list Z).
  Hypothesis Hu : Forall is_u64 moduli.

  (** What is accepted. *)
  Definition valid_moduli : Prop :=
    NoDup moduli /\ Forall (fun q => prime q /\ q mod (2 * N) = 1 /\ q < W62) moduli /\ t < prod_list moduli /\ Forall (fun q => Z.gcd t q = 1) moduli.

  Lemma validate_val : validate_moduli isp N t moduli = Val tt <-> valid_moduli.
  Proof.
    unfold validate_moduli. split.
    - intros E. apply bind_inv in E. destruct E as (r1 & E1 & E). apply bind_inv in E. destruct E as (r2 & E2 & E). apply bind_inv in E. destruct E as (r3 & E3 & E).
      apply bind_inv in E. destruct E as (r4 & E4 & E). apply bind_inv in E. destruct E as (r5 & E5 & _). 
      assert (F1 : forall q, In q moduli -> (exists m, modulus_new q = Val m) /\ (length (filter (Z.eqb q) moduli) <= 1)%nat).
      { intros q Hq. destruct (enumerate_in _ _ Hq) as (i & Hi). destruct (mapM_inv_in _ _ _ _ E1 Hi) as (b & Eb). apply (check_modulus_val moduli i q). eauto. }
      assert (F0 : forall q, In q moduli -> 2 <= q < W62) by (intros q Hq; destruct (F1 q Hq) as ((m & Em) & _); exact (modulus_new_inv _ _ Em)).
      split; [apply count_nodup; intros q Hq; apply F1, Hq|]. split; [|split].
      + rewrite Forall_forall. intros q Hq. destruct (enumerate_in _ _ Hq) as (i & Hi). destruct (mapM_inv_in _ _ _ _ E3 Hi) as (b & Eb). unfold check_ntt in Eb. cbn [snd fst] in Eb.
        destruct (negb (q mod (2 * N) =? 1) || negb (isp q)) eqn:Ec; [discriminate|]. apply orb_false_iff in Ec. destruct Ec as (C1 & C2). apply negb_false_iff in C1, C2. apply Z.eqb_eq in C1.
        specialize (F0 q Hq). rewrite Forall_forall in Hu. split; [apply (Hisp q (Hu q Hq)); exact C2|]. split; [exact C1|lia].
      + rewrite product_fold in E4. destruct (Z.leb_spec (prod_list moduli) t); [discriminate|assumption].
      + rewrite Forall_forall. intros q Hq. destruct (enumerate_in _ _ Hq) as (i & Hi). destruct (mapM_inv_in _ _ _ _ E5 Hi) as (b & Eb). unfold check_plaintext in Eb. cbn [snd fst] in Eb.
        apply bind_inv in Eb. destruct Eb as (u & Eu & Eb). specialize (F0 q Hq). rewrite gcd_mod_l in Eb by lia. cbv zeta in Eb. destruct (Z.eqb_spec (Z.gcd t q) 1); [assumption|discriminate].
    - intros (Hnd & HF & Ht & Hc). rewrite Forall_forall in HF, Hc.
      assert (F0 : forall q, In q moduli -> 2 <= q < W62) by (intros q Hq; destruct (HF q Hq) as (P & _ & H); apply prime_ge_2 in P; lia).
      destruct (proj2 (mapM_unit (check_modulus moduli) (enumerate moduli))) as (r1 & ->).
      { intros (i & q) Hq. apply enumerate_in_inv in Hq. apply check_modulus_val. split; [|apply (proj2 (count_nodup moduli) Hnd), Hq]. destruct (modulus_new_ex q (F0 q Hq)) as (m & Em & _). eauto. }
      cbn [bind]. rewrite (proj2 (validate_pairs_val moduli)). 2:{ destruct moduli as [|q0 l0]; [intros i j Hi; cbn in Hi; lia|]. apply (distinct_primes_basis (q0 :: l0)); [discriminate|exact Hnd|]. rewrite Forall_forall. intros q Hq. destruct (HF q Hq) as (P & _ & H). auto. }
      cbn [bind]. destruct (proj2 (mapM_unit (check_ntt isp N) (enumerate moduli))) as (r3 & ->).
      { intros (i & q) Hq. apply enumerate_in_inv in Hq. unfold check_ntt. cbn [snd fst]. destruct (HF q Hq) as (P & E & _). rewrite E. rewrite Forall_forall in Hu. rewrite (proj2 (Hisp q (Hu q Hq)) P). cbn. eauto. }
      cbn [bind]. rewrite product_fold. destruct (Z.leb_spec (prod_list moduli) t); [lia|]. cbn [bind].
      destruct (proj2 (mapM_unit (check_plaintext t) (enumerate moduli))) as (r5 & ->); [|reflexivity].
      intros (i & q) Hq. apply enumerate_in_inv in Hq. unfold check_plaintext. cbn [snd fst]. specialize (F0 q Hq). rewrite bind_guard by (apply negb_true_iff, Z.eqb_neq; lia).
      rewrite gcd_mod_l, (Hc q Hq) by lia. cbn. eauto.
  Qed.

  (** What each error means. *)
  Definition moduli_error (e : error) : Prop :=
    match e with
    | ParInvalidCiphertextModulus i q => In q moduli /\ nth (Z.to_nat i) moduli 0 = q /\ ~ 2 <= q < 2 ^ 62
    | ParDuplicateModuli => ~ NoDup moduli
    | ParModuliNotCoprime a b g => In a moduli /\ In b moduli /\ a <> b /\ g = Z.gcd a b /\ g <> 1
    | ParCiphertextNotNttFriendly i q d => In q moduli /\ nth (Z.to_nat i) moduli 0 = q /\ d = N /\ ~ (prime q /\ q mod (2 * N) = 1)
    | ParPlaintextTooLarge => prod_list moduli <= t
    | ParPlaintextNotCoprime t' q i g => t' = t /\ In q moduli /\ nth (Z.to_nat i) moduli 0 = q /\ g = Z.gcd t q /\ g <> 1
    | _ => False
    end.
  Lemma enumerate_nth_in i q : In (i, q) (enumerate moduli) -> nth i moduli 0 = q.
  Proof. intros H. apply (combine_seq_in moduli 0) in H. symmetry. apply H. Qed.
  Lemma validate_pairs_err l e : NoDup l -> (forall q, In q l -> In q moduli) -> validate_pairs l = Err e -> moduli_error e.
  Proof.
    induction l as [|a l IH]; intros Hnd Hin E; cbn [validate_pairs] in E; [discriminate|]. inversion Hnd as [|? ? Hna Hnd']; subst. apply bind_err_inv in E. destruct E as [E|(r & _ & E)].
    - apply mapM_err_inv in E. destruct E as (q & Hq & E). unfold check_coprime_pair in E. destruct (Z.eqb_spec (Z.gcd a q) 1); [discriminate|]. cbn [negb] in E. assert (e = ParModuliNotCoprime a q (Z.gcd a q)) by congruence.
      subst e. cbn [moduli_error]. split; [apply Hin; left; reflexivity|]. split; [apply Hin; right; exact Hq|]. split; [congruence|auto].
    - apply IH; [exact Hnd'| |exact E]. intros q Hq. apply Hin. right. exact Hq.
  Qed.
  Lemma validate_pairs_no_panic l : validate_pairs l <> Panic.
  Proof.
    induction l as [|a l IH]; cbn [validate_pairs]; [discriminate|]. apply bind_no_panic; [|intros; exact IH]. apply mapM_no_panic. intros q _. unfold check_coprime_pair. destruct (negb _); discriminate.
  Qed.
  Lemma validate_err e : validate_moduli isp N t moduli = Err e -> moduli_error e.
  Proof.
    intros E. unfold validate_moduli in E. apply bind_err_inv in E. destruct E as [E|(r1 & E1 & E)].
    { apply mapM_err_inv in E. destruct E as ((i & q) & Hq & E). unfold check_modulus in E. cbn [snd fst] in E. apply bind_err_inv in E. destruct E as [E|(m & _ & E)].
      - destruct (modulus_new q) as [m|e'|] eqn:Em; cbn [map_err] in E; try discriminate. assert (e = ParInvalidCiphertextModulus (Z.of_nat i) q) by congruence. subst e. cbn [moduli_error].
        split; [exact (enumerate_in_inv _ _ _ Hq)|]. rewrite Nat2Z.id. split; [apply enumerate_nth_in, Hq|]. intros H. destruct (modulus_new_ex q H) as (m & Em' & _). congruence.
      - destruct (Nat.ltb_spec 1 (length (filter (Z.eqb q) moduli))) as [Hc|]; [|discriminate]. assert (e = ParDuplicateModuli) by congruence. subst e. cbn [moduli_error]. intros Hnd.
        pose proof (proj2 (count_nodup moduli) Hnd q (enumerate_in_inv _ _ _ Hq)). lia. }
    assert (F0 : forall q, In q moduli -> 2 <= q < W62).
    { intros q Hq. destruct (enumerate_in _ _ Hq) as (i & Hi). destruct (mapM_inv_in _ _ _ _ E1 Hi) as (b & Eb). destruct (proj1 (check_modulus_val moduli i q)) as ((m & Em) & _); [eauto|]. exact (modulus_new_inv _ _ Em). }
    apply bind_err_inv in E. destruct E as [E|(r2 & _ & E)].
    { apply (validate_pairs_err moduli); auto. apply count_nodup. intros q Hq. destruct (enumerate_in _ _ Hq) as (i & Hi). destruct (mapM_inv_in _ _ _ _ E1 Hi) as (b & Eb). apply (proj1 (check_modulus_val moduli i q)). eauto. }
    apply bind_err_inv in E. destruct E as [E|(r3 & _ & E)].
    { apply mapM_err_inv in E. destruct E as ((i & q) & Hq & E). unfold check_ntt in E. cbn [snd fst] in E. destruct (negb (q mod (2 * N) =? 1) || negb (isp q)) eqn:Ec; [|discriminate].
      assert (e = ParCiphertextNotNttFriendly (Z.of_nat i) q N) by congruence. subst e. cbn [moduli_error]. rewrite Nat2Z.id. split; [exact (enumerate_in_inv _ _ _ Hq)|]. split; [apply enumerate_nth_in, Hq|]. split; [reflexivity|].
      intros (P & Mq). rewrite Mq in Ec. rewrite Forall_forall in Hu. rewrite (proj2 (Hisp q (Hu q (enumerate_in_inv _ _ _ Hq))) P) in Ec. discriminate. }
    apply bind_err_inv in E. destruct E as [E|(r4 & _ & E)].
    { rewrite product_fold in E. destruct (Z.leb_spec (prod_list moduli) t); [|discriminate]. assert (e = ParPlaintextTooLarge) by congruence. subst e. assumption. }
    apply bind_err_inv in E. destruct E as [E|(r5 & _ & E)]; [|discriminate].
    apply mapM_err_inv in E. destruct E as ((i & q) & Hq & E). unfold check_plaintext in E. cbn [snd fst] in E. pose proof (enumerate_in_inv _ _ _ Hq) as Hin. specialize (F0 q Hin).
    rewrite bind_guard in E by (apply negb_true_iff, Z.eqb_neq; lia). rewrite gcd_mod_l in E by lia. cbv zeta in E. destruct (Z.eqb_spec (Z.gcd t q) 1); [discriminate|]. cbn [negb] in E.
    assert (e = ParPlaintextNotCoprime t q (Z.of_nat i) (Z.gcd t q)) by congruence. subst e. cbn [moduli_error]. rewrite Nat2Z.id. split; [reflexivity|]. split; [exact Hin|]. split; [apply enumerate_nth_in, Hq|auto].
  Qed.
  Lemma validate_no_panic : validate_moduli isp N t moduli <> Panic.
  Proof.
    unfold validate_moduli. rewrite Forall_forall in Hu. apply bind_no_panic.
    { apply mapM_no_panic. intros (i & q) Hq. apply enumerate_in_inv in Hq. unfold check_modulus. cbn [fst snd]. destruct (Z_le_dec 2 q) as [H2|H2]; [destruct (Z_lt_dec q W62) as [H6|H6]|].
      - destruct (modulus_new_ex q (conj H2 H6)) as (m & -> & _). cbn [map_err bind]. destruct (Nat.ltb _ _); discriminate.
      - rewrite modulus_new_err by (try lia; destruct (Hu q Hq); lia). discriminate.
      - rewrite modulus_new_err by (try lia; destruct (Hu q Hq); lia). discriminate. }
    intros r1 E1. assert (F0 : forall q, In q moduli -> 2 <= q < W62).
    { intros q Hq. destruct (enumerate_in _ _ Hq) as (i & Hi). destruct (mapM_inv_in _ _ _ _ E1 Hi) as (b & Eb). destruct (proj1 (check_modulus_val moduli i q)) as ((m & Em) & _); [eauto|]. exact (modulus_new_inv _ _ Em). }
    apply bind_no_panic; [apply validate_pairs_no_panic|intros _ _]. apply bind_no_panic; [apply mapM_no_panic; intros (i & q) _; unfold check_ntt; destruct (_ || _); discriminate|intros _ _].
    apply bind_no_panic; [destruct (_ <=? _); discriminate|intros _ _]. apply bind_no_panic; [|discriminate]. apply mapM_no_panic. intros (i & q) Hq. apply enumerate_in_inv in Hq. specialize (F0 q Hq).
    unfold check_plaintext. cbn [snd fst]. rewrite bind_guard by (apply negb_true_iff, Z.eqb_neq; lia). cbv zeta. destruct (negb _); discriminate.
  Qed.
End Validate.

(** ** The data of one level *)
Lemma nodup_bound B l : 0 <= B -> NoDup l -> Forall (fun x => 0 <= x < B) l -> Z.of_nat (length l) <= B.
Proof.
  intros HB0 Hnd HF. destruct l as [|a l]; [exact HB0|].
  assert (HB : 0 < B) by (inversion HF; lia). rewrite <- (Z2Nat.id B) by lia. apply inj_le. rewrite <- (map_length Z.to_nat), <- (seq_length (Z.to_nat B) 0).
  apply NoDup_incl_length.
  - clear HB. revert HF. induction Hnd as [|x m Hni Hnd IH]; intros HF; cbn [map]; constructor; inversion HF; subst.
    + intros Hin. apply in_map_iff in Hin. destruct Hin as (y & Ey & Hy). rewrite Forall_forall in H2. specialize (H2 y Hy). apply Z2Nat.inj in Ey; try lia. subst. auto.
    + apply IH. assumption.
  - intros x Hx. apply in_map_iff in Hx. destruct Hx as (y & <- & Hy). rewrite Forall_forall in HF. specialize (HF y Hy). apply in_seq. lia.
Qed.
Lemma nodup_map_div d l : 0 < d -> NoDup l -> Forall (fun q => q mod d = 1 mod d) l -> NoDup (map (fun q => q / d) l).
Proof.
  intros Hd Hnd HF. induction Hnd as [|x m Hni Hnd IH]; cbn [map]; constructor; inversion HF; subst.
  - intros Hin. apply in_map_iff in Hin. destruct Hin as (y & Ey & Hy). rewrite Forall_forall in H2. specialize (H2 y Hy).
    assert (x = y); [|congruence]. rewrite (Z.div_mod x d), (Z.div_mod y d) by lia. congruence.
  - auto.
Qed.
Lemma friendly_length N l : 8 <= Z.of_nat N -> NoDup l -> Forall (ntt_friendly N) l -> Z.of_nat (length l) < 2 ^ 60.
Proof.
  intros HN Hnd HF. rewrite <- (map_length (fun q => q / (2 * Z.of_nat N))). assert (E : W62 = 2 ^ 62) by reflexivity.
  assert (Z.of_nat (length (map (fun q => q / (2 * Z.of_nat N)) l)) <= 2 ^ 59); [|lia]. apply nodup_bound; [lia|..].
  - apply nodup_map_div; [lia|exact Hnd|]. eapply Forall_impl; [|exact HF]. intros q (_ & _ & H). rewrite H, (Z.mod_small 1) by lia. reflexivity.
  - rewrite Forall_map. eapply Forall_impl; [|exact HF]. cbv beta. intros q (P & H & _). apply prime_ge_2 in P. split; [apply Z.div_pos; lia|]. apply Z.div_lt_upper_bound; lia.
Qed.
Lemma poly_scaler_new_total from to num den f : ctx_ok from -> ctx_ok to -> c_degree from = c_degree to -> Z.of_nat (length (c_moduli from)) < 2 ^ 60 -> 0 <= num -> 0 < den ->
  factor_new num den = Val f -> exists s, poly_scaler_new from to f = Val s.
Proof.
  intros Hf Ht Hd Hl Hn Hden E. unfold poly_scaler_new. rewrite Hd, Nat.eqb_refl. cbn [negb].
  unfold factor_new in E. apply bind_inv in E. destruct E as (u & _ & E). assert (Ef : f = mkFactor num den (num =? den)) by congruence.
  destruct (scaler_new_good (c_rns from) (c_rns to) f) as (s & -> & _); [apply (co_rns _ Hf)|apply (co_rns _ Ht)|subst f; assumption|subst f; assumption|subst f; reflexivity|rewrite (co_u64 _ Hf); exact Hl|].
  cbn [bind]. eauto.
Qed.
Lemma factor_new_val num den : den <> 0 -> factor_new num den = Val (mkFactor num den (num =? den)).
Proof. intros H. unfold factor_new. rewrite bind_guard; [reflexivity|]. apply negb_true_iff, Z.eqb_neq, H. Qed.
Lemma rns_product_prod c : good_rns c -> rns_product c = prod_list (rns_u64 c).
Proof. intros H. apply (gr_product _ H). Qed.

Lemma sum_sizes_product l : Forall (fun q => 2 <= q) l -> forall acc, 0 <= acc -> acc <= fold_left Z.add (map nbits l) acc /\ prod_list l * 2 ^ acc <= 2 ^ fold_left Z.add (map nbits l) acc.
Proof.
  induction 1 as [|q l Hq H IH]; intros acc Ha; cbn [map fold_left prod_list fold_right]; [lia|]. fold (prod_list l).
  pose proof (nbits_nonneg q) as Hn. destruct (nbits_spec q ltac:(lia)) as (_ & Hb). destruct (IH (acc + nbits q) ltac:(lia)) as (H1 & H2). split; [lia|]. rewrite Z.pow_add_r in H2 by lia.
  assert (0 < 2 ^ acc) by (apply Z.pow_pos_nonneg; lia). assert (0 < prod_list l) by (clear - H; induction H as [|x l Hx H IH]; cbn [prod_list fold_right]; [lia|]; fold (prod_list l); nia).
  assert (q * (prod_list l * 2 ^ acc) <= 2 ^ nbits q * (prod_list l * 2 ^ acc)) by (apply Z.mul_le_mono_nonneg_r; nia). nia.
Qed.
Lemma mul_count_room l : Forall (fun q => 2 <= q) l -> prod_list l * 2 ^ 60 <= 2 ^ (62 * Z.of_nat (mul_moduli_count (map nbits l))).
Proof.
  intros H. destruct (sum_sizes_product l H 0 ltac:(lia)) as (H1 & H2). unfold mul_moduli_count, sum_sizes. set (s := fold_left Z.add (map nbits l) 0) in *.
  rewrite Z2Nat.id by (apply Z.div_pos; lia). change (2 ^ 0) with 1 in H2. rewrite Z.mul_1_r in H2.
  apply Z.le_trans with (2 ^ s * 2 ^ 60); [apply Z.mul_le_mono_nonneg_r; lia|]. rewrite <- Z.pow_add_r by lia. apply Z.pow_le_mono_r; [lia|].
  pose proof (Z.div_mod (s + 60 + 61) 62 ltac:(lia)). pose proof (Z.mod_pos_bound (s + 60 + 61) 62 ltac:(lia)). lia.
Qed.

Section Level.
  Variables (isp : Z -> bool) (Hisp : prime_oracle isp) (cands : Z -> list Z) (Hcands : forall p, canonical p (cands p)).
  Variables (N : nat) (HN : 8 <= Z.of_nat N) (t : Z) (Ht : 2 <= t).

  (** What [cipher_plain] returns for the moduli [ms]. *)
  Record good_cp (plain : ctx) (ms : list Z) (cp : cp_ctx) : Prop := {
    gc_cipher : context_new isp cands ms N = Val (cp_cipher cp);
    gc_plain : cp_plain cp = plain;
    gc_delta : exists d, 0 <= d < prod_list ms /\ cong (prod_list ms) (d * t) (-1) /\
      cp_delta cp = poly_of NttShoup (cp_cipher cp) true (padded (cp_cipher cp) [d]);
    gc_qmodt : cp_q_mod_t cp = prod_list ms mod t;
    gc_threshold : cp_threshold cp = (t + 1) / 2;
    gc_scaler : poly_scaler_new (cp_cipher cp) plain (mkFactor t (prod_list ms) (t =? prod_list ms)) = Val (cp_scaler cp)
  }.

  Lemma delta_rest_spec q : prime q -> q < W62 -> Z.gcd t q = 1 -> exists r, delta_rest isp t q = Val r /\ 0 <= r < q /\ cong q (r * t) (-1).
  Proof.
    intros Pq Hq Hg. pose proof (prime_ge_2 _ Pq) as H2. destruct (modulus_new_ex q ltac:(lia)) as (m & Em & Hm & Ep). unfold delta_rest. rewrite Em. cbn [bind].
    pose proof (Z.mod_pos_bound t q ltac:(lia)) as Hb. rewrite (zq_neg_spec m Hm) by (rewrite Ep; exact Hb). cbn [bind]. rewrite Ep.
    assert (Hne : t mod q <> 0).
    { intros E. rewrite <- gcd_mod_l, E, Z.gcd_0_l in Hg by lia. lia. }
    assert (Hm0 : (- (t mod q)) mod q = q - t mod q).
    { replace (- (t mod q)) with (q - t mod q + (-1) * q) by ring. rewrite Z_mod_plus_full. apply Z.mod_small. lia. }
    destruct (zq_inv_some isp m ((- (t mod q)) mod q) Hisp Hm) as (r & Er & Hr & Hone); [rewrite Ep; exact Pq|rewrite Ep, Hm0; lia|].
    rewrite Er. cbn [bind ok_or]. rewrite Ep in Hr, Hone. exists r. split; [reflexivity|]. split; [lia|]. rewrite Z.mul_mod_idemp_l in Hone by lia.
    unfold cong. replace (r * t) with (- (- t * r)) by ring.
    assert (E1 : (- (t mod q) * r) mod q = (- t * r) mod q).
    { rewrite <- (Z.mul_mod_idemp_l (- (t mod q))), <- (Z.mul_mod_idemp_l (- t)) by lia. f_equal. f_equal. rewrite <- !(Z.sub_0_l). rewrite Zminus_mod_idemp_r. reflexivity. }
    rewrite E1 in Hone. rewrite <- (Z.sub_0_l (- t * r)). rewrite <- Zminus_mod_idemp_r, Hone. reflexivity.
  Qed.
  Lemma delta_rests_spec ms : Forall (fun q => prime q /\ q < W62 /\ Z.gcd t q = 1) ms ->
    exists rs, mapM (delta_rest isp t) ms = Val rs /\ canonical_residues ms rs /\ Forall2 (fun q r => cong q (r * t) (-1)) ms rs.
  Proof.
    intros HF. destruct (mapM_exists (delta_rest isp t) (fun q r => 0 <= r < q /\ cong q (r * t) (-1)) ms) as (rs & E & H2).
    { intros q Hq. rewrite Forall_forall in HF. destruct (HF q Hq) as (P & L & G). destruct (delta_rest_spec q P L G) as (r & Er & H). eauto. }
    exists rs. split; [exact E|]. split; (eapply Forall2_weaken; [|exact H2]); cbv beta; intros q r (A & B); assumption.
  Qed.

  Lemma cipher_plain_spec plain ms c : ctx_ok plain -> c_degree plain = N -> NoDup ms -> Forall (fun q => Z.gcd t q = 1) ms -> Forall (ntt_friendly N) ms ->
    context_new isp cands ms N = Val c ->
    exists cp, cipher_plain isp cands N t plain ms = Val cp /\ good_cp plain ms cp /\ cp_cipher cp = c.
  Proof.
    intros Hpl Hpd Hnd Hco HF E. destruct (context_new_good isp Hisp cands Hcands ms N c E) as (Hg & Em & Ed). pose proof (good_ok _ Hg) as Hc.
    unfold cipher_plain. rewrite E. cbn [bind].
    destruct (delta_rests_spec ms) as (rs & Ers & Hcan & Hcong).
    { rewrite Forall_forall in *. intros q Hq. destruct (HF q Hq) as (P & L & _). auto. }
    rewrite Ers. cbn [bind]. pose proof (gr_basis _ (co_rns _ Hc)) as Hb. rewrite (co_u64 _ Hc), Em in Hb.
    destruct (rns_new_ok ms Hb) as (rns & Ern & Hrns & Eu). rewrite Ern. cbn [bind].
    destruct (lift rns rs) as [d|e|] eqn:El; [|rewrite (lift_val rns Hrns) in El; discriminate..].
    destruct (project_lift rns Hrns rs d) as (Hres & Hd); [rewrite Eu; exact Hcan|exact El|]. rewrite Eu in Hd, Hres. cbn [bind].
    assert (HN1 : (1 <= c_degree c)%nat) by (pose proof (N_ge8 c Hc); lia).
    rewrite (from_big_eq c Hc) by (cbn [length]; lia). cbn [bind]. rewrite (pb_into_eq c Hc) by (apply padded_length; cbn [length]; lia). cbn [bind].
    rewrite bind_guard by (apply negb_true_iff, Z.eqb_neq; lia). rewrite (gr_product _ Hrns), Eu. pose proof (basis_pos _ Hb) as HQ.
    rewrite factor_new_val by lia. cbn [bind].
    destruct (poly_scaler_new_total c plain t (prod_list ms) (mkFactor t (prod_list ms) (t =? prod_list ms)) Hc Hpl) as (s & Es); [congruence|rewrite Em; apply (friendly_length N); assumption|lia|lia|apply factor_new_val; lia|].
    rewrite Es. cbn [bind]. eexists. split; [reflexivity|]. split; [|reflexivity]. split; cbn [cp_cipher cp_plain cp_delta cp_q_mod_t cp_threshold cp_scaler]; try assumption; try reflexivity.
    - exists d. split; [exact Hd|]. split; [|reflexivity]. apply crt_cong; [exact Hb|]. intros i Hi. assert (Er : nth i rs 0 = d mod nth i ms 0) by (rewrite <- Hres; unfold residues_of; apply (map_nth_lt _ _ i 0), Hi).
      pose proof (Forall2_nth _ _ _ i 0 0 Hcong Hi) as Hci. cbv beta in Hci. rewrite Er in Hci. unfold cong in *. pose proof (basis_nth _ i Hb Hi). rewrite Z.mul_mod_idemp_l in Hci by lia. exact Hci.
    - rewrite Z.shiftr_div_pow2 by lia. reflexivity.
  Qed.
  Lemma cipher_plain_inv plain ms cp : ctx_ok plain -> c_degree plain = N -> NoDup ms -> Forall (fun q => Z.gcd t q = 1) ms -> Forall (ntt_friendly N) ms ->
    cipher_plain isp cands N t plain ms = Val cp -> good_cp plain ms cp.
  Proof.
    intros H1 H2 H3 H4 H5 E. unfold cipher_plain in E. pose proof E as E'. apply bind_inv in E'. destruct E' as (c & Ec & _).
    destruct (cipher_plain_spec plain ms c H1 H2 H3 H4 H5 Ec) as (cp' & Ecp & Hg & _). unfold cipher_plain in Ecp. congruence.
  Qed.

  Record good_level (plain : ctx) (moduli : list Z) (l : nat) (lv : level_ctx) : Prop := {
    gl_cp : good_cp plain (firstn (length moduli - l) moduli) (lv_cp lv);
    gl_ctx : lv_ctx lv = cp_cipher (lv_cp lv);
    gl_level : lv_level lv = l;
    gl_from : mp_from (lv_mul lv) = lv_ctx lv;
    gl_mul : exists ext, length ext = mul_moduli_count (map nbits (firstn (length moduli - l) moduli)) /\ NoDup ext /\
      Forall (fun p => prime p /\ 2 ^ 61 <= p < 2 ^ 62 /\ p mod (2 * Z.of_nat N) = 1 /\ ~ In p moduli) ext /\
      context_new isp cands (firstn (length moduli - l) moduli ++ ext) N = Val (mp_to (lv_mul lv));
    gl_extender : poly_scaler_new (lv_ctx lv) (mp_to (lv_mul lv)) (mkFactor 1 1 true) = Val (mp_extender (lv_mul lv));
    gl_down : poly_scaler_new (mp_to (lv_mul lv)) (lv_ctx lv)
      (mkFactor t (prod_list (firstn (length moduli - l) moduli)) (t =? prod_list (firstn (length moduli - l) moduli))) = Val (mp_down (lv_mul lv))
  }.

  Lemma firstn_incl {A} k (l : list A) x : In x (firstn k l) -> In x l.
  Proof. intros H. rewrite <- (firstn_skipn k l). apply in_or_app. left. exact H. Qed.
  Lemma NoDup_firstn {A} k (l : list A) : NoDup l -> NoDup (firstn k l).
  Proof. intros H. revert k. induction H as [|x l Hni Hnd IH]; intros [|k]; cbn [firstn]; constructor; [|apply IH]. intros Hin. apply Hni, (firstn_incl k), Hin. Qed.
  Lemma Forall_firstn {A} (P : A -> Prop) k l : Forall P l -> Forall P (firstn k l).
  Proof. intros H. rewrite Forall_forall in *. intros x Hx. apply H, (firstn_incl k), Hx. Qed.
  Lemma NoDup_app_disjoint {A} (l l' : list A) : NoDup l -> NoDup l' -> (forall x, In x l -> ~ In x l') -> NoDup (l ++ l').
  Proof.
    intros H H' Hd. induction H as [|x l Hni Hnd IH]; cbn [app]; [exact H'|]. constructor.
    - rewrite in_app_iff. intros [Hin|Hin]; [auto|]. apply (Hd x); [left; reflexivity|exact Hin].
    - apply IH. intros y Hy. apply Hd. right. exact Hy.
  Qed.

  Lemma nbits_62 q : 2 <= q < W62 -> 2 <= nbits q <= 62.
  Proof.
    intros H. destruct (nbits_spec q ltac:(lia)) as (H1 & H2). assert (W62 = 2 ^ 62) by reflexivity. pose proof (nbits_nonneg q). split.
    - destruct (Z_le_dec 2 (nbits q)); [assumption|]. assert (2 ^ nbits q <= 2 ^ 1) by (apply Z.pow_le_mono_r; lia). lia.
    - destruct (Z_le_dec (nbits q) 62); [assumption|]. assert (2 ^ 62 <= 2 ^ (nbits q - 1)) by (apply Z.pow_le_mono_r; lia). lia.
  Qed.
  Lemma sum_sizes_bound l : Forall (fun q => 2 <= q < W62) l -> forall a, 0 <= a -> a <= fold_left Z.add (map nbits l) a <= a + 62 * Z.of_nat (length l).
  Proof.
    intros H. induction H as [|q l Hq H IH]; intros a Ha; cbn [map fold_left length]; [lia|]. pose proof (nbits_62 q Hq). specialize (IH (a + nbits q) ltac:(lia)). lia.
  Qed.
  Lemma mul_count_le l : Forall (fun q => 2 <= q < W62) l -> (mul_moduli_count (map nbits l) <= length l + 1)%nat.
  Proof.
    intros H. unfold mul_moduli_count, sum_sizes. pose proof (sum_sizes_bound l H 0 ltac:(lia)) as Hb. apply Nat2Z.inj_le. rewrite Z2Nat.id by (apply Z.div_pos; lia).
    assert ((fold_left Z.add (map nbits l) 0 + 60 + 61) / 62 < Z.of_nat (length l) + 2); [|lia]. apply Z.div_lt_upper_bound; lia.
  Qed.

  Lemma build_level_spec plain moduli ext l cp mctx : NoDup moduli -> Forall (fun q => Z.gcd t q = 1) moduli -> Forall (ntt_friendly N) moduli -> (l < length moduli)%nat ->
    length ext = (length moduli + 1)%nat -> NoDup ext -> Forall (fun p => prime p /\ 2 ^ 61 <= p < 2 ^ 62 /\ p mod (2 * Z.of_nat N) = 1 /\ ~ In p moduli) ext ->
    good_cp plain (firstn (length moduli - l) moduli) cp ->
    context_new isp cands (firstn (length moduli - l) moduli ++ firstn (mul_moduli_count (map nbits (firstn (length moduli - l) moduli))) ext) N = Val mctx ->
    exists lv, build_level isp cands N t moduli (map nbits moduli) ext (l, cp) = Val lv /\ good_level plain moduli l lv.
  Proof.
    intros Hnd Hco HF Hl Hle Hnde Hext Hcp Em. unfold build_level.
    set (k := (length moduli - l)%nat) in *. set (ms := firstn k moduli) in *. rewrite firstn_map. fold ms.
    assert (Hms : Forall (fun q => 2 <= q < W62) ms).
    { apply Forall_firstn. eapply Forall_impl; [|exact HF]. intros q (P & L & _). apply prime_ge_2 in P. lia. }
    assert (Hlm : length ms = k) by (unfold ms; apply firstn_length_le; lia).
    pose proof (mul_count_le ms Hms) as Hmc. unfold slice_to. rewrite bind_guard by (apply Nat.leb_le; lia). cbn [bind]. rewrite Em. cbn [bind].
    pose proof (gc_cipher _ _ _ Hcp) as Ec. destruct (context_new_good isp Hisp cands Hcands _ _ _ Ec) as (Hg & Emod & Edeg). pose proof (good_ok _ Hg) as Hc.
    destruct (context_new_good isp Hisp cands Hcands _ _ _ Em) as (Hgm & Emm & Edm). pose proof (good_ok _ Hgm) as Hcm.
    rewrite (gr_product _ (co_rns _ Hc)), (co_u64 _ Hc), Emod. pose proof (Q_pos _ Hc) as HQ. unfold modulus_of in HQ. rewrite Emod in HQ.
    rewrite factor_new_val by lia. cbn [bind]. unfold mul_params_new.
    assert (L1 : Z.of_nat (length (c_moduli (cp_cipher cp))) < 2 ^ 60).
    { rewrite Emod. apply (friendly_length N); [exact HN|apply NoDup_firstn, Hnd|apply Forall_firstn, HF]. }
    assert (Hfe : Forall (ntt_friendly N) (firstn (mul_moduli_count (map nbits ms)) ext)).
    { apply Forall_firstn. eapply Forall_impl; [|exact Hext]. cbv beta. intros p (P & R & Mp & _). split; [exact P|]. assert (W62 = 2 ^ 62) by reflexivity. split; [lia|exact Mp]. }
    assert (L2 : Z.of_nat (length (c_moduli mctx)) < 2 ^ 60).
    { rewrite Emm. apply (friendly_length N); [exact HN| |apply Forall_app; split; [apply Forall_firstn, HF|exact Hfe]].
      apply NoDup_app_disjoint; [apply NoDup_firstn, Hnd|apply NoDup_firstn, Hnde|]. intros x Hx Hx'. apply firstn_incl in Hx. apply firstn_incl in Hx'. rewrite Forall_forall in Hext. destruct (Hext x Hx') as (_ & _ & _ & H). auto. }
    destruct (poly_scaler_new_total (cp_cipher cp) mctx 1 1 factor_one Hc Hcm) as (e & Ee); [congruence|exact L1|lia|lia|reflexivity|]. rewrite Ee. cbn [bind].
    destruct (poly_scaler_new_total mctx (cp_cipher cp) t (prod_list ms) (mkFactor t (prod_list ms) (t =? prod_list ms)) Hcm Hc) as (d & Ed); [congruence|exact L2|lia|lia|apply factor_new_val; lia|]. rewrite Ed. cbn [bind].
    eexists. split; [reflexivity|]. split; cbn [lv_cp lv_ctx lv_level lv_mul mp_from mp_to mp_extender mp_down]; try assumption; try reflexivity.
    fold k ms. exists (firstn (mul_moduli_count (map nbits ms)) ext). split; [apply firstn_length_le; lia|]. split; [apply NoDup_firstn, Hnde|]. split; [apply Forall_firstn, Hext|exact Em].
  Qed.
  Lemma build_level_inv plain moduli ext l cp lv : NoDup moduli -> Forall (fun q => Z.gcd t q = 1) moduli -> Forall (ntt_friendly N) moduli -> (l < length moduli)%nat ->
    length ext = (length moduli + 1)%nat -> NoDup ext -> Forall (fun p => prime p /\ 2 ^ 61 <= p < 2 ^ 62 /\ p mod (2 * Z.of_nat N) = 1 /\ ~ In p moduli) ext ->
    good_cp plain (firstn (length moduli - l) moduli) cp ->
    build_level isp cands N t moduli (map nbits moduli) ext (l, cp) = Val lv -> good_level plain moduli l lv.
  Proof.
    intros H1 H2 H3 H4 H5 H6 H7 H8 E. pose proof E as E'. unfold build_level in E'. apply bind_inv in E'. destruct E' as (x & Ex & E'). apply bind_inv in E'. destruct E' as (mctx & Em & _).
    unfold slice_to in Ex. apply bind_inv in Ex. destruct Ex as (u & _ & Ex). assert (x = firstn (mul_moduli_count (firstn (length moduli - l) (map nbits moduli))) ext) by congruence. subst x.
    rewrite firstn_map in Em. destruct (build_level_spec plain moduli ext l cp mctx H1 H2 H3 H4 H5 H6 H7 H8 Em) as (lv' & E' & Hg). congruence.
  Qed.
End Level.
