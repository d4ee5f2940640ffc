(** Building evaluation keys. *)
From Verif Require Import Outcome BasicSpec OutcomeLemmas ZqModel ZqProofs ZqPow NumTheory NttModel PolySpec PolyRing NttPure NttStages NttProofs NttPropLemmas CbdModel CbdSpec CbdProofs.
From Verif Require Import TranscodeModel PrimesModel RnsModel RnsSpec RnsProofs RqModel RqSpec RqCtx RqRows RqProofs RingRn RqOps RqIO RqPropLemmas ParamsModel BfvSpec ParamsProofs SlotsProofs BuildProofs ParamsPropLemmas PlainModel CipherModel OpsModel SchemeSpec CipherSpec PlainProofs PlainPropLemmas RnPoly CipherProofs EncryptProofs CipherPropLemmas KeysModel KeysSpec KeysProofs KeySwitchProofs KeyNoiseProofs KeyOpsProofs KeyPropLemmas EvalSpec RotProofs.
From Coq Require Import Znumtheory.
Set Default Proof Using "Type".

(** ** Maps and sets *)
Lemma lookup_insert {X} (l : list (Z * X)) x a y : lookup (insert l x a) y = if x =? y then Some a else lookup l y.
Proof.
  induction l as [|(z & b) l IH]; cbn [insert lookup]; [reflexivity|]. destruct (Z.eqb_spec z x) as [->|Hne]; cbn [lookup]; [destruct (Z.eqb_spec x y); reflexivity|].
  rewrite IH. destruct (Z.eqb_spec z y) as [->|], (Z.eqb_spec x y); congruence.
Qed.
Lemma has_lookup {X} (l : list (Z * X)) x : has l x = true <-> lookup l x <> None.
Proof. unfold has. destruct (lookup l x); split; congruence. Qed.
Lemma In_set_insert l x y : In y (set_insert l x) <-> y = x \/ In y l.
Proof.
  unfold set_insert. destruct (existsb (Z.eqb x) l) eqn:E.
  - apply existsb_exists in E. destruct E as (z & Hz & Ez). apply Z.eqb_eq in Ez. subst z. split; [auto|]. intros [->|H]; assumption.
  - rewrite in_app_iff. cbn [In]. split; [intros [H|[H|[]]]; auto|intros [H|H]; auto].
Qed.
Lemma lookup_map_seq (f : nat -> Z) a n x : lookup (map (fun i => (Z.of_nat i, f i)) (seq a n)) x = if (Z.of_nat a <=? x) && (x <? Z.of_nat (a + n)) then Some (f (Z.to_nat x)) else None.
Proof.
  revert a. induction n as [|n IH]; intros a; cbn [seq map lookup].
  - destruct (Z.leb_spec (Z.of_nat a) x), (Z.ltb_spec x (Z.of_nat (a + 0))); cbn [andb]; try reflexivity. lia.
  - destruct (Z.eqb_spec (Z.of_nat a) x) as [<-|Hne].
    + destruct (Z.leb_spec (Z.of_nat a) (Z.of_nat a)), (Z.ltb_spec (Z.of_nat a) (Z.of_nat (a + S n))); try lia. cbn [andb]. rewrite Nat2Z.id. reflexivity.
    + rewrite IH. destruct (Z.leb_spec (Z.of_nat (S a)) x), (Z.leb_spec (Z.of_nat a) x), (Z.ltb_spec x (Z.of_nat (S a + n))), (Z.ltb_spec x (Z.of_nat (a + S n))); try lia; reflexivity.
Qed.
Lemma build_map {X} (mk : Z -> M X) (Pg : Z -> X -> Prop) idx : (forall e, In e idx -> exists g, mk e = Val g /\ Pg e g) ->
  forall m, exists m', foldM (fun m e => g <- mk e ;; Val (insert m e g)) idx m = Val m' /\ (forall e, lookup m' e <> None <-> In e idx \/ lookup m e <> None) /\ (forall e g, lookup m' e = Some g -> Pg e g \/ lookup m e = Some g).
Proof.
  induction idx as [|e idx IH]; intros H m; cbn [foldM]; [exists m; split; [reflexivity|split; [intros e; cbn [In]; tauto|auto]]|].
  destruct (H e (or_introl eq_refl)) as (g & Eg & Pe). rewrite Eg. cbn [bind]. destruct (IH (fun e' He' => H e' (or_intror He')) (insert m e g)) as (m' & Em & H1 & H2). exists m'. split; [exact Em|]. split.
  - intros e'. rewrite H1, lookup_insert. cbn [In]. destruct (Z.eqb_spec e e') as [->|Hne]; [split; [auto|intros _; right; discriminate]|tauto].
  - intros e' g' Hl. apply H2 in Hl. destruct Hl as [Hl|Hl]; [auto|]. rewrite lookup_insert in Hl. destruct (Z.eqb_spec e e') as [->|Hne]; [|auto]. left. congruence.
Qed.
Lemma doublings_eq b : forall f j, (b <= f + j)%nat -> doublings f (2 ^ Z.of_nat j) (2 ^ Z.of_nat b) = map (fun k => 2 ^ Z.of_nat k) (seq j (b - j)).
Proof.
  induction f as [|f IH]; intros j Hf; cbn [doublings]; [replace (b - j)%nat with O by lia; reflexivity|].
  destruct (Z.ltb_spec (2 ^ Z.of_nat j) (2 ^ Z.of_nat b)) as [Hlt|Hge].
  - apply Z.pow_lt_mono_r_iff in Hlt; [|lia|lia]. replace (b - j)%nat with (S (b - S j)) by lia. cbn [seq map]. f_equal. rewrite <- Z.pow_succ_r by lia. rewrite <- Nat2Z.inj_succ. apply IH. lia.
  - apply Z.pow_le_mono_r_iff in Hge; [|lia|lia]. replace (b - j)%nat with O by lia. reflexivity.
Qed.

Section Par.
  Context (isp : Z -> bool) (cands : Z -> list Z) (Ho : oracles isp cands) (par : params) (G : good_params isp cands par).
  Notation N := (pa_degree par).
  Set Default Proof Using "All".
  Lemma deg_pow : exists K, (3 <= K <= 16)%nat /\ N = (2 ^ K)%nat /\ degree_of par = 2 ^ Z.of_nat K /\ Z.log2 (degree_of par) = Z.of_nat K /\ (N / 2 = 2 ^ (K - 1))%nat.
  Proof.
    destruct (gp_deg _ _ _ G) as (K & HK & EK & _). exists K. split; [exact HK|]. split; [exact EK|]. assert (E : degree_of par = 2 ^ Z.of_nat K) by (unfold degree_of; rewrite EK; apply nat_pow2_Z). split; [exact E|]. split; [rewrite E; apply Z.log2_pow2; lia|].
    rewrite EK. replace K with (S (K - 1)) at 1 by lia. rewrite Nat.pow_succ_r', Nat.mul_comm. apply Nat.div_mul. lia.
  Qed.
  Lemma N31 : Z.of_nat N <= 2 ^ 31.
  Proof. destruct deg_pow as (K & HK & _ & E & _). unfold degree_of in E. rewrite E. apply Z.pow_le_mono_r; lia. Qed.
  Lemma half_of : degree_of par / 2 = Z.of_nat (N / 2).
  Proof. unfold degree_of. rewrite Nat2Z.inj_div. reflexivity. Qed.
  Lemma rot_eq : rot_exponents par = Val (map (fun i => (Z.of_nat i, column_exponent N (Z.of_nat i))) (seq 1 (N / 2 - 1))).
  Proof.
    destruct deg_pow as (K & HK & EN & E & _ & Eh). unfold rot_exponents. assert (Hd : 8 <= degree_of par <= 2 ^ 16) by (rewrite E; split; [change 8 with (2 ^ 3)|]; apply Z.pow_le_mono_r; lia).
    destruct (modulus_new_ex (2 * degree_of par)) as (m & Em & Hm & Ep); [assert (W62 = 2 ^ 62) by reflexivity; lia|]. rewrite Em. cbn [no_err bind]. rewrite half_of, Nat2Z.id.
    rewrite <- (map_id (seq 1 (N / 2 - 1))) at 1. apply mapM_map. intros i Hi. apply in_seq in Hi. pose proof half_of as Hh. assert (degree_of par / 2 <= degree_of par) by (apply Z.div_le_upper_bound; lia).
    rewrite zq_pow_spec by (try exact Hm; rewrite Ep; lia). cbn [bind]. rewrite Ep. reflexivity.
  Qed.
  Lemma rot_table : exists rot, rot_exponents par = Val rot /\ rotation_table N rot.
  Proof.
    eexists. split; [apply rot_eq|]. intros i e. rewrite (lookup_map_seq (fun i => column_exponent N (Z.of_nat i)) 1). unfold is_step. destruct deg_pow as (K & HK & _ & _ & _ & Eh). assert (0 < N / 2)%nat by (rewrite Eh; apply pow2_pos_nat || (apply Nat.neq_0_lt_0, Nat.pow_nonzero; lia)).
    replace (1 + (N / 2 - 1))%nat with (N / 2)%nat by lia. destruct (Z.leb_spec (Z.of_nat 1) i), (Z.ltb_spec i (Z.of_nat (N / 2))); cbn [andb].
    - rewrite Z2Nat.id by lia. split; [intros E; injection E as <-; split; [lia|reflexivity]|intros (_ & ->); reflexivity].
    - split; [discriminate|intros (Hs & _); lia].
    - split; [discriminate|intros (Hs & _); lia].
    - split; [discriminate|intros (Hs & _); lia].
  Qed.
  Lemma steps_eq : exists K, (3 <= K <= 16)%nat /\ N = (2 ^ K)%nat /\ steps_of par = map (fun k => 2 ^ Z.of_nat k) (seq 0 (K - 1)).
  Proof.
    destruct deg_pow as (K & HK & EN & E & El & Eh). exists K. split; [exact HK|]. split; [exact EN|]. unfold steps_of. rewrite El, half_of, Eh, nat_pow2_Z. change 1 with (2 ^ Z.of_nat 0). rewrite doublings_eq by lia. rewrite Nat.sub_0_r. reflexivity.
  Qed.
  Lemma In_steps i : In i (steps_of par) <-> exists k, 0 <= k /\ 2 ^ k < Z.of_nat (N / 2) /\ i = 2 ^ k.
  Proof.
    destruct steps_eq as (K & HK & EN & ->). destruct deg_pow as (K' & HK' & EN' & _ & _ & Eh). assert (K' = K) as -> by (apply (Nat.pow_inj_r 2); lia). rewrite Eh, nat_pow2_Z. rewrite in_map_iff. split.
    - intros (k & <- & Hk). apply in_seq in Hk. exists (Z.of_nat k). split; [lia|]. split; [apply Z.pow_lt_mono_r; lia|reflexivity].
    - intros (k & Hk & Hlt & ->). apply Z.pow_lt_mono_r_iff in Hlt; [|lia|lia]. exists (Z.to_nat k). split; [rewrite Z2Nat.id by lia; reflexivity|]. apply in_seq. lia.
  Qed.
  Lemma steps_step i : In i (steps_of par) -> is_step N i.
  Proof. intros H. apply In_steps in H. destruct H as (k & Hk & Hlt & ->). split; [apply Z.pow_pos_nonneg; lia|exact Hlt]. Qed.
  Lemma half_pos : (0 < N / 2)%nat.
  Proof. destruct deg_pow as (K & HK & _ & _ & _ & Eh). rewrite Eh. apply Nat.neq_0_lt_0, Nat.pow_nonzero. lia. Qed.
  (** The exponents are odd and in range. *)
  Lemma column_odd i : 0 <= i -> 0 <= column_exponent N i < 2 * Z.of_nat N /\ Z.odd (column_exponent N i) = true.
  Proof.
    intros Hi. destruct deg_pow as (K & HK & _ & E & _). unfold degree_of in E. unfold column_exponent. assert (0 < 2 ^ Z.of_nat K) by (apply Z.pow_pos_nonneg; lia). split; [apply Z.mod_pos_bound; lia|].
    rewrite E. rewrite odd_mod by lia. apply (odd_pow3 K ltac:(lia) i Hi).
  Qed.
  Lemma row_odd : 0 <= row_exponent N < 2 * Z.of_nat N /\ Z.odd (row_exponent N) = true.
  Proof. pose proof half_pos. assert (0 < N)%nat by (destruct N; [cbn in *; lia|lia]). unfold row_exponent. split; [lia|]. rewrite Z.odd_sub, Z.odd_mul. reflexivity. Qed.
  Lemma expansion_div k K : N = (2 ^ K)%nat -> (k <= K)%nat -> Z.of_nat N / 2 ^ Z.of_nat k = 2 ^ Z.of_nat (K - k).
  Proof.
    intros EN Hk. rewrite EN, nat_pow2_Z. replace (Z.of_nat K) with (Z.of_nat k + Z.of_nat (K - k)) by lia. rewrite Z.pow_add_r by lia. rewrite Z.mul_comm. apply Z.div_mul. apply Z.pow_nonzero; lia.
  Qed.
  Lemma expansion_odd k : Z.of_nat k < Z.log2 (Z.of_nat N) -> 0 <= expansion_exponent N k < 2 * Z.of_nat N /\ Z.odd (expansion_exponent N k) = true.
  Proof.
    intros Hk. destruct deg_pow as (K & HK & EN & E & El & _). unfold degree_of in *. rewrite El in Hk. unfold expansion_exponent. rewrite (expansion_div k K EN) by lia. rewrite E.
    assert (0 < 2 ^ Z.of_nat (K - k)) by (apply Z.pow_pos_nonneg; lia). assert (2 ^ Z.of_nat (K - k) <= 2 ^ Z.of_nat K) by (apply Z.pow_le_mono_r; lia). assert (2 ^ 3 <= 2 ^ Z.of_nat K) by (apply Z.pow_le_mono_r; lia). split; [lia|].
    rewrite Z.odd_add, Z.odd_pow by lia. reflexivity.
  Qed.
  Lemma asked_odd b cols e l1 l2 sk : is_ekb par sk l1 l2 b cols -> asked N b cols e -> 0 <= e < 2 * Z.of_nat N /\ Z.odd e = true.
  Proof.
    intros (_ & _ & _ & _ & Hx & Hc & _) [(i & Hi & ->)|[(_ & ->)|[(_ & k & Hk & _ & ->)|(k & Hk & ->)]]].
    - rewrite Forall_forall in Hc. apply Hc in Hi. destruct Hi. apply column_odd. lia.
    - apply row_odd.
    - apply column_odd. apply Z.pow_nonneg. lia.
    - apply expansion_odd. lia.
  Qed.
  Lemma shr_exponent k : Z.of_nat k < Z.log2 (Z.of_nat N) -> bind (shrM (degree_of par) (Z.of_nat k)) (fun d => Val (d + 1)) = Val (expansion_exponent N k).
  Proof.
    intros Hk. destruct deg_pow as (K & HK & EN & E & El & _). unfold degree_of in *. rewrite El in Hk. unfold shrM. rewrite chk_val by lia. cbn [bind]. rewrite Z.shiftr_div_pow2 by lia. reflexivity.
  Qed.
  (** The exponents of the keys of [ek_build]. *)
  Definition build_idx (b : ek_builder) : M (list Z) :=
    let n := degree_of par in
    let idx := eb_columns b in
    let idx := if eb_row b then set_insert idx (2 * n - 1) else idx in
    idx <- (if eb_inner_sum b then
            foldM (fun l i => e <- ok_or (lookup (eb_rot b) i) EkMissing ;; Val (set_insert l e)) (steps_of par) (set_insert idx (2 * n - 1))
          else Val idx) ;;
    foldM (fun ix l => d <- shrM n (Z.of_nat l) ;; Val (set_insert ix (d + 1))) (seq 0 (eb_expansion b)) idx.
  Lemma fold_steps rot : rotation_table N rot -> forall steps, Forall (is_step N) steps -> forall l, exists l', foldM (fun l i => e <- ok_or (lookup rot i) EkMissing ;; Val (set_insert l e)) steps l = Val l' /\
    forall e, In e l' <-> In e l \/ exists i, In i steps /\ e = column_exponent N i.
  Proof.
    intros Hr steps. induction 1 as [|i steps Hi Hs IH]; intros l; cbn [foldM]; [exists l; split; [reflexivity|]; intros e; split; [auto|intros [H|(i & [] & _)]; exact H]|].
    rewrite (proj2 (Hr i (column_exponent N i)) (conj Hi eq_refl)). cbn [ok_or bind]. destruct (IH (set_insert l (column_exponent N i))) as (l' & El & HI). exists l'. split; [exact El|]. intros e. rewrite HI, In_set_insert. cbn [In]. split.
    - intros [[->|H]|(j & Hj & ->)]; [right; exists i; auto|auto|right; exists j; auto].
    - intros [H|(j & [->|Hj] & ->)]; [auto|auto|right; exists j; auto].
  Qed.
  Lemma fold_rounds : forall ks, Forall (fun k => Z.of_nat k < Z.log2 (Z.of_nat N)) ks -> forall l, exists l', foldM (fun ix k => d <- shrM (degree_of par) (Z.of_nat k) ;; Val (set_insert ix (d + 1))) ks l = Val l' /\
    forall e, In e l' <-> In e l \/ exists k, In k ks /\ e = expansion_exponent N k.
  Proof.
    induction 1 as [|k ks Hk Hs IH]; intros l; cbn [foldM]; [exists l; split; [reflexivity|]; intros e; split; [auto|intros [H|(i & [] & _)]; exact H]|].
    pose proof (shr_exponent k Hk) as E. destruct (shrM (degree_of par) (Z.of_nat k)) as [d| |]; try discriminate. cbn [bind] in *. injection E as ->. destruct (IH (set_insert l (expansion_exponent N k))) as (l' & El & HI). exists l'. split; [exact El|]. intros e. rewrite HI, In_set_insert. cbn [In]. split.
    - intros [[->|H]|(j & Hj & ->)]; [right; exists k; auto|auto|right; exists j; auto].
    - intros [H|(j & [->|Hj] & ->)]; [auto|auto|right; exists j; auto].
  Qed.
  Lemma build_idx_ok sk l1 l2 b cols : is_ekb par sk l1 l2 b cols -> exists idx, build_idx b = Val idx /\ forall e, In e idx <-> asked N b cols e.
  Proof.
    intros (E1 & E2 & E3 & Hr & Hx & Hc & Hcols). unfold build_idx. cbv zeta. change (2 * degree_of par - 1) with (row_exponent N).
    set (i1 := if eb_row b then set_insert (eb_columns b) (row_exponent N) else eb_columns b).
    assert (H1 : forall e, In e i1 <-> In e (eb_columns b) \/ (eb_row b = true /\ e = row_exponent N)) by (intros e; unfold i1; destruct (eb_row b); rewrite ?In_set_insert; intuition congruence).
    assert (exists i2, (if eb_inner_sum b then foldM (fun l i => e <- ok_or (lookup (eb_rot b) i) EkMissing ;; Val (set_insert l e)) (steps_of par) (set_insert i1 (row_exponent N)) else Val i1) = Val i2 /\
      forall e, In e i2 <-> In e i1 \/ (eb_inner_sum b = true /\ (e = row_exponent N \/ exists k, 0 <= k /\ 2 ^ k < Z.of_nat (N / 2) /\ e = column_exponent N (2 ^ k)))) as (i2 & E & H2).
    { destruct (eb_inner_sum b); [|exists i1; split; [reflexivity|intros e; intuition discriminate]].
      destruct (fold_steps (eb_rot b) Hr (steps_of par) ltac:(apply Forall_forall; exact steps_step) (set_insert i1 (row_exponent N))) as (i2 & E & H2). exists i2. split; [exact E|]. intros e. rewrite H2, In_set_insert. split.
      - intros [[H|H]|(i & Hi & ->)]; [auto|auto|]. apply In_steps in Hi. destruct Hi as (k & Hk & Hlt & ->). right. split; [reflexivity|]. right. exists k. auto.
      - intros [H|(_ & [H|(k & Hk & Hlt & ->)])]; [auto|auto|]. right. exists (2 ^ k). split; [|reflexivity]. apply In_steps. exists k. auto. }
    rewrite E. cbn [bind]. destruct (fold_rounds (seq 0 (eb_expansion b))) with (l := i2) as (i3 & E' & H3); [apply Forall_forall; intros k Hk; apply in_seq in Hk; lia|]. exists i3. split; [exact E'|]. intros e. rewrite H3, H2, H1, Hcols. unfold asked. split.
    - intros [[[H|(H & ->)]|(H & [->|H'])]|(k & Hk & ->)]; [left; exact H|right; left; auto|right; left; auto|right; right; left; auto|]. apply in_seq in Hk. do 3 right. exists k. split; [lia|reflexivity].
    - intros [H|[([H|H] & ->)|[(H & H')|(k & Hk & ->)]]]; [left; left; left; exact H|left; left; right; auto|left; right; auto|left; right; auto|]. right. exists k. split; [apply in_seq; lia|reflexivity].
  Qed.
  (** Builders *)
  Lemma ekb_new_ok sk l1 l2 rot : sk_par sk = par -> rotation_table N rot -> is_ekb par sk l1 l2 (mkEkb sk l1 l2 false false 0 [] rot) [].
  Proof.
    intros Es Hr. split; [reflexivity|]. split; [reflexivity|]. split; [reflexivity|]. split; [exact Hr|]. split; [cbn [eb_expansion]; apply Z.log2_nonneg|]. split; [constructor|]. intros e. cbn [eb_columns In]. split; [intros []|intros (i & [] & _)].
  Qed.
End Par.
Set Default Proof Using "Type".
