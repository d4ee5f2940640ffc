(** Proofs about [build]: what it returns, and when. *)
From Verif Require Import Outcome BasicSpec OutcomeLemmas ZqModel ZqProofs ZqPow NumTheory NttModel PolySpec PolyRing NttPure NttStages NttProofs.
From Verif Require Import PrimesModel PrimesProofs RnsModel RnsSpec RnsProofs RnsScalerProofs RqModel RqSpec RqCtx RqRows RqProofs RingRn RqOps RqIO ParamsModel BfvSpec SlotsProofs ParamsProofs.
From Coq Require Import Znumtheory.

Record good_params (isp : Z -> bool) (cands : Z -> list Z) (par : params) : Prop := {
  gp_deg : exists K, (3 <= K <= 16)%nat /\ pa_degree par = (2 ^ K)%nat /\ pa_index par = map (slot_pos K) (seq 0 (2 ^ K));
  gp_ne : pa_moduli par <> [];
  gp_nodup : NoDup (pa_moduli par);
  gp_friendly : Forall (ntt_friendly (pa_degree par)) (pa_moduli par);
  gp_t : 2 <= pa_t par < prod_list (pa_moduli par);
  gp_coprime : Forall (fun q => Z.gcd (pa_t par) q = 1) (pa_moduli par);
  gp_var : 1 <= pa_variance par <= 32;
  gp_sizes : pa_sizes par = map nbits (pa_moduli par);
  gp_small : match pa_small par with
             | Some m => modulus_new (pa_t par) = Val m /\ ntt_new isp (cands (pa_t par)) m (pa_degree par) = Val (pa_ntt par)
             | None => W64 <= pa_t par /\ pa_ntt par = None
             end;
  gp_levels : exists plain,
    context_new isp cands (firstn (plaintext_moduli_count (pa_moduli par) (pa_sizes par) (pa_t par)) (pa_moduli par)) (pa_degree par) = Val plain /\
    length (pa_levels par) = length (pa_moduli par) /\
    forall l lv, nth_error (pa_levels par) l = Some lv -> good_level isp cands (pa_degree par) (pa_t par) plain (pa_moduli par) l lv
}.

Lemma config_val b : is_builder b -> validate_configuration b = Val tt <->
  (exists K : nat, (3 <= K <= 16)%nat /\ b_degree b = 2 ^ Z.of_nat K) /\ 1 <= b_variance b <= 32 /\ (b_moduli b = [] <-> b_sizes b <> []).
Proof.
  intros (Hd & _ & Hv & _). unfold validate_configuration.
  assert (G : negb ((8 <=? b_degree b) && (b_degree b <=? 65536)) || negb (is_power_of_two (b_degree b)) = false <-> exists K : nat, (3 <= K <= 16)%nat /\ b_degree b = 2 ^ Z.of_nat K).
  { rewrite orb_false_iff, !negb_false_iff, andb_true_iff, !Z.leb_le. unfold is_power_of_two. rewrite andb_true_iff, Z.ltb_lt, Z.eqb_eq. split.
    - intros (H1 & H2 & H3). exists (Z.to_nat (Z.log2 (b_degree b))). pose proof (Z.log2_nonneg (b_degree b)). rewrite Z2Nat.id by lia. split; [|exact H3].
      pose proof (Z.log2_le_mono 8 (b_degree b) ltac:(lia)) as L1. pose proof (Z.log2_le_mono (b_degree b) 65536 ltac:(lia)) as L2. change (Z.log2 8) with 3 in L1. change (Z.log2 65536) with 16 in L2. lia.
    - intros (K & HK & ->). rewrite Z.log2_pow2 by lia. assert (2 ^ 3 <= 2 ^ Z.of_nat K <= 2 ^ 16) by (split; apply Z.pow_le_mono_r; lia). change (2 ^ 3) with 8 in *. change (2 ^ 16) with 65536 in *. split; [lia|]. split; [lia|reflexivity]. }
  destruct (negb ((8 <=? b_degree b) && (b_degree b <=? 65536)) || negb (is_power_of_two (b_degree b))) eqn:E1.
  { split; [discriminate|]. intros (H & _). apply G in H. discriminate. }
  destruct (negb ((1 <=? b_variance b) && (b_variance b <=? 32))) eqn:E2.
  { split; [discriminate|]. intros (_ & H & _). apply negb_true_iff, andb_false_iff in E2. rewrite !Z.leb_gt in E2. lia. }
  apply negb_false_iff, andb_true_iff in E2. rewrite !Z.leb_le in E2. pose proof (proj1 G eq_refl) as G'.
  destruct (b_moduli b), (b_sizes b); split; intros H; try discriminate; try reflexivity.
  - destruct H as (_ & _ & H). destruct (proj1 H eq_refl). reflexivity.
  - split; [exact G'|]. split; [lia|]. split; congruence.
  - split; [exact G'|]. split; [lia|]. split; congruence.
  - destruct H as (_ & _ & H). assert (z :: l = []) by (apply H; discriminate). discriminate.
Qed.
Lemma config_err b e : is_builder b -> validate_configuration b = Err e -> builder_rejected b e.
Proof.
  intros Hb E. pose proof (config_val b Hb) as Hv. unfold validate_configuration in E. pose proof Hb as (Hd & _ & Hva & _).
  destruct (negb ((8 <=? b_degree b) && (b_degree b <=? 65536)) || negb (is_power_of_two (b_degree b))) eqn:E1.
  { assert (e = ParInvalidDegree (b_degree b)) by congruence. subst e. cbn [builder_rejected]. split; [reflexivity|]. intros (k & Hk & Ek). rewrite Ek in E1. apply orb_true_iff in E1. rewrite !negb_true_iff in E1.
    unfold is_power_of_two in E1. rewrite Z.log2_pow2, Z.eqb_refl in E1 by lia. assert (2 ^ 3 <= 2 ^ k <= 2 ^ 16) by (split; apply Z.pow_le_mono_r; lia). change (2 ^ 3) with 8 in *. change (2 ^ 16) with 65536 in *.
    destruct (Z.leb_spec 8 (2 ^ k)); destruct (Z.leb_spec (2 ^ k) 65536); destruct (Z.ltb_spec 0 (2 ^ k)); cbn in E1; try lia; destruct E1; discriminate. }
  destruct (negb ((1 <=? b_variance b) && (b_variance b <=? 32))) eqn:E2.
  { assert (e = ParInvalidVariance (b_variance b)) by congruence. subst e. cbn [builder_rejected]. split; [reflexivity|]. intros H. apply negb_true_iff, andb_false_iff in E2. rewrite !Z.leb_gt in E2. lia. }
  destruct (b_moduli b) eqn:Em, (b_sizes b) eqn:Es; try discriminate.
  - assert (e = ParMissing) by congruence. subst e. cbn. auto.
  - assert (e = ParConflicting) by congruence. subst e. cbn. rewrite Em, Es. split; discriminate.
Qed.
Lemma config_no_panic b : validate_configuration b <> Panic.
Proof. unfold validate_configuration. destruct (_ || _); [discriminate|]. destruct (negb _); [discriminate|]. destruct (b_moduli b), (b_sizes b); discriminate. Qed.

Lemma plaintext_small_val t o : 0 <= t -> plaintext_small t = Val o -> match o with Some m => modulus_new t = Val m | None => W64 <= t end.
Proof.
  intros Ht E. unfold plaintext_small in E. destruct (Z.ltb_spec t W64).
  - apply bind_inv in E. destruct E as (m & Em & E). apply map_err_val in Em. assert (o = Some m) by congruence. subst o. exact Em.
  - assert (o = None) by congruence. subst o. assumption.
Qed.
Lemma plaintext_small_total t : 0 <= t -> (exists o, plaintext_small t = Val o) \/ (plaintext_small t = Err ParInvalidPlaintextModulus /\ (t < 2 \/ 2 ^ 62 <= t < 2 ^ 64)).
Proof.
  intros Ht. unfold plaintext_small. destruct (Z.ltb_spec t W64); [|eauto]. change W64 with (2 ^ 64) in *. destruct (Z_lt_dec t 2) as [H2|H2]; [|destruct (Z_lt_dec t W62) as [H6|H6]].
  - right. rewrite modulus_new_err by lia. split; [reflexivity|lia].
  - left. destruct (modulus_new_ex t ltac:(lia)) as (m & -> & _). cbn. eauto.
  - right. rewrite modulus_new_err by lia. split; [reflexivity|]. change W62 with (2 ^ 62) in *. lia.
Qed.

(** The moduli used by [build]. *)
Definition chosen_moduli (isp : Z -> bool) (b : builder) : M (list Z) :=
  match b_sizes b with [] => Val (b_moduli b) | sizes => generate_moduli isp sizes (b_degree b) end.

Section Build.
  Variables (isp : Z -> bool) (cands : Z -> list Z) (Ho : oracles isp cands).
  Let Hisp := proj1 Ho.
  Let Hcands := proj2 Ho.

  Lemma plain_count_le sizes : forall tb acc, (plain_count sizes tb acc <= length sizes)%nat.
  Proof. induction sizes as [|s l IH]; intros tb acc; cbn [plain_count length]; [lia|]. destruct (_ <=? _); [lia|]. specialize (IH tb (acc + s)). lia. Qed.
  Lemma plaintext_count_bounds moduli sizes t : moduli <> [] -> (1 <= plaintext_moduli_count moduli sizes t <= length moduli)%nat.
  Proof. intros H. unfold plaintext_moduli_count. destruct moduli; [congruence|]. cbn [length]. lia. Qed.
  Lemma firstn_ne {A} k (l : list A) : l <> [] -> (1 <= k)%nat -> firstn k l <> [].
  Proof. destruct l, k; cbn; try congruence; try lia; discriminate. Qed.

  Lemma chosen_facts b : is_builder b -> (exists K : nat, (3 <= K <= 16)%nat /\ b_degree b = 2 ^ Z.of_nat K) ->
    (exists ms, chosen_moduli isp b = Val ms /\ Forall is_u64 ms /\ (b_sizes b = [] -> ms = b_moduli b) /\
       (b_sizes b <> [] -> Forall2 (fun s q => 10 <= s <= 62 /\ 2 ^ (s - 1) <= q < 2 ^ s) (b_sizes b) ms)) \/
    (exists e, chosen_moduli isp b = Err e /\ builder_rejected b e).
  Proof.
    intros (Hd & _ & _ & Hm & Hs) (K & HK & EK). assert (Hn : 8 <= b_degree b <= 65536) by (rewrite EK; change 8 with (2 ^ 3); change 65536 with (2 ^ 16); split; apply Z.pow_le_mono_r; lia).
    unfold chosen_moduli. destruct (b_sizes b) as [|s0 sizes] eqn:Es.
    - left. exists (b_moduli b). split; [reflexivity|]. split; [exact Hm|]. split; [reflexivity|]. congruence.
    - destruct (generate_from_spec isp Hisp (b_degree b) Hn (s0 :: sizes) Hs 0 [] ltac:(constructor) ltac:(constructor)) as [(ms & E & HF & _)|(e & E & He)].
      + left. exists ms. split; [exact E|]. split; [|split; [discriminate|]].
        * clear - HF. induction HF as [|s q l l' (P & _ & Hs & R) HF IH]; constructor; [|exact IH]. apply prime_ge_2 in P. assert (2 ^ s <= 2 ^ 62) by (apply Z.pow_le_mono_r; lia). assert (W64 = 4 * 2 ^ 62) by reflexivity. unfold is_u64. lia.
        * intros _. clear - HF. induction HF as [|s q l l' (P & _ & Hs & R) HF IH]; constructor; [split; [exact Hs|exact R]|exact IH].
      + right. exists e. split; [exact E|]. destruct He as [(j & Hj & Hr & ->)|(s & Hin & Hr & ->)].
        * cbn [builder_rejected]. rewrite Es. split; [apply nth_In, Hj|]. rewrite Z.add_0_l, Nat2Z.id. split; [reflexivity|exact Hr].
        * cbn [builder_rejected]. rewrite Es. split; [reflexivity|]. left. split; [exact Hin|]. intros l Hnd HF.
          apply (generate_from_err isp Hisp (b_degree b) Hn s (ParNotEnoughPrimes s (b_degree b)) Hr (s0 :: sizes) 0 [] []) with (l := l); [constructor|exact E|reflexivity|exact Hnd|].
          eapply Forall_impl; [|exact HF]. cbv beta. intros q ((Pq & _ & Mq) & Rq & _). auto.
  Qed.

  Lemma Forall2_nth_error {A B} (P : A -> B -> Prop) l l' i b : Forall2 P l l' -> nth_error l' i = Some b -> exists a, nth_error l i = Some a /\ P a b.
  Proof. intros H. revert i. induction H as [|x y l l' Hxy H IH]; intros [|i] E; cbn in *; try discriminate; [exists x; split; [reflexivity|congruence]|apply IH, E]. Qed.
  Lemma nth_error_seq n i a : nth_error (seq 0 n) i = Some a -> a = i /\ (i < n)%nat.
  Proof.
    intros E. assert (i < n)%nat by (rewrite <- (seq_length n 0); apply nth_error_Some; congruence). split; [|assumption].
    rewrite (nth_error_nth' _ O) in E by (rewrite seq_length; assumption). rewrite seq_nth in E by assumption. cbn in E. congruence.
  Qed.

  Theorem build_good id b par : is_builder b -> build isp cands id b = Val par ->
    good_params isp cands par /\ pa_id par = id /\ Z.of_nat (pa_degree par) = b_degree b /\ pa_variance par = b_variance b /\ pa_t par = b_plaintext b /\
    (b_sizes b = [] -> pa_moduli par = b_moduli b) /\
    (b_sizes b <> [] -> Forall2 (fun s q => 10 <= s <= 62 /\ 2 ^ (s - 1) <= q < 2 ^ s) (b_sizes b) (pa_moduli par)).
  Proof.
    intros Hb E. unfold build in E. apply bind_inv in E. destruct E as ([] & Ec & E). apply (config_val b Hb) in Ec. destruct Ec as (HK & Hvar & Hms).
    apply bind_inv in E. destruct E as (small & Esm & E). apply plaintext_small_val in Esm; [|apply Hb].
    change (match b_sizes b with [] => Val (b_moduli b) | sizes => generate_moduli isp sizes (b_degree b) end) with (chosen_moduli isp b) in E.
    apply bind_inv in E. destruct E as (moduli & Emo & E).
    destruct (chosen_facts b Hb HK) as [(ms & Emo' & Hu & Hexp & Hgen)|(e & Emo' & _)]; [|congruence]. assert (ms = moduli) by congruence. subst ms. clear Emo'.
    apply bind_inv in E. destruct E as ([] & Eval & E). apply (validate_val isp Hisp _ _ moduli Hu) in Eval. destruct Eval as (Hnd & HF & Ht & Hco).
    apply bind_inv in E. destruct E as (plain & Epl & E). apply bind_inv in E. destruct E as (ntt & Entt & E). apply bind_inv in E. destruct E as (cps & Ecps & E).
    apply bind_inv in E. destruct E as (ext & Eext & E). apply bind_inv in E. destruct E as (levels & Elev & E). apply bind_inv in E. destruct E as (index & Eidx & E).
    assert (Hpar : par = mkParams id (Z.to_nat (b_degree b)) moduli (map nbits moduli) (b_variance b) levels ntt (b_plaintext b) small index) by congruence. clear E.
    destruct HK as (K & HK & EK). assert (Ed : Z.to_nat (b_degree b) = (2 ^ K)%nat) by (rewrite EK, <- nat_pow2_Z, Nat2Z.id; reflexivity).
    assert (Hn : 8 <= b_degree b <= 65536) by (rewrite EK; change 8 with (2 ^ 3); change 65536 with (2 ^ 16); split; apply Z.pow_le_mono_r; lia).
    set (N := Z.to_nat (b_degree b)) in *. assert (EN : Z.of_nat N = b_degree b) by (unfold N; apply Z2Nat.id; lia).
    assert (HFr : Forall (ntt_friendly N) moduli).
    { eapply Forall_impl; [|exact HF]. cbv beta. intros q (P & Mq & L). split; [exact P|]. split; [exact L|]. rewrite EN. exact Mq. }
    assert (Ht2 : 2 <= b_plaintext b).
    { destruct small as [m|]; [apply modulus_new_inv in Esm; lia|lia]. }
    assert (Hne : moduli <> []) by (intros ->; cbn in Ht; lia).
    destruct (context_new_good isp Hisp cands Hcands _ _ _ Epl) as (Hgp & Emp & Edp). pose proof (good_ok _ Hgp) as Hcp.
    assert (Hcps : Forall2 (fun i cp => cipher_plain isp cands N (b_plaintext b) plain (firstn (length moduli - i) moduli) = Val cp) (seq 0 (length moduli)) (rev cps)).
    { apply mapM_val_inv, Forall2_rev in Ecps. rewrite rev_involutive in Ecps. exact Ecps. }
    assert (Hlc : length (rev cps) = length moduli) by (rewrite <- (Forall2_length_eq _ _ _ Hcps), seq_length; reflexivity).
    destruct (extended_spec isp Hisp (b_degree b) Hn moduli) as [(ext' & Eext' & Hle & Hnde & Hext)|Eext']; [|congruence]. assert (ext' = ext) by congruence. subst ext'.
    assert (Hlev : Forall2 (fun lc lv => build_level isp cands N (b_plaintext b) moduli (map nbits moduli) ext lc = Val lv) (enumerate (rev cps)) levels) by (apply mapM_val_inv, Elev).
    assert (Hll : length levels = length moduli) by (rewrite <- (Forall2_length_eq _ _ _ Hlev), enumerate_length; exact Hlc).
    split; [|subst par; cbn; repeat split; try assumption].
    split; subst par; cbn [pa_degree pa_moduli pa_t pa_variance pa_sizes pa_small pa_ntt pa_levels pa_index]; try assumption; try reflexivity; try lia.
    - exists K. split; [exact HK|]. split; [exact Ed|]. rewrite EK in Eidx. rewrite (index_map_spec K) in Eidx by lia. congruence.
    - destruct small as [m|]; [split; assumption|]. split; [exact Esm|congruence].
    - exists plain. split; [exact Epl|]. split; [exact Hll|]. intros l lv El.
      destruct (Forall2_nth_error _ _ _ _ _ Hlev El) as ((l' & cp) & Elc & Ebl).
      assert (Hl : (l < length moduli)%nat) by (rewrite <- Hll; apply nth_error_Some; congruence).
      assert (Elc' : l' = l /\ nth_error (rev cps) l = Some cp).
      { rewrite (nth_error_nth' _ (O, cp)) in Elc by (rewrite enumerate_length; lia). rewrite enumerate_nth in Elc by lia. assert (E1 : (l, nth l (rev cps) cp) = (l', cp)) by congruence.
        split; [congruence|]. rewrite (nth_error_nth' _ cp) by lia. congruence. }
      destruct Elc' as (-> & Ecp). destruct (Forall2_nth_error _ _ _ _ _ Hcps Ecp) as (i & Ei & Ecpi). apply nth_error_seq in Ei. destruct Ei as (-> & _).
      apply (build_level_inv isp Hisp cands Hcands N ltac:(lia) (b_plaintext b) Ht2 plain moduli ext l cp lv); try assumption.
      + rewrite EN. exact Hext.
      + apply (cipher_plain_inv isp Hisp cands Hcands N ltac:(lia) (b_plaintext b) Ht2 plain); try assumption; [apply NoDup_firstn, Hnd|apply Forall_firstn, Hco|apply Forall_firstn, HFr].
  Qed.

  Hypothesis Hdraws : complete_draws cands.
  Lemma draws_nonresidue p : prime p -> p < W62 -> 2 < p -> has_nonresidue p (cands p).
  Proof.
    intros P L H2. destruct (Hdraws p P ltac:(change W62 with (2 ^ 62) in L; lia)) as (a & Ha & Ea). exists a. split; [exact Ha|]. unfold cong. rewrite Ea.
    replace (-1) with (p - 1 + (-1) * p) by ring. rewrite Z_mod_plus_full, Z.mod_small by lia. reflexivity.
  Qed.
  Lemma context_new_total K ms : (3 <= K < 63)%nat -> ms <> [] -> NoDup ms -> Forall (ntt_friendly (2 ^ K)) ms -> exists c, context_new isp cands ms (2 ^ K) = Val c.
  Proof.
    intros HK Hne Hnd HF. apply (context_new_accept isp Hisp cands Hcands).
    - intros p _. apply draws_nonresidue.
    - split; [exists K; split; [lia|reflexivity]|]. auto.
  Qed.

  Theorem build_total id b : is_builder b -> (exists par, build isp cands id b = Val par) \/ (exists e, build isp cands id b = Err e /\ builder_rejected b e).
  Proof.
    intros Hb. unfold build.
    destruct (validate_configuration b) as [[]|e|] eqn:Ec; [|right; exists e; split; [reflexivity|apply config_err; assumption]|destruct (config_no_panic b Ec)]. cbn [bind].
    apply (config_val b Hb) in Ec. destruct Ec as (HK & Hvar & Hms).
    destruct (plaintext_small_total (b_plaintext b) (proj1 (proj2 Hb))) as [(small & Esm)|(Esm & Hbad)]; rewrite Esm; cbn [bind]; [|right; eexists; split; [reflexivity|exact Hbad]].
    apply plaintext_small_val in Esm; [|apply Hb].
    change (match b_sizes b with [] => Val (b_moduli b) | sizes => generate_moduli isp sizes (b_degree b) end) with (chosen_moduli isp b).
    destruct (chosen_facts b Hb HK) as [(moduli & -> & Hu & Hexp & Hgen)|(e & -> & He)]; cbn [bind]; [|right; exists e; auto].
    destruct (validate_moduli isp (b_degree b) (b_plaintext b) moduli) as [[]|e|] eqn:Eval; cbn [bind].
    3:{ destruct (validate_no_panic isp (b_degree b) (b_plaintext b) moduli Hu Eval). }
    2:{ right. exists e. split; [reflexivity|]. apply (validate_err isp Hisp _ _ moduli Hu) in Eval. change (moduli_rejected (b_degree b) (b_plaintext b) moduli e) in Eval. destruct e; cbn [moduli_rejected] in Eval; try (destruct Eval; fail); exists moduli; (split; [exact Hexp|exact Eval]). }
    apply (validate_val isp Hisp _ _ moduli Hu) in Eval. destruct Eval as (Hnd & HF & Ht & Hco).
    destruct HK as (K & HK & EK). assert (Ed : Z.to_nat (b_degree b) = (2 ^ K)%nat) by (rewrite EK, <- nat_pow2_Z, Nat2Z.id; reflexivity).
    assert (Hn : 8 <= b_degree b <= 65536) by (rewrite EK; change 8 with (2 ^ 3); change 65536 with (2 ^ 16); split; apply Z.pow_le_mono_r; lia).
    rewrite Ed. assert (EN : Z.of_nat (2 ^ K) = b_degree b) by (rewrite nat_pow2_Z; lia).
    assert (HFr : Forall (ntt_friendly (2 ^ K)) moduli).
    { eapply Forall_impl; [|exact HF]. cbv beta. intros q (P & Mq & L). split; [exact P|]. split; [exact L|]. rewrite EN. exact Mq. }
    assert (Ht2 : 2 <= b_plaintext b).
    { destruct small as [m|]; [apply modulus_new_inv in Esm; lia|lia]. }
    assert (Hne : moduli <> []) by (intros ->; cbn in Ht; lia).
    pose proof (plaintext_count_bounds moduli (map nbits moduli) (b_plaintext b) Hne) as Hpc.
    destruct (context_new_total K (firstn (plaintext_moduli_count moduli (map nbits moduli) (b_plaintext b)) moduli)) as (plain & Epl);
      [lia|apply firstn_ne; [exact Hne|lia]|apply NoDup_firstn, Hnd|apply Forall_firstn, HFr|]. rewrite Epl. cbn [bind].
    destruct (context_new_good isp Hisp cands Hcands _ _ _ Epl) as (Hgp & Emp & Edp). pose proof (good_ok _ Hgp) as Hcp.
    assert (Hntt : exists o, match small with Some m => ntt_new isp (cands (b_plaintext b)) m (2 ^ K) | None => Val None end = Val o).
    { destruct small as [m|]; [|eauto]. destruct (modulus_new_valid _ _ Esm) as (Hm & Emt). pose proof (modulus_new_inv _ _ Esm) as Htr.
      destruct (supports_pow2 isp K (b_plaintext b) Hisp ltac:(lia) Htr) as (Sy & Sn).
      assert (Hf : ntt_friendly (2 ^ K) (b_plaintext b) \/ ~ ntt_friendly (2 ^ K) (b_plaintext b)).
      { destruct (prime_dec (b_plaintext b)) as [P|P]; [|right; intros (P' & _); auto]. destruct (Z.eq_dec (b_plaintext b mod (2 * Z.of_nat (2 ^ K))) 1) as [M|M]; [|right; intros (_ & _ & M'); auto]. left. split; [exact P|]. split; [lia|exact M]. }
      destruct Hf as [Hf|Hf].
      - destruct (ntt_new_total isp Hisp m Hm (cands (b_plaintext b)) (2 ^ K)) as (op & Eop); [rewrite <- Emt; apply Hcands|rewrite <- Emt; apply Sy, Hf| |exists (Some op); exact Eop].
        rewrite <- Emt. apply draws_nonresidue; [apply Hf|lia|]. destruct Hf as (_ & _ & M). destruct (Z.eq_dec (b_plaintext b) 2) as [E2|]; [|lia].
        rewrite E2, Z.mod_small in M by lia. lia.
      - exists None. apply (ntt_new_none isp m). rewrite <- Emt. apply Sn, Hf. }
    destruct Hntt as (ntt & ->). cbn [bind].
    destruct (mapM_exists (fun i => cipher_plain isp cands (2 ^ K) (b_plaintext b) plain (firstn (length moduli - i) moduli))
       (fun i cp => good_cp isp cands (2 ^ K) (b_plaintext b) plain (firstn (length moduli - i) moduli) cp) (rev (seq 0 (length moduli)))) as (cps & Ecps & Hcps).
    { intros i Hi. apply in_rev, in_seq in Hi. destruct (context_new_total K (firstn (length moduli - i) moduli)) as (cc & Ecc); [lia|apply firstn_ne; [exact Hne|lia]|apply NoDup_firstn, Hnd|apply Forall_firstn, HFr|].
      destruct (cipher_plain_spec isp Hisp cands Hcands (2 ^ K) ltac:(lia) (b_plaintext b) Ht2 plain (firstn (length moduli - i) moduli) cc) as (cp & Ecp & Hg & _); try assumption; [apply NoDup_firstn, Hnd|apply Forall_firstn, Hco|apply Forall_firstn, HFr|].
      exists cp. auto. }
    rewrite Ecps. cbn [bind]. apply Forall2_rev in Hcps. rewrite rev_involutive in Hcps.
    assert (Hlc : length (rev cps) = length moduli) by (rewrite <- (Forall2_length_eq _ _ _ Hcps), seq_length; reflexivity).
    destruct (extended_spec isp Hisp (b_degree b) Hn moduli) as [(ext & -> & Hle & Hnde & Hext)|Eerr]; cbn [bind].
    2:{ right. rewrite Eerr. eexists. split; [reflexivity|]. cbn [builder_rejected]. split; [reflexivity|]. right. split; [reflexivity|]. exists moduli. split; [exact Hexp|].
        intros l Hndl HFl. apply Nat.lt_succ_r. apply (extended_err isp Hisp (b_degree b) Hn moduli _ Eerr l Hndl). eapply Forall_impl; [|exact HFl]. cbv beta. intros q ((Pq & _ & Mq) & Rq & Nq). change (2 ^ (62 - 1)) with (2 ^ 61) in Rq. auto. }
    destruct (proj2 (mapM_unit (build_level isp cands (2 ^ K) (b_plaintext b) moduli (map nbits moduli) ext) (enumerate (rev cps)))) as (levels & ->).
    { intros (l & cp) Hin. assert (Hl : (l < length moduli)%nat /\ nth_error (rev cps) l = Some cp).
      { unfold enumerate in Hin. apply (combine_seq_in (rev cps) cp) in Hin. destruct Hin as (H1 & H2). split; [lia|]. rewrite (nth_error_nth' _ cp) by exact H1. congruence. }
      destruct Hl as (Hl & Ecp). destruct (Forall2_nth_error _ _ _ _ _ Hcps Ecp) as (i & Ei & Hg). apply nth_error_seq in Ei. destruct Ei as (-> & _).
      assert (Hms2 : Forall (fun q => 2 <= q < W62) (firstn (length moduli - l) moduli)).
      { apply Forall_firstn. eapply Forall_impl; [|exact HFr]. intros q (P & L & _). apply prime_ge_2 in P. lia. }
      destruct (context_new_total K (firstn (length moduli - l) moduli ++ firstn (mul_moduli_count (map nbits (firstn (length moduli - l) moduli))) ext)) as (mctx & Em).
      - lia.
      - intros E0. apply app_eq_nil in E0. destruct E0 as (E0 & _). revert E0. apply firstn_ne; [exact Hne|lia].
      - apply NoDup_app_disjoint; [apply NoDup_firstn, Hnd|apply NoDup_firstn, Hnde|]. intros x Hx Hx'. apply firstn_incl in Hx. apply firstn_incl in Hx'. rewrite Forall_forall in Hext. destruct (Hext x Hx') as (_ & _ & _ & H). auto.
      - apply Forall_app. split; [apply Forall_firstn, HFr|]. apply Forall_firstn. eapply Forall_impl; [|exact Hext]. cbv beta. intros p (P & R & Mp & _). split; [exact P|]. assert (W62 = 2 ^ 62) by reflexivity. split; [lia|]. rewrite EN. exact Mp.
      - destruct (build_level_spec isp Hisp cands Hcands (2 ^ K) ltac:(lia) (b_plaintext b) Ht2 plain moduli ext l cp mctx) as (lv & -> & _); try assumption; [rewrite EN; exact Hext|]. eauto. }
    cbn [bind]. rewrite EK, (index_map_spec K) by lia. cbn [bind]. eauto.
  Qed.
End Build.
