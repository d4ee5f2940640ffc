(** Closing lemmas for the properties about BFV parameters. *)
From Verif Require Import Outcome BasicSpec OutcomeLemmas ZqModel ZqProofs ZqPow NumTheory NttModel PolySpec PolyRing NttPure NttStages NttProofs.
From Verif Require Import PrimesModel PrimesProofs RnsModel RnsSpec RnsProofs RqModel RqSpec RqCtx RqRows RqProofs RingRn RqOps RqIO RqPropLemmas NttPropLemmas ParamsModel BfvSpec SlotsProofs ParamsProofs BuildProofs ExampleParams.
From Coq Require Import Znumtheory Permutation.

Lemma params_good isp cands par : oracles isp cands -> is_params isp cands par -> good_params isp cands par.
Proof. intros Ho (id & b & Hb & E). exact (proj1 (build_good isp cands Ho id b par Hb E)). Qed.

Lemma built_all : forall isp cands, oracles isp cands -> forall id b par, is_builder b -> build isp cands id b = Val par ->
  (exists k, 3 <= k <= 16 /\ b_degree b = 2 ^ k) /\ Z.of_nat (pa_degree par) = b_degree b /\
  (1 <= b_variance b <= 32 /\ pa_variance par = b_variance b) /\ (2 <= b_plaintext b /\ pa_t par = b_plaintext b) /\
  pa_moduli par <> [] /\ moduli_accepted (b_degree b) (b_plaintext b) (pa_moduli par) /\
  (b_sizes b = [] -> pa_moduli par = b_moduli b) /\
  (b_sizes b <> [] -> Forall2 (fun s q => 10 <= s <= 62 /\ 2 ^ (s - 1) <= q < 2 ^ s) (b_sizes b) (pa_moduli par)) /\
  max_level par = (length (pa_moduli par) - 1)%nat /\
  (forall l, (l <= max_level par)%nat -> exists c, par_context par l = Val c /\ level_of_context par c = Val l /\
     context_new isp cands (level_moduli (pa_moduli par) l) (pa_degree par) = Val c) /\
  (forall l, (max_level par < l)%nat -> par_context par l = Err (InvalidLevel (Z.of_nat l) 0 (Z.of_nat (max_level par)))).
Proof.
  intros isp cands Ho id b par Hb E. destruct (build_good isp cands Ho id b par Hb E) as (G & _ & Ed & Ev & Et & E1 & E2).
  destruct (gp_deg _ _ _ G) as (K & HK & EK & _). destruct (gp_levels _ _ _ G) as (plain & Epl & Hll & Hlv). pose proof (gp_ne _ _ _ G) as Hne.
  assert (Hpos : (0 < length (pa_moduli par))%nat) by (destruct (pa_moduli par); [congruence|cbn; lia]).
  split; [exists (Z.of_nat K); split; [lia|]; rewrite <- Ed, EK; apply nat_pow2_Z|]. split; [exact Ed|]. pose proof (gp_var _ _ _ G). pose proof (gp_t _ _ _ G).
  split; [lia|]. split; [lia|]. split; [exact Hne|]. split.
  { rewrite <- Et, <- Ed. split; [exact (gp_nodup _ _ _ G)|]. split; [exact (gp_friendly _ _ _ G)|]. split; [apply (gp_t _ _ _ G)|exact (gp_coprime _ _ _ G)]. }
  split; [exact E1|]. split; [exact E2|]. unfold max_level. rewrite Hll. split; [reflexivity|]. split.
  - intros l Hl. destruct (nth_error (pa_levels par) l) as [lv|] eqn:El; [|apply nth_error_None in El; lia]. pose proof (Hlv l lv El) as GL. pose proof (gc_cipher _ _ _ _ _ _ _ (gl_cp _ _ _ _ _ _ _ _ GL)) as Ec.
    rewrite <- (gl_ctx _ _ _ _ _ _ _ _ GL) in Ec. exists (lv_ctx lv). unfold par_context, context_level_at. rewrite El. cbn [ok_or bind]. split; [reflexivity|]. split; [|exact Ec].
    destruct Ho as (H1 & H2). destruct (context_new_good isp H1 cands H2 _ _ _ Ec) as (_ & Em & _). assert (Elen : length (c_moduli (lv_ctx lv)) = (length (pa_moduli par) - l)%nat) by (rewrite Em, firstn_length; lia).
    unfold level_of_context. rewrite Elen. destruct (Nat.ltb_spec (length (pa_moduli par)) (length (pa_moduli par) - l)); [lia|]. replace (length (pa_moduli par) - (length (pa_moduli par) - l))%nat with l by lia.
    rewrite El. cbn [ok_or bind]. rewrite ctx_eqb_refl. reflexivity.
  - intros l Hl. unfold par_context, context_level_at. replace (nth_error (pa_levels par) l) with (@None level_ctx) by (symmetry; apply nth_error_None; lia). unfold max_level. rewrite Hll. reflexivity.
Qed.

Lemma level_data_all : forall isp cands, oracles isp cands -> forall par, is_params isp cands par -> forall l, (l <= max_level par)%nat ->
  let q := prod_list (level_moduli (pa_moduli par) l) in
  exists lv, context_level_at par l = Val lv /\ lv_level lv = l /\ par_context par l = Val (lv_ctx lv) /\
    cp_cipher (lv_cp lv) = lv_ctx lv /\ c_moduli (cp_plain (lv_cp lv)) = firstn (plaintext_moduli_count (pa_moduli par) (pa_sizes par) (pa_t par)) (pa_moduli par) /\
    is_context isp cands (cp_plain (lv_cp lv)) /\
    cp_q_mod_t (lv_cp lv) = q mod pa_t par /\ cp_threshold (lv_cp lv) = (pa_t par + 1) / 2 /\
    (exists d, 0 <= d < q /\ (d * pa_t par + 1) mod q = 0 /\ p_ctx (cp_delta (lv_cp lv)) = lv_ctx lv /\ represents (cp_delta (lv_cp lv)) (d :: repeat 0 (pa_degree par - 1))) /\
    mp_from (lv_mul lv) = lv_ctx lv /\ is_context isp cands (mp_to (lv_mul lv)) /\
    (exists ext, c_moduli (mp_to (lv_mul lv)) = level_moduli (pa_moduli par) l ++ ext /\ q * 2 ^ 60 <= 2 ^ (62 * Z.of_nat (length ext)) /\
       Forall (fun p => ntt_prime (Z.of_nat (pa_degree par)) p /\ 2 ^ 61 <= p) ext /\ NoDup (pa_moduli par ++ ext)).
Proof.
  intros isp cands Ho par Hpar l Hl. cbv zeta. pose proof (params_good isp cands par Ho Hpar) as G. destruct (gp_levels _ _ _ G) as (plain & Epl & Hll & Hlv).
  pose proof (gp_ne _ _ _ G) as Hne. assert (Hpos : (0 < length (pa_moduli par))%nat) by (destruct (pa_moduli par); [congruence|cbn; lia]).
  unfold max_level in Hl. rewrite Hll in Hl. destruct (nth_error (pa_levels par) l) as [lv|] eqn:El; [|apply nth_error_None in El; lia]. pose proof (Hlv l lv El) as GL. pose proof (gl_cp _ _ _ _ _ _ _ _ GL) as GC.
  destruct Ho as (H1 & H2). destruct (context_new_good isp H1 cands H2 _ _ _ Epl) as (Hgp & Emp & Edp). destruct (context_new_good isp H1 cands H2 _ _ _ (gc_cipher _ _ _ _ _ _ _ GC)) as (Hgc & Emc & Edc).
  exists lv. unfold par_context, context_level_at. rewrite El. cbn [ok_or bind]. split; [reflexivity|]. split; [apply (gl_level _ _ _ _ _ _ _ _ GL)|]. split; [reflexivity|].
  split; [symmetry; apply (gl_ctx _ _ _ _ _ _ _ _ GL)|]. rewrite (gc_plain _ _ _ _ _ _ _ GC). split; [exact Emp|]. split; [eexists _, _; exact Epl|].
  split; [apply (gc_qmodt _ _ _ _ _ _ _ GC)|]. split; [apply (gc_threshold _ _ _ _ _ _ _ GC)|]. fold (level_moduli (pa_moduli par) l) in *.
  pose proof (gp_deg _ _ _ G) as (K & HK & EK & _). assert (Hdeg : (0 < pa_degree par)%nat) by (rewrite EK; apply Nat.neq_0_lt_0, Nat.pow_nonzero; lia).
  split; [|split; [apply (gl_from _ _ _ _ _ _ _ _ GL)|]].
  - destruct (gc_delta _ _ _ _ _ _ _ GC) as (d & Hd & Ed & Epd). exists d. split; [exact Hd|]. split.
    + assert (Hq : 0 < prod_list (level_moduli (pa_moduli par) l)) by (fold (level_moduli (pa_moduli par) l) in *; lia). fold (level_moduli (pa_moduli par) l) in Ed. apply cong_divide in Ed; [|exact Hq]. replace (d * pa_t par - -1) with (d * pa_t par + 1) in Ed by ring. apply Z.mod_divide; [lia|exact Ed].
    + rewrite Epd. cbn [poly_of p_ctx]. split; [symmetry; apply (gl_ctx _ _ _ _ _ _ _ _ GL)|]. rewrite <- (gl_ctx _ _ _ _ _ _ _ _ GL). rewrite <- (gl_ctx _ _ _ _ _ _ _ _ GL) in Hgc, Edc.
      replace (padded (lv_ctx lv) [d]) with (d :: repeat 0 (pa_degree par - 1)) by (unfold padded; rewrite Edc; reflexivity).
      split; [cbn [length poly_of p_ctx]; rewrite repeat_length, Edc; lia|reflexivity].
  - destruct (gl_mul _ _ _ _ _ _ _ _ GL) as (ext & Hle & Hnd & HF & Em). destruct (context_new_good isp H1 cands H2 _ _ _ Em) as (_ & Emm & _). split; [eexists _, _; exact Em|].
    exists ext. split; [exact Emm|]. split; [|split].
    + rewrite Hle. apply mul_count_room. apply Forall_firstn. eapply Forall_impl; [|exact (gp_friendly _ _ _ G)]. intros q (P & _). apply prime_ge_2 in P. lia.
    + eapply Forall_impl; [|exact HF]. cbv beta. intros p (P & R & Mp & _). split; [split; [exact P|split; [lia|exact Mp]]|lia].
    + apply NoDup_app_disjoint; [exact (gp_nodup _ _ _ G)|exact Hnd|]. intros x Hx Hx'. rewrite Forall_forall in HF. destruct (HF x Hx') as (_ & _ & _ & H). auto.
Qed.

Lemma build_total_all : forall isp cands, oracles isp cands -> complete_draws cands -> forall id b, is_builder b ->
  (exists par, build isp cands id b = Val par) \/ (exists e, build isp cands id b = Err e /\ builder_rejected b e).
Proof. intros isp cands Ho Hd id b Hb. exact (build_total isp cands Ho Hd id b Hb). Qed.

Lemma accepts_all : forall isp cands, oracles isp cands -> complete_draws cands -> forall id n t v moduli,
  (exists k, 3 <= k <= 16 /\ n = 2 ^ k) -> 1 <= v <= 32 -> 2 <= t -> ~ 2 ^ 62 <= t < 2 ^ 64 -> moduli <> [] -> moduli_accepted n t moduli ->
  (exists l, length l = S (length moduli) /\ NoDup l /\ Forall (fun q => ntt_prime n q /\ 2 ^ 61 <= q /\ ~ In q moduli) l) ->
  exists par, build isp cands id (mkBuilder n t v moduli []) = Val par.
Proof.
  intros isp cands Ho Hd id n t v moduli Hk Hv Ht2 Ht Hne (Hnd & HF & Hlt & Hco) (l & Ll & Ndl & HFl).
  assert (Hb : is_builder (mkBuilder n t v moduli [])).
  { destruct Hk as (k & Hk & ->). assert (2 ^ k <= 2 ^ 16) by (apply Z.pow_le_mono_r; lia). assert (0 < 2 ^ k) by (apply Z.pow_pos_nonneg; lia). assert (W64 = 4 * 2 ^ 62) by reflexivity. change W62 with (2 ^ 62) in *.
    unfold is_builder, is_u64. cbn [b_degree b_plaintext b_variance b_moduli b_sizes]. split; [lia|]. split; [lia|]. split; [lia|]. split; [|constructor]. eapply Forall_impl; [|exact HF]. cbv beta. intros q (P & L & _). apply prime_ge_2 in P. lia. }
  destruct (build_total isp cands Ho Hd id _ Hb) as [H|(e & E & He)]; [exact H|exfalso].
  destruct e; cbn [builder_rejected b_degree b_plaintext b_variance b_moduli b_sizes] in He;
    try (destruct He as (ms & Hms & He); specialize (Hms eq_refl); subst ms; cbn [moduli_rejected] in He);
    try exact He; try (destruct He; congruence); try lia.
  all: rewrite ?Forall_forall in HF, Hco.
  - destruct He as (-> & He). apply He. exact Hk.
  - destruct He as (Hin & _ & He). destruct (HF _ Hin) as (P & L & _). apply prime_ge_2 in P. lia.
  - destruct He as ([] & _).
  - destruct He as (-> & [([] & _)|(_ & ms & Hms & Hfew)]). specialize (Hms eq_refl). subst ms. specialize (Hfew l Ndl).
    assert ((length l < S (length moduli))%nat); [|lia]. apply Hfew. eapply Forall_impl; [|exact HFl]. cbv beta. intros q (Hq & Hr & Hn). change (2 ^ (62 - 1)) with (2 ^ 61). split; [exact Hq|]. split; [|exact Hn]. destruct Hq as (_ & Hq & _). lia.
  - destruct He as (Ha & Hb' & Hab & -> & He). destruct (HF _ Ha) as (Pa & _). destruct (HF _ Hb') as (Pb & _). apply He, Zgcd_1_rel_prime, rel_prime_sym, prime_rel_prime; [exact Pb|]. intros D. apply Hab. symmetry. apply prime_div_prime; assumption.
  - destruct He as (Hin & _ & _ & He). destruct (HF _ Hin) as (P & _ & M). auto.
  - destruct He as (_ & Hin & _ & -> & He). apply He, Hco, Hin.
Qed.

Lemma slots_all : forall k, (2 <= k < 61)%nat -> exists m, index_map (2 ^ Z.of_nat k) = Val m /\ length m = (2 ^ k)%nat /\ Permutation m (seq 0 (2 ^ k)) /\
  forall i, (i < 2 ^ k)%nat -> (nth i m O < 2 ^ k)%nat /\ 2 * bitrev k (Z.of_nat (nth i m O)) + 1 = slot_exponent (2 ^ k) i.
Proof.
  intros k Hk. exists (map (slot_pos k) (seq 0 (2 ^ k))). split; [apply index_map_spec, Hk|]. split; [rewrite map_length, seq_length; reflexivity|]. split; [apply index_map_perm, Hk|].
  intros i Hi. rewrite (nth_indep _ O (slot_pos k O)) by (rewrite map_length, seq_length; exact Hi). rewrite map_nth, seq_nth by exact Hi. rewrite Nat.add_0_l. split; [apply slot_pos_lt, Hk|apply slot_pos_exponent, Hk].
Qed.
Lemma slot_values_all : forall isp cands, oracles isp cands -> forall par, is_params isp cands par ->
  length (pa_index par) = pa_degree par /\ Permutation (pa_index par) (seq 0 (pa_degree par)) /\
  forall op, pa_ntt par = Some op -> exists psi, 0 <= psi < pa_t par /\ psi ^ Z.of_nat (pa_degree par) mod pa_t par = pa_t par - 1 /\
    forall a, length a = pa_degree par -> canonical (pa_t par) a -> exists b, ntt_forward op a = Val b /\ length b = pa_degree par /\
      forall i, (i < pa_degree par)%nat -> nth (nth i (pa_index par) O) b 0 = eval a (psi ^ slot_exponent (pa_degree par) i) mod pa_t par.
Proof.
  intros isp cands Ho par Hp. pose proof (params_good isp cands par Ho Hp) as G. destruct (gp_deg _ _ _ G) as (K & HK & EK & Ei). rewrite Ei, EK.
  split; [rewrite map_length, seq_length; reflexivity|]. split; [apply index_map_perm; lia|]. intros op Eop. pose proof (gp_small _ _ _ G) as Hs. destruct (pa_small par) as [m|]; [|destruct Hs; congruence].
  destruct Hs as (Em & En). rewrite EK, Eop in En. destruct Ho as (H1 & H2). destruct (evaluation_all isp H1 _ _ Em _ (H2 _) K op En) as (psi & Hpsi & Hn & Hev & _). exists psi. split; [exact Hpsi|]. split; [exact Hn|].
  intros a La Ca. destruct (Hev a La Ca) as (b & Eb & Lb & Hb). exists b. split; [exact Eb|]. split; [exact Lb|]. intros i Hi.
  rewrite (nth_indep _ O (slot_pos K O)) by (rewrite map_length, seq_length; exact Hi). rewrite map_nth, seq_nth by exact Hi. rewrite Nat.add_0_l. rewrite Hb by (apply slot_pos_lt; lia). rewrite slot_pos_exponent by lia. reflexivity.
Qed.
Lemma roots_of_slots_all : forall k, (2 <= k < 61)%nat -> forall e, 0 <= e < 2 * 2 ^ Z.of_nat k -> Z.odd e = true ->
  exists! i, (i < 2 ^ k)%nat /\ slot_exponent (2 ^ k) i = e.
Proof.
  intros k Hk e He Ho. assert (Hd : e = 2 * (e / 2) + 1) by (pose proof (Z.div_mod e 2 ltac:(lia)) as Hdm; rewrite Zmod_odd, Ho in Hdm; exact Hdm).
  set (j := Z.to_nat (bitrev k (e / 2))). pose proof (bitrev_bounds k (e / 2)) as Hb. assert (Hj : (j < 2 ^ k)%nat).
  { apply Nat2Z.inj_lt. rewrite nat_pow2_Z. unfold j. rewrite Z2Nat.id; lia. }
 
  pose proof (index_map_perm k Hk) as HP. assert (Hin : In j (map (slot_pos k) (seq 0 (2 ^ k)))) by (apply (Permutation_in _ (Permutation_sym HP)), in_seq; lia).
  apply in_map_iff in Hin. destruct Hin as (i & Ei & Hi). apply in_seq in Hi. 
  assert (Ee : slot_exponent (2 ^ k) i = e).
  { rewrite <- (slot_pos_exponent k Hk i), Ei. unfold j. rewrite Z2Nat.id by lia. rewrite bitrev_invol by (split; [apply Z.div_pos; lia|apply Z.div_lt_upper_bound; lia]). lia. }
  exists i. split; [split; [lia|exact Ee]|]. intros i' (Hi' & Ei'). apply (slot_exponent_inj k Hk); (lia || congruence).
Qed.

Lemma builder_ex_ok : is_builder builder_ex.
Proof. unfold is_builder, is_u64, builder_ex. cbn [b_degree b_plaintext b_variance b_moduli b_sizes]. split; [lia|]. split; [lia|]. split; [lia|]. split; [|constructor]. constructor; [lia|]. constructor; [lia|constructor]. Qed.
Lemma params_exist_all : exists par, par_ex = Val par /\ is_params isp_bfv cands_bfv par /\ pa_moduli par = [1048433; 1048273] /\ pa_t par = 17 /\ pa_degree par = 8%nat /\ pa_variance par = 10 /\ pa_ntt par <> None.
Proof.
  assert (H : (fun r : M params => match r with Val p => Some (pa_moduli p, pa_t p, pa_degree p, pa_variance p, match pa_ntt p with None => false | _ => true end) | _ => None end) par_ex = Some ([1048433; 1048273], 17, 8%nat, 10, true)) by (vm_compute; reflexivity).
  destruct par_ex as [p| |] eqn:E; try discriminate. injection H as H1 H2 H3 H4 H5. exists p. split; [reflexivity|]. split; [exists 1, builder_ex; split; [exact builder_ex_ok|rewrite par_ex_built; exact E]|].
  split; [exact H1|]. split; [exact H2|]. split; [exact H3|]. split; [exact H4|]. intros H6. rewrite H6 in H5. discriminate.
Qed.
Lemma params_exist : exists par, is_params isp_bfv cands_bfv par /\ pa_moduli par = [1048433; 1048273] /\ pa_t par = 17 /\ pa_degree par = 8%nat /\ pa_ntt par <> None.
Proof. destruct params_exist_all as (par & _ & H1 & H2 & H3 & H4 & _ & H5). exists par. auto. Qed.

(** The base of the plaintext context: the fewest moduli whose bit sizes add up to 60 bits more than t. *)
Lemma plain_count_spec t_bits sizes : forall acc, let k := plain_count sizes t_bits acc in
  (k <= length sizes)%nat /\ (forall j, (j < k)%nat -> (0 < j)%nat -> acc + sum_of (firstn j sizes) < t_bits + 60) /\ (t_bits + 60 <= acc + sum_of (firstn k sizes) \/ k = length sizes).
Proof.
  induction sizes as [|s sizes IH]; intros acc; cbv zeta; cbn [plain_count length]; [split; [lia|split; [intros; lia|right; reflexivity]]|].
  destruct (Z.leb_spec (t_bits + 60) (acc + s)).
  - split; [lia|]. split; [intros; lia|]. left. cbn [firstn sum_of]. lia.
  - destruct (IH (acc + s)) as (H1 & H2 & H3). split; [lia|]. split.
    + intros [|j] Hj Hj0; [lia|]. cbn [firstn sum_of]. destruct j as [|j]; [cbn [firstn sum_of]; lia|]. specialize (H2 (S j) ltac:(lia) ltac:(lia)). lia.
    + cbn [firstn sum_of]. destruct H3 as [H3|H3]; [left; lia|right; congruence].
Qed.
Lemma plain_basis_all : forall moduli t, moduli <> [] -> exists k, plaintext_moduli_count moduli (map nbits moduli) t = k /\ (1 <= k <= length moduli)%nat /\
  (forall j, (0 < j < k)%nat -> sum_of (map nbits (firstn j moduli)) < nbits t + 60) /\ (nbits t + 60 <= sum_of (map nbits (firstn k moduli)) \/ k = length moduli).
Proof.
  intros moduli t Hm. unfold plaintext_moduli_count. destruct (plain_count_spec (nbits t) (map nbits moduli) 0) as (H1 & H2 & H3). rewrite map_length in *. set (k := plain_count (map nbits moduli) (nbits t) 0) in *.
  assert (Hk : (1 <= k)%nat). { unfold k. destruct moduli; [congruence|]. cbn [map plain_count]. destruct (_ <=? _); lia. }
  assert (1 <= length moduli)%nat by lia. exists k. split; [lia|]. split; [lia|]. split.
  - intros j Hj. specialize (H2 j ltac:(lia) ltac:(lia)). rewrite <- firstn_map. lia.
  - rewrite <- firstn_map. destruct H3; [left; lia|right; assumption].
Qed.
