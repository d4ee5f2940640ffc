(** Parameters read back. *)
From Coq Require Import Znumtheory.
From Verif Require Import Outcome BasicSpec OutcomeLemmas ZqModel ZqProofs NttModel RnsModel RnsSpec RqModel RqSpec RqCtx ParamsModel BfvSpec ParamsProofs BuildProofs ParamsPropLemmas CipherModel KeysModel WireSpec BytesModel BytesSpec BytesProofs BytesMessages.

Lemma bytes_le_back fuel v : 0 <= v < 256 ^ Z.of_nat fuel -> (0 < fuel)%nat -> big_from_bytes (bytes_le fuel v) = v /\ byte_string (bytes_le fuel v).
Proof.
  revert v. induction fuel as [|fuel IH]; intros v Hv Hf; [lia|]. cbn [bytes_le]. destruct (v <? 256) eqn:E; [apply Z.ltb_lt in E|apply Z.ltb_ge in E].
  - cbn [big_from_bytes]. split; [lia|]. constructor; [change (2 ^ 8) with 256; lia|constructor].
  - pose proof (Z.div_mod v 256 ltac:(lia)) as Ed. pose proof (Z.mod_pos_bound v 256 ltac:(lia)) as Em. rewrite Nat2Z.inj_succ, Z.pow_succ_r in Hv by lia.
    destruct fuel as [|fuel]; [cbn in Hv; lia|]. destruct (IH (v / 256)) as (H1 & H2); [split; [apply Z.div_pos; lia|apply Z.div_lt_upper_bound; lia]|lia|]. cbn [big_from_bytes]. rewrite H1. split; [lia|]. constructor; [change (2 ^ 8) with 256; lia|exact H2].
Qed.
Lemma big_back v : 0 <= v -> big_from_bytes (big_to_bytes v) = v /\ byte_string (big_to_bytes v).
Proof.
  intros Hv. apply bytes_le_back; [|lia]. split; [exact Hv|]. rewrite Nat2Z.inj_succ. unfold nbits. destruct (v <=? 0) eqn:E; [apply Z.leb_le in E; assert (v = 0) as -> by lia; reflexivity|apply Z.leb_gt in E]. pose proof (Z.log2_nonneg v). rewrite Z2Nat.id by lia. destruct (Z.log2_spec v E) as (_ & L). eapply Z.lt_le_trans; [exact L|]. eapply Z.le_trans; [|apply Z.pow_le_mono_r; [lia|instantiate (1 := Z.succ (Z.log2 v)); lia]]. apply Z.pow_le_mono_l. lia.
Qed.
(** Parameters are rebuilt from their moduli. *)
Lemma rebuild isp cands (Ho : oracles isp cands) id b par : is_builder b -> build isp cands id b = Val par -> forall id',
  build isp cands id' (mkBuilder (Z.of_nat (pa_degree par)) (pa_t par) (pa_variance par) (pa_moduli par) []) = Val (at_address id' par).
Proof.
  intros Hb E id'. destruct (built_all isp cands Ho id b par Hb E) as (_ & Ed & (_ & Ev) & (_ & Et) & Hne & _). rewrite Ed, Ev, Et. unfold build in E |- *. cbn [b_degree b_plaintext b_variance b_moduli b_sizes] in *.
  apply bind_inv in E. destruct E as ([] & E1 & E). apply bind_inv in E. destruct E as (small & E2 & E). apply bind_inv in E. destruct E as (ms & E3 & E). apply bind_inv in E. destruct E as ([] & E4 & E). apply bind_inv in E. destruct E as (plain & E5 & E). apply bind_inv in E. destruct E as (ntt & E6 & E). apply bind_inv in E. destruct E as (cps & E7 & E). apply bind_inv in E. destruct E as (ext & E8 & E). apply bind_inv in E. destruct E as (levels & E9 & E). apply bind_inv in E. destruct E as (index & E10 & E).
  assert (Ep : par = mkParams id (Z.to_nat (b_degree b)) ms (map nbits ms) (b_variance b) levels ntt (b_plaintext b) small index) by congruence. clear E. subst par. cbn [pa_moduli pa_degree pa_variance pa_t] in *.
  assert (Ec : validate_configuration (mkBuilder (b_degree b) (b_plaintext b) (b_variance b) ms []) = Val tt).
  { unfold validate_configuration in E1 |- *. cbn [b_degree b_plaintext b_variance b_moduli b_sizes]. destruct (negb ((8 <=? b_degree b) && (b_degree b <=? 65536)) || negb (is_power_of_two (b_degree b))); [discriminate|]. destruct (negb ((1 <=? b_variance b) && (b_variance b <=? 32))); [discriminate|]. destruct ms; [contradiction Hne; reflexivity|reflexivity]. }
  rewrite Ec. cbn [bind]. rewrite E2. cbn [bind]. rewrite E4. cbn [bind]. rewrite E5. cbn [bind]. rewrite E6. cbn [bind]. rewrite E7. cbn [bind]. rewrite E8. cbn [bind]. rewrite E9. cbn [bind]. rewrite E10. reflexivity.
Qed.
Lemma modulus_new_p p m : modulus_new p = Val m -> mod_p m = p /\ is_u64 p.
Proof. intros E. pose proof (modulus_new_inv p m E) as H. rewrite (modulus_new_ok p H) in E. split; [injection E as <-; reflexivity|unfold is_u64; lia]. Qed.
Lemma params_proto_back isp cands : oracles isp cands -> forall par, is_params isp cands par -> forall id, params_from_proto isp cands id (params_to_proto par) = Val (at_address id par) /\ params_wire_ok (params_to_proto par).
Proof.
  intros Ho par (id0 & b & Hb & E) id. pose proof (params_good isp cands par Ho (ex_intro _ id0 (ex_intro _ b (conj Hb E)))) as G.
  destruct (gp_deg _ _ _ G) as (K & HK & Ed & _). pose proof (gp_var _ _ _ G) as Hv. pose proof (gp_t _ _ _ G) as Ht. pose proof (gp_small _ _ _ G) as Hs.
  assert (Hd : 0 <= Z.of_nat (pa_degree par) < W32). { rewrite Ed, Nat2Z.inj_pow. change (Z.of_nat 2) with 2. assert (2 ^ Z.of_nat K <= 2 ^ 16) by (apply Z.pow_le_mono_r; lia). assert (0 < 2 ^ Z.of_nat K) by (apply Z.pow_pos_nonneg; lia). change (2 ^ 16) with 65536 in *. lia. }
  destruct (big_back (pa_t par) ltac:(lia)) as (Hb1 & Hb2). split.
  - unfold params_from_proto, params_to_proto. cbn [pp_degree pp_moduli pp_variance pp_plain]. rewrite (Z.mod_small (Z.of_nat (pa_degree par)) W32), (Z.mod_small (pa_variance par) W32) by lia. rewrite <- (rebuild isp cands Ho id0 b par Hb E id).
    destruct (pa_small par) as [m|]; cbn [bind]; [|rewrite Hb1; reflexivity]. destruct Hs as (Hs & _). rewrite (proj1 (modulus_new_p _ _ Hs)). reflexivity.
  - unfold params_wire_ok, params_typed, params_to_proto. cbn [pp_degree pp_moduli pp_variance pp_plain]. split; [|destruct (pa_small par); [exact I|exact Hb2]]. split; [apply to_u32_ok|]. split; [|split; [apply to_u32_ok|]].
    + eapply Forall_impl; [|exact (gp_friendly _ _ _ G)]. intros q (Hq & Hl & _). apply Znumtheory.prime_ge_2 in Hq. unfold is_u64. lia.
    + destruct (pa_small par) as [m|]; [|exact I]. destruct Hs as (Hs & _). destruct (modulus_new_p _ _ Hs) as (-> & H). exact H.
Qed.
Lemma big_nonneg b : byte_string b -> 0 <= big_from_bytes b.
Proof. intros H. induction H as [|x b Hx _ IH]; cbn [big_from_bytes]; [reflexivity|]. change (2 ^ 8) with 256 in Hx. lia. Qed.
(** No message makes the parameters panic. *)
Lemma params_proto_safe isp cands : oracles isp cands -> complete_draws cands -> forall id m, params_wire_ok m -> safe (params_from_proto isp cands id m) (is_params isp cands).
Proof.
  intros Ho Hd id m ((H1 & H2 & H3 & H4) & H5). unfold params_from_proto.
  assert (K : forall t, 0 <= t -> safe (build isp cands id (mkBuilder (pp_degree m) t (pp_variance m) (pp_moduli m) [])) (is_params isp cands)).
  { intros t Ht. assert (Hb : is_builder (mkBuilder (pp_degree m) t (pp_variance m) (pp_moduli m) [])) by (unfold is_builder; cbn [b_degree b_plaintext b_variance b_moduli b_sizes]; unfold is_u32, is_u64 in *; split; [lia|split; [exact Ht|split; [lia|split; [exact H2|constructor]]]]).
    destruct (build_total_all isp cands Ho Hd id _ Hb) as [(par & E)|(e & E & _)]; rewrite E; [|exact I]. exists id. eexists. split; [exact Hb|exact E]. }
  destruct (pp_plain m) as [[v|b]|]; cbn [bind]; [apply K; apply H4|apply K, big_nonneg, H5|exact I].
Qed.
