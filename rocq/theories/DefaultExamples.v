(** The hypotheses of C48 can be met. *)
From Verif Require Import Outcome BasicSpec PolySpec ZqModel NttModel RnsModel RnsSpec RqModel RqSpec RqProofs RingRn RqPropLemmas ParamsModel BfvSpec BuildProofs ParamsProofs ParamsPropLemmas PlainModel CipherModel SchemeSpec CipherSpec PlainProofs PlainPropLemmas RnPoly CipherProofs EncryptProofs CipherPropLemmas ExampleParams CipherExamples DefaultModel DefaultSpec DefaultPropLemmas KeysModel KeysSpec MbfvModel MbfvSpec MbfvPropLemmas.

Lemma zero_key par : is_sk par (mkSk par (repeat 0 (pa_degree par))).
Proof. split; [reflexivity|]. cbn [sk_coeffs]. split; [apply repeat_length|]. apply Forall_forall. intros x Hx. apply repeat_spec in Hx. subst. unfold is_i64. lia. Qed.
Lemma some_pt isp cands par (x : list Z) : oracles isp cands -> is_params isp cands par -> length x = pa_degree par -> exists pt, is_pt par 0 pt x.
Proof.
  intros Ho Hp L. pose proof (params_good isp cands par Ho Hp) as G. destruct (at_level_ex isp cands par 0 Ho G (Nat.le_0_l _)) as (lv & c & A).
  eexists. apply (P_pt isp cands Ho par G 0 lv c A None false (mkR x L)).
Qed.
Lemma some_ct isp cands par : oracles isp cands -> is_params isp cands par -> exists ct xs, is_ct par 0 ct xs /\ (2 <= length xs)%nat.
Proof.
  intros Ho Hp. pose proof (params_good isp cands par Ho Hp) as G. destruct (at_level_ex isp cands par 0 Ho G (Nat.le_0_l _)) as (lv & c & A).
  do 2 eexists. split; [apply (parts_ct isp cands Ho par G 0 lv c A None [(false, r0 (pa_degree par)); (false, r0 (pa_degree par))])|]. cbn [map length]. lia.
Qed.
Lemma default_hypotheses_ex : exists row par, In row default_rows /\ default_params isp_bfv cands_bfv 20 row par /\ 20 + 6 <= nbits (hd 0 (snd row)) /\ expands_well expand_ex /\ words rng_ex /\
  exists sk pt m, is_sk par sk /\ is_pt par 0 pt m /\ canonical (pa_t par) m.
Proof.
  destruct (default_some_all _ _ oracles_bfv cands_bfv_complete (fun _ => 1) 20 ltac:(lia)) as (ps & _ & Hne & Hps). destruct ps as [|par ps]; [congruence|].
  destruct (defaults_out _ _ _ _ _ Hps par (or_introl eq_refl)) as (row & Hi & Hd). exists row, par. split; [exact Hi|]. split; [exact Hd|]. split; [destruct (first_bits row Hi) as (b & -> & Hb & _); lia|]. split; [exact expand_ex_ok|]. split; [exact rng_ex_ok|].
  destruct (some_pt _ _ par (repeat 0 (pa_degree par)) oracles_bfv (proj1 Hd) (repeat_length _ _)) as (pt & Hpt). exists (mkSk par (repeat 0 (pa_degree par))), pt, (repeat 0 (pa_degree par)). split; [apply zero_key|]. split; [exact Hpt|].
  pose proof (gp_t _ _ _ (params_good _ _ par oracles_bfv (proj1 Hd))). apply Forall_forall. intros x Hx. apply repeat_spec in Hx. subst. lia.
Qed.
Lemma default_wide_ex : exists row par, In row default_rows /\ default_params isp_bfv cands_bfv 50 row par /\ nbits (hd 0 (snd row)) < 50 /\
  exists sk ct xs m, is_sk par sk /\ is_ct par 0 ct xs /\ (2 <= length xs)%nat /\ canonical (pa_t par) m /\ Exists (fun a => hd 0 (snd row) <= a) m.
Proof.
  destruct (default_some_all _ _ oracles_bfv cands_bfv_complete (fun _ => 1) 50 ltac:(lia)) as (ps & _ & _ & Hps).
  assert (Hw : wide_b 50 = true) by (vm_compute; reflexivity). unfold wide_b in Hw. apply existsb_exists in Hw. destruct Hw as (((b & n) & p) & _ & H). apply andb_true_iff in H. destruct H as (_ & H). apply existsb_exists in H. destruct H as (row & Hi & H). apply andb_true_iff in H. destruct H as (Hw & H). apply Z.ltb_lt in Hw.
  pose proof (rows_deg row Hi). destruct (fits_b_spec _ _ 50 row p oracles_bfv ltac:(lia) ltac:(lia) H) as (t & Ht). destruct (defaults_in _ _ _ _ _ Hps row Hi) as [(par & _ & Hd)|Hno]; [|destruct (Hno t Ht)].
  exists row, par. split; [exact Hi|]. split; [exact Hd|]. split; [exact Hw|]. destruct (some_ct _ _ par oracles_bfv (proj1 Hd)) as (ct & xs & Hct & Hlen).
  destruct (default_undecryptable_all _ _ oracles_bfv 50 row par Hi Hd Hw) as (Hlt & _). exists (mkSk par (repeat 0 (pa_degree par))), ct, xs, (repeat (pa_t par - 1) (pa_degree par)). split; [apply zero_key|]. split; [exact Hct|]. split; [exact Hlen|].
  pose proof (gp_t _ _ _ (params_good _ _ par oracles_bfv (proj1 Hd))). split; [apply Forall_forall; intros x Hx; apply repeat_spec in Hx; subst; lia|].
  pose proof (proj1 (proj2 Hd)) as En. apply Exists_exists. exists (pa_t par - 1). split; [|lia]. destruct (pa_degree par) as [|k]; [cbn in En; lia|]. left. reflexivity.
Qed.
Lemma default_group_ex : exists row par, In row default_rows /\ default_params isp_bfv cands_bfv 50 row par /\ nbits (hd 0 (snd row)) < 50 /\ (1 < length (snd row))%nat /\ expands_well expand_ex /\ words rng_ex /\
  exists sk pt m, is_sk par sk /\ is_pt par 0 pt m /\ canonical (pa_t par) m.
Proof.
  destruct default_wide_ex as (row & par & Hi & Hd & Hb & sk & ct & xs & m & Hsk & _ & _ & Hm & _). exists row, par. split; [exact Hi|]. split; [exact Hd|]. split; [exact Hb|]. split.
  - destruct (default_undecryptable_all _ _ oracles_bfv 50 row par Hi Hd Hb) as (Hlt & _). destruct (default_level0 _ _ _ _ _ Hd) as (EQ & HtQ). rewrite EQ in HtQ. destruct (snd row) as [|q [|q' qs]]; cbn [prod_list hd length] in *; [|lia|lia].
    pose proof (gp_t _ _ _ (params_good _ _ par oracles_bfv (proj1 Hd))). lia.
  - split; [exact expand_ex_ok|]. split; [exact rng_ex_ok|]. destruct (some_pt _ _ par (repeat 0 (pa_degree par)) oracles_bfv (proj1 Hd) (repeat_length _ _)) as (pt & Hpt). exists sk, pt, (repeat 0 (pa_degree par)). split; [exact Hsk|]. split; [exact Hpt|].
    pose proof (gp_t _ _ _ (params_good _ _ par oracles_bfv (proj1 Hd))). apply Forall_forall. intros x Hx. apply repeat_spec in Hx. subst. lia.
Qed.
(** Parameters with a plaintext modulus above 64 bits. *)
Lemma big_params : exists par, is_params isp_bfv cands_bfv par /\ 2 ^ 64 <= pa_t par < 2 ^ 200 /\ 2 * pa_t par <= level_modulus par 0 /\ decryptable par.
Proof.
  set (b := mkBuilder 8 (2 ^ 64) 10 [17592186028033; 17592185438209] []). assert (Hb : is_builder b) by (unfold is_builder, is_u64, b; cbn [b_degree b_plaintext b_variance b_moduli b_sizes]; split; [lia|]; split; [lia|]; split; [lia|]; split; [|constructor]; repeat (constructor; [lia|]); constructor).
  destruct (accepts_all isp_bfv cands_bfv oracles_bfv cands_bfv_complete 1 8 (2 ^ 64) 10 [17592186028033; 17592185438209]) as (par & E).
  - exists 3. split; [lia|reflexivity].
  - lia.
  - lia.
  - lia.
  - discriminate.
  - split; [repeat (constructor; [cbn [In]; lia|]); constructor|]. split; [|split; [reflexivity|repeat (constructor; [reflexivity|]); constructor]].
    repeat (constructor; [split; [apply certified; vm_compute; reflexivity|split; [lia|reflexivity]]|]). constructor.
  - exists [4611686018427322369; 4611686018427289601; 4611686018425815041]. split; [reflexivity|]. split; [repeat (constructor; [cbn [In]; lia|]); constructor|].
    repeat (constructor; [split; [split; [apply certified; vm_compute; reflexivity|split; [lia|reflexivity]]|split; [lia|cbn [In]; lia]]|]). constructor.
  - assert (Hp : is_params isp_bfv cands_bfv par) by (exists 1, b; split; [exact Hb|exact E]). exists par. split; [exact Hp|]. pose proof (built_all isp_bfv cands_bfv oracles_bfv 1 b par Hb E) as (_ & _ & _ & (_ & Ht) & _ & _ & Hm & _). cbn [b b_plaintext] in Ht. specialize (Hm eq_refl). cbn [b b_moduli] in Hm.
    assert (H1 : 2 ^ 64 <= pa_t par < 2 ^ 200) by (rewrite Ht; split; [discriminate|reflexivity]). assert (H2 : 2 * pa_t par <= level_modulus par 0) by (unfold level_modulus; rewrite Hm, Ht; vm_compute; discriminate).
    split; [exact H1|]. split; [exact H2|]. exact (big_room_all _ _ par oracles_bfv Hp H1 H2).
Qed.
