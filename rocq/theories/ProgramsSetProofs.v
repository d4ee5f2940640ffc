(** The example programs with the parameters that they choose. *)
From Coq Require Import Znumtheory.
From Verif Require Import Outcome BasicSpec OutcomeLemmas ZqModel ZqProofs NumTheory PrimesModel PrimeCert NttModel PolySpec PolyRing NttPure NttStages NttProofs CbdModel CbdSpec CbdProofs.
From Verif Require Import TranscodeModel RnsModel RnsSpec RnsProofs RqModel RqSpec RqCtx RqRows RqProofs RingRn RqOps RqIO RqPropLemmas ParamsModel BfvSpec ParamsProofs BuildProofs ParamsPropLemmas PlainModel CipherModel OpsModel SchemeSpec CipherSpec PlainProofs PlainPropLemmas RnPoly CipherProofs EncryptProofs CipherPropLemmas LinearPropLemmas NttPropLemmas.
From Verif Require Import MulPropLemmas KeysModel KeysSpec KeyPropLemmas EvalSpec EvalPropLemmas RgswSpec RgswPropLemmas CircuitSpec CircuitProofs CircuitPropLemmas PolyEncProofs DefaultModel DefaultSpec DefaultCerts DefaultPropLemmas ProgramsModel ProgramsSpec ProgramsProofs.
From Verif Require Import BasicSpec.
Set Default Proof Using "Type".

(** ** The third default set *)
Definition third_row : Z * list Z := (4096, [68719403009; 68719230977; 137438822401]).
Lemma defaults_head isp cands nb row rows ps : defaults isp cands nb (row :: rows) ps -> (exists t, default_fits nb (fst row) (snd row) t) -> exists par ps', ps = par :: ps' /\ default_params isp cands nb row par /\ defaults isp cands nb rows ps'.
Proof. intros H (t & Ht). inversion H as [|? ? par ps' H1 H2|? ? ? H1 H2]; [exists par, ps'; auto|destruct (H1 t Ht)]. Qed.
Lemma fits_16_20 nb p row : (nb = 16 /\ p = 40961) \/ (nb = 20 /\ p = 786433) -> In row (firstn 3 default_rows) -> fits_b nb row p = true.
Proof. cbn [default_rows firstn In]. intros [(-> & ->)|(-> & ->)] H; repeat (destruct H as [<-|H]; [vm_compute; reflexivity|]); destruct H. Qed.
Lemma third_ok isp cands : oracles isp cands -> complete_draws cands -> forall ids nb missing, nb = 16 \/ nb = 20 -> exists par, third_default isp cands ids nb missing = Val par /\ default_params isp cands nb third_row par.
Proof.
  intros Ho Hd ids nb missing Hnb. assert (Hr : 14 <= nb <= 62) by lia. destruct (default_some_all isp cands Ho Hd ids nb Hr) as (ps & E & _ & H). unfold third_default. rewrite E. cbn [bind].
  assert (F : forall row, In row (firstn 3 default_rows) -> exists t, default_fits nb (fst row) (snd row) t).
  { intros row Hi. assert (Hi' : In row default_rows) by (rewrite <- (firstn_skipn 3 default_rows); apply in_or_app; left; exact Hi). pose proof (rows_deg row Hi'). destruct Hnb as [->| ->].
    - apply (fits_b_spec isp cands 16 row 40961 Ho); [lia|lia|]. apply fits_16_20; auto.
    - apply (fits_b_spec isp cands 20 row 786433 Ho); [lia|lia|]. apply fits_16_20; auto. }
  destruct (defaults_head _ _ _ _ _ _ H) as (p1 & ps1 & -> & _ & H1); [apply F; left; reflexivity|]. destruct (defaults_head _ _ _ _ _ _ H1) as (p2 & ps2 & -> & _ & H2); [apply F; right; left; reflexivity|].
  destruct (defaults_head _ _ _ _ _ _ H2) as (p3 & ps3 & -> & H3 & _); [apply F; right; right; left; reflexivity|]. exists p3. split; [reflexivity|exact H3].
Qed.
Lemma prime_slots isp cands par : oracles isp cands -> complete_draws cands -> is_params isp cands par -> prime (pa_t par) -> pa_t par < 2 ^ 62 -> pa_t par mod (2 * Z.of_nat (pa_degree par)) = 1 -> pa_ntt par <> None.
Proof.
  intros Ho Hd Hp Pt H62 Hm. pose proof (params_good isp cands par Ho Hp) as G. pose proof (prime_ge_2 _ Pt) as Ht2. change (2 ^ 62) with W62 in H62.
  pose proof (gp_small _ _ _ G) as Hs. destruct (pa_small par) as [m|]; [|change W64 with (4 * W62) in Hs; lia]. destruct Hs as (Em & En). destruct (gp_deg _ _ _ G) as (K & HK & EK & _). rewrite EK in *.
  destruct (modulus_new_valid _ _ Em) as (Hvm & Emt). destruct (supports_pow2 isp K (pa_t par) (proj1 Ho) ltac:(lia) ltac:(lia)) as (Sy & _).
  destruct (ntt_new_total isp (proj1 Ho) m Hvm (cands (pa_t par)) (2 ^ K)) as (op & Eop).
  - rewrite <- Emt. apply (proj2 Ho).
  - rewrite <- Emt. apply Sy. split; [exact Pt|]. split; [exact H62|exact Hm].
  - rewrite <- Emt. apply (draws_nonresidue cands Hd); [exact Pt|exact H62|]. destruct (Z.eq_dec (pa_t par) 2) as [E2|]; [|lia]. assert (8 <= Z.of_nat (2 ^ K)) by (rewrite nat_pow2_Z; change 8 with (2 ^ 3); apply Z.pow_le_mono_r; lia). rewrite E2, Z.mod_small in Hm by lia. lia.
  - rewrite Eop in En. congruence.
Qed.
Lemma default_slots isp cands nb row par : oracles isp cands -> complete_draws cands -> In row default_rows -> default_params isp cands nb row par -> pa_ntt par <> None.
Proof.
  intros Ho Hd Hi (Hp & Ed & _ & _ & ((Pt & _ & Hm & _) & _) & H62 & _). pose proof (rows_deg row Hi) as Hdeg. rewrite <- Ed, (Z.mod_small 1) in Hm by lia. exact (prime_slots isp cands par Ho Hd Hp Pt H62 Hm).
Qed.

(** ** Keys *)
Section Keys.
  Context (isp : Z -> bool) (cands : Z -> list Z) (par : params) (Ho : oracles isp cands) (Hp : is_params isp cands par).
  Context (expand : expander) (derive : deriver) (Hx : expands_well expand).
  Set Default Proof Using "All".
  Lemma pair_ok rng sd rng' : words rng -> words rng' -> exists sk pk, sk_random par rng = Val sk /\ pk_new expand sk sd rng' = Val pk /\ key_pair par sk pk.
  Proof.
    intros W W'. destruct (sk_random_all isp cands par Ho Hp rng W) as (sk & E & Hsk & _ & Hn). destruct (pk_new_all isp cands par Ho Hp expand sk sd rng' Hx W' Hsk) as (pk & E' & Hpk & _). exists sk, pk. split; [exact E|]. split; [exact E'|]. split; [exact Hsk|]. split; [exact Hn|exact Hpk].
  Qed.
  Lemma base_zero : (0 < max_level par)%nat -> key_base par 0 = 0.
  Proof.
    intros H. pose proof (params_good isp cands par Ho Hp) as G. destruct (gp_levels _ _ _ G) as (plain & _ & L & _). unfold max_level in H. rewrite L in H. unfold key_base, level_moduli. rewrite Nat.sub_0_r, firstn_all. destruct (pa_moduli par) as [|q [|? ?]]; cbn [length] in H; [lia|lia|reflexivity].
  Qed.
  Lemma keys_ok d : ops_ok d -> (0 < max_level par)%nat -> exists sk pk ek rk, ops_keys expand derive par d = Val (sk, pk, ek, rk) /\ key_pair par sk pk /\ sum_key par sk ek /\ relin_key par sk rk.
  Proof.
    intros (W1 & W2 & W3 & W4 & _) Hl. destruct (pair_ok (o_sk d) (o_pk_seed d) (o_pk d) W1 W2) as (sk & pk & E1 & E2 & Hk). pose proof (proj1 Hk) as Hsk.
    destruct (builder_new_all isp cands par Ho Hp sk Hsk) as (_ & Hb). destruct (proj1 (Hb 0%nat 0%nat) ltac:(lia)) as (rot & E3 & Hekb). destruct (builder_enable_all par sk Hsk 0 0 _ [] Hekb) as ((Hsum & Has) & _).
    destruct (fresh_ekey_all isp cands par Ho Hp expand derive Hx sk Hsk 0 0 (Nat.le_0_l _) (Nat.le_refl _) _ [] (o_ek_seeds d) (o_ek d) Hsum W3) as (ek & has & E4 & Hek & Hhas).
    destruct (fresh_rkey_all isp cands par Ho Hp expand derive Hx sk Hsk 0 0 (Nat.le_0_l _) (Nat.le_refl _) Hl (o_rk_seed d) (o_rk d) W4) as (rk & E5 & Eb & Hrk & _).
    exists sk, pk, ek, rk. unfold ops_keys. rewrite E1. cbn [bind]. rewrite E2. cbn [bind]. rewrite E3. cbn [bind]. rewrite E4. cbn [bind]. rewrite E5. split; [reflexivity|]. split; [exact Hk|]. split.
    - exists has. split; [exact Hek|]. unfold sums_b. apply andb_true_iff. split; [apply Hhas, Has; auto|]. apply forallb_forall. intros k _. destruct (Z.ltb_spec (2 ^ Z.of_nat k) (Z.of_nat (pa_degree par / 2))) as [Hlt|]; [|reflexivity]. cbn [negb orb]. apply Hhas, Has. right. right. exists (Z.of_nat k). split; [lia|]. split; [exact Hlt|reflexivity].
    - split; [rewrite base_zero by exact Hl; exact Eb|exact Hrk].
  Qed.
End Keys.

(** ** Decryption of anything *)
Lemma decrypted_any isp cands par : oracles isp cands -> is_params isp cands par -> supported par -> pa_t par <= level_modulus par 0 -> pa_ntt par <> None -> forall sk ct xs, is_sk par sk -> is_ct par 0 ct xs -> (2 <= length xs)%nat ->
  exists v, decrypted sk EncSimd ct = Val v /\ length v = pa_degree par.
Proof.
  intros Ho Hp Hsup HtQ Hn sk ct xs (Esk & Ls & Hi) Hct Hlen. pose proof (params_good isp cands par Ho Hp) as G. destruct (at_level_ex isp cands par 0 Ho G (Nat.le_0_l _)) as (lv & c & A).
  destruct (ct_parts isp cands Ho par G 0 lv c A ct xs Hct) as (vxs & Ect & Ex). rewrite <- Ex, !map_length in Hlen.
  destruct (decrypt_raw isp cands Ho par G 0 lv c A sk Ls (ct_seed ct) vxs Esk Hi Hlen Hsup HtQ) as (y & _ & Ey). unfold decrypted. rewrite Ect, Ey. cbn [bind]. destruct (pa_ntt par) as [op|] eqn:Eop; [|congruence]. unfold P.
  match goal with |- context [poly_of Ntt c false ?u] => set (x := u) end. assert (Lx : length x = pa_degree par) by (unfold x; apply rl_length). rewrite (proj2 (decode_simd isp cands par G 0 lv c A None (Some (mkEnc EncSimd 0)) (mkEnc EncSimd 0) false x op eq_refl eq_refl Lx Eop)).
  destruct (ntt_facts isp cands par G op Eop) as (m & _ & Em & En). destruct Ho as (H1 & H2). match goal with |- context [ntt_forward op ?a] => set (b := a) end.
  destruct (inverse_all isp H1 (pa_t par) m Em (cands (pa_t par)) (H2 (pa_t par)) (pa_degree par) op En b) as ((w & Ew & Lw & _) & _); [unfold b; rewrite coeffs_length; exact Lx|apply (coeffs_canonical isp cands par G)|].
  rewrite Ew. cbn [bind]. destruct (index_facts isp cands par G) as (Li & _ & Hlt). exists (map (fun i => nth i w 0) (pa_index par)). split; [|rewrite map_length; exact Li].
  rewrite <- (map_id (pa_index par)) at 1. apply mapM_map. intros i Hin. rewrite Forall_forall in Hlt. apply get_nth. rewrite Lw. apply Hlt, Hin.
Qed.

(** ** The noise of the third default set *)
Section Third.
  Context (isp : Z -> bool) (cands : Z -> list Z) (Ho : oracles isp cands) (Hd : complete_draws cands) (nb : Z) (Hnb : nb = 16 \/ nb = 20) (par : params) (H3 : default_params isp cands nb third_row par).
  Set Default Proof Using "All".
  Lemma third_params : is_params isp cands par.
  Proof. exact (proj1 H3). Qed.
  Lemma third_t : 2 ^ 15 <= pa_t par < 2 ^ 20.
  Proof. destruct H3 as (_ & _ & _ & _ & ((_ & Ht & _) & _) & _). destruct Hnb as [-> | ->]; lia. Qed.
  Lemma third_N : Z.of_nat (pa_degree par) = 4096.
  Proof. exact (proj1 (proj2 H3)). Qed.
  Lemma third_v : pa_variance par = 10.
  Proof. exact (proj1 (proj2 (proj2 (proj2 H3)))). Qed.
  Lemma third_qs : pa_moduli par = snd third_row.
  Proof. exact (proj1 (proj2 (proj2 H3))). Qed.
  Lemma third_Q : level_modulus par 0 = 649033470896967801447398927572993.
  Proof. rewrite (proj1 (default_level0 _ _ _ _ _ H3)). vm_compute. reflexivity. Qed.
  Lemma third_levels : max_level par = 2%nat.
  Proof. pose proof (params_good isp cands par Ho third_params) as G. destruct (gp_levels _ _ _ G) as (plain & _ & L & _). unfold max_level. rewrite L, third_qs. reflexivity. Qed.
  Lemma third_in : In third_row default_rows.
  Proof. right. right. left. reflexivity. Qed.
  Lemma third_program : program_params par.
  Proof.
    pose proof third_t. destruct (default_decryptable_all isp cands nb third_row par third_in H3) as (S & D); [destruct Hnb as [-> | ->]; vm_compute; reflexivity|]. split; [exact S|]. split; [exact D|]. split; [rewrite third_Q; lia|lia].
  Qed.
  Lemma third_slots : pa_ntt par <> None.
  Proof. exact (default_slots isp cands nb third_row par Ho Hd third_in H3). Qed.
  Lemma third_norm : key_norm par = 81920.
  Proof. unfold key_norm. rewrite third_N, third_v. reflexivity. Qed.
  Lemma third_E : encryption_noise par = 3276820.
  Proof. unfold encryption_noise, pk_noise. rewrite third_norm, third_N, third_v. reflexivity. Qed.
  Lemma third_switch : switching_noise par = 22517961226977280.
  Proof.
    unfold switching_noise, key_noise. rewrite third_norm. unfold level_ratio, switch_noise, key_base, level_moduli. rewrite third_N, third_v, third_qs. vm_compute. reflexivity.
  Qed.
  Lemma third_product : product_noise par <= 2 ^ 71.
  Proof.
    pose proof third_t as Ht. unfold product_noise. rewrite third_switch, third_E, third_norm, third_Q. unfold mul_noise, mul_factor. rewrite third_N.
    change (geometric 81920 2) with 81921. change (geometric 81920 (2 + 2 - 1)) with 6710968321. set (t := pa_t par) in *. clearbody t.
    assert (F : 0 <= (t * ((2 ^ 44 + 1) * 81921) + 2 ^ 44) / 2 ^ 45 <= 2 ^ 36) by (split; [apply Z.div_pos; lia|apply Z.div_le_upper_bound; lia]).
    assert (R : (2 ^ 43 * (4096 * (t * ((3276820 + 1) * (3276820 + 1)))) + 649033470896967801447398927572993 * ((2 ^ 42 + 1) * 6710968321)) / (2 ^ 43 * 649033470896967801447398927572993) <= 2 ^ 34) by (apply Z.div_le_upper_bound; lia).
    set (f := (t * ((2 ^ 44 + 1) * 81921) + 2 ^ 44) / 2 ^ 45) in *. set (r := (2 ^ 43 * _ + _) / _) in *. clearbody f r. lia.
  Qed.
  Lemma third_fit : products_fit par.
  Proof.
    pose proof third_t. split; [rewrite third_E, third_Q; lia|]. unfold mul_room, level_moduli. rewrite third_N, third_qs. vm_compute. discriminate.
  Qed.
  Lemma third_small B : B < 2 ^ 86 -> small_noise par 0 B.
  Proof.
    intros H. pose proof third_t. unfold small_noise. rewrite third_Q. destruct (Z_le_dec (B + 1) 0) as [Hn|Hn]; [assert (pa_t par * (B + 1) <= 0) by (apply Z.mul_nonneg_nonpos; lia); lia|]. assert (pa_t par * (B + 1) <= 2 ^ 20 * 2 ^ 86) by (apply Z.mul_le_mono_nonneg; lia). lia.
  Qed.
  Lemma third_sum : small_noise par 0 (2 * encryption_noise par + 1).
  Proof. apply third_small. rewrite third_E. lia. Qed.
  Lemma third_plain_weights : small_noise par 0 (plain_weights_noise par 3).
  Proof. apply third_small. pose proof third_t. unfold plain_weights_noise. rewrite third_E. lia. Qed.
  Lemma third_simd_weights : small_noise par 0 (simd_weights_noise par).
  Proof. apply third_small. pose proof third_t. unfold simd_weights_noise, inner_sum_noise. rewrite third_E, third_N, third_switch. lia. Qed.
  Lemma third_plain_product : small_noise par 0 (plain_product_noise par 3).
  Proof. apply third_small. pose proof third_product. unfold plain_product_noise. lia. Qed.
  Lemma third_simd_product : small_noise par 0 (simd_product_noise par).
  Proof. apply third_small. pose proof third_product. unfold simd_product_noise, inner_sum_noise. rewrite third_N, third_switch. lia. Qed.
  Lemma third_polynomial : small_noise par 0 (polynomial_noise par 3).
  Proof. apply third_small. pose proof third_product. unfold polynomial_noise. rewrite third_E. lia. Qed.
  Lemma third_direct_fit : direct_products_fit par.
  Proof. pose proof third_t. split; [rewrite third_Q, third_v; lia|exact (proj2 third_fit)]. Qed.
  Lemma third_external : small_noise par 0 (external_product_noise par).
  Proof. apply third_small. pose proof third_t. unfold external_product_noise. rewrite third_N, third_v, third_switch. lia. Qed.
  Lemma third_direct : small_noise par 0 (direct_product_noise par).
  Proof.
    apply third_small. pose proof third_product as H. unfold product_noise in H. rewrite third_switch in H. unfold direct_product_noise. pose proof third_t. pose proof third_norm. pose proof third_E. pose proof third_v. pose proof third_Q.
    assert (mul_noise (pa_degree par) (pa_t par) (level_modulus par 0) (key_norm par) 2 2 (2 * pa_variance par) (2 * pa_variance par) <= mul_noise (pa_degree par) (pa_t par) (level_modulus par 0) (key_norm par) 2 2 (encryption_noise par) (encryption_noise par)) by (apply mul_noise_mono; lia). lia.
  Qed.
  Lemma third_last : pa_t par <= level_modulus par (max_level par).
  Proof. pose proof third_t. unfold level_modulus, level_moduli. rewrite third_levels, third_qs. change (prod_list (firstn (length (snd third_row) - 2) (snd third_row))) with 68719403009. lia. Qed.
  Lemma third_serializable : serializable par.
  Proof. unfold serializable. rewrite third_N, third_qs. cbn [third_row snd length]. lia. Qed.
End Third.
