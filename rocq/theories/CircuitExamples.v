(** Closed examples for circuits. *)
From Verif Require Import Outcome BasicSpec PolySpec ZqModel NttModel CbdModel RnsModel RnsSpec RqModel RqSpec ParamsModel BfvSpec ParamsProofs BuildProofs PrimeCert ExampleParams ParamsPropLemmas PlainModel CipherModel OpsModel SchemeSpec CipherSpec PlainPropLemmas CipherPropLemmas CipherExamples KeysModel KeysSpec KeyPropLemmas KeyExamples EvalSpec EvalPropLemmas RgswSpec MultPropLemmas RgswPropLemmas CircuitSpec CircuitProofs CircuitPropLemmas PlainProofs.

(** The sum over the slots of x * y - p + (x with its rows swapped and then rotated by 3); the product of x and y, on one
    modulus less; and the second ciphertext of the expansion of the product of x and an RGSW ciphertext. *)
Definition slots_circuit : circuit := InnerSum 0 (Add (SubPlain (Relin 0 (Mul (Input 0) (Input 1))) 0) (Columns 0 3 (Rows 0 (Input 0)))).
Definition switched_circuit : circuit := Neg (MulWith 0 (Input 0) (Input 1)).
Definition expanded_circuit : circuit := Expand 0 2 1 (External 0 (Input 0)).

Lemma norm1_canonical q v : 0 < q -> canonical q v -> 0 <= norm1 v <= Z.of_nat (length v) * q.
Proof.
  intros Hq. induction 1 as [|a v Ha _ IH]; [cbn; lia|]. unfold norm1 in *. cbn [fold_right length]. lia.
Qed.
Lemma circuit_hypotheses_ex : exists par, is_params isp_bfv cands_bfv par /\ pa_ntt par <> None /\ supported par /\ decryptable par /\ pa_degree par = 8%nat /\ pa_t par = 17 /\
  exists sk, is_sk par sk /\ exists V, env_ok isp_bfv cands_bfv par sk V /\ slots_ok par V /\
    map i_slots (inputs V) = [[1; 2; 16; 4; 5; 6; 7; 8]; [3; 1; 4; 1; 5; 9]] /\
    (slotwise slots_circuit = true /\ slot_meaning 8 17 V slots_circuit = repeat 16 8 /\ exists B, estimate par sk V slots_circuit = Some (0%nat, 2%nat, B) /\ small_noise par 0 B) /\
    (slot_meaning 8 17 V switched_circuit = [14; 15; 4; 13; 9; 14; 0; 0] /\ exists B, estimate par sk V switched_circuit = Some (1%nat, 2%nat, B) /\ small_noise par 1 B) /\
    (exists B, estimate par sk V expanded_circuit = Some (0%nat, 2%nat, B) /\ small_noise par 0 B).
Proof.
  destruct params_exist_all as (p & E & Hp & H1 & H2 & H3 & H4 & Hntt). pose proof oracles_bfv as Ho.
  assert (Eq : forall l, level_modulus p l = prod_list (level_moduli [1048433; 1048273] l)) by (intros; unfold level_modulus; rewrite H1; reflexivity).
  assert (Em : max_level p = 1%nat) by (destruct (gp_levels _ _ _ (params_good _ _ p oracles_bfv Hp)) as (? & ? & Hll & _); unfold max_level; rewrite Hll, H1; reflexivity). assert (HtQ : pa_t p <= level_modulus p 0) by (rewrite Eq, H2; vm_compute; discriminate).
  assert (Hsup : supported p) by (unfold supported; rewrite H1; split; vm_compute; (reflexivity || discriminate)).
  exists p. split; [exact Hp|]. split; [exact Hntt|]. split; [exact Hsup|]. split; [unfold decryptable, decryption_base; rewrite H1, H2; vm_compute; discriminate|]. split; [exact H3|]. split; [exact H2|].
  destruct (sk_random_all isp_bfv cands_bfv p oracles_bfv Hp rng_ex rng_ex_ok) as (sk & Es & Hs & Hb & Hn). exists sk. split; [exact Hs|].
  assert (En : norm1 (sk_coeffs sk) = 19).
  { unfold sk_random in Es. rewrite H3, H4 in Es. destruct (sample_vec_cbd rng_ex 8 10) as [[v k]| |] eqn:Ev; try discriminate. injection Es as <-. cbn [sk_coeffs]. revert Ev. vm_compute. intros Ev. injection Ev as <- _. reflexivity. }
  assert (Hplain : forall v, Forall (fun a => 0 <= a < 17) v -> (length v <= 8)%nat -> exists pt m, encode_u64 false v (mkEnc EncSimd 0) p = Val pt /\ plain_ok p (mkPlain pt 0 m v) /\ encodes p 0 m v).
  { intros v Hv Lv. rewrite <- H2 in Hv. rewrite <- H3 in Lv. exact (fresh_plain_all isp_bfv cands_bfv p Ho Hp Hntt 0 ltac:(lia) HtQ v Hv Lv). }
  destruct (Hplain [1; 2; 16; 4; 5; 6; 7; 8]) as (pt0 & m0 & _ & P0 & S0); [repeat constructor; lia|cbn; lia|].
  destruct (Hplain [3; 1; 4; 1; 5; 9]) as (pt1 & m1 & _ & P1 & S1); [repeat constructor; lia|cbn; lia|].
  destruct (proj1 (fresh_input_all isp_bfv cands_bfv p Ho Hp expand_ex expand_ex_ok sk Hs _ P0 HtQ) sd_ex rng_ex rng_ex_ok) as (ct0 & _ & L0 & I0).
  destruct (proj1 (fresh_input_all isp_bfv cands_bfv p Ho Hp expand_ex expand_ex_ok sk Hs _ P1 HtQ) sd_ex rng_ex rng_ex_ok) as (ct1 & _ & L1 & I1).
  destruct (fresh_rkey_all isp_bfv cands_bfv p Ho Hp expand_ex derive_ex expand_ex_ok sk Hs 0 0 ltac:(lia) ltac:(lia) ltac:(lia) sd_ex rngs_ex rngs_ex_ok) as (rk & _ & Lb & R0 & Hm).
  destruct (Hm Hsup ltac:(unfold mul_room; rewrite H1, H3; vm_compute; discriminate) cands_bfv_complete true ltac:(lia)) as (mm & M0). clear Hm.
  destruct (builder_new_all isp_bfv cands_bfv p Ho Hp sk Hs) as ((rot & _ & B0) & _).
  destruct (builder_enable_all p sk Hs _ _ _ _ B0) as (_ & _ & _ & _ & Hx & _). destruct (Hx 1%nat) as (b1 & _ & B1 & A1); [rewrite H3; vm_compute; discriminate|]. clear Hx. specialize (A1 ltac:(cbn; lia)).
  destruct (builder_enable_all p sk Hs _ _ _ _ B1) as ((B2 & A2) & _).
  destruct (builder_enable_all p sk Hs _ _ _ _ B2) as (_ & _ & Hc & _). destruct (Hc 3) as (b3 & _ & B3 & A3); [unfold is_step; rewrite H3; vm_compute; split; (reflexivity || discriminate)|]. clear Hc.
  destruct (fresh_ekey_all isp_bfv cands_bfv p Ho Hp expand_ex derive_ex expand_ex_ok sk Hs 0 0 ltac:(lia) ltac:(lia) _ _ (fun _ => sd_ex) (fun _ => rngs_ex) B3 (fun _ => rngs_ex_ok)) as (ek & has & _ & K0 & Hhas).
  destruct (fresh_gkey_all isp_bfv cands_bfv p Ho Hp expand_ex derive_ex expand_ex_ok sk Hs _ P1 sd_ex sd_ex rngs_ex rngs_ex rngs_ex_ok rngs_ex_ok) as (rg & _ & G0 & Gb0 & Gb1). cbn [p_level] in Gb0, Gb1.
  set (V := mkEnv [mkInput ct0 0 m0 [1; 2; 16; 4; 5; 6; 7; 8] (2 * pa_variance p); mkInput ct1 0 m1 [3; 1; 4; 1; 5; 9] (2 * pa_variance p)] [mkPlain pt0 0 m0 [1; 2; 16; 4; 5; 6; 7; 8]]
    [mkRkey rk 0 0 (2 * pa_variance p)] [mkEkey ek 0 0 has (2 * pa_variance p)] [mkMkey mm (mkRkey rk 0 0 (2 * pa_variance p)) true] [mkGkey rg 0 m1 [3; 1; 4; 1; 5; 9] (2 * pa_variance p)]).
  exists V. split; [unfold env_ok, V; cbn [inputs plains rkeys ekeys mkeys gkeys]; repeat apply conj; repeat (apply Forall_cons; [assumption|]); apply Forall_nil|].
  split; [unfold slots_ok, V; cbn [inputs plains gkeys]; repeat apply conj; repeat (apply Forall_cons; [assumption|]); apply Forall_nil|]. split; [reflexivity|].
  assert (F3 : forall e, In e [3; 9; 11; 15] -> has e = true).
  { intros e He. apply Hhas, A3. rewrite A2, A1, H3. destruct He as [<-|[<-|[<-|[<-|[]]]]].
    - left. right. right. exists 0. repeat split; vm_compute; (reflexivity || discriminate).
    - left. right. right. exists 1. repeat split; vm_compute; (reflexivity || discriminate).
    - right. reflexivity.
    - left. right. left. reflexivity. }
  assert (Fs : sums_b 8 has = true).
  { unfold sums_b. apply andb_true_iff. split; [apply F3; vm_compute; tauto|]. apply forallb_forall. intros k Hk. apply in_seq in Hk.
    assert (Hc : In k [0; 1; 2; 3; 4; 5; 6; 7]%nat) by (cbn [In]; lia). destruct Hc as [<-|[<-|[<-|[<-|[<-|[<-|[<-|[<-|[]]]]]]]]]; try (vm_compute; reflexivity); apply orb_true_iff; right; apply F3; vm_compute; tauto. }
  assert (Ec : column_exponent 8 3 = 11) by reflexivity. assert (Er : row_exponent 8 = 15) by reflexivity. assert (Ex : expansion_exponent 8 0 = 9) by reflexivity.
  assert (F9 : has 9 = true) by (apply F3; cbn [In]; tauto). assert (F11 : has 11 = true) by (apply F3; cbn [In]; tauto). assert (F15 : has 15 = true) by (apply F3; cbn [In]; tauto).
  assert (Ei : estimate p sk V (Input 0) = Some (0%nat, 2%nat, 20) /\ estimate p sk V (Input 1) = Some (0%nat, 2%nat, 20)) by (cbn [estimate with_item nth_error V inputs i_level i_ct i_noise]; rewrite L0, L1, H4; split; reflexivity). destruct Ei as (Ei0 & Ei1).
  split; [split; [reflexivity|split; [vm_compute; reflexivity|]]|split; [split; [vm_compute; reflexivity|]|]].
  - unfold slots_circuit. 
    eassert (E1 : estimate p sk V (Mul (Input 0) (Input 1)) = Some _).
    { cbn [estimate] in Ei0, Ei1 |- *. rewrite Ei0, Ei1. cbn [with_state]. unfold mul_room_b. rewrite ?Eq, ?H1, ?H2, ?H3, ?En. vm_compute. reflexivity. }
    eassert (E2 : estimate p sk V (Relin 0 (Mul (Input 0) (Input 1))) = Some _).
    { cbn [estimate] in E1 |- *. rewrite E1. cbn [with_state with_item V rkeys nth_error r_from r_level r_key r_noise]. unfold switch_noise, level_ratio. rewrite ?Lb, ?Eq, ?H1, ?H2, ?H3, ?H4, ?En. vm_compute. reflexivity. }
    eassert (E3 : estimate p sk V (SubPlain (Relin 0 (Mul (Input 0) (Input 1))) 0) = Some _).
    { cbn [estimate] in E2 |- *. rewrite E2. cbn [with_state with_item V plains nth_error p_level]. rewrite ?Eq, ?H2. vm_compute. reflexivity. }
    eassert (E4 : estimate p sk V (Rows 0 (Input 0)) = Some _).
    { cbn [estimate] in Ei0 |- *. rewrite Ei0. cbn [with_state with_item V ekeys nth_error e_from e_has e_to e_noise]. rewrite H3, Er, F15. unfold galois_noise, switch_noise, level_ratio, key_base. rewrite ?Eq, ?H1, ?H2, ?H3, ?H4, ?En. vm_compute. reflexivity. }
    eassert (E5 : estimate p sk V (Columns 0 3 (Rows 0 (Input 0))) = Some _).
    { cbn [estimate] in E4 |- *. rewrite E4. cbn [with_state with_item V ekeys nth_error e_from e_has e_to e_noise]. rewrite H3, Ec, F11. unfold galois_noise, switch_noise, level_ratio, key_base. rewrite ?Eq, ?H1, ?H2, ?H3, ?H4, ?En. vm_compute. reflexivity. }
    eassert (E6 : estimate p sk V (Add (SubPlain (Relin 0 (Mul (Input 0) (Input 1))) 0) (Columns 0 3 (Rows 0 (Input 0)))) = Some _).
    { cbn [estimate] in E3, E5 |- *. rewrite E3, E5. vm_compute. reflexivity. }
    cbn [estimate] in E6 |- *. rewrite E6. cbn [with_state with_item V ekeys nth_error e_from e_has e_to e_noise]. rewrite H3, Fs. unfold galois_noise, switch_noise, level_ratio, key_base, small_noise. rewrite ?Eq, ?H1, ?H2, ?H3, ?H4, ?En.
    eexists. split; [vm_compute; reflexivity|vm_compute; discriminate].
  - unfold switched_circuit.
    eassert (E1 : estimate p sk V (MulWith 0 (Input 0) (Input 1)) = Some _).
    { cbn [estimate] in Ei0, Ei1 |- *. rewrite Ei0, Ei1. cbn [with_state with_item V mkeys nth_error x_rkey x_switch r_from r_level r_key r_noise]. unfold mul_room_b, switch_noise, level_ratio. rewrite ?Lb, ?Eq, ?H1, ?H2, ?H3, ?H4, ?En. vm_compute. reflexivity. }
    cbn [estimate] in E1 |- *. rewrite E1. cbn [with_state]. unfold small_noise. rewrite Eq, H2. eexists. split; [vm_compute; reflexivity|vm_compute; discriminate].
  - unfold expanded_circuit.
    assert (E1 : estimate p sk V (External 0 (Input 0)) = Some (0%nat, 2%nat, norm1 m1 * 21 + external_noise p 0 rg 20)).
    { cbn [estimate] in Ei0 |- *. rewrite Ei0. cbn [with_state with_item V gkeys nth_error g_level g_rgsw g_message g_noise]. rewrite H4. reflexivity. }
    unfold external_noise, switch_noise in E1. cbn [estimate] in E1 |- *. rewrite E1. cbn [with_state with_item V ekeys nth_error e_from e_has e_to e_noise]. rewrite H3. change (Z.to_nat (Z.log2_up 2)) with 1%nat. cbn [seq forallb]. rewrite Ex, F9.
    unfold galois_noise, switch_noise, level_ratio, key_base, small_noise. rewrite ?Gb0, ?Gb1, ?Eq, ?H1, ?H2, ?H3, ?H4, ?En.
    eexists. split; [reflexivity|]. assert (Hm1 : 0 <= norm1 m1 <= 8 * 17).
    { destruct P1 as (_ & Hpt & Hc). cbn [p_message p_pt p_level] in Hpt, Hc. assert (Lm : length m1 = 8%nat) by (destruct Hpt as (_ & Hcx & (Lm & _)); rewrite Lm, <- H3; pose proof (params_good _ _ p Ho Hp) as G; destruct (at_level_ex _ _ p 0%nat Ho G ltac:(lia)) as (lv & c & A); rewrite (al_par_context _ _ p _ lv c A) in Hcx; injection Hcx as <-; exact (al_deg _ _ _ _ _ _ A)).
      rewrite H2 in Hc. pose proof (norm1_canonical 17 m1 ltac:(lia) Hc) as Hn1. rewrite Lm in Hn1. exact Hn1. }
    revert Hm1. generalize (norm1 m1). intros n1 Hm1.
    repeat match goal with |- context [divided_noise ?a ?b ?c] => let d := constr:(divided_noise a b c) in let v := eval vm_compute in d in replace d with v by (vm_compute; reflexivity) end.
    repeat match goal with |- context [prod_list ?a] => let d := constr:(prod_list a) in let v := eval vm_compute in d in replace d with v by (vm_compute; reflexivity) end.
    unfold key_base. rewrite H1. repeat match goal with |- context [largest_digits ?a ?b] => let d := constr:(largest_digits a b) in let v := eval vm_compute in d in replace d with v by (vm_compute; reflexivity) end.
    lia.
Qed.
Lemma circuit_run_ex : exists par sk V, env_ok isp_bfv cands_bfv par sk V /\ map i_slots (inputs V) = [[1; 2; 16; 4; 5; 6; 7; 8]; [3; 1; 4; 1; 5; 9]] /\
  (exists ct pt, run V slots_circuit = Val ct /\ sk_decrypt sk ct = Val pt /\ decode_u64 pt (Some (mkEnc EncSimd 0)) = Val (repeat 16 8)) /\
  (exists ct pt, run V switched_circuit = Val ct /\ sk_decrypt sk ct = Val pt /\ decode_u64 pt (Some (mkEnc EncSimd 1)) = Val [14; 15; 4; 13; 9; 14; 0; 0]) /\
  (exists ct pt, run V expanded_circuit = Val ct /\ sk_decrypt sk ct = Val pt).
Proof.
  destruct circuit_hypotheses_ex as (par & Hp & Hn & Hs & Hd & EN & Et & sk & Hsk & V & HV & HS & Ei & (Hw & Em & B & E & HB) & (Em' & B' & E' & HB') & (B'' & E'' & HB'')). pose proof oracles_bfv as Ho. exists par, sk, V. split; [exact HV|]. split; [exact Ei|]. rewrite <- Em, <- Em', <- EN, <- Et.
  split; [|split].
  - exact (circuit_slots_all isp_bfv cands_bfv par Ho Hp Hn Hs Hd sk Hsk V HV HS _ _ _ _ Hw E HB).
  - exact (circuit_slots_all isp_bfv cands_bfv par Ho Hp Hn Hs Hd sk Hsk V HV HS switched_circuit _ _ _ eq_refl E' HB').
  - destruct (circuit_decrypt_all isp_bfv cands_bfv par Ho Hp Hs Hd sk Hsk V HV _ _ _ _ E'' HB'') as (ct & pt & E1 & E2 & _). eauto.
Qed.
