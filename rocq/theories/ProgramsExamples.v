(** Examples for the example programs. *)
From Coq Require Import Znumtheory.
From Verif Require Import Outcome BasicSpec OutcomeLemmas NttModel CbdModel TranscodeModel PrimesModel RnsModel RnsSpec RqModel RqSpec ParamsModel BfvSpec PlainModel CipherModel OpsModel SchemeSpec CipherSpec KeysModel KeysSpec EvalSpec RgswSpec CircuitSpec.
From Verif Require Import PrimeCert ParamsProofs BuildProofs ParamsPropLemmas ExampleParams CipherExamples KeyExamples DefaultModel DefaultSpec DefaultPropLemmas ProgramsModel ProgramsSpec ProgramsSetProofs ProgramsPropLemmas.
From Verif Require Import BasicSpec.

Definition fresh_ex (i : nat) : fresh := mkFresh (rngs_ex i) (rngs_ex (i + 1)) (rngs_ex (i + 2)).
Lemma fresh_ex_ok i : fresh_ok (fresh_ex i).
Proof. repeat split; apply rngs_ex_ok. Qed.
Definition basic_ex : basic_draws := mkBasic (rngs_ex 0) (repeat 3 32) (rngs_ex 4) fresh_ex.
Lemma basic_ex_ok : basic_ok basic_ex.
Proof. split; [apply rngs_ex_ok|]. split; [apply rngs_ex_ok|exact fresh_ex_ok]. Qed.
Definition ops_ex : ops_draws := mkOps (rngs_ex 0) (repeat 3 32) (rngs_ex 4) (fun _ => repeat 5 32) (fun _ => rngs_ex) (repeat 7 32) rngs_ex (fun i j => fresh_ex (10 * i + j)).
Lemma ops_ex_ok : ops_ok ops_ex.
Proof. split; [apply rngs_ex_ok|]. split; [apply rngs_ex_ok|]. split; [intros e i; apply rngs_ex_ok|]. split; [intros i; apply rngs_ex_ok|intros i j; apply fresh_ex_ok]. Qed.
Definition rgsw_ex : rgsw_draws := mkRgswDraws (rngs_ex 0) (repeat 3 32) (rngs_ex 4) (repeat 5 32) (rngs_ex 6) (repeat 7 32) (repeat 9 32) rngs_ex (fun i => rngs_ex (i + 20)).
Lemma rgsw_ex_ok : rgsw_ok rgsw_ex.
Proof. split; [apply rngs_ex_ok|]. split; [apply rngs_ex_ok|]. split; [apply rngs_ex_ok|]. split; intros i; apply rngs_ex_ok. Qed.

(** The programs themselves. *)
Lemma programs_ex : oracles isp_bfv cands_bfv /\ complete_draws cands_bfv /\ expands_well expand_ex /\ basic_ok basic_ex /\ ops_ok ops_ex /\ rgsw_ok rgsw_ex /\
  bfv_basic expand_ex isp_bfv cands_bfv Z.of_nat basic_ex = Val (8, [6; 8; 10; 12]) /\
  (exists l, bfv_ops expand_ex derive_ex isp_bfv cands_bfv Z.of_nat ops_ex = Val (mkResults 32 32 50 50 34 l)) /\ rgsw_main expand_ex derive_ex isp_bfv cands_bfv Z.of_nat rgsw_ex = Panic.
Proof.
  split; [exact oracles_bfv|]. split; [exact cands_bfv_complete|]. split; [exact expand_ex_ok|]. split; [exact basic_ex_ok|]. split; [exact ops_ex_ok|]. split; [exact rgsw_ex_ok|].
  split; [exact (basic_all _ _ _ oracles_bfv cands_bfv_complete expand_ex_ok Z.of_nat _ basic_ex_ok)|]. split; [|exact (rgsw_main_all _ _ _ derive_ex oracles_bfv cands_bfv_complete expand_ex_ok Z.of_nat _ rgsw_ex_ok)].
  destruct (ops_all _ _ _ derive_ex oracles_bfv cands_bfv_complete expand_ex_ok Z.of_nat _ ops_ex_ok) as (l & _ & E). exists l. exact E.
Qed.

(** Parameters that leave room for each of the computations, with keys. *)
Lemma program_params_ex : exists par, is_params isp_bfv cands_bfv par /\ program_params par /\ pa_ntt par <> None /\ serializable par /\ max_level par = 2%nat /\ pa_t par = 17 /\ pa_degree par = 8%nat /\ pa_t par <= level_modulus par 2 /\
  products_fit par /\ direct_products_fit par /\ small_noise par 0 (2 * encryption_noise par + 1) /\ small_noise par 0 (plain_weights_noise par 3) /\ small_noise par 0 (simd_weights_noise par) /\
  small_noise par 0 (plain_product_noise par 3) /\ small_noise par 0 (simd_product_noise par) /\ small_noise par 0 (polynomial_noise par 3) /\ small_noise par 0 (polynomial_noise par (Z.of_nat (pa_degree par) * (pa_t par - 1))) /\
  small_noise par 0 (external_product_noise par) /\ small_noise par 0 (direct_product_noise par).
Proof.
  destruct three_params as (par & Hp & Em & Et & Ed & Ev). exists par. split; [exact Hp|]. split; [|split; [|split; [|split; [|split; [exact Et|split; [exact Ed|]]]]]].
  - unfold program_params, supported, decryptable, decryption_base, level_modulus, level_moduli. rewrite Em, Et. repeat split; vm_compute; (reflexivity || discriminate).
  - apply (prime_slots isp_bfv cands_bfv par oracles_bfv cands_bfv_complete Hp); rewrite ?Et, ?Ed; [|reflexivity|reflexivity]. assert (R : 0 <= 17 < 2 ^ 64) by (split; [discriminate|reflexivity]). apply (isp_bfv_ok 17 R). vm_compute. reflexivity.
  - unfold serializable. rewrite Em, Ed. vm_compute. repeat split; discriminate.
  - destruct (gp_levels _ _ _ (params_good _ _ par oracles_bfv Hp)) as (? & ? & Hl & _). unfold max_level. rewrite Hl, Em. reflexivity.
  - unfold products_fit, direct_products_fit, mul_room, small_noise, plain_weights_noise, simd_weights_noise, plain_product_noise, simd_product_noise, polynomial_noise, external_product_noise, direct_product_noise, inner_sum_noise, product_noise, switching_noise, encryption_noise, pk_noise, key_noise, switch_noise, key_norm, key_base, level_ratio, level_modulus, level_moduli.
    rewrite Em, Et, Ed, Ev. repeat split; vm_compute; (reflexivity || discriminate).
Qed.
Lemma small_list par v : pa_t par = 17 -> pa_degree par = 8%nat -> forallb (fun a => (0 <=? a) && (a <? 17)) v = true -> (length v <= 8)%nat -> values par v.
Proof. intros Et Ed Hv Hl. unfold values. rewrite Et, Ed. split; [|exact Hl]. apply Forall_forall. intros a Ha. apply (proj1 (forallb_forall _ _) Hv) in Ha. apply andb_true_iff in Ha. rewrite Z.leb_le, Z.ltb_lt in Ha. exact Ha. Qed.
(** What the computations give for keys that are drawn and some values. *)
Lemma computations_ex : exists par sk pk ek rk, is_params isp_bfv cands_bfv par /\ ops_keys expand_ex derive_ex par ops_ex = Val (sk, pk, ek, rk) /\ key_pair par sk pk /\ sum_key par sk ek /\ relin_key par sk rk /\
  sum_of_two par sk pk EncSimd [1; 2; 16] [5; 6; 7] (fresh_ex 0) (fresh_ex 3) = Val [6; 8; 6; 0; 0; 0; 0; 0] /\
  plain_weights par sk pk [1; 2; 3] [4; 5; 6] fresh_ex = Val 15 /\ simd_weights par sk pk ek [1; 2; 3] [4; 5; 6] (fresh_ex 0) = Val 15 /\
  plain_inner_product par sk pk rk [1; 2; 3] [7; 8; 9] fresh_ex fresh_ex = Val 16 /\ simd_inner_product par sk pk ek rk [1; 2; 3] [7; 8; 9] (fresh_ex 0) (fresh_ex 3) = Val 16 /\
  polynomial par sk pk rk EncPoly [3] (fresh_ex 0) = Val [0; 0; 0; 0; 0; 0; 0; 0] /\ polynomial par sk pk rk EncSimd [1; 2; 3; 4] (fresh_ex 0) = Val [6; 0; 0; 6; 0; 0; 0; 0] /\
  exists sk p q, rgsw_products expand_ex derive_ex par [1; 2; 3; 4] [5; 6; 7; 8] rgsw_ex = Val (sk, p, q) /\ rgsw_compare sk p q 0 4 = Val [5; 12; 4; 15] /\ rgsw_compare sk p q 2 4 = Panic.
Proof.
  destruct program_params_ex as (par & Hp & HP & Hn & Hser & Hl & Et & Ed & HtL & Hf & Hf' & R1 & R2 & R3 & R4 & R5 & R6 & R7 & R8 & R9).
  assert (Hv : forall v, forallb (fun a => (0 <=? a) && (a <? 17)) v = true -> (length v <= 8)%nat -> values par v) by (intros v; exact (small_list par v Et Ed)).
  destruct (keys_all _ _ par oracles_bfv Hp ltac:(rewrite Hl; lia) expand_ex derive_ex expand_ex_ok ops_ex ops_ex_ok) as (sk & pk & ek & rk & E & HK & Hek & Hrk). exists par, sk, pk, ek, rk.
  assert (A1 : values par [1; 2; 3]) by (apply Hv; [reflexivity|cbn; lia]). assert (A2 : values par [4; 5; 6]) by (apply Hv; [reflexivity|cbn; lia]). assert (A3 : values par [7; 8; 9]) by (apply Hv; [reflexivity|cbn; lia]). assert (A4 : values par [1; 2; 3; 4]) by (apply Hv; [reflexivity|cbn; lia]). assert (A5 : values par [5; 6; 7; 8]) by (apply Hv; [reflexivity|cbn; lia]).
  assert (A6 : values par [1; 2; 16]) by (apply Hv; [reflexivity|cbn; lia]). assert (A7 : values par [5; 6; 7]) by (apply Hv; [reflexivity|cbn; lia]).
  do 5 (split; [assumption|]).
  split. { rewrite (sum_all _ _ par oracles_bfv Hp HP sk pk HK EncSimd _ _ _ _ (fun _ => Hn) A6 A7 (fresh_ex_ok 0) (fresh_ex_ok 3) R1), Et, Ed. reflexivity. }
  destruct (weights_all _ _ par oracles_bfv Hp HP sk pk HK) as (W1 & W2).
  split. { rewrite (W1 _ _ fresh_ex (proj1 A1) (proj1 A2) ltac:(discriminate) ltac:(discriminate) fresh_ex_ok R2), Et. reflexivity. }
  split. { rewrite (W2 _ _ ek _ A1 A2 Hek Hn (fresh_ex_ok 0) R3), Et. reflexivity. }
  destruct (inner_product_all _ _ par oracles_bfv Hp HP sk pk HK rk Hrk Hf) as (I1 & I2).
  split. { rewrite (I1 _ _ fresh_ex fresh_ex (proj1 A1) (proj1 A3) ltac:(discriminate) ltac:(discriminate) fresh_ex_ok fresh_ex_ok R4), Et. reflexivity. }
  split. { rewrite (I2 _ _ ek _ _ A1 A3 Hek Hn (fresh_ex_ok 0) (fresh_ex_ok 3) R5), Et. reflexivity. }
  destruct (polynomial_all _ _ par oracles_bfv Hp HP sk pk HK rk Hrk Hf ltac:(rewrite Et; lia)) as (P1 & P2).
  split. { rewrite (P1 3 _ ltac:(rewrite Et; lia) (fresh_ex_ok 0) R6), Et, Ed. reflexivity. }
  split. { rewrite (P2 _ _ A4 Hn (fresh_ex_ok 0) R7), Et, Ed. reflexivity. }
  destruct (rgsw_all _ _ par oracles_bfv Hp HP Hn Hser Hf' R8 R9 expand_ex derive_ex _ _ rgsw_ex expand_ex_ok A4 A5 rgsw_ex_ok) as (s & p & q & Er & _ & _ & Hc & Hc'). exists s, p, q. split; [exact Er|]. split.
  - rewrite (Hc 4%nat ltac:(rewrite Ed; lia)). unfold slot_products. rewrite Et, Ed. reflexivity.
  - rewrite Hl in Hc'. apply Hc'; [lia|exact HtL].
Qed.
