(** Closing lemmas for the example programs. *)
From Verif Require Import Outcome BasicSpec OutcomeLemmas NttModel CbdModel TranscodeModel RnsModel RnsSpec RqModel RqSpec ParamsModel BfvSpec PlainModel CipherModel OpsModel SchemeSpec CipherSpec KeysModel KeysSpec EvalSpec RgswSpec CircuitSpec.
From Verif Require Import DefaultModel DefaultSpec DefaultPropLemmas ProgramsModel ProgramsSpec ProgramsProofs ProgramsSetProofs ProgramsRgswProofs.
From Verif Require Import BasicSpec.
Set Default Proof Using "Type".

Lemma small_values par v : (8 <= pa_degree par)%nat -> 2 ^ 15 <= pa_t par -> forallb (fun a => (0 <=? a) && (a <? 100)) v = true -> (length v <= 8)%nat -> values par v.
Proof.
  intros Hn Ht Hv Hl. split; [|lia]. apply Forall_forall. intros a Ha. apply (proj1 (forallb_forall _ _) Hv) in Ha. apply andb_true_iff in Ha. rewrite Z.leb_le, Z.ltb_lt in Ha. lia.
Qed.

Section Basic.
  Context (isp : Z -> bool) (cands : Z -> list Z) (Ho : oracles isp cands) (Hd : complete_draws cands) (expand : expander) (Hx : expands_well expand) (ids : nat -> Z).
  Set Default Proof Using "All".
  Lemma bfv_basic_ok d : basic_ok d -> bfv_basic expand isp cands ids d = Val (8, [6; 8; 10; 12]).
  Proof.
    intros (W1 & W2 & D). unfold bfv_basic. pose proof (or_introl eq_refl : 16 = 16 \/ 16 = 20) as Hnb. destruct (third_ok isp cands Ho Hd ids 16 (Err (ParNoDefault 16)) Hnb) as (par & -> & H3). cbn [bind].
    pose proof (third_params isp cands Ho Hd 16 Hnb par H3) as Hp. pose proof (third_t isp cands Ho Hd 16 Hnb par H3) as Ht. pose proof (third_N isp cands Ho Hd 16 Hnb par H3) as HN. pose proof (third_program isp cands Ho Hd 16 Hnb par H3) as HP. pose proof (third_sum isp cands Ho Hd 16 Hnb par H3) as Hs.
    destruct (pair_ok isp cands par Ho Hp expand (fun s _ => s) Hx (b_sk d) (b_pk_seed d) (b_pk d) W1 W2) as (sk & pk & -> & E2 & HK). cbn [bind]. rewrite E2. cbn [bind].
    assert (Hv : forall v, forallb (fun a => (0 <=? a) && (a <? 100)) v = true -> (length v <= 8)%nat -> values par v) by (intros v; apply small_values; lia).
    rewrite (sum_of_two_ok isp cands par Ho Hp HP sk pk HK EncPoly [3] [5] _ _ ltac:(discriminate) (Hv [3] eq_refl ltac:(cbn; lia)) (Hv [5] eq_refl ltac:(cbn; lia)) (D _) (D _) Hs). cbn [bind].
    rewrite (sum_of_two_ok isp cands par Ho Hp HP sk pk HK EncSimd [1; 2; 3; 4] [5; 6; 7; 8] _ _ (fun _ => third_slots isp cands Ho Hd 16 Hnb par H3) (Hv [1; 2; 3; 4] eq_refl ltac:(cbn; lia)) (Hv [5; 6; 7; 8] eq_refl ltac:(cbn; lia)) (D _) (D _) Hs).
    unfold pad. cbn [app zipWith get nth_error unwrap bind prefix length]. unfold prefix. cbn [length Nat.leb guard bind firstn]. rewrite !Z.mod_small by lia. reflexivity.
  Qed.
End Basic.

Section Ops.
  Context (isp : Z -> bool) (cands : Z -> list Z) (Ho : oracles isp cands) (Hd : complete_draws cands) (expand : expander) (derive : deriver) (Hx : expands_well expand) (ids : nat -> Z).
  Set Default Proof Using "All".
  Lemma bfv_ops_ok d : ops_ok d -> exists l, length l = 4%nat /\ bfv_ops expand derive isp cands ids d = Val (mkResults 32 32 50 50 34 l).
  Proof.
    intros Hd'. pose proof Hd' as (_ & _ & _ & _ & D). unfold bfv_ops. pose proof (or_intror eq_refl : 20 = 16 \/ 20 = 20) as Hnb. destruct (third_ok isp cands Ho Hd ids 20 Panic Hnb) as (par & -> & H3). cbn [no_err bind].
    pose proof (third_params isp cands Ho Hd 20 Hnb par H3) as Hp. pose proof (third_t isp cands Ho Hd 20 Hnb par H3) as Ht. pose proof (third_N isp cands Ho Hd 20 Hnb par H3) as HN. pose proof (third_program isp cands Ho Hd 20 Hnb par H3) as HP.
    pose proof (third_levels isp cands Ho Hd 20 Hnb par H3) as Hl. pose proof (third_slots isp cands Ho Hd 20 Hnb par H3) as Hn. pose proof (third_fit isp cands Ho Hd 20 Hnb par H3) as Hf.
    destruct (keys_ok isp cands par Ho Hp expand derive Hx d Hd' ltac:(lia)) as (sk & pk & ek & rk & -> & HK & Hek & Hrk). cbn [bind].
    assert (Hv : forall v, forallb (fun a => (0 <=? a) && (a <? 100)) v = true -> (length v <= 8)%nat -> values par v) by (intros v; apply small_values; lia).
    assert (H123 : values par [1; 2; 3]) by (apply Hv; [reflexivity|cbn; lia]). assert (H456 : values par [4; 5; 6]) by (apply Hv; [reflexivity|cbn; lia]). assert (H789 : values par [7; 8; 9]) by (apply Hv; [reflexivity|cbn; lia]). assert (H1234 : values par [1; 2; 3; 4]) by (apply Hv; [reflexivity|cbn; lia]).
    rewrite (plain_weights_ok isp cands par Ho Hp HP sk pk HK [1; 2; 3] [4; 5; 6] (o_enc d 1) (proj1 H123) (proj1 H456) ltac:(discriminate) ltac:(discriminate) (D 1%nat) (third_plain_weights isp cands Ho Hd 20 Hnb par H3)). cbn [bind].
    rewrite (simd_weights_ok isp cands par Ho Hp HP sk pk HK [1; 2; 3] [4; 5; 6] ek _ H123 H456 Hek Hn (D 2%nat 0%nat) (third_simd_weights isp cands Ho Hd 20 Hnb par H3)). cbn [bind].
    rewrite (plain_inner_product_ok isp cands par Ho Hp HP sk pk HK [1; 2; 3] [7; 8; 9] rk (o_enc d 3) (o_enc d 4) (proj1 H123) (proj1 H789) ltac:(discriminate) ltac:(discriminate) Hrk Hf (D 3%nat) (D 4%nat) (third_plain_product isp cands Ho Hd 20 Hnb par H3)). cbn [bind].
    rewrite (simd_inner_product_ok isp cands par Ho Hp HP sk pk HK [1; 2; 3] [7; 8; 9] ek rk _ _ H123 H789 Hek Hrk Hf Hn (D 5%nat 0%nat) (D 5%nat 1%nat) (third_simd_product isp cands Ho Hd 20 Hnb par H3)). cbn [bind].
    rewrite (plain_polynomial_ok isp cands par Ho Hp HP sk pk HK 3 rk _ ltac:(lia) ltac:(lia) Hrk Hf (D 6%nat 0%nat) (third_polynomial isp cands Ho Hd 20 Hnb par H3)). cbn [bind].
    unfold pad at 1. cbn [app get nth_error unwrap bind]. destruct (simd_polynomial_run isp cands par Ho Hp HP sk pk HK [1; 2; 3; 4] rk (o_enc d 7 0%nat) H1234 ltac:(lia) Hrk Hf Hn (D 7%nat 0%nat)) as (ct & m & B & (_ & xs & e & Hct & Hlen & _) & ->).
    destruct HP as (Hsup & _ & HtQ & _). destruct (decrypted_any isp cands par Ho Hp Hsup HtQ Hn sk ct xs (proj1 HK) Hct Hlen) as (v & -> & Lv). cbn [bind]. exists (firstn 4 v). split; [rewrite firstn_length; lia|].
    unfold prefix. rewrite (proj2 (Nat.leb_le 4 (length v))) by lia. cbn [guard bind]. change (inner [1; 2; 3] [4; 5; 6]) with 32. change (inner [1; 2; 3] [7; 8; 9]) with 50. change (polynomial_at 3) with 34. rewrite !Z.mod_small by lia. reflexivity.
  Qed.
End Ops.

Section Rgsw.
  Context (isp : Z -> bool) (cands : Z -> list Z) (Ho : oracles isp cands) (Hd : complete_draws cands) (expand : expander) (derive : deriver) (Hx : expands_well expand) (ids : nat -> Z).
  Set Default Proof Using "All".
  Lemma rgsw_main_panics d : rgsw_ok d -> rgsw_main expand derive isp cands ids d = Panic.
  Proof.
    intros Hd'. unfold rgsw_main. pose proof (or_intror eq_refl : 20 = 16 \/ 20 = 20) as Hnb. destruct (third_ok isp cands Ho Hd ids 20 Panic Hnb) as (par & -> & H3). cbn [no_err bind].
    pose proof (third_params isp cands Ho Hd 20 Hnb par H3) as Hp. pose proof (third_t isp cands Ho Hd 20 Hnb par H3) as Ht. pose proof (third_N isp cands Ho Hd 20 Hnb par H3) as HN. pose proof (third_program isp cands Ho Hd 20 Hnb par H3) as HP.
    pose proof (third_levels isp cands Ho Hd 20 Hnb par H3) as Hl. pose proof (third_slots isp cands Ho Hd 20 Hnb par H3) as Hn. pose proof (third_direct_fit isp cands Ho Hd 20 Hnb par H3) as Hf.
    destruct (rgsw_products_ok isp cands par Ho Hp HP expand derive [1; 2; 3; 4] [5; 6; 7; 8] d Hx Hd' Hn) as (sk & p & q & m & -> & Hsk & Es & Ep & Eq & _); [apply small_values; [lia|lia|reflexivity|cbn; lia]|apply small_values; [lia|lia|reflexivity|cbn; lia]|exact Hf|]. cbn [bind].
    destruct Ep as (xs & e & Hxs & Lx & _). destruct Eq as (ys & e' & Hys & Ly & _). destruct Hxs as (Ect & Hxs'). rewrite Ect. 
    apply (compare_panics isp cands par Ho Hp HP sk p q xs ys 4); try assumption; [split; assumption|lia|exact (third_last isp cands Ho Hd 20 Hnb par H3)|exact (third_serializable isp cands Ho Hd 20 Hnb par H3)].
  Qed.
End Rgsw.

(** ** The statements *)
Lemma basic_all : forall isp cands expand, oracles isp cands -> complete_draws cands -> expands_well expand -> forall ids d, basic_ok d ->
  bfv_basic expand isp cands ids d = Val (3 + 5, [1 + 5; 2 + 6; 3 + 7; 4 + 8]).
Proof. intros isp cands expand Ho Hd Hx ids d. exact (bfv_basic_ok isp cands Ho Hd expand Hx ids d). Qed.
Lemma ops_all : forall isp cands expand derive, oracles isp cands -> complete_draws cands -> expands_well expand -> forall ids d, ops_ok d -> exists l, length l = 4%nat /\
  bfv_ops expand derive isp cands ids d = Val (mkResults (1 * 4 + 2 * 5 + 3 * 6) (1 * 4 + 2 * 5 + 3 * 6) (1 * 7 + 2 * 8 + 3 * 9) (1 * 7 + 2 * 8 + 3 * 9) (3 * 3 ^ 2 + 2 * 3 + 1) l).
Proof. intros isp cands expand derive Ho Hd Hx ids d. exact (bfv_ops_ok isp cands Ho Hd expand derive Hx ids d). Qed.
Lemma rgsw_main_all : forall isp cands expand derive, oracles isp cands -> complete_draws cands -> expands_well expand -> forall ids d, rgsw_ok d -> rgsw_main expand derive isp cands ids d = Panic.
Proof. intros isp cands expand derive Ho Hd Hx ids d. exact (rgsw_main_panics isp cands Ho Hd expand derive Hx ids d). Qed.
Lemma sum_all : forall isp cands par, oracles isp cands -> is_params isp cands par -> program_params par -> forall sk pk, key_pair par sk pk ->
  forall k v1 v2 d1 d2, usable par (mkEnc k 0) -> values par v1 -> values par v2 -> fresh_ok d1 -> fresh_ok d2 -> small_noise par 0 (2 * encryption_noise par + 1) ->
  sum_of_two par sk pk k v1 v2 d1 d2 = Val (zipWith (fun a b => (a + b) mod pa_t par) (pad (pa_degree par) v1) (pad (pa_degree par) v2)).
Proof. exact sum_of_two_ok. Qed.
Lemma weights_all : forall isp cands par, oracles isp cands -> is_params isp cands par -> program_params par -> forall sk pk, key_pair par sk pk ->
  (forall vs ws d, Forall (fun a => 0 <= a < pa_t par) vs -> Forall (fun a => 0 <= a < pa_t par) ws -> vs <> [] -> ws <> [] -> (forall i, fresh_ok (d i)) ->
     small_noise par 0 (plain_weights_noise par (Z.of_nat (Nat.min (length vs) (length ws)))) -> plain_weights par sk pk vs ws d = Val (inner vs ws mod pa_t par)) /\
  (forall vs ws ek d, values par vs -> values par ws -> sum_key par sk ek -> pa_ntt par <> None -> fresh_ok d -> small_noise par 0 (simd_weights_noise par) ->
     simd_weights par sk pk ek vs ws d = Val (inner vs ws mod pa_t par)).
Proof. intros isp cands par Ho Hp HP sk pk HK. exact (conj (plain_weights_ok isp cands par Ho Hp HP sk pk HK) (simd_weights_ok isp cands par Ho Hp HP sk pk HK)). Qed.
Lemma inner_product_all : forall isp cands par, oracles isp cands -> is_params isp cands par -> program_params par -> forall sk pk, key_pair par sk pk ->
  forall rk, relin_key par sk rk -> products_fit par ->
  (forall vs ws d1 d2, Forall (fun a => 0 <= a < pa_t par) vs -> Forall (fun a => 0 <= a < pa_t par) ws -> vs <> [] -> ws <> [] -> (forall i, fresh_ok (d1 i)) -> (forall i, fresh_ok (d2 i)) ->
     small_noise par 0 (plain_product_noise par (Z.of_nat (Nat.min (length vs) (length ws)))) -> plain_inner_product par sk pk rk vs ws d1 d2 = Val (inner vs ws mod pa_t par)) /\
  (forall vs ws ek d1 d2, values par vs -> values par ws -> sum_key par sk ek -> pa_ntt par <> None -> fresh_ok d1 -> fresh_ok d2 -> small_noise par 0 (simd_product_noise par) ->
     simd_inner_product par sk pk ek rk vs ws d1 d2 = Val (inner vs ws mod pa_t par)).
Proof.
  intros isp cands par Ho Hp HP sk pk HK rk Hrk Hf. split; [intros vs ws d1 d2 H1 H2 H3 H4|intros vs ws ek d1 d2 H1 H2 H3 H4].
  - exact (plain_inner_product_ok isp cands par Ho Hp HP sk pk HK vs ws rk d1 d2 H1 H2 H3 H4 Hrk Hf).
  - exact (simd_inner_product_ok isp cands par Ho Hp HP sk pk HK vs ws ek rk d1 d2 H1 H2 H3 Hrk Hf H4).
Qed.
Lemma polynomial_all : forall isp cands par, oracles isp cands -> is_params isp cands par -> program_params par -> forall sk pk, key_pair par sk pk ->
  forall rk, relin_key par sk rk -> products_fit par -> 3 < pa_t par ->
  (forall x d, 0 <= x < pa_t par -> fresh_ok d -> small_noise par 0 (polynomial_noise par 3) -> polynomial par sk pk rk EncPoly [x] d = Val (pad (pa_degree par) [polynomial_at x mod pa_t par])) /\
  (forall x d, values par x -> pa_ntt par <> None -> fresh_ok d -> small_noise par 0 (polynomial_noise par (Z.of_nat (pa_degree par) * (pa_t par - 1))) ->
     polynomial par sk pk rk EncSimd x d = Val (pad (pa_degree par) (map (fun a => polynomial_at a mod pa_t par) x))).
Proof.
  intros isp cands par Ho Hp HP sk pk HK rk Hrk Hf H3. split; intros x d H1 H2.
  - exact (plain_polynomial_ok isp cands par Ho Hp HP sk pk HK x rk d H1 H3 Hrk Hf H2).
  - exact (simd_polynomial_ok isp cands par Ho Hp HP sk pk HK x rk d H1 H3 Hrk Hf H2).
Qed.
Lemma keys_all : forall isp cands par, oracles isp cands -> is_params isp cands par -> (0 < max_level par)%nat -> forall expand derive, expands_well expand -> forall d, ops_ok d ->
  exists sk pk ek rk, ops_keys expand derive par d = Val (sk, pk, ek, rk) /\ key_pair par sk pk /\ sum_key par sk ek /\ relin_key par sk rk.
Proof. intros isp cands par Ho Hp Hl expand derive Hx d Hd. exact (keys_ok isp cands par Ho Hp expand derive Hx d Hd Hl). Qed.
(** Without the switch of level the two products of rgsw.rs are found equal; with a switch to a last level below, the comparison fails. *)
Lemma rgsw_all : forall isp cands par, oracles isp cands -> is_params isp cands par -> program_params par -> pa_ntt par <> None -> serializable par -> direct_products_fit par ->
  small_noise par 0 (external_product_noise par) -> small_noise par 0 (direct_product_noise par) ->
  forall expand derive x y d, expands_well expand -> values par x -> values par y -> rgsw_ok d ->
  exists sk p q, rgsw_products expand derive par x y d = Val (sk, p, q) /\ decrypted sk EncSimd p = Val (slot_products par x y) /\ decrypted sk EncSimd q = Val (slot_products par x y) /\
    (forall n, (n <= pa_degree par)%nat -> rgsw_compare sk p q 0 n = Val (firstn n (slot_products par x y))) /\
    ((0 < max_level par)%nat -> pa_t par <= level_modulus par (max_level par) -> forall n, rgsw_compare sk p q (max_level par) n = Panic).
Proof.
  intros isp cands par Ho Hp HP Hn Hser Hf H1 H2 expand derive x y d Hx Hvx Hvy Hd. destruct (rgsw_products_ok isp cands par Ho Hp HP expand derive x y d Hx Hd Hn Hvx Hvy Hf) as (sk & p & q & m & E & Hsk & Es & Ep & Eq & D1 & D2).
  exists sk, p, q. split; [exact E|]. split; [exact (D1 H1)|]. split; [exact (D2 H2)|]. split.
  - intros n Hln. apply (compare_same isp cands par Ho Hp HP sk p q m _ _ _ n Hsk Ep Eq H1 H2 Es Hser); [|exact (D1 H1)]. destruct Hvx, Hvy. unfold slot_products. rewrite zipWith_length. unfold pad. rewrite !app_length, !repeat_length. lia.
  - intros Hl HtL n. destruct Ep as (xs & e & Hxs & Lx & _). destruct Eq as (ys & e' & Hys & Ly & _). exact (compare_panics isp cands par Ho Hp HP sk p q xs ys n Hsk Hxs Lx Es Hys Ly Hl HtL Hser).
Qed.
