(** C50 in the terms of SafeSpec.v. *)
From Verif Require Import Outcome BasicSpec PolySpec NttModel RnsModel RnsSpec RqModel RqSpec ParamsModel BfvSpec ParamsPropLemmas PlainModel CipherModel SchemeSpec CipherSpec OpsModel KeysModel KeysSpec EvalSpec MbfvModel WireSpec WireOpsProofs ReachSpec ReachProofs SafeSpec SafeProofs SafeOpsProofs.
Set Default Proof Using "Type".

Section Props.
  Variables (isp : Z -> bool) (cands : Z -> list Z) (par : params).
  Lemma all_reach_shaped expand cts : oracles isp cands -> is_params isp cands par -> serializable par -> expands_well expand -> Forall (reach isp cands expand par) cts -> Forall (some_parts isp cands par) cts.
  Proof. intros Ho Hp Hser Hx H. eapply Forall_impl; [|exact H]. intros a Ha. exact (proj1 (reach_ok isp cands Ho par (params_good isp cands par Ho Hp) Hp expand a Hser Hx Ha)). Qed.
  Lemma reach_shaped expand ct : oracles isp cands -> is_params isp cands par -> serializable par -> expands_well expand -> reach isp cands expand par ct -> some_parts isp cands par ct.
  Proof. intros Ho Hp Hser Hx Ha. exact (proj1 (reach_ok isp cands Ho par (params_good isp cands par Ho Hp) Hp expand ct Hser Hx Ha)). Qed.

  Theorem call_all : oracles isp cands -> is_params isp cands par -> serializable par -> supported par -> forall expand, expands_well expand -> forall ins A (m : M A), Forall (reach isp cands expand par) ins -> call isp cands expand par ins A m -> m <> Panic.
  Proof. intros Ho Hp Hser Hsup expand Hx ins A m Hins Hcall. exact (call_safe isp cands Ho par (params_good isp cands par Ho Hp) Hp expand ins A m Hser Hx Hsup (all_reach_shaped expand ins Ho Hp Hser Hx Hins) Hcall). Qed.
  Theorem default_tame_all : oracles isp cands -> is_params isp cands par -> supported par -> forall l1 l2 k, key_shape par l1 l2 k -> base_fits k -> forall m, mult_default isp cands k = Val m ->
    tame_multiplier isp cands par m /\ forall m', mult_enable_switch m = Val m' -> tame_multiplier isp cands par m'.
  Proof.
    intros Ho Hp Hs l1 l2 k Hk Hf m H. pose proof (default_tame isp cands Ho par (params_good isp cands par Ho Hp) Hp k l1 l2 m Hs Hk Hf H) as T. split; [exact T|]. intros m' H'. exact (tame_switch isp cands par m m' T H').
  Qed.
  Theorem operators_all : oracles isp cands -> is_params isp cands par -> serializable par -> supported par -> forall expand, expands_well expand -> forall a b, reach isp cands expand par a -> reach isp cands expand par b ->
    (ct_add a b = Panic <-> ct_c a <> [] /\ ct_c b <> [] /\ mismatch a b) /\ (ct_sub a b = Panic <-> ct_c a <> [] /\ ct_c b <> [] /\ mismatch a b) /\ (ct_mul a b = Panic <-> ct_c a <> [] /\ ct_level a <> ct_level b) /\ ct_neg a <> Panic /\
    forall e, ct_add a b <> Err e /\ ct_sub a b <> Err e /\ ct_mul a b <> Err e /\ ct_neg a <> Err e.
  Proof.
    intros Ho Hp Hser Hs expand Hx a b Ra Rb. pose proof (params_good isp cands par Ho Hp) as G. pose proof (reach_shaped expand a Ho Hp Hser Hx Ra) as Ha. pose proof (reach_shaped expand b Ho Hp Hser Hx Rb) as Hb.
    destruct (add_cases isp cands Ho par G Hp a b Ha Hb) as (A1 & A2). destruct (sub_cases isp cands Ho par G Hp a b Ha Hb) as (B1 & B2). destruct (mul_cases isp cands Ho par G Hp a b Hs Ha Hb) as (C1 & C2). destruct (neg_total isp cands Ho par G Hp a Ha) as (r & E). rewrite E.
    split; [exact A1|]. split; [exact B1|]. split; [exact C1|]. split; [discriminate|]. intros e. split; [apply A2|]. split; [apply B2|]. split; [apply C2|discriminate].
  Qed.
  Theorem plain_operators_all : oracles isp cands -> is_params isp cands par -> serializable par -> forall expand, expands_well expand -> forall a pt, reach isp cands expand par a -> usable_pt par pt ->
    (ct_add_pt a pt = Panic <-> ct_c a = [] \/ pt_level pt <> Val (ct_level a)) /\ (ct_sub_pt a pt = Panic <-> ct_c a = [] \/ pt_level pt <> Val (ct_level a)) /\ (pt_sub_ct pt a = Panic <-> ct_c a = [] \/ pt_level pt <> Val (ct_level a)) /\
    (ct_mul_pt a pt = Panic <-> ct_c a <> [] /\ pt_level pt <> Val (ct_level a)) /\ forall e, ct_add_pt a pt <> Err e /\ ct_sub_pt a pt <> Err e /\ pt_sub_ct pt a <> Err e /\ ct_mul_pt a pt <> Err e.
  Proof.
    intros Ho Hp Hser expand Hx a pt Ra Hpt. pose proof (params_good isp cands par Ho Hp) as G. pose proof (reach_shaped expand a Ho Hp Hser Hx Ra) as Ha. destruct (pt_cases isp cands Ho par G Hp a pt Ha Hpt) as (A1 & A2 & A3 & A4).
    destruct (mul_pt_cases isp cands Ho par G Hp a pt Ha) as (B1 & B2); [destruct Hpt as (l & m & Hl & H & _); exists l, m; auto|]. split; [exact A1|]. split; [exact A2|]. split; [exact A3|]. split; [exact B1|]. intros e. destruct (A4 e) as (E1 & E2 & E3). split; [exact E1|]. split; [exact E2|]. split; [exact E3|apply B2].
  Qed.
  Theorem pksw_panics_all : oracles isp cands -> is_params isp cands par -> serializable par -> forall expand, expands_well expand -> forall ct, reach isp cands expand par ct -> forall sk pk ru r0 r1, is_sk par sk -> pk_shape par pk -> words ru -> words r0 -> words r1 ->
    (pksw_new sk pk ct ru r0 r1 = Panic <-> (length (ct_c ct) < 2)%nat) /\ forall e, pksw_new sk pk ct ru r0 r1 <> Err e.
  Proof. intros Ho Hp Hser expand Hx ct Rc sk pk ru r0 r1 Hsk Hpk W0 W1 W2. exact (pksw_cases isp cands Ho par (params_good isp cands par Ho Hp) Hp sk pk ct ru r0 r1 Hsk Hpk W0 W1 W2 (reach_shaped expand ct Ho Hp Hser Hx Rc)). Qed.
  Theorem shares_all : oracles isp cands -> is_params isp cands par -> serializable par -> supported par -> forall expand, expands_well expand -> forall ct0 s0 cts shares, Forall (reach isp cands expand par) (ct0 :: cts) -> Forall2 (share_of par) (ct0 :: cts) (s0 :: shares) ->
    (sks_from_shares (s0 :: shares) = Panic <-> ~ Forall (fun ct => ct_level ct = ct_level ct0) cts) /\ (dec_from_shares (s0 :: shares) = Panic <-> ~ Forall (fun ct => ct_level ct = ct_level ct0) cts) /\ forall e, sks_from_shares (s0 :: shares) <> Err e /\ dec_from_shares (s0 :: shares) <> Err e.
  Proof. intros Ho Hp Hser Hs expand Hx ct0 s0 cts shares HR HF. exact (shares_cases isp cands Ho par (params_good isp cands par Ho Hp) Hp ct0 s0 cts shares Hs (all_reach_shaped expand (ct0 :: cts) Ho Hp Hser Hx HR) HF). Qed.
End Props.
