(** Property C50: functions that return a [Result] do not panic.  A [call] (SafeSpec.v) is a call of such a function on ciphertexts that a program can
    hold ([reach], ReachSpec.v).  Beside the calls of [call], the arithmetic operators (which do not return a [Result]) panic exactly on mismatched
    operands, and two functions of the multiparty protocols that do return a [Result] panic: the literal statement is refuted. *)
From Verif Require Import Outcome BasicSpec PolySpec NttModel RnsModel RnsSpec RqModel RqSpec ParamsModel BfvSpec PlainModel CipherModel OpsModel SchemeSpec CipherSpec KeysModel KeysSpec EvalSpec MbfvModel WireSpec ReachSpec SafeSpec SafePropLemmas.
From Verif Require Import ParamsPropLemmas ExampleParams CipherExamples SafeExamples.
(** C50: no call of [call] panics, whatever the levels, the numbers of parts and the keys. *)
Theorem C50_calls_partial : forall isp cands par, oracles isp cands -> is_params isp cands par -> serializable par -> supported par -> forall expand, expands_well expand -> forall ins A (m : M A), Forall (reach isp cands expand par) ins -> call isp cands expand par ins A m -> m <> Panic.
Proof. exact call_all. Qed.
Print Assumptions C50_calls_partial.
(** C50: the multiplicators of [Multiplicator::default] are among those of [call]. *)
Theorem C50_multiplicators : forall isp cands par, oracles isp cands -> is_params isp cands par -> supported par -> forall l1 l2 k, key_shape par l1 l2 k -> base_fits k -> forall m, mult_default isp cands k = Val m ->
  tame_multiplier isp cands par m /\ forall m', mult_enable_switch m = Val m' -> tame_multiplier isp cands par m'.
Proof. exact default_tame_all. Qed.
Print Assumptions C50_multiplicators.
(** C50: when the operators on two ciphertexts panic. *)
Theorem C50_operators : forall isp cands par, oracles isp cands -> is_params isp cands par -> serializable par -> supported par -> forall expand, expands_well expand -> forall a b, reach isp cands expand par a -> reach isp cands expand par b ->
  (ct_add a b = Panic <-> ct_c a <> [] /\ ct_c b <> [] /\ mismatch a b) /\ (ct_sub a b = Panic <-> ct_c a <> [] /\ ct_c b <> [] /\ mismatch a b) /\ (ct_mul a b = Panic <-> ct_c a <> [] /\ ct_level a <> ct_level b) /\ ct_neg a <> Panic /\
  forall e, ct_add a b <> Err e /\ ct_sub a b <> Err e /\ ct_mul a b <> Err e /\ ct_neg a <> Err e.
Proof. exact operators_all. Qed.
Print Assumptions C50_operators.
(** C50: when the operators on a ciphertext and a plaintext panic. *)
Theorem C50_plain_operators : forall isp cands par, oracles isp cands -> is_params isp cands par -> serializable par -> forall expand, expands_well expand -> forall a pt, reach isp cands expand par a -> usable_pt par pt ->
  (ct_add_pt a pt = Panic <-> ct_c a = [] \/ pt_level pt <> Val (ct_level a)) /\ (ct_sub_pt a pt = Panic <-> ct_c a = [] \/ pt_level pt <> Val (ct_level a)) /\ (pt_sub_ct pt a = Panic <-> ct_c a = [] \/ pt_level pt <> Val (ct_level a)) /\
  (ct_mul_pt a pt = Panic <-> ct_c a <> [] /\ pt_level pt <> Val (ct_level a)) /\ forall e, ct_add_pt a pt <> Err e /\ ct_sub_pt a pt <> Err e /\ pt_sub_ct pt a <> Err e /\ ct_mul_pt a pt <> Err e.
Proof. exact plain_operators_all. Qed.
Print Assumptions C50_plain_operators.
(** C50: [PublicKeySwitchShare::new] panics on exactly the ciphertexts of less than two parts. *)
Theorem C50_public_switch_refuted : forall isp cands par, oracles isp cands -> is_params isp cands par -> serializable par -> forall expand, expands_well expand -> forall ct, reach isp cands expand par ct -> forall sk pk ru r0 r1, is_sk par sk -> pk_shape par pk -> words ru -> words r0 -> words r1 ->
  (pksw_new sk pk ct ru r0 r1 = Panic <-> (length (ct_c ct) < 2)%nat) /\ forall e, pksw_new sk pk ct ru r0 r1 <> Err e.
Proof. exact pksw_panics_all. Qed.
Print Assumptions C50_public_switch_refuted.
(** C50: aggregating shares of ciphertexts of different levels panics. *)
Theorem C50_shares_refuted : forall isp cands par, oracles isp cands -> is_params isp cands par -> serializable par -> supported par -> forall expand, expands_well expand -> forall ct0 s0 cts shares, Forall (reach isp cands expand par) (ct0 :: cts) -> Forall2 (share_of par) (ct0 :: cts) (s0 :: shares) ->
  (sks_from_shares (s0 :: shares) = Panic <-> ~ Forall (fun ct => ct_level ct = ct_level ct0) cts) /\ (dec_from_shares (s0 :: shares) = Panic <-> ~ Forall (fun ct => ct_level ct = ct_level ct0) cts) /\ forall e, sks_from_shares (s0 :: shares) <> Err e /\ dec_from_shares (s0 :: shares) <> Err e.
Proof. exact shares_all. Qed.
Print Assumptions C50_shares_refuted.
(** C50: ciphertexts, keys, shares and calls that meet the hypotheses above. *)
Example C50_hypotheses_ex : exists par, is_params isp_bfv cands_bfv par /\ serializable par /\ supported par /\ expands_well expand_ex /\
  exists sk pk pt a b one, is_sk par sk /\ pk_shape par pk /\ usable_pt par pt /\ pt_level pt = Val 0%nat /\ pa_t par <= level_modulus par 0 /\
  Forall (reach isp_bfv cands_bfv expand_ex par) [a; b; one; ct_zero par] /\ map ct_level [a; b] = [0; 1]%nat /\ map (fun c => length (ct_c c)) [a; b; one; ct_zero par] = [2; 2; 1; 0]%nat /\
  (exists s s', share_of par a s /\ share_of par b s') /\
  (exists k m, key_shape par 0 0 k /\ base_fits k /\ mult_default isp_bfv cands_bfv k = Val m /\ tame_multiplier isp_bfv cands_bfv par m /\ call isp_bfv cands_bfv expand_ex par [a; b] _ (mult_multiply m a b)) /\
  call isp_bfv cands_bfv expand_ex par [b] _ (sk_decrypt sk b) /\ call isp_bfv cands_bfv expand_ex par [a] _ (measure_noise sk a).
Proof. exact safe_ex. Qed.
Print Assumptions C50_hypotheses_ex.
(** C50: and what the theorems say of them: 0 is a value, 1 an error, 2 a panic. *)
Example C50_ex : panics_ex = Val [2; 2; 2; 2; 0; 2; 2; 2; 2; 2; 0; 2; 0; 1].
Proof. vm_compute. reflexivity. Qed.
