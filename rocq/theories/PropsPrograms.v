(** Property C54: the programs examples/bfv_basic.rs, bfv_ops.rs and rgsw.rs (ProgramsModel.v) compute what they print, whatever their
    generator draws.  Proved for bfv_basic.rs as it stands; for bfv_ops.rs with its constants except for its last line (the polynomial
    with SIMD), which is proved under a bound on the noise; refuted for rgsw.rs, whose assertion fails in every run. *)
From Verif Require Import Outcome BasicSpec NttModel CbdModel TranscodeModel PrimesModel RnsModel RnsSpec RqModel RqSpec ParamsModel BfvSpec PlainModel CipherModel OpsModel SchemeSpec CipherSpec KeysModel KeysSpec EvalSpec RgswSpec CircuitSpec.
From Verif Require Import DefaultModel DefaultSpec ProgramsModel ProgramsSpec ProgramsPropLemmas ParamsPropLemmas ExampleParams CipherExamples KeyExamples ProgramsExamples.
From Verif Require Import BasicSpec.
(** C54: what bfv_basic.rs prints. *)
Theorem C54_basic : forall isp cands expand, oracles isp cands -> complete_draws cands -> expands_well expand -> forall ids d, basic_ok d ->
  bfv_basic expand isp cands ids d = Val (3 + 5, [1 + 5; 2 + 6; 3 + 7; 4 + 8]).
Proof. exact basic_all. Qed.
Print Assumptions C54_basic.
(** C54: what bfv_ops.rs prints. Missing: the four values of its last line, for which the worst-case noise of its parameter set leaves no room; [C54_polynomial] has them under a bound on the noise. *)
Theorem C54_ops_partial : forall isp cands expand derive, oracles isp cands -> complete_draws cands -> expands_well expand -> forall ids d, ops_ok d -> exists l, length l = 4%nat /\
  bfv_ops expand derive isp cands ids d = Val (mkResults (1 * 4 + 2 * 5 + 3 * 6) (1 * 4 + 2 * 5 + 3 * 6) (1 * 7 + 2 * 8 + 3 * 9) (1 * 7 + 2 * 8 + 3 * 9) (3 * 3 ^ 2 + 2 * 3 + 1) l).
Proof. exact ops_all. Qed.
Print Assumptions C54_ops_partial.
(** C54: rgsw.rs never prints its result. Line 41 switches one of the two products to the last level, and the assertion of line 49 compares plaintexts of different levels. *)
Theorem C54_rgsw_refuted : forall isp cands expand derive, oracles isp cands -> complete_draws cands -> expands_well expand -> forall ids d, rgsw_ok d -> rgsw_main expand derive isp cands ids d = Panic.
Proof. exact rgsw_main_all. Qed.
Print Assumptions C54_rgsw_refuted.
(** Oracles and draws that meet the hypotheses above. *)
Example C54_programs_ex : oracles isp_bfv cands_bfv /\ complete_draws cands_bfv /\ expands_well expand_ex /\ basic_ok basic_ex /\ ops_ok ops_ex /\ rgsw_ok rgsw_ex /\
  bfv_basic expand_ex isp_bfv cands_bfv Z.of_nat basic_ex = Val (8, [6; 8; 10; 12]) /\
  (exists l, bfv_ops expand_ex derive_ex isp_bfv cands_bfv Z.of_nat ops_ex = Val (mkResults 32 32 50 50 34 l)) /\ rgsw_main expand_ex derive_ex isp_bfv cands_bfv Z.of_nat rgsw_ex = Panic.
Proof. exact programs_ex. Qed.
Print Assumptions C54_programs_ex.
(** C54: the sum of two encrypted vectors of bfv_basic.rs, for all vectors and parameters that leave room. *)
Theorem C54_sum : forall isp cands par, oracles isp cands -> is_params isp cands par -> program_params par -> forall sk pk, key_pair par sk pk ->
  forall k v1 v2 d1 d2, usable par (mkEnc k 0) -> values par v1 -> values par v2 -> fresh_ok d1 -> fresh_ok d2 -> small_noise par 0 (2 * encryption_noise par + 1) ->
  sum_of_two par sk pk k v1 v2 d1 d2 = Val (zipWith (fun a b => (a + b) mod pa_t par) (pad (pa_degree par) v1) (pad (pa_degree par) v2)).
Proof. exact sum_all. Qed.
Print Assumptions C54_sum.
(** C54: the weighted sums of bfv_ops.rs. *)
Theorem C54_weights : forall isp cands par, oracles isp cands -> is_params isp cands par -> program_params par -> forall sk pk, key_pair par sk pk ->
  (forall vs ws d, Forall (fun a => 0 <= a < pa_t par) vs -> Forall (fun a => 0 <= a < pa_t par) ws -> vs <> [] -> ws <> [] -> (forall i, fresh_ok (d i)) ->
     small_noise par 0 (plain_weights_noise par (Z.of_nat (Nat.min (length vs) (length ws)))) -> plain_weights par sk pk vs ws d = Val (inner vs ws mod pa_t par)) /\
  (forall vs ws ek d, values par vs -> values par ws -> sum_key par sk ek -> pa_ntt par <> None -> fresh_ok d -> small_noise par 0 (simd_weights_noise par) ->
     simd_weights par sk pk ek vs ws d = Val (inner vs ws mod pa_t par)).
Proof. exact weights_all. Qed.
Print Assumptions C54_weights.
(** C54: the inner products of bfv_ops.rs. *)
Theorem C54_inner_product : forall isp cands par, oracles isp cands -> is_params isp cands par -> program_params par -> forall sk pk, key_pair par sk pk ->
  forall rk, relin_key par sk rk -> products_fit par ->
  (forall vs ws d1 d2, Forall (fun a => 0 <= a < pa_t par) vs -> Forall (fun a => 0 <= a < pa_t par) ws -> vs <> [] -> ws <> [] -> (forall i, fresh_ok (d1 i)) -> (forall i, fresh_ok (d2 i)) ->
     small_noise par 0 (plain_product_noise par (Z.of_nat (Nat.min (length vs) (length ws)))) -> plain_inner_product par sk pk rk vs ws d1 d2 = Val (inner vs ws mod pa_t par)) /\
  (forall vs ws ek d1 d2, values par vs -> values par ws -> sum_key par sk ek -> pa_ntt par <> None -> fresh_ok d1 -> fresh_ok d2 -> small_noise par 0 (simd_product_noise par) ->
     simd_inner_product par sk pk ek rk vs ws d1 d2 = Val (inner vs ws mod pa_t par)).
Proof. exact inner_product_all. Qed.
Print Assumptions C54_inner_product.
(** C54: the polynomial of bfv_ops.rs, at one point and in every slot. *)
Theorem C54_polynomial : forall isp cands par, oracles isp cands -> is_params isp cands par -> program_params par -> forall sk pk, key_pair par sk pk ->
  forall rk, relin_key par sk rk -> products_fit par -> 3 < pa_t par ->
  (forall x d, 0 <= x < pa_t par -> fresh_ok d -> small_noise par 0 (polynomial_noise par 3) -> polynomial par sk pk rk EncPoly [x] d = Val (pad (pa_degree par) [polynomial_at x mod pa_t par])) /\
  (forall x d, values par x -> pa_ntt par <> None -> fresh_ok d -> small_noise par 0 (polynomial_noise par (Z.of_nat (pa_degree par) * (pa_t par - 1))) ->
     polynomial par sk pk rk EncSimd x d = Val (pad (pa_degree par) (map (fun a => polynomial_at a mod pa_t par) x))).
Proof. exact polynomial_all. Qed.
Print Assumptions C54_polynomial.
(** C54: the keys of bfv_ops.rs are the keys that these theorems ask for. *)
Theorem C54_keys : forall isp cands par, oracles isp cands -> is_params isp cands par -> (0 < max_level par)%nat -> forall expand derive, expands_well expand -> forall d, ops_ok d ->
  exists sk pk ek rk, ops_keys expand derive par d = Val (sk, pk, ek, rk) /\ key_pair par sk pk /\ sum_key par sk ek /\ relin_key par sk rk.
Proof. exact keys_all. Qed.
Print Assumptions C54_keys.
(** C54: the two products of rgsw.rs decrypt to the same values; compared at level 0 they are equal, and compared at different levels the program panics. *)
Theorem C54_rgsw : forall isp cands par, oracles isp cands -> is_params isp cands par -> program_params par -> pa_ntt par <> None -> serializable par -> direct_products_fit par ->
  small_noise par 0 (external_product_noise par) -> small_noise par 0 (direct_product_noise par) ->
  forall expand derive x y d, expands_well expand -> values par x -> values par y -> rgsw_ok d ->
  exists sk p q, rgsw_products expand derive par x y d = Val (sk, p, q) /\ decrypted sk EncSimd p = Val (slot_products par x y) /\ decrypted sk EncSimd q = Val (slot_products par x y) /\
    (forall n, (n <= pa_degree par)%nat -> rgsw_compare sk p q 0 n = Val (firstn n (slot_products par x y))) /\
    ((0 < max_level par)%nat -> pa_t par <= level_modulus par (max_level par) -> forall n, rgsw_compare sk p q (max_level par) n = Panic).
Proof. exact rgsw_all. Qed.
Print Assumptions C54_rgsw.
(** Parameters that meet all the hypotheses above. *)
Example C54_room_ex : exists par, is_params isp_bfv cands_bfv par /\ program_params par /\ pa_ntt par <> None /\ serializable par /\ max_level par = 2%nat /\ pa_t par = 17 /\ pa_degree par = 8%nat /\ pa_t par <= level_modulus par 2 /\
  products_fit par /\ direct_products_fit par /\ small_noise par 0 (2 * encryption_noise par + 1) /\ small_noise par 0 (plain_weights_noise par 3) /\ small_noise par 0 (simd_weights_noise par) /\
  small_noise par 0 (plain_product_noise par 3) /\ small_noise par 0 (simd_product_noise par) /\ small_noise par 0 (polynomial_noise par 3) /\ small_noise par 0 (polynomial_noise par (Z.of_nat (pa_degree par) * (pa_t par - 1))) /\
  small_noise par 0 (external_product_noise par) /\ small_noise par 0 (direct_product_noise par).
Proof. exact program_params_ex. Qed.
Print Assumptions C54_room_ex.
(** What the computations give with such parameters. *)
Example C54_computations_ex : exists par sk pk ek rk, is_params isp_bfv cands_bfv par /\ ops_keys expand_ex derive_ex par ops_ex = Val (sk, pk, ek, rk) /\ key_pair par sk pk /\ sum_key par sk ek /\ relin_key par sk rk /\
  sum_of_two par sk pk EncSimd [1; 2; 16] [5; 6; 7] (fresh_ex 0) (fresh_ex 3) = Val [6; 8; 6; 0; 0; 0; 0; 0] /\
  plain_weights par sk pk [1; 2; 3] [4; 5; 6] fresh_ex = Val 15 /\ simd_weights par sk pk ek [1; 2; 3] [4; 5; 6] (fresh_ex 0) = Val 15 /\
  plain_inner_product par sk pk rk [1; 2; 3] [7; 8; 9] fresh_ex fresh_ex = Val 16 /\ simd_inner_product par sk pk ek rk [1; 2; 3] [7; 8; 9] (fresh_ex 0) (fresh_ex 3) = Val 16 /\
  polynomial par sk pk rk EncPoly [3] (fresh_ex 0) = Val [0; 0; 0; 0; 0; 0; 0; 0] /\ polynomial par sk pk rk EncSimd [1; 2; 3; 4] (fresh_ex 0) = Val [6; 0; 0; 6; 0; 0; 0; 0] /\
  exists sk p q, rgsw_products expand_ex derive_ex par [1; 2; 3; 4] [5; 6; 7; 8] rgsw_ex = Val (sk, p, q) /\ rgsw_compare sk p q 0 4 = Val [5; 12; 4; 15] /\ rgsw_compare sk p q 2 4 = Panic.
Proof. exact computations_ex. Qed.
Print Assumptions C54_computations_ex.
