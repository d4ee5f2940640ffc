(** Properties C39 (rotations of slots) and C40 (inner sums and expansions)
    (fhe/src/bfv/keys/galois_key.rs, fhe/src/bfv/keys/evaluation_key.rs).

    [encrypts_slots par sk l ct v B]: the two-part ciphertext [ct] of level [l] encrypts the SIMD encoding of [v] under [sk], with
    noise at most [B].  [is_ek par sk l1 l2 ek es B]: the evaluation key [ek] for ciphertexts of level [l1] holds keys of level [l2]
    for the automorphisms X -> X^e, for the exponents e with [es e] and no other.  [galois_noise] is the noise one of them adds. *)
From Verif Require Import Outcome BasicSpec PolySpec ZqModel NttModel TranscodeModel RnsModel RnsSpec RqModel RqSpec ParamsModel BfvSpec PrimeCert ExampleParams PlainModel CipherModel OpsModel SchemeSpec CipherSpec CipherExamples KeysModel KeysSpec KeyExamples EvalSpec EvalPropLemmas EvalExamples.

(** C39: a new Galois key is a key for its automorphism. *)
Theorem C39_galois_new : forall isp cands par, oracles isp cands -> is_params isp cands par -> forall expand derive, expands_well expand -> forall sk, is_sk par sk -> forall l1 l2, (l1 <= max_level par)%nat -> (l2 <= l1)%nat ->
  forall e sd rngs, 0 <= e < 2 * Z.of_nat (pa_degree par) -> Z.odd e = true -> (forall i, words (rngs i)) -> exists g, galois_new expand derive sk e l1 l2 sd rngs = Val g /\ is_gk par sk l1 l2 e g (2 * pa_variance par).
Proof. exact galois_new_all. Qed.
Print Assumptions C39_galois_new.
(** C39: a Galois key applies its automorphism to the message of any two-part ciphertext. *)
Theorem C39_galois_apply : forall isp cands par, oracles isp cands -> is_params isp cands par -> forall sk, is_sk par sk -> forall l1 l2, (l1 <= max_level par)%nat -> (l2 <= l1)%nat ->
  forall e g B, 0 <= B -> 0 <= e < 2 * Z.of_nat (pa_degree par) -> Z.odd e = true -> is_gk par sk l1 l2 e g B ->
  forall ct m B', encrypts2 par sk l1 ct m B' -> length m = (pa_degree par) -> exists r, galois_apply g ct = Val r /\ encrypts2 par sk l1 r (automorphism (pa_degree par) e m) (B' + 1 + galois_noise par sk l1 l2 B).
Proof. exact galois_apply_all. Qed.
Print Assumptions C39_galois_apply.
(** C39: builders exist for key levels at most the ciphertext level; other levels are refused. *)
Theorem C39_builder_new : forall isp cands par, oracles isp cands -> is_params isp cands par -> forall sk, is_sk par sk ->
  (exists rot, ekb_new sk = Val (mkEkb sk 0 0 false false 0 [] rot) /\ is_ekb par sk 0 0 (mkEkb sk 0 0 false false 0 [] rot) []) /\
  forall l1 l2, ((l2 <= l1 <= max_level par)%nat -> exists rot, ekb_new_leveled sk l1 l2 = Val (mkEkb sk l1 l2 false false 0 [] rot) /\ is_ekb par sk l1 l2 (mkEkb sk l1 l2 false false 0 [] rot) []) /\
    ((max_level par < l1)%nat -> ekb_new_leveled sk l1 l2 = Err (InvalidLevel (Z.of_nat l1) 0 (Z.of_nat (max_level par)))) /\
    ((l1 <= max_level par)%nat -> (l1 < l2)%nat -> ekb_new_leveled sk l1 l2 = Err (InvalidLevel (Z.of_nat l2) 0 (Z.of_nat l1))).
Proof. exact builder_new_all. Qed.
Print Assumptions C39_builder_new.
(** C39: what each request adds; steps outside 1..N/2-1 and expansion levels above log2 N are refused. *)
Theorem C39_builder_enable : forall par sk, is_sk par sk -> forall l1 l2 b cols, is_ekb par sk l1 l2 b cols ->
  (is_ekb par sk l1 l2 (enable_inner_sum b) cols /\ forall e, asked (pa_degree par) (enable_inner_sum b) cols e <-> asked (pa_degree par) b cols e \/ e = row_exponent (pa_degree par) \/ exists k, 0 <= k /\ 2 ^ k < Z.of_nat ((pa_degree par) / 2) /\ e = column_exponent (pa_degree par) (2 ^ k)) /\
  (is_ekb par sk l1 l2 (enable_row_rotation b) cols /\ forall e, asked (pa_degree par) (enable_row_rotation b) cols e <-> asked (pa_degree par) b cols e \/ e = row_exponent (pa_degree par)) /\
  (forall i, is_step (pa_degree par) i -> exists b', enable_column_rotation b i = Val b' /\ is_ekb par sk l1 l2 b' (i :: cols) /\ forall e, asked (pa_degree par) b' (i :: cols) e <-> asked (pa_degree par) b cols e \/ e = column_exponent (pa_degree par) i) /\
  (forall i, ~ is_step (pa_degree par) i -> enable_column_rotation b i = Err (InvalidRotationStep i)) /\
  (forall L, Z.of_nat L <= Z.log2 (Z.of_nat (pa_degree par)) -> exists b', enable_expansion b L = Val b' /\ is_ekb par sk l1 l2 b' cols /\
     (eb_expansion b <= L -> forall e, asked (pa_degree par) b' cols e <-> asked (pa_degree par) b cols e \/ exists k, k < L /\ e = expansion_exponent (pa_degree par) k)%nat) /\
  (forall L, Z.log2 (Z.of_nat (pa_degree par)) < Z.of_nat L -> enable_expansion b L = Err (InvalidLevel (Z.of_nat L) 0 (Z.log2 (Z.of_nat (pa_degree par))))).
Proof. exact builder_enable_all. Qed.
Print Assumptions C39_builder_enable.
(** C39: the key built holds keys for the automorphisms asked for, and no other. *)
Theorem C39_build : forall isp cands par, oracles isp cands -> is_params isp cands par -> forall expand derive, expands_well expand -> forall sk, is_sk par sk -> forall l1 l2, (l1 <= max_level par)%nat -> (l2 <= l1)%nat ->
  forall b cols sds rngs, is_ekb par sk l1 l2 b cols -> (forall e i, words (rngs e i)) ->
  exists ek, ek_build expand derive b sds rngs = Val ek /\ is_ek par sk l1 l2 ek (asked (pa_degree par) b cols) (2 * pa_variance par) /\ proper_exponents (pa_degree par) (asked (pa_degree par) b cols).
Proof. exact build_all. Qed.
Print Assumptions C39_build.
(** C39: rotates_columns_by(i) rotates each row left by i when the automorphism of step i was asked for, and is an error otherwise. *)
Theorem C39_columns : forall isp cands par, oracles isp cands -> is_params isp cands par -> pa_ntt par <> None -> forall sk, is_sk par sk -> forall l1 l2, (l1 <= max_level par)%nat -> (l2 <= l1)%nat -> (pa_t par) <= level_modulus par l1 ->
  forall ek es B, 0 <= B -> is_ek par sk l1 l2 ek es B -> proper_exponents (pa_degree par) es -> forall ct v B', Forall (fun a => 0 <= a < (pa_t par)) v -> encrypts_slots par sk l1 ct v B' -> forall i,
  (is_step (pa_degree par) i -> es (column_exponent (pa_degree par) i) -> exists r, rotates_columns_by ek ct i = Val r /\ encrypts_slots par sk l1 r (rotated_columns (pa_degree par) (Z.to_nat i) (pad (pa_degree par) v)) (B' + 1 + galois_noise par sk l1 l2 B)) /\
  (~ (is_step (pa_degree par) i /\ es (column_exponent (pa_degree par) i)) -> rotates_columns_by ek ct i = Err EkUnsupported).
Proof. exact columns_all. Qed.
Print Assumptions C39_columns.
(** C39: rotates_rows swaps the rows when their automorphism was asked for, and is an error otherwise. *)
Theorem C39_rows : forall isp cands par, oracles isp cands -> is_params isp cands par -> pa_ntt par <> None -> forall sk, is_sk par sk -> forall l1 l2, (l1 <= max_level par)%nat -> (l2 <= l1)%nat -> (pa_t par) <= level_modulus par l1 ->
  forall ek es B, 0 <= B -> is_ek par sk l1 l2 ek es B -> proper_exponents (pa_degree par) es -> forall ct v B', Forall (fun a => 0 <= a < (pa_t par)) v -> encrypts_slots par sk l1 ct v B' ->
  (es (row_exponent (pa_degree par)) -> exists r, rotates_rows ek ct = Val r /\ encrypts_slots par sk l1 r (swapped_rows (pa_degree par) (pad (pa_degree par) v)) (B' + 1 + galois_noise par sk l1 l2 B)) /\
  (~ es (row_exponent (pa_degree par)) -> rotates_rows ek ct = Err EkUnsupported).
Proof. exact rows_all. Qed.
Print Assumptions C39_rows.
(** C39, C40: the slots encrypted are the slots decoded after decryption, when the noise is small. *)
Theorem C39_decrypt : forall isp cands par, oracles isp cands -> is_params isp cands par -> pa_ntt par <> None -> supported par -> decryptable par -> forall sk, is_sk par sk -> forall l, (l <= max_level par)%nat -> (pa_t par) <= level_modulus par l ->
  forall ct v B, Forall (fun a => 0 <= a < (pa_t par)) v -> Forall is_u64 v -> (length v <= (pa_degree par))%nat -> encrypts_slots par sk l ct v B -> small_noise par l B ->
  exists pt, sk_decrypt sk ct = Val pt /\ decode_u64 pt (Some (mkEnc EncSimd l)) = Val (pad (pa_degree par) v).
Proof. exact slots_decrypt_all. Qed.
Print Assumptions C39_decrypt.
(** C39 fails when "enabled" means enabled by that request: a key built for inner sums alone also rotates columns by 1 and swaps rows. *)
Theorem C39_unasked_refuted : forall isp cands par, oracles isp cands -> is_params isp cands par -> pa_ntt par <> None -> forall expand derive, expands_well expand -> forall sk, is_sk par sk -> forall l1 l2, (l1 <= max_level par)%nat -> (l2 <= l1)%nat -> (pa_t par) <= level_modulus par l1 ->
  forall sds rngs, (forall e i, words (rngs e i)) -> exists b ek, ekb_new_leveled sk l1 l2 = Val b /\ ek_build expand derive (enable_inner_sum b) sds rngs = Val ek /\
  forall ct v B', Forall (fun a => 0 <= a < (pa_t par)) v -> encrypts_slots par sk l1 ct v B' -> exists r r', rotates_columns_by ek ct 1 = Val r /\ rotates_rows ek ct = Val r'.
Proof. exact sum_key_rotates. Qed.
Print Assumptions C39_unasked_refuted.
(** The hypotheses hold together, noise bounds included, for the parameters of the examples. *)
Example C39_hypotheses_ex : exists par, is_params isp_bfv cands_bfv par /\ supported par /\ decryptable par /\ pa_ntt par <> None /\ 2 < pa_t par <= level_modulus par 0 /\ pa_degree par = 8%nat /\
  exists sk, sk_random par rng_ex = Val sk /\ is_sk par sk /\
  let D := galois_noise par sk 0 0 (2 * pa_variance par) in
  small_noise par 0 (2 * pa_variance par + 1 + D) /\ small_noise par 0 (8 * (2 * pa_variance par + 2 + D) - 2 - D) /\ small_noise par 0 (4 * (2 * pa_variance par + D + 3) - D - 3) /\ small_noise par 0 (2 * (2 * pa_variance par) + D + 3).
Proof. exact eval_hypotheses_ex. Qed.
Example C39_rotate_ex : rotate_ex = Val ([4; 1; 2; 16; 8; 5; 6; 7], [5; 6; 7; 8; 1; 2; 16; 4]).
Proof. vm_compute. reflexivity. Qed.
Example C39_spec_ex : rotated_columns 8 3 [1; 2; 16; 4; 5; 6; 7; 8] = [4; 1; 2; 16; 8; 5; 6; 7] /\ swapped_rows 8 [1; 2; 16; 4; 5; 6; 7; 8] = [5; 6; 7; 8; 1; 2; 16; 4] /\
  column_exponent 8 3 = 11 /\ row_exponent 8 = 15 /\ map (expansion_exponent 8) [0%nat; 1%nat; 2%nat] = [9; 5; 3].
Proof. repeat split. Qed.

(** C40: computes_inner_sum puts the sum of all slots in every slot when its automorphisms were asked for, and is an error otherwise. *)
Theorem C40_inner_sum : forall isp cands par, oracles isp cands -> is_params isp cands par -> pa_ntt par <> None -> forall sk, is_sk par sk -> forall l1 l2, (l1 <= max_level par)%nat -> (l2 <= l1)%nat -> (pa_t par) <= level_modulus par l1 ->
  forall ek es B, 0 <= B -> is_ek par sk l1 l2 ek es B -> proper_exponents (pa_degree par) es -> forall ct v B', Forall (fun a => 0 <= a < (pa_t par)) v -> encrypts_slots par sk l1 ct v B' ->
  (sum_exponents (pa_degree par) es -> exists r, computes_inner_sum ek ct = Val r /\ encrypts_slots par sk l1 r (repeat (sum_of v mod (pa_t par)) (pa_degree par)) (Z.of_nat (pa_degree par) * (B' + 2 + galois_noise par sk l1 l2 B) - 2 - galois_noise par sk l1 l2 B)) /\
  (~ sum_exponents (pa_degree par) es -> computes_inner_sum ek ct = Err EkUnsupported).
Proof. exact inner_sum_all. Qed.
Print Assumptions C40_inner_sum.
(** C40: expands(ct, k) returns k ciphertexts; the i-th encrypts 2^L times the sum of m_(i + 2^L j) X^(2^L j), with L = ceil(log2 k). *)
Theorem C40_expands : forall isp cands par, oracles isp cands -> is_params isp cands par -> forall sk, is_sk par sk -> forall l1 l2, (l1 <= max_level par)%nat -> (l2 <= l1)%nat ->
  forall ek es B, 0 <= B -> is_ek par sk l1 l2 ek es B -> proper_exponents (pa_degree par) es -> forall ct m B', length m = (pa_degree par) -> encrypts2 par sk l1 ct m B' -> forall size,
  let L := Z.to_nat (Z.log2_up size) in let D := galois_noise par sk l1 l2 B in
  (0 < size <= Z.of_nat (pa_degree par) -> round_exponents (pa_degree par) L es -> exists cts, expands ek ct size = Val cts /\ Z.of_nat (length cts) = size /\
    forall i r, nth_error cts i = Some r -> encrypts2 par sk l1 r (expanded (pa_degree par) (2 ^ L) i m) (2 ^ Z.of_nat L * (B' + D + 3) - D - 3)) /\
  (0 < size <= Z.of_nat (pa_degree par) -> ~ round_exponents (pa_degree par) L es -> expands ek ct size = Err EkUnsupported) /\
  (size = 0 \/ Z.of_nat (pa_degree par) < size -> expands ek ct size = Err (InvalidExpansionSize size)).
Proof. exact expands_all. Qed.
Print Assumptions C40_expands.
(** C40: this is the constant 2^L m_i when the coefficients of index 2^L and above are 0, in particular when 2^L = N.  Missing: other messages, for which the property fails, see [C40_constant_refuted]. *)
Theorem C40_constant_partial : forall n s i m, (i < s)%nat -> (s <= n)%nat -> (forall j, (s <= j)%nat -> nth j m 0 = 0) -> expanded n s i m = Z.of_nat s * nth i m 0 :: repeat 0 (n - 1).
Proof. exact expanded_constant. Qed.
Print Assumptions C40_constant_partial.
(** C40 fails for other messages: X^2 expanded into two ciphertexts gives 2 X^2 first, where the property says 0. *)
Theorem C40_constant_refuted : forall isp cands par, oracles isp cands -> is_params isp cands par -> supported par -> decryptable par -> 2 < (pa_t par) -> forall sk, is_sk par sk -> forall l1 l2, (l1 <= max_level par)%nat -> (l2 <= l1)%nat ->
  forall ek es B, 0 <= B -> is_ek par sk l1 l2 ek es B -> proper_exponents (pa_degree par) es -> round_exponents (pa_degree par) 1 es -> forall ct B', encrypts2 par sk l1 ct (0 :: 0 :: 1 :: repeat 0 ((pa_degree par) - 3)) B' -> small_noise par l1 (2 * B' + galois_noise par sk l1 l2 B + 3) ->
  exists r r' pt, expands ek ct 2 = Val [r; r'] /\ sk_decrypt sk r = Val pt /\ is_pt par l1 pt (0 :: 0 :: 2 :: repeat 0 ((pa_degree par) - 3)).
Proof. exact expands_not_constant. Qed.
Print Assumptions C40_constant_refuted.
(** supports_expansion is not total: it panics (debug build) for levels above 64. *)
Theorem C40_supports_panics : forall ek L, (64 < L)%nat -> ek_level ek <> length (pa_moduli (ek_par ek)) -> supports_expansion ek L = Panic.
Proof. exact supports_shift_panics. Qed.
Print Assumptions C40_supports_panics.
Example C40_sum_ex : sum_ex = Val (repeat 15 8).
Proof. vm_compute. reflexivity. Qed.
Example C40_expand_ex : expand_example [1; 2; 3; 1; 2] = Val [[4; 0; 0; 0; 8; 0; 0; 0]; [8; 0; 0; 0; 0; 0; 0; 0]; [12; 0; 0; 0; 0; 0; 0; 0]].
Proof. vm_compute. reflexivity. Qed.
Example C40_spec_ex : expanded 8 4 0 [1; 2; 3; 1; 2; 0; 0; 0] = [4; 0; 0; 0; 8; 0; 0; 0] /\ expanded 8 4 1 [1; 2; 3; 1; 2; 0; 0; 0] = [8; 0; 0; 0; 0; 0; 0; 0].
Proof. split; reflexivity. Qed.
