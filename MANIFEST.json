{
 "claims": [
  {
   "property": "C01",
   "status": "proved",
   "theorems": [
    "C01_new_accepts",
    "C01_new_rejects",
    "C01_scalar_ops"
   ],
   "note": ""
  },
  {
   "property": "C02",
   "status": "proved",
   "theorems": [
    "C02_reduce",
    "C02_lazy"
   ],
   "note": ""
  },
  {
   "property": "C03",
   "status": "proved",
   "theorems": [
    "C03_opt"
   ],
   "note": ""
  },
  {
   "property": "C04",
   "status": "proved",
   "theorems": [
    "C04_shoup",
    "C04_shoup_total"
   ],
   "note": ""
  },
  {
   "property": "C05",
   "status": "proved",
   "theorems": [
    "C05_binary",
    "C05_scalar_and_shoup",
    "C05_reduce",
    "C05_reduce_new"
   ],
   "note": ""
  },
  {
   "property": "C06",
   "status": "proved",
   "theorems": [
    "C06_pow",
    "C06_inv"
   ],
   "note": ""
  },
  {
   "property": "C07",
   "status": "partial",
   "theorems": [
    "C07_center_partial",
    "C07_center_refuted"
   ],
   "note": "documented interval refuted by C07_center_refuted (p=5, a=2); congruence and the true interval proved"
  },
  {
   "property": "C08",
   "status": "proved",
   "theorems": [
    "C08_bytes",
    "C08_bytes_exact",
    "C08_from_bytes"
   ],
   "note": ""
  },
  {
   "property": "C09",
   "status": "proved",
   "theorems": [
    "C09_value",
    "C09_round_trip"
   ],
   "note": ""
  },
  {
   "property": "C10",
   "status": "proved",
   "theorems": [
    "C10_serialize"
   ],
   "note": ""
  },
  {
   "property": "C11",
   "status": "partial",
   "theorems": [
    "C11_canonical_refuted",
    "C11_canonical_partial"
   ],
   "note": "refuted as documented (C11_canonical_refuted); weaker bound 2p proved"
  },
  {
   "property": "C12",
   "status": "proved",
   "theorems": [
    "C12_samples",
    "C12_error",
    "C12_bounds",
    "C12_disjoint",
    "C12_signed_sum",
    "C12_moments",
    "C12_poly_small"
   ],
   "note": ""
  },
  {
   "property": "C13",
   "status": "proved",
   "theorems": [
    "C13_generate_prime",
    "C13_generate_prime_bits",
    "C13_modulo_one_refuted"
   ],
   "note": "for modulo>=2 and upper_bound>=1; modulo=1 always returns None (C13_modulo_one_refuted)"
  },
  {
   "property": "C14",
   "status": "proved",
   "theorems": [
    "C14_supported",
    "C14_new_none",
    "C14_new_some",
    "C14_inverse",
    "C14_length"
   ],
   "note": "primality test and root candidates are oracle arguments; operator existence needs one quadratic non-residue among the candidates"
  },
  {
   "property": "C15",
   "status": "proved",
   "theorems": [
    "C15_evaluation"
   ],
   "note": ""
  },
  {
   "property": "C16",
   "status": "proved",
   "theorems": [
    "C16_convolution"
   ],
   "note": ""
  },
  {
   "property": "C17",
   "status": "proved",
   "theorems": [
    "C17_variants"
   ],
   "note": ""
  },
  {
   "property": "C18",
   "status": "proved",
   "theorems": [
    "C18_accept",
    "C18_reject",
    "C18_crt",
    "C18_garner"
   ],
   "note": ""
  },
  {
   "property": "C19",
   "status": "proved",
   "theorems": [
    "C19_scale",
    "C19_scale_new",
    "C19_asserts",
    "C19_scale_refuted",
    "C19_poly_scale",
    "C19_switcher"
   ],
   "note": "explicit error bounds; needs load < 2^65 (always true when at most 8 moduli contribute); beyond it the sign test is wrong (C19_scale_refuted)"
  },
  {
   "property": "C20",
   "status": "proved",
   "theorems": [
    "C20_representation",
    "C20_arithmetic",
    "C20_product",
    "C20_mismatch",
    "C20_mul_mismatch"
   ],
   "note": "C20_mismatch and C20_mul_mismatch (operands of different contexts panic) are about the debug build; C65 says what the release build returns there."
  },
  {
   "property": "C21",
   "status": "proved",
   "theorems": [
    "C21_conversions",
    "C21_triple"
   ],
   "note": ""
  },
  {
   "property": "C22",
   "status": "proved",
   "theorems": [
    "C22_exponent",
    "C22_substitute",
    "C22_compose"
   ],
   "note": "for degrees up to 2^31 (u32 index arithmetic)"
  },
  {
   "property": "C23",
   "status": "proved",
   "theorems": [
    "C23_switch_down",
    "C23_switch_down_to"
   ],
   "note": ""
  },
  {
   "property": "C24",
   "status": "proved",
   "theorems": [
    "C24_inverse_power"
   ],
   "note": "powers above 2N panic (proved)"
  },
  {
   "property": "C25",
   "status": "proved",
   "theorems": [
    "C25_dot_product",
    "C25_errors"
   ],
   "note": ""
  },
  {
   "property": "C26",
   "status": "proved",
   "theorems": [
    "C26_round_trip"
   ],
   "note": "for degree < 2^32 and fewer than 2^29 moduli; prost byte framing is not modelled, messages are records"
  },
  {
   "property": "C27",
   "status": "partial",
   "theorems": [
    "C27_refuted",
    "C27_refuted_general",
    "C27_representation",
    "C27_reject_partial"
   ],
   "note": "refuted (C27_refuted, C27_refuted_general): the degree field is not compared with the context; C27_reject_partial proves that accepted degrees equal N or satisfy degree*#moduli <= N"
  },
  {
   "property": "C28",
   "status": "partial",
   "theorems": [
    "C28_u64",
    "C28_i64_big",
    "C28_to_big",
    "C28_refuted",
    "C28_refuted_general"
   ],
   "note": "refuted for a context with one modulus and a u64 vector of length N (C28_refuted); proved for all other lengths and for i64 and big-integer vectors"
  },
  {
   "property": "C29",
   "status": "proved",
   "theorems": [
    "C29_accept",
    "C29_reject",
    "C29_reject_ntt",
    "C29_chain"
   ],
   "note": "NTT-friendly means prime, below 2^62 and 1 mod 2N; the root search must meet a non-residue among its random candidates"
  },
  {
   "property": "C30",
   "status": "proved",
   "theorems": [
    "C30_built",
    "C30_levels",
    "C30_plaintext_basis",
    "C30_no_panic",
    "C30_accepts"
   ],
   "note": "primality test and root candidates are oracle arguments; no-panic and acceptance need a quadratic non-residue among the candidates (one exists for every odd prime: PrimeCert.nonresidue_exists); default_parameters_128 is C48"
  },
  {
   "property": "C31",
   "status": "proved",
   "theorems": [
    "C31_slots",
    "C31_rows",
    "C31_values"
   ],
   "note": "for every degree 2^k, 2 <= k < 61, and for every built parameter set"
  },
  {
   "property": "C32",
   "status": "partial",
   "theorems": [
    "C32_unsigned",
    "C32_signed",
    "C32_vectors",
    "C32_unreduced",
    "C32_unreduced_small",
    "C32_unreduced_refuted",
    "C32_low_level_refuted",
    "C32_encode_errors",
    "C32_decode_errors"
   ],
   "note": "proved for values below t (any 64-bit value for signed inputs) at every level with t <= Q; refuted at levels with Q < t (C32_low_level_refuted) and for unreduced values beyond the first modulus (C32_unreduced_refuted); SIMD encoding of unsigned values >= t is outside the precondition of the NTT"
  },
  {
   "property": "C33",
   "status": "proved",
   "theorems": [
    "C33_scaling"
   ],
   "note": "for t <= Q at the level of the plaintext (always true at level 0) and plaintext polynomials with values below the decoding base, which all encoders produce from values below t"
  },
  {
   "property": "C34",
   "status": "proved",
   "theorems": [
    "C34_decrypt",
    "C34_base_refuted",
    "C34_sk_encrypt",
    "C34_secret_key",
    "C34_pk_new",
    "C34_pk_encrypt",
    "C34_pk_encrypt_up",
    "C34_sk_roundtrip",
    "C34_pk_roundtrip",
    "C34_same_decoding",
    "C34_room"
   ],
   "note": "for parameter sets satisfying supported (sum of moduli < 2^65, at most 2^20 moduli) and decryptable (decryption base above 3t/2); C34_base_refuted shows the second condition cannot be dropped; randomness, seeds and seed expansion are arguments; it holds by itself for t between 2^64 and 2^200 (C34_room)"
  },
  {
   "property": "C35",
   "status": "proved",
   "theorems": [
    "C35_add",
    "C35_sub",
    "C35_neg",
    "C35_messages",
    "C35_plaintext",
    "C35_plaintext_messages",
    "C35_zero",
    "C35_mismatch",
    "C35_mismatch_plaintext"
   ],
   "note": "plaintext operands: message reduced modulo t and t <= Q at the level; mismatched operands make the operators panic (assert), stated in C35_mismatch"
  },
  {
   "property": "C36",
   "status": "proved",
   "theorems": [
    "C36_mul_plaintext",
    "C36_mul_plaintext_messages",
    "C36_dot_product",
    "C36_dot_product_messages",
    "C36_dot_product_errors"
   ],
   "note": "both accumulation paths of dot_product_scalar; errors for empty or mismatched inputs; validation errors of individual operands are in the model but not stated"
  },
  {
   "property": "C37",
   "status": "proved",
   "theorems": [
    "C37_phase",
    "C37_messages",
    "C37_decrypt",
    "C37_mismatch",
    "C37_zero_left",
    "C37_zero_right_refuted",
    "C37_multiplicator",
    "C37_multiplicator_relin",
    "C37_default",
    "C37_default_decrypt",
    "C37_multiplicator_refused",
    "C37_multiplicator_params"
   ],
   "note": "for supported parameter sets and operands with 2t(B+1) <= Q and (number of parts)*N*2^extra <= 2^59; includes ct*ct and the Multiplicator (any product basis, default, relinearization, modulus switching); a zero right operand through an empty ciphertext is refuted (see theorems); custom Multiplicator factors other than 1, 1, t/Q are outside the statement"
  },
  {
   "property": "C38",
   "status": "proved",
   "theorems": [
    "C38_new",
    "C38_key_switch",
    "C38_key_switch_context",
    "C38_lazy",
    "C38_relin_new",
    "C38_relinearize",
    "C38_relinearize_refused",
    "C38_above_refuted",
    "C38_last_level_refuted"
   ],
   "note": "key switching for every pair of levels with one modulus at the key level only when both levels are equal; relinearization for keys of the same or a lower level number; refuted for the other level combinations: keys above the ciphertext level are built but never relinearize (C38_above_refuted), and a last-level key for another ciphertext level makes every switch panic (C38_last_level_refuted, internal API only)"
  },
  {
   "property": "C39",
   "status": "proved",
   "theorems": [
    "C39_galois_new",
    "C39_galois_apply",
    "C39_builder_new",
    "C39_builder_enable",
    "C39_build",
    "C39_columns",
    "C39_rows",
    "C39_decrypt",
    "C39_unasked_refuted"
   ],
   "note": "for key levels at most the ciphertext level; \"enabled\" means that the automorphism was asked for by some request: requests share automorphisms, so a key built for inner sums alone also rotates (C39_unasked_refuted)"
  },
  {
   "property": "C40",
   "status": "partial",
   "theorems": [
    "C40_inner_sum",
    "C40_expands",
    "C40_constant_partial",
    "C40_constant_refuted",
    "C40_supports_panics"
   ],
   "note": "inner sum proved; expansion proved with the general message 2^L sum_j m_(i+2^L j) X^(2^L j); constant as stated only when the coefficients of index 2^L and above are 0, refuted otherwise (C40_constant_refuted)"
  },
  {
   "property": "C41",
   "status": "proved",
   "theorems": [
    "C41_switch_to_level",
    "C41_switch_down",
    "C41_messages",
    "C41_errors"
   ],
   "note": "a switch to the current level returns the ciphertext unchanged, including its seed"
  },
  {
   "property": "C42",
   "status": "partial",
   "theorems": [
    "C42_equality",
    "C42_roundtrip",
    "C42_fresh",
    "C42_overwrite_refuted",
    "C42_zero_refuted",
    "C42_reachable_shape",
    "C42_reachable",
    "C42_short_refuted"
   ],
   "note": "Proved for every ciphertext reachable through the interface (ReachSpec.v: encryptions, Ciphertext::new, messages, and every sequence of the nineteen modelled operations with any keys and plaintexts) that has two parts or more. The full statement is false and refuted: reachable ciphertexts of one part or none (zero, and products by it) are serialized to messages that are rejected, parts overwritten through DerefMut are lost when the ciphertext has a seed, and relinearization of three-part ciphertexts with a seed, read from foreign messages, leaves a stale seed (C46). Seeded messages in ReachSpec carry one polynomial."
  },
  {
   "property": "C43",
   "status": "partial",
   "theorems": [
    "C43_secret_key",
    "C43_public_key",
    "C43_key",
    "C43_switching_key",
    "C43_relinearization_key",
    "C43_galois_key",
    "C43_evaluation_key",
    "C43_rgsw",
    "C43_read_ciphertext",
    "C43_read_secret_key",
    "C43_read_public_key",
    "C43_read_key",
    "C43_rejected",
    "C43_read_relinearization_key",
    "C43_read_galois_key",
    "C43_read_evaluation_key",
    "C43_read_rgsw",
    "C43_relinearizes_safe",
    "C43_galois_safe",
    "C43_evaluation_safe",
    "C43_rgsw_safe",
    "C43_encrypt_safe",
    "C43_wide_base_switch",
    "C43_wide_base_refuted",
    "C43_public_key_parts_refuted"
   ],
   "note": "round trips proved for every key of every constructor and for every key agreeing with its seed; reading any message proved free of panics, with the conditions for acceptance; operations with any key read back proved free of panics when its digits have less than 64 bits; refuted for wider digits: such messages are accepted and every relinearization then panics (C43_wide_base_refuted), and public keys of more than two parts are accepted (C43_public_key_parts_refuted)"
  },
  {
   "property": "C44",
   "status": "proved",
   "theorems": [
    "C44_public_key",
    "C44_relinearization_key",
    "C44_relinearization",
    "C44_decryption",
    "C44_room",
    "C44_room_single",
    "C44_roundtrip",
    "C44_secret_key_switch",
    "C44_public_key_switch",
    "C44_no_shares",
    "C44_common_random",
    "C44_relinearization_errors",
    "C44_secret_key_switch_errors",
    "C44_public_key_level",
    "C44_three_parts_ignored",
    "C44_three_parts_refuted",
    "C44_leveled_crp_refuted"
   ],
   "note": "For any number of members >= 1, any streams of the generators and any common random polynomials. Two-part ciphertexts (the share constructor of the secret key switch rejects others; the one of the public key switch does not, and C44_three_parts_refuted shows the message lost). A common random polynomial of a later level stops the program (C44_leveled_crp_refuted). Decryption by a group needs less room than decryption with one key: group_decryptable, which holds for every t below 2^200 that is at most half of the product of the moduli (C44_room)."
  },
  {
   "property": "C45",
   "status": "proved",
   "theorems": [
    "C45_encrypt",
    "C45_external",
    "C45_fresh",
    "C45_mismatch",
    "C45_other_params"
   ],
   "note": "encryption, external products in both orders, noise bound N*B*(sum of residues or digits) for each half; mismatched operands panic (assert), which is the behaviour of the code; serialization is under C43"
  },
  {
   "property": "C46",
   "status": "partial",
   "theorems": [
    "C46_reachable",
    "C46_dropped",
    "C46_relinearization_refuted",
    "C46_identity_refuted"
   ],
   "note": "Proved: on every reachable ciphertext an operation returns a ciphertext without seed or one of its operands unchanged, so seeds are always faithful. The full statement is false and refuted: a ciphertext of three parts with a seed, read from a message with several polynomials, keeps its seed when relinearized and is then serialized wrongly; operations that change nothing (adding the zero ciphertext, switching to the current level) keep the seed, faithfully."
  },
  {
   "property": "C47",
   "status": "proved",
   "theorems": [
    "C47_measure_noise"
   ],
   "note": "same conditions as C34"
  },
  {
   "property": "C48",
   "status": "partial",
   "theorems": [
    "C48_default_parameters",
    "C48_available",
    "C48_unavailable",
    "C48_decryptable",
    "C48_roundtrip",
    "C48_decryption_bound",
    "C48_panics_refuted",
    "C48_gap_refuted",
    "C48_wide_refuted",
    "C48_undecryptable_refuted",
    "C48_group",
    "C48_group_roundtrip"
   ],
   "note": "The literal statement is false in three ways, each proved. 0 bits and 64 bits or more panic (C48_panics_refuted, debug build). Six pairs of bits and degree are left out although they have usable plaintext moduli, because only the largest prime is tried and it is a modulus of the row (C48_gap_refuted). For 42 to 62 bits some returned set has t above its first modulus, and no ciphertext decrypts to a message with a coefficient above that modulus (C48_wide_refuted, C48_undecryptable_refuted). Proved: the exact result for 1 to 63 bits, sets exist exactly for 14 to 62 bits, decryption has room when t is shorter than the first modulus, and secret-key round trips when it is six bits shorter. Groups, even of one member, decrypt on every default set with small noise (C48_group, C48_group_roundtrip). Security levels are not modelled."
  },
  {
   "property": "C49",
   "status": "proved",
   "theorems": [
    "C49_circuit",
    "C49_decrypt",
    "C49_slots",
    "C49_plain",
    "C49_input",
    "C49_relin_key",
    "C49_eval_key",
    "C49_rgsw",
    "C49_hypotheses_ex",
    "C49_ex"
   ],
   "note": "By induction on the circuit, on top of the theorems of the single operations (C35-C41, C45). The estimate is a function of the circuit and of the data of its inputs and keys. The hypotheses on ciphertexts, plaintexts and keys are discharged by C49_plain, C49_input, C49_relin_key, C49_eval_key and C49_rgsw. When the estimate is undefined (an operation would be refused or a product has no room) nothing is claimed."
  },
  {
   "property": "C50",
   "status": "partial",
   "theorems": [
    "C50_calls_partial",
    "C50_multiplicators",
    "C50_operators",
    "C50_plain_operators",
    "C50_public_switch_refuted",
    "C50_shares_refuted"
   ],
   "note": "The literal statement is refuted: PublicKeySwitchShare::new panics on a ciphertext of fewer than two parts (C50_public_switch_refuted) and the aggregation of switching or decryption shares panics when their ciphertexts have different levels (C50_shares_refuted); see also C40_supports_panics, C43_wide_base_refuted, C44_leveled_crp_refuted and C48_panics_refuted. C50_calls_partial covers the other functions on reachable ciphertexts; measuring noise is covered when t is at most the modulus of the level, and multiplicators when their factors are within the bound of the scaler (those of Multiplicator::default are, C50_multiplicators). C50_operators and C50_plain_operators say exactly when the operators panic."
  },
  {
   "property": "C51",
   "status": "partial",
   "theorems": [
    "C51_voting_partial",
    "C51_voting",
    "C51_wraps_refuted",
    "C51_rounds_refuted"
   ],
   "note": "The literal statement is refuted: with 4096 votes for 1 or more the tally wraps modulo the plaintext modulus 4096 and the final assertion fails (C51_wraps_refuted); with a multiple of 2^32 parties or voters the mean duration divides by zero (C51_rounds_refuted). C51_voting_partial proves it below these limits, and C51_voting gives the outcome in all other cases. The parsing of the arguments and printing are not modelled; the generator is one stream of words for each use, and the oracles are those of the parameter builder."
  },
  {
   "property": "C52",
   "status": "proved",
   "theorems": [
    "C52_retrieval",
    "C52_main"
   ],
   "note": "For any parameter set of three moduli in which the worst-case noise (PirSpec.v, mulpir_room) leaves room. The program's own constants (degree 8192, moduli of 50, 55 and 55 bits) are outside that hypothesis: there correctness only holds with overwhelming probability over the noise, which is not modelled. The square root in floating point is a parameter. Printing, the five repetitions of timed steps and the protobuf framing of the messages are not modelled."
  },
  {
   "property": "C53",
   "status": "proved",
   "theorems": [
    "C53_retrieval",
    "C53_main"
   ],
   "note": "For any parameter set of three moduli in which the worst-case noise (PirSpec.v, sealpir_room) leaves room. The program's own constants (degree 4096, moduli of 36, 36 and 37 bits) are outside that hypothesis: there correctness only holds with overwhelming probability over the noise, which is not modelled. The square root in floating point is a parameter. Printing, the five repetitions of timed steps and the protobuf framing of the messages are not modelled."
  },
  {
   "property": "C54",
   "status": "partial",
   "theorems": [
    "C54_basic",
    "C54_ops_partial",
    "C54_rgsw_refuted",
    "C54_sum",
    "C54_weights",
    "C54_inner_product",
    "C54_polynomial",
    "C54_keys",
    "C54_rgsw"
   ],
   "note": "The literal statement is refuted for rgsw.rs: line 41 switches one product to the last level, line 49 compares its plaintext with one of level 0, and the equality of plaintexts compares the contexts of their polynomials, so the assertion fails in every run (C54_rgsw_refuted); without the switch the comparison succeeds and the printed values are right (C54_rgsw). bfv_basic.rs is proved as it stands (C54_basic). For bfv_ops.rs (C54_ops_partial) five of the six results are proved with its own parameters; the last, the polynomial with SIMD, is proved for parameters with enough room (C54_polynomial), which the worst-case noise bound does not give for the program's own set. Printing and the framing of the serialized messages are not modelled."
  },
  {
   "property": "C55",
   "status": "proved",
   "theorems": [
    "C55_varint",
    "C55_parameters",
    "C55_polynomial",
    "C55_ciphertext",
    "C55_short_ciphertext",
    "C55_secret_key",
    "C55_public_key",
    "C55_key",
    "C55_relinearization_key",
    "C55_evaluation_key",
    "C55_rgsw",
    "C55_read_parameters",
    "C55_read_polynomial",
    "C55_read_ciphertext",
    "C55_read_secret_key",
    "C55_read_public_key",
    "C55_read_relinearization_key",
    "C55_read_evaluation_key",
    "C55_read_rgsw",
    "C55_unknown_field",
    "C55_merge",
    "C55_flag"
   ],
   "note": "The wire format is that of protobuf as prost writes and reads it (prost is not in the repository). A ciphertext comes back with the variable-time flag set on its polynomials, which equality ignores; parameters come back at another address, an evaluation key with its maps in another order. Reachable ciphertexts of fewer than two parts are rejected when read (C55_short_ciphertext)."
  },
  {
   "property": "C56",
   "status": "partial",
   "theorems": [
    "C56_programs",
    "C56_observed",
    "C56_sequence",
    "C56_encode",
    "C56_decode",
    "C56_secret_key",
    "C56_encrypt",
    "C56_keys",
    "C56_key_simulator",
    "C56_operations",
    "C56_dot_product",
    "C56_switching",
    "C56_key_switch_flags",
    "C56_key_switch_exposes",
    "C56_galois_refuted",
    "C56_mul_refuted",
    "C56_multiparty",
    "C56_shares",
    "C56_share_generator"
   ],
   "note": "The literal statement is refuted twice: key switching transforms its operand with the lazy variable-time transform whatever the flag (C56_key_switch_exposes), so that a rotation of a ciphertext multiplied by a private plaintext runs variable-time code on data that depends on the plaintext (C56_galois_refuted); and multiplication compares its operands, so that its trace tells whether two ciphertexts with private parts are equal (C56_mul_refuted). Everything else is proved: for switching if the switched part is public, for products if the comparison has the same result. Only functions that the code itself calls variable-time are observed; constant time of the others is not claimed. C56_observed and C56_sequence fix what the traces record, so that silence is not an artefact of the instrumentation; that the list of recorded operations is the list of variable-time functions of the code is by reading."
  },
  {
   "property": "C57",
   "status": "proved",
   "theorems": [
    "C57_encode",
    "C57_accepted",
    "C57_encode_low",
    "C57_encode_big",
    "C57_encode_signed",
    "C57_decode",
    "C57_decode_signed"
   ],
   "note": "Debug build: the panics are failing debug assertions of the transforms (and to_i64().unwrap() in the signed decoder). At a last level with modulus below t/4 even reduced values can panic: C57_encode_low says which slots, C57_encode_signed shows it for coefficients."
  },
  {
   "property": "C58",
   "status": "proved",
   "theorems": [
    "C58_relin",
    "C58_builder",
    "C58_expansion_lost",
    "C58_rgsw",
    "C58_pk_share",
    "C58_pk_sum",
    "C58_generator",
    "C58_round1",
    "C58_round2",
    "C58_relin_sum",
    "C58_pksw_sum"
   ],
   "note": "Outcomes of the debug build. What the sums of mismatched shares are good for is not claimed: a public key made from shares with different common random polynomials is well-formed, keeps the polynomial of the first share and is not a key of the group. C58_expansion_lost records that a later enable_expansion(0) withdraws an earlier request."
  },
  {
   "property": "C59",
   "status": "proved",
   "theorems": [
    "C59_scalars",
    "C59_vectors",
    "C59_products",
    "C59_sums",
    "C59_words",
    "C59_lengths",
    "C59_operators",
    "C59_transforms",
    "C59_total",
    "C59_forward",
    "C59_backward",
    "C59_slots",
    "C59_slots_shifted"
   ],
   "note": "The release model covers zq/mod.rs (without serialization and random vectors), ntt/native.rs and the slot encoder; that results of the debug build are those of the release build is not proved for the layers above, which drop checks only. Inverse transforms of slots whose neighbours add up to 4p or more are proved total and reduced, not characterised. C59_slots_ex: for t = 17 the slots 0, 0, 35, 0, ... are encoded as 9, 0, 9, 0, ... ."
  },
  {
   "property": "C60",
   "status": "proved",
   "theorems": [
    "C60_new",
    "C60_equal",
    "C60_fallback",
    "C60_simulates",
    "C60_inverse",
    "C60_convolution",
    "C60_builds",
    "C60_roots",
    "C60_same_refuted",
    "C60_lazy",
    "C60_lazy_refuted"
   ],
   "note": "Plans are an oracle with the hypothesis plan_contract; whether the crate tfhe-ntt meets it, and with which root, is not checked. C60_same_refuted: the comment in PartialEq that both operators compute the same result does not follow from the contract. By C60_builds a polynomial drawn from a seed in transformed form (seeded ciphertexts and switching keys) is another polynomial in a build with another root, and slots are permuted. The models of polynomials and of the scheme use the native operator."
  },
  {
   "property": "C61",
   "status": "proved",
   "theorems": [
    "C61_polynomial",
    "C61_ciphertext",
    "C61_secret_encryption",
    "C61_public_encryption",
    "C61_smaller",
    "C61_public_key",
    "C61_public_key_new",
    "C61_relinearization_key",
    "C61_relinearization_key_new",
    "C61_rgsw",
    "C61_rgsw_new",
    "C61_evaluation_key",
    "C61_evaluation_key_new",
    "C61_evaluation_key_same",
    "C61_secret_key",
    "C61_secret_key_new",
    "C61_secret_key_refuted",
    "C61_parameters",
    "C61_variance"
   ],
   "note": "C61_secret_key_refuted: with variance 32 two streams of random words give secret keys whose strings have different sizes, so the size of a stored key says something about the key. The theorems about keys other than secret keys assume that the string has less than 2^64 bytes (fits), as C55 does. Sizes are those of the encoding by prost as modelled in BytesModel.v."
  },
  {
   "property": "C62",
   "status": "proved",
   "theorems": [
    "C62_words",
    "C62_round_trip",
    "C62_array",
    "C62_power_basis"
   ],
   "note": "Vectors for power basis of other lengths are the subject of C28. A polynomial that is not well formed is outside the hypotheses of the other properties; what operations do with it is not claimed."
  },
  {
   "property": "C63",
   "status": "partial",
   "theorems": [
    "C63_parameters",
    "C63_polynomial",
    "C63_secret_key",
    "C63_ciphertext",
    "C63_decrypt",
    "C63_seeded",
    "C63_words",
    "C63_same_roots",
    "C63_seeded_refuted",
    "C63_public_key_refuted",
    "C63_slots",
    "C63_slots_refuted"
   ],
   "note": "Proved for parameters, polynomials, secret keys and ciphertexts without a seed, and for every ciphertext when the contexts are equal (C63_same_roots). The literal statement is refuted for objects with a seed (C63_seeded_refuted, C63_public_key_refuted): the seed is expanded into words of the transformed representation (ciphertext.rs:287-302, rq/mod.rs:276-292), which are another polynomial under other roots; C63_seeded and C63_words say exactly what is read: modulo each modulus, the image of the original by an automorphism X -> X^e. It is also refuted for slots (C63_slots_refuted); C63_slots says what they become: the columns rotated by a fixed step and the rows swapped or not. Switching keys, which all carry a seed, are not stated separately."
  },
  {
   "property": "C64",
   "status": "proved",
   "theorems": [
    "C64_context",
    "C64_new",
    "C64_scale",
    "C64_words"
   ],
   "note": "RnsScaler::scale is a safe public function; its lengths are compared by debug_assert only (scaler.rs:255-258) and its tables read with get_unchecked (scaler.rs:316-347). C64_words: with more words than moduli, or outputs out of range, the release build reads outside of the tables (undefined behaviour, written Panic). The callers in this repository pass the right lengths."
  },
  {
   "property": "C65",
   "status": "proved",
   "theorems": [
    "C65_agree",
    "C65_mixed",
    "C65_down",
    "C65_up",
    "C65_sum",
    "C65_public_key",
    "C65_key_switch",
    "C65_public_key_switch",
    "C65_lazy",
    "C65_levels"
   ],
   "note": "The comparison of contexts is a debug_assert (ops.rs:13, 58, 95, 140, 181, 211); the aggregations of mbfv rely on it alone: C65_public_key, C65_key_switch and C65_public_key_switch give what the release build returns for shares of several levels (C65_levels_ex: a wrong message). Operands of different degrees are not covered. Modelled in release form: sums, differences, negations, products, products with big integers, conversions between power basis and Ntt, and the three aggregations."
  },
  {
   "property": "C66",
   "status": "proved",
   "theorems": [
    "C66_to_bytes",
    "C66_from_bytes",
    "C66_bidirectional",
    "C66_serialize",
    "C66_collision",
    "C66_sampler"
   ],
   "note": "The check that a value fits is a debug_assert (lib.rs:86, 167); the check of lib.rs:51 never fails. C66_collision: in the release build a vector that is not reduced has the bytes of another, canonical one. Lengths are bounded by 2^64 bits (the product of lengths wraps beyond)."
  },
  {
   "property": "C67",
   "status": "proved",
   "theorems": [
    "C67_cases",
    "C67_largest",
    "C67_moduli",
    "C67_default"
   ],
   "note": "The check of the upper bound is a debug_assert (primes.rs:34), as is plaintext_nbits < 64 (parameters.rs:221). The building of parameters inside default_parameters_128 is an argument of the release model; C67_default gives it the debug build."
  },
  {
   "property": "C68",
   "status": "proved",
   "theorems": [
    "C68_context",
    "C68_draws",
    "C68_params",
    "C68_total",
    "C68_deserialize",
    "C68_default"
   ],
   "note": "The debug build panics at a debug_assert when the draws (100 in the code) are exhausted (native.rs:334), the release build goes on with the root 0 and ends with an error (C68_draws). C68_total, C68_deserialize and C68_default assume draws that contain a non-residue for every odd prime."
  }
 ]
}