{"id": "C01", "title": "Modular add, sub, neg and mul return the canonical residue", "statement": "For every modulus accepted by Modulus::new and all operands in [0,p), add, sub, neg and mul (and their _vt variants) return the unique integer in [0,p) congruent to the mathematical result, with no integer overflow and no failing assertion.", "quantifier": "every 62-bit modulus p >= 2, every pair of operands below p", "why_tests_cant": "there are about 2^186 (p,a,b) triples; Barrett reduction errors show up only near quotient boundaries that random sampling misses", "anchors": ["crates/fhe-math/src/zq/mod.rs: Modulus::new, add, sub, neg, mul, add_vt, mul_vt, neg_vt, reduce1, reduce1_vt"]}
{"id": "C02", "title": "Full-range reduction is exact", "statement": "For every accepted modulus, reduce (any u64), reduce_u128 (any u128) and the signed reduction used by reduce_vec_i64 (any i64) return the canonical residue; the lazy variants return a congruent value in [0,2p). No input overflows an intermediate.", "quantifier": "every modulus and every u64 / u128 / i64 input", "why_tests_cant": "2^128 inputs per modulus; the u128 intermediate sum p_lo_hi + p_hi_lo + p_lo_lo must be shown never to overflow", "anchors": ["crates/fhe-math/src/zq/mod.rs: reduce, reduce_vt, reduce_u128, reduce_u128_vt, reduce_i64, lazy_reduce, lazy_reduce_u128"]}
{"id": "C03", "title": "Optimised reduction agrees with the generic one whenever it is enabled", "statement": "Whenever a modulus reports supports_opt, mul_opt / reduce_opt / reduce_opt_u128 return exactly the canonical residue for every admissible input, so mul_vec gives the same vector whichever path is taken.", "quantifier": "every modulus satisfying the supports_opt inequality, every a,b < p, every u64 input and every u128 input below p^2", "why_tests_cant": "correctness depends on an inequality over all 62-bit p; a single bad p among billions would be invisible to tests", "anchors": ["crates/fhe-math/src/zq/mod.rs: mul_opt, mul_opt_vt, lazy_reduce_opt_u128, lazy_reduce_opt, reduce_opt, mul_vec", "crates/fhe-math/src/zq/primes.rs: supports_opt"]}
{"id": "C04", "title": "Shoup multiplication is exact for any left operand", "statement": "For every modulus, every b in [0,p) and every u64 a (not only a < p), mul_shoup(a,b,shoup(b)) is the canonical residue of a*b and lazy_mul_shoup is a congruent value in [0,2p).", "quantifier": "every modulus, every u64 a, every b < p", "why_tests_cant": "the guarantee for a >= p is what lazy NTT code relies on; the input space is 2^188", "anchors": ["crates/fhe-math/src/zq/mod.rs: shoup, mul_shoup, mul_shoup_vt, lazy_mul_shoup, scalar_mul_vec"]}
{"id": "C05", "title": "Vector operations are the pointwise operations, in both timing modes", "statement": "For vectors of any length, add_vec/sub_vec/neg_vec/mul_vec/scalar_mul_vec/mul_shoup_vec/reduce_vec/reduce_vec_i64/lazy_reduce_vec act element by element as the scalar operation, and the variable-time version returns exactly the same vector as the constant-time one (including the 16-lane chunk + remainder code).", "quantifier": "every modulus, every vector length, every vector of valid elements", "why_tests_cant": "tests use a few lengths; chunk/remainder bugs depend on length mod 16 and modulus path", "anchors": ["crates/fhe-math/src/zq/mod.rs: add_vec, add_vec_vt, sub_vec, sub_vec_vt, mul_vec, mul_vec_vt, neg_vec, neg_vec_vt, scalar_mul_vec, mul_shoup_vec, reduce_vec, reduce_vec_i64, lazy_reduce_vec"]}
{"id": "C06", "title": "Exponentiation and inversion", "statement": "pow(a,n) is a^n mod p for every a,n < p. inv(a) returns Some r exactly when p is prime and a is nonzero, and then r < p and a*r = 1 mod p.", "quantifier": "every modulus, every base and exponent below it", "why_tests_cant": "square-and-multiply bit handling must be right for each exponent; inversion relies on Fermat's theorem", "anchors": ["crates/fhe-math/src/zq/mod.rs: pow, inv"]}
{"id": "C07", "title": "Centering a residue", "statement": "center(a) is congruent to a modulo p and lies in the documented interval [-p/2, p/2).", "quantifier": "every modulus and every a < p", "why_tests_cant": "the documented interval fails only at one value per odd modulus; a test has to hit a = (p-1)/2", "anchors": ["crates/fhe-math/src/zq/mod.rs: center, center_vec", "crates/fhe/src/bfv/plaintext.rs: FheDecoder<Plaintext> for Vec<i64>"]}
{"id": "C08", "title": "Bit-packing to bytes and back loses nothing", "statement": "For every width 1..=64 and every list of values that fit in that width, transcode_to_bytes never panics, returns exactly ceil(len*width/8) bytes, and transcode_from_bytes of these bytes returns the original list followed only by zero padding elements (none when len*width is a multiple of 8 and width>=8 or len multiple of 8).", "quantifier": "every width 1..=64, every list length, every value", "why_tests_cant": "the loop carries a partial word across iterations; failures depend on the interaction of length, width and bit patterns", "anchors": ["crates/fhe-util/src/lib.rs: transcode_to_bytes, transcode_from_bytes"]}
{"id": "C09", "title": "Width-to-width transcoding preserves the bit stream", "statement": "For every pair of widths in 1..=64 and every input list that fits, transcode_bidirectional never panics, returns ceil(len*in/out) elements each below 2^out, and the little-endian integer spelled by the output digits equals the one spelled by the input digits; transcoding back recovers the input up to zero padding.", "quantifier": "all 64*64 width pairs, every list", "why_tests_cant": "4096 width pairs times unbounded lists", "anchors": ["crates/fhe-util/src/lib.rs: transcode_bidirectional"]}
{"id": "C10", "title": "Residue vector serialization round-trips with the advertised length", "statement": "For every modulus and every vector of canonical residues whose length is a multiple of 8, deserialize_vec(serialize_vec(v)) = v and the byte length equals serialization_length(len).", "quantifier": "every modulus, every length multiple of 8, every vector", "why_tests_cant": "depends on the bit width of p-1 for all p, including powers of two", "anchors": ["crates/fhe-math/src/zq/mod.rs: serialize_vec, deserialize_vec, serialization_length"]}
{"id": "C11", "title": "Deserialization yields elements mod p", "statement": "deserialize_vec is documented to return elements mod p: every element of the result is below p, whatever the bytes.", "quantifier": "every modulus and every byte string", "why_tests_cant": "requires adversarial bytes; round-trip tests never produce them", "anchors": ["crates/fhe-math/src/zq/mod.rs: deserialize_vec", "crates/fhe-math/src/rq/convert.rs: parse_proto"]}
{"id": "C12", "title": "Centered binomial sampler", "statement": "sample_vec_cbd fails exactly when the variance is outside 1..=32; otherwise it returns exactly the requested number of samples, each in [-2v,2v], sample i being (ones in a first block of 2v random bits) minus (ones in a second block of 2v bits), all blocks of all samples being pairwise disjoint bits of the generator output; over all values of those bits the sample has mean exactly 0 and variance exactly v.", "quantifier": "every vector size, every variance, every generator output stream", "why_tests_cant": "statistical tests can only estimate; bit reuse between samples (loss of independence) is invisible to them", "anchors": ["crates/fhe-util/src/lib.rs: sample_vec_cbd"]}
{"id": "C13", "title": "Prime generation", "statement": "If generate_prime returns p then p is prime, has exactly num_bits bits, is 1 mod modulo and below upper_bound, and is the largest such prime; if it returns None no such prime exists.", "quantifier": "every num_bits in 10..=62, every modulo, every upper bound up to 2^num_bits", "why_tests_cant": "completeness (None means none exists) quantifies over all integers in the range", "anchors": ["crates/fhe-math/src/zq/primes.rs: generate_prime"]}
{"id": "C14", "title": "NTT backward and forward are mutually inverse", "statement": "For every modulus and every size for which NttOperator::new returns an operator, backward(forward(a)) = a and forward(backward(a)) = a for every canonical vector, with canonical outputs and no overflow in any butterfly.", "quantifier": "every prime p = 1 mod 2n, every power-of-two n >= 8, every vector of length n, every generator of the root", "why_tests_cant": "sizes and inputs unbounded; lazy reductions stay below 4p only by an invariant over all stages", "anchors": ["crates/fhe-math/src/ntt/native.rs: NttOperator::new, forward, backward, butterfly, inv_butterfly, reduce3"]}
{"id": "C15", "title": "The forward NTT evaluates at every odd power of a primitive 2n-th root", "statement": "forward(a)[i] is the value of the polynomial a at psi^(2*rev(i)+1), where psi is a primitive 2n-th root of unity mod p and rev is bit reversal on log2(n) bits; in particular the evaluation points are exactly the n roots of X^n+1, each once.", "quantifier": "every operator and every vector", "why_tests_cant": "a wrong twiddle order can still be invertible; only a semantic statement for all inputs pins the order used by SIMD packing", "anchors": ["crates/fhe-math/src/ntt/native.rs: forward, NttOperator::new, primitive_root, is_primitive_root"]}
{"id": "C16", "title": "Pointwise multiplication in NTT form is negacyclic convolution", "statement": "backward(forward(a) * forward(b)) equals the product of a and b modulo X^n + 1 and p, for all canonical vectors a and b.", "quantifier": "every operator, every pair of vectors", "why_tests_cant": "quadratic reference implementation only checkable on samples", "anchors": ["crates/fhe-math/src/ntt/native.rs: forward, backward", "crates/fhe-math/src/rq/ops.rs: MulAssign for Poly<Ntt>"]}
{"id": "C17", "title": "Variable-time and lazy NTTs agree with the constant-time ones", "statement": "forward_vt and backward_vt return exactly what forward and backward return; forward_vt_lazy returns congruent values below 4p, for every input allowed by the documented preconditions (values below 4p for forward, below 2p for backward).", "quantifier": "every operator and every vector within the documented bounds", "why_tests_cant": "two separate loop structures (index based and chunk based) must coincide for all sizes", "anchors": ["crates/fhe-math/src/ntt/native.rs: forward_vt, forward_vt_lazy, backward_vt, butterfly_vt, inv_butterfly_vt"]}
{"id": "C18", "title": "RNS context construction and CRT", "statement": "RnsContext::new succeeds exactly on non-empty lists of pairwise coprime moduli in [2,2^62) and reports the first offending pair otherwise; for every success lift(project(x)) = x mod Q for all integers x, and project(lift(r)) = r for all canonical residue vectors r.", "quantifier": "every list of moduli, every integer, every residue vector", "why_tests_cant": "unbounded list of moduli and integers", "anchors": ["crates/fhe-math/src/rns/mod.rs: RnsContext::new, project, lift, get_garner"]}
{"id": "C19", "title": "RNS scaling rounds num/den times the centered input", "statement": "For every source basis, target basis and factor num/den, scale returns the residues, modulo every target modulus, of one and the same integer y with |y - x*num/den| <= 1/2 + tiny where x is the (almost) centered representative of the input; when num=den it returns a representative of the input itself.", "quantifier": "every pair of bases, every factor, every residue vector", "why_tests_cant": "fixed-point approximation error and the sign test on 256-bit accumulators depend on all residues at once; failures need many large residues simultaneously", "anchors": ["crates/fhe-math/src/rns/scaler.rs: RnsScaler::new, extract_projection_and_theta, scale, scale_new"]}
{"id": "C20", "title": "Polynomial arithmetic is arithmetic in Z_Q[X]/(X^N+1)", "statement": "For polynomials in the same context, addition, subtraction, negation, NTT multiplication, Shoup multiplication and multiplication by a big integer all return canonical coefficients and represent the corresponding ring operation on integer polynomials modulo X^N+1 and modulo Q.", "quantifier": "every context, every pair of polynomials, either representation", "why_tests_cant": "ring laws for all inputs and all numbers of moduli", "anchors": ["crates/fhe-math/src/rq/ops.rs: AddAssign, SubAssign, Neg, MulAssign, Mul<&BigUint>", "crates/fhe-math/src/rq/mod.rs: Poly"]}
{"id": "C21", "title": "Changing representation does not change the polynomial", "statement": "into_ntt, into_ntt_shoup, into_power_basis are mutually inverse on canonical polynomials, whatever the timing flag.", "quantifier": "every context and every polynomial", "why_tests_cant": "composition over all moduli and sizes", "anchors": ["crates/fhe-math/src/rq/mod.rs: into_ntt, into_power_basis, into_ntt_shoup"]}
{"id": "C22", "title": "Substitution is the ring automorphism X -> X^k", "statement": "substitute with exponent k computes p(X^k) mod X^N+1 for every odd k, the exponent constructor accepts exactly odd exponents below 2N (reducing larger ones), the NTT-domain permutation agrees with the coefficient-domain computation, and substituting k then l equals substituting k*l mod 2N.", "quantifier": "every degree, every odd exponent, every polynomial", "why_tests_cant": "index permutation with bit reversal must be right for all exponents and sizes simultaneously", "anchors": ["crates/fhe-math/src/rq/mod.rs: SubstitutionExponent::new, Poly::substitute"]}
{"id": "C23", "title": "Switching down divides by the dropped modulus with rounding", "statement": "switch_down maps a polynomial with coefficients x (mod Q) to round(x/q_last) modulo Q/q_last coefficient-wise, and fails exactly when there is no next context; switch_down_to iterates it.", "quantifier": "every context with at least two moduli, every polynomial", "why_tests_cant": "rounding boundary cases per modulus", "anchors": ["crates/fhe-math/src/rq/mod.rs: switch_down, switch_down_to"]}
{"id": "C24", "title": "Multiplication by X^-k", "statement": "multiply_inverse_power_of_x(k) represents p * X^(-k) mod X^N+1 for every k up to 2N.", "quantifier": "every degree, every power, every polynomial", "why_tests_cant": "wrap-around and sign handling for all k", "anchors": ["crates/fhe-math/src/rq/mod.rs: multiply_inverse_power_of_x"]}
{"id": "C25", "title": "Dot product equals the sum of products with any number of terms", "statement": "dot_product of two equally long non-empty sequences in one context returns sum of p_i*q_i, never overflowing its 128-bit accumulators however many terms there are; empty, unequal-length or mixed-context inputs are errors.", "quantifier": "every number of terms, every context, every polynomial", "why_tests_cant": "accumulator flushing happens only after up to 2^4 .. 2^100 terms", "anchors": ["crates/fhe-math/src/rq/ops.rs: dot_product, fma"]}
{"id": "C26", "title": "Polynomial byte serialization round-trips in all three representations", "statement": "from_bytes(to_bytes(p), ctx) = p for every canonical polynomial in every representation; bytes of one representation are rejected when parsed as another.", "quantifier": "every context, every polynomial", "why_tests_cant": "all moduli widths and sizes", "anchors": ["crates/fhe-math/src/rq/serialize.rs: to_bytes, from_bytes", "crates/fhe-math/src/rq/convert.rs: Rq::from, parse_proto"]}
{"id": "C27", "title": "Polynomial deserialization rejects a message for a different degree", "statement": "from_bytes fails on a message whose declared degree differs from the context degree.", "quantifier": "every context and message", "why_tests_cant": "requires a crafted message whose coefficient count happens to fit the other context", "anchors": ["crates/fhe-math/src/rq/convert.rs: parse_proto, TryConvertFrom<Vec<u64>>"]}
{"id": "C28", "title": "Integer vectors convert to their residues", "statement": "Converting a vector of u64, i64 or big integers of length <= N (or = N) into a polynomial yields, for every modulus, the canonical residues of the inputs; oversized vectors are rejected.", "quantifier": "every context, every vector", "why_tests_cant": "reduction is skipped on one path (single modulus), which only matters for inputs above the modulus", "anchors": ["crates/fhe-math/src/rq/convert.rs: TryConvertFrom<Vec<u64>>, TryConvertFrom<&[i64]>, TryConvertFrom<&[BigUint]>"]}
{"id": "C29", "title": "Context chain", "statement": "Context::new succeeds exactly when degree is a power of two >= 8 and moduli are non-empty, pairwise coprime and NTT-friendly; following i times the next-context link drops the last i moduli; niterations_to and context_at_level are consistent with that chain.", "quantifier": "every list of moduli and degree", "why_tests_cant": "arbitrary-length chains", "anchors": ["crates/fhe-math/src/rq/context.rs: Context::new, niterations_to, context_at_level"]}
{"id": "C30", "title": "Parameters that build are consistent", "statement": "If BfvParametersBuilder::build succeeds then degree is a power of two >= 8, the moduli are pairwise distinct NTT primes of the requested sizes, the plaintext modulus is coprime-admissible and below Q, there is exactly one context per level, level l having the first n-l moduli; invalid inputs produce errors, not panics.", "quantifier": "every builder configuration", "why_tests_cant": "the configuration space is infinite", "anchors": ["crates/fhe/src/bfv/parameters.rs: BfvParametersBuilder::build, generate_moduli, validate_configuration, validate_moduli"]}
{"id": "C31", "title": "SIMD slot ordering is a bijection", "statement": "The slot map built by build() is a permutation of 0..N for every power-of-two N: each NTT position is used by exactly one slot, slots in the first row being powers of 3 and the second row their negatives.", "quantifier": "every power-of-two degree", "why_tests_cant": "a number-theoretic fact about <3,-1> generating the odd residues mod 2N, for all N", "anchors": ["crates/fhe/src/bfv/parameters.rs: build (matrix_reps_index_map)"]}
{"id": "C32", "title": "Encode/decode round-trip", "statement": "Decoding an encoded plaintext with the same encoding and level returns the encoded values modulo t, padded with zeros to N, for unsigned, signed and big-integer inputs, in polynomial and SIMD encodings, at every level.", "quantifier": "every parameter set, every level, every vector of values", "why_tests_cant": "reduction is skipped on some paths so the failures need inputs >= q0 or levels with Q < t", "anchors": ["crates/fhe/src/bfv/plaintext.rs: try_encode, try_decode, coefficients, decode_simd_u64", "crates/fhe/src/bfv/plaintext_vec.rs: try_encode_with, encode_u64_chunk, encode_biguint_chunk"]}
{"id": "C33", "title": "Message scaling is floor(Q*m/t)", "statement": "The polynomial added to a ciphertext when encrypting m has coefficients congruent to floor(Q*m/t) modulo Q.", "quantifier": "every parameter set, level and message", "why_tests_cant": "exact integer identity over big moduli", "anchors": ["crates/fhe/src/bfv/plaintext.rs: to_poly", "crates/fhe/src/bfv/parameters.rs: build (delta, q_mod_t)"]}
{"id": "C34", "title": "Decryption inverts encryption for bounded noise", "statement": "If the phase of a ciphertext is floor(Q*m/t)+e with |e| below an explicit bound (about Q/(2t)), then try_decrypt returns m; in particular fresh secret-key and public-key encryptions decrypt correctly for all randomness when Q is large enough compared with the worst-case noise.", "quantifier": "every parameter set, key, message and every randomness outcome", "why_tests_cant": "correctness for all randomness and all parameter sizes, including plaintext moduli close to the first ciphertext modulus", "anchors": ["crates/fhe/src/bfv/keys/secret_key.rs: try_encrypt, encrypt_poly, try_decrypt", "crates/fhe/src/bfv/keys/public_key.rs: try_encrypt"]}
{"id": "C35", "title": "Homomorphic addition, subtraction, negation", "statement": "The phase of ct1+ct2, ct1-ct2, -ct, ct+pt, ct-pt, pt-ct is the corresponding sum of phases / scaled messages exactly, hence decryption of the result is the modular sum whenever the sum of the noises is below the bound; the zero ciphertext is neutral.", "quantifier": "every pair of ciphertexts with equal number of parts and level, every plaintext", "why_tests_cant": "all ciphertext shapes and values", "anchors": ["crates/fhe/src/bfv/ops/mod.rs: Add, AddAssign, Sub, SubAssign, Neg"]}
{"id": "C36", "title": "Homomorphic plaintext multiplication and dot product", "statement": "ct*pt has phase phase(ct)*m exactly, and dot_product_scalar equals the sum of ct_i*pt_i for any number of terms on both code paths.", "quantifier": "every number of terms, every ciphertext and plaintext", "why_tests_cant": "the fast path/slow path switch happens at a huge number of terms", "anchors": ["crates/fhe/src/bfv/ops/mod.rs: MulAssign<&Plaintext>", "crates/fhe/src/bfv/ops/dot_product.rs: dot_product_scalar"]}
{"id": "C37", "title": "Homomorphic multiplication", "statement": "The phase of ct1*ct2 (and of a squaring) differs from (t/Q) * phase1 * phase2 by an explicitly bounded rounding term; hence it decrypts to the product when the noise is small.", "quantifier": "every pair of ciphertexts with any number of parts", "why_tests_cant": "noise growth statements quantify over all ciphertexts", "anchors": ["crates/fhe/src/bfv/ops/mod.rs: Mul<&Ciphertext>", "crates/fhe/src/bfv/ops/mul.rs: Multiplicator::multiply"]}
{"id": "C38", "title": "Key switching and relinearization preserve the phase up to bounded noise", "statement": "For a key-switching key from s' to s, the pair returned for p satisfies c0 + c1*s = p*s' + noise with an explicit worst-case bound on the noise; relinearization of a 3-part ciphertext keeps the phase up to that noise and returns 2 parts.", "quantifier": "every key, every polynomial, every level combination", "why_tests_cant": "noise bounds for all randomness; decomposition path for single-modulus levels", "anchors": ["crates/fhe/src/bfv/keys/key_switching_key.rs: KeySwitchingKey::new, key_switch, key_switch_decomposition", "crates/fhe/src/bfv/keys/relinearization_key.rs: relinearizes"]}
{"id": "C39", "title": "Galois keys rotate slots", "statement": "rotates_columns_by(i) rotates each row of the SIMD matrix left by i, rotates_rows swaps the rows, up to bounded noise; requests not enabled when building the key are errors.", "quantifier": "every degree, every rotation amount, every slot vector", "why_tests_cant": "permutation identity over all N and i", "anchors": ["crates/fhe/src/bfv/keys/galois_key.rs: relinearize, relinearize_into", "crates/fhe/src/bfv/keys/evaluation_key.rs: rotates_columns_by, rotates_rows, construct_rot_to_gk_exponent"]}
{"id": "C40", "title": "Inner sum and oblivious expansion", "statement": "computes_inner_sum puts the sum of all slots in every slot; expands(ct,k) returns k ciphertexts, the i-th encrypting 2^ceil(log2 k) times coefficient i (as a constant).", "quantifier": "every degree, every size, every message", "why_tests_cant": "logarithmic-depth loops, all sizes", "anchors": ["crates/fhe/src/bfv/keys/evaluation_key.rs: computes_inner_sum, expands"]}
{"id": "C41", "title": "Modulus switching keeps the message", "statement": "switch_down / switch_to_level change a ciphertext's level by exactly the requested amount, clear its seed, and keep the encrypted message, the noise after switching being at most noise/q_last plus an explicit rounding term; requests to go up or past the last level are errors and leave the ciphertext unchanged.", "quantifier": "every ciphertext, every level", "why_tests_cant": "noise statement for all ciphertexts", "anchors": ["crates/fhe/src/bfv/ciphertext.rs: switch_down, switch_to_level"]}
{"id": "C42", "title": "Ciphertext serialization round-trip", "statement": "from_bytes(to_bytes(ct)) = ct for every ciphertext obtainable through the public API.", "quantifier": "every ciphertext reachable by any sequence of API calls", "why_tests_cant": "the seed shortcut makes the result depend on the history of the ciphertext, not only its value", "anchors": ["crates/fhe/src/bfv/ciphertext.rs: CiphertextProto::from, try_convert_from, DerefMut"]}
{"id": "C43", "title": "Key serialization round-trips", "statement": "Secret keys, public keys, key-switching, relinearization, Galois, evaluation keys and RGSW ciphertexts survive to_bytes/from_bytes unchanged; malformed messages (wrong counts, wrong levels, wrong seed length) are rejected with an error and never make a later operation panic.", "quantifier": "every key produced by the constructors, every message", "why_tests_cant": "adversarial messages and all parameter sets", "anchors": ["crates/fhe/src/bfv/keys/key_switching_key.rs: KeySwitchingKeyProto::from, try_convert_from", "crates/fhe/src/bfv/keys/secret_key.rs: from_bytes", "crates/fhe/src/bfv/keys/public_key.rs: from_bytes", "crates/fhe/src/bfv/keys/evaluation_key.rs: try_convert_from", "crates/fhe/src/bfv/rgsw_ciphertext.rs: try_convert_from"]}
{"id": "C44", "title": "Multiparty protocols compute the keys of the summed secret", "statement": "Aggregated public key shares form a public key for the sum of the secret shares; aggregated relinearization shares form a relinearization key for it; aggregated decryption shares decrypt; secret-key and public-key switching re-encrypt under the target key; all for any number of parties >= 1 and zero parties is an error.", "quantifier": "any number of parties, all shares, all randomness", "why_tests_cant": "the number of parties is unbounded", "anchors": ["crates/fhe/src/mbfv/public_key_gen.rs", "crates/fhe/src/mbfv/relin_key_gen.rs", "crates/fhe/src/mbfv/secret_key_switch.rs", "crates/fhe/src/mbfv/public_key_switch.rs"]}
{"id": "C45", "title": "RGSW external product", "statement": "The product of a 2-part ciphertext with an RGSW encryption of m has phase m * phase(ct) up to explicitly bounded noise, in either operand order.", "quantifier": "every ciphertext and RGSW ciphertext at the same level", "why_tests_cant": "noise statement for all inputs", "anchors": ["crates/fhe/src/bfv/rgsw_ciphertext.rs: Mul<&RGSWCiphertext>, try_encrypt"]}
{"id": "C46", "title": "Operations never leave a stale seed", "statement": "After any arithmetic operation, level switch or relinearization the ciphertext no longer carries the compression seed, so that its serialization is faithful.", "quantifier": "every sequence of operations starting from fresh ciphertexts", "why_tests_cant": "history-dependent", "anchors": ["crates/fhe/src/bfv/ops/mod.rs", "crates/fhe/src/bfv/ciphertext.rs", "crates/fhe/src/bfv/keys/relinearization_key.rs: relinearizes"]}
{"id": "C47", "title": "measure_noise measures the noise", "statement": "For a ciphertext whose noise is below the decryption bound, SecretKey::measure_noise returns the bit length of the largest coefficient of the noise in absolute value (0 for no noise), regardless of the number of parts and the level.", "quantifier": "every parameter set, key, ciphertext and noise below the bound", "why_tests_cant": "all noise values, including the negative ones stored as Q - |e|", "anchors": ["crates/fhe/src/bfv/keys/secret_key.rs: measure_noise"]}
{"id": "C48", "title": "default_parameters_128 returns usable parameter sets", "statement": "For every number of plaintext bits, BfvParameters::default_parameters_128 returns, by increasing degree, one parameter set for each degree of its table that admits an NTT-friendly plaintext modulus of that many bits, with the moduli of the table, and an error when there is none; it does not panic; and messages encrypted under a returned set decrypt.", "quantifier": "every number of bits, every primality oracle and candidate stream, every key, randomness and message", "why_tests_cant": "the tests try a few bit sizes and small messages; messages with coefficients above the first modulus are never sampled", "anchors": ["crates/fhe/src/bfv/parameters.rs: default_parameters_128", "crates/fhe-math/src/zq/primes.rs: generate_prime", "crates/fhe/src/bfv/keys/secret_key.rs: try_decrypt"]}
{"id": "C49", "title": "Every circuit of homomorphic operations decrypts to its value", "statement": "For every circuit composed of negation, addition, subtraction, operations with plaintexts, multiplication (with or without a Multiplicator), relinearization, modulus switching, rotations, inner sums, expansions and external products, in any order and of any size, on ciphertexts, plaintexts and keys made by the library: if every operation gets operands of the levels and sizes it accepts and the noise estimated by adding up the bounds of the single operations is small enough, then no call fails, the result decrypts to the polynomial the circuit computes modulo t, and (without expansions) decodes to the vector of slots the circuit computes from the slots of its inputs.", "quantifier": "every circuit, parameter set, key, randomness, input and message", "why_tests_cant": "tests run a few fixed compositions; the claim is about all compositions and about the interaction of levels, parts and noise along them", "anchors": ["crates/fhe/src/bfv/ops/mod.rs", "crates/fhe/src/bfv/ops/mul.rs", "crates/fhe/src/bfv/ciphertext.rs: switch_to_level", "crates/fhe/src/bfv/keys/relinearization_key.rs: relinearizes", "crates/fhe/src/bfv/keys/evaluation_key.rs", "crates/fhe/src/bfv/rgsw_ciphertext.rs"]}
{"id": "C50", "title": "Functions that return a Result do not panic", "statement": "On the parameters, keys, plaintexts and ciphertexts that the library's own functions produce, the functions that return a Result (ciphertext construction and parsing, encryption, decryption, noise measurement, dot products, multiplicators, modulus switching, relinearization, Galois operations, expansion, the making and aggregating of protocol shares) never panic, whatever the levels, the numbers of parts and the keys they are combined with; and the operators, which cannot return an error, panic on exactly the operands whose levels or numbers of parts differ.", "quantifier": "every parameter set, key, plaintext, randomness, message on the wire and reachable ciphertext", "why_tests_cant": "tests check some documented errors; the claim is about every combination of levels, numbers of parts and keys, including products with empty ciphertexts and ciphertexts read from the wire", "anchors": ["crates/fhe/src/bfv/keys/secret_key.rs: try_decrypt, measure_noise", "crates/fhe/src/bfv/ops/mul.rs: multiply", "crates/fhe/src/bfv/ops/dot_product.rs", "crates/fhe/src/bfv/keys/evaluation_key.rs", "crates/fhe/src/mbfv/public_key_switch.rs: PublicKeySwitchShare::new", "crates/fhe/src/mbfv/secret_key_switch.rs: from_shares"]}
{"id": "C51", "title": "The voting example prints the tally", "statement": "The program crates/fhe/examples/voting.rs builds its parameters, and for every number of parties and voters, every vote and whatever its generator draws, the parties' joint decryption of the sum of the encrypted ballots is the number of votes for 1, which it prints.", "quantifier": "every number of parties and of voters, every list of votes, every draw of the generator", "why_tests_cant": "a run has one number of parties and voters (10 and 1000 by default) and one draw; the claim is about the noise of a sum over any number of ballots under a key shared by any number of parties, and about when the sum leaves the plaintext space", "anchors": ["crates/fhe/examples/voting.rs: main", "crates/fhe/examples/util.rs: timeit_n"]}
{"id": "C52", "title": "The MulPIR example retrieves the element", "statement": "In the program crates/fhe/examples/mulpir.rs, for every database, every index, every parameter set with three moduli and an odd plaintext modulus and whatever its generator draws: when the rows and columns of the encoded database fit in a query and the worst-case noise of the parameter set leaves room, no step fails, the server's response decrypts to the plaintext that holds the requested element and the client ends with exactly that element; the program's final assertion holds for every database size and element size it accepts, and it stops before it starts on the others.", "quantifier": "every database, element size, index, parameter set, approximation of the square root that gives a layout, and draw of the generator", "why_tests_cant": "the program runs for one database and one random index; the claim is about every index and database, the packing of elements into plaintexts, the padding of the last row and column, and the noise of the whole composition", "anchors": ["crates/fhe/examples/mulpir.rs: main", "crates/fhe/examples/pir.rs", "crates/fhe/examples/util.rs: generate_database, number_elements_per_plaintext, encode_database", "crates/fhe/src/bfv/keys/evaluation_key.rs: expands", "crates/fhe/src/bfv/ops/dot_product.rs"]}
{"id": "C53", "title": "The SealPIR example retrieves the element", "statement": "In the program crates/fhe/examples/sealpir.rs, for every database, every index, every parameter set with three moduli and an odd plaintext modulus and whatever its generator draws: when the rows and columns of the encoded database fit in a query and the worst-case noise of the two dot products leaves room at the last level, no step fails, the digits of the intermediate ciphertext survive their folding into plaintexts, the second dot product and the second decryption, the ciphertext that the client rebuilds from them decrypts to the plaintext that holds the requested element, and the client ends with exactly that element; the program's final assertion holds for every database size and element size it accepts, and it stops before it starts on the others.", "quantifier": "every database, element size, index, parameter set, approximation of the square root that gives a layout, and draw of the generator", "why_tests_cant": "the program runs for one database and one random index; the claim is about every index and database, every width of the digits into which a ciphertext is cut, the last incomplete chunk, and the noise of the whole composition", "anchors": ["crates/fhe/examples/sealpir.rs: main", "crates/fhe/examples/util.rs: generate_database, number_elements_per_plaintext, encode_database", "crates/fhe-util/src/lib.rs: transcode_bidirectional", "crates/fhe/src/bfv/keys/evaluation_key.rs: expands", "crates/fhe/src/bfv/ops/dot_product.rs"]}
{"id": "C54", "title": "The introductory example programs print their results", "statement": "Whatever their generator draws, the programs crates/fhe/examples/bfv_basic.rs, bfv_ops.rs and rgsw.rs run to the end and print the results of the computations they show: the sums 8 and [6, 8, 10, 12]; the weighted sums 32, the inner products 50 and the values of 3x^2 + 2x + 1 at 3 and in the slots 1 to 4; and the slotwise product [5, 12, 21, 32]. The same computations give the sums, weighted sums, inner products, polynomial values and slotwise products modulo the plaintext modulus for all values and all parameter sets whose worst-case noise leaves room.", "quantifier": "every draw of the generator and every primality and root oracle that meets its contract; for the single computations also every parameter set, key, vector of values and weights", "why_tests_cant": "the programs are compiled but not run by the tests, and a run shows one draw of keys and noise; the claim covers all of them, and every vector for the computations", "anchors": ["crates/fhe/examples/bfv_basic.rs: main", "crates/fhe/examples/bfv_ops.rs: main, weighted_sum_plain, weighted_sum_simd", "crates/fhe/examples/rgsw.rs: main", "crates/fhe/src/bfv/plaintext.rs: PartialEq for Plaintext", "crates/fhe/src/bfv/parameters.rs: default_parameters_128"]}
{"id": "C55", "title": "Byte strings survive and never panic", "statement": "The byte string that to_bytes writes for a parameter set, a polynomial, a secret key, a new public key, relinearization key, evaluation key or RGSW ciphertext, or any reachable ciphertext of at least two parts is read back by from_bytes (try_deserialize) as the same object; reading any byte string whatsoever, as any of these types, gives an error or a well-formed object of the parameters and never panics.", "quantifier": "every parameter set, every object, every string of bytes of any length (below 2^64)", "why_tests_cant": "the set of byte strings is infinite: truncated lengths, overlong varints, unknown fields, groups, merged messages and repeated fields are never all tried; and objects cover all parameters and contents", "anchors": ["crates/fhe-math/src/rq/serialize.rs: to_bytes, from_bytes", "crates/fhe-math/src/proto/rq.proto", "crates/fhe/src/proto/bfv.proto", "crates/fhe/src/bfv/ciphertext.rs: to_bytes, from_bytes", "crates/fhe/src/bfv/parameters.rs: to_bytes, try_deserialize", "crates/fhe/src/bfv/keys/*.rs: to_bytes, from_bytes", "crates/fhe/src/bfv/rgsw_ciphertext.rs: to_bytes, from_bytes"]}
{"id": "C56", "title": "Variable-time code sees only public data", "statement": "The functions that run in variable time (those chosen by the flag allow_variable_time_computations, and the lazy transform) are never given data that is not public: encoding, decryption, noise measurement, encryption and public-key generation execute none on private data; what key generation, RGSW encryption and the shares of multiparty protocols execute depends only on what they publish; operations on ciphertexts and plaintexts whose public polynomials, contexts and flags agree execute the same variable-time operations on the same data and give results that again agree in this sense.", "quantifier": "every parameter set, key, plaintext, ciphertext, share, and every draw of the generators", "why_tests_cant": "it compares pairs of runs on all secrets; tests check the flag of a few results and see no time", "anchors": ["crates/fhe-math/src/rq/mod.rs: allow_variable_time_computations, disallow_variable_time_computations, change_representation, small, create_constant_ntt_polynomial_with_lazy_coefficients_and_variable_time", "crates/fhe-math/src/rq/ops.rs", "crates/fhe-math/src/rq/convert.rs", "crates/fhe/src/bfv/keys/key_switching_key.rs: generate_c0, key_switch", "crates/fhe/src/bfv/keys/secret_key.rs: try_decrypt, encrypt_poly", "crates/fhe/src/bfv/ops/mod.rs", "crates/fhe/src/mbfv"]}
{"id": "C57", "title": "Encoders and decoders panic on values outside their range only", "statement": "In the debug build, encoding u64 values (single plaintext or vector) panics if and only if the encoding is available for the parameters (and, for a single plaintext, there are at most N values) and some value is too large: a slot of at least 2t, or at the last level a coefficient (of the polynomial given, or of the one with the given slots) of at least four times its modulus; all other lists are encoded, coefficients as they are and slots by their residues modulo t. Large integers given as coefficients never panic. Signed values never panic unless the modulus of the last level is below t/4. Decoding any plaintext to u64 or large integers never panics; decoding to i64 panics if and only if the plaintext holds coefficients, t is at least 2^64 and some signed coefficient does not fit 64 bits, which is possible exactly for t > 2^64.", "quantifier": "every parameter set, encoding, list of u64, i64 or non-negative integers, plaintext of any level, and flag", "why_tests_cant": "tests encode reduced values; the range in which unreduced values are silently accepted, and its end, depend on the assertions inside the transforms", "anchors": ["crates/fhe/src/bfv/plaintext_vec.rs: try_encode_with, encode_u64_chunk, encode_biguint_chunk", "crates/fhe/src/bfv/plaintext.rs: try_encode, try_decode", "crates/fhe-math/src/ntt/native.rs: forward, backward, butterfly, inv_butterfly", "crates/fhe-math/src/rq/convert.rs: try_convert_from"]}
{"id": "C58", "title": "Key generation: every outcome for all arguments", "statement": "Making a relinearization key for ciphertexts of level l1 at key level l2 returns InvalidLevel for a level above the last one (l2 looked at first), KeySwitchingNotSupported for l2 the last level, and a well-formed key otherwise. A builder of evaluation keys, after any sequence of requests including refused ones, refuses exactly the column rotations outside 1..N/2-1 and the expansions above log2 N, and builds a well-formed key that holds exactly the automorphisms asked for, where the last expansion asked for wins. RGSW encryption succeeds on every plaintext, and products with the result panic exactly on ciphertexts of another level or without exactly two parts. In the key protocols of a group, shares with common random polynomials panic exactly if one is not of the first level; relinearization generators refuse exactly parameters with one modulus and lists of the wrong length; all sums of a nonempty list of shares that can be made succeed whatever the polynomials were, except that shares of a switching to a public key must have one level; and relinearization keys made so relinearize exactly the three-part ciphertexts of the first level and refuse all others with an error.", "quantifier": "every parameter set (for relinearization keys of one secret key: with at most 2^20 moduli, whose sum is below 2^65), secret key, pair of levels, sequence of builder requests, plaintext, common random polynomial of any level, list of shares that can be made, ciphertext of any level and number of parts, and all randomness", "why_tests_cant": "tests run the protocols with matching inputs; sequences of builder requests and mixtures of shares are unbounded", "anchors": ["crates/fhe/src/bfv/keys/relinearization_key.rs: new_leveled, relinearizes", "crates/fhe/src/bfv/keys/evaluation_key.rs: EvaluationKeyBuilder", "crates/fhe/src/bfv/rgsw_ciphertext.rs: try_encrypt, mul", "crates/fhe/src/mbfv/public_key_gen.rs", "crates/fhe/src/mbfv/relin_key_gen.rs", "crates/fhe/src/mbfv/public_key_switch.rs: from_shares"]}
{"id": "C59", "title": "The release build of the arithmetic core", "statement": "Compiled without overflow checks and debug assertions, the functions on words and vectors modulo p, the construction of transform operators, the transforms and the slot encoder return the value of the debug build whenever that build returns one. Where the debug build panics: products, reductions and powers are right for all words; sums are right exactly if below 2p and differences exactly if the first operand is less than p above the second; an operator for which no candidate yields a root is reported as missing; the forward transforms are right modulo p for all words; the inverse transforms never panic, and if slots 2i and 2i+1 add up to less than 4p they transform the slots from which 2^63 was moved to the neighbour wherever 2p + x - y leaves the range of words, so that they are right exactly if that happens nowhere. The slot encoder therefore turns slots of 2t and more, without notice, into a plaintext with other slots.", "quantifier": "every modulus that can be constructed, every operand of 64 or 128 bits, every list of candidates, every size, operator and vector of words, every parameter set with slots and every vector of slots", "why_tests_cant": "tests are run in the debug build, in which the inputs concerned panic; the agreement of two builds is a statement about all operands", "anchors": ["crates/fhe-math/src/zq/mod.rs: Modulus", "crates/fhe-math/src/ntt/native.rs: NttOperator", "crates/fhe/src/bfv/plaintext_vec.rs: encode_u64_chunk"]}
{"id": "C60", "title": "The transform operator of the feature tfhe-ntt, and transforms with different roots", "statement": "With the feature tfhe-ntt, an operator is constructed exactly if the native one is. If the crate provides no plan, its five transforms are the native ones. If it provides one that evaluates at the odd powers of some root of X^n + 1 in bit-reversed order and inverts this evaluation, the operator computes exactly what the native operator computes for some other list of candidates, so that the transforms are inverse to each other and turn products modulo X^n + 1 into pointwise products. It agrees with the native operator of the same build exactly if the plan uses the same root, which the contract does not imply; in general there are units e, f with ef = 1 modulo 2n such that the forward transform is the native one after X -> X^e and the inverse transform the native one followed by X -> X^f, and slots written in one build are read permuted in the other. The same holds between native operators made from different candidates. The comparison of operators, which ignores the plan, tells operators of one build apart. The lazy forward transform needs a plan that is right on inputs below 2p, not only on reduced ones.", "quantifier": "every modulus, size, list of candidates and plan that meets the contract; every vector of residues, and of words for the lazy transform", "why_tests_cant": "the tests of the operator run with one feature set, one root per modulus and random vectors; that two builds agree, or how they differ, is a statement about pairs of builds and all vectors", "anchors": ["crates/fhe-math/src/ntt/tfhe.rs: NttOperator", "crates/fhe-math/src/ntt/native.rs: primitive_root", "crates/fhe-math/src/rq/mod.rs: create_constant_ntt_polynomial_with_lazy_coefficients_and_variable_time"]}
{"id": "C61", "title": "The sizes of byte strings", "statement": "The number of bytes that to_bytes writes is given by formulas in what is public about an object: for a polynomial its context; for a ciphertext its level, the number of its parts and whether it has a seed; for public, relinearization and evaluation keys and RGSW ciphertexts the levels, the digits, the exponents and the seeds. It depends neither on messages nor on secret keys nor on randomness, and two evaluation keys for the same exponents have the same size whatever the order of the requests. A ciphertext becomes smaller at every further level. Generated secret keys have the same size if the variance is at most 31; with the largest variance, 32, their size depends on the key, since a coefficient of 64 takes two bytes. The size of parameters is given by the degree, the moduli, the plaintext modulus and the variance.", "quantifier": "every parameter set that can be built and serialized, every ciphertext that the library can produce, every key, seed and stream of random words; strings of keys of less than 2^64 bytes", "why_tests_cant": "a test measures a few strings; that no message, key or randomness changes the size, and that one variance is an exception, are statements about all of them", "anchors": ["crates/fhe/src/bfv/ciphertext.rs: From<&Ciphertext> for CiphertextProto", "crates/fhe/src/bfv/keys/key_switching_key.rs: From<&KeySwitchingKey> for KeySwitchingKeyProto", "crates/fhe/src/bfv/keys/secret_key.rs: SecretKey", "crates/fhe-math/src/rq/convert.rs: From<&Poly<R>> for Rq", "crates/fhe/src/bfv/parameters.rs: BfvParameters"]}
{"id": "C62", "title": "The words of polynomials", "statement": "A vector of as many words as a polynomial has (degree times number of moduli) is taken as the polynomial's words, in the order of the moduli, and is what the conversion back returns. If every word is below its modulus the polynomial is well formed; converting the words of any well-formed polynomial gives it back, in each of the three representations. If some word is not reduced, the conversions to power basis and NTT representation accept it and return a polynomial that is not well formed, and the conversion to NttShoup representation panics. For NTT and NttShoup representation every other length is an error. The same holds for two-dimensional arrays, where every other shape is an error. The words in power basis are the residues of the coefficients.", "quantifier": "every context, representation, vector or array of 64-bit words, and every well-formed polynomial", "why_tests_cant": "the tests convert random reduced vectors; which of all vectors are accepted, and that unreduced words go through unnoticed, are statements about every vector", "anchors": ["crates/fhe-math/src/rq/convert.rs: TryConvertFrom<Vec<u64>>", "crates/fhe-math/src/rq/convert.rs: TryConvertFrom<Array2<u64>>", "crates/fhe-math/src/rq/convert.rs: From<&Poly<R>> for Vec<u64>"]}
{"id": "C63", "title": "Reading what a program with other roots of unity wrote", "statement": "The roots of unity of the transforms come from a search among pseudo-random candidates, so two versions or builds of the library may use different ones. Serialized objects mean the same to both: the bytes of a parameter set are accepted and give one with the same numbers; polynomials (in every representation), secret keys and ciphertexts are read with the same coefficients; a ciphertext decrypts elsewhere to the same message.", "quantifier": "any two correct primality tests and sequences of candidates, every parameter set, polynomial, key and ciphertext", "why_tests_cant": "the tests write and read in one process, with one set of roots", "anchors": ["crates/fhe-math/src/rq/convert.rs: From<&Poly<R>> for Rq", "crates/fhe-math/src/ntt/native.rs: primitive_root", "crates/fhe/src/bfv/ciphertext.rs: try_convert_from", "crates/fhe/src/bfv/parameters.rs: try_deserialize"]}
{"id": "C64", "title": "The release build of the residue-number-system scaler", "statement": "In the release build, where arithmetic wraps, assertions are gone and tables are read with get_unchecked, residue-number-system contexts and scalers are those of the debug build, scaling gives the rounded multiple with the error of C19, and the reads stay within the tables exactly when there are no more input words than moduli and the requested outputs are in range; fewer words than moduli count as followed by zeros.", "quantifier": "all moduli, factors, input words (reduced or not) and output positions", "why_tests_cant": "the tests run with assertions; a read outside of a table or a wrapped sum gives no error", "anchors": ["crates/fhe-math/src/rns/scaler.rs: RnsScaler::new, scale", "crates/fhe-math/src/rns/mod.rs: RnsContext::new"]}
{"id": "C65", "title": "The release build of polynomial operations on operands of different contexts", "statement": "In the release build, where the comparison of contexts is gone, the sum, difference or product of two polynomials of two levels of one chain of contexts is of the level of the left operand, right modulo the moduli that both have and equal to the left operand modulo the others; so it is right when the left operand has no more moduli than the right one, and otherwise a sum is right only if the right operand is zero modulo the remaining moduli. Aggregations of shares of several levels, which panic in the debug build, return such a mixture. On operands that the debug build accepts, both builds return the same.", "quantifier": "all pairs of levels, polynomials in every representation, lists of shares of any length", "why_tests_cant": "the tests run with assertions, where these operations panic", "anchors": ["crates/fhe-math/src/rq/ops.rs: AddAssign, SubAssign, MulAssign", "crates/fhe/src/mbfv/secret_key_switch.rs: from_shares", "crates/fhe/src/mbfv/public_key_switch.rs: from_shares", "crates/fhe/src/mbfv/public_key_gen.rs: from_shares"]}
{"id": "C66", "title": "The release build of bit packing and of the sampler", "statement": "In the release build, where the check that a value fits its width is gone, packing values of more than w bits silently packs them modulo 2^w: the bytes spell the truncated values and unpacking returns these, while the debug build panics exactly on such inputs. So serializing a vector of words for a modulus p and reading it back gives the words modulo the power of two between p and 2p; it is the vector when all words are below this power. Unpacking and the sampler of the centred binomial distribution are the same in both builds.", "quantifier": "all widths 1..64, vectors of words of any length, moduli, streams, sizes and variances", "why_tests_cant": "the tests run with assertions and pack values that fit", "anchors": ["crates/fhe-util/src/lib.rs: transcode_to_bytes", "crates/fhe-util/src/lib.rs: transcode_bidirectional", "crates/fhe-util/src/lib.rs: transcode_from_bytes", "crates/fhe-util/src/lib.rs: sample_vec_cbd", "crates/fhe-math/src/zq/mod.rs: serialize_vec"]}
{"id": "C67", "title": "The release build of the generation of primes and moduli", "statement": "In the release build, where the check of the upper bound is gone and subtractions wrap, generate_prime returns what the debug build returns whenever this does not panic; for an upper bound that is zero or above 2^nb, where the debug build panics, it returns no prime, even if one below the bound exists. When it returns a prime, this is the largest one of nb bits below the bound that is 1 modulo the given number. The moduli generated for parameters and the extended basis are the same in both builds. The default parameters are the same for 1 to 63 bits; for other numbers of bits the release build returns the error that there are none.", "quantifier": "all numbers of bits, moduli, upper bounds, lists of sizes, degrees below 2^63 and primality tests", "why_tests_cant": "the tests run with assertions and with bounds that meet them", "anchors": ["crates/fhe-math/src/zq/primes.rs: generate_prime", "crates/fhe/src/bfv/parameters.rs: generate_moduli", "crates/fhe/src/bfv/parameters.rs: default_parameters_128"]}
{"id": "C68", "title": "The release build of contexts and parameters", "statement": "In the release build, Context::new and the building of BFV parameters return what the debug build returns, contexts, parameters and errors alike, whenever the debug build does not panic. If the random draws contain a non-residue for every prime, the release build never panics for any builder or any decoded message of parameters and agrees with the debug build. If they contain none for one of the moduli of a context, the debug build panics and the release build returns the error that there is no NTT operator for such a modulus. The default parameters are the same in both builds for 1 to 63 bits.", "quantifier": "all moduli, degrees, builders, messages, numbers of bits, correct primality tests and draws", "why_tests_cant": "the tests run one build with a handful of parameter sets", "anchors": ["crates/fhe-math/src/rq/context.rs: Context::new", "crates/fhe/src/bfv/parameters.rs: BfvParametersBuilder::build", "crates/fhe/src/bfv/parameters.rs: try_deserialize", "crates/fhe/src/bfv/parameters.rs: default_parameters_128"]}
