# Formal model of fhe.rs in Rocq/Coq 8.16.1

The Coq development is in `rocq/theories` and uses the Coq standard library only.
Build: `cd rocq && coq_makefile -f _CoqProject -o Makefile && make -j4`.

`properties.jsonl` lists the properties, `MANIFEST.json` the theorems of each of them and its status,
`seeded/LOG.jsonl` the wrong programs against which the theorems were tested.

## 1. How the code is modelled

* **Panics and errors.** A modelled Rust function returns a value of type
  `M A := Val a | Err e | Panic` (`Outcome.v`). `Err` is a Rust `Err(..)` (or the `None` of an `Option` where
  the code returns one), `Panic` is any panic: `assert!`, `debug_assert!`, integer overflow, shift by the
  width, index out of bounds, `unwrap`/`expect` on nothing, division by zero.
  The model is the **debug build**. A theorem `f x = Val v` therefore says that no check fails on `x`; the
  release build, which only drops checks, computes the same `v`. For the arithmetic core, the RNS scaler, the polynomial operations, bit packing, the sampler, the generation of primes and the making of contexts and parameters this is proved (C59, `ReleaseModel.v`; C64, `ReleaseRnsModel.v`; C65, `ReleaseRqModel.v`; C66, `ReleaseUtilModel.v`; C67, `ReleasePrimesModel.v`; C68, `ReleaseBuildModel.v`);
  above it, it is an argument: nothing else is compiled differently (no `cfg(debug_assertions)` outside tests,
  no profile in `Cargo.toml`). `get_unchecked` is modelled as a checked
  access, so such a theorem also says that these accesses stay in bounds.
* **Integers.** `u64/u128/i64/usize/U256` are `Z` with explicit range checks (`chk64`, `chk128`, ...);
  `wrapping_*`, `as` truncations and masks are written out. `usize` has 64 bits. `BigUint`/`BigInt` are
  unbounded `Z`. Indices and lengths that the code never computes with are `nat`.
* **Mutation** through `&mut` is a function that returns the new value. `*Assign`, by-value and
  by-reference variants of an operator are one definition when they make the same checks in the same order.
* **Vectors and ndarray rows** are lists; a polynomial is a list of rows, one per modulus, tagged by the
  type parameter of its representation (`poly PowerBasis`, `poly Ntt`, `poly NttShoup`).
* **Loops** are structural recursions; `while` loops over machine words use binary fuel whose exhaustion
  is `Panic` (`PrimesModel.v`), so termination within the fuel is part of what is proved.
* **`Arc`** is the value it points to. Pointer equality is only observable for parameters, whose record has
  a field `pa_id` (the address): `par_same` is `Arc::ptr_eq || ==`.
* **Hash maps** are association lists without repeated keys, hash sets lists without repetition, in insertion
  order. No modelled result depends on the order: the random streams of the Galois keys of an evaluation
  key are indexed by exponent.

### Oracles

They are arguments of the definitions, never axioms, and the theorems quantify over them under these hypotheses.

| argument | stands for | hypothesis |
|---|---|---|
| `isp` | `fhe_util::is_prime` (crate num-prime) | `oracles`: decides primality on 64-bit words |
| `cands p` | candidates drawn by `primitive_root` (seeded ChaCha8) | `oracles`: they are below p; existence theorems also ask for a quadratic non-residue among them |
| `rng : nat -> Z` | a stream of `next_u64` | `words`: values below 2^64 |
| `expand` | `random_from_seed` (SHA-256, ChaCha8, rejection sampling) | `expands_well`: rows of the right length, reduced |
| `derive` | seeds drawn from a seed in `generate_c1` (ChaCha8) | 32 bytes where serialization needs it |
| `isqrt` | `(n as f64).sqrt().ceil() as usize` in `encode_database` | a layout: at least 1, and the two dimensions fit in a query (`layout`, PirSpec.v) |
| `plan_new`, `plan` | `Plan` of the crate tfhe-ntt (C60 only) | `plan_contract`: `fwd` evaluates at the odd powers of a root in bit-reversed order, `inv` and `normalize` undo it |
| rows | `Poly::random` | rows of the right length, reduced |

`Example`s instantiate all of them with closed functions (`isp_bfv`, `cands_bfv`, `expand_ex`, `derive_ex`, `rng_ex`)
and prove that the hypotheses hold.

### What is modelled

| Rust | Coq | left out |
|---|---|---|
| `fhe-util/lib.rs`: `sample_vec_cbd`, `transcode_*`, `inverse` | `CbdModel`, `TranscodeModel`, `ZqModel` | `is_prime` (oracle), `variance` (test helper) |
| `fhe-math/zq/mod.rs`, `zq/primes.rs` | `ZqModel`, `PrimesModel` | `random_vec` (rejection sampling of rand) |
| the same two modules and the slot encoder, release build | `ReleaseModel` | serialization, `random_vec`, `Modulus::new` (no arithmetic on operands), lengths of slices passed to the `_vt` transforms (unchecked accesses) |
| `rns/mod.rs` (`RnsContext::new`) and `rns/scaler.rs`, release build | `ReleaseRnsModel` | `project` and `lift` (`BigUint` only, no checks to drop); what follows a read outside of a table (undefined behaviour, written `Panic`); ethnum's shifts by 256 bits or more |
| `rq/ops.rs` (operators on two polynomials, negation, product with a big integer), conversions of `rq/mod.rs`, `from_shares` of `mbfv` (public key, secret key switch, public key switch), release build | `ReleaseRqModel` | `dot_product`, scaling and switching of polynomials, conversions to and from `NttShoup`, operands of different degrees; the other aggregations |
| `fhe-util/src/lib.rs` (bit packing, sampler), `serialize_vec`, `deserialize_vec` of `zq/mod.rs`, release build | `ReleaseUtilModel` | `inverse` and the probabilistic functions; vectors of 2^64 bits and more, for which the product of lengths wraps |
| `zq/primes.rs` (`generate_prime`), `generate_moduli`, the extended basis and `default_parameters_128` of `bfv/parameters.rs`, release build | `ReleasePrimesModel` | `build`, which the release form of `default_parameters_128` takes as an argument (see the next row); the counts in `NotEnoughPrimes` |
| `rq/context.rs` (`Context::new`), `rq/scaler.rs` (`Scaler::new`), `build`, `try_deserialize` of `bfv/parameters.rs`, release build | `ReleaseBuildModel` | the checks of the configuration and of the moduli and what uses big integers only are shared with the debug model; an operator is searched among finitely many draws, after which the release build goes on with 0 as the root |
| `fhe-math/ntt/native.rs`, `ntt/mod.rs` | `NttModel` | |
| `fhe-math/ntt/tfhe.rs` (optional feature `tfhe-ntt`) | `TfheModel` | the crate tfhe-ntt (oracle); the models of polynomials and of the scheme use the native operator |
| `fhe-math/rns/mod.rs`, `rns/scaler.rs` | `RnsModel` | |
| `fhe-math/rq/{context,mod,ops,convert,scaler,switcher,serialize}.rs` | `RqModel` | ndarray layout, zeroization |
| `fhe/bfv/parameters.rs`, `bfv/context/*` | `ParamsModel`, `DefaultModel` | `Debug` |
| `fhe/bfv/{encoding,plaintext,plaintext_vec}.rs` | `PlainModel` | array/`Vec` wrappers of the encoders, zeroization |
| `fhe/bfv/ciphertext.rs`, `keys/{secret_key,public_key}.rs` | `CipherModel` | zeroization, `Drop` |
| `fhe/bfv/ops/{mod,dot_product}.rs` | `OpsModel` | |
| `fhe/bfv/ops/mul.rs`, `keys/{key_switching_key,relinearization_key,galois_key,evaluation_key}.rs`, `rgsw_ciphertext.rs` | `KeysModel` | |
| `fhe/mbfv/*` | `MbfvModel` | marker types of `round.rs` |
| `fhe/examples/voting.rs`, `timeit_n!` of `examples/util.rs` | `VotingModel` | parsing of the arguments, printing |
| `fhe/examples/mulpir.rs`, `sealpir.rs`, `generate_database`, `number_elements_per_plaintext`, `encode_database` of `examples/util.rs` | `PirModel` | parsing of the arguments, printing, the repetitions of `timeit_n!`, protobuf framing |
| `fhe/examples/bfv_basic.rs`, `bfv_ops.rs`, `rgsw.rs` | `ProgramsModel` | printing, protobuf framing (the size that `rgsw.rs` prints) |
| `to_bytes`, `from_bytes`, `try_deserialize` of `fhe-math/rq/serialize.rs` and of `fhe/bfv` with the messages of `bfv.proto` and `rq.proto` (`bfv.rs`, `rq.rs`) | `BytesModel` | prost itself: its wire format, written from its documentation |
| the choice between `*_vt` and other functions by `allow_variable_time_computations` in `fhe-math/rq`, and the lazy transform of key switching | `LeakModel` | the time of every other function |

Every definition has a comment with the file and lines it transcribes.

In C26, C42, C43 messages are records whose fields are those of the `.proto` files; C55 adds their encoding as byte strings. The crate
prost is not in the repository: `BytesModel` transcribes the protobuf wire format with the choices that prost documents, and that
prost follows it is part of the trusted base of C55 (of no other property).

C56 observes which `_vt` functions run and on which values. That the other functions take constant time (divisions, big integers, comparisons,
sampling) is neither modelled nor claimed. An operation that panics counts as executed, and a scaling is one operation.
C56_observed states what the traces record; that these are all the variable-time functions of the code is by reading it.

Not modelled anywhere: SIMD dispatch (`pulp`), which
only selects machine code; memory, allocation failure and `Zeroize`; `Display`/`Debug`; the texts of errors (an
error is its constructor, with the payload where a theorem speaks about it); timing. Cryptographic security and the quality of random
generators are outside of any such model and nothing is claimed about them.

### Layout

* `*Model.v`: definitions only, with citations. `*Spec.v`: vocabulary of the statements, written independently of the model's
  helpers (integers, integer polynomials modulo X^N+1, phases, noises).
* `*Proofs.v`, `*PropLemmas.v` and others: lemmas. `RingRn.v`/`RnPoly.v`: Z[X]/(X^N+1) as a ring on which `ring` works, and
  the correspondence between model polynomials and its elements.
* `*Examples.v`: closed runs and witnesses.
* `Props*.v`: the theorems named in the manifest. Each is closed by `exact` of a lemma and is followed by
  `Print Assumptions`; an `Example` beside it meets its hypotheses or runs the model.

Names: a theorem `Cxx_..._refuted` shows that the property as written is false of the code; `Cxx_..._partial` proves a weaker
statement where the full one is not proved or not true.

## 2. Trusted base

* Coq's kernel; the files are checked again by `coqchk`. No kernel check is switched off, `vm_compute` is used for closed
  examples only (re-checked by `coqchk` without the VM).
* `Print Assumptions` answers "Closed under the global context" for every theorem of every `Props*.v`: no axiom at all,
  neither ours nor of the standard library.
* `coqchk` lists seven axioms, all of `Coq.ssr.ssrunder.Under_rel` (the module type of the standard library's `under`
  tactic, loaded by its own files). No theorem depends on them.
* The transcription of the cited lines by hand, including the choice of what a debug build checks.
* The oracles above: that the crates they stand for satisfy the hypotheses.

## 3. Properties

"Noise" statements carry explicit bounds; `supported par` means: sum of the moduli below 2^65 and at most 2^20 of them;
`decryptable par`: the base of decryption exceeds 3t/2 by a margin of t/2^41 + 2; `group_decryptable par`: the same for the base of decryption by a group, automatic for t < 2^200 (`C44_room`); `small_noise par l B`: 2t(B+1) <= (1 - 2^-60) Q_l.

| id | what is proved | method |
|----|----------------|--------|
| C01-C06 | scalar and vector arithmetic modulo p, for every p and operands; `pow`, `inv` | Barrett and Shoup error analysis; Fermat |
| C07 | congruence and the true interval of `center`; documented interval **refuted** (p = 5, a = 2) | case analysis |
| C08-C10 | transcoding and residue serialization, all lengths and widths | invariant: accumulator and output spell the same integer |
| C11 | **refuted**: deserialization can return values >= p; below 2p proved for minimal widths | witness |
| C12 | sampler: values, bounds, disjoint bits, mean and variance over all words | the 128-bit pool is the unread window of the stream |
| C13 | largest prime of that form, or none; modulo = 1 never finds one (**refuted** case) | induction on the descending loop |
| C14-C17 | NTT: construction, inverse, evaluation at odd powers of a root, convolution, lazy and variable-time variants | stage invariants, bounds below 4p |
| C18 | CRT contexts, lift, projection, Garner weights | Chinese remainder theorem |
| C19 | scaler: error below explicit bounds for load < 2^65; beyond **refuted** (sign test) | exact analysis of the fixed-point sums |
| C20-C25 | polynomial arithmetic, conversions, automorphisms, modulus switching, X^-k, dot product | representation relation to Z[X]/(X^N+1) |
| C26 | polynomial messages round-trip | |
| C27 | **refuted**: the degree field is not compared; what acceptance does imply is proved | |
| C28 | integer vectors; **refuted** for u64 vectors of length N with one modulus | |
| C29 | context chains | |
| C30 | parameters that build are consistent; building never panics; acceptance criterion | |
| C31 | SIMD slot order | structure of the units modulo 2^k |
| C32 | encode/decode for values below t; **refuted** for levels with Q < t and for unreduced values beyond the first modulus | |
| C33 | plaintext scaling is floor(Q m / t) | |
| C34, C47 | decryption for bounded noise, fresh encryptions, noise meter; **refuted** without `decryptable` | phases and norms |
| C35, C36, C41 | linear operations, plaintext products, dot products, modulus switching | phases and norms |
| C37 | products, Multiplicator (all bases, relinearization, switching); **refuted** for an empty right operand | tensor product and scaler error |
| C38 | key switching and relinearization at all level pairs; **refuted**: keys above the ciphertext, last-level keys | gadget identity |
| C39 | rotations by columns and rows, builder; **refuted**: keys asked for inner sums also rotate | automorphisms |
| C40 | inner sums; expansion with its general message; **refuted**: constants need zero upper coefficients | |
| C42, C46 | for every ciphertext reachable by any sequence of operations; **refuted** for empty, one-part, overwritten and relinearized foreign ciphertexts | induction on reachability (`ReachSpec.v`) |
| C43 | round trips of all keys, no panic when reading any message, safety of keys read; **refuted** for wide digits, public keys of more parts | |
| C44 | all five protocols for groups of any size >= 1, end-to-end round trip, room for decryption; **refuted** for three-part ciphertexts in the public key switch and leveled common random polynomials | sums over the members |
| C45 | external products | gadget identity |
| C48 | default parameter sets: exact result for 1 to 63 bits, round trips for short plaintext moduli, round trips by a group for all; **refuted**: panics at 0 and from 64 bits, rows left out, sets whose t exceeds the first modulus cannot decrypt | certified primes, `decrypt_raw` |
| C49 | circuits: any composition of the operations above runs without error, decrypts and decodes to its value, while the estimated noise is small | induction on circuits (`CircuitSpec.v`) |
| C50 | no panic in the functions that return a `Result`, on reachable ciphertexts; exact panic conditions of the operators; two protocol functions refuted | invariant of C42/C46 (`some_parts`) and the equations of each operation (`SafeSpec.v`) |
| C51 | `examples/voting.rs`: for all parties, voters, votes and draws, the printed tally is the number of votes for 1 below 2^32 parties and voters and 4096 such votes; panics otherwise (refuted) | C44 with the worst-case noise of the sum, on the parameters of the example (C48's certificates) |
| C52 | `examples/mulpir.rs`: for all databases, indices and draws, the client ends with the requested element, given room for the worst-case noise | C40 for the expanded query, C08 for the packing of bytes, C36 and C37 for the columns and their products, C38, C41, then C42 and C34 for the response; the expanded coordinates are constants, so that the products are weighted sums in which one weight is 1 |
| C53 | `examples/sealpir.rs`: the same, when the server folds the columns into plaintexts and the client decrypts twice | the steps of C52 for the query and the columns; C09 for the folding of a ciphertext into digits and back; the digits determine the rows of the two parts, so the rebuilt ciphertext encrypts what the column did |
| C54 | `examples/bfv_basic.rs`, `bfv_ops.rs`, `rgsw.rs`: what they print, for all draws; and their computations for all values and parameters with room. `rgsw.rs` always fails its assertion (refuted) | the programs are built from C49's circuits; the noise of each is evaluated for the third default set (C48); `PartialEq` of plaintexts at different levels |
| C55 | byte strings: what `to_bytes` writes, `from_bytes` reads back; no byte string makes `from_bytes` panic; strings are not unique | varints and fields by induction on bytes, one lemma per message; reading a string agrees with reading the record it decodes to (`agree`), so that C26, C42, C43 carry over; parameters are rebuilt from their moduli (C30) |
| C56 | what variable-time code sees: encoding, decryption, encryption nothing private; key generation what the key shows; operations what is public | each function is repeated with a list of its variable-time operations (`t_*`), erasing the list gives the function back (C56_programs); two runs on inputs with the same public parts are compared (`runs_alike`); key traces are computed from the published key (`key_events`). Refuted for key switching of private polynomials and for products of private ciphertexts |
| C57 | values outside the range of encoders and decoders: exactly which lists panic, all others are encoded, what decoding can panic on | the transforms on unreduced inputs: the first butterfly that meets a value out of range panics, none does otherwise (RangeNtt.v); chunks one by one (RangeProofs.v). Slots at a last level whose modulus is below t/4 are treated apart (C57_encode_low) |
| C58 | key generation: every outcome for all arguments, of one secret key and of a group; builders under any sequence of requests | builders by induction over the requests (KeygenProofs.v); shares as whatever calls of the protocol functions returned, so that every polynomial in them is canonical in the first context, and sums by folds (KeygenProtoProofs.v). Keys of a group are not marked variable-time, so that C46 does not apply to them: they are keys of the zero secret key with the largest noise (KeygenPropLemmas.v). Relinearization keys of one secret key need `supported`; what sums of mismatched shares are good for is not claimed |
| C59 | the release build of the arithmetic core: same values, and what it computes where the debug build panics | a second model with wrapping arithmetic and without assertions (ReleaseModel.v), a refinement lemma per function (ReleaseProofs.v), and the transforms redone with bounds of 2^64 instead of 4p and 2p: forward butterflies are congruent for all words, inverse ones make the difference wrap in the first stage only, if neighbours add up to less than 4p (ReleaseNttProofs.v). Beyond that bound the inverse transform is total and reduced, but not characterised |
| C60 | the operator of the feature `tfhe-ntt`; transforms modulo p with different roots | the root of any such transform is an odd power of the root of any other, so evaluations differ by an automorphism (TfheProofs.v); a plan for a root is the native operator for the candidate raised to that power, so that C14-C17 apply to it (C60_simulates). What the layers above compute with plans is not modelled; they see the operator as one for other candidates, which their theorems allow |
| C61 | sizes of byte strings: functions of what is public, except for secret keys with variance 32 | the size of a varint is the number of its groups of seven bits, fields and messages add up (SizesProofs.v); the shapes of keys and ciphertexts come from C42, C43 and C46, the bounds on the coefficients of secret keys from C58; the stream of alternating ones and zeros gives coefficients of 64 |
| C62 | vectors and arrays of words as polynomials and back; unreduced words are accepted except for NttShoup | the chunks of a vector have its words in order (chunks_spec); one case analysis of rows of the right shape serves all six conversions (rows_case) |
| C63 | bytes written with some roots of unity are read with others as the same parameters, polynomials, secret keys and seedless ciphertexts; refuted for seeds and slots, with what becomes of both | a written polynomial is its residues in power basis, which depend on the moduli only (same_proto); a ciphertext and its copy under the other parameters have the same message, so the round trip of C42 applies to the copy; the root of one transform is an odd power of the root of the other (Bezout modulo 2N), so its values are those of an automorphism's image (C63_words) and the slots are rotated and perhaps swapped (C63_slots); a second parameter set from the cubes of the first one's candidates gives the refutations |
| C64 | the release build of the RNS scaler: same contexts and scalers, same error bound, in-bounds reads characterised | wrapping model (ReleaseRnsModel.v); refinement per function from successful debug runs, then C19; for any words, the rows of a good scaler have one entry per modulus, so the unchecked reads succeed exactly up to that length, and zero words add nothing |
| C65 | release build of polynomial operations: agreement with the debug build; operands of two levels give a mixture; when it is right; aggregations of shares of several levels | contexts made with the same oracles have the same operators for the same modulus, so row i of both operands is one residue; the rows of the result are lifted by CRT (`rows_exist`) and compared row by row (`row_cong`); induction over the shares |
| C66 | release build of bit packing, serialization of residues and the sampler: truncation of values too wide, on which the debug build panics; agreement otherwise | the packing loop on a vector with the mask alone is the debug loop on the truncated vector (`tloop_map`); the debug loop panics at the first value too wide (`tloop_panic`); the number of pooled bits of the sampler stays in 0..64, so nothing wraps |
| C67 | release build of the generation of primes, moduli and default parameters: agreement; outcomes where the debug build panics; the result is the largest prime wanted | two loops whose steps agree on an invariant agree (`while_pos_ext`): a number with the wanted leading zeros is positive, so nothing wraps; outside the bounds both loops stop at once (`while_pos_stop`) |
| C68 | release build of contexts and parameters: agreement with values and errors of the debug build; no panic with complete draws; the error without a non-residue among the draws | a computation that does not panic is followed step by step (`agrees`, `ag_bind`); word operations return no errors (`noerr`), so their agreement on values is enough; the root found by the search comes from a non-residue (`loop_residue`) |

Status "partial" in the manifest means that the property as written is false or proved in part; the refutation, and the strongest
true version found, are among its theorems. "Proved" properties with a refuted corner have it named in the note.

## 4. Tests of the theorems

A scratch copy of the model is edited (a wrong bound, a swapped operand, a dropped reduction or check, another level ...), everything is
compiled, and the theorems that fail are recorded in `seeded/LOG.jsonl`. Where nothing failed, a theorem was added or tightened
unless the edit does not change behaviour; the log says which.

Files are compiled with `make -k`, so a file after a failed one is not compiled at all. `lemmas_failed` are the lemmas at which a file
stopped, as reported by Coq; only the first of each file is seen. `theorems_failed` is derived from them: the theorems whose text depends,
by names and through imports, on such a lemma. A failure means that the proof as written no longer works.
It can name a theorem that would still be provable in another way, and two names that
coincide in imported files are not told apart. (An earlier version of the list ignored imports; names of theorems that do not depend on
the edited file have been removed from all entries.) Some survivors are only equal on the runs that the theorems cover; their notes say so.
