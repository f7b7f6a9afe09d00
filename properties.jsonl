{"id": "C01", "title": "Range check is sound when the chunk size divides the bit width", "statement": "If LogupRangeCheckContext::range_check(x, n) is part of a circuit whose constraints and lookups are all satisfied, and the chunk size divides n and 2^n < p, then the canonical residue of x is in [0, 2^n), whatever values the prover supplied for the digit hints.", "quantifier": "every prime p, chunk size c>0, width n multiple of c with 2^n<p, every field value x, every hint answer", "why_tests_cant": "The prover is adversarial: hint outputs are arbitrary field elements, so all p^k digit assignments must be excluded; tests only run the honest hint.", "anchors": ["compiler/circuit-std-rs/src/logup.rs: LogUpRangeProofTable::rangeproof, rangeproof_onechunk", "rust/jstprove_circuits/src/circuit_functions/gadgets/range_check.rs: LogupRangeCheckContext::range_check"]}
{"id": "C02", "title": "Range check is sound for every bit width", "statement": "A value accepted by range_check(x, n) is in [0, 2^n) for every width n the API accepts, including widths that are not multiples of the chunk size.", "quantifier": "every width 1..128, chunk size, field value, hint answer", "why_tests_cant": "The accepted set is determined by existence of some satisfying hint; tests with honest hints on a few values cannot see accepted negative values.", "anchors": ["compiler/circuit-std-rs/src/logup.rs: LogUpRangeProofTable::rangeproof", "rust/jstprove_circuits/src/circuit_functions/gadgets/range_check.rs: DEFAULT_LOGUP_CHUNK_BITS"]}
{"id": "C03", "title": "Range check never rejects an in-range value", "statement": "For every x in [0, 2^n) the honest digit hint produces a satisfying assignment of range_check(x, n) (no constraint fails, every query is in the table).", "quantifier": "every width n, chunk size, x < 2^n, prime p with room for the padded width", "why_tests_cant": "Universally quantified over all values and widths, including padded widths.", "anchors": ["compiler/circuit-std-rs/src/logup.rs: rangeproof, rangeproof_hint"]}
{"id": "C04", "title": "LogUp lookup argument is sound except for few challenges", "statement": "If a query list contains a key that is not in the table, then for every prover-supplied multiplicity vector, the final rational-sum equality holds for fewer than (table size + number of queries) challenge values.", "quantifier": "every field, table of distinct keys, query list, multiplicity vector; counting over all challenges", "why_tests_cant": "It is a statement about the number of bad random challenges over the entire field and all adversarial multiplicities.", "anchors": ["compiler/circuit-std-rs/src/logup.rs: logup_poly_val, sum_rational_vec, assert_eq_rational, LogUpSingleKeyTable::final_check, LogUpRangeProofTable::final_check"]}
{"id": "C05", "title": "LogUp lookup argument is complete", "statement": "If every query is in the table and the multiplicities are the true counts, the final check is satisfied for every challenge (including when denominators vanish).", "quantifier": "every field, table, query list, challenge", "why_tests_cant": "Ranges over all challenges including the poles of the rational function.", "anchors": ["compiler/circuit-std-rs/src/logup.rs: logup_poly_val, sum_rational_vec, assert_eq_rational"]}
{"id": "C06", "title": "Constant division returns floor quotient and remainder, uniquely", "statement": "When the range checks inside are exact, div_pos_integer_constant(x, d) constrains (q, r) to be exactly floor(x/d) and x mod d for every signed x in the supported window; no other witness is accepted.", "quantifier": "every divisor d>=1, shift exponent s, signed dividend, hint answers, prime p large enough", "why_tests_cant": "Uniqueness of the witness over the whole field; negative dividends and boundary values.", "anchors": ["rust/jstprove_circuits/src/circuit_functions/gadgets/euclidean_division.rs: div_pos_integer_constant, div_pos_integer_pow2_constant_inner"]}
{"id": "C07", "title": "Constant division accepts its honest witness", "statement": "For every in-window signed dividend the honest hint outputs satisfy every constraint of the division gadget.", "quantifier": "every divisor, dividend in the window, shift exponent", "why_tests_cant": "All dividends and divisors, including boundary values of the window.", "anchors": ["rust/jstprove_circuits/src/circuit_functions/gadgets/euclidean_division.rs: div_pos_integer_constant", "rust/jstprove_circuits/src/circuit_functions/hints/mod.rs"]}
{"id": "C08", "title": "Max gadget returns the maximum", "statement": "For every non-empty list of signed values within the shift window, constrained_max accepts exactly one output: the maximum of the list, whatever the hint supplies.", "quantifier": "every list of values, every hint answer", "why_tests_cant": "Adversarial hint and unbounded list length.", "anchors": ["rust/jstprove_circuits/src/circuit_functions/gadgets/max_min_clip.rs: constrained_max, constrained_max_2"]}
{"id": "C09", "title": "Min gadget returns the minimum", "statement": "For every non-empty list of signed values within the shift window, constrained_min accepts exactly one output: the minimum.", "quantifier": "every list of values, every hint answer", "why_tests_cant": "Adversarial hint and unbounded list length.", "anchors": ["rust/jstprove_circuits/src/circuit_functions/gadgets/max_min_clip.rs: constrained_min, constrained_min_2"]}
{"id": "C10", "title": "ReLU and clip are exact", "statement": "constrained_relu(x) = max(0,x) and constrained_clip(x,lo,hi) = min(hi, max(lo, x)) for all in-window signed inputs and all hints.", "quantifier": "every x, lo, hi in the window, every hint answer", "why_tests_cant": "Adversarial hint, all signed values.", "anchors": ["rust/jstprove_circuits/src/circuit_functions/gadgets/max_min_clip.rs: constrained_relu, constrained_clip"]}
{"id": "C11", "title": "Rescaling is exact floor division by the scale", "statement": "rescale(x) with scale 2^kappa returns floor(x / 2^kappa) (clamped at 0 in the fused ReLU mode) for every accumulator in the window, and no other value is accepted when the range checks are exact.", "quantifier": "every accumulator, kappa<32, s<64, hints, fused ReLU or not", "why_tests_cant": "Uniqueness over all field values and hint answers.", "anchors": ["rust/jstprove_circuits/src/circuit_functions/utils/quantization.rs: RescalingContext, rescale, rescale_array"]}
{"id": "C12", "title": "Greater/Less implement signed comparison", "statement": "The Greater and Less layers output 1 exactly when the signed (fixed-point) values compare that way.", "quantifier": "every pair of signed fixed-point values encoded in the field", "why_tests_cant": "All pairs including negatives, whose encodings are large residues.", "anchors": ["rust/jstprove_circuits/src/circuit_functions/layers/greater.rs", "rust/jstprove_circuits/src/circuit_functions/layers/less.rs", "compiler/expander_compiler/src/frontend/builder.rs: gt, geq, to_binary"]}
{"id": "C13", "title": "TopK returns the k largest elements in descending order", "statement": "Any accepted output of the TopK layer is a permutation-respecting, descending list of the k largest entries of the lane with matching indices.", "quantifier": "every lane, k, hint answers", "why_tests_cant": "The adversary picks values and indices.", "anchors": ["rust/jstprove_circuits/src/circuit_functions/layers/topk.rs"]}
{"id": "C14", "title": "Exponential lookup determines its output", "statement": "For a fixed input index the constraint system of the decomposed exp lookup accepts only one output value.", "quantifier": "every input index, every hint answer", "why_tests_cant": "Uniqueness over all field elements offered by an adversarial prover.", "anchors": ["rust/jstprove_circuits/src/circuit_functions/gadgets/function_lookup.rs: DecomposedExpLookup::verify_exp"]}
{"id": "C15", "title": "Pow with a negative exponent is constrained", "statement": "The Pow layer's accepted output for a negative exponent is within the rounding error of scale^2/x^k.", "quantifier": "every base, every negative exponent, every hint answer", "why_tests_cant": "Adversarial remainders.", "anchors": ["rust/jstprove_circuits/src/circuit_functions/layers/pow.rs"]}
{"id": "C16", "title": "Average pooling rounds to nearest", "statement": "An accepted AveragePool/GlobalAveragePool output equals floor((sum + floor(n/2))/n) for a window of n values when the range checks are exact.", "quantifier": "every window size n, every signed input window, hint answers", "why_tests_cant": "All windows and adversarial outputs.", "anchors": ["rust/jstprove_circuits/src/circuit_functions/layers/averagepool.rs", "rust/jstprove_circuits/src/circuit_functions/layers/global_averagepool.rs", "rust/jstprove_circuits/src/circuit_functions/layers/reduce_mean.rs"]}
{"id": "C17", "title": "Function-table keys of signed inputs never collide in the multiplicity hint", "statement": "For a signed function table, the honest multiplicity hint counts each key separately, so an honest proof is accepted on every supported field.", "quantifier": "every table width, every queried key, BN254 and Goldilocks", "why_tests_cant": "Key truncation collides only for specific residues.", "anchors": ["compiler/circuit-std-rs/src/logup.rs: query_count_by_key_hint", "rust/jstprove_circuits/src/circuit_functions/gadgets/function_lookup.rs: build_signed"]}
{"id": "C18", "title": "Randomised matrix-product check is sound and complete", "statement": "The Freivalds check of C = A*B accepts every correct product, and accepts a wrong product for at most a 1/p fraction of the random vectors.", "quantifier": "every matrix shape and content, all challenge vectors", "why_tests_cant": "Statement counts challenges over the field.", "anchors": ["rust/jstprove_circuits/src/circuit_functions/gadgets/linear_algebra.rs: freivalds"]}
{"id": "C19", "title": "Sumcheck verification is complete", "statement": "Every proof produced by the generic sumcheck prover for a sum of products of multilinear polynomials is accepted and the final claim equals the product sum at the challenge point.", "quantifier": "every number of variables, list of polynomials, challenge sequence", "why_tests_cant": "All sizes and challenges.", "anchors": ["prover/sumcheck/src/sumcheck_generic.rs: prove, verify", "prover/sumcheck/src/sumcheck_generic/prover.rs", "prover/sumcheck/src/sumcheck_generic/verifier.rs"]}
{"id": "C20", "title": "Sumcheck verification is sound", "statement": "If the verifier accepts a false claim and the final evaluation is the true polynomial value, then at some round the challenge was one of at most d roots determined before that challenge was drawn.", "quantifier": "every claimed sum, every prover message sequence, every challenge sequence", "why_tests_cant": "Adversarial messages and adaptive provers.", "anchors": ["prover/sumcheck/src/sumcheck_generic/verifier.rs", "prover/gkr/src/verifier/common.rs: verify_sumcheck_step"]}
{"id": "C21", "title": "GKR verification accepts every honest proof", "statement": "For every layered circuit, every input and public input, the verifier accepts the proof produced by the prover, for every challenge sequence.", "quantifier": "every circuit (any number of layers, gates), input vector, challenges", "why_tests_cant": "All circuits and sizes.", "anchors": ["prover/gkr/src/prover/gkr_vanilla.rs: gkr_prove", "prover/gkr/src/verifier/gkr_vanilla.rs: gkr_verify", "prover/gkr/src/verifier/common.rs: sumcheck_verify_gkr_layer"]}
{"id": "C22", "title": "GKR verification is sound for the claimed output evaluation", "statement": "If the verifier accepts and the input-layer claims match the committed input, then the claimed output value is the multilinear extension of the true circuit output at the output challenge, unless some challenge hit one of a bounded set of bad values.", "quantifier": "every circuit, prover messages, challenge sequence", "why_tests_cant": "Adversarial messages.", "anchors": ["prover/gkr/src/verifier/common.rs", "prover/gkr/src/verifier/gkr_vanilla.rs", "prover/sumcheck/src/verifier_helper.rs"]}
{"id": "C23", "title": "An accepted proof implies the circuit's constraints hold", "statement": "If verification of a proof returns success then the committed witness satisfies the circuit, i.e. the first expected_num_output_zeros outputs are zero.", "quantifier": "every circuit, witness and proof", "why_tests_cant": "Requires reasoning about all proofs, including the honest prover run on a violating witness.", "anchors": ["prover/gkr/src/verifier/snark.rs: verify", "prover/bin/src/executor.rs: verify", "rust/jstprove_circuits/src/runner/main_runner.rs: run_verification"]}
{"id": "C24", "title": "Parallel and sequential proof verification agree", "statement": "par_verify and verify return the same verdict on every proof.", "quantifier": "every circuit, proof bytes, public input", "why_tests_cant": "All byte strings, including malformed proofs.", "anchors": ["prover/gkr/src/verifier/snark.rs: verify, par_verify", "prover/gkr/src/verifier/structs.rs: parse_proof"]}
{"id": "C25", "title": "All equality-polynomial tables agree with the definition", "statement": "Every builder of the eq(r, .) table returns, at index i, the product over bits of i of r_j or 1-r_j (times the scale), in its documented bit order.", "quantifier": "every field, challenge vector length, index", "why_tests_cant": "All lengths and indexes.", "anchors": ["prover/arith/polynomials/src/eq.rs"]}
{"id": "C26", "title": "All multilinear evaluation routines agree", "statement": "Each MLE evaluator returns the sum over i of coeff[i]*eq(r,i) for every point.", "quantifier": "every coefficient vector of power-of-two length, every point", "why_tests_cant": "All sizes.", "anchors": ["prover/arith/polynomials/src/mle.rs"]}
{"id": "C27", "title": "Fixing the bottom variable of a multilinear polynomial", "statement": "fix_bottom_variable(r) yields the polynomial with the lowest variable set to r.", "quantifier": "every polynomial and r", "why_tests_cant": "All sizes.", "anchors": ["prover/arith/polynomials/src/mle.rs: fix_bottom_variable"]}
{"id": "C28", "title": "Univariate evaluation and quotients are exact", "statement": "degree_one_quotient(f, a) returns (q, f(a)) with f(x) = q(x)(x-a) + f(a) for all x, and root_vanishing_quotient divides by the product of (x - root).", "quantifier": "every polynomial, point and root list", "why_tests_cant": "All degrees.", "anchors": ["prover/arith/polynomials/src/univariate.rs"]}
{"id": "C29", "title": "Merkle openings are complete", "statement": "For every tree of 2^h leaves with at least two leaves (and h below 64) and every index, the generated path verifies against the root and returns the leaf; same for range openings of aligned power-of-two ranges of at least two leaves.", "quantifier": "every leaf vector, height, index, range", "why_tests_cant": "All sizes and indexes.", "anchors": ["prover/tree/src/tree.rs", "prover/tree/src/path.rs"]}
{"id": "C30", "title": "Merkle openings are binding", "statement": "Two accepted openings of the same length at the same index under the same root contain the same leaf, unless a hash collision is exhibited.", "quantifier": "every root, path, index, leaf pair", "why_tests_cant": "Adversarial paths.", "anchors": ["prover/tree/src/path.rs: Path::verify"]}
{"id": "C31", "title": "A Merkle opening identifies one leaf position", "statement": "An accepted Path proves that the given leaf is at position `index` of the committed leaf vector.", "quantifier": "every accepted path", "why_tests_cant": "Adversarial paths of any length and index.", "anchors": ["prover/tree/src/path.rs: Path::verify"]}
{"id": "C32", "title": "Serialization round-trips", "statement": "deserialize_from(serialize_into(v) ++ rest) returns exactly (v, rest) for every supported type, so concatenated values can be decoded.", "quantifier": "every value of every serialised shape", "why_tests_cant": "All values and lengths.", "anchors": ["prover/serdes/src/serdes.rs", "prover/serdes_derive/src/lib.rs"]}
{"id": "C33", "title": "M31 arithmetic on canonical elements is exact", "statement": "add, sub, mul, neg, double, inverse and conversions of canonical M31 elements return the canonical residue of the mathematical result.", "quantifier": "every pair of 31-bit residues, every u32/u64/u256 conversion input", "why_tests_cant": "2^62 pairs.", "anchors": ["prover/arith/mersenne31/src/m31.rs"]}
{"id": "C34", "title": "M31 elements built by public constructors are canonical", "statement": "Every M31 value obtained from the public constructors (uniform bytes, from u32, deserialisation) is canonical, so later arithmetic cannot underflow.", "quantifier": "every input of the constructors", "why_tests_cant": "A single 32-bit input violates it.", "anchors": ["prover/arith/mersenne31/src/m31.rs: mod_reduce_u32_safe, from_uniform_bytes"]}
{"id": "C35", "title": "Goldilocks arithmetic is exact for every representation", "statement": "add, sub, mul, neg of any two u64 representations return a u64 whose residue is the mathematical result modulo 2^64-2^32+1, with no overflow lost.", "quantifier": "every pair of u64 values", "why_tests_cant": "2^128 pairs, carry corner cases.", "anchors": ["prover/arith/goldilocks/src/goldilocks.rs"]}
{"id": "C36", "title": "Goldilocks inversion is correct", "statement": "try_inverse_u64 returns None on zero and otherwise a value y with x*y = 1 mod p.", "quantifier": "every u64", "why_tests_cant": "2^64 inputs and a data-dependent loop.", "anchors": ["prover/arith/goldilocks/src/goldilocks.rs: try_inverse_u64"]}
{"id": "C37", "title": "Transcript binds every appended message", "statement": "Two transcripts that appended different byte sequences and then sampled a challenge produce different hash inputs (so equal challenges exhibit a hash collision).", "quantifier": "every sequence of transcript operations", "why_tests_cant": "All histories.", "anchors": ["prover/transcript/src/byte_hash_transcript.rs"]}
{"id": "C38", "title": "Envelope round-trips every payload", "statement": "deserialize_from_bytes(serialize_to_bytes(v)) returns v, compressed or not, for every value the codec supports.", "quantifier": "every payload", "why_tests_cant": "All payloads.", "anchors": ["rust/jstprove_io/src/lib.rs", "rust/jstprove_io/src/envelope.rs", "rust/jstprove_io/src/compress.rs"]}
{"id": "C39", "title": "Envelope detects corruption", "statement": "Any corruption of at most 32 consecutive bits of an enveloped payload is reported as an error, never decoded.", "quantifier": "every payload, every error burst of length at most 32 bits, every position", "why_tests_cant": "2^32 patterns at every position of every payload.", "anchors": ["rust/jstprove_io/src/envelope.rs: verify_crc, parse_header"]}
{"id": "C40", "title": "Bundle write then read returns the same bundle", "statement": "read_bundle after a successful write_bundle returns the same circuit, witness solver, metadata, version and verifying key.", "quantifier": "every bundle content", "why_tests_cant": "All contents.", "anchors": ["rust/jstprove_io/src/bundle.rs"]}
{"id": "C41", "title": "Bundle writing is crash safe", "statement": "At every crash point of write_bundle a reader either fails or sees the complete bundle; an existing directory is never modified.", "quantifier": "every crash point, every prior file-system state", "why_tests_cant": "All crash points.", "anchors": ["rust/jstprove_io/src/bundle.rs: write_bundle_with_vk, WriteGuard"]}
{"id": "C42", "title": "Signed field encoding round-trips", "statement": "Encoding a signed integer into the field and decoding it with the half-modulus rule returns the integer whenever |v| <= (p-1)/2.", "quantifier": "every prime modulus, every integer in range", "why_tests_cant": "All values and moduli.", "anchors": ["rust/jstprove_circuits/src/runner/verify_extract.rs: from_field_repr", "rust/jstprove_circuits/src/circuit_functions/utils/tensor_ops.rs: convert_val_to_field_element"]}
{"id": "C43", "title": "Expected-input comparison accepts exactly the tolerance", "statement": "compare_field_values succeeds iff the lists have equal length and each pair differs by at most the tolerance on the circle modulo p.", "quantifier": "every pair of vectors and modulus", "why_tests_cant": "Wrap-around at both ends.", "anchors": ["rust/jstprove_circuits/src/runner/verify_extract.rs: compare_field_values"]}
{"id": "C44", "title": "Witness parsing extracts exactly the public values", "statement": "Parsing a serialised witness file returns exactly the public inputs that were serialised and the modulus, and rejects truncated files.", "quantifier": "every witness, every truncation", "why_tests_cant": "All lengths.", "anchors": ["rust/jstprove_circuits/src/runner/verify_extract.rs: parse_public_inputs_from_witness_bytes, extract_outputs_common"]}
{"id": "C45", "title": "Batch runs account for every job exactly once and in order", "statement": "succeeded + failed equals the number of jobs, errors carry the job's own index in increasing order, and the parallel loop returns the same result as the sequential one.", "quantifier": "every job list and every outcome assignment, every parallel schedule", "why_tests_cant": "All schedules and outcome patterns.", "anchors": ["rust/jstprove_circuits/src/runner/main_runner.rs: run_batch_loop, run_batch_loop_parallel, check_batch_result"]}
{"id": "C46", "title": "Natural input ordering is a total order", "statement": "The comparison used to order input names is reflexive, transitive, antisymmetric and total, so sorting is deterministic whatever the map iteration order.", "quantifier": "every triple of strings", "why_tests_cant": "All triples.", "anchors": ["rust/jstprove_circuits/src/runner/main_runner.rs: natural_key_cmp, split_trailing_number"]}
{"id": "C47", "title": "Layer ordering is a topological order", "statement": "The layer graph ordering is a permutation of the layers in which every layer comes after the other layers that (last) write its inputs, and an error is returned exactly when no such order exists; a layer reading its own output is ignored.", "quantifier": "every layer graph", "why_tests_cant": "All graphs.", "anchors": ["rust/jstprove_onnx/src/graph.rs: topological_sort"]}
{"id": "C48", "title": "Broadcast shapes follow the ONNX rule", "statement": "determine_broadcast_shape succeeds iff the shapes are right-aligned compatible and returns the common shape; it is commutative and idempotent.", "quantifier": "every pair of shapes", "why_tests_cant": "All ranks.", "anchors": ["rust/jstprove_circuits/src/circuit_functions/utils/tensor_ops.rs: determine_broadcast_shape, broadcast_two_arrays", "rust/jstprove_circuits/src/circuit_functions/layers/where_op.rs: broadcast_index"]}
{"id": "C49", "title": "Flat and multi-dimensional indexes are inverse", "statement": "unravel and ravel are mutually inverse on in-range indexes for every shape.", "quantifier": "every shape and index", "why_tests_cant": "All shapes.", "anchors": ["rust/jstprove_circuits/src/circuit_functions/layers/reduce_max.rs: unravel", "rust/jstprove_circuits/src/circuit_functions/layers/where_op.rs: ravel"]}
{"id": "C50", "title": "Axis normalisation is canonical", "statement": "normalize_axes returns a strictly increasing list of in-range axes representing the same set, and errs exactly on out-of-range or duplicate axes.", "quantifier": "every axis list and rank", "why_tests_cant": "All lists.", "anchors": ["rust/jstprove_circuits/src/circuit_functions/utils/shaping.rs: normalize_axes"]}
{"id": "C51", "title": "Model inputs are partitioned without loss", "statement": "get_inputs splits the flat input vector into consecutive named slices covering it exactly once, and errs unless total sizes match.", "quantifier": "every declaration list and vector", "why_tests_cant": "All lists.", "anchors": ["rust/jstprove_circuits/src/circuit_functions/utils/shaping.rs: get_inputs"]}
{"id": "C52", "title": "SIMD evaluation of a layered circuit equals lane-wise evaluation", "statement": "Evaluating a layered circuit on packed witnesses gives, in each lane, the result of the scalar evaluation of that lane.", "quantifier": "every circuit, witness batch and lane", "why_tests_cant": "All circuits.", "anchors": ["compiler/expander_compiler/src/circuit/layered/mod.rs: eval_with_public_inputs, eval_with_public_inputs_simd", "compiler/expander_compiler/src/circuit/layered/witness.rs"]}
{"id": "C53", "title": "Witness packing loses no witness", "statement": "Packing scalar witnesses into SIMD blocks and unpacking returns the original witnesses in order for every count, including counts that do not fill the last block.", "quantifier": "every witness count, size and pack width", "why_tests_cant": "All counts.", "anchors": ["compiler/expander_compiler/src/circuit/layered/witness.rs: pack_block, unpack_block, convert_to_simd, convert_to_scalar"]}
{"id": "C54", "title": "Flattening a hierarchical circuit preserves its function", "statement": "The flattened GKR circuit computes, on every input, the same outputs as the hierarchical layered circuit, including nested segments.", "quantifier": "every segment tree, allocation list, input", "why_tests_cant": "All nestings.", "anchors": ["prover/circuit/src/ecc_circuit.rs: flatten, scan_leaf_segments", "compiler/expander_compiler/src/circuit/layered/mod.rs: apply_segment_with_public_inputs", "prover/circuit/src/layered/circuit.rs: evaluate"]}
{"id": "C55", "title": "A validated layered circuit evaluates without index faults", "statement": "If validate() accepts a circuit then evaluating it on inputs of the declared size never indexes out of bounds.", "quantifier": "every circuit accepted by validate, every input", "why_tests_cant": "All circuits.", "anchors": ["compiler/expander_compiler/src/circuit/layered/mod.rs: validate, eval_with_public_inputs"]}
{"id": "C56", "title": "Input mappings compose", "statement": "Mapping inputs through a composed mapping equals mapping through the two mappings in turn.", "quantifier": "every mapping followed by a mapping that sends no two inputs to one place, every input vector", "why_tests_cant": "All mappings.", "anchors": ["compiler/expander_compiler/src/circuit/input_mapping.rs"]}
{"id": "C57", "title": "Compiler union-find maintains the generated equivalence", "statement": "After any sequence of unions, find(a)=find(b) iff a and b are related by the generated equivalence.", "quantifier": "every sequence of operations", "why_tests_cant": "All histories.", "anchors": ["compiler/expander_compiler/src/utils/union_find.rs"]}
{"id": "C58", "title": "Compiler heap is a priority queue", "statement": "push and pop preserve the heap order and the multiset of keys; pop returns the minimum.", "quantifier": "every heap and value", "why_tests_cant": "All histories.", "anchors": ["compiler/expander_compiler/src/utils/heap.rs"]}
{"id": "C59", "title": "Interning pool is a bijection", "statement": "Adding a value returns an index at which get returns that value; equal values share an index, distinct values never do, and earlier indexes never change.", "quantifier": "every sequence of adds", "why_tests_cant": "All histories.", "anchors": ["compiler/expander_compiler/src/utils/pool.rs"]}
{"id": "C60", "title": "Bucket sort is a stable sort", "statement": "bucket_sort returns a permutation of its input ordered by key with equal keys in input order, and the returned offsets delimit the buckets.", "quantifier": "every input vector and key function", "why_tests_cant": "All inputs.", "anchors": ["compiler/expander_compiler/src/utils/bucket_sort.rs"]}
{"id": "C61", "title": "Remainder backend rescale is exact", "statement": "compute_rescale returns q, r with x = q*alpha + r and 0 <= r < alpha whenever the shifted dividend is non-negative and the quotient fits i64.", "quantifier": "every i64 value, alpha, offset", "why_tests_cant": "All 64-bit inputs.", "anchors": ["rust/jstprove_remainder/src/gadgets/rescale.rs"]}
{"id": "C62", "title": "Remainder backend padding and range chunks", "statement": "Padding yields the least power-of-two length, keeps the prefix and zero-fills; splitting a range-checked value into two chunks is lossless and multiplicities sum to the number of values.", "quantifier": "every vector and width", "why_tests_cant": "All sizes.", "anchors": ["rust/jstprove_remainder/src/padding.rs", "rust/jstprove_remainder/src/runner/range_checks.rs"]}
{"id": "C63", "title": "Remainder verifier fixes the range-check widths itself", "statement": "Whether a value is accepted by the remainder backend does not depend on widths chosen by the prover.", "quantifier": "every proof", "why_tests_cant": "Adversarial proof metadata.", "anchors": ["rust/jstprove_remainder/src/runner/verify.rs: run"]}
{"id": "C64", "title": "Decoding from a file and from bytes agree", "statement": "deserialize_from_file and deserialize_from_bytes return the same result on the same content.", "quantifier": "every byte string", "why_tests_cant": "All byte strings.", "anchors": ["rust/jstprove_io/src/lib.rs: deserialize_from_bytes, deserialize_from_file"]}
{"id": "C65", "title": "Rounding to powers of two", "statement": "prev_power_of_two returns the greatest power of two not above its argument and next_power_of_two the least one not below it, for every argument for which that power and the loop's last shift fit the machine word.", "quantifier": "every machine word", "why_tests_cant": "All 64-bit values including the boundaries of the word.", "anchors": ["compiler/expander_compiler/src/utils/misc.rs: prev_power_of_two, next_power_of_two"]}
{"id": "C66", "title": "Reshape keeps every element", "statement": "Inferring a reshape target succeeds exactly when the single -1, if any, can be filled in so that the number of elements is unchanged, and returns that shape; flattening at an axis keeps the number of elements.", "quantifier": "every target shape and input size, every shape and axis", "why_tests_cant": "All shapes, including zero and negative dimensions.", "anchors": ["rust/jstprove_circuits/src/circuit_functions/utils/shaping.rs: infer_reshape_shape, onnx_flatten"]}
{"id": "C67", "title": "Reductions read exactly the contributing elements", "statement": "For every output element of a reduction, the input elements read are exactly those that the reduction maps to it, each once, with and without kept dimensions.", "quantifier": "every shape, axis set and output coordinate", "why_tests_cant": "All ranks and axis sets.", "anchors": ["rust/jstprove_circuits/src/circuit_functions/layers/reduce_sum.rs: collect_reduction_inputs"]}
{"id": "C68", "title": "Prover and verifier flatten a circuit to the same circuit", "statement": "Two processes that load the same layered circuit and flatten it obtain circuits that compute the same function once the same random coefficients are drawn, although flattening iterates over hash maps whose order differs between processes.", "quantifier": "every circuit, every pair of iteration orders, every list of drawn coefficients", "why_tests_cant": "The order of a hash map differs from run to run, so one run cannot show it.", "anchors": ["prover/circuit/src/ecc_circuit.rs: flatten, scan_leaf_segments", "prover/circuit/src/layered/circuit.rs: fill_rnd_coefs", "compiler/expander_compiler/src/circuit/layered/export.rs"]}
{"id": "C69", "title": "A failed bundle write leaves nothing behind", "statement": "When write_bundle returns an error the file system is as it was before the call, so that the write can be repeated.", "quantifier": "every point at which a file system call or the encoding of the manifest can fail", "why_tests_cant": "All failure points.", "anchors": ["rust/jstprove_io/src/bundle.rs: write_bundle_with_vk, WriteGuard"]}
{"id": "C70", "title": "A truncated artifact is rejected", "statement": "Decoding a proper prefix of a serialized artifact, from memory or from a file, is an error.", "quantifier": "every value, every truncation point", "why_tests_cant": "All values and all truncation points.", "anchors": ["rust/jstprove_io/src/lib.rs: deserialize_from_bytes, deserialize_from_file", "rust/jstprove_io/src/envelope.rs: detect_format"]}
{"id": "C71", "title": "Transcript hashers distinguish all messages", "statement": "The field-based transcript hashers give different inputs to their permutation for any two different messages, so that equal digests exhibit a collision of the permutation-based construction.", "quantifier": "every pair of messages, every field hasher", "why_tests_cant": "All pairs of messages, of all lengths.", "anchors": ["prover/hasher/src/mimc.rs: hash_u8_to_state", "prover/hasher/src/poseidon/impls.rs: hash_u8_to_state"]}
{"id": "C72", "title": "The proof is what was appended", "statement": "The finalized proof consists of exactly the bytes appended outside locked sections, in order, whatever was sampled or synchronised in between.", "quantifier": "every sequence of transcript operations", "why_tests_cant": "All histories.", "anchors": ["prover/transcript/src/byte_hash_transcript.rs: append_u8_slice, lock_proof, unlock_proof, finalize_and_get_proof"]}
{"id": "C73", "title": "Malformed sumcheck proofs are answered", "statement": "Verifying a sumcheck proof of any shape returns acceptance or rejection and never crashes.", "quantifier": "every deserialised proof", "why_tests_cant": "All shapes of proofs, including missing rounds and short messages.", "anchors": ["prover/sumcheck/src/sumcheck_generic.rs: SumCheck::verify", "prover/sumcheck/src/sumcheck_generic/verifier.rs: check_and_generate_subclaim"]}
{"id": "C74", "title": "An accepted Remainder proof states the quantised inference", "statement": "If the Remainder verifier accepts a proof for a model and a public input, the output stated in the proof is the quantised integer inference of the model on that input.", "quantifier": "every model, input and proof, whatever committed values and metadata the prover chooses", "why_tests_cant": "Adversarial proofs: the prover chooses every committed value.", "anchors": ["rust/jstprove_remainder/src/runner/verify.rs: verify_with_model", "rust/jstprove_remainder/src/runner/circuit_builder.rs: build_circuit", "rust/jstprove_remainder/src/runner/witness.rs: prepare_public_shreds"]}
{"id": "C76", "title": "Every layer of an accepted Remainder circuit computes its operation", "statement": "In an accepted proof the tensor of every Relu, MaxPool, Add, Sub, Cast, Reshape, Gemm, Conv and BatchNormalization layer is the operation of that layer applied to the tensors it reads (up to a remainder within the rescaling width for the rescaled ones); the first tensor is the public input and the last one the stated output.", "quantifier": "every model, layer, input and accepted proof", "why_tests_cant": "Adversarial proofs and all models.", "anchors": ["rust/jstprove_remainder/src/runner/circuit_builder.rs: build_gemm_layer, build_conv_layer, build_relu_layer, build_maxpool_layer, build_batchnorm_layer, build_addsub_layer", "rust/jstprove_remainder/src/runner/witness.rs: prepare_public_shreds"]}
{"id": "C75", "title": "A proof made by the Remainder prover is accepted", "statement": "If the witness generator succeeds on a model and an input and the prover makes a proof from the witness, the verifier accepts that proof for the same model and input.", "quantifier": "every model, every input", "why_tests_cant": "All models and inputs; the witness generator, the circuit builder and the verifier's public values are computed by three separate passes over the model that must agree.", "anchors": ["rust/jstprove_remainder/src/runner/witness.rs: compute_witness, prepare_public_shreds", "rust/jstprove_remainder/src/runner/prove.rs: generate_proof", "rust/jstprove_remainder/src/runner/circuit_builder.rs: build_circuit", "rust/jstprove_remainder/src/runner/verify.rs: verify_with_model"]}
{"id": "C77", "title": "The Remainder prover states the quantised inference", "statement": "The output that the Remainder witness generator computes, and the proof states, is the quantised integer inference of the model on the input: every layer's output is the operation of the layer, rescaled by rounding down, on the tensors arranged as ONNX arranges them.", "quantifier": "every model, every input on which the prover succeeds", "why_tests_cant": "All models and inputs.", "anchors": ["rust/jstprove_remainder/src/runner/witness.rs: compute_witness, compute_gemm, compute_conv, padded_matmul"]}
{"id": "C78", "title": "Compiling weakens no circuit", "statement": "Whatever inputs and outputs the circuit accepts after the compiler's first pass (rich instructions replaced by hints and arithmetic) with hints chosen by a dishonest prover, the circuit the user wrote accepts too: every division, zero test, bit decomposition, boolean operation and constraint of the source is still enforced.", "quantifier": "All circuits (any number of nested sub-circuits and instructions), fields, inputs, outputs and hint results.", "why_tests_cant": "A constraint the optimiser drops is invisible to honest runs; it matters for some circuit and some adversarial hint value only.", "anchors": ["compiler/expander_compiler/src/builder/hint_normalize.rs: process, transform_in_to_out", "compiler/expander_compiler/src/builder/basic.rs: process_insn, assert, mark, fix_mid_to_out"]}
{"id": "C79", "title": "Compiling loses no honest run", "statement": "Every run of the source circuit that satisfies its constraints, with honest hints, is a run of the circuit after the compiler's first pass with the same inputs and outputs, whatever expressions the optimiser merged, compressed or folded.", "quantifier": "All circuits, fields, inputs and honest hint functions.", "why_tests_cant": "The optimiser's thresholds, orderings and sharing produce unboundedly many shapes; a test sees a few.", "anchors": ["compiler/expander_compiler/src/builder/basic.rs: process_circuit, lin_comb_inner, mul_two_expr, emitted constraints", "compiler/expander_compiler/src/builder/hint_normalize.rs: process"]}
{"id": "C80", "title": "Square root is what it says", "statement": "For every input, each output the Sqrt layer's circuit accepts is the fixed-point square root rounded down, and no output is accepted for a negative input.", "quantifier": "every field, scale, width, chunk width, input and every witness a prover may choose", "why_tests_cant": "Soundness quantifies over all cheating provers.", "anchors": ["jstprove_circuits/src/circuit_functions/layers/sqrt.rs: Sqrt::apply", "jstprove_circuits/src/circuit_functions/hints/sqrt.rs"]}
{"id": "C81", "title": "Square roots can be proved", "statement": "For every non-negative input in range, the honest prover's witness for the Sqrt layer satisfies the circuit.", "quantifier": "every width, scale and non-negative input", "why_tests_cant": "Rounding decides; only some inputs fail.", "anchors": ["jstprove_circuits/src/circuit_functions/layers/sqrt.rs: Sqrt::apply", "jstprove_circuits/src/circuit_functions/hints/sqrt.rs: sqrt_hint"]}
{"id": "C82", "title": "LeakyReLU is what it says", "statement": "For every input, the only output the LeakyRelu layer's circuit accepts is x for x >= 0 and alpha x rounded down for x < 0.", "quantifier": "every field, scale, slope, width, chunk width, input and witness", "why_tests_cant": "Soundness quantifies over all cheating provers.", "anchors": ["jstprove_circuits/src/circuit_functions/layers/leaky_relu.rs: LeakyRelu::apply"]}
{"id": "C83", "title": "LeakyReLU can be proved", "statement": "For every signed input of n_bits bits the honest prover's witness for the LeakyRelu layer satisfies the circuit and outputs LeakyReLU.", "quantifier": "every input, slope, scale and width", "why_tests_cant": "Must hold for every input.", "anchors": ["jstprove_circuits/src/circuit_functions/layers/leaky_relu.rs: LeakyRelu::apply"]}
{"id": "C84", "title": "HardSwish is what it says", "statement": "Each output the HardSwish layer's circuit accepts is within one unit of x clip(x + 3, 0, 6) / 6.", "quantifier": "every field, scale, chunk width, input and witness", "why_tests_cant": "Soundness quantifies over all cheating provers.", "anchors": ["jstprove_circuits/src/circuit_functions/layers/hardswish.rs: HardSwish::apply"]}
{"id": "C85", "title": "HardSwish can be proved", "statement": "For every input the model can produce the honest prover's witness for the HardSwish layer satisfies the circuit.", "quantifier": "every input, scale and chunk width", "why_tests_cant": "Only large activations fail.", "anchors": ["jstprove_circuits/src/circuit_functions/layers/hardswish.rs: HardSwish::apply"]}
{"id": "C86", "title": "Sine and cosine are what they say", "statement": "The Sin and Cos layers can be built at the default width, and the output proved for an input is the tabulated function's value at that input.", "quantifier": "every table, scale, width, chunk width, input and witness", "why_tests_cant": "Depends on the input's size and the configured widths.", "anchors": ["jstprove_circuits/src/circuit_functions/layers/sin.rs: Sin::apply", "jstprove_circuits/src/circuit_functions/layers/cos.rs: Cos::apply"]}
{"id": "C87", "title": "Sigmoid is what it says", "statement": "Each output the Sigmoid layer's circuit accepts is 1 / (1 + exp(-x)), with the tabulated exponential, up to an error that depends only on the widths.", "quantifier": "every field, scale, width, chunk width, table, input and witness", "why_tests_cant": "Soundness quantifies over all cheating provers.", "anchors": ["jstprove_circuits/src/circuit_functions/layers/sigmoid.rs: Sigmoid::apply", "jstprove_circuits/src/circuit_functions/gadgets/function_lookup.rs: verify_exp"]}
{"id": "C88", "title": "Sigmoid can be proved", "statement": "For every input in the range of the exponential table the honest prover's witness for the Sigmoid layer satisfies the circuit.", "quantifier": "every input, table, scale and width", "why_tests_cant": "Only inputs with a large exponential fail.", "anchors": ["jstprove_circuits/src/circuit_functions/layers/sigmoid.rs: Sigmoid::apply"]}
{"id": "C89", "title": "Hyperbolic tangent is what it says", "statement": "Each output the Tanh layer's circuit accepts is (exp(2x) - 1) / (exp(2x) + 1), with the tabulated exponential, up to an error that depends only on the widths.", "quantifier": "every field, scale, width, chunk width, table, input and witness", "why_tests_cant": "Soundness quantifies over all cheating provers.", "anchors": ["jstprove_circuits/src/circuit_functions/layers/tanh.rs: Tanh::apply"]}
{"id": "C90", "title": "Hyperbolic tangent can be proved", "statement": "For every input in the range of the exponential table the honest prover's witness for the Tanh layer satisfies the circuit.", "quantifier": "every input, table, scale and width", "why_tests_cant": "Only inputs with a large exponential fail.", "anchors": ["jstprove_circuits/src/circuit_functions/layers/tanh.rs: Tanh::apply"]}
{"id": "C91", "title": "Logarithm is what it says", "statement": "Each output the Log layer's circuit accepts has a tabulated exponential equal to the input up to an error that depends only on the widths.", "quantifier": "every field, scale, width, chunk width, table, input and witness", "why_tests_cant": "Soundness quantifies over all cheating provers.", "anchors": ["jstprove_circuits/src/circuit_functions/layers/log.rs: Log::apply"]}
{"id": "C92", "title": "Logarithms can be proved", "statement": "For every positive input whose logarithm is in the table's range the honest prover's witness for the Log layer satisfies the circuit.", "quantifier": "every input, table, scale and width", "why_tests_cant": "Rounding of the table decides; only some inputs fail.", "anchors": ["jstprove_circuits/src/circuit_functions/layers/log.rs: Log::apply"]}
{"id": "C93", "title": "GELU is what it says", "statement": "Each output the Gelu layer's circuit accepts is within the tolerance of GELU's value.", "quantifier": "every field, scale, chunk width, table, input and witness", "why_tests_cant": "Soundness quantifies over all cheating provers.", "anchors": ["jstprove_circuits/src/circuit_functions/layers/gelu.rs: Gelu::apply"]}
{"id": "C94", "title": "GELU can be proved", "statement": "For every input in range, negative ones included, the honest prover's witness for the Gelu layer satisfies the circuit.", "quantifier": "every input, table and scale", "why_tests_cant": "Depends on how the field represents negative intermediate values.", "anchors": ["jstprove_circuits/src/circuit_functions/layers/gelu.rs: Gelu::apply", "jstprove_circuits/src/circuit_functions/hints/gelu.rs"]}
{"id": "C95", "title": "The error function is what it says", "statement": "Each output the Erf layer's circuit accepts is close to erf(x).", "quantifier": "every field, scale, width, chunk width, table, input and witness", "why_tests_cant": "Soundness quantifies over all cheating provers.", "anchors": ["jstprove_circuits/src/circuit_functions/layers/erf.rs: Erf::apply"]}
{"id": "C96", "title": "LayerNormalization: accepted outputs are the normalisation", "statement": "Whatever the prover sends, the outputs accepted for a lane are gamma times the lane's deviation from its mean divided by its standard deviation, plus beta, up to a fixed tolerance.", "quantifier": "all lanes, parameters, scales, widths, field primes and all prover answers", "why_tests_cant": "the prover chooses mean and inverse deviation; a test only tries the honest ones", "anchors": ["rust/jstprove_circuits/src/circuit_functions/layers/layer_norm.rs:LayerNormLayer::apply"]}
{"id": "C97", "title": "LayerNormalization: the honest prover succeeds", "statement": "For every lane in range the prover that follows the code finds a witness that the circuit accepts.", "quantifier": "all lanes and parameters in range", "why_tests_cant": "the failure depends on the rounding of the inverse deviation, which varies with the lane", "anchors": ["rust/jstprove_circuits/src/circuit_functions/layers/layer_norm.rs:LayerNormLayer::apply", "rust/jstprove_circuits/src/circuit_functions/hints/layer_norm_verified.rs:layer_norm_verified_hint"]}
{"id": "C98", "title": "Softmax: accepted outputs are the softmax", "statement": "Whatever the prover sends, the outputs accepted for a lane are, up to a stated error, the quotients of the tabulated exponentials by their sum; they lie between 0 and 1 and sum to 1 up to the rounding of the range checks.", "quantifier": "all lanes, scales, table widths, field primes and all prover answers", "why_tests_cant": "the prover chooses the outputs and the shift", "anchors": ["rust/jstprove_circuits/src/circuit_functions/layers/softmax.rs:SoftmaxLayer::apply"]}
{"id": "C99", "title": "Softmax: the honest prover succeeds", "statement": "For every lane the prover that follows the code finds a witness that the circuit accepts.", "quantifier": "all lanes", "why_tests_cant": "needs all differences between elements of a lane", "anchors": ["rust/jstprove_circuits/src/circuit_functions/layers/softmax.rs:SoftmaxLayer::apply", "rust/jstprove_circuits/src/circuit_functions/hints/softmax_verified.rs:softmax_verified_hint"]}
{"id": "C100", "title": "Transpose permutes the axes", "statement": "Compiling a Transpose node succeeds exactly when its perm attribute, with negative entries counted from the end, is a permutation of the axes (reversal when absent), and the output at the permuted coordinates is the input element.", "quantifier": "all ranks, shapes, permutations and element values", "why_tests_cant": "the coordinate arithmetic must hold for every rank and shape", "anchors": ["jstprove_circuits/src/circuit_functions/layers/transpose.rs: TransposeLayer::build, apply, build_index_map", "jstprove_onnx/src/shape_inference.rs: infer_transpose"]}
{"id": "C101", "title": "Slice selects what ONNX says", "statement": "For every starts, ends, axes and steps that ONNX defines, a Slice node is accepted and its output consists of the elements at start, start+step, ... before end on each axis listed.", "quantifier": "all shapes and all integer parameters, out of range and negative ones included", "why_tests_cant": "clamping and rounding depend on signs, sizes and steps in combination", "anchors": ["jstprove_circuits/src/circuit_functions/layers/slice.rs: SliceLayer::build, apply, build_index_map", "jstprove_onnx/src/shape_inference.rs: infer_slice"]}
{"id": "C102", "title": "Concat and Split are exact and inverse", "statement": "Concat accepts exactly tensors that agree off the axis and places them one after the other; Split accepts exactly sizes that add up to the axis and returns the consecutive pieces; concatenating the pieces gives the tensor back.", "quantifier": "all ranks, shapes, axes, numbers of inputs and outputs", "why_tests_cant": "must hold for every shape and partition", "anchors": ["jstprove_circuits/src/circuit_functions/layers/concat.rs: ConcatLayer::build, apply", "jstprove_circuits/src/circuit_functions/layers/split.rs: SplitLayer::build, apply_multi", "jstprove_onnx/src/shape_inference.rs: infer_concat, infer_split"]}
{"id": "C103", "title": "Pad pads the axes asked for with the value asked for", "statement": "An accepted Pad node gives the input surrounded by the requested value, by the amounts given for each axis.", "quantifier": "all shapes, amounts, axes inputs and padding values", "why_tests_cant": "the optional inputs interact; a test fixes them", "anchors": ["jstprove_circuits/src/circuit_functions/layers/pad.rs: PadLayer::build, apply, build_pad_index_map", "jstprove_onnx/src/shape_inference.rs: infer_pad"]}
{"id": "C104", "title": "Gather and GatherElements read the elements asked for", "statement": "With constant indices, Gather and GatherElements accept only axes and indices that exist, and each output element is the input element at the coordinates ONNX prescribes.", "quantifier": "all shapes, axes, index tensors", "why_tests_cant": "must hold for every index tensor and shape", "anchors": ["jstprove_circuits/src/circuit_functions/layers/gather.rs: GatherLayer::build, apply", "jstprove_circuits/src/circuit_functions/layers/gather_elements.rs: GatherElementsLayer::build, apply", "jstprove_onnx/src/shape_inference.rs: infer_gather"]}
{"id": "C105", "title": "ScatterND writes the slices asked for", "statement": "ScatterND refuses an index outside the data; otherwise the output is the data with each indexed slice replaced by its update and everything else unchanged.", "quantifier": "all shapes, index tensors and updates", "why_tests_cant": "must hold for every index tensor, wrap-around included", "anchors": ["jstprove_circuits/src/circuit_functions/layers/scatter_nd.rs: ScatterNDLayer::build, apply"]}
{"id": "C106", "title": "Tile repeats the tensor", "statement": "With one repeat count per axis, a Tile node is accepted exactly when all counts and all dimensions are positive, and the output element is the input element at the coordinates modulo the input's dimensions.", "quantifier": "all shapes and repeat counts", "why_tests_cant": "must hold for every shape and count", "anchors": ["jstprove_circuits/src/circuit_functions/layers/tile.rs: TileLayer::build, apply", "jstprove_onnx/src/shape_inference.rs: infer_tile"]}
{"id": "C107", "title": "Expand broadcasts", "statement": "An Expand node is accepted exactly when the input's shape and the target shape broadcast, and each output element is the input element it was broadcast from.", "quantifier": "all shapes and targets, zero dimensions included", "why_tests_cant": "must hold for every pair of shapes", "anchors": ["jstprove_circuits/src/circuit_functions/layers/expand.rs: ExpandLayer::apply", "jstprove_onnx/src/shape_inference.rs: infer_expand, broadcast_shapes"]}
{"id": "C108", "title": "Where selects by the condition", "statement": "A Where node is accepted exactly when the three shapes broadcast; each output element is that of the second input where the condition is not zero and that of the third elsewhere, for constant and for computed conditions, and no proof with another output is accepted.", "quantifier": "all shapes, all conditions and values, all provers", "why_tests_cant": "must hold for every combination of broadcast shapes and every dishonest witness", "anchors": ["jstprove_circuits/src/circuit_functions/layers/where_op.rs: WhereLayer::build, apply"]}
{"id": "C109", "title": "Equal compares", "statement": "An Equal node outputs 1 where the broadcast elements are equal and 0 elsewhere, and no other output is accepted.", "quantifier": "all shapes and values whose difference is below the field order, all provers", "why_tests_cant": "soundness against every witness cannot be tested", "anchors": ["jstprove_circuits/src/circuit_functions/layers/equal.rs: EqualLayer::build, apply"]}
{"id": "C110", "title": "And and Not on booleans", "statement": "And and Not of boolean tensors are the logical operations, element by element after broadcasting; Not refuses a value that is not a boolean.", "quantifier": "all shapes and values, all provers", "why_tests_cant": "soundness against every witness cannot be tested", "anchors": ["jstprove_circuits/src/circuit_functions/layers/and_op.rs: AndLayer::apply", "jstprove_circuits/src/circuit_functions/layers/not_op.rs: NotLayer::apply"]}
{"id": "C111", "title": "Cast converts", "statement": "A Cast node gives the value converted to the target type: the integer part for an integer type, 0 or 1 for BOOL; unsupported types are refused.", "quantifier": "all target types, shapes and values", "why_tests_cant": "must hold for every type and value", "anchors": ["jstprove_circuits/src/circuit_functions/layers/cast.rs: CastLayer::build, apply"]}
{"id": "C112", "title": "GatherElements with computed indices", "statement": "An accepted proof has valid indices and the gathered elements as output; valid indices can always be proved by the honest prover.", "quantifier": "all shapes, axes, indices, data and provers", "why_tests_cant": "soundness against every witness cannot be tested", "anchors": ["jstprove_circuits/src/circuit_functions/layers/gather_elements.rs: GatherElementsLayer::apply", "jstprove_circuits/src/circuit_functions/hints/gather_elements.rs: gather_elements_hint"]}
{"id": "C113", "title": "Nearest Resize reads the position ONNX defines", "statement": "In nearest mode a Resize node is accepted exactly for sizes (scales) that fit the rank, and each output element is the input element at the coordinate given by the coordinate transformation mode, rounded by the nearest mode and clamped to the border.", "quantifier": "all shapes, sizes, scales, coordinate modes and rounding modes", "why_tests_cant": "rounding ties and borders depend on sizes and positions in combination", "anchors": ["jstprove_circuits/src/circuit_functions/layers/resize.rs: output_to_input_coord, apply_nearest_rounding, build_nearest_index_map", "jstprove_onnx/src/shape_inference.rs: infer_resize"]}
{"id": "C114", "title": "Linear Resize is the rounded weighted mean", "statement": "In linear mode an accepted output element is the weighted mean of its corner values rounded to the nearest, and the honest prover always succeeds.", "quantifier": "all corner values, weights, scales and provers", "why_tests_cant": "soundness against every witness cannot be tested", "anchors": ["jstprove_circuits/src/circuit_functions/layers/resize.rs: ResizeLayer::apply", "jstprove_circuits/src/circuit_functions/hints/resize.rs: resize_hint"]}
{"id": "C115", "title": "Constants enter the circuit at the scale of their operand", "statement": "A floating-point constant of the model used as an operand of a layer is in the circuit the nearest integer to the constant times the power of the scale that the operand has.", "quantifier": "all models, layers, operand positions and constant values", "why_tests_cant": "depends on the operator, the position and on which layers share the constant", "anchors": ["jstprove_onnx/src/ops.rs: get_scale_plan", "jstprove_onnx/src/quantizer.rs: quantize_layer_weights", "jstprove_onnx/src/parser.rs: TensorData::as_i64_vec", "jstprove_circuits/src/expander_metadata.rs: build_wandb"]}
{"id": "C116", "title": "Add and Sub are exact", "statement": "Add and Sub output the element-wise sum and difference after broadcasting, refuse shapes that do not broadcast, and accept no other output.", "quantifier": "all shapes and values, all provers", "why_tests_cant": "soundness against every witness cannot be tested", "anchors": ["jstprove_circuits/src/circuit_functions/layers/binary_arith.rs: BinaryArithLayer::apply", "jstprove_circuits/src/circuit_functions/gadgets/linear_algebra.rs: elementwise_op"]}
{"id": "C117", "title": "Range checks are wide enough for the values", "statement": "For every quantised model and every input in [-1, 1], each layer with a range check gets a width that holds all the values its outputs can take at the chosen scale.", "quantifier": "all models, weights, shapes, scales and inputs in [-1, 1]", "why_tests_cant": "the bound must hold for every input and every composition of layers; a test evaluates a few inputs", "anchors": ["jstprove_onnx/src/quantizer.rs: compute_bounds, compute_layer_bound, compute_n_bits"]}
{"id": "C118", "title": "The chosen width lets the honest prover succeed", "statement": "For every layer output within the analysed bound, rescaling with the width the quantizer chose has a witness that the honest prover finds.", "quantifier": "all bounds, scales, chunk widths, accumulators within the bound", "why_tests_cant": "only values at the very edge of the range fail", "anchors": ["jstprove_onnx/src/quantizer.rs: compute_n_bits", "jstprove_circuits/src/circuit_functions/utils/quantization.rs: maybe_rescale"]}
{"id": "C119", "title": "The adaptive scale fits the field", "statement": "With the largest scale exponent that the quantizer considers safe for a field of n bits, no accumulator of any layer of the model exceeds n bits.", "quantifier": "all models, weights, field sizes and inputs in [-1, 1]", "why_tests_cant": "must hold for every composition of layers", "anchors": ["jstprove_onnx/src/quantizer.rs: compute_max_bound, ScaleConfig::max_safe_exponent, ScaleConfig::adaptive"]}
{"id": "C120", "title": "Folding batch normalisation preserves it", "statement": "The factor and summand that replace the four parameters of a BatchNormalization compute the same function on every input, and the model is refused exactly when the parameters disagree in length or a variance plus epsilon is not positive.", "quantifier": "all parameter vectors and inputs", "why_tests_cant": "an identity over the reals for all parameters", "anchors": ["jstprove_onnx/src/quantizer.rs: fold_batchnorm_params"]}
{"id": "C121", "title": "Rewriting powers to square roots preserves them", "statement": "A Pow node is replaced by a square root only if both compute the same function.", "quantifier": "all exponents and inputs", "why_tests_cant": "an equality for every exponent within the tolerance", "anchors": ["jstprove_onnx/src/quantizer.rs: rewrite_pow_sqrt"]}
{"id": "C122", "title": "The zkVM guest reads the model the host wrote", "statement": "The guest program decodes from the canonical bytes exactly the canonical model that the host encoded, whatever follows, and answers with the hash of that model and the widths it computes.", "quantifier": "all canonical models whose numbers fit the format, all following bytes", "why_tests_cant": "a decoder must invert the encoder on every model", "anchors": ["jstprove_zkvm/src/canonical.rs: CanonicalModel::encode", "jstprove_zkvm/guest/src/lib.rs: decode_layers, verify_compilation"]}
{"id": "C123", "title": "The compilation hash binds the canonical model", "statement": "Two runs of the guest that return the same hash decoded the same canonical model, unless their outputs are a collision of SHA-256.", "quantifier": "all pairs of input byte strings", "why_tests_cant": "injectivity over all pairs of inputs", "anchors": ["jstprove_zkvm/guest/src/lib.rs: canonical_output, verify_compilation"]}
{"id": "C124", "title": "Models with the same compilation hash are the same model", "statement": "If two quantised models have the same canonical form (and so the same compilation hash), they have the same graph, attributes, constants and range check widths.", "quantifier": "all pairs of quantised models", "why_tests_cant": "injectivity over all pairs of models", "anchors": ["jstprove_zkvm/src/canonical.rs: CanonicalModel::from_quantized_model_bytes, extract_weights, extract_int_attrs"]}
{"id": "C125", "title": "The guest computes the quantizer's widths", "statement": "The widths in the hashed output are the widths that the quantizer chose for the same model.", "quantifier": "all models", "why_tests_cant": "two independent implementations must agree on every model", "anchors": ["jstprove_zkvm/guest/src/lib.rs: compute_bounds_and_nbits, compute_n_bits_int", "jstprove_onnx/src/quantizer.rs: compute_bounds, compute_n_bits"]}
{"id": "C126", "title": "The guest answers for genuine models and only for them", "statement": "The guest returns a hash for every canonical model the host can produce, rejects everything else, and its arithmetic does not overflow.", "quantifier": "all byte strings", "why_tests_cant": "absence of panics, overflow and wrong acceptance over all inputs", "anchors": ["jstprove_zkvm/guest/src/lib.rs: verify_compilation, max_channel_l1, compute_bounds_and_nbits"]}
{"id": "C127", "title": "The zkVM host reads model files and notices corruption", "statement": "The host reads from a model file exactly the model that was stored, reports damaged files as errors and never panics.", "quantifier": "all models, file formats and damaged files", "why_tests_cant": "all corruptions of all files", "anchors": ["jstprove_zkvm/src/main.rs: decompress_model_bytes"]}
{"id": "C128", "title": "An accepted proof of Conv carries the ONNX convolution", "statement": "Whatever the prover does, the output of an accepted ungrouped, undilated 2D Conv layer is, at every position, the bias plus the sum over channels and kernel of image times weight, with zeros outside the image, then rescaled and passed through the fused ReLU.", "quantifier": "all images, kernels, biases, strides, pads, scales and provers", "why_tests_cant": "all shapes and all prover strategies", "anchors": ["circuit_functions/layers/conv.rs: conv_4d_run, conv_shape_4, flatten_and_perform_dot", "circuit_functions/utils/quantization.rs: maybe_rescale"]}
{"id": "C129", "title": "Every valid 2D Conv whose shape is inferred can be proved", "statement": "Every ungrouped, undilated 2D Conv that shape inference accepts compiles, has the inferred shape, and the honest prover succeeds with the convolution.", "quantifier": "all images, kernels, biases, strides and pads", "why_tests_cant": "all geometries", "anchors": ["circuit_functions/layers/conv.rs: conv_shape_4", "jstprove_onnx/src/shape_inference.rs: infer_conv"]}
{"id": "C130", "title": "A Conv whose operands do not fit is refused", "statement": "A Conv with a kernel_shape that is not the shape of its weights, a channel count that is not the image's, groups, dilations, strides of zero or a rank other than 4 is refused and not silently computed as something else.", "quantifier": "all attributes and operands", "why_tests_cant": "all malformed nodes", "anchors": ["circuit_functions/layers/conv.rs: not_yet_implemented_conv, validate_conv_params, conv_shape_4"]}
{"id": "C131", "title": "An accepted proof of Gemm carries A' * B' + C", "statement": "Whatever the prover does, the output of an accepted Gemm layer with alpha = beta = 1 is the product of the (possibly transposed) operands plus C broadcast to the product as ONNX prescribes, then rescaled and passed through the fused ReLU.", "quantifier": "all matrices, transposition flags, bias shapes, scales and provers", "why_tests_cant": "all shapes and all prover strategies", "anchors": ["circuit_functions/layers/gemm.rs: apply, compute_core_product, should_use_freivalds", "circuit_functions/gadgets/linear_algebra.rs: matrix_multiplication, matrix_addition"]}
{"id": "C132", "title": "ConvTranspose is the ONNX transposed convolution", "statement": "A ConvTranspose layer without groups, dilations and output_shape accepts exactly one output, the ONNX transposed convolution plus the bias (rescaled when the layer rescales); the honest prover always produces it; and the inferred output shape is its shape.", "quantifier": "all images, kernels, biases, strides, pads, output paddings, scales and provers", "why_tests_cant": "all shapes, values and prover strategies", "anchors": ["circuit_functions/layers/conv_transpose.rs: apply, build", "jstprove_onnx/src/shape_inference.rs: infer_conv_transpose"]}
{"id": "C133", "title": "An unsupported ConvTranspose is refused", "statement": "A ConvTranspose node whose attributes or operands the layer does not support, or which are inconsistent, is refused with an error and never silently given another meaning.", "quantifier": "all nodes and operands", "why_tests_cant": "all attribute combinations", "anchors": ["circuit_functions/layers/conv_transpose.rs: apply, build", "jstprove_onnx/src/shape_inference.rs: infer_conv_transpose"]}
{"id": "C134", "title": "MaxPool gives the largest element under each window", "statement": "Without ceil_mode, and when every window lies over part of the image and the proven width is a multiple of the lookup chunk, a MaxPool layer accepts exactly one output, the largest element under each window; the honest prover always produces it.", "quantifier": "all images, windows, strides, dilations, pads, widths and provers", "why_tests_cant": "all shapes, values and prover strategies", "anchors": ["circuit_functions/layers/maxpool.rs: apply, setup_maxpooling_2d, maxpooling_2d", "circuit_functions/gadgets/max_min_clip.rs: constrained_max"]}
{"id": "C135", "title": "A valid MaxPool node has its ONNX shape and meaning", "statement": "The output of a MaxPool layer has the shape the shape inference announces, which is the ONNX shape for the node's attributes (ceil_mode and dilations included), and every output is an element of the image.", "quantifier": "all valid nodes and images", "why_tests_cant": "all attribute combinations", "anchors": ["circuit_functions/layers/maxpool.rs: apply, setup_maxpooling_2d, maxpooling_2d", "jstprove_onnx/src/shape_inference.rs: infer_maxpool"]}
{"id": "C136", "title": "Max and Min take the extreme of all operands", "statement": "A Max or Min layer accepts, whatever the prover does, exactly the elementwise extreme of all its operands under broadcasting, the honest prover produces it, and its shape is the one the shape inference announces.", "quantifier": "all numbers of operands, shapes, values, widths and provers", "why_tests_cant": "all operand lists and prover strategies", "anchors": ["circuit_functions/layers/binary_compare.rs: apply, build", "jstprove_onnx/src/shape_inference.rs: infer_shapes (Max, Min), passthrough_shape"]}
{"id": "C137", "title": "Mul is the broadcast product", "statement": "A Mul layer accepts exactly the elementwise product of its operands under broadcasting, rescaled (with or without ReLU) when the node asks for it; the honest prover produces it; operands that do not broadcast are refused.", "quantifier": "all shapes, values within the range, scales, widths and provers", "why_tests_cant": "all values, shapes and prover strategies", "anchors": ["circuit_functions/layers/mul.rs: apply", "circuit_functions/gadgets/linear_algebra.rs: elementwise_op"]}
{"id": "C138", "title": "Div is the broadcast quotient", "statement": "A Div layer accepts exactly the rounded-down quotient of its dividend by the divisor of the model, at the widths the compiler chooses, and refuses divisors it cannot divide by.", "quantifier": "all dividends, divisors of the model, widths and provers", "why_tests_cant": "all values and prover strategies", "anchors": ["circuit_functions/layers/div.rs: apply, validate_divisors", "circuit_functions/gadgets/euclidean_division.rs"]}
{"id": "C139", "title": "BatchNormalization scales and shifts each channel", "statement": "A BatchNormalization layer accepts exactly the input with every channel multiplied by that channel's factor and increased by that channel's summand, then rescaled (with or without ReLU); the honest prover produces it; factors or summands that are not one per channel are refused.", "quantifier": "all inputs of rank at least two, factors, summands, widths and provers", "why_tests_cant": "all shapes, values and prover strategies", "anchors": ["circuit_functions/layers/batchnorm.rs: apply", "circuit_functions/utils/tensor_ops.rs: reshape_channel_vector_for_broadcast"]}
{"id": "C140", "title": "Neg is negation", "statement": "A Neg layer produces exactly the elementwise negation of its input, of the same shape.", "quantifier": "all tensors", "why_tests_cant": "all shapes and values", "anchors": ["circuit_functions/layers/neg.rs: apply"]}
{"id": "C141", "title": "Reshape keeps the elements and gives the ONNX shape", "statement": "A Reshape layer produces the elements of its input in the same row-major order with the shape that the ONNX target describes: -1 is inferred, 0 keeps the input's dimension unless allowzero is set, and a target that does not fit is refused; shape inference announces exactly that shape.", "quantifier": "all input tensors, all target shapes, both values of allowzero", "why_tests_cant": "all shapes and targets", "anchors": ["circuit_functions/layers/reshape.rs: apply", "jstprove_onnx/src/shape_inference.rs: infer_reshape"]}
{"id": "C142", "title": "Flatten keeps the elements and gives the ONNX shape", "statement": "A Flatten layer accepts the axes that ONNX allows, from minus the rank to the rank, and produces the matrix whose two dimensions are the products of the dimensions before and from the axis, with the elements in the same order; the announced shape is the same.", "quantifier": "all input tensors and axes", "why_tests_cant": "all shapes and axes", "anchors": ["circuit_functions/layers/flatten.rs: apply, build", "jstprove_onnx/src/shape_inference.rs: infer_flatten"]}
{"id": "C143", "title": "Squeeze removes exactly the requested axes", "statement": "A Squeeze layer removes the listed axes, which must be valid, distinct and of size 1, or all axes of size 1 when no list is given; the elements keep their order and the output has the announced shape.", "quantifier": "all input tensors, all lists of axes, all ways to give the list", "why_tests_cant": "all shapes, axes and sources of the axes", "anchors": ["circuit_functions/layers/squeeze.rs: apply, build", "jstprove_onnx/src/shape_inference.rs: infer_squeeze"]}
{"id": "C144", "title": "Unsqueeze inserts exactly the requested axes", "statement": "An Unsqueeze layer whose list of axes reaches it produces the tensor that has axes of size 1 at exactly the listed positions of the output and is its input without them; the output has the announced shape; axes that are out of range or repeated are refused.", "quantifier": "all input tensors and lists of axes", "why_tests_cant": "all shapes and axes", "anchors": ["circuit_functions/layers/unsqueeze.rs: apply, unsqueezed_shape", "jstprove_onnx/src/shape_inference.rs: infer_unsqueeze"]}
{"id": "C145", "title": "Range is the arithmetic progression", "statement": "A Range layer produces the numbers start, start + delta, ... that lie before the limit, all of them and no others, with the announced length; a step of 0 is refused.", "quantifier": "all starts, limits and steps", "why_tests_cant": "all numbers of both signs", "anchors": ["circuit_functions/layers/range.rs: apply, build", "jstprove_onnx/src/shape_inference.rs: infer_range"]}
{"id": "C146", "title": "Shape gives the dimensions of its input", "statement": "A Shape layer produces the dimensions of its input from its start to its end attribute, counted from the end when negative and clamped to the rank, with the announced length.", "quantifier": "all shapes and attributes", "why_tests_cant": "all ranks and attributes", "anchors": ["circuit_functions/layers/shape.rs: apply, build", "jstprove_onnx/src/shape_inference.rs: infer_shape_op"]}
{"id": "C147", "title": "ConstantOfShape fills the requested shape with the given value", "statement": "A ConstantOfShape layer produces the tensor of the requested shape with the value of its attribute, or 0 when there is none, at every position; negative dimensions are refused.", "quantifier": "all shapes and values", "why_tests_cant": "all shapes and values", "anchors": ["circuit_functions/layers/constant_of_shape.rs: apply, build"]}
{"id": "C148", "title": "MatMul is the product of each pair of matrices", "statement": "A MatMul layer produces, for every position of the broadcast batch axes, the product of the two matrices there, rescaled if asked; the output has the announced shape; inner sizes that differ are refused; an accepted proof carries no other output, up to the error of the Freivalds check.", "quantifier": "all operands and batch axes, all provers", "why_tests_cant": "all shapes, values and hints", "anchors": ["circuit_functions/layers/matmul.rs: apply, apply_2d, apply_nd_batched", "jstprove_onnx/src/shape_inference.rs: infer_matmul"]}
{"id": "C149", "title": "A GridSample with a computed grid carries the interpolated values", "statement": "An accepted proof of a GridSample layer whose grid is computed by the model carries, at every output position, the value interpolated from the image at the point the grid gives.", "quantifier": "all images, grids, paddings and configurations, all provers", "why_tests_cant": "all shapes, values and hints", "anchors": ["circuit_functions/layers/gridsample.rs: apply (Dynamic)", "circuit_functions/hints/gridsample_dynamic.rs: gridsample_dynamic_hint"]}
{"id": "C150", "title": "A bilinear GridSample with a constant grid is the interpolated image", "statement": "A bilinear GridSample layer with a constant grid produces, at every output position, the sum of the four surrounding pixels weighted by their shares, with points outside the image treated as the padding mode says; exactly this output has an accepted proof.", "quantifier": "all images, grids, paddings and configurations, all provers", "why_tests_cant": "all shapes, values and hints", "anchors": ["circuit_functions/layers/gridsample.rs: bilinear_corners_1d, build_bilinear_per_output, apply (Bilinear)", "circuit_functions/hints/gridsample.rs: gridsample_hint"]}
{"id": "C151", "title": "A nearest GridSample reads the nearest pixel", "statement": "A nearest-mode GridSample layer with a constant grid produces the pixel nearest to each point; outside the image it is zero, the border pixel or the reflected pixel, as the padding mode says; the output has the announced shape.", "quantifier": "all images, grids, paddings, both corner conventions", "why_tests_cant": "all shapes, values and points", "anchors": ["circuit_functions/layers/gridsample.rs: unnormalize, reflect_coord, apply_padding_f, nearest_px, build_nearest_index_map, apply (Nearest)", "jstprove_onnx/src/shape_inference.rs: infer_gridsample"]}
