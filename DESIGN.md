# Design

This directory holds a Rocq (Coq 8.16.1) model of JSTprove and proofs about it.
The model is in `rocq/theories`; properties are listed in `properties.jsonl`, their status in `MANIFEST.json`.

## Approach

* Every modelled function is a pure Gallina function with a comment citing the file and lines it models.
* Circuits are modelled as computations over field values with an explicit hint oracle. The oracle is arbitrary in
  soundness statements (the prover is adversarial) and the code's hint function in completeness statements.
* Machine integers are `Z` with explicit ranges or explicit wrap-around where the property depends on it.
* Panics and `Err` are explicit results.
* External components (hash functions, compression, the msgpack codec, floating point) are parameters of Sections, so each theorem is
  quantified over them; the assumptions made about them are visible as hypotheses of the theorem.
* When a property is false of the code the theorem is named `..._refuted`, states the negation for the model and exhibits a
  witness; the strongest true part is proved beside it. Such properties have status `partial` with a note starting with REFUTED.

## Trusted base

* Coq's kernel (including its `vm_compute` reduction).
* The axioms `Print Assumptions` lists for each property theorem, printed under each theorem of the Properties files.
  All theorems are closed under the global context (no axioms), with one exception:
  the theorems of `Properties/Bounds.v` (C117 to C121) are about real numbers and rest on axioms of Coq's standard library only:
  `ClassicalDedekindReals.sig_forall_dec`, `ClassicalDedekindReals.sig_not_dec`,
  `FunctionalExtensionality.functional_extensionality_dep` and, where logarithms or powers appear, `Classical_Prop.classic`.
* The faithfulness of the model to the Rust source, which was read as text and never executed.

### Assumptions about code outside the repository or outside the model

Each is a parameter or a hypothesis of the theorems that need it, never an axiom.

* Compression, checksum and codec: zstd and msgpack invert their encoders (`zstd_ok`, `codec_ok`); CRC-32C is an arbitrary function.
* Buffered writes and the file system: a small file system with crash points (`buffering_ok`, `cut_ok`).
* Hash functions (Keccak-256, SHA-256, Poseidon, MiMC) and the Fiat-Shamir transcript are arbitrary functions; collisions are
  visible in the statements.
* The polynomial commitment is idealised: an opening is the value of the committed polynomial (`claims_hold`). The GKR theorems use
  one field for circuit values and challenges. The Remainder proof system is idealised to checking its constraints.
* The random coefficients of the compiler, the order of field elements (`kcmp`) and custom gates (`un_eval`) are arbitrary functions.
* Function tables (exponential, sine, error function, ...) are arbitrary tables with the stated closeness to the real function;
  f64 constants of the activation layers are taken as exact.
* ndarray is modelled by row-major lists; Resize coordinates and model constants are exact rationals; the bound analysis computes with
  real numbers instead of f64, and the inferred shapes are a parameter.

### Modelled and not modelled

The files of the model, with the code they cover:

* `Model/Activations.v`: Constraint systems of the activation and normalisation layers. Paths are relative to /repo/rust/jstprove_circuits/src/circuit_functions. Each [*_element] is the body of the loop over the elements of the input tensor (a lane for Softmax and LayerNormalization); the layer runs it for every element and keeps the shape. [kappa] is scale_exponent, the scale is 2^kappa, [nb] is n_bits, [tb] the width of the exponential table. Not modelled: names of tensors, shapes, the arity checks of [build]. Products of u64 values that do not fit (a panic in debug builds) are not modelled: scale_exponent < 32 is assumed by the citing comments where scale * scale is computed.
* `Model/Bounds.v`: The bound analysis of the quantizer: the scale, and the number of bits of every range check. Paths are relative to /repo/rust/jstprove_onnx/src. Simplifications: f64 values are real numbers (no rounding; the two overflow guards are kept); HashMaps are association lists, the newest entry first; the shapes that propagate_shapes (quantizer.rs:411-1226) computes are a parameter; errors are None.
* `Model/Builder.v`: Model of the circuit builder API used by the JSTprove gadgets: /repo/compiler/expander_compiler/src/frontend/builder.rs:157-604 and the builtin hints /repo/compiler/expander_compiler/src/hints/builtin.rs:176-266. A gadget is a program ([prog]) over field values. A [Variable] is modelled by the canonical residue (a [Z] in [0, p)) it takes in one assignment; [add]/[sub]/[mul] are evaluated on the spot. What the prover is free to choose (hint outputs) and what the verifier checks (assertions, lookups) are explicit constructors. Simplifications: constant folding, common-subexpression handling and the sub-circuit call mechanism of the builder do not change values and are not modelled; a constant assertion that fails makes the Rust builder panic at circuit-construction time, here it is an unsatisfiable assertion.
* `Model/Compare.v`: Comparison by bit decomposition: /repo/compiler/expander_compiler/src/frontend/builder.rs:469-533 (gt, geq) with the lowering of ToBinary and BoolBinOp in /repo/compiler/expander_compiler/src/builder/hint_normalize.rs:134-160, 267-303, and the Greater / Less layers /repo/rust/jstprove_circuits/src/circuit_functions/layers/greater.rs:74-101, less.rs:84-100. The arrays are flattened and already broadcast; [display] has no effect.
* `Model/Constants.v`: The constants of a model, from the ONNX file to the circuit. Paths are relative to /repo/rust. Simplifications: f64 values are rationals (no rounding of the product, no infinities, no saturation of the casts to i64); attributes, shapes and the nesting of the tensors are left out.
* `Model/Containers.v`: Data structures of the circuit compiler: compiler/expander_compiler/src/utils/. [None] is an index fault, an underflow or a loop that runs out of fuel.
* `Model/Conv.v`: Conv: rust/jstprove_circuits/src/circuit_functions/layers/conv.rs and its shape inference, rust/jstprove_onnx/src/shape_inference.rs ("inf"). [None] is an Err or a panic. Simplified: sizes are exact (the conversions to i32 and u32 of sizes below 2^31).
* `Model/ConvLayer.v`: The Conv layer over the circuit builder: rust/jstprove_circuits/src/circuit_functions/layers/conv.rs. The look-up of tensors by name is not modelled; an absent bias is the empty tensor (85).
* `Model/ConvTranspose.v`: ConvTranspose: rust/jstprove_circuits/src/circuit_functions/layers/conv_transpose.rs and its shape inference, rust/jstprove_onnx/src/shape_inference.rs ("inf"). [None] is an Err or a panic. Simplified: sizes are exact, attributes are not negative (both readers refuse negative ones), and the look-up of tensors by name is left out; an absent bias is the empty tensor (conv_transpose.rs:89).
* `Model/ConvTransposeLayer.v`: The ConvTranspose layer over the circuit builder: rust/jstprove_circuits/src/circuit_functions/layers/conv_transpose.rs.
* `Model/DataMovement.v`: The layers that move data without computing: rust/jstprove_circuits/src/circuit_functions/layers/{transpose,slice,concat,split,pad, gather,gather_elements,scatter_nd,tile,expand}.rs, each run as the compiler runs it: the output shape comes from rust/jstprove_onnx/src/shape_inference.rs, [build] turns the attributes into an index map, [apply] moves the wires. Line numbers "inf" refer to shape_inference.rs. [None] is an Err or a panic. A tensor is its shape and its elements in row-major order; ndarray's memory layout (and so the "not contiguous" errors) is not modelled. i64 values are integers, usize values natural numbers; sizes are exact, and the casts of a negative i64 to usize, which all give a number above every dimension, are failures at the check that follows them. Only ScatterND uses such a cast without a check, and only there is the machine word modelled. The shape map entry of an input is the shape of the array given to [apply]; attributes and constant inputs are arguments. Names are left out.
* `Model/Elementwise.v`: The layers Max, Min, Mul, Div, Neg and BatchNormalization. Paths are relative to /repo/rust/jstprove_circuits/src/circuit_functions, [inf] is /repo/rust/jstprove_onnx/src/shape_inference.rs. Simplifications: the operands are given as tensors, whether they are constants of the model or outputs of other layers; the caches of circuit constants are left out.
* `Model/Expr.v`: Model of the expressions of the circuit compiler, compiler/expander_compiler/src/circuit/ir/expr.rs: sums of terms [coef * vars] kept normalised, sorted and without duplicates, and the linear combinations of the instruction sets. The field is the abstract [K]; [kcmp] is the order on field elements that the derived [Ord] of a term uses for its second component (any function: the theorems do not depend on it). A panic ([panic!], failed [assert!], [unwrap] of [None], out-of-range index) is [None]. Not modelled: [hash_cache] (expr.rs:207-236), which only speeds up equality (equality is [terms] equality), Display and the serialisation.
* `Model/Extract.v`: rust/jstprove_circuits/src/runner/verify_extract.rs: what the verifying client reads back from the witness file. Big integers are [Z], bytes are [Z] in 0..255; [None] is an error or the panic of a negative BigUint subtraction. The division by the scale in floating point (descale_outputs) and the multiplication in scale_to_field are not modelled: values are the scaled integers.
* `Model/Fields.v`: Prime field arithmetic on machine words: prover/arith/mersenne31/src/m31.rs and prover/arith/goldilocks/src/goldilocks.rs. [None] is an arithmetic overflow, a failed [assume] (undefined behaviour), a slice fault or a failed conversion, as said at each definition.
* `Model/Freivalds.v`: Matrix products in the circuit: /repo/rust/jstprove_circuits/src/circuit_functions/gadgets/linear_algebra.rs:245-289 (matrix_multiplication) and 430-544 (freivalds_verify_matrix_product). An [ArrayD] of rank 2 is a list of rows plus its dimensions; other ranks are rejected by the code and are not representable here. The values returned by [get_random_value] are an argument: one vector per repetition.
* `Model/Gadgets.v`: Models of the circuit gadgets. Paths are relative to /repo/rust/jstprove_circuits/src/circuit_functions unless they start with /repo.
* `Model/Gemm.v`: Gemm: rust/jstprove_circuits/src/circuit_functions/layers/gemm.rs. The look-up of tensors by name and the layout of arrays are not modelled. The matrix the prover claims and the challenges of the Freivalds check are arguments, used when that check is chosen.
* `Model/Gkr.v`: Model of the GKR verifier: prover/gkr/src/verifier (common.rs, gkr_vanilla.rs, structs.rs, snark.rs 145-255) with the helpers of prover/sumcheck/src (verifier_helper.rs, scratch_pad.rs, utils.rs). Simplifications. Circuit field, challenge field and the scalars of the SIMD field are one abstract field K; a SIMD value is the list of its 2^simd_vars lanes. The branches for GF2Ext128 are left out. The number of processes is 2^mpi_vars (the code panics otherwise). The proof is read element by element: [Some v] is an element that decodes to v, [None] one that does not, the empty list is the end of the proof. Timers and the progress callback are left out. [None] as a result is a panic.
* `Model/GkrProver.v`: The GKR prover, vanilla scheme, prime fields, one process. Files under /repo/prover: sumcheck/src/{sumcheck,scratch_pad,utils}.rs, sumcheck/src/prover_helper/{product_gate,simd_gate,sumcheck_gkr_vanilla}.rs, gkr/src/prover/{gkr_vanilla,snark}.rs, gkr_engine/src/field_engine/definition.rs, circuit/src/layered/circuit.rs. The only MPI engine (gkr_engine/src/mpi_engine/engine.rs) has one process on the prover's side (prover_new, 43-48): gathering and combining return the local vector, broadcasts do nothing, so the table eq_evals_at_r_mpi0 is never read and is left out. A SIMD value is the list of its 2^simd_vars lanes; the circuit field, its SIMD extension and the challenge field are one field K. [None] is a panic or undefined behaviour. Logging and timing are left out, the metal code is not compiled.
* `Model/Graph.v`: Orderings of layer graphs and of sub-circuit graphs. [None] is an index fault, an underflow, a missing map key or a loop that runs out of fuel.
* `Model/GridSample.v`: GridSample: rust/jstprove_circuits/src/circuit_functions/layers/gridsample.rs, the parts that are computed when the circuit is built. Simplifications: the coordinates are exact rationals instead of f64; a padding mode or an interpolation mode is one of those ONNX names (the code takes any other padding for border and any other mode for bilinear).
* `Model/GridSampleCircuit.v`: GridSample: rust/jstprove_circuits/src/circuit_functions/layers/gridsample.rs, the parts that make constraints. The look-up of tensors by name and the layout of arrays are not modelled.
* `Model/GridSampleHint.v`: The hint of GridSample in bilinear mode with a constant grid: rust/jstprove_circuits/src/circuit_functions/hints/gridsample.rs and hints/mod.rs.
* `Model/InputMapping.v`: Input mappings of the compiler (compiler/expander_compiler/src/circuit/input_mapping.rs). [None] is a panic.
* `Model/Io.v`: Artifacts on disk (rust/jstprove_io/src: envelope.rs, compress.rs, lib.rs, bundle.rs). Errors are [None], without their messages. The msgpack codec (rmp_serde), zstd and the file system calls are outside the repository: the codec and zstd are parameters, the file system is the small one below.
* `Model/Ir.v`: The circuit representations the compiler goes through (compiler/expander_compiler/src/circuit/ir): [source] (what the frontend produces), [hint_normalized] (only hints and arithmetic), [hint_less] (the hints have become inputs). The instruction sets are nested, and the types below say so: a hint-normalised instruction is a hint-less one or a hint, a source instruction is one of those or one of the richer forms. Simplifications: a circuit id, a gate type, a variable is a natural number (usize); a hint id is symbolic; the map of sub-circuits is an association list.
* `Model/Layered.v`: Layered circuits of the compiler (compiler/expander_compiler/src/circuit/layered/mod.rs) and the flat circuits of the prover (prover/circuit/src). An input of a gate is (layer, offset): for NormalInputType all layers are 0 and every segment has one input size, for CrossLayerInputType there may be several. [None] is a panic; sizes do not overflow. The field is abstract; the value of a random coefficient and the function of a custom gate are parameters.
* `Model/Layers.v`: Constraint systems of individual layers. Paths are relative to /repo/rust/jstprove_circuits/src/circuit_functions.
* `Model/LogUp.v`: Model of the LogUp lookup argument, /repo/compiler/circuit-std-rs/src/logup.rs. Circuit variables are modelled by their field values; the builder calls [add], [mul], [sub] become field operations and [assert_is_equal] becomes a proposition about the values.
* `Model/LogUpHints.v`: Models of the witness-generation hints of the LogUp tables, /repo/compiler/circuit-std-rs/src/logup.rs:467-518. Field elements are given by their canonical residues ([to_u256]).
* `Model/MatMul.v`: MatMul: rust/jstprove_circuits/src/circuit_functions/layers/matmul.rs. The look-up of tensors by name and the layout of arrays are not modelled. The matrices the prover claims and the challenges of the Freivalds check, one for each pair of matrices, are arguments.
* `Model/MaxPool.v`: MaxPool: rust/jstprove_circuits/src/circuit_functions/layers/maxpool.rs and its shape inference, rust/jstprove_onnx/src/shape_inference.rs ("inf"). [None] is an Err or a panic. Simplified: attributes are not negative (both readers refuse negative ones), sizes are exact, and the look-up of tensors by name is left out.
* `Model/MaxPoolLayer.v`: The MaxPool layer over the circuit builder: rust/jstprove_circuits/src/circuit_functions/layers/maxpool.rs.
* `Model/Merkle.v`: Model of prover/tree/src (tree.rs, path.rs, leaf.rs, node.rs). Bytes are integers, a leaf or node is its byte string (64 and 32 bytes); Keccak-256 is an abstract function [H] with 32-byte results. Panics (index faults, unwrap of None, failed assertions, subtraction underflow, shifts by 64 or more) are [None]. Machine words are unbounded.
* `Model/Normalize.v`: Model of the first pass of the circuit compiler, which replaces the rich source instructions (division, boolean operations, is-zero, bit decomposition, unconstrained operations) by hints and arithmetic plus constraints: compiler/expander_compiler/src/builder/basic.rs and builder/hint_normalize.rs. Maps are association lists; the constraint map has one constraint type in this instantiation ([RawConstraint], type unit). [None] is a panic or an [Err]: in both cases no circuit is produced. [un_eval] is UnconstrainedBinOpType::eval (source/mod.rs:405-480), used to fold operations on two constants; a parameter.
* `Model/Polynomials.v`: Model of prover/arith/polynomials/src (eq.rs, mle.rs, univariate.rs). Field elements are an abstract field; slices and vectors are lists; an out-of-range index or a failed assertion is [None]. The mixed field types of the Rust generics (challenge field, SIMD field) are one field here.
* `Model/Remainder.v`: The Remainder backend (rust/jstprove_remainder): padding, rescaling, range check shreds, the circuit builder, the public inputs the verifier prepares, and the verifier. Simplifications, valid for the whole file: - [usize] sizes are natural numbers (no wrap-around on 64-bit overflow) except in the functions of padding.rs, which are modelled on 64-bit words; - [anyhow] errors and panics are both [None]; - shred names are structured values ([shred]) instead of formatted strings, so two different formats never collide; - the layers are already listed in topological order ([iter_topo], C47); - the proof system (crates [remainder], [frontend], [shared_types]) is not in /repo. It is idealised: a proof is replaced by the committed shreds it proves knowledge of, and the verifier accepts when every output layer is zero and every lookup succeeds.
* `Model/RemainderWitness.v`: The Remainder backend's witness generator (runner/witness.rs:367-3259) and proof generation (runner/prove.rs:17-124). The simplifications of Model/Remainder.v apply. Moreover: - the witness of LayerNorm, Slice, Concat, Resize, GridSample and Transpose layers is not modelled ([None]); - sums of products in [i128] are exact (they overflow only if several products of two factors near [2^63] are added up); - multiplicities and the dummy shreds of the lookup argument are left out, but the range checks that computing them performs are kept.
* `Model/Reshaping.v`: The layers Reshape, Flatten, Squeeze, Unsqueeze, Range, Shape and ConstantOfShape. Paths are relative to /repo/rust/jstprove_circuits/src/circuit_functions, [inf] is /repo/rust/jstprove_onnx/src/shape_inference.rs and [meta] is /repo/rust/jstprove_circuits/src/expander_metadata.rs. [None] is an Err or a panic. Simplified: products of dimensions are exact; names are left out; a tensor is in row-major order whatever its memory layout.
* `Model/Resize.v`: Resize in nearest-neighbour mode: rust/jstprove_circuits/src/circuit_functions/layers/resize.rs. Simplifications: the coordinates are exact rationals instead of f64, and a tie is an exact half instead of one up to 1e-10.
* `Model/Runner.v`: rust/jstprove_circuits/src/runner/main_runner.rs: batches of jobs and the ordering of named inputs. Strings are their UTF-8 bytes; printing is left out.
* `Model/Selection.v`: Layers that compare and select elements, over the circuit builder. Paths are relative to /repo/rust/jstprove_circuits/src/circuit_functions. A tensor of [Variable]s is a [tensor Z] of canonical residues. Not modelled: names of tensors, the look-up of inputs by name, contiguity of the arrays (all are built row-major). The shapes of the shapes map are those of the tensors.
* `Model/Serdes.v`: The binary format: the ExpSerde implementations. A reader is the list of bytes left; [None] is an error (or, for invalid tags of prover gates, a panic). Writing cannot fail. A usize is a natural number, its encoding has 64 bits.
* `Model/Shapes.v`: Shape arithmetic of rust/jstprove_circuits/src/circuit_functions. [None] is a panic or an Err. Products of dimensions are exact natural numbers: the code's usize products agree with them whenever they fit the machine word.
* `Model/Sumcheck.v`: Model of the generic sumcheck of prover/sumcheck/src/sumcheck_generic.rs (with its files sumcheck_generic/prover.rs and sumcheck_generic/verifier.rs) and of prover/arith/polynomials/src/sum_of_products.rs. The field is abstract, a multilinear polynomial is its coefficient vector (the values on the cube), a panic is [None]. The transcript is a state [T] with two operations: absorbing a prover message and sampling one field element. rayon's parallel iterators are the corresponding maps (each closure reads shared data and writes its own cell).
* `Model/Trace.v`: The circuit with its lookups collected, as it is really checked: a fixed assignment of the hint outputs, the queries pushed by every [rangeproof] call, and one final LogUp check per table at the end of the circuit (/repo/rust/jstprove_circuits/src/onnx.rs:68-140: layers first, then [finalize]; /repo/compiler/circuit-std-rs/src/logup.rs:344-360, 440-464: queries are only pushed on a vector until [final_check]).
* `Model/Transcript.v`: The Fiat-Shamir transcript (prover/transcript/src/byte_hash_transcript.rs, transcript_utils.rs) and the padding of the field hashers (prover/hasher/src). The hash function is a parameter; its calls are recorded in [queries], which the code does not have. Failed assertions are [None].
* `Model/Witness.v`: compiler/expander_compiler/src/circuit/layered/witness.rs: batches of witnesses, as scalars or packed into vectors. A vector of the SIMD field is the list of its [pack] lanes (SF::pack and SF::unpack are that list; [pack] is PACK_SIZE of the configuration). [None] is a panic or a deserialisation error.
* `Model/Zkvm.v`: The proof of compilation: rust/jstprove_zkvm. The host turns a quantised model into canonical bytes (src/canonical.rs, src/main.rs); the guest program, run in the zkVM, decodes them, computes the widths and returns a hash (guest/src/lib.rs). [None] is an error or a panic, except where said. The zkVM itself is not modelled: a valid proof is a run of the guest. The guest is compiled without overflow checks: u64 sums wrap around. Simplifications: floats are rationals, HashMaps are association lists with distinct keys, strings are Coq strings.

Not modelled: command line parsing and printing (cli.rs, main.rs), the Python bindings (jstprove_pyo3), the Jolt prover and verifier that jstprove_zkvm calls (the guest program and the host's encoding are modelled; a valid proof is taken to be a run of the guest),
the ONNX protobuf parser, SIMD implementations of the fields (AVX, NEON), multi-process execution (MPI), GPU code, the KZG, Hyrax and Orion
commitment schemes, the GKR-square variant, benchmarks and estimates (autotuner.rs, estimate.rs),
the compiler passes after the first one except layering and flattening, and the HTTP and pipe front ends.
InstanceNormalization and GroupNormalization (instance_norm.rs, group_norm.rs and hints/instance_norm.rs) are not modelled because no model with them
compiles: their build functions return an error. The hint of a GridSample with a computed grid (hints/gridsample_dynamic.rs) is not modelled either.

## Plan per property

* **C01 Range check is sound when the chunk size divides the bit width** — model: M:Gadgets/LogUp. Proof: Circuit-builder monad with arbitrary hint oracle; digit decomposition lemma: digits < 2^c and sum = x mod p with 2^n<p gives x<2^n.
* **C02 Range check is sound for every bit width** — model: M:Gadgets/LogUp. Proof: Expected false. Prove the exact accepted set, and a refutation witness; C01 is the positive part.
* **C03 Range check never rejects an in-range value** — model: same model. Proof: Honest oracle; induction over digits.
* **C04 LogUp lookup argument is sound except for few challenges** — model: LogUp rational sums over an abstract field. Proof: Root counting for polynomials: nonzero polynomial of degree < N has < N roots.
* **C05 LogUp lookup argument is complete** — model: same. Proof: Algebra over all challenges.
* **C06 Constant division returns floor quotient and remainder, uniquely** — model: Gadgets/Division. Proof: Range-check as exact predicate (hypothesis discharged by C01 for aligned widths); integer arithmetic with p > bound.
* **C07 Constant division accepts its honest witness** — model: same. Proof: Honest hints.
* **C08 Max gadget returns the maximum** — model: Gadgets/MaxMin. Proof: List induction; product-zero in a prime field gives membership.
* **C09 Min gadget returns the minimum** — model: same. Proof: Dual of C08.
* **C10 ReLU and clip are exact** — model: same. Proof: Instances of C08/C09.
* **C11 Rescaling is exact floor division by the scale** — model: Quantization. Proof: From C06/C07.
* **C12 Greater/Less implement signed comparison** — model: Compare. Proof: Expected false on negative values; prove the characterisation on residues and the refutation.
* **C13 TopK returns the k largest elements in descending order** — model: TopK. Proof: Expected false; prove what is enforced and give refuting witnesses.
* **C14 Exponential lookup determines its output** — model: FunctionLookup. Proof: Expected false; refutation for a concrete scale.
* **C15 Pow with a negative exponent is constrained** — model: Pow. Proof: Expected false; general theorem: any output is accepted.
* **C16 Average pooling rounds to nearest** — model: Pools. Proof: Two-sided bound gives the unique rounded quotient.
* **C17 Function-table keys of signed inputs never collide in the multiplicity hint** — model: LogUp hint. Proof: Expected false on Goldilocks; injectivity on BN254.
* **C18 Randomised matrix-product check is sound and complete** — model: LinearAlgebra. Proof: Linear algebra over a field; counting.
* **C19 Sumcheck verification is complete** — model: Model/Sumcheck.v: prover state, rounds, verifier, sum of products. Proof: Each round of each pair is the honest round polynomial (invariant on bookkeeping tables), interpolation is exact.
* **C20 Sumcheck verification is sound** — model: Model/Sumcheck.v: verify. Proof: Telescoping over rounds, root bound for quadratics, counting over challenge vectors.
* **C21 GKR verification accepts every honest proof** — model: GKR prover and verifier (Model/Gkr.v, Model/GkrProver.v). Proof: The modelled prover's tables refine an honest prover that sends exact round polynomials (loop invariants); the verifier, reduced to closed-form layer checks, accepts it by the layer identity and induction on layers.
* **C22 GKR verification is sound for the claimed output evaluation** — model: GKR. Proof: Round-by-round soundness.
* **C23 An accepted proof implies the circuit's constraints hold** — model: GKR. Proof: Expected false (the verifier never inspects the output claim); theorem: the honest prover on ANY witness is accepted.
* **C24 Parallel and sequential proof verification agree** — model: GKR. Proof: Simulation between the interleaved and the parse-then-check verifier on arbitrary byte strings.
* **C25 All equality-polynomial tables agree with the definition** — model: Polynomials. Proof: Induction on the number of variables.
* **C26 All multilinear evaluation routines agree** — model: Polynomials. Proof: Induction.
* **C27 Fixing the bottom variable of a multilinear polynomial** — model: Polynomials. Proof: Expected false; correct characterisation.
* **C28 Univariate evaluation and quotients are exact** — model: Polynomials. Proof: Synthetic division invariants.
* **C29 Merkle openings are complete** — model: Merkle. Proof: Induction on height; hash abstract.
* **C30 Merkle openings are binding** — model: Merkle. Proof: Collision extraction by induction.
* **C31 A Merkle opening identifies one leaf position** — model: Merkle. Proof: Expected false; explicit malleability.
* **C32 Serialization round-trips** — model: Serdes. Proof: Round trip with trailing bytes, per type combinator.
* **C33 M31 arithmetic on canonical elements is exact** — model: M31. Proof: lia over bounded Z with bit operations lemmas.
* **C34 M31 elements built by public constructors are canonical** — model: M31. Proof: Expected false at u32::MAX; true elsewhere.
* **C35 Goldilocks arithmetic is exact for every representation** — model: Goldilocks. Proof: Case analysis over wrap-around with lia.
* **C36 Goldilocks inversion is correct** — model: Goldilocks. Proof: Loop invariant.
* **C37 Transcript binds every appended message** — model: Model/Transcript.v: digest, pending bytes, lock, sampling; the hash is a parameter and its inputs are recorded. Proof: Refinement to a plain hash chain; equal digests give equal messages or a collision among the recorded inputs; a later commitment forgets the past.
* **C38 Envelope round-trips every payload** — model: Model/Io.v: write_envelope, parse_header, serialize/deserialize, zstd and msgpack as parameters. Proof: Round trip for every codec and compressor that recovers its own output.
* **C39 Envelope detects corruption** — model: Model/Io.v: bitwise CRC-32C. Proof: The register is linear and injective; a burst of 32 bits changes it; four chosen bytes reach any checksum, which refutes the file reader.
* **C40 Bundle write then read returns the same bundle** — model: Model/Io.v: file system calls with faults, write_bundle_with_vk, readers. Proof: Invariant over the calls; counterexamples.
* **C41 Bundle writing is crash safe** — model: Model/Io.v: history of file system states. Proof: Every state in the history satisfies: no readable manifest, or a complete bundle.
* **C42 Signed field encoding round-trips** — model: Runner. Proof: lia.
* **C43 Expected-input comparison accepts exactly the tolerance** — model: Runner. Proof: lia.
* **C44 Witness parsing extracts exactly the public values** — model: Runner. Proof: Round trip.
* **C45 Batch runs account for every job exactly once and in order** — model: Runner. Proof: Induction; schedules as permutations of job completion.
* **C46 Natural input ordering is a total order** — model: Runner. Proof: Lexicographic order laws.
* **C47 Layer ordering is a topological order** — model: Onnx. Proof: Kahn invariant.
* **C48 Broadcast shapes follow the ONNX rule** — model: Shapes. Proof: Induction on reversed shapes.
* **C49 Flat and multi-dimensional indexes are inverse** — model: Shapes. Proof: Induction on shape.
* **C50 Axis normalisation is canonical** — model: Shapes. Proof: Set/sort reasoning.
* **C51 Model inputs are partitioned without loss** — model: Shapes. Proof: Induction.
* **C52 SIMD evaluation of a layered circuit equals lane-wise evaluation** — model: Layered circuits: segments, gates, allocations; scalar and vector evaluation. Proof: A lane-wise simulation relation preserved by every loop of the evaluator, for faults as well as results.
* **C53 Witness packing loses no witness** — model: Layered. Proof: List chunking.
* **C54 Flattening a hierarchical circuit preserves its function** — model: export_to_expander, scan_leaf_segments, flatten, with the iteration order of the hash maps as a parameter; evaluate. Proof: Induction on the segment numbers: a segment adds to its outputs the sum of the gates of its expansion, and the expansion is a permutation of the flattened gates.
* **C55 A validated layered circuit evaluates without index faults** — model: Circuit::validate with its three passes; evaluation with checked indexing. Proof: Validate is turned into size invariants for segments and layers; evaluation is total under them.  False as stated: validate does not check the public inputs.
* **C56 Input mappings compose** — model: map_inputs, validate, compose, compose_in_place. Proof: Pointwise characterisation by the last input sent to a position.
* **C57 Compiler union-find maintains the generated equivalence** — model: Compiler utils. Proof: Representation invariant.
* **C58 Compiler heap is a priority queue** — model: Compiler utils. Proof: Heap invariant.
* **C59 Interning pool is a bijection** — model: Compiler utils. Proof: Invariant.
* **C60 Bucket sort is a stable sort** — model: Compiler utils. Proof: Counting invariant.
* **C61 Remainder backend rescale is exact** — model: Model/Remainder.v: compute_rescale with truncating division and casts to i64. Proof: Arithmetic; the exact effect below the offset too.
* **C62 Remainder backend padding and range chunks** — model: Model/Remainder.v: padding.rs on 64-bit words, compute_multiplicities, the split into chunks. Proof: Induction; errors exactly outside the width.
* **C63 Remainder verifier fixes the range-check widths itself** — model: Model/Remainder.v: widths stated by the proof replace the model's (apply_observed). Proof: False: a Relu network for which the choice of width decides. Proved: an accepted Relu is right whatever the width.
* **C64 Decoding from a file and from bytes agree** — model: Model/Io.v: deserialize_content with the reader's buffering as a parameter. Proof: Counterexamples both ways; agreement on the common domain.
* **C65 Rounding to powers of two** — model: Compiler utils. Proof: Induction on the loop, both directions of the boundary.
* **C66 Reshape keeps every element** — model: The shape computations of Reshape and Flatten, with the product in usize. Proof: Induction on the target shape.
* **C67 Reductions read exactly the contributing elements** — model: collect_reduction_inputs with its coordinate arrays. Proof: Loop invariants for the base coordinates and the mixed-radix decoding; injectivity of row-major order.
* **C68 Prover and verifier flatten a circuit to the same circuit** — model: flatten with two iteration orders; fill_rnd_coefs. Proof: Permutations of the gate lists; equality without nested segments; a counterexample with random coefficients.
* **C69 A failed bundle write leaves nothing behind** — model: Model/Io.v: WriteGuard. Proof: Counterexample; clean-up when the manifest cannot be encoded.
* **C70 A truncated artifact is rejected** — model: Model/Io.v. Proof: Length checks; a codec never succeeds on a proper prefix of its output.
* **C71 Transcript hashers distinguish all messages** — model: Model/Transcript.v: hash_to_state. Proof: Absorbing the padded pieces; trailing zeros collide.
* **C72 The proof is what was appended** — model: Model/Transcript.v: lock, unlock, finalize. Proof: Invariant over histories.
* **C73 Malformed sumcheck proofs are answered** — model: Model/Sumcheck.v: verify. Proof: Witnesses of panics; totality on well-shaped proofs.
* **C74 An accepted Remainder proof states the quantised inference** — model: Model/Remainder.v: builder, public inputs, verifier (ideal proof system). Proof: False: counterexamples with two dense layers and with a transposition. Proved for perceptrons by induction over the layers.
* **C76 Every layer of an accepted Remainder circuit computes its operation** — model: Model/Remainder.v; Spec/RemainderCircuit.v: values of tensors in an accepted proof. Proof: One lemma per kind of layer, from the checks the builder adds and the public shreds the verifier prepares.
* **C75 A proof made by the Remainder prover is accepted** — model: Model/RemainderWitness.v: compute_witness, generate_proof; Spec/RemainderHonest.v. Proof: Lockstep induction over the layers of the three passes (witness generator, circuit builder, public values): tensors, layouts, checks and range checks agree.  Refuted for reshapes before image operations, for mismatched flattened sizes and for a constant named result.
* **C77 The Remainder prover states the quantised inference** — model: Spec/RemainderHonest.v: computed tensors, feature maps. Proof: Every layer exactly, from acceptance for all moduli; perceptrons by induction.  Refuted for the flattening of several feature maps.
* **C78 Compiling weakens no circuit** — model: Model/Expr.v, Model/Ir.v, Model/Normalize.v; meaning of circuits in Spec/CircuitMeaning.v. Proof: Invariant: every output variable's value is the value of its expression under the values of the middle variables; each transformed instruction refines the source instruction; a dropped constraint is one that is implied.  Refuted for and/or/xor with a constant operand; proved for circuits without them.
* **C79 Compiling loses no honest run** — model: As C78. Proof: As C78, the other direction, for all circuits with honest hints.
* **C80 Square root is what it says** — model: Model/Activations.v: the constraint program of one element; registered hints and tables are parameters. Proof: Refuted at the default width; at widths that are multiples of the chunk, exactly the floor is accepted.
* **C81 Square roots can be proved** — model: Model/Activations.v: the constraint program of one element; registered hints and tables are parameters. Proof: Refuted at exact widths (nearest is not floor); succeeds at all other widths; at exact widths the success condition is exact.
* **C82 LeakyReLU is what it says** — model: Model/Activations.v: the constraint program of one element; registered hints and tables are parameters. Proof: Refuted at the default width: both branches accepted for every input; exact at exact widths.
* **C83 LeakyReLU can be proved** — model: Model/Activations.v: the constraint program of one element; registered hints and tables are parameters. Proof: Run of the program on every input, all widths.
* **C84 HardSwish is what it says** — model: Model/Activations.v: the constraint program of one element; registered hints and tables are parameters. Proof: Refuted: unchecked output, a field inverse is accepted; the accepted set is characterised at exact widths.
* **C85 HardSwish can be proved** — model: Model/Activations.v: the constraint program of one element; registered hints and tables are parameters. Proof: Refuted for all inputs of 13.0 and more; proved between -11.0 and 5.0.
* **C86 Sine and cosine are what they say** — model: Model/Activations.v: the constraint program of one element; registered hints and tables are parameters. Proof: Refuted: clamped to the table's keys, cannot be built at 64 bits; accepted and honest outputs are the value at the clamped input.
* **C87 Sigmoid is what it says** — model: Model/Activations.v: the constraint program of one element; registered hints and tables are parameters. Proof: Multiply by the scale to turn the unchecked quotient into an integer relation; bound the error.
* **C88 Sigmoid can be proved** — model: Model/Activations.v: the constraint program of one element; registered hints and tables are parameters. Proof: Refuted at -6.0 (no output satisfies the relation); proved where the exponential is below 3.
* **C89 Hyperbolic tangent is what it says** — model: Model/Activations.v: the constraint program of one element; registered hints and tables are parameters. Proof: As C87.
* **C90 Hyperbolic tangent can be proved** — model: Model/Activations.v: the constraint program of one element; registered hints and tables are parameters. Proof: Refuted at 3.0; proved where the exponential is at most 5.
* **C91 Logarithm is what it says** — model: Model/Activations.v: the constraint program of one element; registered hints and tables are parameters. Proof: As C87.
* **C92 Logarithms can be proved** — model: Model/Activations.v: the constraint program of one element; registered hints and tables are parameters. Proof: Refuted at 16.0; proved where the table is within two units.
* **C93 GELU is what it says** — model: Model/Activations.v: the constraint program of one element; registered hints and tables are parameters. Proof: Refuted: unchecked output.
* **C94 GELU can be proved** — model: Model/Activations.v: the constraint program of one element; registered hints and tables are parameters. Proof: Refuted at -1.0; proved for non-negative inputs.
* **C95 The error function is what it says** — model: Model/Activations.v: the constraint program of one element; registered hints and tables are parameters. Proof: Refuted: tolerance larger than the range; accepted outputs lie in [-1, 1] at exact widths.
* **C96 LayerNormalization: accepted outputs are the normalisation** — model: layer_norm_lane / ln_element (Model/Activations.v): one lane of layer_norm.rs:196-275, hint 21.. Proof: Refuted: inv_std = 0 makes every normalised value 0 and passes the variance check, which is only an upper bound. Partial: outputs are an affine image with one mean and one inverse deviation of the prover's choice, and the squares of the normalised values are bounded.
* **C97 LayerNormalization: the honest prover succeeds** — model: As C96, with the honest hint's answers as a parameter.. Proof: Refuted: the hint rounds the inverse deviation but computes the outputs without rounding. Partial: succeeds when both agree within the tolerance.
* **C98 Softmax: accepted outputs are the softmax** — model: softmax_lane (Model/Activations.v): one lane of softmax.rs:109-158, hint 20; exponential table E as a parameter.. Proof: Integer relation extracted from the range checks and the exponential gadget, then an error bound.
* **C99 Softmax: the honest prover succeeds** — model: As C98, honest hint as a parameter.. Proof: Refuted: differences of 32.0 and more have no table entry. Partial: honest run computed step by step when all differences are in range.
* **C100 Transpose permutes the axes** — model: transpose (Model/DataMovement.v): infer_transpose, build_index_map and apply on row-major lists. ONNX meaning in Spec/Tensors.v.. Proof: Index map computed coordinate by coordinate; inverse permutation by loop invariant.
* **C101 Slice selects what ONNX says** — model: slice (Model/DataMovement.v): infer_slice, build_index_map, apply.. Proof: Refuted: negative steps are refused. Partial: for positive steps, the two loops over the axes by invariant, the kept positions as an arithmetic progression.
* **C102 Concat and Split are exact and inverse** — model: concat_layer and split (Model/DataMovement.v); ndarray::concatenate as rows in turn.. Proof: Row-major position split at the axis; blocks of equal length; uniqueness of the concatenation gives the round trip.
* **C103 Pad pads the axes asked for with the value asked for** — model: pad (Model/DataMovement.v).. Proof: Refuted: the axes input, the value attribute and a value that is not a weight are ignored. Partial: exact zero padding otherwise.
* **C104 Gather and GatherElements read the elements asked for** — model: gather, gather_elements (Model/DataMovement.v).. Proof: Refuted: Gather accepts axes up to three above the rank; GatherElements reads across rows. Partial: exact for axes that exist and indices that fit.
* **C105 ScatterND writes the slices asked for** — model: scatter_nd (Model/DataMovement.v) with wrapping usize arithmetic; the hash map as ordered writes.. Proof: Refuted: out of range indices write elsewhere. Partial: exact for valid, distinct targets, by an invariant over the writes.
* **C106 Tile repeats the tensor** — model: tile (Model/DataMovement.v): repeated concatenation.. Proof: Invariant over the axes.
* **C107 Expand broadcasts** — model: expand (Model/DataMovement.v); ndarray broadcast as an index map.. Proof: Dimensions compared from the right; leading ones do not change row-major positions.
* **C108 Where selects by the condition** — model: where_constant (Model/DataMovement.v), where_runtime (Model/Selection.v) over the circuit builder.. Proof: Index map of three broadcasts; b*(x-y)+y with b in {0,1} forced by the is-zero gadget.
* **C109 Equal compares** — model: equal_runtime, equal_constant (Model/Selection.v).. Proof: The is-zero gadget accepts only the indicator of zero; differences below p.
* **C110 And and Not on booleans** — model: and_layer, not_layer (Model/Selection.v).. Proof: Products of booleans; assert_bool rejects everything else.
* **C111 Cast converts** — model: cast_layer (Model/Selection.v).. Proof: BOOL exact; other types pass the value through, hence a refutation for integer types.
* **C112 GatherElements with computed indices** — model: gather_dynamic_element, gather_elements_dynamic, the hint (Model/Selection.v).. Proof: Exactly one position matches when the index is valid, none otherwise; acceptance characterised by the range check of the gathered values; negatives refute completeness.
* **C113 Nearest Resize reads the position ONNX defines** — model: resize_nearest, infer_resize (Model/Resize.v), coordinates as exact rationals.. Proof: Coordinate and rounding equal ONNX's for the ratio of the sizes; a scale that is not that ratio refutes the claim for scales.
* **C114 Linear Resize is the rounded weighted mean** — model: resize_linear_element and its hint (Model/Selection.v).. Proof: Two range checks with their slack characterise the accepted outputs; witnesses refute soundness and completeness at the default configuration.
* **C115 Constants enter the circuit at the scale of their operand** — model: quantize_layer_weights, as_i64_vec, build_wandb (Model/Constants.v), floats as rationals.. Proof: First occurrence of a name in the concatenated weights; the plan of each operator; witnesses refute it for Add and for shared constants.
* **C116 Add and Sub are exact** — model: add_layer, sub_layer (Model/Selection.v).. Proof: Homomorphism of the encoding over broadcast arrays.
* **C117 Range checks are wide enough for the values** — model: compute_bounds, compute_layer_bound, compute_n_bits (Model/Bounds.v); operators over the reals (Spec/RealOps.v). Proof: Invariant over the layers: every known tensor is within its bound; one lemma per operator. Refuted by Max, Constant, Div, MatMul with a vector and shared names; the exact side conditions are the predicate analysable.
* **C118 The chosen width lets the honest prover succeed** — model: compute_n_bits (Model/Bounds.v) with maybe_rescale (Model/Gadgets.v). Proof: Completeness of rescaling (C11) under a strict inequality; a weight of 32 refutes it without.
* **C119 The adaptive scale fits the field** — model: compute_max_bound, max_safe_exponent (Model/Bounds.v). Proof: Invariant up to the first rescaled layer; two chained Gemm layers refute the rest.
* **C120 Folding batch normalisation preserves it** — model: fold_batchnorm (Model/Bounds.v). Proof: Field identity per channel; case analysis for the errors.
* **C121 Rewriting powers to square roots preserves them** — model: becomes_sqrt (Model/Bounds.v). Proof: Logarithms; refuted for exponents other than one half.
* **C122 The zkVM guest reads the model the host wrote** — model: encode, decode, verify_compilation (Model/Zkvm.v). Proof: Round trips of the numbers, vectors and layers composed, for all canonical models within the format.
* **C123 The compilation hash binds the canonical model** — model: canonical_output, verify_compilation (Model/Zkvm.v); SHA-256 is a parameter. Proof: The output is decodable, hence injective; the guest's input is decoded to well-formed models only.
* **C124 Models with the same compilation hash are the same model** — model: from_quantized (Model/Zkvm.v). Proof: Refuted by exchanged operands, renamed attributes and, for every model, changed widths; what is kept is proved layer by layer.
* **C125 The guest computes the quantizer's widths** — model: guest_n_bits (Model/Zkvm.v) against compute_bounds (Model/Bounds.v). Proof: Refuted by a Gemm followed by Relu; the formula and the first convolution agree (over the reals).
* **C126 The guest answers for genuine models and only for them** — model: verify_compilation, guest_layer (Model/Zkvm.v). Proof: Exact condition of failure by induction over the layers; refuted by a zero scale, a foreign scale and a wrapping sum.
* **C127 The zkVM host reads model files and notices corruption** — model: decompress_model_bytes (Model/Zkvm.v) against the writer of Model/Io.v. Proof: Reading back all three formats; refuted by any payload of the same length and by a length near 2^64.
* **C128 An accepted proof of Conv carries the ONNX convolution** — model: conv_sums, conv_layer (Model/Conv.v, Model/ConvLayer.v). Proof: The window cut from image and kernel is the whole kernel over the image padded with zeros; sums over the channels by induction; then C11 for the rescaling.
* **C129 Every valid 2D Conv whose shape is inferred can be proved** — model: As C128, and infer_conv. Proof: The windows touch the image when no side is padded by more than the kernel; refuted by a 1x1 kernel padded by 2, which shape inference accepts.
* **C130 A Conv whose operands do not fit is refused** — model: As C128. Proof: The checks in order; refuted by kernel_shape 1x1 on 2x2 weights and by weights with two channels on an image with one.
* **C131 An accepted proof of Gemm carries A' * B' + C** — model: gemm_layer (Model/Gemm.v), with the prover's product and the challenges as arguments. Proof: Entry by entry; refuted by a 2x1 bias beside a 2x2 product, which is added along the rows; exact for all other biases, up to a wrong product accepted by Freivalds (C18).
* **C132 ConvTranspose is the ONNX transposed convolution** — model: ct_build, ct_sums, infer_conv_transpose (Model/ConvTranspose.v), conv_transpose_layer (Model/ConvTransposeLayer.v). Proof: The inverse mapping picks the one image element that reaches an output through a kernel element, so the loops compute the scattered sum; then the exactness of the rescaling (C11).
* **C133 An unsupported ConvTranspose is refused** — model: As C132. Proof: Refuted by an output_shape attribute, which only the shape inference reads; every other unsupported or inconsistent node is refused.
* **C134 MaxPool gives the largest element under each window** — model: setup_maxpooling, window_values (Model/MaxPool.v), maxpool_layer (Model/MaxPoolLayer.v). Proof: The taps are exactly the rows and columns under the window; then C08 at each window.
* **C135 A valid MaxPool node has its ONNX shape and meaning** — model: As C134, with infer_maxpool. Proof: Refuted by ceil_mode, by dilations and by a dilated window over padding only; the shapes agree without ceil_mode and dilations.
* **C136 Max and Min take the extreme of all operands** — model: compare_layer, infer_compare (Model/Elementwise.v). Proof: Refuted by a third operand and by a first operand that is broadcast; for two operands exact through the gadgets of C08 and C09 at each pair.
* **C137 Mul is the broadcast product** — model: mul_layer (Model/Elementwise.v). Proof: Broadcast pairs of C48, then the rescaling of C11 at each element.
* **C138 Div is the broadcast quotient** — model: validate_divisors, div_layer (Model/Elementwise.v). Proof: Refuted by a fractional divisor, of which only the integer part enters the circuit, and by 0/2 at the default widths; exact when the remainder widths are multiples of the chunk.
* **C139 BatchNormalization scales and shifts each channel** — model: reshape_channel_vector, batchnorm_layer (Model/Elementwise.v). Proof: The reshaped vectors broadcast to the channel coordinate; then as C137.
* **C140 Neg is negation** — model: neg_layer (Model/Elementwise.v). Proof: Elementwise.
* **C141 Reshape keeps the elements and gives the ONNX shape** — model: infer_reshape (inference), reshape (layer), over infer_reshape_shape (Model/Shapes.v), all in Model/Reshaping.v. Proof: Invariant of the loop over the target: product, place and number of -1. False for a 0 in the target: the layer refuses it; proved by a witness, the rest by equality with the relation reshapes_to of Spec/Reshaping.v.
* **C142 Flatten keeps the elements and gives the ONNX shape** — model: infer_flatten, flatten (Model/Reshaping.v). Proof: False for axes below zero: witness. The rest by product of the two halves.
* **C143 Squeeze removes exactly the requested axes** — model: resolve_axes, layer_axes, infer_squeeze, squeeze (Model/Reshaping.v). Proof: False for an initializer without elements: witness. The rest by induction on the shape, against the relation squeezed.
* **C144 Unsqueeze inserts exactly the requested axes** — model: infer_unsqueeze, unsqueeze, place_dims (Model/Reshaping.v). Proof: Induction on the output rank with the number of listed axes still to come; the input is the output squeezed.
* **C145 Range is the arithmetic progression** — model: range_build, range_layer, infer_range, load_scalar (Model/Reshaping.v). Proof: False for fractional numbers, which the circuit truncates: witness. For integers induction on the length; the saturating sum never saturates before the limit.
* **C146 Shape gives the dimensions of its input** — model: shape_build, shape_layer, infer_shape_op (Model/Reshaping.v). Proof: Equality with the sublist of Spec/Reshaping.v.
* **C147 ConstantOfShape fills the requested shape with the given value** — model: fill_value, constant_of_shape (Model/Reshaping.v). Proof: False for fractional values, which are truncated. For integers by computation on repeat.
* **C148 MatMul is the product of each pair of matrices** — model: matmul_2d_core, apply_2d, apply_nd_batched, matmul_layer, infer_matmul (Model/MatMul.v). Proof: Every slice is the matrix of a batch position (row-major index of the batch coordinates), so the layer is Gemm's product (C131) slice by slice; the output is their concatenation. False for batch axes that need broadcasting: witness.
* **C149 A GridSample with a computed grid carries the interpolated values** — model: dynamic_element, gridsample_dynamic (Model/GridSampleCircuit.v). Proof: False: the hint supplies the result, the corners and the weights, and nothing ties the corners to the image or the weights to the grid. For every output of n_bits-bit values the assignment corner = value, weight = scale is accepted. What remains is the range of the values.
* **C150 A bilinear GridSample with a constant grid is the interpolated image** — model: bilinear_corners_1d, build_bilinear_per_output, bilinear_element, gridsample_bilinear ; gridsample_hint, field_to_i64 (Model/GridSample.v, Model/GridSampleCircuit.v, Model/GridSampleHint.v). Proof: Along one axis the corners and weights are the shares (hat function) of the two pixels around the clamped point; a corner that is not the right pixel has weight zero. The range check of the remainder then fixes the quotient, which is what the layer's hint computes when no pixel is negative. False for negative results, zeros at the edge, reflection and widths the chunk does not divide: witnesses.
* **C151 A nearest GridSample reads the nearest pixel** — model: unnormalize, reflect_coord, apply_padding, nearest_px, build_nearest_index_map, gridsample_nearest, infer_gridsample (Model/GridSample.v). Proof: Rounding commutes with clamping; the reflected point inside the image is unique, so the code's fold by the period is the specification's. Rational coordinates instead of f64; points half-way between pixels are left open.
