{
 "claims": [
  {
   "property": "C01",
   "status": "proved",
   "theorems": [
    "C01_range_check_sound",
    "C01_bit_range_check_sound"
   ],
   "note": ""
  },
  {
   "property": "C02",
   "status": "partial",
   "theorems": [
    "C02_range_check_all_widths_refuted",
    "C02_goldilocks_18_bit_remainder_refuted",
    "C02_range_check_accepted_set_partial",
    "C02_rounded_meaning"
   ],
   "note": "REFUTED: when the chunk size does not divide the width, negative values are accepted (default chunk 12, widths 18 and 64). The exact accepted set is proved for all widths."
  },
  {
   "property": "C03",
   "status": "proved",
   "theorems": [
    "C03_range_check_complete",
    "C03_bit_range_check_complete",
    "C03_width_limits"
   ],
   "note": ""
  },
  {
   "property": "C04",
   "status": "proved",
   "theorems": [
    "C04_range_table_sound",
    "C04_function_table_sound",
    "C04_rescale_circuit_sound"
   ],
   "note": ""
  },
  {
   "property": "C05",
   "status": "proved",
   "theorems": [
    "C05_range_table_complete",
    "C05_function_table_complete",
    "C05_honest_circuit_complete"
   ],
   "note": ""
  },
  {
   "property": "C06",
   "status": "partial",
   "theorems": [
    "C06_division_unique",
    "C06_division_pow2_unique",
    "C06_division_by_one",
    "C06_default_parameters_refuted",
    "C06_division_pow2_values_partial",
    "C06_division_off_by_one_partial"
   ],
   "note": "REFUTED at the default parameters (remainder width not a multiple of the chunk size): 64 quotients are accepted. Exactness proved when the chunk size divides the width; for all widths the exact set of accepted quotients (powers of two) or an off-by-one bound (other divisors) is proved."
  },
  {
   "property": "C07",
   "status": "proved",
   "theorems": [
    "C07_division_complete",
    "C07_division_pow2_complete"
   ],
   "note": ""
  },
  {
   "property": "C08",
   "status": "partial",
   "theorems": [
    "C08_max_exact",
    "C08_max_complete",
    "C08_default_parameters_refuted"
   ],
   "note": "REFUTED at the default width 64 with chunk 12. Exactness proved when the chunk size divides the width; completeness for all widths."
  },
  {
   "property": "C09",
   "status": "partial",
   "theorems": [
    "C09_min_exact",
    "C09_min_complete",
    "C09_default_parameters_refuted"
   ],
   "note": "REFUTED at the default width 64 with chunk 12. Exactness proved when the chunk size divides the width; completeness for all widths."
  },
  {
   "property": "C10",
   "status": "partial",
   "theorems": [
    "C10_relu_exact",
    "C10_clip_exact",
    "C10_relu_complete",
    "C10_clip_complete",
    "C10_default_parameters_refuted",
    "C10_relu_candidates_partial"
   ],
   "note": "REFUTED at the default width 64 with chunk 12. Exactness proved when the chunk size divides the width; completeness for all widths; for all widths an accepted ReLU output is 0 or the input."
  },
  {
   "property": "C11",
   "status": "partial",
   "theorems": [
    "C11_rescale_exact",
    "C11_rescale_complete",
    "C11_layer_output_exact",
    "C11_layer_output_complete",
    "C11_zero_bits_rejected",
    "C11_default_parameters_refuted"
   ],
   "note": "REFUTED at the default parameters. Exactness proved when the chunk size divides both widths; completeness for all widths."
  },
  {
   "property": "C12",
   "status": "partial",
   "theorems": [
    "C12_greater_negative_refuted",
    "C12_greater_unsound_refuted",
    "C12_comparison_accepts_partial",
    "C12_greater_honest_partial",
    "C12_greater_large_values_partial"
   ],
   "note": "REFUTED: the layers compare field representatives, so -1 > 0 even with an honest prover, and a malicious prover can use the second n-bit representative of a small value. The exact accepted set is proved; correctness is proved for honest runs on non-negative values and for values with a single representative."
  },
  {
   "property": "C13",
   "status": "partial",
   "theorems": [
    "C13_topk_refuted",
    "C13_topk_default_width_refuted",
    "C13_topk_accepts_partial",
    "C13_top1_exact"
   ],
   "note": "REFUTED: outputs need not be in descending order or distinct, and at the default width the maximum can be skipped. The exact accepted set is proved; for k = 1 with an exact range check the full property is proved."
  },
  {
   "property": "C14",
   "status": "partial",
   "theorems": [
    "C14_exp_accepts_partial",
    "C14_exp_not_determined_refuted"
   ],
   "note": "REFUTED: the output is neither range checked nor determined (input 0 accepts exp(0) and exp(0) - 1 ulp). The exact accepted set is proved."
  },
  {
   "property": "C15",
   "status": "partial",
   "theorems": [
    "C15_pow_negative_refuted",
    "C15_pow_square_partial"
   ],
   "note": "REFUTED: for negative exponents every output in range is accepted. For exponent 2 the exact accepted set is proved."
  },
  {
   "property": "C16",
   "status": "partial",
   "theorems": [
    "C16_average_pool_exact",
    "C16_average_pool_refuted",
    "C16_average_pool_values_partial",
    "C16_reduce_mean_exact",
    "C16_reduce_mean_refuted",
    "C16_reduce_mean_negative_incomplete_refuted"
   ],
   "note": "REFUTED for window sizes that are not powers of two at the default chunk size; ReduceMean lacks an upper check and cannot be proved for negative sums. Exactness proved when the residual width is a multiple of the chunk size, or (average pooling) the window size is a power of two."
  },
  {
   "property": "C17",
   "status": "partial",
   "theorems": [
    "C17_goldilocks_signed_keys_refuted",
    "C17_goldilocks_collisions_partial",
    "C17_bn254_keys_distinct",
    "C17_collision_free_table_complete"
   ],
   "note": "REFUTED on Goldilocks: keys -1 and 0 agree modulo 2^32, so an honest table is rejected. Proved on BN254 and for collision-free keys."
  },
  {
   "property": "C18",
   "status": "proved",
   "theorems": [
    "C18_freivalds_complete",
    "C18_freivalds_sound",
    "C18_matrix_multiplication",
    "C18_dimensions_checked"
   ],
   "note": ""
  },
  {
   "property": "C19",
   "status": "proved",
   "theorems": [
    "C19_sumcheck_complete",
    "C19_sum_is_cube_sum",
    "C19_evaluate"
   ],
   "note": "Any field in which 2 is not 0, any transcript."
  },
  {
   "property": "C20",
   "status": "proved",
   "theorems": [
    "C20_false_sum_needs_lucky_challenge",
    "C20_adaptive_prover_bound",
    "C20_degree"
   ],
   "note": "Any field in which 2 is not 0.  The interactive protocol against an adaptive prover, and the per-round statement for any transcript; that the hash makes challenges unpredictable is outside the model."
  },
  {
   "property": "C21",
   "status": "partial",
   "theorems": [
    "C21_completeness_partial",
    "C21_wide_output_refuted"
   ],
   "note": "REFUTED for circuits with more outputs than any layer has inputs: the prover's scratch assertion panics (C21_wide_output_refuted, all such circuits). Proved for all other circuits whose layers have at least one input variable (the circuit loader guarantees it), any number of lanes, inputs and public inputs, any transcript. Vanilla scheme, prime field, one process; the commitment's opening is replaced by the truth of the verifier's two claims about the inputs."
  },
  {
   "property": "C22",
   "status": "proved",
   "theorems": [
    "C22_soundness"
   ],
   "note": "Prime-field vanilla scheme. The prover is any function of the challenges it has seen; the bound counts the challenge vectors drawn from any finite duplicate-free set S. The polynomial commitment's opening is abstracted: acceptance requires the two claims about the inputs to be true. The transcript is the ideal one (challenges independent of the prover)."
  },
  {
   "property": "C23",
   "status": "partial",
   "theorems": [
    "C23_zero_claim_partial",
    "C23_accepted_violation_refuted"
   ],
   "note": "REFUTED: no verification path compares the claimed value with zero, so the honest prover's proof for a violating witness is accepted under every transcript (C23_accepted_violation_refuted). Proved part: with claimed value 0, a circuit with a non-zero output is accepted only for a small part of the challenges."
  },
  {
   "property": "C24",
   "status": "proved",
   "theorems": [
    "C24_parallel_is_sequential"
   ],
   "note": ""
  },
  {
   "property": "C25",
   "status": "proved",
   "theorems": [
    "C25_build_eq_with_buf",
    "C25_eq_eval_at",
    "C25_build_eq",
    "C25_jolt_tables",
    "C25_single_entry",
    "C25_eq_vec"
   ],
   "note": ""
  },
  {
   "property": "C26",
   "status": "proved",
   "theorems": [
    "C26_eval_reverse_order",
    "C26_fix_variables",
    "C26_fix_top_variable",
    "C26_evaluate_jolt",
    "C26_evaluate_with_buffer",
    "C26_interpolate",
    "C26_extension"
   ],
   "note": ""
  },
  {
   "property": "C27",
   "status": "partial",
   "theorems": [
    "C27_fix_bottom_variable_refuted",
    "C27_fix_bottom_variable_partial"
   ],
   "note": "REFUTED: the routine adds to entry i instead of entry 2i, so already for 4 entries the result is wrong. The exact set of tables on which it is right is proved."
  },
  {
   "property": "C28",
   "status": "proved",
   "theorems": [
    "C28_evaluate",
    "C28_degree_one_quotient",
    "C28_root_vanishing_quotient",
    "C28_product_of_roots",
    "C28_eq_univariate"
   ],
   "note": ""
  },
  {
   "property": "C29",
   "status": "proved",
   "theorems": [
    "C29_open_complete",
    "C29_range_complete",
    "C29_single_leaf_cannot_be_opened"
   ],
   "note": ""
  },
  {
   "property": "C30",
   "status": "proved",
   "theorems": [
    "C30_path_binding",
    "C30_range_binding"
   ],
   "note": ""
  },
  {
   "property": "C31",
   "status": "partial",
   "theorems": [
    "C31_position_refuted",
    "C31_index_alias_refuted",
    "C31_position_partial"
   ],
   "note": "REFUTED: there is no domain separation between leaves and inner nodes and no check of path length or index size, so an inner node passes as a leaf and index + 2^length is accepted too. Proved: with a path of the tree's depth the leaf is the one at index modulo the number of leaves, or a collision is exhibited."
  },
  {
   "property": "C32",
   "status": "partial",
   "theorems": [
    "C32_primitives",
    "C32_containers",
    "C32_enum",
    "C32_field",
    "C32_layered_circuit",
    "C32_flat_circuit_partial",
    "C32_public_input_gate_refuted",
    "C32_gate_type_refuted",
    "C32_opening",
    "C32_truncation",
    "C32_headers",
    "C32_witness_file"
   ],
   "note": "REFUTED for two parts of the prover's flat circuit: a mul or add gate with a public-input coefficient is written but panics on read, and gate_type is never written, so uni gates come back with type 0. Proved for every primitive, container, enum, field element, layered circuit, witness file and opening, and for flat circuits whose gates avoid those two cases. Truncated inputs are always an error, never a shorter value."
  },
  {
   "property": "C33",
   "status": "proved",
   "theorems": [
    "C33_modulus_prime",
    "C33_arithmetic_exact",
    "C33_inverse",
    "C33_power",
    "C33_conversions",
    "C33_serialise_round_trip"
   ],
   "note": ""
  },
  {
   "property": "C34",
   "status": "partial",
   "theorems": [
    "C34_constructors_canonical_refuted",
    "C34_bad_element",
    "C34_uniform_bytes_partial",
    "C34_from_u32_partial",
    "C34_deserialise_partial"
   ],
   "note": "REFUTED: from_uniform_bytes of ff ff ff ff is the non-canonical element 2^31, on which negation underflows. Every other constructor input is proved canonical."
  },
  {
   "property": "C35",
   "status": "proved",
   "theorems": [
    "C35_modulus_prime",
    "C35_add",
    "C35_sub",
    "C35_mul",
    "C35_neg",
    "C35_equality",
    "C35_conversions",
    "C35_serialise_round_trip",
    "C35_deserialise_canonical"
   ],
   "note": ""
  },
  {
   "property": "C36",
   "status": "partial",
   "theorems": [
    "C36_inverse_unbounded_partial",
    "C36_inverse_partial",
    "C36_inverse_of_power_of_two"
   ],
   "note": "Proved for the algorithm with unbounded coefficients (total correctness on every u64) and for the code up to a fault. Missing: the 128-bit coefficients c and d never overflow; the best local bound is about 2^134, and the code's own comments leave the bound open."
  },
  {
   "property": "C37",
   "status": "partial",
   "theorems": [
    "C37_challenge_binds_partial",
    "C37_messages_bound_partial",
    "C37_any_length_partial",
    "C37_first_commitment_partial",
    "C37_hash_chain",
    "C37_nothing_lost",
    "C37_commitment_forgets",
    "C37_binding_refuted"
   ],
   "note": "REFUTED for every hash function: append_commitment replaces the digest by a hash of the commitment alone, so everything before a commitment is forgotten.  Partial: histories without commitments, or with one at the start, bind every message up to a hash collision; the hash function is a parameter."
  },
  {
   "property": "C38",
   "status": "proved",
   "theorems": [
    "C38_bytes_round_trip",
    "C38_file_round_trip",
    "C38_compressed_file_partial"
   ],
   "note": "zstd, the msgpack codec and the buffering of the readers are parameters with the assumptions stated in Spec/Io.v.  A compressed file needs the decoder to have read its whole payload (C38_compressed_file_partial)."
  },
  {
   "property": "C39",
   "status": "partial",
   "theorems": [
    "C39_burst",
    "C39_four_bytes",
    "C39_file_burst_partial",
    "C39_file_refuted",
    "C39_header_refuted"
   ],
   "note": "Proved for deserialize_from_bytes.  REFUTED for deserialize_from_file, whose checksum covers only the bytes the buffered reader happened to read, and for the header, which no checksum covers: one flipped bit of the magic number makes the file decode as raw msgpack."
  },
  {
   "property": "C40",
   "status": "partial",
   "theorems": [
    "C40_bundle_round_trip_partial",
    "C40_write_succeeds",
    "C40_frame_refuted",
    "C40_flush_refuted"
   ],
   "note": "REFUTED: an uncompressed blob that starts with zstd's magic number is decompressed when read, and a compressed write whose final flush fails reports success and leaves an empty circuit.  Partial: round trip in all other cases."
  },
  {
   "property": "C41",
   "status": "partial",
   "theorems": [
    "C41_crash_safe_partial",
    "C41_crash_reader_partial",
    "C41_existing_untouched",
    "C41_circuit_reader_refuted",
    "C41_power_loss_refuted"
   ],
   "note": "REFUTED for read_circuit_blob, which reads a half-written circuit, and for a power loss, since nothing is synced.  Partial: read_bundle at every state between two file system calls (uncompressed with any faults, or compressed without faults)."
  },
  {
   "property": "C42",
   "status": "proved",
   "theorems": [
    "C42_round_trip",
    "C42_encoding",
    "C42_decoding"
   ],
   "note": "Proved for every positive modulus and every integer in the representable range, in both directions."
  },
  {
   "property": "C43",
   "status": "proved",
   "theorems": [
    "C43_tolerance",
    "C43_large_tolerance",
    "C43_expected_inputs"
   ],
   "note": ""
  },
  {
   "property": "C44",
   "status": "partial",
   "theorems": [
    "C44_public_inputs_partial",
    "C44_one_witness",
    "C44_later_witnesses_refuted",
    "C44_m31_refuted",
    "C44_extracted_outputs"
   ],
   "note": "REFUTED: the parser ignores num_witnesses, so a file cut after the first witness is accepted; and the element size used for M31 does not match the writer. Proved for one witness at any position and for files with whole witnesses."
  },
  {
   "property": "C45",
   "status": "proved",
   "theorems": [
    "C45_accounting",
    "C45_failures",
    "C45_exit_status",
    "C45_parallel",
    "C45_witness_files",
    "C45_unique_paths"
   ],
   "note": "Sequential and parallel batch runs: every job is counted once, failures are collected, the exit status reflects them, result paths are kept apart. Jobs are assumed not to read each other's files; paths are compared as strings."
  },
  {
   "property": "C46",
   "status": "partial",
   "theorems": [
    "C46_total_order_partial",
    "C46_numbers",
    "C46_flattened",
    "C46_deterministic",
    "C46_panics",
    "C46_non_ascii_refuted"
   ],
   "note": "REFUTED: a map key whose last non-digit character is not ASCII makes the comparison panic, and runs of digits of 2^64 or more are not compared by value. For all other keys the order is proved total, numeric, independent of the map's iteration order."
  },
  {
   "property": "C47",
   "status": "proved",
   "theorems": [
    "C47_topological_sort",
    "C47_no_order_on_a_cycle",
    "C47_topo_order",
    "C47_self_loop_accepted"
   ],
   "note": ""
  },
  {
   "property": "C48",
   "status": "partial",
   "theorems": [
    "C48_broadcast_shape_partial",
    "C48_zero_dimension_refuted",
    "C48_commutative",
    "C48_idempotent",
    "C48_operands_expand",
    "C48_element_read"
   ],
   "note": "REFUTED for zero dimensions: (0, 1) broadcasts to 1 instead of 0. Proved for shapes without zero dimensions; commutativity and idempotence for all shapes."
  },
  {
   "property": "C49",
   "status": "proved",
   "theorems": [
    "C49_ravel_is_row_major",
    "C49_unravel_ravel",
    "C49_ravel_unravel"
   ],
   "note": ""
  },
  {
   "property": "C50",
   "status": "proved",
   "theorems": [
    "C50_normalize_axes"
   ],
   "note": ""
  },
  {
   "property": "C51",
   "status": "proved",
   "theorems": [
    "C51_get_inputs",
    "C51_total_size",
    "C51_lookup"
   ],
   "note": ""
  },
  {
   "property": "C52",
   "status": "proved",
   "theorems": [
    "C52_lanes",
    "C52_faults"
   ],
   "note": "Both directions: results and faults.  Simplification: a random coefficient is one value per lane for the whole run, instead of a fresh draw per gate."
  },
  {
   "property": "C53",
   "status": "partial",
   "theorems": [
    "C53_packing_keeps_witnesses",
    "C53_blocks",
    "C53_to_simd",
    "C53_empty_witness_refuted"
   ],
   "note": "REFUTED for witnesses without any values, where the packing divides by zero. Proved for all other witness collections, at every lane count."
  },
  {
   "property": "C54",
   "status": "partial",
   "theorems": [
    "C54_same_function_partial",
    "C54_same_function_refuted"
   ],
   "note": "REFUTED for public inputs used as coefficients of additions or multiplications: the layered evaluator multiplies by the public input, the flattened circuit by zero.  Partial: circuits with one-input segments, constant coefficients (public inputs in constant gates only) and the two custom gates the prover knows."
  },
  {
   "property": "C55",
   "status": "partial",
   "theorems": [
    "C55_no_index_faults_partial",
    "C55_constraint_values_partial",
    "C55_sizes",
    "C55_no_index_faults_refuted"
   ],
   "note": "REFUTED: validate accepts circuits whose gates name public inputs that do not exist, or that announce more outputs than they compute, and evaluation then panics.  Partial: totality when these two conditions hold."
  },
  {
   "property": "C56",
   "status": "proved",
   "theorems": [
    "C56_meaning",
    "C56_compose",
    "C56_in_place",
    "C56_validate",
    "C56_compose_total",
    "C56_compose_valid",
    "C56_identity"
   ],
   "note": "Composition needs the second mapping to send no two inputs to the same place, which validate checks; an example shows that it fails otherwise."
  },
  {
   "property": "C57",
   "status": "proved",
   "theorems": [
    "C57_union_find",
    "C57_representative"
   ],
   "note": ""
  },
  {
   "property": "C58",
   "status": "proved",
   "theorems": [
    "C58_priority_queue"
   ],
   "note": ""
  },
  {
   "property": "C59",
   "status": "proved",
   "theorems": [
    "C59_pool",
    "C59_pool_stable"
   ],
   "note": ""
  },
  {
   "property": "C60",
   "status": "proved",
   "theorems": [
    "C60_bucket_sort",
    "C60_key_out_of_range"
   ],
   "note": ""
  },
  {
   "property": "C61",
   "status": "proved",
   "theorems": [
    "C61_rescale_exact",
    "C61_rescale_floor",
    "C61_rescale_array",
    "C61_rescale_below_offset"
   ],
   "note": ""
  },
  {
   "property": "C62",
   "status": "proved",
   "theorems": [
    "C62_padding",
    "C62_padding_overflow",
    "C62_multiplicities",
    "C62_split",
    "C62_split_out_of_range"
   ],
   "note": ""
  },
  {
   "property": "C63",
   "status": "partial",
   "theorems": [
    "C63_refuted",
    "C63_relu_width_partial"
   ],
   "note": "REFUTED: for one Relu network a proof is accepted and none that states another width is.  Partial: whatever the widths, an accepted Relu is a Relu on inputs below the width in force, at most 18 bits."
  },
  {
   "property": "C64",
   "status": "partial",
   "theorems": [
    "C64_file_and_bytes_refuted",
    "C64_written_agree_partial",
    "C64_raw_agree_partial",
    "C64_envelope_agree_partial"
   ],
   "note": "REFUTED: files shorter than 20 bytes fail, and a declared payload longer than the file is accepted from a file only.  Partial: agreement on everything written plain, on raw content of at least 20 bytes, and on envelopes that fill the file and are read completely."
  },
  {
   "property": "C65",
   "status": "proved",
   "theorems": [
    "C65_prev_power_of_two",
    "C65_next_power_of_two",
    "C65_overflow"
   ],
   "note": ""
  },
  {
   "property": "C66",
   "status": "proved",
   "theorems": [
    "C66_reshape",
    "C66_flatten"
   ],
   "note": ""
  },
  {
   "property": "C67",
   "status": "proved",
   "theorems": [
    "C67_reduction_inputs"
   ],
   "note": ""
  },
  {
   "property": "C68",
   "status": "partial",
   "theorems": [
    "C68_same_gates_partial",
    "C68_same_circuit_partial",
    "C68_same_circuit_refuted"
   ],
   "note": "REFUTED: with nested segments and random coefficients the order of a hash map decides which gate receives which value, so prover and verifier may disagree.  Partial: the same gates in every order, the same circuit without nesting; without random coefficients C54 gives the same function."
  },
  {
   "property": "C69",
   "status": "partial",
   "theorems": [
    "C69_cleanup_refuted",
    "C69_cleanup_partial"
   ],
   "note": "REFUTED: when a write to a blob fails, the blob is not yet registered for removal, so the directory stays and blocks every later write.  Partial: a manifest that cannot be encoded."
  },
  {
   "property": "C70",
   "status": "partial",
   "theorems": [
    "C70_truncated_bytes_partial",
    "C70_truncated_file",
    "C70_truncated_refuted"
   ],
   "note": "REFUTED below four bytes: the prefix is read as raw msgpack, whose first byte 0x4A is the integer 74.  Partial: from the fourth byte on, and for plain files everywhere."
  },
  {
   "property": "C71",
   "status": "partial",
   "theorems": [
    "C71_padding_refuted",
    "C71_trailing_zeros",
    "C71_absorbs_pieces_partial",
    "C71_same_length_partial"
   ],
   "note": "REFUTED: an incomplete chunk is filled up with zeros and no length is absorbed.  Partial: the pieces absorbed are those of the padded message, and messages of the same length have different pieces."
  },
  {
   "property": "C72",
   "status": "proved",
   "theorems": [
    "C72_proof_bytes"
   ],
   "note": ""
  },
  {
   "property": "C73",
   "status": "partial",
   "theorems": [
    "C73_malformed_proof_refuted",
    "C73_answers_partial"
   ],
   "note": "REFUTED: a missing round or a short message panics (expect / index).  Partial: enough rounds of at least three values are always answered."
  },
  {
   "property": "C74",
   "status": "partial",
   "theorems": [
    "C74_two_outputs_refuted",
    "C74_any_output_refuted",
    "C74_perceptron_partial"
   ],
   "note": "REFUTED: quotients of Gemm/Conv/BatchNorm are not range-checked (two outputs accepted for Gemm after Gemm) and transposed tensors are unconstrained.  Partial: exact inference for chains of Gemm and Relu."
  },
  {
   "property": "C76",
   "status": "partial",
   "theorems": [
    "C76_input",
    "C76_output",
    "C76_relu",
    "C76_maxpool",
    "C76_add_sub",
    "C76_cast_reshape",
    "C76_dense_partial",
    "C76_conv_partial",
    "C76_batchnorm_partial"
   ],
   "note": "Full for input, output, Relu, MaxPool, Add, Sub, Cast, Reshape.  Partial for Gemm, Conv, BatchNorm: the relation with a remainder in range; uniqueness of the quotient needs the bound that C74 shows missing.  The proof system itself is idealised."
  },
  {
   "property": "C75",
   "status": "partial",
   "theorems": [
    "C75_reshape_refuted",
    "C75_flatten_refuted",
    "C75_result_refuted",
    "C75_accepted_partial"
   ],
   "note": "REFUTED: rejected for a pooling after a reshape, for flattened feature maps whose padded size differs from the dense layer's, and for a constant operand named result.  Partial: accepted for every other model of the modelled operations (Gemm, Conv, Relu, MaxPool, BatchNorm, Add, Sub, Cast, Reshape).  The proof system is idealised; a malformed product node counts as rejection."
  },
  {
   "property": "C77",
   "status": "partial",
   "theorems": [
    "C77_refuted",
    "C77_perceptron_partial",
    "C77_flatten_partial",
    "C77_ends",
    "C77_dense",
    "C77_conv",
    "C77_batchnorm",
    "C77_relu",
    "C77_maxpool",
    "C77_add_sub",
    "C77_cast_reshape"
   ],
   "note": "REFUTED: flattened feature maps are interleaved (HWC) while dense weights are in ONNX order (CHW).  Partial: every single layer is exact, perceptrons and flattenings of one feature map are."
  },
  {
   "property": "C78",
   "status": "partial",
   "theorems": [
    "C78_refuted",
    "C78_sound_partial"
   ],
   "note": "REFUTED: or(x,0), and(x,1), xor(x,0), xor(x,1) drop the check that x is a bit: mark overrides an asserted constraint (builder/basic.rs:235-245).  Partial: the pass is sound for all circuits without and/or/xor, for every relation on hints."
  },
  {
   "property": "C79",
   "status": "proved",
   "theorems": [
    "C79_complete"
   ],
   "note": "First pass (hint_normalize) only; the later passes are separate."
  },
  {
   "property": "C80",
   "status": "partial",
   "theorems": [
    "C80_sqrt_sound_refuted",
    "C80_sqrt_sound_partial"
   ],
   "note": "REFUTED at the default width: sqrt(0.0) accepts 16384.0, sqrt(-1.0) accepts 0.0.  Partial: exactly the floor when n_bits+1 is a multiple of the chunk."
  },
  {
   "property": "C81",
   "status": "partial",
   "theorems": [
    "C81_sqrt_complete_refuted",
    "C81_sqrt_complete_partial",
    "C81_sqrt_complete_exact_width_partial"
   ],
   "note": "REFUTED: sqrt(2.0) at 35 bits, chunk 12.  Partial: succeeds when n_bits+1 is not a multiple of the chunk; exact criterion otherwise."
  },
  {
   "property": "C82",
   "status": "partial",
   "theorems": [
    "C82_leaky_sound_refuted",
    "C82_leaky_sound_partial"
   ],
   "note": "REFUTED at the default width: x and alpha x both accepted for every x.  Partial: exact when n_bits and the scale exponent are multiples of the chunk."
  },
  {
   "property": "C83",
   "status": "proved",
   "theorems": [
    "C83_leaky_complete"
   ],
   "note": "For scale exponents below 32 and shift exponents below 64, as the code requires."
  },
  {
   "property": "C84",
   "status": "partial",
   "theorems": [
    "C84_hardswish_sound_refuted",
    "C84_hardswish_sound_partial"
   ],
   "note": "REFUTED: the output is not range checked (0 accepts 1/(6 scale)).  Partial: exact characterisation of what is accepted."
  },
  {
   "property": "C85",
   "status": "partial",
   "theorems": [
    "C85_hardswish_complete_refuted",
    "C85_hardswish_complete_partial"
   ],
   "note": "REFUTED: inputs of 13.0 and more.  Partial: -11.0 to 5.0."
  },
  {
   "property": "C86",
   "status": "partial",
   "theorems": [
    "C86_trig_value_refuted",
    "C86_trig_default_width_refuted",
    "C86_trig_sound_partial",
    "C86_trig_complete_partial"
   ],
   "note": "REFUTED: sin(3.0) is sin(1.99...) at scale 2^18; at 64 bits the layer cannot be built.  Partial: value at the clamped input."
  },
  {
   "property": "C87",
   "status": "proved",
   "theorems": [
    "C87_sigmoid_sound"
   ],
   "note": "Error (4K+2)a^2 on y(a^2+e) against a^3 (K=64 at the defaults).  The table is a parameter."
  },
  {
   "property": "C88",
   "status": "partial",
   "theorems": [
    "C88_sigmoid_complete_refuted",
    "C88_sigmoid_complete_partial"
   ],
   "note": "REFUTED at -6.0 with the default configuration: no output is accepted at all.  Partial: exponential below 3."
  },
  {
   "property": "C89",
   "status": "proved",
   "theorems": [
    "C89_tanh_sound"
   ],
   "note": "Error (8K+5)a^2; the table is a parameter."
  },
  {
   "property": "C90",
   "status": "partial",
   "theorems": [
    "C90_tanh_complete_refuted",
    "C90_tanh_complete_partial"
   ],
   "note": "REFUTED at 3.0 with the default configuration: no output is accepted at all.  Partial: exponential at most 5."
  },
  {
   "property": "C91",
   "status": "proved",
   "theorems": [
    "C91_log_sound"
   ],
   "note": "Error (K+6)a; the table is a parameter."
  },
  {
   "property": "C92",
   "status": "partial",
   "theorems": [
    "C92_log_complete_refuted",
    "C92_log_complete_partial"
   ],
   "note": "REFUTED at 16.0 with the default configuration.  Partial: when the table's product is within two units of the input."
  },
  {
   "property": "C93",
   "status": "partial",
   "theorems": [
    "C93_gelu_sound_refuted"
   ],
   "note": "REFUTED: neither the output nor the quotients are range checked."
  },
  {
   "property": "C94",
   "status": "partial",
   "theorems": [
    "C94_gelu_complete_refuted",
    "C94_gelu_complete_partial"
   ],
   "note": "REFUTED at -1.0: negative intermediate values are divided as large field elements.  Partial: non-negative inputs."
  },
  {
   "property": "C95",
   "status": "partial",
   "theorems": [
    "C95_erf_sound_refuted",
    "C95_erf_free_partial",
    "C95_erf_range_partial"
   ],
   "note": "REFUTED: the tolerance of 4.0 exceeds the range of erf; once the rest is satisfied every output in [-1,1] is accepted.  Partial: outputs lie in [-1,1] at exact widths."
  },
  {
   "property": "C96",
   "status": "partial",
   "theorems": [
    "C96_layer_norm_sound_refuted",
    "C96_layer_norm_zero_deviation_partial",
    "C96_layer_norm_sound_partial"
   ],
   "note": "REFUTED: with an inverse deviation of zero every output near beta is accepted (general theorem C96_layer_norm_zero_deviation_partial; at the default configuration the lane (-1.0,1.0) accepts (0.0,0.0)). Proved part: outputs are beta + gamma q within the tolerance, q the deviation from one mean times one inverse deviation of the prover's choice, with a bounded sum of squares. Missing (false): a lower bound on that sum."
  },
  {
   "property": "C97",
   "status": "partial",
   "theorems": [
    "C97_layer_norm_complete_refuted",
    "C97_layer_norm_complete_partial"
   ],
   "note": "REFUTED: the honest prover fails on the lane (-1000.0, 1000.0) at the default configuration because only the inverse deviation is rounded. Proved part: it succeeds when the outputs agree with the rounded inverse deviation within the tolerance."
  },
  {
   "property": "C98",
   "status": "proved",
   "theorems": [
    "C98_softmax_sound"
   ],
   "note": "Error bound n (8K+1) units of the output scale relative to the tabulated exponential; K = 64 at the default. The shift m is any element of the lane within range of the others, not necessarily the maximum."
  },
  {
   "property": "C99",
   "status": "partial",
   "theorems": [
    "C99_softmax_complete_refuted",
    "C99_softmax_complete_partial"
   ],
   "note": "REFUTED: the lane (0.0, -33.0) has no accepted output at the default configuration. Proved part: the honest prover succeeds when all differences from the maximum are below 2^(table bits - 1)."
  },
  {
   "property": "C100",
   "status": "proved",
   "theorems": [
    "C100_transpose_exact"
   ],
   "note": ""
  },
  {
   "property": "C101",
   "status": "partial",
   "theorems": [
    "C101_slice_complete_refuted",
    "C101_slice_exact_partial"
   ],
   "note": "REFUTED: a negative step, with which ONNX reverses an axis, is refused. Proved part: with positive steps and distinct axes, acceptance and meaning are exactly those of ONNX."
  },
  {
   "property": "C102",
   "status": "proved",
   "theorems": [
    "C102_concat_exact",
    "C102_split_exact",
    "C102_split_then_concat"
   ],
   "note": ""
  },
  {
   "property": "C103",
   "status": "partial",
   "theorems": [
    "C103_pad_sound_refuted",
    "C103_pad_value_refuted",
    "C103_pad_exact_partial"
   ],
   "note": "REFUTED twice: the axes input is ignored, so amounts listed for axes (1, 0) are applied to axes (0, 1); a padding value given as the value attribute, or as an input that is not among the weights, is ignored and zeros are used. Proved part: exact acceptance, and exact zero padding of all axes in order."
  },
  {
   "property": "C104",
   "status": "partial",
   "theorems": [
    "C104_gather_axis_refuted",
    "C104_gather_exact_partial",
    "C104_gather_elements_refuted",
    "C104_gather_elements_exact_partial"
   ],
   "note": "REFUTED: Gather accepts an axis up to three above the rank and invents dimensions of size 1; GatherElements with an index tensor larger than the data off the axis reads elements of other rows. Proved part: both are exact otherwise."
  },
  {
   "property": "C105",
   "status": "partial",
   "theorems": [
    "C105_scatter_checked_refuted",
    "C105_scatter_exact_partial"
   ],
   "note": "REFUTED: an index outside the data is accepted and another element is overwritten; a too negative index wraps around. Proved part: exact when all indices are valid, no element is written twice, no dimension is zero and the data has fewer than 2^64 elements."
  },
  {
   "property": "C106",
   "status": "proved",
   "theorems": [
    "C106_tile_exact"
   ],
   "note": "Zero repeats, which ONNX allows, are refused; this is part of the statement."
  },
  {
   "property": "C107",
   "status": "proved",
   "theorems": [
    "C107_expand_exact"
   ],
   "note": ""
  },
  {
   "property": "C108",
   "status": "proved",
   "theorems": [
    "C108_where_runtime_exact",
    "C108_where_runtime_rejects",
    "C108_where_constant_exact"
   ],
   "note": ""
  },
  {
   "property": "C109",
   "status": "proved",
   "theorems": [
    "C109_equal_runtime_exact",
    "C109_equal_runtime_rejects",
    "C109_equal_constant_exact"
   ],
   "note": ""
  },
  {
   "property": "C110",
   "status": "proved",
   "theorems": [
    "C110_and_exact",
    "C110_not_exact",
    "C110_not_rejects"
   ],
   "note": ""
  },
  {
   "property": "C111",
   "status": "partial",
   "theorems": [
    "C111_cast_to_integer_refuted",
    "C111_cast_to_bool_partial",
    "C111_cast_other_partial",
    "C111_cast_rejects"
   ],
   "note": "REFUTED: a cast to an integer type leaves the fixed-point value unchanged, so 1.5 and 1.0 stay different. Proved: BOOL is exact, other supported types are the identity, unsupported types are refused."
  },
  {
   "property": "C112",
   "status": "partial",
   "theorems": [
    "C112_gather_elements_complete_refuted",
    "C112_gather_elements_exact_partial",
    "C112_gather_elements_honest_partial"
   ],
   "note": "REFUTED (completeness): negative elements fail the range check when n_bits is a multiple of the chunk. Proved: exact characterisation of what is accepted, and honest success for elements that are not negative."
  },
  {
   "property": "C113",
   "status": "partial",
   "theorems": [
    "C113_resize_sizes_partial",
    "C113_resize_scales_refuted",
    "C113_resize_scales_partial"
   ],
   "note": "REFUTED for scales: the code uses the ratio of the sizes instead of the given scale. Proved: exact for sizes, and for scales that make the sizes whole. Coordinates are exact rationals in the model; f64 rounding and the tie tolerance 1e-10 are not modelled."
  },
  {
   "property": "C114",
   "status": "partial",
   "theorems": [
    "C114_resize_linear_sound_refuted",
    "C114_resize_linear_complete_refuted",
    "C114_resize_linear_exact_partial",
    "C114_resize_linear_bound_partial",
    "C114_resize_linear_whole_partial",
    "C114_resize_linear_honest_partial"
   ],
   "note": "REFUTED: at the default configuration 63 is accepted for 0, and the honest prover fails on -100.0. Proved: exact characterisation of the accepted outputs, error bound, exactness when the scale's exponent is a multiple of the chunk, honest success for sums that are not negative."
  },
  {
   "property": "C115",
   "status": "partial",
   "theorems": [
    "C115_add_constants_refuted",
    "C115_planned_constants_refuted",
    "C115_planned_constants_partial",
    "C115_other_constants_partial"
   ],
   "note": "REFUTED: constants of operators without a scale plan (Add, Sub, Mul, Clip, ...) enter as their integer part, and a constant shared with an earlier layer enters at that layer's scale. Proved: constants at the planned positions, not used earlier, are scaled and rounded to the nearest."
  },
  {
   "property": "C116",
   "status": "proved",
   "theorems": [
    "C116_add_exact",
    "C116_sub_exact",
    "C116_add_sub_rejects"
   ],
   "note": ""
  },
  {
   "property": "C117",
   "status": "partial",
   "theorems": [
    "C117_bounds_hold_partial",
    "C117_widths_partial",
    "C117_width_least_partial",
    "C117_max_refuted",
    "C117_constant_node_refuted",
    "C117_vector_matmul_refuted",
    "C117_runtime_division_refuted",
    "C117_shared_name_refuted"
   ],
   "note": "REFUTED: Max/Min look only at the first operand, a Constant node is taken to be within 1, a constant vector on the left of MatMul counts its largest entry instead of the sum, a division by a runtime tensor is not bounded, and two layers with the same name share one width. Proved: for models without these patterns (predicate analysable) every value of every tensor is within its analysed bound, for every operator, and each width holds the values and is the least that does."
  },
  {
   "property": "C118",
   "status": "partial",
   "theorems": [
    "C118_honest_partial",
    "C118_power_of_two_refuted"
   ],
   "note": "REFUTED: the width is one bit short when scale times bound is a power of two (a weight of 32 at scale 2^18 with input 1). Proved: the honest prover succeeds whenever scale times bound plus the rounding error is strictly below 2^(n-1)."
  },
  {
   "property": "C119",
   "status": "partial",
   "theorems": [
    "C119_first_layer_partial",
    "C119_chain_refuted"
   ],
   "note": "REFUTED: the analysis takes every rescaled output to be within 1, so a chain of two Gemm layers with weights 2^20 reaches 2^82 on a field budget of 63 bits. Proved: accumulators fit up to and including the first rescaled layer."
  },
  {
   "property": "C120",
   "status": "proved",
   "theorems": [
    "C120_fold_exact",
    "C120_fold_fails"
   ],
   "note": "Over the reals."
  },
  {
   "property": "C121",
   "status": "partial",
   "theorems": [
    "C121_half_exact_partial",
    "C121_close_partial",
    "C121_other_exponents_refuted"
   ],
   "note": "REFUTED: exponents within 1e-9 of one half are rewritten although the functions differ everywhere but at 1. Proved: exact for one half; relative error in the logarithm at most 1e-9."
  },
  {
   "property": "C122",
   "status": "proved",
   "theorems": [
    "C122_guest_reads_what_host_wrote",
    "C122_encoding_injective"
   ],
   "note": "SHA-256 is a parameter. Bytes after the encoding are ignored by the guest."
  },
  {
   "property": "C123",
   "status": "proved",
   "theorems": [
    "C123_hash_binds_model"
   ],
   "note": "Stated with the explicit colliding outputs as the alternative; SHA-256 is a parameter."
  },
  {
   "property": "C124",
   "status": "partial",
   "theorems": [
    "C124_operand_order_refuted",
    "C124_attribute_names_refuted",
    "C124_widths_refuted",
    "C124_binds_partial"
   ],
   "note": "REFUTED: operand order, attribute names and range check widths are not in the canonical form. Proved: scale, operators, rescaling, number of operands and second and third constant operands are determined."
  },
  {
   "property": "C125",
   "status": "partial",
   "theorems": [
    "C125_same_widths_refuted",
    "C125_formula_partial",
    "C125_first_conv_partial"
   ],
   "note": "REFUTED: the guest resets the bound after Gemm, so that a following Relu gets 19 bits where the quantizer chose 24. Proved: same formula on integers; same width for a first convolution with exact weights and no bias."
  },
  {
   "property": "C126",
   "status": "partial",
   "theorems": [
    "C126_zero_scale_refuted",
    "C126_foreign_scale_refuted",
    "C126_sum_wraps_refuted",
    "C126_answers_partial"
   ],
   "note": "REFUTED: aborts for base 0, accepts a scale unequal to base^exponent, and channel sums wrap around. Proved: the exact condition under which the guest fails on an encoded model."
  },
  {
   "property": "C127",
   "status": "partial",
   "theorems": [
    "C127_written_partial",
    "C127_older_formats_partial",
    "C127_checksum_refuted",
    "C127_length_refuted"
   ],
   "note": "REFUTED: the checksum is not verified, and a declared length near 2^64 panics. Proved: all three formats are read back as written."
  },
  {
   "property": "C128",
   "status": "proved",
   "theorems": [
    "C128_conv_sound",
    "C128_convolution_defined"
   ],
   "note": "For all operands that fit, all strides and pads, with widths that are multiples of the chunk size (C11). The sums at twice the scale are assumed within the range of the rescaling, as in C11. Sizes below 2^31."
  },
  {
   "property": "C129",
   "status": "partial",
   "theorems": [
    "C129_conv_provable_refuted",
    "C129_conv_provable_partial",
    "C129_conv_shape_partial"
   ],
   "note": "REFUTED: padding wider than the kernel passes shape inference and makes the layer fail. Proved: with padding up to the kernel the honest prover succeeds with the convolution; the inferred shape is the actual one."
  },
  {
   "property": "C130",
   "status": "partial",
   "theorems": [
    "C130_conv_checked_refuted",
    "C130_conv_checked_partial"
   ],
   "note": "REFUTED: a smaller kernel_shape silently crops the weights, extra weight channels are ignored. Proved: other ranks, groups, dilations, zero strides and missing pads are refused."
  },
  {
   "property": "C131",
   "status": "partial",
   "theorems": [
    "C131_gemm_refuted",
    "C131_gemm_sound_partial",
    "C131_gemm_complete_partial",
    "C131_gemm_defined",
    "C131_gemm_vectors_partial"
   ],
   "note": "REFUTED: a bias of shape [M,1] is added along the rows when M = N (and refused otherwise). Proved: exact for every other broadcastable bias, unless the Freivalds check has accepted a wrong product (bounded by C18); completeness without the Freivalds check. alpha and beta are taken as equal to 1."
  },
  {
   "property": "C132",
   "status": "proved",
   "theorems": [
    "C132_conv_transpose_exact",
    "C132_conv_transpose_complete",
    "C132_conv_transpose_shape",
    "C132_conv_transpose_group_shape",
    "C132_conv_transpose_defined"
   ],
   "note": "For all operands that fit, with widths that are multiples of the chunk size for soundness (C11). The sums are assumed within the range of the rescaling, as in C11."
  },
  {
   "property": "C133",
   "status": "partial",
   "theorems": [
    "C133_conv_transpose_checked_refuted",
    "C133_conv_transpose_checked_partial"
   ],
   "note": "REFUTED: output_shape decides the inferred shape but the layer ignores it and produces an output of another shape. Proved: every other unsupported or inconsistent attribute or operand listed in ct_refused is refused. auto_pad, which neither reads, is not modelled."
  },
  {
   "property": "C134",
   "status": "proved",
   "theorems": [
    "C134_maxpool_exact",
    "C134_maxpool_complete",
    "C134_maxpool_defined",
    "C134_windows_touch"
   ],
   "note": "Soundness needs a width that is a multiple of the chunk size (C08); the default width is not, see C08. Undilated windows padded by less than the window always touch the image (C134_windows_touch)."
  },
  {
   "property": "C135",
   "status": "partial",
   "theorems": [
    "C135_maxpool_shape_refuted",
    "C135_ceil_mode_ignored_refuted",
    "C135_maxpool_shape_partial"
   ],
   "note": "REFUTED: ceil_mode=1 is ignored by the layer and the shape inference; the shape inference ignores dilations, so its shape differs from the layer's; a dilated window that misses the image gives the constant 0 even when all elements are negative. Proved: without ceil_mode and dilations the shapes are right (and the values, C134)."
  },
  {
   "property": "C136",
   "status": "partial",
   "theorems": [
    "C136_more_operands_refuted",
    "C136_shape_refuted",
    "C136_two_operands_partial",
    "C136_two_operands_complete_partial",
    "C136_shape_partial",
    "C136_defined"
   ],
   "note": "REFUTED: operands after the second are not read, and the announced shape is that of the first operand even when it is broadcast. Proved: for two operands exactness (width a multiple of the chunk) and completeness; the announced shape when the first operand already has the output's shape."
  },
  {
   "property": "C137",
   "status": "proved",
   "theorems": [
    "C137_mul_exact",
    "C137_mul_complete",
    "C137_mul_rejects"
   ],
   "note": "Exactness needs the scale exponent and the proven width to be multiples of the chunk when rescaling; completeness does not."
  },
  {
   "property": "C138",
   "status": "partial",
   "theorems": [
    "C138_fractional_divisor_refuted",
    "C138_default_parameters_refuted",
    "C138_div_exact_partial",
    "C138_div_complete_partial",
    "C138_div_refuses_partial"
   ],
   "note": "REFUTED: a divisor of 5/2 enters the circuit as 2, so 10 is divided to 5, and at the default widths 0/2 is accepted as 2047. Proved: exact for integer divisors whose remainder width is a multiple of the chunk, complete at all widths, other divisors refused."
  },
  {
   "property": "C139",
   "status": "proved",
   "theorems": [
    "C139_batchnorm_exact",
    "C139_batchnorm_complete",
    "C139_batchnorm_defined",
    "C139_batchnorm_refuses"
   ],
   "note": "Exactness under the widths of C137. The folding of the parameters into factor and summand is the batch-normalisation folding theorem of the quantizer."
  },
  {
   "property": "C140",
   "status": "proved",
   "theorems": [
    "C140_neg_exact"
   ],
   "note": "Closed under the global context."
  },
  {
   "property": "C141",
   "status": "partial",
   "theorems": [
    "C141_zero_refuted",
    "C141_reshape_partial",
    "C141_announced_sound",
    "C141_announced_complete",
    "C141_zero_rejected_partial"
   ],
   "note": "REFUTED: the layer refuses a target with a 0, which ONNX and the shape inference accept. Proved: inference sound and complete for all targets; the layer exact for targets without a 0."
  },
  {
   "property": "C142",
   "status": "partial",
   "theorems": [
    "C142_negative_axis_refuted",
    "C142_flatten_partial",
    "C142_flatten_complete_partial",
    "C142_announced_exact_partial"
   ],
   "note": "REFUTED: the layer refuses axes below zero, which ONNX and the shape inference accept. Proved: exact, accepted and as announced for axes from 0 to the rank."
  },
  {
   "property": "C143",
   "status": "partial",
   "theorems": [
    "C143_no_axes_refuted",
    "C143_announced_partial",
    "C143_listed_partial",
    "C143_listed_complete_partial",
    "C143_all_partial",
    "C143_axes_partial"
   ],
   "note": "REFUTED: an initializer without elements removes all unit axes although none is listed and the announced shape keeps them. Proved: exact, complete and as announced in all other cases."
  },
  {
   "property": "C144",
   "status": "proved",
   "theorems": [
    "C144_unsqueeze",
    "C144_unsqueeze_rejects"
   ],
   "note": "Closed under the global context. The axes reach the layer unless they are an initializer without elements (C143_axes_partial)."
  },
  {
   "property": "C145",
   "status": "partial",
   "theorems": [
    "C145_fraction_refuted",
    "C145_range_partial",
    "C145_announced_partial",
    "C145_zero_rejected_partial"
   ],
   "note": "REFUTED: fractional starts, limits and steps are truncated in the circuit and not in the inference. Proved: exact and as announced for 64-bit integers whose difference fits 64 bits."
  },
  {
   "property": "C146",
   "status": "proved",
   "theorems": [
    "C146_shape"
   ],
   "note": "Closed under the global context."
  },
  {
   "property": "C147",
   "status": "partial",
   "theorems": [
    "C147_fraction_refuted",
    "C147_filled_partial",
    "C147_default_partial",
    "C147_negative_rejected_partial"
   ],
   "note": "REFUTED: a fractional value is truncated. Proved: exact for integer values and for no value; negative dimensions refused."
  },
  {
   "property": "C148",
   "status": "partial",
   "theorems": [
    "C148_broadcast_refuted",
    "C148_matmul_sound_partial",
    "C148_matmul_complete_partial",
    "C148_announced_partial",
    "C148_rejected_partial",
    "C148_vector_rejected_partial"
   ],
   "note": "REFUTED: batch axes that need broadcasting (1 against 2) are announced and refused. Proved: exact, complete and as announced when one operand is a single matrix or the batch axes agree and are not empty; everything else refused. The Freivalds alternative is bounded by C18."
  },
  {
   "property": "C149",
   "status": "partial",
   "theorems": [
    "C149_computed_grid_refuted",
    "C149_range_partial"
   ],
   "note": "REFUTED: with a computed grid every output of n_bits-bit values is accepted, whatever the image and the grid. Proved: shape and range of accepted outputs."
  },
  {
   "property": "C150",
   "status": "partial",
   "theorems": [
    "C150_negative_refuted",
    "C150_zeros_refuted",
    "C150_reflection_refuted",
    "C150_default_refuted",
    "C150_bilinear_partial",
    "C150_honest_partial",
    "C150_tie_refuted"
   ],
   "note": "REFUTED: negative results have no proof; zeros are not blended in at the edge; reflection reads the border pixel; at the default configuration other values are accepted; for the value 0 half-way between -1 and 0 the honest prover fails. Proved: exactly the interpolated output is accepted if the chunk divides both widths and the padding is border or the grid lies inside the image, and the honest prover then finds it if no pixel is negative. Rational coordinates instead of f64."
  },
  {
   "property": "C151",
   "status": "proved",
   "theorems": [
    "C151_nearest",
    "C151_announced"
   ],
   "note": "Closed under the global context. Coordinates are rationals instead of f64; points half-way between two pixels are left open."
  }
 ]
}