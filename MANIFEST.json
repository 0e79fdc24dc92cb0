{
 "claims": [
  {
   "property": "C01",
   "status": "proved",
   "theorems": [
    "C01_u256_add",
    "C01_u256_mul"
   ],
   "note": ""
  },
  {
   "property": "C02",
   "status": "proved",
   "theorems": [
    "C02_u256_sub_value",
    "C02_u256_sub_refuted",
    "C02_u256_sub_never_right"
   ],
   "note": "The natural claim is refuted; the exact behaviour is proved."
  },
  {
   "property": "C03",
   "status": "proved",
   "theorems": [
    "C03_u512_add",
    "C03_u512_sub",
    "C03_u512_sub_before_init"
   ],
   "note": ""
  },
  {
   "property": "C04",
   "status": "proved",
   "theorems": [
    "C04_u512_mul",
    "C04_u512_mul_low_halves",
    "C04_u512_mul_large_refuted"
   ],
   "note": ""
  },
  {
   "property": "C05",
   "status": "proved",
   "theorems": [
    "C05_barrett",
    "C05_bound_covers",
    "C05_too_large_refuted",
    "C05_congruent_always"
   ],
   "note": ""
  },
  {
   "property": "C06",
   "status": "proved",
   "theorems": [
    "C06_u256_order",
    "C06_u512_order"
   ],
   "note": ""
  },
  {
   "property": "C07",
   "status": "proved",
   "theorems": [
    "C07_field_ops"
   ],
   "note": ""
  },
  {
   "property": "C08",
   "status": "proved",
   "theorems": [
    "C08_int_nonneg",
    "C08_int_negative_value",
    "C08_int_negative_refuted"
   ],
   "note": "The negative case of the natural claim is refuted; the exact behaviour is proved."
  },
  {
   "property": "C09",
   "status": "proved",
   "theorems": [
    "C09_parse_u256",
    "C09_parse_u512",
    "C09_from_string"
   ],
   "note": ""
  },
  {
   "property": "C10",
   "status": "proved",
   "theorems": [
    "C10_bit_stream",
    "C10_bit_stream_injective",
    "C10_to_gmp",
    "C10_gmp_roundtrip",
    "C10_to_string"
   ],
   "note": ""
  },
  {
   "property": "C11",
   "status": "proved",
   "theorems": [
    "C11_bit_at",
    "C11_testBit",
    "C11_testBit_refuted",
    "C11_testBit_undefined",
    "C11_bitLen"
   ],
   "note": "testBit at positions 64 and 128 is refuted; everything else is proved."
  },
  {
   "property": "C12",
   "status": "proved",
   "theorems": [
    "C12_random_reduced",
    "C12_random_onto_refuted"
   ],
   "note": "Surjectivity is refuted; the exact value is proved."
  },
  {
   "property": "C13",
   "status": "proved",
   "theorems": [
    "C13_modulus_prime",
    "C13_barrett_factor",
    "C13_mod_512",
    "C13_inv_2",
    "C13_residue_table",
    "C13_byte_table"
   ],
   "note": ""
  },
  {
   "property": "C14",
   "status": "proved",
   "theorems": [
    "C14_eval",
    "C14_add",
    "C14_mul",
    "C14_mul_quadratic"
   ],
   "note": ""
  },
  {
   "property": "C15",
   "status": "proved",
   "theorems": [
    "C15_loader_iff",
    "C15_least_bits",
    "C15_wires",
    "C15_sizes",
    "C15_positions_refuted"
   ],
   "note": "Exact characterisation of the accepted files; the literal 'existing positions' claim is refuted."
  },
  {
   "property": "C16",
   "status": "proved",
   "theorems": [
    "C16_value",
    "C16_exact",
    "C16_refuted"
   ],
   "note": "The natural claim is refuted; the exact value and when it agrees are proved."
  },
  {
   "property": "C17",
   "status": "proved",
   "theorems": [
    "C17_power_of_two",
    "C17_other_sizes",
    "C17_input_size",
    "C17_other_sizes_undefined",
    "C17_empty_layer",
    "C17_refuted"
   ],
   "note": "The natural claim is refuted; the exact condition is proved for loading and evaluation. Bounds safety of the honest proving run follows from the completeness theorems."
  },
  {
   "property": "C18",
   "status": "proved",
   "theorems": [
    "C18_evaluate_fast_track",
    "C18_evaluate_zk",
    "C18_zk_refused",
    "C18_loaded"
   ],
   "note": ""
  },
  {
   "property": "C19",
   "status": "proved",
   "theorems": [
    "C19_extension_exists",
    "C19_V_res",
    "C19_V_in"
   ],
   "note": "zk_prover::V_res and zk_verifier::V_in have the same statements as the fast-track functions and are modelled by the same definitions."
  },
  {
   "property": "C20",
   "status": "proved",
   "theorems": [
    "C20_half_tables",
    "C20_prover_output_tables",
    "C20_half_table_sizes",
    "C20_beta_init",
    "C20_zk_beta_init"
   ],
   "note": "Fast-track tables and the zk verifier's half tables, also for blocks. The zk prover uses the fast-track half tables (same statements)."
  },
  {
   "property": "C21",
   "status": "proved",
   "theorems": [
    "C21_direct_relay_layer1",
    "C21_direct_relay_other"
   ],
   "note": "The zk verifier's direct_relay has the same statements and is modelled by the same definition."
  },
  {
   "property": "C22",
   "status": "proved",
   "theorems": [
    "C22_fast_track_predicates",
    "C22_wiring_is_extension",
    "C22_zk_predicates",
    "C22_zk_copy_layer"
   ],
   "note": "Fast-track and zk predicates, all gate types."
  },
  {
   "property": "C23",
   "status": "proved",
   "theorems": [
    "C23_block_predicates",
    "C23_range_end_refuted"
   ],
   "note": "Proved for repeated blocks; refuted for a range gate that ends at the end of its block."
  },
  {
   "property": "C24",
   "status": "proved",
   "theorems": [
    "C24_ready",
    "C24_phase1",
    "C24_phase2",
    "C24_copy_phase1",
    "C24_copy_phase2"
   ],
   "note": ""
  },
  {
   "property": "C25",
   "status": "proved",
   "theorems": [
    "C25_completeness"
   ],
   "note": ""
  },
  {
   "property": "C26",
   "status": "proved",
   "theorems": [
    "C26_any_input_accepted",
    "C26_soundness_refuted",
    "C26_layer_sound",
    "C26_sound_above_copy_layer",
    "C26_accepting_runs_pass",
    "C26_few_is_small"
   ],
   "note": "Soundness of the whole protocol is refuted (any input vector can be passed off); soundness of the reduction from the output to layer 1 is proved against arbitrary provers, with an explicit error bound."
  },
  {
   "property": "C27",
   "status": "proved",
   "theorems": [
    "C27_mask_sum"
   ],
   "note": ""
  },
  {
   "property": "C28",
   "status": "proved",
   "theorems": [
    "C28_completeness"
   ],
   "note": "The pairing groups are modelled as ideal groups of order p (discrete logarithms); the cipher and the point encoding are parameters."
  },
  {
   "property": "C29",
   "status": "proved",
   "theorems": [
    "C29_any_output_accepted",
    "C29_soundness_refuted"
   ],
   "note": "Refuted for every circuit and every outcome of the challenges: the announced mask sum is not checked."
  },
  {
   "property": "C30",
   "status": "proved",
   "theorems": [
    "C30_loaded_accepted",
    "C30_needs_power_of_two",
    "C30_refuted",
    "C30_unknown_type_refuted"
   ],
   "note": "The natural claim is refuted; a sufficient condition on the loaded file is proved, and that power-of-two sizes are necessary."
  },
  {
   "property": "C31",
   "status": "proved",
   "theorems": [
    "C31_one_value",
    "C31_two_values",
    "C31_same_last_refuted",
    "C31_agrees_on_cube",
    "C31_revealed",
    "C31_first_input_refuted"
   ],
   "note": "Layers above layer 1 proved; in layer 1 the second revealed value is the first input value, unmasked."
  },
  {
   "property": "C32",
   "status": "proved",
   "theorems": [
    "C32_vpdR_complete",
    "C32_vpdR_value_unique"
   ],
   "note": "The pairing groups are modelled as ideal groups of order p (discrete logarithms)."
  },
  {
   "property": "C33",
   "status": "proved",
   "theorems": [
    "C33_mask_complete",
    "C33_two_variables_refuted"
   ],
   "note": "The pairing groups are modelled as ideal groups of order p (discrete logarithms). Two variables refuted."
  },
  {
   "property": "C34",
   "status": "proved",
   "theorems": [
    "C34_input_complete"
   ],
   "note": "The pairing groups are modelled as ideal groups of order p (discrete logarithms). n < 31, the range of the int shifts in the code."
  },
  {
   "property": "C35",
   "status": "proved",
   "theorems": [
    "C35_transform",
    "C35_values"
   ],
   "note": "n < 31, the range of the int shifts in the code."
  },
  {
   "property": "C36",
   "status": "proved",
   "theorems": [
    "C36_pre_exp",
    "C36_pre_exp_overflow",
    "C36_g1_exp",
    "C36_g1_exp_reduced",
    "C36_multi_scalar"
   ],
   "note": "The pairing groups are modelled as ideal groups of order p (discrete logarithms)."
  },
  {
   "property": "C37",
   "status": "proved",
   "theorems": [
    "C37_vpdR_accepts_iff",
    "C37_vpdR_last_refuted",
    "C37_input_accepts_iff",
    "C37_input_last_unchecked",
    "C37_input_last_refuted",
    "C37_mask_accepts_iff"
   ],
   "note": "Refuted for vpdR and the input commitment; the exact acceptance conditions of all three schemes are proved."
  },
  {
   "property": "C38",
   "status": "proved",
   "theorems": [
    "C38_file",
    "C38_file_too_big"
   ],
   "note": "sizeof(Ec1) is a parameter."
  },
  {
   "property": "C39",
   "status": "proved",
   "theorems": [
    "C39_random",
    "C39_depends",
    "C39_prefix",
    "C39_empty_refuted"
   ],
   "note": "The block cipher is a parameter; every theorem holds for all ciphers with 128-bit output."
  },
  {
   "property": "C40",
   "status": "proved",
   "theorems": [
    "C40_padding_refuted",
    "C40_collisions",
    "C40_same_kinds",
    "C40_round_polynomials_refuted",
    "C40_layer_points"
   ],
   "note": "The intended claim is refuted; collisions are characterised, and the points of a zk layer are shown to be a function of the transcript before the layer and the layer's commitments."
  },
  {
   "property": "C41",
   "status": "proved",
   "theorems": [
    "C41_halves",
    "C41_mixing_refuted",
    "C41_upper_half",
    "C41_later_upper_constant",
    "C41_exchange",
    "C41_exchange_exists"
   ],
   "note": "Refuted for every cipher, with the exact dependence proved."
  },
  {
   "property": "C42",
   "status": "proved",
   "theorems": [
    "C42_tree_product",
    "C42_tree_meta_refuted",
    "C42_tree_large_refuted",
    "C42_range_output",
    "C42_range_refuted"
   ],
   "note": "The claim is proved for the addition-tree generator up to size 256 with an all-zero meta file; larger sizes, the generator's own meta file and the summation-gate generators are refuted."
  },
  {
   "property": "C43",
   "status": "proved",
   "theorems": [
    "C43_vpdR",
    "C43_mask",
    "C43_input"
   ],
   "note": "The pairing groups are modelled as ideal groups of order p (discrete logarithms). Provers are restricted to linear combinations of key elements with coefficients that do not depend on the secret point (algebraic provers)."
  },
  {
   "property": "C44",
   "status": "proved",
   "theorems": [
    "C44_layer_sound",
    "C44_sound_above_copy_layer",
    "C44_accepting_runs_pass"
   ],
   "note": "The truthfulness hypothesis is needed: C29 refutes the claim without it. The copy layer itself is excluded because its relay challenge is forced to zero (C26)."
  },
  {
   "property": "C45",
   "status": "proved",
   "theorems": [
    "C45_accepted_run"
   ],
   "note": ""
  },
  {
   "property": "C46",
   "status": "proved",
   "theorems": [
    "C46_loader_iff",
    "C46_in_order",
    "C46_end_to_end",
    "C46_tables",
    "C46_order_refuted",
    "C46_wires_refuted",
    "C46_sizes_refuted"
   ],
   "note": "Acceptance is characterised exactly; the intended refusal of unordered files, wild wires and odd sizes is refuted."
  },
  {
   "property": "C47",
   "status": "proved",
   "theorems": [
    "C47_compile",
    "C47_outputs_refuted",
    "C47_order_refuted",
    "C47_expsum_refuted",
    "C47_input_index_refuted",
    "C47_pass_refuted",
    "C47_wrap_refuted",
    "C47_twice_refuted",
    "C47_repeat_refuted",
    "C47_constant_refuted"
   ],
   "note": "Proved for every pair of files the compiler writes; the broader intended claims (outputs, numbering, EXPSUM levels, input numbers, PASS chains, wide numbers, double assignment, other run counts) are refuted with witnesses."
  },
  {
   "property": "C48",
   "status": "proved",
   "theorems": [
    "C48_levels",
    "C48_compiles",
    "C48_end_to_end",
    "C48_outputs",
    "C48_bit_refuted"
   ],
   "note": "Proved for all ordered, regular programs and wirings within the size bound; BIT of two different variables is refuted with a witness."
  },
  {
   "property": "C49",
   "status": "proved",
   "theorems": [
    "C49_program",
    "C49_sound",
    "C49_complete",
    "C49_word_refuted"
   ],
   "note": "Soundness for every run with zero outputs and completeness for all words, against FIPS 180-4; that W_0 is range-checked is refuted with a witness (a collision)."
  },
  {
   "property": "C50",
   "status": "proved",
   "theorems": [
    "C50_wiring",
    "C50_end_to_end",
    "C50_sound",
    "C50_complete",
    "C50_word_refuted",
    "C50_runs",
    "C50_constants_refuted",
    "C50_unchecked_refuted"
   ],
   "note": "Soundness and completeness of the wired tree for all heights, and the whole pipeline from the generators to the verifier; that leaves are range-checked, that the compiled circuit is about SHA-256, and that its outputs are enforced is refuted."
  },
  {
   "property": "C51",
   "status": "proved",
   "theorems": [
    "C51_generates",
    "C51_filter",
    "C51_accepted",
    "C51_runs",
    "C51_end_to_end",
    "C51_coefficients_refuted",
    "C51_test_refuted"
   ],
   "note": "Filter, layout of windows and the whole pipeline for all sizes; that the filter has the given coefficients is refuted for all coefficients that are negative or too large, and for the five circuits of the test."
  },
  {
   "property": "C52",
   "status": "proved",
   "theorems": [
    "C52_numbers_hide_input",
    "C52_first_input_shown",
    "C52_outputs_only_refuted"
   ],
   "note": "Bijection of the mask coefficients with equal numbers for all circuits, inputs and non-degenerate challenges; the first input value is always shown, so hiding of everything but the outputs is refuted. Group elements are not part of the compared record."
  },
  {
   "property": "C53",
   "status": "proved",
   "theorems": [
    "C53_view_hides_input",
    "C53_exponents_used",
    "C53_few_bad_challenges",
    "C53_few_bad_exponents"
   ],
   "note": "Bijection of mask coefficients and exponents with equal full records (numbers, public keys, commitments, opening witnesses); the degenerate challenges and exponents are counted. Group elements are compared by their exponents, so equality is perfect and needs no assumption on the group. The first input value is shown by every run (C52)."
  },
  {
   "property": "C54",
   "status": "proved",
   "theorems": [
    "C54_ready",
    "C54_phase1",
    "C54_phase2"
   ],
   "note": "Both phases and the values returned at the end of a layer, for every layer, as a statement about sums over the hypercube; includes absence of undefined behaviour."
  },
  {
   "property": "C55",
   "status": "proved",
   "theorems": [
    "C55_completeness",
    "C55_zero_gate_with_operand_refuted"
   ],
   "note": "Completeness for all circuits of the class and all challenges; the honest prover is rejected on a zero input gate with a nonzero operand (refuted variant with witness)."
  },
  {
   "property": "C56",
   "status": "proved",
   "theorems": [
    "C56_soundness",
    "C56_error_sum",
    "C56_some_challenge_rejects",
    "C56_any_output_accepted",
    "C56_soundness_without_trust_refuted"
   ],
   "note": "Soundness for arbitrary provers down to the input layer when V_res is computed by the verifier. As written (p -> V_res) every claimed output row is accepted for all challenges: proved as a theorem about all circuits and rows, and as a refutation of the unconditional claim. Challenges are counted in the field."
  },
  {
   "property": "C57",
   "status": "proved",
   "theorems": [
    "C57_ready",
    "C57_phase0",
    "C57_phase1",
    "C57_phase2"
   ],
   "note": "All three phases and the values returned at the end of a layer, for every layer and every number of blocks 2^k with k > 0, as statements about sums over the hypercube; includes absence of undefined behaviour."
  },
  {
   "property": "C58",
   "status": "proved",
   "theorems": [
    "C58_completeness",
    "C58_one_block_refuted",
    "C58_unused_wire_refuted"
   ],
   "note": "Completeness for all block circuits of the class and all challenges; undefined behaviour with one block and with an out-of-range unused wire (refuted variants with witnesses)."
  },
  {
   "property": "C59",
   "status": "proved",
   "theorems": [
    "C59_scaled_outputs_accepted",
    "C59_soundness_as_written_refuted"
   ],
   "note": "The intended soundness is refuted; the attack is proved to succeed for all block circuits of depth at least two, all constants and all challenges."
  },
  {
   "property": "C60",
   "status": "proved",
   "theorems": [
    "C60_soundness",
    "C60_error_sum",
    "C60_repaired_sound",
    "C60_repaired_complete",
    "C60_some_challenge_rejects"
   ],
   "note": "Soundness for arbitrary provers with an explicit count of bad challenges, for the verifier with line 377 corrected and the announced outputs evaluated honestly; the corrected verifier is also complete."
  },
  {
   "property": "C61",
   "status": "proved",
   "theorems": [
    "C61_V_res_parallel"
   ],
   "note": "All interleavings, by a separation argument: what a thread reads and writes is disjoint from what the others write, so every execution equals the threads run in turn."
  },
  {
   "property": "C62",
   "status": "proved",
   "theorems": [
    "C62_phase1_with_barrier",
    "C62_phase1_aligned",
    "C62_phase1_race",
    "C62_phase1_stale_refuted"
   ],
   "note": "The claim for the code as written is refuted for unaligned layers (every completed execution races, and one execution with a wrong table); proved for aligned layers and, with a join added, for all layers."
  },
  {
   "property": "C63",
   "status": "proved",
   "theorems": [
    "C63_phase2_race",
    "C63_phase2_aligned",
    "C63_phase2_unreduced_refuted"
   ],
   "note": "Refutations: a race in every completed execution for all layers with a gate across slices, and a witness of an unreduced entry without a race. Correct tables are not claimed for this function."
  },
  {
   "property": "C64",
   "status": "proved",
   "theorems": [
    "C64_phase1_update",
    "C64_phase2_update",
    "C64_phase2_update_refuted"
   ],
   "note": "Race freedom and the folded tables; phase 2 characterised exactly and refuted. The message sums formed by the same loops are C71."
  },
  {
   "property": "C65",
   "status": "proved",
   "theorems": [
    "C65_complete",
    "C65_odd_accepts_iff",
    "C65_odd_refuted",
    "C65_odd_not_binding",
    "C65_no_variables"
   ],
   "note": "The claim for odd lengths is refuted and characterised exactly; proved for even lengths. The curve arithmetic is replaced by residues as for C32-C37."
  },
  {
   "property": "C66",
   "status": "proved",
   "theorems": [
    "C66_accepts_iff",
    "C66_first_unchecked_refuted",
    "C66_sound",
    "C66_commit_sound"
   ],
   "note": "Acceptance characterised exactly; soundness for provers that combine key elements, counted over the secrets. That each second element is checked is refuted."
  },
  {
   "property": "C67",
   "status": "proved",
   "theorems": [
    "C67_loader_iff",
    "C67_in_order",
    "C67_pass_iff",
    "C67_end_to_end",
    "C67_tables",
    "C67_no_copies_refuted",
    "C67_order_refuted",
    "C67_wires_refuted"
   ],
   "note": "Loader classified exactly; completeness from file to verdict; three intended claims refuted with witnesses."
  },
  {
   "property": "C68",
   "status": "proved",
   "theorems": [
    "C68_loader_iff",
    "C68_end_to_end",
    "C68_too_few",
    "C68_extra_blocks_unchecked",
    "C68_extra_blocks_refuted",
    "C68_zero_gate_refuted"
   ],
   "note": "Loader classified exactly; completeness from file to verdict; too few copies never pass; that all announced outputs are checked is refuted, for the code as written and for the repair of C60."
  },
  {
   "property": "C69",
   "status": "proved",
   "theorems": [
    "C69_loader_iff",
    "C69_same_circuit",
    "C69_gate_lists",
    "C69_in_order",
    "C69_order_refuted"
   ],
   "note": "Loader and gate lists classified exactly; independence of the order of lines refuted."
  },
  {
   "property": "C70",
   "status": "proved",
   "theorems": [
    "C70_same_verdict",
    "C70_completeness",
    "C70_soundness",
    "C70_any_output_accepted",
    "C70_other_inputs_never",
    "C70_one_input_never"
   ],
   "note": "Equality with the traditional verifier on circuits of pure inputs gives completeness and soundness; acceptance of circuits with zero inputs refuted. The completeness is for the messages of the sequential prover; the threads of the prover are C61-C64."
  },
  {
   "property": "C71",
   "status": "proved",
   "theorems": [
    "C71_phase1_messages",
    "C71_phase2_messages",
    "C71_small_round",
    "C71_middle_refuted",
    "C71_middle_edge_refuted"
   ],
   "note": "Outer coefficients for all sizes in phase 1; the middle coefficient for one pair per thread, refuted at two pairs per thread (not reduced) and at eight (over 256 bits)."
  },
  {
   "property": "C72",
   "status": "proved",
   "theorems": [
    "C72_simple",
    "C72_simple_width_refuted",
    "C72_blocked",
    "C72_blocked_meta_refuted",
    "C72_blocked_width_refuted",
    "C72_sum_refuted",
    "C72_sum_depth_one"
   ],
   "note": "Modes 0, 1 and 5 of bin/gen.cpp; mode 3 prints nothing. Depth limited to 402 by the size of the message counters (C42)."
  },
  {
   "property": "C73",
   "status": "proved",
   "theorems": [
    "C73_depth",
    "C73_depth_refuted",
    "C73_depth_stuck_refuted",
    "C73_lines_refuted"
   ],
   "note": "Regular-expression matching is outside the model; lines of the kinds read wrongly are excluded from the positive theorem and refuted one by one."
  },
  {
   "property": "C74",
   "status": "proved",
   "theorems": [
    "C74_product",
    "C74_extension",
    "C74_addition_layer",
    "C74_main_before",
    "C74_first_check",
    "C74_undefined",
    "C74_own_messages_refuted",
    "C74_only_last_check"
   ],
   "note": "Nothing after the undefined read is modelled. The values of messages after the first are constrained only in length."
  },
  {
   "property": "C75",
   "status": "proved",
   "theorems": [
    "C75_generates",
    "C75_outputs",
    "C75_other_sizes",
    "C75_filter_refuted"
   ],
   "note": "The claim that the outputs are the filter is refuted; the exact outputs are proved. The floating-point coefficients are a parameter."
  }
 ]
}