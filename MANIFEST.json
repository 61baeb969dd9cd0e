{
 "claims": [
  {
   "property": "C01",
   "status": "proved",
   "theorems": [
    "C01_add_mod_2_256",
    "C01_sub_mod_2_256",
    "C01_neg_mod_2_256",
    "C01_sub_from_mod_2_256",
    "C01_add_carry",
    "C01_sub_borrow",
    "C01_order",
    "C01_representation_unique"
   ],
   "note": ""
  },
  {
   "property": "C02",
   "status": "proved",
   "theorems": [
    "C02_mul_full",
    "C02_square_full_is_mul_full",
    "C02_mul_u64_full",
    "C02_mul_wrapping",
    "C02_square_wrapping",
    "C02_mul_u64_wrapping",
    "C02_mac_no_u128_overflow"
   ],
   "note": ""
  },
  {
   "property": "C03",
   "status": "proved",
   "theorems": [
    "C03_div_rem_u64",
    "C03_zero_divisor",
    "C03_div_rem",
    "C03_div_rem_unaffected",
    "C03_operators",
    "C03_collision_panics",
    "C03_debug_sound",
    "C03_div_rem_refuted"
   ],
   "note": ""
  },
  {
   "property": "C04",
   "status": "proved",
   "theorems": [
    "C04_mulmod",
    "C04_mulmod_small_modulus",
    "C04_zero_modulus_panics",
    "C04_collision_panics",
    "C04_mulmod_refuted",
    "C04_mulmod_own_prime_panics"
   ],
   "note": ""
  },
  {
   "property": "C05",
   "status": "proved",
   "theorems": [
    "C05_inv_some",
    "C05_inv_none"
   ],
   "note": ""
  },
  {
   "property": "C06",
   "status": "proved",
   "theorems": [
    "C06_inv_mod",
    "C06_inv_mod_small",
    "C06_debug_sound",
    "C06_modulus_one",
    "C06_modulus_zero_panics",
    "C06_own_prime_refuted"
   ],
   "note": ""
  },
  {
   "property": "C07",
   "status": "proved",
   "theorems": [
    "C07_gcd",
    "C07_gcd_small",
    "C07_gcd_debug_sound",
    "C07_gcd_extended",
    "C07_gcd_extended_small",
    "C07_gcd_extended_debug_sound"
   ],
   "note": ""
  },
  {
   "property": "C08",
   "status": "proved",
   "theorems": [
    "C08_shl",
    "C08_shr",
    "C08_bit",
    "C08_counts",
    "C08_leading_zeros",
    "C08_trailing_zeros",
    "C08_bitwise"
   ],
   "note": ""
  },
  {
   "property": "C09",
   "status": "proved",
   "theorems": [
    "C09_from_bytes",
    "C09_to_bytes",
    "C09_roundtrip"
   ],
   "note": ""
  },
  {
   "property": "C10",
   "status": "proved",
   "theorems": [
    "C10_parse",
    "C10_empty",
    "C10_overflow",
    "C10_overflow_accepted",
    "C10_overflow_refuted",
    "C10_invalid",
    "C10_print",
    "C10_roundtrip"
   ],
   "note": ""
  },
  {
   "property": "C11",
   "status": "proved",
   "theorems": [
    "C11_print",
    "C11_parse",
    "C11_roundtrip",
    "C11_invalid_panics",
    "C11_too_long",
    "C11_truncation_refuted",
    "C11_serde_roundtrip"
   ],
   "note": ""
  },
  {
   "property": "C12",
   "status": "proved",
   "theorems": [
    "C12_from_unsigned",
    "C12_from_bool",
    "C12_from_signed",
    "C12_as_unsigned",
    "C12_as_signed",
    "C12_roundtrip"
   ],
   "note": ""
  },
  {
   "property": "C13",
   "status": "proved",
   "theorems": [
    "C13_product",
    "C13_sum_is_one_too_many",
    "C13_sum_refuted"
   ],
   "note": ""
  },
  {
   "property": "C14",
   "status": "proved",
   "theorems": [
    "C14_pow"
   ],
   "note": ""
  },
  {
   "property": "C15",
   "status": "proved",
   "theorems": [
    "C15_redc_general",
    "C15_mul_redc_general",
    "C15_redc",
    "C15_mul_redc",
    "C15_square_redc",
    "C15_to_montgomery",
    "C15_to_montgomery_const",
    "C15_from_to",
    "C15_to_from",
    "C15_mul_mod",
    "C15_large_modulus_refuted"
   ],
   "note": ""
  },
  {
   "property": "C16",
   "status": "proved",
   "theorems": [
    "C16_proth_redc",
    "C16_proth_mul_redc",
    "C16_is_proth"
   ],
   "note": ""
  },
  {
   "property": "C17",
   "status": "proved",
   "theorems": [
    "C17_arithmetic",
    "C17_comparison",
    "C17_sum_product",
    "C17_from_to_uint",
    "C17_to_from_uint",
    "C17_from_uint_reduce",
    "C17_canonical"
   ],
   "note": ""
  },
  {
   "property": "C18",
   "status": "proved",
   "theorems": [
    "C18_moduli_prime",
    "C18_constants",
    "C18_generator_non_square"
   ],
   "note": ""
  },
  {
   "property": "C19",
   "status": "proved",
   "theorems": [
    "C19_inv",
    "C19_debug_sound",
    "C19_field",
    "C19_div",
    "C19_refuted"
   ],
   "note": ""
  },
  {
   "property": "C20",
   "status": "proved",
   "theorems": [
    "C20_pow",
    "C20_pow_value",
    "C20_pow_isize",
    "C20_isize_min_deviation"
   ],
   "note": ""
  },
  {
   "property": "C21",
   "status": "proved",
   "theorems": [
    "C21_root_usize",
    "C21_root_zero",
    "C21_root_u256",
    "C21_root_power_of_two"
   ],
   "note": ""
  },
  {
   "property": "C22",
   "status": "proved",
   "theorems": [
    "C22_square_root"
   ],
   "note": ""
  },
  {
   "property": "C23",
   "status": "proved",
   "theorems": [
    "C23_from_unsigned",
    "C23_from_signed",
    "C23_signed_min_refuted",
    "C23_to_unsigned",
    "C23_to_signed"
   ],
   "note": ""
  },
  {
   "property": "C24",
   "status": "proved",
   "theorems": [
    "C24_invert_batch",
    "C24_zero_panics",
    "C24_src_dst"
   ],
   "note": ""
  },
  {
   "property": "C25",
   "status": "proved",
   "theorems": [
    "C25_series",
    "C25_at",
    "C25_take",
    "C25_skip",
    "C25_skip_past_end_refuted",
    "C25_step_by",
    "C25_step_by_deviation",
    "C25_root_series"
   ],
   "note": ""
  },
  {
   "property": "C26",
   "status": "proved",
   "theorems": [
    "C26_permute_index",
    "C26_permute",
    "C26_debug_panics"
   ],
   "note": ""
  },
  {
   "property": "C27",
   "status": "proved",
   "theorems": [
    "C27_fft_root",
    "C27_ifft",
    "C27_round_trip",
    "C27_field",
    "C27_fft_cofactor",
    "C27_ifft_cofactor_deviation",
    "C27_ifft_cofactor_refuted",
    "C27_debug_length",
    "C27_release_length_refuted"
   ],
   "note": ""
  },
  {
   "property": "C28",
   "status": "proved",
   "theorems": [
    "C28_radix_sqrt",
    "C28_independence"
   ],
   "note": ""
  },
  {
   "property": "C29",
   "status": "proved",
   "theorems": [
    "C29_transpose",
    "C29_panics"
   ],
   "note": ""
  },
  {
   "property": "C30",
   "status": "proved",
   "theorems": [
    "C30_chord_tangent",
    "C30_group",
    "C30_stark_curve"
   ],
   "note": ""
  },
  {
   "property": "C31",
   "status": "proved",
   "theorems": [
    "C31_jacobian",
    "C31_agreement",
    "C31_conversion",
    "C31_mixed_add",
    "C31_mixed_add_deviation",
    "C31_mixed_add_refuted"
   ],
   "note": ""
  },
  {
   "property": "C32",
   "status": "proved",
   "theorems": [
    "C32_wnaf",
    "C32_unique"
   ],
   "note": ""
  },
  {
   "property": "C33",
   "status": "proved",
   "theorems": [
    "C33_multiple",
    "C33_mul",
    "C33_base_mul",
    "C33_double_base_mul",
    "C33_double_base_mul_zero_panics",
    "C33_double_mul_deviation",
    "C33_double_mul_refuted"
   ],
   "note": ""
  },
  {
   "property": "C34",
   "status": "proved",
   "theorems": [
    "C34_public_key",
    "C34_sign_verify",
    "C34_verify_equation",
    "C34_malleable",
    "C34_verify_panics",
    "C34_exceptional_key_panics",
    "C34_sign_total",
    "C34_sign_verify_refuted"
   ],
   "note": ""
  },
  {
   "property": "C35",
   "status": "proved",
   "theorems": [
    "C35_constructor",
    "C35_bad_size",
    "C35_bijective",
    "C35_parent",
    "C35_children",
    "C35_children_partition",
    "C35_children_overflow",
    "C35_sibling",
    "C35_neighbours",
    "C35_last_index_panics",
    "C35_path",
    "C35_path_length",
    "C35_last_common_ancestor",
    "C35_last_common_ancestor_refuted",
    "C35_concat",
    "C35_layer_iteration",
    "C35_layer_range"
   ],
   "note": ""
  },
  {
   "property": "C36",
   "status": "proved",
   "theorems": [
    "C36_commitment",
    "C36_node_hash",
    "C36_bad_leaves",
    "C36_completeness",
    "C36_open_out_of_range"
   ],
   "note": ""
  },
  {
   "property": "C37",
   "status": "proved",
   "theorems": [
    "C37_binding",
    "C37_total",
    "C37_conflicting_leaves",
    "C37_empty_accepted"
   ],
   "note": ""
  },
  {
   "property": "C38",
   "status": "proved",
   "theorems": [
    "C38_proof_size"
   ],
   "note": ""
  },
  {
   "property": "C39",
   "status": "proved",
   "theorems": [
    "C39_agreement",
    "C39_binding",
    "C39_noncanonical_deviation"
   ],
   "note": ""
  },
  {
   "property": "C40",
   "status": "proved",
   "theorems": [
    "C40_counter",
    "C40_field_element",
    "C40_after_write",
    "C40_separation_deviation",
    "C40_seed_deviation"
   ],
   "note": ""
  },
  {
   "property": "C41",
   "status": "proved",
   "theorems": [
    "C41_verify",
    "C41_with_difficulty",
    "C41_challenge_binds",
    "C41_single",
    "C41_parallel",
    "C41_no_deadlock"
   ],
   "note": ""
  },
  {
   "property": "C42",
   "status": "proved",
   "theorems": [
    "C42_evaluate",
    "C42_degree",
    "C42_divide",
    "C42_lde",
    "C42_eq_deviation",
    "C42_new"
   ],
   "note": ""
  },
  {
   "property": "C43",
   "status": "proved",
   "theorems": [
    "C43_graph",
    "C43_prover",
    "C43_collision_deviation",
    "C43_offset_panics",
    "C43_evaluate"
   ],
   "note": ""
  },
  {
   "property": "C44",
   "status": "proved",
   "theorems": [
    "C44_folded_polynomial",
    "C44_prover",
    "C44_agreement",
    "C44_last_layer",
    "C44_other_reductions_panic"
   ],
   "note": ""
  },
  {
   "property": "C45",
   "status": "proved",
   "theorems": [
    "C45_indices",
    "C45_duplicates_deviation"
   ],
   "note": ""
  },
  {
   "property": "C46",
   "status": "proved",
   "theorems": [
    "C46_cells",
    "C46_rows_columns",
    "C46_column_deviation",
    "C46_interpolate"
   ],
   "note": ""
  },
  {
   "property": "C47",
   "status": "proved",
   "theorems": [
    "C47_horizontal",
    "C47_horizontal_sizes",
    "C47_fold",
    "C47_vertical",
    "C47_vertical_panics",
    "C47_vertical_claims_deviation",
    "C47_vertical_crossing_deviation",
    "C47_horizontal_cells",
    "C47_vertical_cells",
    "C47_fold_cells",
    "C47_test",
    "C47_test_only",
    "C47_test_combined"
   ],
   "note": ""
  },
  {
   "property": "C48",
   "status": "proved",
   "theorems": [
    "C48_default_layout",
    "C48_from_expressions",
    "C48_security_bits_deviation",
    "C48_max_proof_size_panics"
   ],
   "note": ""
  },
  {
   "property": "C49",
   "status": "proved",
   "theorems": [
    "C49_degree",
    "C49_poly_refuted",
    "C49_claim",
    "C49_trace_degree",
    "C49_constraints_degree",
    "C49_combine",
    "C49_release"
   ],
   "note": ""
  },
  {
   "property": "C50",
   "status": "proved",
   "theorems": [
    "C50_history",
    "C50_zero_initialized",
    "C50_clone_eq",
    "C50_truncate_drops",
    "C50_double_drop_refuted",
    "C50_resize_leak",
    "C50_allocation",
    "C50_allocation_refuted"
   ],
   "note": ""
  },
  {
   "property": "C51",
   "status": "proved",
   "theorems": [
    "C51_slice",
    "C51_masked",
    "C51_u256",
    "C51_u256_injective",
    "C51_field_element",
    "C51_field_element_injective",
    "C51_slice_binding",
    "C51_singleton_deviation"
   ],
   "note": ""
  },
  {
   "property": "C52",
   "status": "proved",
   "theorems": [
    "C52_u256h",
    "C52_compile_error",
    "C52_field_element",
    "C52_same_as_from_uint"
   ],
   "note": ""
  },
  {
   "property": "C53",
   "status": "proved",
   "theorems": [
    "C53_check",
    "C53_check_constraints",
    "C53_unselected",
    "C53_nested_deviation",
    "C53_specific_deviation"
   ],
   "note": ""
  },
  {
   "property": "C54",
   "status": "proved",
   "theorems": [
    "C54_completeness_claims",
    "C54_trace_arguments",
    "C54_trace_coset",
    "C54_constraint_polynomials",
    "C54_recombine",
    "C54_trace_values",
    "C54_consistency",
    "C54_soundness",
    "C54_quotient",
    "C54_selects",
    "C54_completeness"
   ],
   "note": ""
  },
  {
   "property": "C55",
   "status": "proved",
   "theorems": [
    "C55_channel_trailing",
    "C55_channel_truncated",
    "C55_trailing",
    "C55_truncated"
   ],
   "note": ""
  },
  {
   "property": "C56",
   "status": "proved",
   "theorems": [
    "C56_clone_shifted",
    "C56_parallel"
   ],
   "note": ""
  },
  {
   "property": "C57",
   "status": "proved",
   "theorems": [
    "C57_returned_verifies",
    "C57_completeness_claims",
    "C57_no_claims",
    "C57_completeness",
    "C57_prover_total"
   ],
   "note": ""
  },
  {
   "property": "C58",
   "status": "proved",
   "theorems": [
    "C58_acceptance",
    "C58_binding"
   ],
   "note": ""
  },
  {
   "property": "C59",
   "status": "proved",
   "theorems": [
    "C59_reduce_1",
    "C59_mul",
    "C59_full_mul",
    "C59_full_mul2",
    "C59_proth_redc",
    "C59_mul_redc_exact",
    "C59_mul_redc",
    "C59_mul_redc_refuted"
   ],
   "note": ""
  },
  {
   "property": "C60",
   "status": "proved",
   "theorems": [
    "C60_scale_integer",
    "C60_scale_total",
    "C60_scale_short",
    "C60_scale_field",
    "C60_serde_field",
    "C60_noncanonical_deviation"
   ],
   "note": ""
  },
  {
   "property": "C61",
   "status": "proved",
   "theorems": [
    "C61_standard",
    "C61_in_range",
    "C61_uniform",
    "C61_empty_refuted",
    "C61_empty_inclusive_refuted",
    "C61_field"
   ],
   "note": ""
  },
  {
   "property": "C62",
   "status": "proved",
   "theorems": [
    "C62_check",
    "C62_accepts",
    "C62_periodic",
    "C62_selects",
    "C62_provable"
   ],
   "note": ""
  },
  {
   "property": "C63",
   "status": "proved",
   "theorems": [
    "C63_fib_check",
    "C63_fib_trace",
    "C63_fib",
    "C63_fib_power_refuted",
    "C63_fib_field",
    "C63_mimc_cubic_check",
    "C63_mimc_cubic_trace",
    "C63_hash_function",
    "C63_hash_check",
    "C63_hash_trace",
    "C63_hash",
    "C63_hash_cube_deviation",
    "C63_constant",
    "C63_constant_trace",
    "C63_mimc_cubic",
    "C63_tree_check",
    "C63_tree_trace",
    "C63_tree_provable",
    "C63_tree",
    "C63_tree_refuted",
    "C63_mimc_quadratic_check",
    "C63_mimc_quadratic_trace",
    "C63_mimc_quadratic",
    "C63_vdf_check",
    "C63_vdf_trace",
    "C63_vdf",
    "C63_vdf_cube_refuted"
   ],
   "note": ""
  },
  {
   "property": "C64",
   "status": "proved",
   "theorems": [
    "C64_conversions",
    "C64_felt_layer",
    "C64_hash_refuted",
    "C64_tree_refuted",
    "C64_degenerate_deviation",
    "C64_layer_check",
    "C64_tree_check",
    "C64_tree_provable",
    "C64_tree_completeness",
    "C64_layer_hash",
    "C64_layer_trace",
    "C64_merkle_hash",
    "C64_tree"
   ],
   "note": ""
  },
  {
   "property": "C65",
   "status": "proved",
   "theorems": [
    "C65_pedersen_claims",
    "C65_pedersen_refuted",
    "C65_same_proof"
   ],
   "note": ""
  },
  {
   "property": "C66",
   "status": "proved",
   "theorems": [
    "C66_seed",
    "C66_start",
    "C66_challenges",
    "C66_seed_deviation",
    "C66_returned",
    "C66_abstract_refuted",
    "C66_tree_start"
   ],
   "note": ""
  },
  {
   "property": "C67",
   "status": "proved",
   "theorems": [
    "C67_content",
    "C67_accepted",
    "C67_injective",
    "C67_json",
    "C67_trailing_deviation",
    "C67_empty_refuted"
   ],
   "note": ""
  },
  {
   "property": "C68",
   "status": "proved",
   "theorems": [
    "C68_contract",
    "C68_field",
    "C68_total",
    "C68_periodic",
    "C68_nested_refuted",
    "C68_nested_panics",
    "C68_hash_collision",
    "C68_hash_refuted",
    "C68_zero_divisor_deviation"
   ],
   "note": ""
  },
  {
   "property": "C69",
   "status": "proved",
   "theorems": [
    "C69_quiet",
    "C69_any_moment",
    "C69_peak",
    "C69_reject",
    "C69_progress",
    "C69_peak_refuted"
   ],
   "note": ""
  },
  {
   "property": "C70",
   "status": "proved",
   "theorems": [
    "C70_agrees",
    "C70_decides",
    "C70_binding",
    "C70_completeness",
    "C70_reverts",
    "C70_single_refuted"
   ],
   "note": ""
  },
  {
   "property": "C71",
   "status": "proved",
   "theorems": [
    "C71_transcript",
    "C71_proof_of_work",
    "C71_queries",
    "C71_queries_counter_deviation",
    "C71_sort",
    "C71_read_many_refuted"
   ],
   "note": ""
  },
  {
   "property": "C72",
   "status": "proved",
   "theorems": [
    "C72_coset",
    "C72_layer",
    "C72_points",
    "C72_last_layer",
    "C72_horner",
    "C72_bits",
    "C72_duplicate_refuted",
    "C72_layout_refuted",
    "C72_unreduced_refuted"
   ],
   "note": ""
  },
  {
   "property": "C73",
   "status": "proved",
   "theorems": [
    "C73_plain",
    "C73_limbs",
    "C73_round_trip",
    "C73_fsub_refuted",
    "C73_roots",
    "C73_batch",
    "C73_batch_zero_refuted",
    "C73_batch_empty_refuted",
    "C73_oods",
    "C73_oods_unreduced"
   ],
   "note": ""
  },
  {
   "property": "C74",
   "status": "proved",
   "theorems": [
    "C74_challenges",
    "C74_missing_commitments",
    "C74_leaves",
    "C74_commitments",
    "C74_leftover_refuted",
    "C74_no_values_refuted",
    "C74_answer_refuted",
    "C74_accepts"
   ],
   "note": ""
  },
  {
   "property": "C75",
   "status": "proved",
   "theorems": [
    "C75_layers",
    "C75_empty_layout",
    "C75_coset_too_large",
    "C75_proof_words"
   ],
   "note": ""
  },
  {
   "property": "C76",
   "status": "proved",
   "theorems": [
    "C76_leaf",
    "C76_leaf_numbers",
    "C76_node",
    "C76_same_hashes",
    "C76_fri_layers"
   ],
   "note": ""
  },
  {
   "property": "C77",
   "status": "proved",
   "theorems": [
    "C77_layout",
    "C77_agrees",
    "C77_cosets",
    "C77_one_row_refuted"
   ],
   "note": ""
  }
 ]
}