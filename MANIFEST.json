{
 "claims": [
  {
   "property": "C01",
   "status": "proved",
   "theorems": [
    "C01_montgomery_product",
    "C01_montgomery_product_lazy",
    "C01_reduced_operand",
    "C01_unreduced_refuted"
   ],
   "note": "Both variants; the need for a product below q*2^64 is shown by C01_unreduced_refuted."
  },
  {
   "property": "C02",
   "status": "proved",
   "theorems": [
    "C02_montgomery_constant",
    "C02_even_modulus_has_no_constant"
   ],
   "note": "Proved for all inputs of the model."
  },
  {
   "property": "C03",
   "status": "proved",
   "theorems": [
    "C03_barrett_product",
    "C03_barrett_product_lazy",
    "C03_barrett_reduction",
    "C03_barrett_reduction_lazy",
    "C03_conditional_subtraction"
   ],
   "note": "Proved for all inputs of the model."
  },
  {
   "property": "C04",
   "status": "proved",
   "theorems": [
    "C04_to_montgomery",
    "C04_to_montgomery_lazy",
    "C04_from_montgomery",
    "C04_from_montgomery_lazy",
    "C04_round_trip"
   ],
   "note": "Proved for all inputs of the model."
  },
  {
   "property": "C05",
   "status": "proved",
   "theorems": [
    "C05_exponentiation",
    "C05_inverse",
    "C05_montgomery_exponentiation",
    "C05_power_of_two"
   ],
   "note": "Proved for all inputs of the model."
  },
  {
   "property": "C06",
   "status": "proved",
   "theorems": [
    "C06_ntt_is_evaluation"
   ],
   "note": "Proved for all inputs of the model."
  },
  {
   "property": "C07",
   "status": "proved",
   "theorems": [
    "C07_inverse_after_forward",
    "C07_forward_after_inverse"
   ],
   "note": "Proved for all inputs of the model."
  },
  {
   "property": "C08",
   "status": "proved",
   "theorems": [
    "C08_ntt_product"
   ],
   "note": "Proved for all inputs of the model."
  },
  {
   "property": "C09",
   "status": "proved",
   "theorems": [
    "C09_lazy_ranges",
    "C09_documented_lazy_range_refuted"
   ],
   "note": "The documented range of the lazy transform is refuted; the true range is proved."
  },
  {
   "property": "C10",
   "status": "proved",
   "theorems": [
    "C10_basis_extension",
    "C10_exactness_refuted"
   ],
   "note": "e in {-1,0,1} for all inputs; exactness refuted by a witness."
  },
  {
   "property": "C11",
   "status": "proved",
   "theorems": [
    "C11_exact_extension"
   ],
   "note": "Proved for all inputs of the model."
  },
  {
   "property": "C12",
   "status": "proved",
   "theorems": [
    "C12_output_range",
    "C12_documented_range_refuted"
   ],
   "note": "Range proved; documented range refuted."
  },
  {
   "property": "C13",
   "status": "proved",
   "theorems": [
    "C13_division_by_P",
    "C13_division_by_P_ntt",
    "C13_rounding_refuted"
   ],
   "note": "Floor up to one unit; the documented rounding is refuted."
  },
  {
   "property": "C14",
   "status": "proved",
   "theorems": [
    "C14_equal_levels",
    "C14_wrong_divisor",
    "C14_panics",
    "C14_division_refuted"
   ],
   "note": "Positive theorem at equal levels; wrong divisor and panic elsewhere."
  },
  {
   "property": "C15",
   "status": "proved",
   "theorems": [
    "C15_floor",
    "C15_floor_many",
    "C15_floor_many_ntt",
    "C15_floor_ntt",
    "C15_floor_ntt_refuted",
    "C15_round",
    "C15_round_inplace",
    "C15_round_ntt",
    "C15_round_many",
    "C15_round_many_ntt",
    "C15_nearest",
    "C15_rounds",
    "C15_input_preserved_refuted"
   ],
   "note": "All eight routines; the NTT floor and input preservation are refuted by witnesses."
  },
  {
   "property": "C16",
   "status": "proved",
   "theorems": [
    "C16_reconstruction",
    "C16_centred",
    "C16_centred_boundary_refuted",
    "C16_set_coefficients",
    "C16_set_uint64",
    "C16_set_int64",
    "C16_integers_round_trip",
    "C16_rows_round_trip"
   ],
   "note": "Positive theorems for all inputs of the model; the part of the expectation that the code does not meet is shown by C16_centred_boundary_refuted."
  },
  {
   "property": "C17",
   "status": "proved",
   "theorems": [
    "C17_permute",
    "C17_composition",
    "C17_inverse",
    "C17_automorphism",
    "C17_reduced_refuted"
   ],
   "note": "Positive theorems for all inputs of the model; the part of the expectation that the code does not meet is shown by C17_reduced_refuted."
  },
  {
   "property": "C18",
   "status": "proved",
   "theorems": [
    "C18_index_permutation",
    "C18_permute_ntt",
    "C18_permute_ntt_add",
    "C18_composition",
    "C18_inverse"
   ],
   "note": "Proved for all inputs of the model."
  },
  {
   "property": "C19",
   "status": "proved",
   "theorems": [
    "C19_group",
    "C19_inverse",
    "C19_row_rotation",
    "C19_generates",
    "C19_gen_galois_params"
   ],
   "note": "Proved for all inputs of the model."
  },
  {
   "property": "C20",
   "status": "proved",
   "theorems": [
    "C20_integers",
    "C20_round_trip",
    "C20_any_buffer",
    "C20_decode",
    "C20_any_target",
    "C20_accepted",
    "C20_truncated",
    "C20_panic_refuted",
    "C20_256_moduli_refuted",
    "C20_dirty_buffer_refuted",
    "C20_used_target_refuted",
    "C20_trailing_refuted",
    "C20_32_bits_refuted"
   ],
   "note": "Positive theorems for all inputs of the model; the part of the expectation that the code does not meet is shown by C20_panic_refuted, C20_256_moduli_refuted, C20_dirty_buffer_refuted, C20_used_target_refuted, C20_trailing_refuted, C20_32_bits_refuted."
  },
  {
   "property": "C21",
   "status": "proved",
   "theorems": [
    "C21_ciphertext",
    "C21_ckks_ciphertext",
    "C21_secret_key",
    "C21_public_key",
    "C21_switching_key",
    "C21_relinearization_key",
    "C21_rotation_keys",
    "C21_no_special_primes_refuted",
    "C21_truncated_panic_refuted",
    "C21_galois_element_refuted"
   ],
   "note": "Positive theorems for all inputs of the model; the part of the expectation that the code does not meet is shown by C21_no_special_primes_refuted, C21_truncated_panic_refuted, C21_galois_element_refuted."
  },
  {
   "property": "C22",
   "status": "proved",
   "theorems": [
    "C22_round_trip",
    "C22_accepted_bytes",
    "C22_panics",
    "C22_panic_refuted",
    "C22_short",
    "C22_equals",
    "C22_equals_refl",
    "C22_equals_refuted",
    "C22_json",
    "C22_json_type_refuted",
    "C22_json_defaults_refuted",
    "C22_ckks_round_trip",
    "C22_ckks_json",
    "C22_ckks_slots_refuted",
    "C22_ckks_missing_refuted",
    "C22_zero_refuted",
    "C22_error_receiver_refuted"
   ],
   "note": "Positive theorems for all inputs of the model; the part of the expectation that the code does not meet is shown by C22_panics, C22_panic_refuted, C22_equals_refuted, C22_json_type_refuted, C22_json_defaults_refuted, C22_ckks_slots_refuted, C22_ckks_missing_refuted, C22_zero_refuted, C22_error_receiver_refuted."
  },
  {
   "property": "C23",
   "status": "proved",
   "theorems": [
    "C23_read",
    "C23_canonical",
    "C23_never_panics",
    "C23_read_all",
    "C23_masks",
    "C23_equal_fibres",
    "C23_any_polynomial",
    "C23_rand_uniform"
   ],
   "note": "Positive theorems for all inputs of the model; the part of the expectation that the code does not meet is shown by C23_never_panics."
  },
  {
   "property": "C24",
   "status": "proved",
   "theorems": [
    "C24_sound",
    "C24_complete",
    "C24_weight",
    "C24_positions"
   ],
   "note": "Proved for all inputs of the model."
  },
  {
   "property": "C25",
   "status": "proved",
   "theorems": [
    "C25_read",
    "C25_read_and_add",
    "C25_new_state",
    "C25_symmetric",
    "C25_canonical_refuted",
    "C25_any_bound_refuted"
   ],
   "note": "Positive theorems for all inputs of the model; the part of the expectation that the code does not meet is shown by C25_canonical_refuted, C25_any_bound_refuted."
  },
  {
   "property": "C26",
   "status": "proved",
   "theorems": [
    "C26_history",
    "C26_position",
    "C26_seek",
    "C26_set_clock",
    "C26_backwards",
    "C26_clock_refuted"
   ],
   "note": "Positive theorems for all inputs of the model; the part of the expectation that the code does not meet is shown by C26_clock_refuted."
  },
  {
   "property": "C27",
   "status": "proved",
   "theorems": [
    "C27_all_distinct",
    "C27_bit_reverse",
    "C27_bit_reverse_involution",
    "C27_hamming_weight",
    "C27_rotate",
    "C27_rotate_laws",
    "C27_rotate_slots",
    "C27_is_in_slice",
    "C27_min_max",
    "C27_max_slice",
    "C27_equal_slice",
    "C27_equal_slice_refuted"
   ],
   "note": "Positive theorems for all inputs of the model; the part of the expectation that the code does not meet is shown by C27_equal_slice_refuted."
  },
  {
   "property": "C28",
   "status": "proved",
   "theorems": [
    "C28_primes_Q",
    "C28_primes_P",
    "C28_dispatch",
    "C28_ends",
    "C28_friendly",
    "C28_next",
    "C28_previous",
    "C28_previous_unique",
    "C28_previous_error",
    "C28_previous_refuted",
    "C28_centre_refuted",
    "C28_size_refuted"
   ],
   "note": "Positive theorems for all inputs of the model; the part of the expectation that the code does not meet is shown by C28_previous_refuted, C28_centre_refuted, C28_size_refuted."
  },
  {
   "property": "C29",
   "status": "proved",
   "theorems": [
    "C29_decryption",
    "C29_degree_seven_refuted"
   ],
   "note": "Positive theorems for all inputs of the model; the part of the expectation that the code does not meet is shown by C29_degree_seven_refuted."
  },
  {
   "property": "C30",
   "status": "proved",
   "theorems": [
    "C30_public_key_encryption",
    "C30_public_key_encryption_without_P",
    "C30_secret_key_encryption"
   ],
   "note": "Proved for all inputs of the model."
  },
  {
   "property": "C31",
   "status": "proved",
   "theorems": [
    "C31_switching_key",
    "C31_relinearization_key",
    "C31_rotation_key"
   ],
   "note": "Proved for all inputs of the model."
  },
  {
   "property": "C32",
   "status": "proved",
   "theorems": [
    "C32_key_switching",
    "C32_hoisted"
   ],
   "note": "Proved for all inputs of the model."
  },
  {
   "property": "C33",
   "status": "proved",
   "theorems": [
    "C33_accumulation_does_not_wrap"
   ],
   "note": "An invariant; holds for every number of digits."
  },
  {
   "property": "C34",
   "status": "proved",
   "theorems": [
    "C34_external_product",
    "C34_constructors_succeed"
   ],
   "note": "Proved for all inputs of the model."
  },
  {
   "property": "C35",
   "status": "proved",
   "theorems": [
    "C35_fast_key_switching"
   ],
   "note": "Proved for all inputs of the model."
  },
  {
   "property": "C36",
   "status": "proved",
   "theorems": [
    "C36_key_conversion"
   ],
   "note": "Proved for all inputs of the model."
  },
  {
   "property": "C37",
   "status": "proved",
   "theorems": [
    "C37_mul_relin",
    "C37_generated_key"
   ],
   "note": "Proved for all inputs of the model."
  },
  {
   "property": "C38",
   "status": "proved",
   "theorems": [
    "C38_rotate",
    "C38_generated_key",
    "C38_scale_refuted",
    "C38_new_scale"
   ],
   "note": "Positive theorems for all inputs of the model; the part of the expectation that the code does not meet is shown by C38_scale_refuted."
  },
  {
   "property": "C39",
   "status": "proved",
   "theorems": [
    "C39_switch_keys_panics"
   ],
   "note": "The claim that it works is false: C39_switch_keys_panics shows a panic on every NTT-domain ciphertext."
  },
  {
   "property": "C40",
   "status": "proved",
   "theorems": [
    "C40_decrypt_after_history",
    "C40_history_refuted"
   ],
   "note": "The level of the decoded plaintext after any history; dependence on the history refutes the claim."
  },
  {
   "property": "C41",
   "status": "proved",
   "theorems": [
    "C41_mul_and_add_cross_term",
    "C41_mul_and_add_square",
    "C41_mul_and_add_plain",
    "C41_mul_and_add_refuted"
   ],
   "note": "The intended claim is false in general; proved what is computed, and a witness."
  },
  {
   "property": "C42",
   "status": "proved",
   "theorems": [
    "C42_add",
    "C42_sub",
    "C42_degree_three_panics"
   ],
   "note": "Positive theorems for all inputs of the model; the part of the expectation that the code does not meet is shown by C42_degree_three_panics."
  },
  {
   "property": "C43",
   "status": "proved",
   "theorems": [
    "C43_scalar_bigint_writes_source",
    "C43_scalar_word_writes_source",
    "C43_destination_written_refuted"
   ],
   "note": "Positive theorems for all inputs of the model; the part of the expectation that the code does not meet is shown by C43_destination_written_refuted."
  },
  {
   "property": "C44",
   "status": "proved",
   "theorems": [
    "C44_linear_ops",
    "C44_reduction_ops",
    "C44_mod_op",
    "C44_barrett_products",
    "C44_montgomery_products",
    "C44_scalar_products",
    "C44_rows_above_level_kept",
    "C44_negation_canonical_refuted"
   ],
   "note": "Positive theorems for all inputs of the model; the part of the expectation that the code does not meet is shown by C44_negation_canonical_refuted."
  },
  {
   "property": "C45",
   "status": "proved",
   "theorems": [
    "C45_monomial_product",
    "C45_negative_exponent_unsupported"
   ],
   "note": "Proved for all inputs of the model."
  },
  {
   "property": "C46",
   "status": "proved",
   "theorems": [
    "C46_accepted",
    "C46_usable",
    "C46_large_moduli_refuted",
    "C46_shared_prime_refuted"
   ],
   "note": "Positive theorems for all inputs of the model; the part of the expectation that the code does not meet is shown by C46_large_moduli_refuted, C46_shared_prime_refuted."
  },
  {
   "property": "C47",
   "status": "proved",
   "theorems": [
    "C47_div_round"
   ],
   "note": "Proved for all inputs of the model."
  },
  {
   "property": "C48",
   "status": "proved",
   "theorems": [
    "C48_rescale"
   ],
   "note": "Proved for all inputs of the model."
  },
  {
   "property": "C49",
   "status": "proved",
   "theorems": [
    "C49_small_norm_extension",
    "C49_reduced_words_refuted"
   ],
   "note": "Positive theorems for all inputs of the model; the part of the expectation that the code does not meet is shown by C49_reduced_words_refuted."
  },
  {
   "property": "C50",
   "status": "proved",
   "theorems": [
    "C50_digit",
    "C50_recombination"
   ],
   "note": "Proved for all inputs of the model."
  },
  {
   "property": "C51",
   "status": "proved",
   "theorems": [
    "C51_mul_by_pow2",
    "C51_separate_destination_refuted"
   ],
   "note": "Positive theorems for all inputs of the model; the part of the expectation that the code does not meet is shown by C51_separate_destination_refuted."
  },
  {
   "property": "C52",
   "status": "proved",
   "theorems": [
    "C52_equal"
   ],
   "note": "Proved for all inputs of the model."
  },
  {
   "property": "C53",
   "status": "proved",
   "theorems": [
    "C53_rns_scaler",
    "C53_simple_scaler",
    "C53_simple_scaler_reduced_refuted",
    "C53_history_refuted"
   ],
   "note": "Positive theorems for all inputs of the model; the part of the expectation that the code does not meet is shown by C53_simple_scaler_reduced_refuted, C53_history_refuted."
  },
  {
   "property": "C54",
   "status": "proved",
   "theorems": [
    "C54_mult_by_const",
    "C54_mult_by_integer",
    "C54_mult_by_i",
    "C54_neg",
    "C54_mult_by_const_refuted",
    "C54_receiver_level_refuted"
   ],
   "note": "Positive theorems for all inputs of the model; the part of the expectation that the code does not meet is shown by C54_mult_by_const_refuted, C54_receiver_level_refuted."
  },
  {
   "property": "C55",
   "status": "proved",
   "theorems": [
    "C55_mul",
    "C55_mul_plaintext",
    "C55_mul_relin",
    "C55_receiver_degree_refuted"
   ],
   "note": "Positive theorems for all inputs of the model; the part of the expectation that the code does not meet is shown by C55_receiver_degree_refuted."
  },
  {
   "property": "C56",
   "status": "proved",
   "theorems": [
    "C56_sum_of_products",
    "C56_reduced_by_one",
    "C56_negation_refuted",
    "C56_subtraction_refuted",
    "C56_rescaling_refuted"
   ],
   "note": "Positive theorems for all inputs of the model; the part of the expectation that the code does not meet is shown by C56_negation_refuted, C56_subtraction_refuted, C56_rescaling_refuted."
  },
  {
   "property": "C57",
   "status": "proved",
   "theorems": [
    "C57_relinearize"
   ],
   "note": "Proved for all inputs of the model."
  },
  {
   "property": "C58",
   "status": "proved",
   "theorems": [
    "C58_switch_keys",
    "C58_rotate",
    "C58_conjugate",
    "C58_rotate_by_zero"
   ],
   "note": "Proved for all inputs of the model."
  },
  {
   "property": "C59",
   "status": "proved",
   "theorems": [
    "C59_add_const",
    "C59_add_const_refuted"
   ],
   "note": "Positive theorems for all inputs of the model; the part of the expectation that the code does not meet is shown by C59_add_const_refuted."
  },
  {
   "property": "C60",
   "status": "proved",
   "theorems": [
    "C60_rotate_in_place_refuted"
   ],
   "note": "Positive theorems for all inputs of the model; the part of the expectation that the code does not meet is shown by C60_rotate_in_place_refuted."
  },
  {
   "property": "C61",
   "status": "proved",
   "theorems": [
    "C61_ternary",
    "C61_half",
    "C61_third_returns",
    "C61_independence_refuted",
    "C61_one_refuted",
    "C61_panic_refuted"
   ],
   "note": "Positive theorems for all inputs of the model; the part of the expectation that the code does not meet is shown by C61_independence_refuted, C61_one_refuted, C61_panic_refuted."
  },
  {
   "property": "C62",
   "status": "proved",
   "theorems": [
    "C62_moduli",
    "C62_error",
    "C62_friendly",
    "C62_distinct_refuted",
    "C62_any_size_refuted",
    "C62_shared_prime_refuted"
   ],
   "note": "Positive theorems for all inputs of the model; the part of the expectation that the code does not meet is shown by C62_distinct_refuted, C62_any_size_refuted, C62_shared_prime_refuted."
  },
  {
   "property": "C63",
   "status": "proved",
   "theorems": [
    "C63_mult_by_const_and_add"
   ],
   "note": "Proved for all inputs of the model."
  },
  {
   "property": "C64",
   "status": "proved",
   "theorems": [
    "C64_mult_by_gaussian_integer",
    "C64_mult_by_gaussian_integer_and_add"
   ],
   "note": "Proved for all inputs of the model."
  },
  {
   "property": "C65",
   "status": "proved",
   "theorems": [
    "C65_set_scale",
    "C65_set_scale_integer",
    "C65_set_scale_without_rescale",
    "C65_set_scale_refuted",
    "C65_set_scale_refuses",
    "C65_scale_up"
   ],
   "note": "Positive theorems for all inputs of the model; the part of the expectation that the code does not meet is shown by C65_set_scale_refuted."
  },
  {
   "property": "C66",
   "status": "proved",
   "theorems": [
    "C66_add_no_mod",
    "C66_sub_no_mod",
    "C66_reduce",
    "C66_drop_level"
   ],
   "note": "Proved for all inputs of the model."
  },
  {
   "property": "C67",
   "status": "proved",
   "theorems": [
    "C67_mul_by_pow2_in_place",
    "C67_mul_by_pow2_receiver",
    "C67_mul_by_pow2_new_refuted",
    "C67_mult_by_i_new",
    "C67_mult_by_i_new_refuted"
   ],
   "note": "Positive theorems for all inputs of the model; the part of the expectation that the code does not meet is shown by C67_mul_by_pow2_new_refuted, C67_mult_by_i_new_refuted."
  },
  {
   "property": "C68",
   "status": "proved",
   "theorems": [
    "C68_rotate_hoisted"
   ],
   "note": "Proved for all inputs of the model."
  },
  {
   "property": "C69",
   "status": "proved",
   "theorems": [
    "C69_encode_coeffs",
    "C69_decode_coeffs",
    "C69_round_trip",
    "C69_reused_plaintext_refuted"
   ],
   "note": "Positive theorems for all inputs of the model; the part of the expectation that the code does not meet is shown by C69_reused_plaintext_refuted."
  },
  {
   "property": "C70",
   "status": "proved",
   "theorems": [
    "C70_sparse_ntt"
   ],
   "note": ""
  },
  {
   "property": "C71",
   "status": "proved",
   "theorems": [
    "C71_special_fft",
    "C71_inverse",
    "C71_unrolled",
    "C71_arbitrary_precision"
   ],
   "note": ""
  },
  {
   "property": "C72",
   "status": "proved",
   "theorems": [
    "C72_slots",
    "C72_operations",
    "C72_period"
   ],
   "note": ""
  },
  {
   "property": "C73",
   "status": "proved",
   "theorems": [
    "C73_encode_slots",
    "C73_decode_slots",
    "C73_decode_any",
    "C73_ntt_flag_refuted",
    "C73_smallest_degree_refuted"
   ],
   "note": "Positive theorems for all inputs of the model, for every table of roots of the given accuracy; the parts of the expectation that the code does not meet are shown by C73_ntt_flag_refuted, C73_smallest_degree_refuted."
  },
  {
   "property": "C74",
   "status": "proved",
   "theorems": [
    "C74_round_trip",
    "C74_growth",
    "C74_roots"
   ],
   "note": ""
  },
  {
   "property": "C75",
   "status": "proved",
   "theorems": [
    "C75_decrypt_to_msg"
   ],
   "note": ""
  },
  {
   "property": "C76",
   "status": "proved",
   "theorems": [
    "C76_encrypt_msg"
   ],
   "note": ""
  },
  {
   "property": "C77",
   "status": "proved",
   "theorems": [
    "C77_mul_relin",
    "C77_rotate",
    "C77_add",
    "C77_sub",
    "C77_rescale",
    "C77_ckks_mul_relin",
    "C77_ckks_rotate",
    "C77_conjugate"
   ],
   "note": ""
  },
  {
   "property": "C78",
   "status": "proved",
   "theorems": [
    "C78_secret_key",
    "C78_public_key",
    "C78_relin_key",
    "C78_rot_key",
    "C78_encrypt_msg",
    "C78_fresh_secret_key",
    "C78_fresh_public_key",
    "C78_fresh_relin_key",
    "C78_fresh_rot_key",
    "C78_fresh_encryption"
   ],
   "note": ""
  },
  {
   "property": "C79",
   "status": "proved",
   "theorems": [
    "C79_program"
   ],
   "note": ""
  },
  {
   "property": "C80",
   "status": "proved",
   "theorems": [
    "C80_session"
   ],
   "note": ""
  },
  {
   "property": "C81",
   "status": "proved",
   "theorems": [
    "C81_new_ring",
    "C81_factors",
    "C81_cofactor",
    "C81_table",
    "C81_factors_refuted",
    "C81_primitive_root",
    "C81_generator",
    "C81_generator_refuted"
   ],
   "note": ""
  },
  {
   "property": "C82",
   "status": "proved",
   "theorems": [
    "C82_accepted",
    "C82_parameters",
    "C82_ckks_literal",
    "C82_frlwe_literal",
    "C82_fckks_literal",
    "C82_ckks_accepted",
    "C82_frlwe_accepted",
    "C82_fckks_accepted",
    "C82_sizes",
    "C82_sizes_refuted",
    "C82_ckks_sets",
    "C82_fast_sets"
   ],
   "note": "Positive theorems for all inputs of the model; the part of the expectation that the code does not meet is shown by C82_sizes, C82_sizes_refuted."
  },
  {
   "property": "C83",
   "status": "proved",
   "theorems": [
    "C83_encryption",
    "C83_program"
   ],
   "note": ""
  },
  {
   "property": "C84",
   "status": "proved",
   "theorems": [
    "C84_ci_ntt_is_evaluation",
    "C84_ci_inverse_after_forward",
    "C84_ci_forward_after_inverse",
    "C84_ci_product",
    "C84_ci_lazy_ranges",
    "C84_ci_documented_lazy_range_refuted"
   ],
   "note": "Positive theorems for all inputs of the model; the part of the expectation that the code does not meet is shown by C84_ci_documented_lazy_range_refuted."
  },
  {
   "property": "C85",
   "status": "proved",
   "theorems": [
    "C85_unfold",
    "C85_fold",
    "C85_ci_permute",
    "C85_ci_permute_outside",
    "C85_standard_ring",
    "C85_conjugate_invariant_ring",
    "C85_ring_swap",
    "C85_documented_degrees_refuted",
    "C85_pad_refuted"
   ],
   "note": "Positive theorems for all inputs of the model; the parts of the expectation that the code does not meet are shown by C85_ci_permute_outside, C85_documented_degrees_refuted, C85_pad_refuted."
  },
  {
   "property": "C86",
   "status": "proved",
   "theorems": [
    "C86_embedding",
    "C86_up_ntt",
    "C86_up_ntt_decrypts",
    "C86_up_coefficients",
    "C86_up_coefficients_decrypts",
    "C86_up_coefficients_refuted",
    "C86_down_coefficients",
    "C86_down_coefficients_decrypts",
    "C86_phase_up",
    "C86_phase_down",
    "C86_down_ntt",
    "C86_down_ntt_refuted"
   ],
   "note": "Positive theorems for all inputs of the model; the parts of the expectation that the code does not meet are shown by C86_up_coefficients_refuted, C86_down_ntt (receiver unchanged for all inputs) and C86_down_ntt_refuted."
  },
  {
   "property": "C87",
   "status": "proved",
   "theorems": [
    "C87_key_up",
    "C87_key_down",
    "C87_ring_swap"
   ],
   "note": "GenSwitchingKeysForRingSwap for secrets with all the rows of the parameters; with fewer rows the pool shared by both secrets is not the unfolded secret (see DESIGN.md)."
  },
  {
   "property": "C88",
   "status": "proved",
   "theorems": [
    "C88_polynomial",
    "C88_ciphertext",
    "C88_public_key",
    "C88_switching_key",
    "C88_relinearization_key",
    "C88_empty_key_refuted",
    "C88_in_place",
    "C88_ciphertext_in_place",
    "C88_in_place_refuted",
    "C88_shared",
    "C88_shift",
    "C88_shift_zero_refuted",
    "C88_shift_panics",
    "C88_rotate_slice",
    "C88_rotate_slice_refuted"
   ],
   "note": "Positive theorems for all inputs of the model; the parts of the expectation that the code does not meet are shown by the refutations and C88_shift_panics."
  },
  {
   "property": "C89",
   "status": "proved",
   "theorems": [
    "C89_polynomials",
    "C89_switching_keys",
    "C89_public_keys",
    "C89_relinearization_keys",
    "C89_rotation_keys",
    "C89_includes",
    "C89_copy",
    "C89_nil_refuted",
    "C89_includes_refuted",
    "C89_flags_refuted"
   ],
   "note": "Positive theorems for keys without nil components; the refutations show what happens with them, and what Includes and the flags leave out."
  },
  {
   "property": "C90",
   "status": "proved",
   "theorems": [
    "C90_isolation",
    "C90_decryptors",
    "C90_race_free",
    "C90_encryptors",
    "C90_encryptors_race_free",
    "C90_shared_ntt",
    "C90_shared_refuted",
    "C90_shared_encryptor_refuted"
   ],
   "note": "Decryptors, and encryptors with a secret key, at the granularity of rows; absence of races makes finer steps irrelevant. The refutations show what sharing one object does. Public-key encryptors, key switchers and encoders are not covered."
  },
  {
   "property": "C91",
   "status": "proved",
   "theorems": [
    "C91_switch",
    "C91_hoisted",
    "C91_rotations",
    "C91_missing_key",
    "C91_add",
    "C91_mod_down",
    "C91_rotate_and_sum"
   ],
   "note": "For keys with all the moduli of P. The sum and the final division are the calls a caller makes (ring.AddLvl, ModDownQPtoQNTT)."
  },
  {
   "property": "C92",
   "status": "proved",
   "theorems": [
    "C92_bit_reverse",
    "C92_in_place",
    "C92_involution",
    "C92_natural_order",
    "C92_ntt_order",
    "C92_rotate",
    "C92_rotate_monomial",
    "C92_shift",
    "C92_rotate_negative_small",
    "C92_rotate_negative_refuted",
    "C92_rotate_destination_refuted",
    "C92_round_trip",
    "C92_faithful",
    "C92_fresh_refuted",
    "C92_type_refuted"
   ],
   "note": "encoding/gob is taken to transport the three exported fields unchanged."
  },
  {
   "property": "C93",
   "status": "proved",
   "theorems": [
    "C93_set",
    "C93_rotate",
    "C93_conjugate",
    "C93_inner_sum_keys",
    "C93_inner_sum",
    "C93_rotation_lists",
    "C93_inner_sum_log",
    "C93_replicate_log",
    "C93_trace",
    "C93_single_keys",
    "C93_inner_sum_log_refuted"
   ],
   "note": "Standard ring type. The evaluator of this repository has no InnerSum, Replicate or Trace method: the sums are stated for any straight-line program of additions and rotations (RotKeysSpec.computed) and for the program fold_rotations. The refutation concerns counts above 2^62."
  },
  {
   "property": "C94",
   "status": "proved",
   "theorems": [
    "C94_secret_key",
    "C94_size",
    "C94_gaussian_fresh",
    "C94_distrib_returns",
    "C94_distrib_one_refuted",
    "C94_secret_key_without_P",
    "C94_public_key_without_P",
    "C94_encryption_without_P",
    "C94_fast_generator_refuted"
   ],
   "note": "Standard ring type. Out of fuel (a rejection loop that does not end on the given bytes) is Fail. The refutations: GenSecretKeyWithDistrib with probability 1 and the two methods of the generator of frlwe never return."
  },
  {
   "property": "C95",
   "status": "proved",
   "theorems": [
    "C95_products",
    "C95_bits",
    "C95_slots",
    "C95_division_by_P",
    "C95_shared_modulus_refuted",
    "C95_uniform_QP",
    "C95_uniform_half",
    "C95_random_ciphertext",
    "C95_random_level",
    "C95_random_usable_refuted",
    "C95_share_refuted",
    "C95_smallest_largest"
   ],
   "note": "The refutations: shared moduli give the constant 0 without an error, random ciphertexts are rejected by the evaluator, NewAdditiveShare is at level 0."
  },
  {
   "property": "C96",
   "status": "proved",
   "theorems": [
    "C96_decrypts",
    "C96_new",
    "C96_same_crp",
    "C96_key_sum",
    "C96_public_key",
    "C96_short_crp_refuted"
   ],
   "note": "Encryption from a polynomial given by the caller is correct and additive; a polynomial with missing rows shows the message (C96_short_crp_refuted)."
  }
 ]
}