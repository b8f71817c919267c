{
 "claims": [
  {
   "property": "C01",
   "status": "proved",
   "theorems": [
    "C01_serialize_roundtrip",
    "C01_deserialize_canonical"
   ],
   "note": ""
  },
  {
   "property": "C02",
   "status": "proved",
   "theorems": [
    "C02_deserialize_any_length",
    "C02_empty_rejected",
    "C02_unique_encoding_refuted",
    "C02_prefix_ignored"
   ],
   "note": ""
  },
  {
   "property": "C03",
   "status": "proved",
   "theorems": [
    "C03_wide_reduction",
    "C03_wide_value"
   ],
   "note": ""
  },
  {
   "property": "C04",
   "status": "proved",
   "theorems": [
    "C04_serialize_is_sec1",
    "C04_roundtrip",
    "C04_injective"
   ],
   "note": ""
  },
  {
   "property": "C05",
   "status": "proved",
   "theorems": [
    "C05_result_on_curve",
    "C05_decoding",
    "C05_other_lengths_rejected",
    "C05_no_point_refuted",
    "C05_noncanonical_refuted"
   ],
   "note": ""
  },
  {
   "property": "C06",
   "status": "proved",
   "theorems": [
    "C06_tagged_never_decodes",
    "C06_roundtrip_refuted"
   ],
   "note": ""
  },
  {
   "property": "C07",
   "status": "proved",
   "theorems": [
    "C07_uncompressed_panics",
    "C07_uncompressed_identity"
   ],
   "note": ""
  },
  {
   "property": "C08",
   "status": "proved",
   "theorems": [
    "C08_scalar_roundtrip",
    "C08_point_roundtrip",
    "C08_identity_fails",
    "C08_scalar_panics_iff",
    "C08_point_panics_iff"
   ],
   "note": ""
  },
  {
   "property": "C09",
   "status": "proved",
   "theorems": [
    "C09_any_coordinates_accepted",
    "C09_any_bytes_accepted",
    "C09_curve_check_refuted"
   ],
   "note": ""
  },
  {
   "property": "C10",
   "status": "proved",
   "theorems": [
    "C10_mul_by_node_index"
   ],
   "note": ""
  },
  {
   "property": "C11",
   "status": "proved",
   "theorems": [
    "C11_nodes_distinct",
    "C11_nodes_nonzero",
    "C11_node_value"
   ],
   "note": ""
  },
  {
   "property": "C12",
   "status": "proved",
   "theorems": [
    "C12_map_to_curve",
    "C12_map_unique",
    "C12_hash_to_curve"
   ],
   "note": ""
  },
  {
   "property": "C13",
   "status": "proved",
   "theorems": [
    "C13_expand_is_rfc9380",
    "C13_output_length",
    "C13_error_exactly_above_8160"
   ],
   "note": ""
  },
  {
   "property": "C14",
   "status": "proved",
   "theorems": [
    "C14_order_independent"
   ],
   "note": ""
  },
  {
   "property": "C15",
   "status": "proved",
   "theorems": [
    "C15_injective",
    "C15_content_added"
   ],
   "note": ""
  },
  {
   "property": "C16",
   "status": "proved",
   "theorems": [
    "C16_add_input_rejects_exactly"
   ],
   "note": ""
  },
  {
   "property": "C17",
   "status": "proved",
   "theorems": [
    "C17_long_ad_ignored",
    "C17_long_ad_proof_transfers",
    "C17_ad_bound_refuted",
    "C17_short_ad_bound"
   ],
   "note": ""
  },
  {
   "property": "C18",
   "status": "proved",
   "theorems": [
    "C18_separated",
    "C18_proofs_never_collide"
   ],
   "note": ""
  },
  {
   "property": "C19",
   "status": "proved",
   "theorems": [
    "C19_dlog_complete",
    "C19_dlog_create_succeeds"
   ],
   "note": ""
  },
  {
   "property": "C20",
   "status": "proved",
   "theorems": [
    "C20_equal_openings_complete",
    "C20_product_complete",
    "C20_create_succeeds"
   ],
   "note": ""
  },
  {
   "property": "C21",
   "status": "proved",
   "theorems": [
    "C21_verify_iff",
    "C21_dlog_special_soundness",
    "C21_equal_openings_special_soundness",
    "C21_product_special_soundness",
    "C21_false_statement_one_challenge"
   ],
   "note": ""
  },
  {
   "property": "C22",
   "status": "proved",
   "theorems": [
    "C22_prover",
    "C22_response_bijection",
    "C22_first_message_recovered"
   ],
   "note": ""
  },
  {
   "property": "C23",
   "status": "proved",
   "theorems": [
    "C23_arithmetic",
    "C23_equal",
    "C23_count_exact",
    "C23_count_bounds_degree_refuted",
    "C23_is_zero_exact",
    "C23_lengths"
   ],
   "note": ""
  },
  {
   "property": "C24",
   "status": "proved",
   "theorems": [
    "C24_mul_scalar_uses_receiver",
    "C24_receiver_is_argument",
    "C24_expected_product_refuted"
   ],
   "note": ""
  },
  {
   "property": "C25",
   "status": "proved",
   "theorems": [
    "C25_interpolate_sound"
   ],
   "note": ""
  },
  {
   "property": "C26",
   "status": "proved",
   "theorems": [
    "C26_succeeds_exactly",
    "C26_never_panics",
    "C26_distinct_suffices_refuted"
   ],
   "note": ""
  },
  {
   "property": "C27",
   "status": "proved",
   "theorems": [
    "C27_at_zero",
    "C27_scalar_reconstruction",
    "C27_point_reconstruction",
    "C27_rejections"
   ],
   "note": ""
  },
  {
   "property": "C28",
   "status": "proved",
   "theorems": [
    "C28_every_secret_possible",
    "C28_exactly_one",
    "C28_equally_many",
    "C28_node_abscissae"
   ],
   "note": ""
  },
  {
   "property": "C29",
   "status": "proved",
   "theorems": [
    "C29_simple_exact",
    "C29_pedersen_genuine",
    "C29_pedersen_binding",
    "C29_simple_binding"
   ],
   "note": ""
  },
  {
   "property": "C30",
   "status": "proved",
   "theorems": [
    "C30_create_condition",
    "C30_own_opening_truncated",
    "C30_long_polynomials_rejected_refuted"
   ],
   "note": ""
  },
  {
   "property": "C31",
   "status": "proved",
   "theorems": [
    "C31_pedersen_never_decodes",
    "C31_simple_decodes_to_pointer",
    "C31_decoded_openings_unusable",
    "C31_damaged_elements_not_reported",
    "C31_decoding_panics_iff"
   ],
   "note": ""
  },
  {
   "property": "C32",
   "status": "proved",
   "theorems": [
    "C32_stable_injective",
    "C32_stable_defined"
   ],
   "note": ""
  },
  {
   "property": "C33",
   "status": "proved",
   "theorems": [
    "C33_compare_constant_refuted",
    "C33_compare_ignores_other",
    "C33_equal_ignores_kind"
   ],
   "note": ""
  },
  {
   "property": "C34",
   "status": "proved",
   "theorems": [
    "C34_single_roundtrip",
    "C34_pair_roundtrip"
   ],
   "note": ""
  },
  {
   "property": "C35",
   "status": "proved",
   "theorems": [
    "C35_encrypt_errors",
    "C35_decrypt_outcomes"
   ],
   "note": ""
  },
  {
   "property": "C36",
   "status": "proved",
   "theorems": [
    "C36_threshold_rejected",
    "C36_dealing_shape",
    "C36_negative_threshold_panics"
   ],
   "note": ""
  },
  {
   "property": "C37",
   "status": "proved",
   "theorems": [
    "C37_honest_public",
    "C37_honest_private",
    "C37_receiver_shares"
   ],
   "note": ""
  },
  {
   "property": "C38",
   "status": "proved",
   "theorems": [
    "C38_verified_well_formed",
    "C38_receivers_never_panic"
   ],
   "note": ""
  },
  {
   "property": "C39",
   "status": "proved",
   "theorems": [
    "C39_product_without_proof_panics",
    "C39_malformed_panics",
    "C39_wrapped_previous_not_checked",
    "C39_wrapped_resharing_refuted"
   ],
   "note": ""
  },
  {
   "property": "C40",
   "status": "proved",
   "theorems": [
    "C40_unmasked_preserves",
    "C40_unmasked_verified_accepted",
    "C40_masked_preserves",
    "C40_unmasked_honest"
   ],
   "note": ""
  },
  {
   "property": "C41",
   "status": "proved",
   "theorems": [
    "C41_resharing_same_constant",
    "C41_product_same_value",
    "C41_product_same_point_refuted"
   ],
   "note": ""
  },
  {
   "property": "C42",
   "status": "proved",
   "theorems": [
    "C42_product",
    "C42_too_few"
   ],
   "note": ""
  },
  {
   "property": "C43",
   "status": "proved",
   "theorems": [
    "C43_reconstruct",
    "C43_result_opens",
    "C43_too_few",
    "C43_simple_unique",
    "C43_wrong_kind"
   ],
   "note": ""
  },
  {
   "property": "C44",
   "status": "proved",
   "theorems": [
    "C44_combined_opening_sound",
    "C44_wrong_kind",
    "C44_verified_dealings_combine",
    "C44_openings_fill_in",
    "C44_too_few_indices_crash",
    "C44_spare_indices_ignored"
   ],
   "note": ""
  },
  {
   "property": "C45",
   "status": "proved",
   "theorems": [
    "C45_complaints_exactly_for_failures",
    "C45_outcomes"
   ],
   "note": ""
  },
  {
   "property": "C46",
   "status": "proved",
   "theorems": [
    "C46_honest_complaint_iff",
    "C46_generated_complaints_verify",
    "C46_true_secret_never_incriminates",
    "C46_false_complainer_cannot_answer_twice",
    "C46_bad_pop_complaint_rejected"
   ],
   "note": ""
  },
  {
   "property": "C47",
   "status": "proved",
   "theorems": [
    "C47_derived_key_is_chain_of_children",
    "C47_concatenated_path",
    "C47_outcomes"
   ],
   "note": ""
  },
  {
   "property": "C48",
   "status": "proved",
   "theorems": [
    "C48_valid_child_is_bip32",
    "C48_invalid_child_returned",
    "C48_next_index_rule_refuted"
   ],
   "note": ""
  },
  {
   "property": "C49",
   "status": "proved",
   "theorems": [
    "C49_next_is_increment",
    "C49_next_never_cycles",
    "C49_bip32_indices"
   ],
   "note": ""
  },
  {
   "property": "C50",
   "status": "proved",
   "theorems": [
    "C50_threshold_signature_is_ecdsa"
   ],
   "note": ""
  },
  {
   "property": "C51",
   "status": "proved",
   "theorems": [
    "C51_signature_independent_of_signers"
   ],
   "note": ""
  },
  {
   "property": "C52",
   "status": "proved",
   "theorems": [
    "C52_exactly_one_of_s_and_minus_s",
    "C52_negated_signature_rejected",
    "C52_combined_signature_low"
   ],
   "note": ""
  },
  {
   "property": "C53",
   "status": "proved",
   "theorems": [
    "C53_accepted_signatures_are_ecdsa",
    "C53_presignature_kind"
   ],
   "note": ""
  },
  {
   "property": "C54",
   "status": "proved",
   "theorems": [
    "C54_every_built_share_accepted",
    "C54_correct_pointer_share_rejected",
    "C54_what_is_compared",
    "C54_correct_pointer_denominator_rejected",
    "C54_share_verification_refuted"
   ],
   "note": ""
  },
  {
   "property": "C55",
   "status": "proved",
   "theorems": [
    "C55_hash_conversion",
    "C55_point_conversion",
    "C55_long_hash_refuted"
   ],
   "note": ""
  },
  {
   "property": "C56",
   "status": "proved",
   "theorems": [
    "C56_zero_denominator_gives_zero_signature",
    "C56_zero_signature_rejected"
   ],
   "note": ""
  },
  {
   "property": "C57",
   "status": "proved",
   "theorems": [
    "C57_split_invariant",
    "C57_zero_buffer_and_integers",
    "C57_xors_into_buffer"
   ],
   "note": ""
  },
  {
   "property": "C58",
   "status": "proved",
   "theorems": [
    "C58_random_scalar"
   ],
   "note": ""
  },
  {
   "property": "C59",
   "status": "proved",
   "theorems": [
    "C59_run_ends_in_ecdsa_signature",
    "C59_honest_setup_completes",
    "C59_all_nodes_get_shares"
   ],
   "note": ""
  },
  {
   "property": "C60",
   "status": "proved",
   "theorems": [
    "C60_polynomial_methods_keep_every_scalar",
    "C60_polynomial_methods_write_only_the_receiver",
    "C60_lagrange_changes_nothing",
    "C60_commitments_change_nothing",
    "C60_signing_changes_nothing",
    "C60_random_with_constant_keeps_the_callers_pointer"
   ],
   "note": ""
  },
  {
   "property": "C61",
   "status": "proved",
   "theorems": [
    "C61_converted_openings_unusable",
    "C61_unmasked_reshare_not_dealable",
    "C61_masked_and_product_shares",
    "C61_dealable_iff"
   ],
   "note": ""
  },
  {
   "property": "C62",
   "status": "proved",
   "theorems": [
    "C62_abelian_group",
    "C62_cyclic_of_order_q",
    "C62_scalar_multiplication",
    "C62_protocol_group",
    "C62_accepted_signatures_on_secp256k1"
   ],
   "note": ""
  },
  {
   "property": "C63",
   "status": "proved",
   "theorems": [
    "C63_polynomial_methods",
    "C63_lagrange",
    "C63_commitments",
    "C63_signing"
   ],
   "note": ""
  },
  {
   "property": "C64",
   "status": "proved",
   "theorems": [
    "C64_key_roundtrips",
    "C64_public_key",
    "C64_accepted_keys",
    "C64_keys_of_other_curves",
    "C64_accepted_keys_are_points_refuted",
    "C64_identity_key_gives_no_secrecy",
    "C64_generated_keys",
    "C64_accepted_key_without_secrecy"
   ],
   "note": ""
  },
  {
   "property": "C65",
   "status": "proved",
   "theorems": [
    "C65_expand_binds_its_inputs",
    "C65_domain_separators",
    "C65_seeds_bind",
    "C65_oracle_strings_bind",
    "C65_derived_seeds_differ",
    "C65_complaint_data_binds"
   ],
   "note": ""
  },
  {
   "property": "C66",
   "status": "proved",
   "theorems": [
    "C66_reused_proof_seed",
    "C66_complaints_reveal_key",
    "C66_known_seed_reveals_key",
    "C66_reused_encryption_seed",
    "C66_reused_dealing_seed"
   ],
   "note": ""
  },
  {
   "property": "C67",
   "status": "proved",
   "theorems": [
    "C67_accepts_exactly",
    "C67_correct_openings_accepted",
    "C67_each_opening_checked_refuted",
    "C67_wrapped_commitment_rejected"
   ],
   "note": ""
  },
  {
   "property": "C68",
   "status": "proved",
   "theorems": [
    "C68_hash_to_scalar_is_rfc9380",
    "C68_input_string",
    "C68_outputs",
    "C68_indexed_names_distinct",
    "C68_add_points",
    "C68_add_points_binds",
    "C68_single_point_same"
   ],
   "note": ""
  },
  {
   "property": "C69",
   "status": "proved",
   "theorems": [
    "C69_serialize",
    "C69_serialize_injective",
    "C69_simple_roundtrip",
    "C69_pedersen_roundtrip_refuted",
    "C69_decoded_usable_refuted"
   ],
   "note": ""
  },
  {
   "property": "C70",
   "status": "proved",
   "theorems": [
    "C70_text_roundtrip",
    "C70_text_roundtrip_of_points_refuted",
    "C70_compress",
    "C70_compress_panics_iff",
    "C70_accessors",
    "C70_untagged",
    "C70_selection",
    "C70_from_text_exact"
   ],
   "note": ""
  },
  {
   "property": "C71",
   "status": "proved",
   "theorems": [
    "C71_setup_completes_with_corruption",
    "C71_created_dealings",
    "C71_one_node_cannot_repair"
   ],
   "note": ""
  },
  {
   "property": "C72",
   "status": "proved",
   "theorems": [
    "C72_corruption_for_all",
    "C72_original_after_corruption_for_all",
    "C72_proofs_change_nothing",
    "C72_encryption_changes_nothing",
    "C72_dealings_change_nothing",
    "C72_openings_change_nothing",
    "C72_complaints_change_nothing",
    "C72_new_cells_distinct",
    "C72_corruption_writes_only_pairs",
    "C72_proofs",
    "C72_encryption",
    "C72_dealings",
    "C72_openings",
    "C72_complaints",
    "C72_corruption_damages_the_given_pairs",
    "C72_corruption_of_a_new_dealing",
    "C72_product_clone_is_the_original",
    "C72_corruption_keeps_its_argument_refuted",
    "C72_product_clone_is_a_copy_refuted"
   ],
   "note": ""
  },
  {
   "property": "C73",
   "status": "proved",
   "theorems": [
    "C73_field_methods_write_only_the_receiver",
    "C73_hash_to_curve_changes_nothing",
    "C73_isogeny_writes_only_y",
    "C73_field_methods",
    "C73_hash_to_curve",
    "C73_calls_do_not_interfere",
    "C73_isogeny_keeps_its_arguments_refuted",
    "C73_isogeny_keeps_constants_refuted"
   ],
   "note": ""
  },
  {
   "property": "C74",
   "status": "proved",
   "theorems": [
    "C74_at_most_one_signature",
    "C74_bad_shares_cannot_change_the_signature",
    "C74_at_most_two_numerators",
    "C74_at_most_two_denominators",
    "C74_alteration_always_noticed_refuted"
   ],
   "note": ""
  },
  {
   "property": "C75",
   "status": "proved",
   "theorems": [
    "C75_nonce_reveals_key",
    "C75_presignature_reuse_reveals_key",
    "C75_same_r_reveals_key",
    "C75_reuse_on_secp256k1"
   ],
   "note": ""
  },
  {
   "property": "C76",
   "status": "proved",
   "theorems": [
    "C76_masked_view_independent_of_secret",
    "C76_exactly_one_explanation",
    "C76_on_secp256k1",
    "C76_unmasked_hides_refuted"
   ],
   "note": ""
  },
  {
   "property": "C77",
   "status": "proved",
   "theorems": [
    "C77_masked_resharing",
    "C77_multiplication",
    "C77_unconditionally_refuted"
   ],
   "note": ""
  },
  {
   "property": "C78",
   "status": "proved",
   "theorems": [
    "C78_generator_h_is_hashed"
   ],
   "note": ""
  },
  {
   "property": "C79",
   "status": "proved",
   "theorems": [
    "C79_primitives",
    "C79_accepted_signatures",
    "C79_hmac",
    "C79_hmac_ignores_trailing_zeros"
   ],
   "note": ""
  },
  {
   "property": "C80",
   "status": "proved",
   "theorems": [
    "C80_publicly_verify_panics_iff",
    "C80_receiver_panics_iff",
    "C80_complaint_verify_panics_iff",
    "C80_new_transcript_panics_iff",
    "C80_reconstruct_panics_iff",
    "C80_signing_panics_iff",
    "C80_only_missing_proof_crashes_verifier",
    "C80_verified_dealings_never_panic",
    "C80_robust_verification_refuted"
   ],
   "note": ""
  },
  {
   "property": "C81",
   "status": "proved",
   "theorems": [
    "C81_public_key_stays",
    "C81_shares_give_same_secret",
    "C81_signatures_stay"
   ],
   "note": ""
  },
  {
   "property": "C82",
   "status": "proved",
   "theorems": [
    "C82_mobile_adversary_learns_nothing",
    "C82_round_keeps_secret",
    "C82_code_combines"
   ],
   "note": ""
  },
  {
   "property": "C83",
   "status": "proved",
   "theorems": [
    "C83_shares_depend_on_signature_only",
    "C83_simulated_from_signature"
   ],
   "note": ""
  },
  {
   "property": "C84",
   "status": "proved",
   "theorems": [
    "C84_unbiased",
    "C84_transcript_is_sum"
   ],
   "note": ""
  },
  {
   "property": "C85",
   "status": "proved",
   "theorems": [
    "C85_one_derived_key_gives_all",
    "C85_one_derived_key_gives_master"
   ],
   "note": ""
  },
  {
   "property": "C86",
   "status": "proved",
   "theorems": [
    "C86_bound_immaterial",
    "C86_checking_always_ends",
    "C86_ends_iff",
    "C86_paths_end",
    "C86_signing_hangs_only_in_derivation"
   ],
   "note": ""
  },
  {
   "property": "C87",
   "status": "proved",
   "theorems": [
    "C87_dealing_not_replayed",
    "C87_complaint_not_replayed",
    "C87_resharing_proof_not_replayed",
    "C87_product_proof_not_replayed",
    "C87_long_sessions_replay",
    "C87_index_wraps",
    "C87_without_bounds_refuted"
   ],
   "note": ""
  },
  {
   "property": "C88",
   "status": "proved",
   "theorems": [
    "C88_signature_binds_its_context"
   ],
   "note": ""
  },
  {
   "property": "C89",
   "status": "proved",
   "theorems": [
    "C89_tampering_hits_one_receiver",
    "C89_innocent_dealer_blamed",
    "C89_tampering_is_possible"
   ],
   "note": ""
  },
  {
   "property": "C90",
   "status": "proved",
   "theorems": [
    "C90_chain_key_binds_path"
   ],
   "note": ""
  },
  {
   "property": "C91",
   "status": "proved",
   "theorems": [
    "C91_one_wrong_opening_blocks",
    "C91_filtering_recovers"
   ],
   "note": ""
  },
  {
   "property": "C92",
   "status": "proved",
   "theorems": [
    "C92_openings_reveal_the_secret",
    "C92_blamed_dealer_loses_share"
   ],
   "note": ""
  },
  {
   "property": "C93",
   "status": "proved",
   "theorems": [
    "C93_checked_openings_sign"
   ],
   "note": ""
  },
  {
   "property": "C94",
   "status": "proved",
   "theorems": [
    "C94_rounds_share_their_expressions",
    "C94_same_expression_same_constant_term",
    "C94_too_few_dealers"
   ],
   "note": ""
  },
  {
   "property": "C95",
   "status": "proved",
   "theorems": [
    "C95_field_roundtrip",
    "C95_field_canonical",
    "C95_field_any_length",
    "C95_unique_encoding_refuted",
    "C95_sign",
    "C95_sqrt",
    "C95_progenitor"
   ],
   "note": ""
  },
  {
   "property": "C96",
   "status": "proved",
   "theorems": [
    "C96_rounds_complete_or_are_refused",
    "C96_fewer_masked_nodes_panics"
   ],
   "note": ""
  },
  {
   "property": "C97",
   "status": "proved",
   "theorems": [
    "C97_scalar_preimages",
    "C97_oracle_scalars_almost_uniform",
    "C97_short_strings",
    "C97_field_almost_uniform"
   ],
   "note": ""
  },
  {
   "property": "C98",
   "status": "proved",
   "theorems": [
    "C98_unmasked_dealing_simulated",
    "C98_resharing_round_simulated"
   ],
   "note": ""
  },
  {
   "property": "C99",
   "status": "proved",
   "theorems": [
    "C99_random_subset",
    "C99_subsets_sign",
    "C99_subset_exact"
   ],
   "note": ""
  },
  {
   "property": "C100",
   "status": "proved",
   "theorems": [
    "C100_every_node_gets_its_share",
    "C100_or_the_dealer_is_blamed",
    "C100_wrapped_commitments_refuted"
   ],
   "note": ""
  },
  {
   "property": "C101",
   "status": "proved",
   "theorems": [
    "C101_corruption_is_exact",
    "C101_corrupted_for_all"
   ],
   "note": ""
  },
  {
   "property": "C102",
   "status": "proved",
   "theorems": [
    "C102_from_randomness",
    "C102_sources_are_separate"
   ],
   "note": ""
  },
  {
   "property": "C103",
   "status": "proved",
   "theorems": [
    "C103_equal_iff",
    "C103_equal_interpolate_alike",
    "C103_constructed_coefficients"
   ],
   "note": ""
  },
  {
   "property": "C104",
   "status": "proved",
   "theorems": [
    "C104_malicious_dealers_cannot_spoil_signatures"
   ],
   "note": ""
  },
  {
   "property": "C105",
   "status": "proved",
   "theorems": [
    "C105_as_bip32",
    "C105_hardened_indices_refused_refuted",
    "C105_derived_secret_reveals_all"
   ],
   "note": ""
  },
  {
   "property": "C106",
   "status": "proved",
   "theorems": [
    "C106_tables",
    "C106_k256_agrees",
    "C106_hashing_to_other_curves",
    "C106_drawing_never_ends",
    "C106_dealings_refused",
    "C106_signing_panics",
    "C106_transcripts",
    "C106_combining_openings",
    "C106_field_constants",
    "C106_unknown_curve_is_an_error_refuted"
   ],
   "note": ""
  },
  {
   "property": "C107",
   "status": "proved",
   "theorems": [
    "C107_driver_calls",
    "C107_new_setups",
    "C107_every_sequence_of_calls",
    "C107_removals_that_panic",
    "C107_removed_nodes_come_back",
    "C107_removing_is_a_smaller_setup",
    "C107_round_seeds",
    "C107_agrees_with_the_drivers",
    "C107_removal_is_final_refuted"
   ],
   "note": ""
  },
  {
   "property": "C108",
   "status": "proved",
   "theorems": [
    "C108_items_are_unambiguous",
    "C108_scalars_and_points",
    "C108_commitments",
    "C108_openings",
    "C108_standard_decoders"
   ],
   "note": ""
  },
  {
   "property": "C109",
   "status": "proved",
   "theorems": [
    "C109_stored_bytes",
    "C109_points_on_the_curve",
    "C109_typed_inputs_bind",
    "C109_outputs_bind",
    "C109_integers",
    "C109_widths_are_separated_refuted"
   ],
   "note": ""
  },
  {
   "property": "C110",
   "status": "proved",
   "theorems": [
    "C110_sha",
    "C110_hmac",
    "C110_chacha20"
   ],
   "note": ""
  },
  {
   "property": "C111",
   "status": "proved",
   "theorems": [
    "C111_private_exact",
    "C111_otherwise_rejected",
    "C111_opened_exact",
    "C111_one_polynomial"
   ],
   "note": ""
  },
  {
   "property": "C112",
   "status": "proved",
   "theorems": [
    "C112_dealings",
    "C112_random_polynomials",
    "C112_failures",
    "C112_consecutive"
   ],
   "note": ""
  },
  {
   "property": "C113",
   "status": "proved",
   "theorems": [
    "C113_dealers",
    "C113_encryption",
    "C113_dealings",
    "C113_complaints"
   ],
   "note": ""
  },
  {
   "property": "C114",
   "status": "proved",
   "theorems": [
    "C114_encryption",
    "C114_decryption"
   ],
   "note": ""
  },
  {
   "property": "C115",
   "status": "proved",
   "theorems": [
    "C115_rotations",
    "C115_constants",
    "C115_padding"
   ],
   "note": ""
  },
  {
   "property": "C116",
   "status": "proved",
   "theorems": [
    "C116_rounds"
   ],
   "note": ""
  }
 ]
}