# What `Print Assumptions` lists

Written by `tools/assumptions.py` from the built model.  All axioms below are from Coq's standard library.

## Closed under the global context (303)

C01_large_float_refuted, C01_long_double_refuted, C01_nul_refuted, C03_final_point_refuted, C04_chunks_independent, C04_input_independent_partial, C04_input_independent_refuted, C05_bytes_independent_of_output, C05_delivered_text_partial, C05_delivered_text_refuted, C05_long_string_refuted, C06_parse_total, C06_path_roundtrip_partial, C06_path_roundtrip_refuted, C06_path_string_injective_partial, C07_base64_rfc4648_partial, C07_base64_roundtrip_partial, C07_base64_roundtrip_refuted, C08_decode_size_sufficient_partial, C08_encode_size_refuted, C08_encode_size_sufficient_partial, C09_decode_ignores_foreign_partial, C09_decode_total_partial, C09_decode_total_refuted, C10_total_order_refuted, C11_least_by_minus_one_refuted, C11_rejects, C11_remainder_refuted, C11_result_type, C11_silent_change_refuted, C12_assign_aliases, C12_copy_cyclic_refuted, C12_copy_isolated, C12_copy_same, C12_copy_succeeds, C12_element_aliases, C13_chain_exact, C13_default_refuted, C13_lookups_change_nothing, C13_paths_exact, C14_assign_chain, C14_assign_path, C14_index_refuted, C14_one_object_changes, C14_read_back_refuted, C14_set_elem_is_set_path, C15_absent_refuted, C15_erase_elem_is_erase_path, C15_index_refuted, C15_list_entry_refuted, C16_merge_union, C17_cycle_refuted, C17_dead_partial, C17_deleted_partial, C17_held_partial, C17_kept_refuted, C17_live_operand_partial, C17_live_partial, C17_move_refuted, C17_reassign_kept_refuted, C17_reassign_refuted, C17_removed_partial, C17_safe_partial, C17_scope_partial, C17_write_partial, C19_blob_compare_partial, C19_blob_compare_refuted, C19_blob_copy_partial, C19_blob_equal_partial, C19_blob_transitive_refuted, C20_any_sequence, C20_count_refuted, C20_empty_blob_refuted, C20_replay_partial, C21_add_behind_refuted, C21_form_pointer_partial, C21_form_pointer_refuted, C21_index_forms_refuted, C21_index_syntax, C21_no_slash, C21_remove_entry_refuted, C22_copy_cycle_refuted, C22_copy_shares_refuted, C22_list_behind_refuted, C22_list_remove_refuted, C22_list_undo_refuted, C22_patch_changes_refuted, C22_reads_operations, C22_step_add, C22_step_copy, C22_step_move, C22_step_remove, C22_step_replace, C22_step_test, C22_undo_throws_refuted, C23_documents_shared_refuted, C23_nan_refuted, C23_shorter_list_refuted, C23_slash_refuted, C23_tilde_refuted, C24_backslash_refuted, C24_bracket_refuted, C24_delimiter_refuted, C24_empty_containers_refuted, C24_empty_document_refuted, C24_empty_key_refuted, C24_expand_changes_input_refuted, C24_index_text_refuted, C24_not_injective_refuted, C24_path_prefix_refuted, C24_path_text_partial, C24_slash_refuted, C25_empty_map_refuted, C25_empty_update_refuted, C25_equal_scalar_refuted, C25_nan_refuted, C25_new_null_refuted, C25_null_refuted, C25_removed_key_refuted, C25_update_nothing, C26_date_time_refuted, C26_format_partial, C26_length_refuted, C26_not_partial, C26_schema_in_data_refuted, C26_zero_multiple_refuted, C27_schema_in_data_refuted, C27_shared_refuted, C27_unchanged_partial, C28_added_partial, C28_complete_partial, C28_endless_refuted, C28_ends_partial, C28_filled_partial, C28_kept_partial, C28_once_partial, C28_twice_refuted, C29_bundle_stream_refuted, C29_empty_payload_refuted, C29_length_lost_refuted, C29_list_length_nulls_refuted, C29_list_length_refuted, C29_long_payload_refuted, C29_lost_nul_refuted, C29_map_count_refuted, C30_memory_output_partial, C30_memory_output_refuted, C30_no_counter_refuted, C30_serialize_memory_partial, C30_serialize_small_buffer_refuted, C31_large_request_refuted, C31_memory_delivers, C31_short_read_refuted, C31_stream_delivers_partial, C31_stream_prefix_partial, C32_long_double_refuted, C32_nul_refuted, C33_parse_bool_exact, C34_nul_refuted, C34_other_text_kept, C34_overflow_refuted, C34_yaml_refuted, C35_blank_memory_refuted, C35_guess_format_partial, C35_guess_format_refuted, C36_each_once_partial, C36_empty_stream_refuted, C36_end_advanced_refuted, C36_json_partial, C36_json_several_refuted, C36_loop_partial, C36_xml_endless_refuted, C36_yaml_partial, C37_chunk_independent, C37_flat_exactly, C37_infinity_refuted, C37_keys_refuted, C37_last_line_refuted, C37_lists_refuted, C37_partial_output_refuted, C37_scalars_refuted, C37_strings_refuted, C37_written, C38_escape, C38_lone_high_rejected, C38_lone_low_rejected, C38_pair, C39_blob_refuted, C39_garbage_refuted, C39_safe_partial, C39_terminates, C40_accepts_lenient_partial, C40_accepts_partial, C40_big_integer_refuted, C40_cut_literal_refuted, C40_rejects_partial, C40_rejects_refuted, C40_tagged_string_refuted, C40_trailing_refuted, C40_zero_exponent_refuted, C42_count_refuted, C42_counts_partial, C43_at_sign_refuted, C43_dots_gone, C43_dots_idempotent, C43_dots_rfc_partial, C43_dots_root_refuted, C43_parse_partial, C43_resolve_rfc_partial, C43_resolve_stable_partial, C43_resolve_stable_refuted, C44_containers_refused, C44_float_to_int_refuted, C44_narrow_casts, C44_refused_refuted, C44_text_roundtrip, C44_text_to_int, C44_text_to_unsigned_partial, C45_nul_refuted, C46_decodes, C46_malformed_kept_partial, C46_malformed_refuted, C46_onto, C47_anchor_again_refuted, C47_binary_refuted, C47_int_tag_refuted, C47_key_anchor_refuted, C47_key_text_refuted, C47_unknown_alias, C47_yaml_document_partial, C48_cycle_refuted, C49_lists_refuted, C49_own_id_refuted, C49_space_refuted, C49_twice_refuted, C50_encoding_refused, C50_keys_refuted, C50_long_double_refuted, C50_nul_refuted, C50_spelled_text_lost, C50_text_becomes_number_refuted, C51_blank_keys_refuted, C51_blank_refuted, C51_comment_refuted, C51_empty_blob_refuted, C51_long_double_refuted, C51_nul_refuted, C51_octal_refuted, C51_two_values_refuted, C52_accepts_partial, C52_add_argument, C52_add_option, C52_argument_missing_refuted, C52_config_itself_refuted, C52_config_silent_refuted, C52_config_type_refuted, C52_count_group_refuted, C52_count_required_refuted, C52_default_refuted, C52_env_append_refuted, C52_env_flag_refuted, C52_forms, C52_groups, C52_hidden_refuted, C52_integer, C52_integer_only, C52_not_required_refuted, C52_null_missing_refuted, C52_result_partial, C52_saturates_refuted, C52_text, C52_twice_refuted, C52_unsigned_refuted, C52_values_partial, C53_append_refuted, C53_config_refuted, C53_const_refuted, C53_deep_refuted, C53_default_refuted, C53_length_refuted, C53_pattern_refuted, C53_strict_groups_partial, C53_through_refuted, C53_type_refuted, C53_unknown_refuted, C54_any_value_partial, C54_bundle_refuted, C54_copy_partial, C54_copy_refuted, C54_cut_refuted, C54_get_params_partial, C54_half_refuted, C54_make_partial, C54_read_back_partial, C54_set_params_other_partial, C54_set_params_partial, C54_strict_refuted, C54_style_always_partial, C54_style_partial, C54_style_refuted, C54_told_refuted, C54_unknown_partial, C54_uses_partial

## `Classical_Prop.classic` (30)

C14_set_path_exact_partial, C14_trees_exist, C15_erase_exact_partial, C15_erase_remove_empty_partial, C16_merge_trees, C21_add_behind, C21_add_exact_partial, C21_copy_exact_partial, C21_every_location, C21_lookup_exact, C21_move_exact_partial, C21_move_from_nothing, C21_not_an_index, C21_remove_entry_throws, C21_remove_exact_partial, C21_replace_exact, C22_all_or_nothing_partial, C22_trees_exist, C23_diff_reads_only, C24_flat_exact_partial, C24_flatten_expand_partial, C25_not_named, C25_update_exact, C26_call_partial, C48_data_refuted, C48_normalises, C48_twice_partial, C48_twice_refuted, C49_added, C49_lookup

## `FunctionalExtensionality.functional_extensionality_dep` (1)

C27_ends_partial

## `ClassicalDedekindReals.sig_forall_dec`, `FunctionalExtensionality.functional_extensionality_dep` (9)

C11_signed_never_wrong, C18_equality_refuted, C26_beside_reference_refuted, C26_infinity_integer_refuted, C26_limit_refuted, C26_meaning_unique, C26_negative_fraction_refuted, C26_negative_multiple_refuted, C26_small_fraction_refuted

## `ClassicalDedekindReals.sig_forall_dec`, `ClassicalDedekindReals.sig_not_dec`, `Classical_Prop.classic`, `FunctionalExtensionality.functional_extensionality_dep` (41)

C01_roundtrip_default_partial, C01_roundtrip_partial, C02_pretty_same_partial, C03_wellformed_bytes_partial, C03_wellformed_partial, C10_compare_partial, C10_operators_partial, C10_total_order_partial, C11_exact_partial, C11_unary, C18_equal_full, C18_equal_partial, C18_equivalence_partial, C18_reflexive_symmetric, C23_diff_empty, C23_diff_patch_partial, C25_diff_of_same, C25_diff_update_other_partial, C25_diff_update_partial, C26_fractions_partial, C26_tolerance_partial, C26_validation_partial, C29_json_roundtrip_partial, C29_no_payload_partial, C32_builder_inverts_bare_partial, C32_builder_inverts_partial, C34_recognised_partial, C37_roundtrip_partial, C37_string_exact, C41_default_precision, C41_float_text_roundtrip, C44_null_and_bool, C44_numbers, C45_roundtrip_partial, C50_documents_partial, C50_roundtrip_partial, C51_document_partial, C51_scalar_not_read, C51_serialize_partial, C53_strict_partial, C53_valid_partial
