# What `Print Assumptions` lists

Generated by `tools/axioms.py` from a full build. All axioms are those of Coq's standard library.

## Closed under the global context (285 theorems)

* `P_Bytes`: C96_encoding_fails_only_on_surrogates, C96_text_round_trip, C96_bytes_round_trip, C96_as_unicode_total, C96_guessed_bytes_change_refuted, C96_pieces, C96_SFString_takes_utf8, C96_MFString_splits_bytes_refuted
* `P_Cache`: C44_no_stale_data, C44_data_retained, C45_entry_belongs_to_object, C45_entries_die_with_client, C45_new_object_finds_nothing, C44_default_after_invalidation_refuted, C44_other_holder_unaffected_refuted, C46_matrix_up_to_date, C46_matrix_up_to_date_fixed_centers, C46_center_missed_refuted
* `P_Class`: C77_constructor_is_assignment, C77_constructed_node, C77_other_keywords_refused, C77_aliases, C77_events_as_keywords_refuted, C78_added_field_is_found, C78_nothing_else_changes, C78_remove_undoes_add, C78_listed_fields_can_be_removed_refuted, C78_removed_shows_base, C79_class_value_reads_back, C79_unset_class_value, C79_reading_is_silent, C79_reading_a_class_is_silent, C79_reading_leaves_field_intact_refuted, C79_class_values_can_be_deleted_refuted, C80_name_reads_back, C80_others_keep_their_names, C80_prototype
* `P_Coerce`: C15_SFBool, C15_SFInt32, C15_SFString, C15_MFString, C17_vector_accepts, C17_wrong_length_rejected, C17_scalars_rejected, C17_matrix_from_sequence_refuted, C17_matrix_from_string_refuted, C17_arrays, C17_mfvec_string_refuted, C18_MFColor_rejects, C18_iterator_refuted, C18_nested_with_name_refuted, C15_SFBool_value, C15_SFString_value, C15_MFString_value, C15_MFInt32_value, C15_MFFloat_value, C15_MFVec_value, C15_MFFloat_string_value
* `P_Collapse`: C16_collapse_finite, C16_collapse_terminates_only_if_finite, C16_leaves_unique
* `P_Color`: C19_hex_any_length, C19_byte_round_trip, C19_names_case_insensitive, C19_case_insensitive, C19_other_strings_rejected
* `P_Copy`: C41_copy_is_new_node, C41_copy_equal, C41_parts_fresh, C41_copy_independent, C41_original_independent, C41_one_copy_per_pass, C41_deep_copy_refuted, C41_weak_root_refuted, C42_copied_DEF_in_copy_refuted, C42_named_scenegraph_copy_refuted
* `P_Cull`: C57_cull_iff_some_plane_excludes_all, C57_cull_any_arithmetic, C57_wrong_shape_rejected
* `P_Echo`: C99_value_is_last_stored, C99_heard_at_most_once, C99_heard_once, C99_mirror, C99_assignment_sticks, C99_acyclic, C99_later_watchers_refuted
* `P_Field`: C08_read_last_write, C08_read_default, C08_read_after_delete, C08_frame, C09_rejected_set_atomic, C09_every_exception_atomic, C10_messages_exact, C10_watcher_agrees, C11_default_materialised_once, C11_getDefault_without_client_stores_nothing, C12_accelerated_delete, C12_delete_unset_raises, C12_pure_delete_keeps_value_refuted, C13_implementations_agree, C13_deletion_differs_refuted
* `P_Format`: C65_double_vectors_exact, C65_double_rows_exact, C65_flat_doubles_exact, C65_single_vectors_rounded, C65_single_rows_rounded, C65_integers_exact, C65_MFVec2d_refuted
* `P_Grammar`: C62_parser_answers_every_text, C62_accepted_text_is_consumed, C25_separators_are_maximal, C25_layout_does_not_matter, C26_plain_names_are_read, C26_keyword_prefixed_type_refuted, C26_keyword_prefixed_field_refuted, C63_empty_scene_refuted, C63_first_line_alone
* `P_Instantiate`: C43_only_last_targets_change, C43_last_target_initialised, C43_single_targets_initialised, C43_every_target_initialised_refuted, C43_every_target_linked, C61_instances_independent_refuted, C61_new_instance_resets_refuted
* `P_Linearise`: C30_nodes_are_written, C30_array_default_refuted, C30_array_default_loses_refuted, C30_zero_sign_refuted, C31_writing_ends, C31_node_writing_ends, C31_depth_irrelevant, C31_entered_once
* `P_MFNode`: C60_changes_announced, C60_announced_value_refuted, C60_other_field_announced_refuted, C60_assigned_list_silent_refuted, C60_default_list_silent_refuted, C60_iadd_loses_children_refuted, C60_set_shows_nodes, C60_assignment_announced, C60_first_set_announced, C60_list_calls_show, C60_fields_independent
* `P_Net`: C81_adds_the_route, C81_forms_agree, C81_constructor, C81_unknown_name_reported_refuted, C82_routes_in_effect, C82_removed_route_ends, C82_value_goes_along_routes, C82_reaches_exactly, C82_ends, C82_new_source_refuted, C83_watch_in_effect, C83_functions_called, C83_every_change_refuted, C83_removed_watch_ends_refuted, C83_scene_can_be_saved_refuted, C84_no_destination, C84_missing_field_refuted
* `P_NodePath`: C47_common_longest, C47_common_commutes, C48_eq_is_identity, C48_add_node_and_list, C48_add_congruent, C49_invalidate_exact, C49_invalidate_changes_nothing_else, C49_deep_descendants_missed_refuted
* `P_OList`: C01_olist_refines_list, C01_unhashable_refuted, C02_event_balance, C02_slice_assignment_counts, C02_duplicates_refuted, C02_clear_silent_refuted, C03_messages_paired, C04_delitem_keeps_item_refuted, C04_iadd_rebinds_refuted
* `P_ProtoFn`: C58_lookup_follows_documented_order, C58_resolution_unique, C58_set_and_changed_aliases, C58_storage_name_returns_string_refuted, C58_changed_of_set_field_refuted, C59_fields_once_most_derived, C59_hidden_field_still_listed_refuted
* `P_Reading`: C66_reading_is_faithful, C66_meaningful_documents_are_read, C25_same_scene_in_every_layout, C67_names_defined_before_use, C68_types_declared_before_use, C66_is_names_are_declared, C70_instances_keep_their_values_refuted, C67_extra_entries_refuted
* `P_Resave`: C72_equal_scenes_same_text
* `P_Resaved`: C75_inner_protos_stay_apart_refuted, C76_event_maps_are_saved_refuted, C75_bodies_are_confused_refuted
* `P_Route`: C32_cascade_terminates, C32_once_per_event, C33_reaches_exactly, C33_same_value_everywhere, C34_terminates_iff_no_event_cycle, C34_reaches_exactly, C34_event_cycle_refuted, C34_value_behind_event_refuted, C35_fields_hold_coerced_values, C35_rejected_value_travels_refuted, C36_all_ends_agree, C36_times_set, C36_echo_refuted, C36_same_node_refuted
* `P_Scene`: C29_unnamed_sharing_refuted
* `P_SceneGraph`: C37_table_agrees_with_nodes, C37_one_name_per_node, C37_lookup_is_last_registration, C37_node_name_is_last_registration, C37_direct_assignment_refuted, C38_nearest_definition, C39_routed_nodes_named, C39_endpoints_resolve, C39_unregistered_name_clash_refuted, C40_root_reaches_exactly_descendants, C40_cycle_never_terminates_refuted
* `P_Script`: C85_scripts_are_read_as_written, C86_extern_protos_are_read_as_written
* `P_Tree`: C93_scenes_mirror_the_text, C93_paths_lead_to_the_nodes, C93_use_is_the_node_defined
* `P_Types`: C100_extensions_wf, C100_nameless_types_refuted
* `P_Values`: C95_values_fit, C95_misfits_are_refused, C95_types_without_values_refuted, C95_wrong_kind_refuted
* `P_VrmlStr`: C20_string_survives, C20_string_injective, C21_string_list_survives, C22_infinity_unreadable_refuted, C23_integer_survives, C24_number_list_tokens, C24_vector_list_tokens, C24_wide_rows_never_end_refuted, C64_unreadable_types_refuted
* `P_Watch`: C97_quiet_observers, C97_the_exception_ends_the_call, C97_contents_old_or_new, C97_history, C97_changed_although_it_raised, C97_slice_deletion, C97_announcements_wrong_refuted, C97_fields_as_if_nothing_raised, C97_field_results
* `P_Weak`: C05_members_alive, C05_collection_removes_exactly, C05_operations_as_builtin, C06_iteration_complete, C06_iteration_subsequence, C06_yielded_alive, C06_live_member_skipped_refuted, C07_queries_raise_refuted, C14_weak_field_never_dead, C14_set_then_get, C14_falsy_clears_accel, C14_falsy_does_not_clear_pure_refuted, C14_falsy_on_unset_raises_refuted, C14_set_through_reference, C14_fset_returns_live, C14_attribute_returns_raw_reference_refuted
* `P_WeakKey`: C101_answers_like_a_dictionary, C101_lists_the_live_keys, C101_returns_live_objects, C101_entries_go_with_their_keys, C101_values_that_lead_to_their_key_refuted, C101_prototypes_have_their_own_maps, C101_counting_refuted, C101_equal_keys_refuted
* `P_X3D`: C89_x3d_files_read_as_vrml97, C89_documents, C89_empty, C90_two_metas_refuted, C90_components_refuted, C90_version_refuted, C91_access_words, C91_plain_words, C91_access_words_refuted, C89_always_answers

## `ClassicalDedekindReals.sig_forall_dec`, `FunctionalExtensionality.functional_extensionality_dep` (9 theorems)

* `P_Coerce`: C18_nan_refuted
* `P_Combined`: C103_growth
* `P_Matrix`: C54_ortho_columns, C54_ortho_rows_refuted, C55_center_refuted, C55_center_zero, C56_scale_translation, C56_degenerate_box_refuted
* `P_Placed`: C104_error_per_transform

## `ClassicalDedekindReals.sig_forall_dec`, `ClassicalDedekindReals.sig_not_dec`, `FunctionalExtensionality.functional_extensionality_dep` (23 theorems)

* `P_Matrix`: C50_transform_semantics, C50_parent_matrix, C50_same_matrix, C50_only_with_axes, C50_determined, C51_inverse, C51_undoes, C51_chain, C51_parent_pair_refuted, C52_none_iff_whole_turns, C52_rotation, C52_axis_length, C52_opposite_axis, C52_zero_axis, C46_matrix_up_to_date_real, C53_path_matrix, C53_inverse, C54_perspective_inverse, C54_perspective_frustum, C56_rotation, C56_transforms, C56_projections, C56_zero_axis_refuted

## `ClassicalDedekindReals.sig_forall_dec`, `ClassicalDedekindReals.sig_not_dec`, `Classical_Prop.classic`, `FunctionalExtensionality.functional_extensionality_dep` (75 theorems)

* `P_Coerce`: C15_SFFloat, C15_MFInt32, C15_MFFloat, C15_SFVec, C15_MFVec, C15_SFColor, C15_MFColor, C18_SFColor_range, C18_MFColor_range, C18_in_range_unchanged, C18_MFColor_list, C15_SFBool_number_value
* `P_Color`: C19_hex_rrggbb, C19_named_in_range, C19_shorthand_refuted
* `P_Combined`: C103_combined_is_accurate, C103_path_is_accurate, C103_points_land, C103_always_defined, C103_large_scales_refuted
* `P_Extern`: C92_extern_protos_refuted
* `P_Format`: C65_stored_format
* `P_Linearise`: C30_left_out_is_default, C30_changed_field_is_written
* `P_Placed`: C104_point_placed, C104_point_taken_back, C104_there_and_back, C104_always_defined, C104_flat_scale_refuted, C104_many_turns_refuted
* `P_Proj`: C102_perspective_is_accurate, C102_perspective_inverse, C102_ortho_is_accurate, C102_equal_planes_are_refused, C102_planes_near_the_eye_refuted
* `P_Proto`: C73_written_protos_read_back
* `P_Reading`: C69_no_dangling_references
* `P_Reload`: C71_load_save_load
* `P_Resave`: C72_saving_again_changes_nothing, C72_saved_files_are_stable
* `P_Resaved`: C74_loaded_protos_can_be_saved_refuted, C76_every_event_map_is_lost_refuted
* `P_Rounded`: C94_translation_exact, C94_scale_near, C94_there_and_back, C94_zero_scale_refuted, C94_far_translation_refuted, C94_scale_exact_refuted, C94_near_points_lost_refuted
* `P_Scene`: C27_written_scene_reads_back, C29_defined_once_before_use, C27_standard_nodes, C28_string_lists_readable_refuted, C28_font_style_refuted
* `P_ScriptSave`: C87_saved_scripts_read_back, C87_values_refuted, C88_sources_refuted
* `P_Turn`: C98_rotation_near, C98_inverse_near, C98_huge_axis_refuted, C98_tiny_axis_refuted
* `P_Turn32`: C98_field_rotation_near, C98_field_inverse_near, C98_field_huge_axis_refuted, C98_field_tiny_axis_refuted
* `P_Types`: C100_unknown_types_are_refused, C100_known_types_are_enough, C100_extension_scenes_with_extended_loader, C100_extension_scenes_by_default_refuted
* `P_VrmlStr`: C22_compact_is_one_number, C22_reading_is_nearest, C22_float_survives, C64_stored_value_survives, C64_assigned_value_survives, C64_faithful_rendering_exists
