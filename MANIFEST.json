{
 "claims": [
  {
   "property": "C01",
   "status": "proved",
   "theorems": [
    "C01_olist_refines_list",
    "C01_unhashable_refuted"
   ],
   "note": "for hashable values (all nodes are); C01_unhashable_refuted shows the exception for unhashable ones."
  },
  {
   "property": "C02",
   "status": "proved",
   "theorems": [
    "C02_event_balance",
    "C02_slice_assignment_counts",
    "C02_duplicates_refuted",
    "C02_clear_silent_refuted"
   ],
   "note": "balance on the exact domain where it holds, exact counts for slice assignment; _refuted theorems show the failures outside (duplicates, inherited clear)."
  },
  {
   "property": "C03",
   "status": "proved",
   "theorems": [
    "C03_messages_paired"
   ],
   "note": ""
  },
  {
   "property": "C04",
   "status": "partial",
   "theorems": [
    "C04_delitem_keeps_item_refuted",
    "C04_iadd_rebinds_refuted"
   ],
   "note": "REFUTED: both halves of the English property are false of the code, proved for every list and index."
  },
  {
   "property": "C05",
   "status": "proved",
   "theorems": [
    "C05_members_alive",
    "C05_collection_removes_exactly",
    "C05_operations_as_builtin"
   ],
   "note": ""
  },
  {
   "property": "C06",
   "status": "proved",
   "theorems": [
    "C06_iteration_complete",
    "C06_iteration_subsequence",
    "C06_yielded_alive",
    "C06_live_member_skipped_refuted"
   ],
   "note": "exact behaviour under every collection schedule; the wider claim (every survivor is visited) is refuted."
  },
  {
   "property": "C07",
   "status": "partial",
   "theorems": [
    "C07_queries_raise_refuted"
   ],
   "note": "REFUTED: the queries raise for every list on Python 3."
  },
  {
   "property": "C08",
   "status": "proved",
   "theorems": [
    "C08_read_last_write",
    "C08_read_default",
    "C08_read_after_delete",
    "C08_frame"
   ],
   "note": ""
  },
  {
   "property": "C09",
   "status": "proved",
   "theorems": [
    "C09_rejected_set_atomic",
    "C09_every_exception_atomic"
   ],
   "note": ""
  },
  {
   "property": "C10",
   "status": "proved",
   "theorems": [
    "C10_messages_exact",
    "C10_watcher_agrees"
   ],
   "note": ""
  },
  {
   "property": "C11",
   "status": "proved",
   "theorems": [
    "C11_default_materialised_once",
    "C11_getDefault_without_client_stores_nothing"
   ],
   "note": ""
  },
  {
   "property": "C12",
   "status": "proved",
   "theorems": [
    "C12_accelerated_delete",
    "C12_delete_unset_raises",
    "C12_pure_delete_keeps_value_refuted"
   ],
   "note": "for the accelerated implementation; refuted for the pure-Python one for every set field."
  },
  {
   "property": "C13",
   "status": "proved",
   "theorems": [
    "C13_implementations_agree",
    "C13_deletion_differs_refuted"
   ],
   "note": ""
  },
  {
   "property": "C14",
   "status": "proved",
   "theorems": [
    "C14_weak_field_never_dead",
    "C14_set_then_get",
    "C14_falsy_clears_accel",
    "C14_falsy_does_not_clear_pure_refuted",
    "C14_falsy_on_unset_raises_refuted",
    "C14_set_through_reference",
    "C14_fset_returns_live",
    "C14_attribute_returns_raw_reference_refuted"
   ],
   "note": "fget/fset half; attribute access refuted."
  },
  {
   "property": "C15",
   "status": "proved",
   "theorems": [
    "C15_SFBool",
    "C15_SFInt32",
    "C15_SFFloat",
    "C15_SFString",
    "C15_MFString",
    "C15_MFInt32",
    "C15_MFFloat",
    "C15_SFVec",
    "C15_MFVec",
    "C15_SFColor",
    "C15_MFColor",
    "C15_SFBool_value",
    "C15_SFBool_number_value",
    "C15_SFString_value",
    "C15_MFString_value",
    "C15_MFInt32_value",
    "C15_MFFloat_value",
    "C15_MFVec_value",
    "C15_MFFloat_string_value"
   ],
   "note": "canonical format, idempotence and the stored value, for the modelled Python values; string conversions of the runtime are parameters."
  },
  {
   "property": "C16",
   "status": "proved",
   "theorems": [
    "C16_collapse_finite",
    "C16_collapse_terminates_only_if_finite",
    "C16_leaves_unique"
   ],
   "note": "on a heap of list objects: termination exactly for finite nestings, exact result, no existing list changed."
  },
  {
   "property": "C17",
   "status": "proved",
   "theorems": [
    "C17_vector_accepts",
    "C17_wrong_length_rejected",
    "C17_scalars_rejected",
    "C17_matrix_from_sequence_refuted",
    "C17_matrix_from_string_refuted",
    "C17_arrays",
    "C17_mfvec_string_refuted"
   ],
   "note": "sequences accepted iff the flattened length is right; scalars rejected by all, matrices reject all sequences and strings (the documented conversions are refuted)."
  },
  {
   "property": "C18",
   "status": "proved",
   "theorems": [
    "C18_SFColor_range",
    "C18_MFColor_range",
    "C18_nan_refuted",
    "C18_in_range_unchanged",
    "C18_MFColor_list",
    "C18_MFColor_rejects",
    "C18_iterator_refuted",
    "C18_nested_with_name_refuted"
   ],
   "note": "all components in [0,1] except nan (refuted for nan); MFColor lists of names and triples characterised exactly; iterators and nested triples with names refuted."
  },
  {
   "property": "C19",
   "status": "proved",
   "theorems": [
    "C19_hex_any_length",
    "C19_hex_rrggbb",
    "C19_byte_round_trip",
    "C19_names_case_insensitive",
    "C19_case_insensitive",
    "C19_other_strings_rejected",
    "C19_named_in_range",
    "C19_shorthand_refuted"
   ],
   "note": "each component is the double nearest to byte/255; the #rgb shorthand is refuted."
  },
  {
   "property": "C20",
   "status": "proved",
   "theorems": [
    "C20_string_survives",
    "C20_string_injective"
   ],
   "note": ""
  },
  {
   "property": "C21",
   "status": "proved",
   "theorems": [
    "C21_string_list_survives"
   ],
   "note": "for writer settings whose separators are separators (both settings shipped are)"
  },
  {
   "property": "C22",
   "status": "proved",
   "theorems": [
    "C22_compact_is_one_number",
    "C22_reading_is_nearest",
    "C22_float_survives",
    "C22_infinity_unreadable_refuted"
   ],
   "note": "for every decimal rendering; the round trip of a float is relative to str( float ) being such a rendering that reads back (shown satisfiable); infinities and nans refuted"
  },
  {
   "property": "C23",
   "status": "proved",
   "theorems": [
    "C23_integer_survives"
   ],
   "note": ""
  },
  {
   "property": "C24",
   "status": "proved",
   "theorems": [
    "C24_number_list_tokens",
    "C24_vector_list_tokens",
    "C24_wide_rows_never_end_refuted"
   ],
   "note": "element texts are the tokens, in order, for any length; dimension above 100 refuted (the loop never ends)"
  },
  {
   "property": "C25",
   "status": "proved",
   "theorems": [
    "C25_separators_are_maximal",
    "C25_layout_does_not_matter",
    "C25_same_scene_in_every_layout"
   ],
   "note": "Nested vectors, and PROTO, EXTERNPROTO or ROUTE between the attributes of a node, are outside the layout theorem; the separator theorem covers every text."
  },
  {
   "property": "C26",
   "status": "proved",
   "theorems": [
    "C26_plain_names_are_read",
    "C26_keyword_prefixed_type_refuted",
    "C26_keyword_prefixed_field_refuted"
   ],
   "note": "Positive on names without a keyword prefix; for names continuing a keyword both refutations hold for every continuation."
  },
  {
   "property": "C27",
   "status": "proved",
   "theorems": [
    "C27_written_scene_reads_back",
    "C27_standard_nodes"
   ],
   "note": "for node types with parsable fields and plain defaults (all standard nodes but FontStyle are such: C27_standard_nodes), scenes whose string lists are empty or default and whose shared nodes are named; no PROTO instances, scripts or nested scenegraphs"
  },
  {
   "property": "C28",
   "status": "partial",
   "theorems": [
    "C28_string_lists_readable_refuted",
    "C28_font_style_refuted"
   ],
   "note": "REFUTED: every scene that reaches a node holding a non-empty, non-default string list is written as text that does not parse, at any size, depth and writer settings; every FontStyle is such a node unless its family was emptied"
  },
  {
   "property": "C29",
   "status": "proved",
   "theorems": [
    "C29_defined_once_before_use",
    "C29_unnamed_sharing_refuted"
   ],
   "note": "same domain as C27; without the requirement that shared nodes are named it is refuted (C29_unnamed_sharing_refuted)"
  },
  {
   "property": "C30",
   "status": "proved",
   "theorems": [
    "C30_left_out_is_default",
    "C30_nodes_are_written",
    "C30_changed_field_is_written",
    "C30_array_default_refuted",
    "C30_array_default_loses_refuted",
    "C30_zero_sign_refuted"
   ],
   "note": "for declared defaults that are plain numbers, strings, lists or tuples, up to the sign of a zero; array defaults and the sign of a zero are refuted"
  },
  {
   "property": "C31",
   "status": "proved",
   "theorems": [
    "C31_writing_ends",
    "C31_node_writing_ends",
    "C31_depth_irrelevant",
    "C31_entered_once"
   ],
   "note": "for every reference graph, including cyclic ones"
  },
  {
   "property": "C32",
   "status": "proved",
   "theorems": [
    "C32_cascade_terminates",
    "C32_once_per_event"
   ],
   "note": ""
  },
  {
   "property": "C33",
   "status": "proved",
   "theorems": [
    "C33_reaches_exactly",
    "C33_same_value_everywhere"
   ],
   "note": "on graphs of plain fields; C34_reaches_exactly extends the reach part to event ports."
  },
  {
   "property": "C34",
   "status": "proved",
   "theorems": [
    "C34_terminates_iff_no_event_cycle",
    "C34_reaches_exactly",
    "C34_event_cycle_refuted",
    "C34_value_behind_event_refuted"
   ],
   "note": "exact termination criterion for mixed graphs; the English guarantee (always terminates, delivers the value) is refuted."
  },
  {
   "property": "C35",
   "status": "partial",
   "theorems": [
    "C35_fields_hold_coerced_values",
    "C35_rejected_value_travels_refuted"
   ],
   "note": "REFUTED: the rejected value travels on, for every rejecting field; proved instead that no field ever stores an uncoerced value."
  },
  {
   "property": "C36",
   "status": "proved",
   "theorems": [
    "C36_all_ends_agree",
    "C36_times_set",
    "C36_echo_refuted",
    "C36_same_node_refuted"
   ],
   "note": "agreement of all ends and exact set counts; 'without echo' and same-node mappings are refuted."
  },
  {
   "property": "C37",
   "status": "proved",
   "theorems": [
    "C37_table_agrees_with_nodes",
    "C37_one_name_per_node",
    "C37_lookup_is_last_registration",
    "C37_node_name_is_last_registration",
    "C37_direct_assignment_refuted"
   ],
   "note": "complete description over all registration histories; direct assignment to node.DEF is outside and refuted."
  },
  {
   "property": "C38",
   "status": "proved",
   "theorems": [
    "C38_nearest_definition"
   ],
   "note": ""
  },
  {
   "property": "C39",
   "status": "proved",
   "theorems": [
    "C39_routed_nodes_named",
    "C39_endpoints_resolve",
    "C39_unregistered_name_clash_refuted"
   ],
   "note": ""
  },
  {
   "property": "C40",
   "status": "proved",
   "theorems": [
    "C40_root_reaches_exactly_descendants",
    "C40_cycle_never_terminates_refuted"
   ],
   "note": "acyclic graphs; divergence on every graph with a reachable cycle is the refuted half."
  },
  {
   "property": "C41",
   "status": "proved",
   "theorems": [
    "C41_copy_is_new_node",
    "C41_copy_equal",
    "C41_parts_fresh",
    "C41_copy_independent",
    "C41_original_independent",
    "C41_one_copy_per_pass",
    "C41_deep_copy_refuted",
    "C41_weak_root_refuted"
   ],
   "note": "equality, freshness and independence in both directions at the level of the node's own fields; sub-nodes are shared for every node (deep claim refuted), the weak root reference becomes strong."
  },
  {
   "property": "C42",
   "status": "partial",
   "theorems": [
    "C42_copied_DEF_in_copy_refuted",
    "C42_named_scenegraph_copy_refuted"
   ],
   "note": "REFUTED for every scenegraph and DEF name; a scenegraph with a DEF name of its own cannot be copied at all."
  },
  {
   "property": "C43",
   "status": "proved",
   "theorems": [
    "C43_only_last_targets_change",
    "C43_last_target_initialised",
    "C43_single_targets_initialised",
    "C43_every_target_initialised_refuted",
    "C43_every_target_linked"
   ],
   "note": "exact effect of instantiation: last target initialised, nothing else changed, all targets linked; the all-targets claim is refuted."
  },
  {
   "property": "C44",
   "status": "proved",
   "theorems": [
    "C44_no_stale_data",
    "C44_data_retained",
    "C44_default_after_invalidation_refuted",
    "C44_other_holder_unaffected_refuted"
   ],
   "note": "no stale data and retention; two docstring side claims (default after invalidation, other holders unaffected) are refuted."
  },
  {
   "property": "C45",
   "status": "proved",
   "theorems": [
    "C45_entry_belongs_to_object",
    "C45_entries_die_with_client",
    "C45_new_object_finds_nothing"
   ],
   "note": ""
  },
  {
   "property": "C46",
   "status": "proved",
   "theorems": [
    "C46_matrix_up_to_date",
    "C46_matrix_up_to_date_fixed_centers",
    "C46_center_missed_refuted",
    "C46_matrix_up_to_date_real"
   ],
   "note": "for every flags except scale-without-rotate, and for all flags when no center changes; the remaining case is refuted."
  },
  {
   "property": "C47",
   "status": "proved",
   "theorems": [
    "C47_common_longest",
    "C47_common_commutes"
   ],
   "note": ""
  },
  {
   "property": "C48",
   "status": "proved",
   "theorems": [
    "C48_eq_is_identity",
    "C48_add_node_and_list",
    "C48_add_congruent"
   ],
   "note": ""
  },
  {
   "property": "C49",
   "status": "proved",
   "theorems": [
    "C49_invalidate_exact",
    "C49_invalidate_changes_nothing_else",
    "C49_deep_descendants_missed_refuted"
   ],
   "note": "exact set of marked paths for every history; the wider claim (all descendants) is refuted."
  },
  {
   "property": "C50",
   "status": "proved",
   "theorems": [
    "C50_transform_semantics",
    "C50_parent_matrix",
    "C50_same_matrix",
    "C50_only_with_axes",
    "C50_determined"
   ],
   "note": "over the reals; exact domain: rotations with an axis"
  },
  {
   "property": "C51",
   "status": "proved",
   "theorems": [
    "C51_inverse",
    "C51_undoes",
    "C51_chain",
    "C51_parent_pair_refuted"
   ],
   "note": "over the reals; iff no zero scale factor; parentMatrix pair refuted"
  },
  {
   "property": "C52",
   "status": "proved",
   "theorems": [
    "C52_none_iff_whole_turns",
    "C52_rotation",
    "C52_axis_length",
    "C52_opposite_axis",
    "C52_zero_axis"
   ],
   "note": "over the reals"
  },
  {
   "property": "C53",
   "status": "proved",
   "theorems": [
    "C53_path_matrix",
    "C53_inverse"
   ],
   "note": "over the reals, after any cache history (flags other than scale without rotate, see C46)"
  },
  {
   "property": "C54",
   "status": "proved",
   "theorems": [
    "C54_perspective_inverse",
    "C54_perspective_frustum",
    "C54_ortho_columns",
    "C54_ortho_rows_refuted"
   ],
   "note": "over the reals; row-vector use of orthoMatrix refuted except for centred boxes"
  },
  {
   "property": "C55",
   "status": "partial",
   "theorems": [
    "C55_center_refuted",
    "C55_center_zero"
   ],
   "note": "REFUTED: center() raises for every non-zero translation or center; the zero case is right"
  },
  {
   "property": "C56",
   "status": "proved",
   "theorems": [
    "C56_rotation",
    "C56_scale_translation",
    "C56_transforms",
    "C56_projections",
    "C56_zero_axis_refuted",
    "C56_degenerate_box_refuted"
   ],
   "note": "over the reals; differ on zero axes and degenerate boxes (refuted there)"
  },
  {
   "property": "C57",
   "status": "proved",
   "theorems": [
    "C57_cull_iff_some_plane_excludes_all",
    "C57_cull_any_arithmetic",
    "C57_wrong_shape_rejected"
   ],
   "note": "over rationals and, in comparison form, over any arithmetic."
  },
  {
   "property": "C58",
   "status": "proved",
   "theorems": [
    "C58_lookup_follows_documented_order",
    "C58_resolution_unique",
    "C58_set_and_changed_aliases",
    "C58_storage_name_returns_string_refuted",
    "C58_changed_of_set_field_refuted"
   ],
   "note": "documented order proved; two _refuted theorems show a string result for storage names and the set_/_changed clash."
  },
  {
   "property": "C59",
   "status": "proved",
   "theorems": [
    "C59_fields_once_most_derived",
    "C59_hidden_field_still_listed_refuted"
   ],
   "note": ""
  },
  {
   "property": "C60",
   "status": "proved",
   "theorems": [
    "C60_changes_announced",
    "C60_announced_value_refuted",
    "C60_other_field_announced_refuted",
    "C60_assigned_list_silent_refuted",
    "C60_default_list_silent_refuted",
    "C60_iadd_loses_children_refuted",
    "C60_set_shows_nodes",
    "C60_assignment_announced",
    "C60_first_set_announced",
    "C60_list_calls_show",
    "C60_fields_independent"
   ],
   "note": "for lists first set through fset; assigned and default lists are silent, the value and the other fields announced are wrong, += drops children (refuted parts)."
  },
  {
   "property": "C61",
   "status": "partial",
   "theorems": [
    "C61_instances_independent_refuted",
    "C61_new_instance_resets_refuted"
   ],
   "note": "REFUTED for every prototype with a mapped field."
  },
  {
   "property": "C62",
   "status": "proved",
   "theorems": [
    "C62_parser_answers_every_text",
    "C62_accepted_text_is_consumed"
   ],
   "note": ""
  },
  {
   "property": "C63",
   "status": "partial",
   "theorems": [
    "C63_empty_scene_refuted",
    "C63_first_line_alone"
   ],
   "note": "REFUTED: an empty scene whose first line is ended is a syntax error, for every first line and separators."
  },
  {
   "property": "C64",
   "status": "proved",
   "theorems": [
    "C64_stored_value_survives",
    "C64_assigned_value_survives",
    "C64_unreadable_types_refuted",
    "C64_faithful_rendering_exists"
   ],
   "note": "relative to str( float ) being a faithful decimal rendering, which is shown satisfiable; the nine types without reader and infinities are refuted"
  },
  {
   "property": "C65",
   "status": "proved",
   "theorems": [
    "C65_stored_format",
    "C65_double_vectors_exact",
    "C65_double_rows_exact",
    "C65_flat_doubles_exact",
    "C65_single_vectors_rounded",
    "C65_single_rows_rounded",
    "C65_integers_exact",
    "C65_MFVec2d_refuted"
   ],
   "note": "MFVec2d is refuted: it is derived from the single-precision base class"
  },
  {
   "property": "C66",
   "status": "proved",
   "theorems": [
    "C66_reading_is_faithful",
    "C66_meaningful_documents_are_read",
    "C66_is_names_are_declared"
   ],
   "note": "documents without nested vectors and without PROTO, EXTERNPROTO or ROUTE between attributes; values are plain or start with a node (tidy_doc)"
  },
  {
   "property": "C67",
   "status": "proved",
   "theorems": [
    "C67_names_defined_before_use",
    "C67_extra_entries_refuted"
   ],
   "note": "where fields that hold one node are given one entry; otherwise refuted"
  },
  {
   "property": "C68",
   "status": "proved",
   "theorems": [
    "C68_types_declared_before_use"
   ],
   "note": "where fields that hold one node are given one entry; files that redeclare a type already known are outside the model"
  },
  {
   "property": "C69",
   "status": "proved",
   "theorems": [
    "C69_no_dangling_references"
   ],
   "note": "for every text"
  },
  {
   "property": "C70",
   "status": "partial",
   "theorems": [
    "C70_instances_keep_their_values_refuted"
   ],
   "note": "REFUTED for every document ending with two such instances"
  },
  {
   "property": "C71",
   "status": "proved",
   "theorems": [
    "C71_load_save_load"
   ],
   "note": "without PROTOs and Scripts; finite numbers, string lists empty or default, no NULL in lists of nodes; str( float ) faithful"
  },
  {
   "property": "C72",
   "status": "proved",
   "theorems": [
    "C72_equal_scenes_same_text",
    "C72_saving_again_changes_nothing",
    "C72_saved_files_are_stable"
   ],
   "note": "saving again: same domain as C27 and C71; equal scenes: all scenes of modelled node types"
  },
  {
   "property": "C73",
   "status": "proved",
   "theorems": [
    "C73_written_protos_read_back"
   ],
   "note": "PROTOs of different names; values as in C27; fields mapped by IS hold no nodes; an instance with a value in a field that leads into the body is the only one of its type (C70); what an IS map says about names that are not fields is not kept (C76)"
  },
  {
   "property": "C74",
   "status": "partial",
   "theorems": [
    "C74_loaded_protos_can_be_saved_refuted"
   ],
   "note": "REFUTED for every file of C73 with a PROTO"
  },
  {
   "property": "C75",
   "status": "partial",
   "theorems": [
    "C75_inner_protos_stay_apart_refuted",
    "C75_bodies_are_confused_refuted"
   ],
   "note": "REFUTED by a file, and for all files: whatever a PROTO inside another one is, if its name is already taken the saved text is the same"
  },
  {
   "property": "C76",
   "status": "partial",
   "theorems": [
    "C76_event_maps_are_saved_refuted",
    "C76_every_event_map_is_lost_refuted"
   ],
   "note": "REFUTED by a file, and for all files of C73: after saving and loading every IS map left is of a field"
  },
  {
   "property": "C77",
   "status": "proved",
   "theorems": [
    "C77_constructor_is_assignment",
    "C77_constructed_node",
    "C77_other_keywords_refused",
    "C77_aliases",
    "C77_events_as_keywords_refuted"
   ],
   "note": "events given as keywords are refuted"
  },
  {
   "property": "C78",
   "status": "proved",
   "theorems": [
    "C78_added_field_is_found",
    "C78_nothing_else_changes",
    "C78_remove_undoes_add",
    "C78_listed_fields_can_be_removed_refuted",
    "C78_removed_shows_base"
   ],
   "note": "that every listed field can be removed is refuted"
  },
  {
   "property": "C79",
   "status": "proved",
   "theorems": [
    "C79_class_value_reads_back",
    "C79_unset_class_value",
    "C79_reading_is_silent",
    "C79_reading_a_class_is_silent",
    "C79_reading_leaves_field_intact_refuted",
    "C79_class_values_can_be_deleted_refuted"
   ],
   "note": "that reading leaves the field intact, and that class values can be deleted, are refuted"
  },
  {
   "property": "C80",
   "status": "proved",
   "theorems": [
    "C80_name_reads_back",
    "C80_others_keep_their_names",
    "C80_prototype"
   ],
   "note": ""
  },
  {
   "property": "C81",
   "status": "proved",
   "theorems": [
    "C81_adds_the_route",
    "C81_forms_agree",
    "C81_constructor",
    "C81_unknown_name_reported_refuted"
   ],
   "note": "that unknown names are reported is refuted"
  },
  {
   "property": "C82",
   "status": "proved",
   "theorems": [
    "C82_routes_in_effect",
    "C82_removed_route_ends",
    "C82_value_goes_along_routes",
    "C82_reaches_exactly",
    "C82_ends",
    "C82_new_source_refuted"
   ],
   "note": "for ROUTEs that keep their source; changing it is refuted"
  },
  {
   "property": "C83",
   "status": "proved",
   "theorems": [
    "C83_watch_in_effect",
    "C83_functions_called",
    "C83_every_change_refuted",
    "C83_removed_watch_ends_refuted",
    "C83_scene_can_be_saved_refuted"
   ],
   "note": "three stronger readings are refuted"
  },
  {
   "property": "C84",
   "status": "proved",
   "theorems": [
    "C84_no_destination",
    "C84_missing_field_refuted"
   ],
   "note": "for a field that does not exist it is refuted"
  },
  {
   "property": "C85",
   "status": "proved",
   "theorems": [
    "C85_scripts_are_read_as_written"
   ],
   "note": "Scripts among the children of the scene; fields of types with a value (not SFNode, MFNode) for the values"
  },
  {
   "property": "C86",
   "status": "proved",
   "theorems": [
    "C86_extern_protos_are_read_as_written"
   ],
   "note": ""
  },
  {
   "property": "C87",
   "status": "proved",
   "theorems": [
    "C87_saved_scripts_read_back",
    "C87_values_refuted"
   ],
   "note": "Scripts as children of the scene, no routes; default node fields empty; that field values survive is refuted"
  },
  {
   "property": "C88",
   "status": "partial",
   "theorems": [
    "C88_sources_refuted"
   ],
   "note": "REFUTED: every such file is a syntax error"
  },
  {
   "property": "C89",
   "status": "proved",
   "theorems": [
    "C89_x3d_files_read_as_vrml97",
    "C89_documents",
    "C89_empty",
    "C89_always_answers"
   ],
   "note": "bodies without the four X3D words (C91); vectors in parentheses within lists are refused"
  },
  {
   "property": "C90",
   "status": "partial",
   "theorems": [
    "C90_two_metas_refuted",
    "C90_components_refuted",
    "C90_version_refuted"
   ],
   "note": "REFUTED: COMPONENT, several META statements, a plain number as version"
  },
  {
   "property": "C91",
   "status": "partial",
   "theorems": [
    "C91_access_words",
    "C91_plain_words",
    "C91_access_words_refuted"
   ],
   "note": "REFUTED for inputOutput and outputOnly; proved for the other two, for EXTERNPROTOs"
  },
  {
   "property": "C92",
   "status": "partial",
   "theorems": [
    "C92_extern_protos_refuted"
   ],
   "note": "REFUTED: every file saved with an EXTERNPROTO is a syntax error"
  },
  {
   "property": "C93",
   "status": "proved",
   "theorems": [
    "C93_scenes_mirror_the_text",
    "C93_paths_lead_to_the_nodes",
    "C93_use_is_the_node_defined"
   ],
   "note": "USE of a name given several times: the last one before, by C66; fields passed on by IS are left out (C70)"
  },
  {
   "property": "C94",
   "status": "proved",
   "theorems": [
    "C94_translation_exact",
    "C94_scale_near",
    "C94_there_and_back",
    "C94_zero_scale_refuted",
    "C94_far_translation_refuted",
    "C94_scale_exact_refuted",
    "C94_near_points_lost_refuted"
   ],
   "note": "rotations are in C98; refutations outside the stated domain included"
  },
  {
   "property": "C95",
   "status": "proved",
   "theorems": [
    "C95_values_fit",
    "C95_misfits_are_refused",
    "C95_types_without_values_refuted",
    "C95_wrong_kind_refuted"
   ],
   "note": "for values of built-in node types; entries after the node of an SFNode field are not looked at and are left out; what a string field makes of an entry that is not a string is not stated"
  },
  {
   "property": "C96",
   "status": "proved",
   "theorems": [
    "C96_encoding_fails_only_on_surrogates",
    "C96_text_round_trip",
    "C96_bytes_round_trip",
    "C96_as_unicode_total",
    "C96_guessed_bytes_change_refuted",
    "C96_pieces",
    "C96_SFString_takes_utf8",
    "C96_MFString_splits_bytes_refuted"
   ],
   "note": "encoding utf-8, the default; CPython codecs as specified; refutations beyond the stated domain included"
  },
  {
   "property": "C97",
   "status": "proved",
   "theorems": [
    "C97_quiet_observers",
    "C97_the_exception_ends_the_call",
    "C97_contents_old_or_new",
    "C97_history",
    "C97_changed_although_it_raised",
    "C97_slice_deletion",
    "C97_announcements_wrong_refuted",
    "C97_fields_as_if_nothing_raised",
    "C97_field_results"
   ],
   "note": "observers raise but do not call back into the list or node; integer deletion, which only announces (C04), is covered as it is; refutation beyond the stated domain included"
  },
  {
   "property": "C98",
   "status": "proved",
   "theorems": [
    "C98_rotation_near",
    "C98_inverse_near",
    "C98_huge_axis_refuted",
    "C98_tiny_axis_refuted",
    "C98_field_rotation_near",
    "C98_field_inverse_near",
    "C98_field_huge_axis_refuted",
    "C98_field_tiny_axis_refuted"
   ],
   "note": "pure Python version; float32 values combine with Python numbers as in numpy 2; a zero length raises ZeroDivisionError for Python floats where float64 gives nan; accuracy of the C library is a hypothesis; refutations outside the stated domain included"
  },
  {
   "property": "C99",
   "status": "proved",
   "theorems": [
    "C99_value_is_last_stored",
    "C99_heard_at_most_once",
    "C99_heard_once",
    "C99_mirror",
    "C99_assignment_sticks",
    "C99_acyclic",
    "C99_later_watchers_refuted"
   ],
   "note": "connections do not change while messages are sent; refutation beyond the stated domain included"
  },
  {
   "property": "C100",
   "status": "proved",
   "theorems": [
    "C100_unknown_types_are_refused",
    "C100_known_types_are_enough",
    "C100_extensions_wf",
    "C100_extension_scenes_with_extended_loader",
    "C100_extension_scenes_by_default_refuted",
    "C100_nameless_types_refuted"
   ],
   "note": "scenes as in C27; of the shader types the seven that have a name and defaults of the right type; refutations for the default parser and for types without name included"
  },
  {
   "property": "C101",
   "status": "proved",
   "theorems": [
    "C101_answers_like_a_dictionary",
    "C101_lists_the_live_keys",
    "C101_returns_live_objects",
    "C101_entries_go_with_their_keys",
    "C101_values_that_lead_to_their_key_refuted",
    "C101_prototypes_have_their_own_maps",
    "C101_counting_refuted",
    "C101_equal_keys_refuted"
   ],
   "note": "one thread; methods inherited from weakref.WeakKeyDictionary as in CPython 3.9 to 3.13; refutations beyond the stated domain included"
  },
  {
   "property": "C102",
   "status": "proved",
   "theorems": [
    "C102_perspective_is_accurate",
    "C102_perspective_inverse",
    "C102_ortho_is_accurate",
    "C102_equal_planes_are_refused",
    "C102_planes_near_the_eye_refuted"
   ],
   "note": "the pure Python version, for arguments that are Python floats; that the library's tangent is accurate to one unit in the last place at the angle is a hypothesis; refutation beyond the stated domain included"
  },
  {
   "property": "C103",
   "status": "proved",
   "theorems": [
    "C103_combined_is_accurate",
    "C103_path_is_accurate",
    "C103_points_land",
    "C103_growth",
    "C103_always_defined",
    "C103_large_scales_refuted"
   ],
   "note": "relative to the exact product of the matrices of the parts as stored; how accurate those are is C94 and C98; refutation beyond the stated domain included"
  },
  {
   "property": "C104",
   "status": "proved",
   "theorems": [
    "C104_point_placed",
    "C104_point_taken_back",
    "C104_there_and_back",
    "C104_error_per_transform",
    "C104_always_defined",
    "C104_flat_scale_refuted",
    "C104_many_turns_refuted"
   ],
   "note": "the pure Python version, numpy 2, all five fields set; excludes nonzero angles whose remainder modulo 2*pi is computed as 0; accuracy of the library's root, cosine and sine is a hypothesis, shown satisfiable; refutations for scales with a 0 and for such angles included"
  }
 ]
}