{
 "claims": [
  {
   "property": "C01",
   "status": "proved",
   "theorems": [
    "C01_varint_rejects_negative",
    "C01_varint_round_trip"
   ],
   "note": ""
  },
  {
   "property": "C02",
   "status": "proved",
   "theorems": [
    "C02_varint_prefix_free"
   ],
   "note": ""
  },
  {
   "property": "C03",
   "status": "proved",
   "theorems": [
    "C03_varint32_at_most_5_bytes",
    "C03_varint_reader_bounded"
   ],
   "note": ""
  },
  {
   "property": "C04",
   "status": "proved",
   "theorems": [
    "C04_int32_round_trip",
    "C04_out_of_range_rejected",
    "C04_read_in_range",
    "C04_uint32_round_trip"
   ],
   "note": ""
  },
  {
   "property": "C05",
   "status": "proved",
   "theorems": [
    "C05_zigzag_bijection",
    "C05_zigzag_order"
   ],
   "note": ""
  },
  {
   "property": "C06",
   "status": "proved",
   "theorems": [
    "C06_bigint_round_trip",
    "C06_bigint_too_large_rejected"
   ],
   "note": ""
  },
  {
   "property": "C07",
   "status": "proved",
   "theorems": [
    "C07_double_bit_exact",
    "C07_double_surjective"
   ],
   "note": ""
  },
  {
   "property": "C08",
   "status": "proved",
   "theorems": [
    "C08_onebyte_round_trip",
    "C08_twobyte_round_trip",
    "C08_utf8_round_trip"
   ],
   "note": ""
  },
  {
   "property": "C09",
   "status": "proved",
   "theorems": [
    "C09_twobyte_aligned"
   ],
   "note": ""
  },
  {
   "property": "C10",
   "status": "proved",
   "theorems": [
    "C10_utf8_injective",
    "C10_utf8_reader_strict",
    "C10_utf8_strict"
   ],
   "note": ""
  },
  {
   "property": "C11",
   "status": "proved",
   "theorems": [
    "C11_ids_sequential",
    "C11_log_refines_ideal",
    "C11_old_entries_stable",
    "C11_only_last_replaceable",
    "C11_record_then_lookup",
    "C11_unrecorded_raise"
   ],
   "note": ""
  },
  {
   "property": "C12",
   "status": "proved",
   "theorems": [
    "C12_attempt_raises",
    "C12_blocked_inside",
    "C12_no_leak",
    "C12_released_after",
    "C12_toplevel_clean"
   ],
   "note": ""
  },
  {
   "property": "C13",
   "status": "proved",
   "theorems": [
    "C13_loads_terminates",
    "C13_loads_work_bounded"
   ],
   "note": ""
  },
  {
   "property": "C14",
   "status": "proved",
   "theorems": [
    "C14_position_in_range",
    "C14_rest_is_not_read"
   ],
   "note": ""
  },
  {
   "property": "C15",
   "status": "partial",
   "theorems": [
    "C15_causes_partial",
    "C15_date_refuted",
    "C15_default_constants",
    "C15_error_tag_refuted",
    "C15_hole_refuted",
    "C15_loads_exceptions_partial",
    "C15_long_refuted",
    "C15_map_key_refuted",
    "C15_no_other_exception_partial",
    "C15_plain_data",
    "C15_regexp_refuted",
    "C15_resizable_buffer_refuted",
    "C15_view_refuted"
   ],
   "note": "The full statement is false of the code: the C15_*_refuted theorems exhibit data on which loads raises IndexError, ValueError, OverflowError, AssertionError, ItemSize/Bounds errors and platform date errors. The partial theorems show that no other exception is possible, and that each of these needs particular bytes in the data (C15_causes_partial); C15_plain_data proves the full statement for data of at most 2040 bytes without those bytes."
  },
  {
   "property": "C16",
   "status": "proved",
   "theorems": [
    "C16_header_required",
    "C16_only_known_versions",
    "C16_other_versions_rejected",
    "C16_view_flags",
    "C16_written_header"
   ],
   "note": "dumps side: C16_written_header (the header every dump starts with)."
  },
  {
   "property": "C17",
   "status": "proved",
   "theorems": [
    "C17_accepted_is_grammatical"
   ],
   "note": ""
  },
  {
   "property": "C18",
   "status": "proved",
   "theorems": [
    "C18_constants",
    "C18_description_unique",
    "C18_grammatical_is_accepted",
    "C18_layout_irrelevant",
    "C18_meaning_unique",
    "C18_meaningless_is_rejected"
   ],
   "note": ""
  },
  {
   "property": "C19",
   "status": "proved",
   "theorems": [
    "C19_cache_size",
    "C19_dumps_document",
    "C19_output_bytes",
    "C19_output_grammatical"
   ],
   "note": ""
  },
  {
   "property": "C20",
   "status": "proved",
   "theorems": [
    "C20_reference_identifies",
    "C20_references_backward"
   ],
   "note": ""
  },
  {
   "property": "C21",
   "status": "partial",
   "theorems": [
    "C21_cache_size_partial",
    "C21_refuted",
    "C21_round_trip_partial",
    "C21_unshared_round_trip_partial"
   ],
   "note": "Proved for every well-formed writable graph whose reference ids agree (C23), without different-but-equal hashable values (C25) and without what able excludes (colliding decoded Map keys, views over shared buffers or out of range, arrays of 2^32 or more elements). C21_unshared_round_trip_partial drops the condition on reference ids for graphs in which every object is held in one place. C21_refuted shows the full statement false."
  },
  {
   "property": "C22",
   "status": "partial",
   "theorems": [
    "C22_huge_key_refuted",
    "C22_shared_view_refuted",
    "C22_tracking_view_refuted",
    "C22_tree_round_trip_partial",
    "C22_wrapper_keys_refuted"
   ],
   "note": "The full statement is false: wrapper keys that collide, views over shared buffers, length-tracking views and huge integer keys (the C22_*_refuted theorems). The partial theorem covers every tree whose keys stay apart and whose views are in range."
  },
  {
   "property": "C23",
   "status": "partial",
   "theorems": [
    "C23_error_refuted",
    "C23_ids_agree_partial",
    "C23_parts_agree_partial",
    "C23_regexp_refuted",
    "C23_shared_refuted"
   ],
   "note": "The full statement is false: C23_regexp_refuted, C23_error_refuted, C23_shared_refuted exhibit values whose references shift. The partial theorems prove agreement for all graphs without regexps, causeless errors and shared/transferred buffers."
  },
  {
   "property": "C24",
   "status": "proved",
   "theorems": [
    "C24_cache_size",
    "C24_dumps_terminates",
    "C24_tree_terminates"
   ],
   "note": ""
  },
  {
   "property": "C25",
   "status": "partial",
   "theorems": [
    "C25_cache_keeps_all",
    "C25_cache_keeps_recent",
    "C25_cache_size_partial",
    "C25_equal_graph_partial",
    "C25_negative_zero_refuted",
    "C25_plain_values_interchangeable",
    "C25_set_item_refuted",
    "C25_shared_view_refuted",
    "C25_tuple_refuted",
    "C25_values_kept_partial",
    "C25_view_type_refuted"
   ],
   "note": "The full statement is false: 0.0 and -0.0, (1,) and (True,), and equal tuple members of a set are conflated (the C25_*_refuted theorems). The partial theorems give the graph up to exchange of equal values, and exactly when equal plain values are interchangeable."
  },
  {
   "property": "C26",
   "status": "proved",
   "theorems": [
    "C26_int_accepted",
    "C26_int_key",
    "C26_int_round_trip"
   ],
   "note": ""
  },
  {
   "property": "C27",
   "status": "partial",
   "theorems": [
    "C27_constant_key_refuted",
    "C27_keys_partial",
    "C27_object_key_raises"
   ],
   "note": "Full for every key that is not a constant (None, True, False, hole); through dumps keys are always legal (C19). Refuted for constants given to the low-level writer: C27_constant_key_refuted."
  },
  {
   "property": "C28",
   "status": "partial",
   "theorems": [
    "C28_failures_explained",
    "C28_hidden_view_refuted",
    "C28_output_supported_partial",
    "C28_supported_succeeds",
    "C28_tree_succeeds",
    "C28_unsupported_raises_partial"
   ],
   "note": "Proved for every graph except one kind of hiding: a Float16Array (without the feature) held only by tuples, when a view of another type has the same contents, is replaced by deduplication before it can raise (C28_hidden_view_refuted)."
  },
  {
   "property": "C29",
   "status": "partial",
   "theorems": [
    "C29_features_partial",
    "C29_regexp_refuted",
    "C29_resizable_view_refuted"
   ],
   "note": "Proved for resizable buffers and Float16Array views over all output; refuted for flags of views over resizable buffers and for the v flag of regexps."
  },
  {
   "property": "C30",
   "status": "partial",
   "theorems": [
    "C30_container_refuted",
    "C30_cycle_raises_partial",
    "C30_enabled_never_raises",
    "C30_raised_only_for_cycles",
    "C30_root_raises"
   ],
   "note": "Raised whenever the cycle is entered through errors (in particular when the root is the error), raised only for cyclic causes, never with the feature. Refuted when the cycle is entered through a container: C30_container_refuted."
  },
  {
   "property": "C31",
   "status": "partial",
   "theorems": [
    "C31_contains",
    "C31_defined",
    "C31_encoder_features",
    "C31_encoder_version",
    "C31_first_version_partial",
    "C31_first_version_refuted",
    "C31_flags",
    "C31_local",
    "C31_monotone",
    "C31_only_features",
    "C31_order",
    "C31_stages",
    "C31_undefined_raises"
   ],
   "note": "Monotone features, containment, rejection of undefined versions and the encoder's features proved for all versions and feature sets; the first version of the empty set raises ValueError (C31_first_version_refuted)."
  },
  {
   "property": "C32",
   "status": "proved",
   "theorems": [
    "C32_any_elements_partial",
    "C32_both_encodings"
   ],
   "note": "C32_both_encodings is the full statement for arrays of leaves; C32_any_elements_partial covers arrays with objects as elements, given that both documents describe the same array."
  },
  {
   "property": "C33",
   "status": "partial",
   "theorems": [
    "C33_object_refines_dict_growing",
    "C33_object_refines_dict_partial",
    "C33_object_refines_dict_small_keys",
    "C33_refuted_delete_assertion"
   ],
   "note": "Full refinement proved when integer keys stay below 15, and with any integer keys when none is removed (C33_object_refines_dict_growing); in general refinement allows the deviations listed in mdeviation (AssertionError and IndexError of the sparse storage), shown real by C33_refuted_delete_assertion."
  },
  {
   "property": "C34",
   "status": "proved",
   "theorems": [
    "C34_dense_refines_list"
   ],
   "note": ""
  },
  {
   "property": "C35",
   "status": "partial",
   "theorems": [
    "C35_no_assertion_with_three_elements",
    "C35_refuted_append_hole",
    "C35_refuted_assertion",
    "C35_refuted_insert_at_end",
    "C35_sparse_entries_refines_list_partial",
    "C35_sparse_refines_list_partial"
   ],
   "note": "The full statement is false of the code: see the C35_refuted theorems. The partial theorem covers every operation sequence and lists each deviation."
  },
  {
   "property": "C36",
   "status": "proved",
   "theorems": [
    "C36_eq_is_same_content",
    "C36_eq_symmetric"
   ],
   "note": ""
  },
  {
   "property": "C37",
   "status": "proved",
   "theorems": [
    "C37_array_regions",
    "C37_regions_tile"
   ],
   "note": ""
  },
  {
   "property": "C38",
   "status": "partial",
   "theorems": [
    "C38_idempotent",
    "C38_int_iff_index",
    "C38_otherwise_string_partial",
    "C38_raises_only_on_limit",
    "C38_refuted_long_digits",
    "C38_refuted_nan",
    "C38_same_key_same_name",
    "C38_same_name_partial"
   ],
   "note": "Integer results, idempotence and string keys proved for all keys; that a float names the property that JavaScript names with it is C77, which shows for which floats it is true; NaN and over-long digit strings are refuted."
  },
  {
   "property": "C39",
   "status": "proved",
   "theorems": [
    "C39_map_refines_entries",
    "C39_map_refines_entries_partial",
    "C39_objects_as_keys",
    "C39_refuted_huge_int"
   ],
   "note": "Proved in full for keys other than ints too large for a float; the _partial theorem covers all keys with the OverflowError deviation, refuted by C39_refuted_huge_int."
  },
  {
   "property": "C40",
   "status": "proved",
   "theorems": [
    "C40_contains_iff_added_last",
    "C40_set_refines_members_partial"
   ],
   "note": "C40_contains_iff_added_last states membership; the refinement theorem allows the OverflowError deviation for ints too large for a float."
  },
  {
   "property": "C41",
   "status": "partial",
   "theorems": [
    "C41_defined_partial",
    "C41_identifies_as_javascript",
    "C41_refuted_defined"
   ],
   "note": "Identification proved wherever same_value_zero returns; it raises OverflowError on ints too large for a float (C41_refuted_defined)."
  },
  {
   "property": "C42",
   "status": "proved",
   "theorems": [
    "C42_create_view_exact",
    "C42_length_tracking",
    "C42_views_follow_resizes",
    "C42_views_stay_inside"
   ],
   "note": ""
  },
  {
   "property": "C43",
   "status": "proved",
   "theorems": [
    "C43_out_of_bounds",
    "C43_read_only_raises",
    "C43_set_then_get",
    "C43_unrepresentable_int_raises"
   ],
   "note": ""
  },
  {
   "property": "C44",
   "status": "proved",
   "theorems": [
    "C44_allocated",
    "C44_created_within_maximum",
    "C44_fixed_buffers_reject",
    "C44_resizable_history"
   ],
   "note": ""
  },
  {
   "property": "C45",
   "status": "proved",
   "theorems": [
    "C45_graph_partial",
    "C45_known_kinds",
    "C45_unknown_kind_same_output",
    "C45_view_round_trip"
   ],
   "note": "C45_view_round_trip for every view of a kind Node knows, C45_unknown_kind_same_output for the others, C45_graph_partial for whole graphs that contain views."
  },
  {
   "property": "C46",
   "status": "partial",
   "theorems": [
    "C46_acyclic_content",
    "C46_acyclic_exact",
    "C46_js_acyclic",
    "C46_js_graphs_partial",
    "C46_js_terminates",
    "C46_overlap_refuted",
    "C46_paired_equal_partial",
    "C46_terminates_and_cleans_up",
    "C46_unequal_refuted",
    "C46_unfolded_refuted"
   ],
   "note": "Termination and clean-up proved for arbitrary __eq__ methods and for the library's classes; exactness proved for acyclic structures, where == is True exactly when the contents are the same, equality of one-to-one paired disjoint structures proved. The general claim is false: C46_overlap_refuted and C46_unfolded_refuted (equal structures compare unequal), C46_unequal_refuted (different structures compare equal)."
  },
  {
   "property": "C47",
   "status": "proved",
   "theorems": [
    "C47_cleans_up",
    "C47_independent"
   ],
   "note": ""
  },
  {
   "property": "C48",
   "status": "partial",
   "theorems": [
    "C48_close",
    "C48_inside",
    "C48_nested",
    "C48_out_of_order_partial",
    "C48_shared_instance_refuted"
   ],
   "note": "Nesting and the effect of every close proved for all programs and histories; the out-of-order claim is proved for blocks opened with keywords and refuted for two blocks sharing one instance (C48_shared_instance_refuted)."
  },
  {
   "property": "C49",
   "status": "proved",
   "theorems": [
    "C49_first",
    "C49_in_order",
    "C49_simple_steps"
   ],
   "note": ""
  },
  {
   "property": "C50",
   "status": "partial",
   "theorems": [
    "C50_ascii_refuted",
    "C50_canonical",
    "C50_js_round_trip",
    "C50_python_round_trip_partial",
    "C50_python_round_trip_same",
    "C50_text",
    "C50_text_once",
    "C50_wire"
   ],
   "note": "Text, wire bits and JavaScript-to-Python conversions proved for all values; Python flags come back except those other than IGNORECASE, MULTILINE, DOTALL and UNICODE, which are dropped silently (C50_ascii_refuted)."
  },
  {
   "property": "C51",
   "status": "proved",
   "theorems": [
    "C51_explicit_tag",
    "C51_own_tag",
    "C51_round_trip",
    "C51_tags"
   ],
   "note": ""
  },
  {
   "property": "C52",
   "status": "partial",
   "theorems": [
    "C52_error_parts_partial",
    "C52_message_refuted",
    "C52_stack_order"
   ],
   "note": "All parts survive except that an absent message becomes an empty one (C52_message_refuted); graphs with causeless errors and references after them shift ids (C23). The stack position claim is proved in full."
  },
  {
   "property": "C53",
   "status": "proved",
   "theorems": [
    "C53_accepted",
    "C53_rejected"
   ],
   "note": ""
  },
  {
   "property": "C54",
   "status": "proved",
   "theorems": [
    "C54_prefix_lines"
   ],
   "note": ""
  },
  {
   "property": "C55",
   "status": "proved",
   "theorems": [
    "C55_last_registered"
   ],
   "note": ""
  },
  {
   "property": "C56",
   "status": "proved",
   "theorems": [
    "C56_frames",
    "C56_line_count",
    "C56_nothing_lost",
    "C56_numbered",
    "C56_own_frames",
    "C56_own_text",
    "C56_suppressed"
   ],
   "note": ""
  },
  {
   "property": "C57",
   "status": "proved",
   "theorems": [
    "C57_round_trip",
    "C57_text_unique"
   ],
   "note": ""
  },
  {
   "property": "C58",
   "status": "proved",
   "theorems": [
    "C58_back",
    "C58_from_python",
    "C58_round_trip",
    "C58_to_python"
   ],
   "note": "re.compile is a parameter."
  },
  {
   "property": "C59",
   "status": "proved",
   "theorems": [
    "C59_comparisons",
    "C59_in_place",
    "C59_members",
    "C59_order",
    "C59_python_compare",
    "C59_python_compare_unhashable",
    "C59_python_set",
    "C59_python_set_iterated",
    "C59_python_set_unhashable",
    "C59_python_subset_refuted",
    "C59_refuted_python_set"
   ],
   "note": ""
  },
  {
   "property": "C60",
   "status": "proved",
   "theorems": [
    "C60_error_name_refuted",
    "C60_keyword_name_refuted",
    "C60_nan_refuted",
    "C60_nfkc_name_refuted",
    "C60_repr_cleans_up",
    "C60_repr_evaluates",
    "C60_repr_evaluates_to_equal",
    "C60_repr_never_raises",
    "C60_repr_threads",
    "C60_sequences",
    "C60_settings_raise_refuted",
    "C60_trailing_holes_refuted"
   ],
   "note": ""
  },
  {
   "property": "C61",
   "status": "partial",
   "theorems": [
    "C61_case_refuted",
    "C61_local_supports_same",
    "C61_marker_partial",
    "C61_other_exception_partial",
    "C61_other_exception_refuted",
    "C61_possessive_refuted",
    "C61_release",
    "C61_suffix_characters_refuted",
    "C61_suffix_partial",
    "C61_suffix_refuted",
    "C61_suffix_supports_same",
    "C61_supported_by_text",
    "C61_without_dash"
   ],
   "note": "Releases, and suffixes that are local segments and do not read as a pre-, post- or development release marker, proved for all texts; texts without dash, capitals and whitespace are read as packaging reads them; only texts with a plus sign and a dash raise anything but InvalidVersion. The full statement is false: the C61_*_refuted theorems."
  },
  {
   "property": "C62",
   "status": "partial",
   "theorems": [
    "C62_clamped_refuted",
    "C62_data_get",
    "C62_data_set",
    "C62_data_view_agrees",
    "C62_fixed_while_open",
    "C62_get",
    "C62_half_close",
    "C62_half_lost_update_refuted",
    "C62_half_opened",
    "C62_half_overflow_refuted",
    "C62_half_private",
    "C62_half_raised_refuted",
    "C62_half_set",
    "C62_half_untouched",
    "C62_local",
    "C62_readers",
    "C62_resize",
    "C62_set",
    "C62_views_agree",
    "C62_window"
   ],
   "note": "Proved for every sequence of operations. The full statement is false of 16-bit float arrays where memoryview has no half floats: they work on a copy, which undoes other writes when the block ends (C62_half_lost_update_refuted), is lost when the block raises (C62_half_raised_refuted) and accepts numbers that do not fit (C62_half_overflow_refuted). What holds for them is in the C62_half theorems. Uint8ClampedArray raises instead of clamping (C62_clamped_refuted)."
  },
  {
   "property": "C63",
   "status": "partial",
   "theorems": [
    "C63_buffer_hash",
    "C63_buffers",
    "C63_data_views",
    "C63_equal",
    "C63_hash",
    "C63_hash_integers",
    "C63_hash_refuted",
    "C63_hash_zeros_refuted",
    "C63_integers",
    "C63_itself",
    "C63_nan",
    "C63_others",
    "C63_same_bytes",
    "C63_shows",
    "C63_symmetric",
    "C63_transitive"
   ],
   "note": "Proved except for the last clause: equal views can have different hashes, as __hash__ uses the bytes and __eq__ the numbers (C63_hash_refuted, C63_hash_zeros_refuted). It holds for views of one integer class (C63_hash_integers) and for buffers (C63_buffer_hash)."
  },
  {
   "property": "C64",
   "status": "partial",
   "theorems": [
    "C64_array_of_pairs_partial",
    "C64_array_of_values_partial",
    "C64_constructors_return",
    "C64_elements_refuted",
    "C64_held_refuted",
    "C64_length",
    "C64_object_partial",
    "C64_small_keys"
   ],
   "note": "Refinement proved for every sequence, with each deviation listed (kdeviation, sparse_deviation, and elements()[len]); without any deviation when integer keys stay below 15 (C64_small_keys). The full statement is false: a reference to .array kept while an index far past the end is set is left behind (C64_held_refuted), and elements()[len(array)] raises IndexError instead of KeyError (C64_elements_refuted)."
  },
  {
   "property": "C65",
   "status": "proved",
   "theorems": [
    "C65_container",
    "C65_dense_elements",
    "C65_impossible_length",
    "C65_loads",
    "C65_shown",
    "C65_stays"
   ],
   "note": ""
  },
  {
   "property": "C66",
   "status": "partial",
   "theorems": [
    "C66_buffer_codes",
    "C66_error_code_written",
    "C66_error_codes",
    "C66_error_names_partial",
    "C66_error_prototype_written_partial",
    "C66_key_codes",
    "C66_node_codes_read",
    "C66_node_codes_written",
    "C66_uri_error_refuted",
    "C66_value_code_written",
    "C66_value_codes",
    "C66_view_code_written",
    "C66_view_codes"
   ],
   "note": "The full statement is false of the code: the name of the URIError prototype is spelled UriError, so that errors named URIError are written as plain errors and V8's URIErrors come back with a name JavaScript does not have (C66_uri_error_refuted). Everything else is proved."
  },
  {
   "property": "C67",
   "status": "partial",
   "theorems": [
    "C67_dense",
    "C67_exact",
    "C67_reverse_one_refuted",
    "C67_reverse_refuted",
    "C67_sparse_partial",
    "C67_unsized_refuted",
    "C67_unsized_values_partial",
    "C67_values"
   ],
   "note": "The full statement is false of the code for sparse storage: reverse() of at most two elements can raise AssertionError and lose one (C67_reverse_refuted, C67_reverse_one_refuted), extending by itself drops holes as append does (C35), and values without a length lose trailing holes (C67_unsized_refuted). Dense storage is proved in full."
  },
  {
   "property": "C68",
   "status": "partial",
   "theorems": [
    "C68_cut_rejected",
    "C68_cut_short_partial",
    "C68_cut_short_refuted",
    "C68_messages",
    "C68_output_all_read",
    "C68_output_cut_rejected",
    "C68_output_messages"
   ],
   "note": "The full statement is false of the format: a view at the top level cut directly before its view tag is the serialized buffer (C68_cut_short_refuted). C68_cut_short_partial proves that this is the only case; C68_cut_rejected, C68_output_all_read, C68_output_cut_rejected, C68_messages and C68_output_messages need no exception."
  },
  {
   "property": "C69",
   "status": "partial",
   "theorems": [
    "C69_bigint_refuted",
    "C69_cause_refuted",
    "C69_dumps_again_features",
    "C69_dumps_again_partial",
    "C69_float16_refuted",
    "C69_same_again_partial",
    "C69_same_again_refuted"
   ],
   "note": "The full statement is false of the code: without the features for them dumps rejects Float16Arrays and errors that are their own cause although loads reads them (C69_float16_refuted, C69_cause_refuted), the largest BigInts that are read cannot be written (C69_bigint_refuted, needs a gigabyte of data), and C21's and C25's exceptions apply to loaded graphs (C69_same_again_refuted). The theorems prove it without these."
  },
  {
   "property": "C70",
   "status": "partial",
   "theorems": [
    "C70_holes_refuted",
    "C70_round_trip_partial",
    "C70_same_graph_same_bytes",
    "C70_settles_partial",
    "C70_settles_refuted",
    "C70_steps",
    "C70_wrapper_refuted"
   ],
   "note": "the first part is proved; dumps(loads(dumps(x))) = dumps(x) is refuted for wrapper objects, lists that are mostly holes and graphs whose ids shift (C23), and proved for the rest"
  },
  {
   "property": "C71",
   "status": "proved",
   "theorems": [
    "C71_cells",
    "C71_mapping_cells",
    "C71_text"
   ],
   "note": ""
  },
  {
   "property": "C72",
   "status": "partial",
   "theorems": [
    "C72_dict_order_refuted",
    "C72_either_side",
    "C72_jsset_jsset",
    "C72_map_dict",
    "C72_map_map",
    "C72_order_irrelevant",
    "C72_set_set",
    "C72_transitive_refuted",
    "C72_unhashable_map_partial",
    "C72_unhashable_refuted",
    "C72_unhashable_set_partial"
   ],
   "note": "Proved for hashable keys. With keys that are not hashable, the items are compared in order instead, so a bytearray member can equal a bytes member (C72_unhashable_refuted) and the order of a dict matters (C72_dict_order_refuted); what holds is C72_unhashable_map_partial and C72_unhashable_set_partial."
  },
  {
   "property": "C73",
   "status": "partial",
   "theorems": [
    "C73_bytes_refuted",
    "C73_equal_partial",
    "C73_list_refuted",
    "C73_name_refuted",
    "C73_nan_refuted",
    "C73_no_message_refuted",
    "C73_resizable_refuted",
    "C73_trailing_hole_refuted",
    "C73_tree_equal_partial",
    "C73_tuple_key_refuted",
    "C73_unshared_equal_partial",
    "C73_wrapper_refuted"
   ],
   "note": "Proved for the values that [comparable] describes. The claim is false of lists (C73_list_refuted), bytes (C73_bytes_refuted), wrapper objects (C73_wrapper_refuted), NaN (C73_nan_refuted), dicts with a tuple as key (C73_tuple_key_refuted), JSObjects that end in a hole (C73_trailing_hole_refuted), errors without a message or with a name of their own (C73_no_message_refuted, C73_name_refuted) and resizable buffers written for a V8 without them (C73_resizable_refuted)."
  },
  {
   "property": "C74",
   "status": "proved",
   "theorems": [
    "C74_array_form",
    "C74_dumps",
    "C74_linear",
    "C74_regexps_refuted",
    "C74_root_form",
    "C74_without_references_refuted"
   ],
   "note": ""
  },
  {
   "property": "C75",
   "status": "partial",
   "theorems": [
    "C75_default",
    "C75_keys_refuted",
    "C75_last_hole_refuted",
    "C75_loads_partial",
    "C75_plain",
    "C75_raises",
    "C75_set_refuted"
   ],
   "note": "False for jsset_type=set (C75_set_refuted); keys such as 1 and true collapse (C75_keys_refuted); a sparse array that ends in a hole has an item JSHole for it (C75_last_hole_refuted). Proved for all data without a Set when jsset_type=set, and characterised there (C75_raises). Arbitrary callables are not modelled."
  },
  {
   "property": "C76",
   "status": "partial",
   "theorems": [
    "C76_aware_partial",
    "C76_back_within",
    "C76_comparable_partial",
    "C76_loaded_dumps",
    "C76_loaded_in_order",
    "C76_loaded_partial",
    "C76_loaded_refuted",
    "C76_max_refuted",
    "C76_rewritten_refuted",
    "C76_round_trip_partial",
    "C76_round_trip_refuted",
    "C76_settles_refuted",
    "C76_timezone_refuted",
    "C76_whole_ms_partial",
    "C76_whole_ms_refuted",
    "C76_written",
    "C76_written_in_order"
   ],
   "note": "False of Python in general (C76_whole_ms_refuted, C76_loaded_refuted, C76_round_trip_refuted, C76_timezone_refuted, C76_max_refuted, C76_rewritten_refuted); proved with the ranges in the statement, and the error bound and the order for all years. The local clock is a parameter; that it shows back what it was given is an assumption of the naive case only."
  },
  {
   "property": "C77",
   "status": "partial",
   "theorems": [
    "C77_fraction_iff",
    "C77_integer_iff",
    "C77_large_refuted",
    "C77_nan_refuted",
    "C77_padded_refuted",
    "C77_readable",
    "C77_safe_integer_partial",
    "C77_same_property"
   ],
   "note": "The full statement is false (C77_fraction_iff, C77_large_refuted, C77_padded_refuted, C77_nan_refuted); C77_fraction_iff and C77_integer_iff characterise the floats for which it is true. That CPython and V8 find the shortest digits is assumed."
  },
  {
   "property": "C78",
   "status": "partial",
   "theorems": [
    "C78_error_refuted",
    "C78_host_refuted",
    "C78_node_refuted",
    "C78_numbers_partial",
    "C78_plain_reads",
    "C78_reads_partial",
    "C78_regexp_refuted",
    "C78_shared_refuted",
    "C78_written_partial"
   ],
   "note": "refuted of the code after host objects and shared or transferred buffers (loads), and after regexps, errors without a cause and host objects (dumps)"
  },
  {
   "property": "C79",
   "status": "partial",
   "theorems": [
    "C79_bigint_refuted",
    "C79_loads_partial",
    "C79_map_iff",
    "C79_set_iff",
    "C79_wrapper_refuted"
   ],
   "note": "refuted of the code for keys 1 and 1n, and for \"a\" and new String(\"a\"): one entry is lost"
  },
  {
   "property": "C80",
   "status": "partial",
   "theorems": [
    "C80_close",
    "C80_constant",
    "C80_fixed_partial",
    "C80_fixed_refuted",
    "C80_frozen",
    "C80_isolated",
    "C80_new",
    "C80_own",
    "C80_pinned",
    "C80_resizable_refuted",
    "C80_shows",
    "C80_writable",
    "C80_written"
   ],
   "note": "fixed length is refuted of the code for a buffer that wraps a bytearray with copy_data=False; the rest is proved"
  },
  {
   "property": "C81",
   "status": "partial",
   "theorems": [
    "C81_accepted_partial",
    "C81_bytearray_refuted",
    "C81_feature_refuted",
    "C81_regexp_refuted"
   ],
   "note": "refuted of the code for views over bytearrays, views over resizable buffers when the feature is off, and after regexps and errors without a cause (references)"
  },
  {
   "property": "C82",
   "status": "partial",
   "theorems": [
    "C82_copies",
    "C82_equal",
    "C82_message",
    "C82_order_partial",
    "C82_order_refuted",
    "C82_order_total",
    "C82_raised_refuted",
    "C82_reflexive",
    "C82_symmetric",
    "C82_transitive_partial",
    "C82_transitive_refuted"
   ],
   "note": "refuted of the code: == is not transitive when a JSError was raised, a copy of error data without message differs, and error data without message or stack may not be ordered"
  },
  {
   "property": "C83",
   "status": "partial",
   "theorems": [
    "C83_buffer_partial",
    "C83_cut",
    "C83_full_resizable_refuted",
    "C83_view_partial",
    "C83_view_readonly_refuted"
   ],
   "note": "refuted of the code: resizable buffers at their maximum and read-only views evaluate to something else"
  },
  {
   "property": "C84",
   "status": "partial",
   "theorems": [
    "C84_equal_maps_refuted",
    "C84_items",
    "C84_iterable_refuted",
    "C84_keys_compare",
    "C84_merged_refuted",
    "C84_operators_partial",
    "C84_unhashable_refuted"
   ],
   "note": "refuted of the code: &, |, -, ^ merge 1 and True and raise for unhashable keys, and equal maps may have unequal keys() and items(); the rest is proved"
  },
  {
   "property": "C85",
   "status": "partial",
   "theorems": [
    "C85_constructor_partial",
    "C85_init_refuted",
    "C85_self_refuted",
    "C85_update"
   ],
   "note": "refuted of the code for keyword arguments named init and self; proved for all others"
  },
  {
   "property": "C86",
   "status": "proved",
   "theorems": [
    "C86_classes",
    "C86_create_by_format",
    "C86_create_by_tag",
    "C86_resolve"
   ],
   "note": ""
  },
  {
   "property": "C87",
   "status": "partial",
   "theorems": [
    "C87_and_iterable",
    "C87_compare",
    "C87_contains",
    "C87_items",
    "C87_iterates",
    "C87_operators",
    "C87_python_set_partial",
    "C87_spelling_refuted"
   ],
   "note": "refuted of the code: keys() - [\"1\"] keeps 1, and keys() >= {\"1\"} holds for an object with the one name 1 though == and <= do not; the rest is proved, given that the repr of a float that is no integer is not all digits"
  }
 ]
}