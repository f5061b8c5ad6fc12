{
 "claims": [
  {
   "property": "C01",
   "status": "proved",
   "theorems": [
    "C01_value_total_order",
    "C01_value_order_identity",
    "C01_value_order"
   ],
   "note": ""
  },
  {
   "property": "C02",
   "status": "proved",
   "theorems": [
    "C02_eq_iff_cmp_equal",
    "C02_eq_equivalence",
    "C02_eq_identity",
    "C02_eq_implies_same_hash"
   ],
   "note": ""
  },
  {
   "property": "C03",
   "status": "proved",
   "theorems": [
    "C03_from_reflect_inverts_to_value",
    "C03_ordinary_types",
    "C03_ordinary_injective",
    "C03_plain_types",
    "C03_skipped_position_refuted",
    "C03_duration_refuted",
    "C03_duration_panic_refuted",
    "C03_skipped_variant_refuted",
    "C03_map_keys_refuted"
   ],
   "note": "C03_ordinary_types: every value of every type meeting the conditions of the property, read off the type definitions; more generally for every erasable value; the unrestricted claim is refuted with witnesses"
  },
  {
   "property": "C04",
   "status": "proved",
   "theorems": [
    "C04_from_reflect_copies",
    "C04_copy_types",
    "C04_arrays_never_copy",
    "C04_array_refuted",
    "C04_option_array_refuted"
   ],
   "note": "proved for every copyable value and hence every value of a copy_ty type; the unrestricted claim is refuted with array witnesses"
  },
  {
   "property": "C05",
   "status": "proved",
   "theorems": [
    "C05_from_reflect_well_typed",
    "C05_no_skipped_variant",
    "C05_consequences",
    "C05_no_skipped_inside",
    "C05_value_no_skipped_inside",
    "C05_nested_skipped_refuted"
   ],
   "note": "a skipped variant that is nested in the source is cloned (refuted with a witness); none is made up"
  },
  {
   "property": "C06",
   "status": "proved",
   "theorems": [
    "C06_clone_reflect_copies",
    "C06_clone_panic_refuted",
    "C06_clone_skipped_panic_refuted",
    "C06_clone_loses_data_refuted"
   ],
   "note": "proved under the exact condition (types cloned through to_value must be erasable); unrestricted claim refuted"
  },
  {
   "property": "C07",
   "status": "proved",
   "theorems": [
    "C07_patch_keeps_type_and_shape",
    "C07_patch_consequences"
   ],
   "note": ""
  },
  {
   "property": "C08",
   "status": "proved",
   "theorems": [
    "C08_other_kind_no_op",
    "C08_scalar_patch",
    "C08_nonzero_duration_patch"
   ],
   "note": ""
  },
  {
   "property": "C09",
   "status": "proved",
   "theorems": [
    "C09_self_patch",
    "C09_self_patch_types",
    "C09_value_patch",
    "C09_value_patch_types",
    "C09_ordinary_types",
    "C09_enum_skip_refuted",
    "C09_option_skip_refuted",
    "C09_tuple_skip_refuted",
    "C09_duration_refuted"
   ],
   "note": "proved for self-patchable and value-patchable values, hence for every value of the corresponding types; the unrestricted claim is refuted with witnesses"
  },
  {
   "property": "C10",
   "status": "proved",
   "theorems": [
    "C10_any_patch",
    "C10_patch_idempotent",
    "C10_patch_idempotent_plain",
    "C10_skip_refuted",
    "C10_collision_refuted",
    "C10_panic_refuted"
   ],
   "note": "C10_any_patch: equal results for every patch of a target without EnumValue; the exceptions the property names are refuted with witnesses"
  },
  {
   "property": "C11",
   "status": "proved",
   "theorems": [
    "C11_patch_struct",
    "C11_patch_tuple",
    "C11_patch_sequence",
    "C11_patch_map",
    "C11_skipped_unchanged"
   ],
   "note": ""
  },
  {
   "property": "C12",
   "status": "proved",
   "theorems": [
    "C12_same_type_replaces",
    "C12_convertible_replaces",
    "C12_same_variant_merges",
    "C12_otherwise_unchanged",
    "C12_dynamic_merges",
    "C12_dynamic_replaced"
   ],
   "note": ""
  },
  {
   "property": "C13",
   "status": "proved",
   "theorems": [
    "C13_reflexive",
    "C13_reflexive_copyable_keys",
    "C13_array_keys_refuted"
   ],
   "note": "proved for all values without opaque parts and NaN whose map keys are found again; refuted for array keys"
  },
  {
   "property": "C14",
   "status": "proved",
   "theorems": [
    "C14_symmetric",
    "C14_symmetric_same_keys",
    "C14_true_symmetric",
    "C14_values_symmetric",
    "C14_duplicate_fields_refuted",
    "C14_opaque_order_refuted",
    "C14_key_types_refuted",
    "C14_skipped_field_refuted"
   ],
   "note": "proved for dynamic Values without duplicate fields and for static values under the stated conditions; the unrestricted claim is refuted with four witnesses"
  },
  {
   "property": "C15",
   "status": "proved",
   "theorems": [
    "C15_none_needs_opaque",
    "C15_decided",
    "C15_values_decided",
    "C15_opaque_gives_none_refuted",
    "C15_never_panics_refuted"
   ],
   "note": "reflect_eq may panic (not return None) when a key conversion panics; that is excluded by keys_convert and shown by a witness"
  },
  {
   "property": "C16",
   "status": "proved",
   "theorems": [
    "C16_equals_own_value",
    "C16_arrays_refuted",
    "C16_collapsing_keys_refuted"
   ],
   "note": ""
  },
  {
   "property": "C17",
   "status": "proved",
   "theorems": [
    "C17_reflect_eq_spec",
    "C17_values_spec",
    "C17_values_transitive",
    "C17_value_equality_implies_reflect_eq",
    "C17_converse_refuted",
    "C17_nan_refuted"
   ],
   "note": ""
  },
  {
   "property": "C18",
   "status": "proved",
   "theorems": [
    "C18_compose",
    "C18_compose_empty",
    "C18_empty_refuted"
   ],
   "note": "exact for a non-empty second path; with an empty one the results agree up to the Value wrapper (witness that they can differ by it)"
  },
  {
   "property": "C19",
   "status": "proved",
   "theorems": [
    "C19_same_place",
    "C19_write_read",
    "C19_write_back",
    "C19_second_write_wins",
    "C19_variant_refuted"
   ],
   "note": "writes are of values of the type that is there; write-read needs a path that ends in a variant to still name the variant (refuted without)"
  },
  {
   "property": "C20",
   "status": "proved",
   "theorems": [
    "C20_separate_writes",
    "C20_alias_refuted"
   ],
   "note": ""
  },
  {
   "property": "C21",
   "status": "proved",
   "theorems": [
    "C21_type_at",
    "C21_agree",
    "C21_variant_refuted",
    "C21_dynamic_refuted",
    "C21_skipped_field_refuted",
    "C21_skipped_variant_refuted",
    "C21_wrong_refuted"
   ],
   "note": "for paths that name variants and avoid the cases the property excludes, each of which is refuted"
  },
  {
   "property": "C22",
   "status": "proved",
   "theorems": [
    "C22_breadcrumbs"
   ],
   "note": ""
  },
  {
   "property": "C23",
   "status": "proved",
   "theorems": [
    "C23_element",
    "C23_small_wide_keys",
    "C23_other_keys",
    "C23_wide_refuted",
    "C23_negative_wide_refuted"
   ],
   "note": "proved for all keys but u128/i128 ones outside the 64-bit range, for which the claim is refuted"
  },
  {
   "property": "C24",
   "status": "proved",
   "theorems": [
    "C24_plain_paths",
    "C24_field_or_index_refuted",
    "C24_dots_refuted",
    "C24_integer_types_refuted"
   ],
   "note": "the claim is refuted in general; proved for paths with plain names and integer keys of one type"
  },
  {
   "property": "C25",
   "status": "proved",
   "theorems": [
    "C25_building_returns",
    "C25_returns_iff",
    "C25_stable",
    "C25_enum_refuted",
    "C25_tuple_struct_refuted"
   ],
   "note": "proved as the exact condition of the property; the unrestricted claim is refuted"
  },
  {
   "property": "C26",
   "status": "proved",
   "theorems": [
    "C26_no_panic",
    "C26_descriptor"
   ],
   "note": ""
  },
  {
   "property": "C27",
   "status": "proved",
   "theorems": [
    "C27_describes",
    "C27_collision_refuted"
   ],
   "note": "for types whose node ids (64 bit hashes) do not collide; refuted otherwise"
  },
  {
   "property": "C28",
   "status": "proved",
   "theorems": [
    "C28_same",
    "C28_distinct",
    "C28_static",
    "C28_once",
    "C28_answers",
    "C28_exclusive",
    "C28_no_deadlock",
    "C28_bounded",
    "C28_no_panic",
    "C28_poisoned",
    "C28_poison_refuted"
   ],
   "note": "interleaving semantics, any number of threads; also freedom from deadlock; a panicking build poisons the cache for every type"
  },
  {
   "property": "C29",
   "status": "proved",
   "theorems": [
    "C29_constructible",
    "C29_skipped_refuted"
   ],
   "note": "for types whose default is read by the derived code (no hand-written or from_reflect_with conversion, no reflected positional field after a skipped one, no user opaque default); refuted for skipped positional fields"
  },
  {
   "property": "C30",
   "status": "proved",
   "theorems": [
    "C30_predicts",
    "C30_promise",
    "C30_refuted",
    "C30_returns_refuted"
   ],
   "note": "exact where no zero-length array occurs; one direction always; refuted with zero-length arrays"
  },
  {
   "property": "C31",
   "status": "proved",
   "theorems": [
    "C31_right",
    "C31_right_inside",
    "C31_returns",
    "C31_needed",
    "C31_stable",
    "C31_refuted"
   ],
   "note": "returns unless the default would contain itself; the unrestricted claim is refuted"
  },
  {
   "property": "C32",
   "status": "proved",
   "theorems": [
    "C32_visits",
    "C32_stops",
    "C32_needed",
    "C32_skipped_field_refuted",
    "C32_skipped_variant_refuted"
   ],
   "note": "for visitable values; C32_needed shows no other value can be visited"
  },
  {
   "property": "C33",
   "status": "proved",
   "theorems": [
    "C33_struct_fields",
    "C33_struct_fields_mut",
    "C33_derived_fields_mut_in_order",
    "C33_tuple_fields",
    "C33_enum_fields",
    "C33_skipped_tuple_field_refuted",
    "C33_skipped_variant_field_refuted",
    "C33_field_set_twice_refuted",
    "C33_made_up_name_refuted"
   ],
   "note": "proved for all values except the shapes the property excludes, which are refuted with witnesses"
  },
  {
   "property": "C34",
   "status": "proved",
   "theorems": [
    "C34_order",
    "C34_skipped_refuted",
    "C34_positional_refuted"
   ],
   "note": "for the values the property covers; the excluded cases are refuted"
  },
  {
   "property": "C35",
   "status": "proved",
   "theorems": [
    "C35_histories",
    "C35_typed",
    "C35_panics",
    "C35_iteration",
    "C35_push_get"
   ],
   "note": ""
  },
  {
   "property": "C36",
   "status": "proved",
   "theorems": [
    "C36_some_map",
    "C36_histories",
    "C36_panics",
    "C36_get",
    "C36_insert_get",
    "C36_remove_get",
    "C36_unconverted",
    "C36_iteration",
    "C36_insert_result_refuted"
   ],
   "note": ""
  },
  {
   "property": "C37",
   "status": "proved",
   "theorems": [
    "C37_last_set",
    "C37_never_set",
    "C37_listed",
    "C37_first_set_order_refuted"
   ],
   "note": "names are listed once per call (C37_listed); the claim that a name set twice is listed once is refuted"
  },
  {
   "property": "C38",
   "status": "proved",
   "theorems": [
    "C38_panics",
    "C38_struct_variant",
    "C38_tuple_variant",
    "C38_unit_variant"
   ],
   "note": ""
  },
  {
   "property": "C39",
   "status": "proved",
   "theorems": [
    "C39_concrete",
    "C39_value_content",
    "C39_as_reflect",
    "C39_to_value_refuted",
    "C39_box_refuted",
    "C39_dynamic_struct_refuted"
   ],
   "note": "proved with the exceptions the property names, which are refuted with witnesses"
  },
  {
   "property": "C40",
   "status": "proved",
   "theorems": [
    "C40_to_value_stable",
    "C40_dynamic_round_trip",
    "C40_from_value_total"
   ],
   "note": ""
  },
  {
   "property": "C41",
   "status": "proved",
   "theorems": [
    "C41_struct",
    "C41_tuple",
    "C41_sequence",
    "C41_len_refuted",
    "C41_skipped_refuted"
   ],
   "note": "len() is right exactly before the first next; refuted afterwards"
  },
  {
   "property": "C42",
   "status": "proved",
   "theorems": [
    "C42_names",
    "C42_keys",
    "C42_string_key_refuted",
    "C42_position_refuted",
    "C42_integer_key_refuted"
   ],
   "note": "for maps whose key type does not have a hand-written FromReflect; the exceptions are refuted with witnesses"
  },
  {
   "property": "C43",
   "status": "proved",
   "theorems": [
    "C43_shortens",
    "C43_usual",
    "C43_new",
    "C43_idempotent",
    "C43_identifiers",
    "C43_keywords",
    "C43_underscore_refuted",
    "C43_keyword_refuted",
    "C43_injective_refuted"
   ],
   "note": "syn is modelled by a lexer and parser for the names rustc prints; the underscore exception is refuted"
  },
  {
   "property": "C44",
   "status": "proved",
   "theorems": [
    "C44_own_descriptor"
   ],
   "note": ""
  },
  {
   "property": "C45",
   "status": "proved",
   "theorems": [
    "C45_at_selects",
    "C45_found_typed"
   ],
   "note": ""
  },
  {
   "property": "C46",
   "status": "proved",
   "theorems": [
    "C46_to_value",
    "C46_duration",
    "C46_value",
    "C46_from_reflect",
    "C46_patch",
    "C46_safe_types",
    "C46_from_value"
   ],
   "note": ""
  },
  {
   "property": "C47",
   "status": "proved",
   "theorems": [
    "C47_descriptors",
    "C47_types",
    "C47_extracted_refuted"
   ],
   "note": "for types whose node ids do not collide; the exception the property names is refuted"
  },
  {
   "property": "C48",
   "status": "proved",
   "theorems": [
    "C48_kinds",
    "C48_as_reflect",
    "C48_contents",
    "C48_clone",
    "C48_described",
    "C48_nonzero_refuted",
    "C48_duration_refuted"
   ],
   "note": "exact, with the exceptions the property names, which are refuted with witnesses"
  },
  {
   "property": "C49",
   "status": "proved",
   "theorems": [
    "C49_get_meta",
    "C49_undeclared",
    "C49_paths",
    "C49_variant_refuted"
   ],
   "note": "the exception for variants found by a path is refuted with a witness"
  },
  {
   "property": "C50",
   "status": "proved",
   "theorems": [
    "C50_right",
    "C50_returns",
    "C50_paths",
    "C50_first",
    "C50_constructible",
    "C50_predicts",
    "C50_promise"
   ],
   "note": "for types whose node ids do not collide"
  },
  {
   "property": "C51",
   "status": "proved",
   "theorems": [
    "C51_same_field",
    "C51_write_read",
    "C51_write_back",
    "C51_others",
    "C51_frozen",
    "C51_alias_refuted"
   ],
   "note": "that different keys can lead to the same place is shown with a witness"
  },
  {
   "property": "C52",
   "status": "proved",
   "theorems": [
    "C52_anywhere",
    "C52_prints",
    "C52_no_std",
    "C52_simple",
    "C52_fails_iff",
    "C52_struct_reads_back",
    "C52_one_tuple_refuted",
    "C52_complete_refuted"
   ],
   "note": "for types whose node ids do not collide; what does not show is refuted with witnesses"
  },
  {
   "property": "C53",
   "status": "proved",
   "theorems": [
    "C53_no_panic",
    "C53_prints",
    "C53_struct",
    "C53_skipped_hidden",
    "C53_tuple_refuted",
    "C53_after_skipped_refuted",
    "C53_box_refuted"
   ],
   "note": "output as a tree of calls to core::fmt builders; layout and digits are left to core::fmt"
  },
  {
   "property": "C54",
   "status": "proved",
   "theorems": [
    "C54_into_value",
    "C54_str",
    "C54_impls",
    "C54_recover",
    "C54_struct_fields",
    "C54_tuple_fields",
    "C54_assemble_struct",
    "C54_missing",
    "C54_assemble_tuple_struct",
    "C54_assemble_tuple",
    "C54_get_scalar",
    "C54_get_field_refuted",
    "C54_skipped_refuted"
   ],
   "note": "the exceptions the property names are refuted with witnesses"
  },
  {
   "property": "C55",
   "status": "proved",
   "theorems": [
    "C55_reads_back",
    "C55_numbers",
    "C55_integers",
    "C55_lists",
    "C55_layout",
    "C55_accepted",
    "C55_stable",
    "C55_literal",
    "C55_map_key_refuted",
    "C55_nested_tuple_refuted",
    "C55_name_refuted"
   ],
   "note": "the Rust lexer is modelled for the lexemes key paths print; the exceptions are refuted with witnesses"
  },
  {
   "property": "C56",
   "status": "proved",
   "theorems": [
    "C56_hygienic",
    "C56_compiles",
    "C56_refused",
    "C56_captured",
    "C56_reads_back",
    "C56_lookup_refuted"
   ],
   "note": "match arms of the expansion with an explicit scope; the exception is characterised and refuted with a witness; env_ok (eo_names) excludes these names everywhere else"
  },
  {
   "property": "C57",
   "status": "proved",
   "theorems": [
    "C57_item",
    "C57_inner",
    "C57_expand",
    "C57_order",
    "C57_unit_refuted"
   ],
   "note": "expressions and use trees are single tokens; which words are keywords is a parameter"
  },
  {
   "property": "C58",
   "status": "proved",
   "theorems": [
    "C58_value",
    "C58_path",
    "C58_descriptor",
    "C58_object",
    "C58_unambiguous",
    "C58_truncated",
    "C58_truncated_descriptor",
    "C58_any_stream",
    "C58_any_stream_descriptor",
    "C58_readable",
    "C58_little_endian",
    "C58_names_refuted",
    "C58_graph_refuted"
   ],
   "note": "the derive macros of speedy and serde are external: modelled is the declaration-order form both use in binary formats; self-describing formats (JSON) are not modelled"
  },
  {
   "property": "C59",
   "status": "proved",
   "theorems": [
    "C59_same_type",
    "C59_own_value",
    "C59_transfer",
    "C59_last_wins",
    "C59_disjoint",
    "C59_length_refuted",
    "C59_array_refuted",
    "C59_overlap_refuted"
   ],
   "note": "the three refutations show that vectors of different lengths, arrays given as values, and overlapping patches really are exceptions"
  },
  {
   "property": "C60",
   "status": "proved",
   "theorems": [
    "C60_struct",
    "C60_tuple_struct",
    "C60_enum",
    "C60_irrelevant",
    "C60_extra_fields",
    "C60_direct_refuted"
   ],
   "note": "C60_direct_refuted shows why a part of exactly the field type is treated apart"
  },
  {
   "property": "C61",
   "status": "proved",
   "theorems": [
    "C61_agree",
    "C61_becomes",
    "C61_same_patch",
    "C61_scalar_keys",
    "C61_array_refuted",
    "C61_keys_refuted",
    "C61_enum_refuted"
   ],
   "note": "the _refuted theorems show that the conditions on T are needed"
  },
  {
   "property": "C62",
   "status": "proved",
   "theorems": [
    "C62_typed",
    "C62_panics",
    "C62_safe_types",
    "C62_focus",
    "C62_elsewhere",
    "C62_focus_refuted"
   ],
   "note": "C62_focus_refuted shows that the condition on r is needed"
  },
  {
   "property": "C63",
   "status": "proved",
   "theorems": [
    "C63_exact",
    "C63_typed",
    "C63_unfold",
    "C63_inhabited",
    "C63_uninhabited",
    "C63_infallible",
    "C63_checked",
    "C63_new_field",
    "C63_gone_variant",
    "C63_steps",
    "C63_self_refuted",
    "C63_steps_skipped_refuted",
    "C63_steps_reordered_refuted"
   ],
   "note": "the _refuted theorems show that reading a type as itself can fail and that the conditions of C63_steps are needed"
  },
  {
   "property": "C64",
   "status": "proved",
   "theorems": [
    "C64_values",
    "C64_to_value",
    "C64_from_reflect",
    "C64_readings",
    "C64_patch",
    "C64_clone",
    "C64_reflect_eq",
    "C64_at",
    "C64_programs",
    "C64_ord_refuted",
    "C64_with_refuted",
    "C64_written_refuted"
   ],
   "note": "the _refuted theorems show that the conditions on user code are needed and that serialisation is not covered"
  },
  {
   "property": "C65",
   "status": "proved",
   "theorems": [
    "C65_eq",
    "C65_hash",
    "C65_build",
    "C65_calls",
    "C65_iterate",
    "C65_len",
    "C65_names_refuted"
   ],
   "note": "C65_names_refuted: printing does not tell names from numbers"
  },
  {
   "property": "C66",
   "status": "proved",
   "theorems": [
    "C66_returns",
    "C66_typed",
    "C66_left",
    "C66_programs_return",
    "C66_programs_typed",
    "C66_programs_left",
    "C66_atomic_refuted"
   ],
   "note": "C66_left and C66_programs_left are equivalences: the specification determines what is left; C66_atomic_refuted shows a target that changed although the call panicked"
  },
  {
   "property": "C67",
   "status": "proved",
   "theorems": [
    "C67_decides",
    "C67_opaque",
    "C67_description_alone",
    "C67_received",
    "C67_own",
    "C67_skipped_refuted",
    "C67_function_refuted"
   ],
   "note": "C67_decides is an equivalence for every straight type (no user-written conversion, no reflected positional field behind a skipped one); C67_description_alone needs no knowledge beyond the graph if no opaque type occurs; the refuted theorems show that both side conditions are needed"
  },
  {
   "property": "C68",
   "status": "proved",
   "theorems": [
    "C68_table",
    "C68_infallible",
    "C68_described",
    "C68_round_trip",
    "C68_never_panics",
    "C68_decides",
    "C68_copies",
    "C68_default",
    "C68_colour_never_patched",
    "C68_option_duration_refuted"
   ],
   "note": "The declarations are modelled as written and expanded with the model of the derive (C57); the closure theorems are by induction over how a type is built and discharge the hypotheses of C03, C04, C06, C09, C25, C29, C46 and C67 for an infinite family of types; C68_colour_never_patched is a for-all statement of a defect"
  },
  {
   "property": "C69",
   "status": "proved",
   "theorems": [
    "C69_equivalence",
    "C69_hash_descriptor",
    "C69_hash",
    "C69_tells_descriptor",
    "C69_tells",
    "C69_handed_out",
    "C69_types",
    "C69_values",
    "C69_paths",
    "C69_same_answers",
    "C69_same_text"
   ],
   "note": "What is fed to the hasher is modelled as a token stream; the converse direction excludes floats because what ordered-float feeds is only modelled up to equality"
  },
  {
   "property": "C70",
   "status": "proved",
   "theorems": [
    "C70_read",
    "C70_written",
    "C70_round_trip",
    "C70_exact",
    "C70_exact_tight_refuted",
    "C70_monotone",
    "C70_drift_refuted"
   ],
   "note": "as_secs_f32 and from_secs_f32 of the Rust standard library are modelled by the formulas of its documentation with the SpecFloat of the Coq library (round to nearest, ties to even)"
  },
  {
   "property": "C71",
   "status": "proved",
   "theorems": [
    "C71_reads",
    "C71_programs",
    "C71_way_round",
    "C71_replace_refuted",
    "C71_array_refuted",
    "C71_elsewhere",
    "C71_wire",
    "C71_json"
   ],
   "note": "the typed and the dynamic run are both shown to follow a small specification of edits of Values (SpecRemote.v); the two refuted theorems show why patches of parts with lists and pushes on arrays are excluded"
  },
  {
   "property": "C72",
   "status": "proved",
   "theorems": [
    "C72_value",
    "C72_faithful",
    "C72_written",
    "C72_json",
    "C72_path",
    "C72_descriptor",
    "C72_descriptor_written",
    "C72_descriptor_depth",
    "C72_object",
    "C72_any_document",
    "C72_order",
    "C72_reordered",
    "C72_reordered_descriptor",
    "C72_map_refuted",
    "C72_nan_refuted",
    "C72_deep_refuted",
    "C72_reads",
    "C72_reads_path",
    "C72_read_sorted"
   ],
   "note": "documents are trees; the derive macro of serde and the formats are external and are modelled as documented (header of Serde.v), the text of numbers and strings is not"
  },
  {
   "property": "C73",
   "status": "proved",
   "theorems": [
    "C73_accessors",
    "C73_questions",
    "C73_print",
    "C73_returns",
    "C73_needed",
    "C73_built",
    "C73_check",
    "C73_received",
    "C73_names_refuted",
    "C73_endless_refuted",
    "C73_read"
   ],
   "note": "maps in the description are sorted, as every BTreeMap is (sorted_graph; C73_received shows it for what is decoded); field_types() is taken to be run to its end"
  },
  {
   "property": "C74",
   "status": "proved",
   "theorems": [
    "C74_operations",
    "C74_programs",
    "C74_stays",
    "C74_values",
    "C74_more_types",
    "C74_descriptions",
    "C74_answers",
    "C74_more_descriptions"
   ],
   "note": "\"in the same way\" is the record shared (SpecOpen.v): equal definitions, and equal defaults, conversions and orders on values of shared types, whose results are of shared types again; for descriptions it is same_declarations: the same definitions, ids, names, comments and attributes"
  },
  {
   "property": "C75",
   "status": "proved",
   "theorems": [
    "C75_patch",
    "C75_programs",
    "C75_settled",
    "C75_shape"
   ],
   "note": "overlaid and prun (SpecOverlay.v) say what becomes of a Value without objects, environments or panics"
  },
  {
   "property": "C76",
   "status": "proved",
   "theorems": [
    "C76_own",
    "C76_readable",
    "C76_parts",
    "C76_edit",
    "C76_programs",
    "C76_safe",
    "C76_default",
    "C76_order_refuted"
   ],
   "note": "matches, shows and allowed (SpecClient.v) speak about the nodes of the description and Values only; the editing program has an environment of its own"
  },
  {
   "property": "C77",
   "status": "proved",
   "theorems": [
    "C77_mirrors",
    "C77_variants",
    "C77_value_variants",
    "C77_value_refuted",
    "C77_skipped_refuted"
   ],
   "note": "mirrors (SpecMirror.v) relates the answers of the accessors to the nodes of the description; both are computed by different functions of the model"
  },
  {
   "property": "C78",
   "status": "proved",
   "theorems": [
    "C78_readable",
    "C78_values",
    "C78_default",
    "C78_copy_refuted"
   ],
   "note": "fillable (SpecFill.v) is a least fixed point over the nodes of the description, without reference to from_reflect"
  },
  {
   "property": "C79",
   "status": "proved",
   "theorems": [
    "C79_decides",
    "C79_written",
    "C79_own",
    "C79_same",
    "C79_relay_refuted"
   ],
   "note": "serves (SpecServe.v) is a greatest fixed point over pairs of nodes, without reference to from_reflect or to_value"
  },
  {
   "property": "C80",
   "status": "proved",
   "theorems": [
    "C80_image",
    "C80_serves",
    "C80_inhabited",
    "C80_duration_refuted",
    "C80_keys_refuted"
   ],
   "note": "exact_ty and faithful_keys (SpecImage.v) are the restrictions; written is that of C79 (SpecServe.v), fillable that of C78"
  },
  {
   "property": "C81",
   "status": "proved",
   "theorems": [
    "C81_reached",
    "C81_only",
    "C81_described",
    "C81_keys",
    "C81_plain",
    "C81_skipped_key_refuted",
    "C81_duration_key_refuted"
   ],
   "note": "inside, shows and nameable (SpecReach.v) say which parts are shown; the path of C81_described names the variant before each enum field"
  },
  {
   "property": "C82",
   "status": "proved",
   "theorems": [
    "C82_patch",
    "C82_patches",
    "C82_value",
    "C82_values",
    "C82_array_refuted",
    "C82_enum_refuted"
   ],
   "note": "kept (SpecAttain.v) says which values have the type and shape of x; the patches are built by C59 and bounded by C07"
  },
  {
   "property": "C83",
   "status": "proved",
   "theorems": [
    "C83_two",
    "C83_many",
    "C83_enum_refuted",
    "C83_dynamic_refuted"
   ],
   "note": "fusible_ty and solid_ty (SpecFuse.v) say which types; enums with several fields in a variant and dynamic values are refuted"
  },
  {
   "property": "C84",
   "status": "proved",
   "theorems": [
    "C84_snapshot",
    "C84_undo",
    "C84_value_snapshot",
    "C84_value_undo",
    "C84_array_refuted",
    "C84_dynamic_refuted"
   ],
   "note": "history and value_history (SpecUndo.v) allow every patch to stop half-way; arrays under Value snapshots and dynamic enums are refuted"
  },
  {
   "property": "C85",
   "status": "proved",
   "theorems": [
    "C85_merge",
    "C85_history",
    "C85_needed",
    "C85_never_panics"
   ],
   "note": "merge3 (SpecDiff.v) says independently of patch what a three-way merge is; enums are merged as a whole"
  },
  {
   "property": "C86",
   "status": "proved",
   "theorems": [
    "C86_either_order",
    "C86_any_order",
    "C86_one_merge",
    "C86_one_side",
    "C86_conflict_refuted"
   ],
   "note": "apart (SpecDiff.v) says that no part was changed by both; with a conflict the order counts, which is refuted by example"
  },
  {
   "property": "C87",
   "status": "proved",
   "theorems": [
    "C87_focus",
    "C87_as_reflect",
    "C87_assign",
    "C87_variant_refuted"
   ],
   "note": "through (SpecFocus.v) are the paths through parts that are always there or may be missing in vectors and maps; paths into variants are refuted"
  },
  {
   "property": "C88",
   "status": "proved",
   "theorems": [
    "C88_edit",
    "C88_program",
    "C88_push_refuted",
    "C88_enum_refuted"
   ],
   "note": "sendable (SpecSend.v) says which steps; the program is run by the model of C62 (Edit.v). Pushes and enums with several fields are refuted"
  }
 ]
}