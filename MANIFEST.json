{"claims": [
 {"property": "C01", "status": "partial", "theorems": ["cid_construction", "cid_history_partial", "cid_setdefault_refuted"], "note": "setdefault (inherited) and updates naming a key in two casings are excluded; refuted for those."},
 {"property": "C02", "status": "partial", "theorems": ["cid_failure_atomic_partial", "cid_update_atomic_refuted"], "note": "False for an update whose argument names one key in two casings (finding)."},
 {"property": "C03", "status": "proved", "theorems": ["vl_construction", "vl_construction_failure", "vl_history_types", "vl_one_shot", "vl_history_types_guarded", "vl_append", "vl_extend", "vl_insert", "vl_setitem", "vl_one_shot_refuted", "vl_iadd_refuted", "validate_list_none", "validate_list_scalar"], "note": "For integer indices; slices are C43. The refutations record what the claim does not mention: += stores anything, and the elements of a one-shot iterable are silently lost."},
 {"property": "C04", "status": "proved", "theorems": ["vl_failure_atomic"], "note": ""},
 {"property": "C05", "status": "proved", "theorems": ["bounds_never_inverted", "bounds_rejected_unchanged", "new_bounds_exact", "integer_bounds_accept", "integer_bounds_any_refuted", "categories_rejected_unchanged_refuted", "uniform_integer_never_inverted", "uniform_integer_rejected_unchanged", "uniform_integer_exact", "uniform_real_never_inverted_refuted"], "note": "The refutations concern neighbouring claims: large integers are refused, and a rejected categories assignment is not undone. UniformReal, not in the claim, does become inverted."},
 {"property": "C06", "status": "proved", "theorems": ["contains_iff_inclusion", "contains_other_kind", "contains_none_other", "contains_preorder", "contains_negative_scale_refuted"], "note": "Exact arithmetic; outside the quantifier, units of negative scale break it."},
 {"property": "C07", "status": "proved", "theorems": ["union_least_upper_bound", "union_order_irrelevant", "union_other_kind", "update_agrees_with_union", "update_molecular_refuted"], "note": "update of MolecularStructureBounds ignores arguments of another kind (outside the quantifier)."},
 {"property": "C08", "status": "partial", "theorems": ["contains_value_partial", "contains_value_refuted", "formula_components"], "note": "False for values without content: contains raises."},
 {"property": "C09", "status": "proved", "theorems": ["reexpressed_bounds_equal", "union_unit_independent", "different_dimension"], "note": "Units are affine maps with exact arithmetic."},
 {"property": "C30", "status": "partial", "theorems": ["from_str_partial", "from_str_none", "enum_own_value_partial", "enum_values_distinct_partial", "enum_untrimmed_refuted", "enum_untrimmed_distinct_refuted", "enum_synonym_refuted"], "note": "Spellings with white space at an end are excluded (refuted); synonyms are not checked for duplicates."},
 {"property": "C31", "status": "partial", "theorems": ["inchi_prefix", "inchi_idempotent", "inchi_body_kept_partial", "inchi_body_kept_refuted"], "note": "The body is kept only when the prefix text does not occur again in it."},
 {"property": "C32", "status": "proved", "theorems": ["formula_accepted_iff", "formula_other_arguments", "formula_components", "formula_only_symbols_refuted"], "note": "The refutation records that other text is ignored."},
 {"property": "C33", "status": "partial", "theorems": ["probabilities_normalised_partial", "probabilities_rejected_unchanged", "probabilities_stored", "probabilities_accepted", "probabilities_nan_refuted"], "note": "A NaN total is accepted (finding). Exact arithmetic."},
 {"property": "C10", "status": "partial", "theorems": ["attribute_fatal_partial", "attribute_rejected_unchanged", "attribute_accepted_stored", "attribute_levels_partial", "attribute_link_template_refuted"], "note": "Values without content are excluded (see C08). Assigning a value while the template is a link raises at every level but IGNORE (finding)."},
 {"property": "C11", "status": "partial", "theorems": ["object_template_history_partial", "object_template_fatal_partial", "object_template_accepts_partial", "unmentioned_admitted", "object_template_rejects_partial", "object_template_link_refuted"], "note": "+= and values without content are excluded. With a link among the template entries an attribute without template is rejected (finding)."},
 {"property": "C12", "status": "partial", "theorems": ["template_ranges_refine_partial", "template_range_append", "template_range_single_pair", "template_ranges_assign", "template_kind_refuted"], "note": "+= is excluded (see C03). A pair may name a template of another kind (finding)."},
 {"property": "C13", "status": "partial", "theorems": ["fraction_fatal_partial", "quantity_lenient", "quantity_none", "quantity_other", "quantity_frame", "fraction_history_partial", "absolute_quantity_fatal_refuted"], "note": "False for absolute quantities: at FATAL all are refused (finding)."},
 {"property": "C14", "status": "partial", "theorems": ["validation_level_restored_partial", "validation_level_scoped", "validation_level_restored_refuted"], "note": "False when the body raises (finding)."},
 {"property": "C15", "status": "partial", "theorems": ["material_process_agree_partial", "output_material_names_process", "process_assignment_effect", "stolen_process_refuted", "rejected_process_refuted"], "note": "A rejected assignment to a material that has a process is excluded (refuted). One direction holds for every history."},
 {"property": "C16", "status": "partial", "theorems": ["lists_mirror_references_partial", "new_entry_last", "well_typed_reference_accepted_partial", "lists_mirror_own_uids_partial", "equal_sibling_refuted", "equal_sibling_real_refuted", "rejected_material_refuted"], "note": "Equal siblings in one list and rejected assignments to a field that holds an object are excluded (both refuted)."},
 {"property": "C17", "status": "partial", "theorems": ["rejected_reference_unchanged", "accepted_reference_stored", "rejected_two_sided_unchanged_partial", "well_typed_process_accepted", "rejected_process_refuted", "rejected_material_refuted"], "note": "False for two-sided fields that hold an object (finding)."},
 {"property": "C18", "status": "proved", "theorems": ["to_link_correct", "to_link_equal", "from_entity_correct"], "note": ""},
 {"property": "C26", "status": "partial", "theorems": ["equality_terminates", "equality_reflexive", "different_type_unequal", "different_uids_unequal", "equal_entities_agree", "equality_symmetric_partial", "copies_equal", "equality_levels", "symmetric_refuted", "transitive_refuted", "copy_unequal_refuted"], "note": "Termination, reflexivity and inequality of different types or uids hold for all graphs. Symmetry is false in general (refuted); proved when no two entities share their uids, and for entities that look the same."},
 {"property": "C27", "status": "proved", "theorems": ["link_equality", "link_entity_equality", "link_transitive_refuted"], "note": "The refutation records that equality with links is not transitive."},
 {"property": "C40", "status": "partial", "theorems": ["uids_unambiguous_partial", "add_uid_effect", "uids_rejected_unchanged_partial", "set_uids_outcome", "own_uids_assigned_refuted"], "note": "setdefault and an update naming one scope in two casings are excluded (see C01). set_uids_outcome gives the result of every assignment of a mapping, including the scopes self and seq, which CaseInsensitiveDict takes for its own parameters."},
 {"property": "C19", "status": "partial", "theorems": ["set_uuids_exact_partial", "set_uuids_complete_partial", "set_uuids_idempotent_partial"], "note": "Graphs where a tuple contains a list or dictionary are excluded: the traversal raises TypeError (see C20)."},
 {"property": "C20", "status": "partial", "theorems": ["foreach_terminates", "flatmap_terminates", "foreach_visits_partial", "flatmap_visits_partial", "flatmap_one_way_partial", "unhashable_tuple_refuted"], "note": "Termination holds for all graphs. Tuples that contain a list or dictionary raise TypeError (finding)."},
 {"property": "C21", "status": "partial", "theorems": ["flatten_exact_partial", "flatten_no_scope_partial", "flatten_needs_uids", "flatten_drops_refuted"], "note": "Entities must not share uids (refuted otherwise); tuples that contain a list or dictionary are excluded (see C20)."},
 {"property": "C22", "status": "partial", "theorems": ["flatten_ordered_partial", "flatten_drops_refuted"], "note": "Same exclusions as C21."},
 {"property": "C23", "status": "partial", "theorems": ["link_exact", "substitute_links_partial", "substitute_links_entity_partial", "substitute_links_needs_links", "substitute_links_raises", "substitute_conflates_refuted", "links_in_value_partial", "links_in_entity_partial", "objects_in_exact_partial", "objects_in_succeeds_partial", "entity_restored_partial", "value_restored_partial", "make_index_exact_partial", "made_index_restores", "substitute_objects_leaves", "substitute_objects_copies", "pair_conflated_refuted", "link_conflated_refuted", "numbers_conflated_refuted", "casing_not_restored_refuted", "copies_not_shared_refuted"], "note": "In place, the two are inverse for values and for entities, both sides of every reference included, if the index has the links made, the tuples inside hold neither numbers nor pairs of strings and the setters accept the values. False otherwise: a pair of strings and a link with the same contents, or tuples of equal numbers, take each other's place; links made with another casing of the scope are not found again; without inplace the entities in the result are all copies, never those of the index, and two references to one object may become two objects."},
 {"property": "C24", "status": "partial", "theorems": ["loads_dumps_partial", "loads_dumps_equal_partial", "load_type_key_refuted", "parameter_scopes_refuted", "flatten_drops_refuted", "substitute_conflates_refuted"], "note": "Values JSON or the constructors cannot represent, uid scopes type, seq and self, shared uids and disagreeing two-sided references are excluded (the first two refuted)."},
 {"property": "C25", "status": "partial", "theorems": ["loads_resolves", "link_read", "link_casing", "links_same_object_partial", "links_same_object_refuted"], "note": "Every document that loads is read as the index-free relation reads says (links resolved against the last entity made so far with the uid, any casing). Two links to one uid become the same object unless a further record with that uid is read in between; with such duplicate records they do not (links_same_object_refuted)."},
 {"property": "C28", "status": "partial", "theorems": ["make_instance_partial", "make_instance_link", "make_instance_rejects", "references_typed", "make_instance_history_partial", "make_instance_link_refuted", "make_instance_shared_process_refuted"], "note": "Full for graphs without links whose two-sided references agree (every history without the findings of C15/C16). A link on the way raises TypeError and a process named by two materials is mirrored differently (both refuted)."},
 {"property": "C29", "status": "proved", "theorems": ["dependencies_exact", "dependencies_history"], "note": "Fields are assumed to hold what the constructors' signatures say (an unvalidated field such as notes could hold anything); dependencies_history derives this for all histories of constructions and assignments."},
 {"property": "C34", "status": "proved", "theorems": ["registry_most_derived", "takeover_from_ancestor", "rejected_definition_unchanged", "stealing_rejected", "skip_accumulates", "type_written_is_registered", "mapping_is_registry", "mapping_is_copy"], "note": "Over all histories of class definitions (with Python's C3 linearisation) and of changes to the mappings handed out."},
 {"property": "C39", "status": "proved", "theorems": ["gate_passes_iff_increased", "gate_unchanged", "gate_decreased", "gate_code_names_the_decrease", "gate_other_decrease", "gate_codes", "version_order_total"], "note": "Release check, for every pair of versions the script's pattern admits."},
 {"property": "C36", "status": "partial", "theorems": ["unmangling_ends", "unmangling_leaves_others", "shown_is_number", "factor_displayed_partial", "power_of_ten_partial", "bare_power_of_ten_partial", "no_power_of_ten", "leading_point_refuted", "point_and_sign_refuted", "trailing_point_refuted", "prefix_refuted", "prefix_displayed_refuted", "exponent_unit_refuted", "group_refuted", "exponent_power_refuted"], "note": "Termination and absence of internal names hold for every text. The display is proved for one scaled unit in every spelling with digits on both sides of the point, in every line whose internal names do not contain one another; false otherwise (findings)."},
 {"property": "C35", "status": "partial", "theorems": ["cached_answers_right_partial", "foreign_unit_refused", "parse_gives_kind", "parse_other_refused", "standard_texts_right", "standard_answers_right_partial", "change_effect", "directory_kept", "registry_of_epoch", "caches_bounded", "small_ok", "point_and_sign_history_refuted", "leaked_name_refuted", "stale_unit_refuted", "number_type_refuted"], "note": "For all histories, cache sizes and definition files, over an abstract pint (assumptions in CacheSpec.pint_ok). Texts whose internal names are ambiguous or leaked and unit objects of a replaced registry are excluded (refuted); numbers are compared with ==."},
 {"property": "C38", "status": "partial", "theorems": ["assigned_round_trip_partial", "new_round_trip_partial", "plain_round_trip", "unknown_keys_ignored_partial", "self_key_refuted", "type_entry", "type_registered", "types_distinct", "composition_of_pairs", "uniform_real_refuted", "nominal_real_refuted", "categories_refuted", "template_changed_refuted"], "note": "The round trip is proved for every class and every history of assignments whose object its constructor would still take, unconditionally for 14 of the 23 classes, and for every freshly constructed object if pint shows unit texts stably. It is false for the other histories (a UniformReal assigned out of order, a NominalReal assigned a large integer, refused categories, a template that changed). Unknown keys are ignored except the key 'self', which makes from_dict raise TypeError. The type entry is proved."},
 {"property": "C37", "status": "partial", "theorems": ["make_node_linked", "make_node_raises", "add_edge_adds", "add_edge_unlinked_raises_partial", "add_edge_no_run_raises", "add_edge_name_raises", "add_edge_output_raises", "add_edge_bad_quantity", "add_measurement_adds", "add_measurement_raises_partial", "add_measurement_bad_attribute", "add_attribute_adds", "add_attribute_accepts", "make_value_kind", "make_value_refused", "make_value_fits_partial", "make_attribute_checked", "make_attribute_raises", "make_attribute_refused", "histories_sound", "make_node_sound", "add_edge_sound", "add_measurement_sound", "make_value_bounds_refuted", "add_edge_unmodified_refuted", "add_measurement_unmodified_refuted"], "note": "False as stated, in three places. add_edge looks at the quantities, and add_measurement at the attributes, only after the new objects have been attached: bad ones raise and leave the ingredient or the measurement behind (add_edge_bad_quantity, add_measurement_bad_attribute, with witnesses *_unmodified_refuted). make_value does not check the bounds (make_value_bounds_refuted); the value is accepted exactly when the number or string is inside them (make_value_fits_partial). What holds for all graphs, names, quantities and attributes: make_node links the four objects and changes nothing else, or raises and changes nothing; add_edge adds exactly one ingredient at each level, with the quantities given, or, for unlinked materials, bad names and outputs that are no material runs, raises and changes nothing; add_measurement attaches exactly one measurement; add_attribute changes exactly one list or nothing; make_attribute checks the value at the current level. An input of another class: see C58."},
 {"property": "C41", "status": "proved", "theorems": ["made_index_restores"], "note": ""},
 {"property": "C42", "status": "proved", "theorems": ["substitute_objects_leaves", "substitute_objects_copies"], "note": ""},
 {"property": "C43", "status": "proved", "theorems": ["set_slice_ok", "set_slice_failure", "set_slice_refused", "del_slice_ok", "remove_ok", "pop_ok", "inherited_failure_atomic", "inherited_history_types", "slice_types_refuted"], "note": "The refutation records that the content type is not kept when permitted objects contain forbidden ones: a [template, bounds] pair assigned to a slice of a template's list leaves bounds in the list."},
 {"property": "C44", "status": "proved", "theorems": ["references_always_typed", "names_always_texts", "run_shows_spec", "own_name_kept", "former_spec_remembered", "spec_can_be_let_go", "name_assignment", "labels_assignment", "label_added_to_spec", "run_template"], "note": "Histories of constructions, reference, name and label assignments, for any entity equality; labels given as None, a text, a list, a tuple or a dictionary."},
 {"property": "C45", "status": "proved", "theorems": ["thin_dumps_entity", "thin_dumps_value", "copy_isomorphic", "history_records", "history_rehydrates_refuted"], "note": "The refutation records that the list complete_material_history returns is not in an order in which it could be loaded as a context, as its documentation suggests: links to later records stay links."},
 {"property": "C46", "status": "proved", "theorems": ["repr_total", "repr_frame", "raw_dumps_total", "raw_dumps_depth", "repr_self_refuted"], "note": "The refutation shows that the guard is needed: notes are stored unchecked, and an object that is its own notes can be neither shown nor written. The text is modelled as the tree of dictionaries, lists and scalars Python writes."},
 {"property": "C47", "status": "proved", "theorems": ["loading_keeps_existing", "loaded_references_typed", "loaded_lists_mirror", "loaded_outputs_agree", "raw_loaded_processes_agree", "session_references", "session_lists", "session_processes", "loaded_claims_refuted"], "note": "The refutation shows why the last claim is about raw_loads: loads accepts a text in which two materials link to one process, and both end up with it. What Python has changed when loading raises an exception is not in the model (an exception is a value without a state)."},
 {"property": "C48", "status": "proved", "theorems": ["raw_round_trip", "raw_loads_unshared", "raw_round_trip_splits"], "note": "Representable is spelled out in SerialSpec.v (storable, representable): no tuples, no dictionary key or uid scope called type, constructors that accept the attributes; plain_attributes says that attributes hold attribute templates and nothing deeper. No condition on uids being distinct or on references agreeing is needed, unlike in C24."},
 {"property": "C49", "status": "proved", "theorems": ["process_assignment", "list_assignment", "lists_never_longer", "lists_right_length", "unlisted_for_good", "rejected_then_stuck_refuted"], "note": "The last theorem records a finding: a rejected assignment brings an object into the state in which no assignment to its reference is possible any more."},
 {"property": "C50", "status": "proved", "theorems": ["cid_full_history", "cid_lookups_sound", "cid_raises", "cid_raises_late_refuted"], "note": "Covers the cases C01 and C02 exclude (setdefault, |=, updates naming a key in two casings): the exact outcome is specified and proved. The last theorem shows that the three exceptions happen."},
 {"property": "C51", "status": "proved", "theorems": ["content_or_not", "contains_outcome", "contains_raises_no_content", "union_outcome", "union_fault_decides", "update_outcome"], "note": "Completes C07 and C08: the outcome of every call, for values without content too."},
 {"property": "C52", "status": "proved", "theorems": ["enum_declared", "enum_members", "from_str_outcome", "enum_call_outcome", "migrated_names", "declared_names", "inchi_outcome", "inchi_arguments", "inchi_body_kept_iff", "probabilities_outcome", "migrated_symbol_refuted", "alias_loses_synonyms_refuted"], "note": "Covers the cases C30, C31 and C33 exclude. 8-bit characters; sums in exact arithmetic. What migrated_enum prints and warns is not modelled."},
 {"property": "C53", "status": "proved", "theorems": ["judged_once", "attribute_outcome", "attribute_fatal_history", "attribute_fatal_made", "object_append_outcome", "object_assign_outcome", "object_extend_outcome", "object_history_judged", "quantity_outcome", "level_known", "level_as_intended", "level_left"], "note": "Covers the cases C10, C11, C13 and C14 exclude: values without content, links, missing values, +=, exceptions leaving with-blocks. Real arithmetic."},
 {"property": "C54", "status": "proved", "theorems": ["scientific_is_pattern", "mangled_is_pattern", "term_is_pattern", "stripped_is_pattern", "stripped_unit_is_pattern", "underscored_is_pattern", "elements_are_found", "version_found", "version_missing", "version_unique", "clean_outcome", "clean_twice", "latex_outcome"], "note": "8-bit characters; \\w, \\d and \\s have their ASCII meanings. packaging's Version is a parameter."},
 {"property": "C55", "status": "proved", "theorems": ["assignment_outcome", "rule_unique", "construction_outcome", "arguments_exist", "derived_read_only", "integer_bounds_agree", "uniform_integer_agree", "real_bounds_agree", "real_unit_agree", "categories_agree"], "note": "The unit registry and the template check are parameters. Assignments are to fields; keyword arguments only."},
 {"property": "C56", "status": "proved", "theorems": ["template_list_assigned", "template_list_appended", "template_list_unique", "template_generator_lost"], "note": "Bounds are those the constructors make. The last theorem records a finding: the entries of a generator are lost."},
 {"property": "C57", "status": "proved", "theorems": ["foreach_outcome", "foreach_raises_iff", "apply_first_irrelevant", "owner_before_members", "flatmap_outcome", "flatmap_keeps_order", "foreach_reverses_order", "set_uuids_outcome", "visits_agree"], "note": "The functions may change uids and their own state but not fields. owner_before_members records a finding: apply_first=False does not apply the function to the members first. The last theorem relates the model to that of C20."},
 {"property": "C58", "status": "proved", "theorems": ["make_value_outcome", "make_value_determined", "add_attribute_outcome", "add_attribute_determined", "add_edge_output_first", "add_edge_other_input", "add_edge_dangling"], "note": "Decimals are exact. add_edge_dangling records a finding."},
 {"property": "C59", "status": "proved", "theorems": ["float_set_lower", "float_set_upper", "float_make_bounds", "float_never_inverted", "float_contains_total", "float_contains_same", "float_contains_mono", "float_contains_scaled", "float_contains_ratio", "float_union_outcome", "float_update_agrees", "float_union_least", "float_uniform_bounds", "float_integer_value", "float_probabilities", "float_total_one", "round53_nearest", "float_of_integer", "float_union_contains_refuted", "float_written_refuted", "float_large_integer_refuted", "float_order_refuted"], "note": "Doubles are Flocq's binary64; the theorems rest on the axioms of Coq's real numbers (listed in DESIGN.md). sum is that of Python before 3.12. The last four are findings: what users might expect beyond the statement fails. round53_nearest and float_of_integer show that the integer rounding used in the rational models is the real one."},
 {"property": "C60", "status": "proved", "theorems": ["unit_text_tokens", "unit_text_refused", "unit_text_read", "unit_text_factors", "unit_text_has_factors", "factor_judged", "scaling_outcome", "scaling_decided", "scaling_leaves", "scaling_refuses", "signed_exponent_kept_refuted"], "note": "Texts are one line of 8-bit characters without quotes, comments, backslashes, hexadecimal, octal, binary or imaginary literals. unit_text_factors is for texts whose powers have an exponent and whose exponents in parentheses are closed; unit_text_refused and unit_text_read are for all texts."},
 {"property": "C61", "status": "proved", "theorems": ["assignment_reads_now", "template_assignment_reads_now", "assigned_agrees_until_changed", "attribute_stays", "rules_stay", "settled_history_agrees", "listed_was_admitted", "refused_changes_nothing", "setter_effects", "list_effects", "listed_stays_admitted_refuted", "attribute_stays_in_bounds_refuted"], "note": "One attribute list per object, all attributes of one class. Bounds are as their constructors leave them and units have a positive scale."},
 {"property": "C62", "status": "proved", "theorems": ["json_text_read", "json_text_refused", "json_unambiguous", "json_text_written", "json_round_trip", "json_layout_irrelevant", "json_text_injective", "json_text_ascii", "text_carries_tree", "text_loads_dumps", "text_raw_round_trip", "split_surrogates_refuted"], "note": "The writer and reader are those of CPython's json library, which the code calls. How a float is written and read is a parameter; Python's limits on recursion and on the digits of integers are left out."},
 {"property": "C63", "status": "proved", "theorems": ["failed_dump_writes_nothing", "dump_load", "stopped_dump_refused", "second_dump_hides_first", "dict_dump_tree", "stopped_overwrite_refuted"], "note": "A file is a text with a position (no newline translation). The object hook runs after the text has been read; Python runs it as objects close, so a text both would refuse may be refused with the hook's exception."},
 {"property": "C64", "status": "proved", "theorems": ["minimal_subset_rows", "minimal_subset_records_refuted", "display_table_exact", "display_no_band_gap", "strehlow_table_exact", "strehlow_table_rectangular", "strehlow_templates", "strehlow_objects_exact", "strehlow_specs_shared", "strehlow_attributes_first", "strehlow_shown", "band_gap_deviation_refuted", "second_transition_lost_refuted"], "note": "Numbers are rationals without rounding; reading numbers, converting units and the checks of units and formulas are parameters; validation is below FATAL."},
 {"property": "C65", "status": "proved", "theorems": ["split_words", "parse_value_exact", "parse_value_refused", "parse_value_other", "experiment_read", "experiment_refused", "experiment_succeeds", "ingest_read", "ingest_succeeds", "ingest_list", "ingest_table_exact", "ingest_spec_refuted", "ingest_process_refuted", "unit_with_spaces_refuted"], "note": "Reading floats, parsing units and the order of a set are parameters (the order any permutation); characters are 8-bit; validation is below FATAL."},
 {"property": "C66", "status": "proved", "theorems": ["scopes_last", "cake_particulars", "cake_succeeds", "quantities_near", "flexural_exact", "demo_measurements", "find_name_first", "find_name_depth", "next_named_first", "run_uids", "measurement_uids", "volume_fractions_refuted", "procuring_name_refuted", "mass_fraction_refuted"], "note": "Numbers are rationals without rounding; the fixed attributes appended at the end of make_cake and the fixed recipe of make_cake_spec are not modelled; validation is below FATAL."},
 {"property": "C67", "status": "proved", "theorems": ["levels_known", "never_laxer", "one_level", "one_writer", "blocks_end", "exclusive_blocks", "restored_first_in_last_out", "level_leaks_refuted", "strict_block_lax_refuted", "same_level_refuted", "set_in_between_refuted"], "note": "Bodies of blocks that raise are in C14; a step is one read or one write of the global variable."},
 {"property": "C68", "status": "proved", "theorems": ["told_done_counted", "answers_of_past", "every_thread_answered", "calls_and_changes_end", "answers_in_force", "directory_and_file", "answers_of_file_in_force", "stale_answer_refuted", "mixed_answer_refuted", "directory_lost_refuted", "other_file_refuted", "file_missed_refuted"], "note": "An answer is represented by the registries the call has read; names that the preprocessor defines in a registry are in C35 (CacheModel.v); files do not change meanwhile."},
 {"property": "C69", "status": "proved", "theorems": ["children_agree", "child_history", "assignments_succeed", "materials_agree", "material_history", "threads_end", "child_listed_twice_refuted", "removal_fails_refuted", "output_lost_refuted"], "note": "Values of a wrong type and equal but distinct siblings are in C01-C04 (one thread); that an item compared by list.remove can be interrupted is how CPython runs __eq__ written in Python."},
 {"property": "C70", "status": "proved", "theorems": ["assign_outcome", "takes_one", "assign_iterator", "fields_well_kept", "last_assignment", "unassigned_kept", "construct_outcome", "iterator_lost_refuted", "texts_unchecked_refuted"], "note": "The other fields (uids, references, values, bounds, lists of attributes) have their own models; their arguments are absent in constructors here. Appending to a list in place is in the ValidList claims."},
 {"property": "C71", "status": "proved", "theorems": ["lists_never_shared", "append_tags_local", "append_labels_shared", "set_tags_copies", "set_labels_copies", "set_spec_labels", "set_spec_refused", "new_spec_copies", "new_run_copies", "new_keeps_others", "append_held", "hold_tags_appends", "hold_labels_appends", "no_list_raises", "reassigned_lets_go", "reassigned_labels_let_go", "labels_through_run_refuted"], "note": "Items are texts, so the checks of the lists do not fail here (C70 and the ValidList claims have them); append stands for the changes in place."}
]}
