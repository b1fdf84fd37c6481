{
 "claims": [
  {
   "property": "C01",
   "status": "proved",
   "theorems": [
    "C01_keys_text_keys",
    "C01_str_injective"
   ],
   "note": ""
  },
  {
   "property": "C02",
   "status": "proved",
   "theorems": [
    "C02_text_keys_text"
   ],
   "note": ""
  },
  {
   "property": "C03",
   "status": "proved",
   "theorems": [
    "C03_accepts_exactly_rfc6901",
    "C03_only_malformed_error",
    "C03_keys_as_denoted"
   ],
   "note": ""
  },
  {
   "property": "C04",
   "status": "proved",
   "theorems": [
    "C04_constructor_concatenates",
    "C04_div_appends",
    "C04_div_assoc",
    "C04_slice_splits",
    "C04_slice_items",
    "C04_length"
   ],
   "note": ""
  },
  {
   "property": "C05",
   "status": "proved",
   "theorems": [
    "C05_le_is_prefix",
    "C05_lt_is_proper_prefix",
    "C05_partial_order",
    "C05_eq_is_key_equality"
   ],
   "note": ""
  },
  {
   "property": "C06",
   "status": "proved",
   "theorems": [
    "C06_fragment_roundtrip",
    "C06_fragment_syntax",
    "C06_only_unicode_error",
    "C06_any_spelling"
   ],
   "note": ""
  },
  {
   "property": "C07",
   "status": "proved",
   "theorems": [
    "C07_eval_is_rfc6901",
    "C07_eval_error"
   ],
   "note": ""
  },
  {
   "property": "C08",
   "status": "proved",
   "theorems": [
    "C08_eval_composes",
    "C08_eval_node_composes"
   ],
   "note": ""
  },
  {
   "property": "C09",
   "status": "partial",
   "theorems": [
    "C09_exact",
    "C09_reading_unique",
    "C09_negative_index_resolves_refuted",
    "C09_value_error_escapes_refuted",
    "C09_node_extends_plain_partial",
    "C09_agree_on_index_keys_partial"
   ],
   "note": "The full claim is false of the code; refuted by witnesses (-1 resolves, foo raises ValueError). Proved: every success on the plain value is the same success on the node, and the two agree completely when every key applied to an array is an RFC 6901 index. C09_exact gives the exact outcome for every pointer and document: the value at the way the keys are read as (integer texts of Python, negative ones counting from the end), ValueError where an array is given a key that is no integer text, a reference error otherwise."
  },
  {
   "property": "C10",
   "status": "proved",
   "theorems": [
    "C10_path_leads_back",
    "C10_paths_distinct"
   ],
   "note": ""
  },
  {
   "property": "C11",
   "status": "proved",
   "theorems": [
    "C11_acceptance",
    "C11_rejection_is_malformed",
    "C11_str_of_parse",
    "C11_parse_of_str",
    "C11_equality"
   ],
   "note": ""
  },
  {
   "property": "C12",
   "status": "partial",
   "theorems": [
    "C12_path_exact",
    "C12_index",
    "C12_path_resolves",
    "C12_bad_base_is_reference_error",
    "C12_path_exact_partial",
    "C12_negative_index_refuted",
    "C12_value_error_refuted"
   ],
   "note": "Proved exactly for references whose keys, where they meet arrays, are RFC 6901 indices. False outside that class: negative indices resolve and other keys raise ValueError (witnesses). C12_path_exact gives the exact outcome for every reference."
  },
  {
   "property": "C13",
   "status": "proved",
   "theorems": [
    "C13_value_inverse",
    "C13_types",
    "C13_parent_and_key"
   ],
   "note": ""
  },
  {
   "property": "C14",
   "status": "proved",
   "theorems": [
    "C14_eq_is_json_equality",
    "C14_equivalence",
    "C14_types_distinct"
   ],
   "note": ""
  },
  {
   "property": "C15",
   "status": "proved",
   "theorems": [
    "C15_coherent",
    "C15_setitem",
    "C15_delitem",
    "C15_insert",
    "C15_append",
    "C15_pop",
    "C15_remove_at",
    "C15_replace_at",
    "C15_add_at",
    "C15_whole",
    "C15_pointer_failure_changes_nothing"
   ],
   "note": ""
  },
  {
   "property": "C16",
   "status": "partial",
   "theorems": [
    "C16_paths",
    "C16_del_exact",
    "C16_insert_exact",
    "C16_set_exact",
    "C16_when",
    "C16_pointer_exact",
    "C16_del_negative_refuted",
    "C16_insert_negative_refuted",
    "C16_insert_beyond_refuted",
    "C16_set_negative_refuted",
    "C16_removes_another_item_refuted",
    "C16_replaces_another_item_refuted"
   ],
   "note": "False of the code in each case: witnesses for deletion, insertion and assignment at a negative index and for insertion beyond the end; and afterwards remove/replace by pointer act on another item. What is true is proved exactly for every history with any integer indices: every path is the chain of the keys on the way to the node (C16_paths); which keys each deletion, insertion and assignment leaves (C16_del_exact, C16_insert_exact, C16_set_exact); for which indices right keys stay right (C16_when); and which item remove/replace by pointer act on (C16_pointer_exact). Histories with in-range indices are C15; the values after any indices are C89."
  },
  {
   "property": "C17",
   "status": "partial",
   "theorems": [
    "C17_remove_exact",
    "C17_replace_exact",
    "C17_add_exact",
    "C17_add_agrees",
    "C17_remove_agrees",
    "C17_replace_agrees",
    "C17_add_raises_partial",
    "C17_remove_raises_partial",
    "C17_replace_raises_partial",
    "C17_negative_refuted"
   ],
   "note": "Proved: when the patch function succeeds the method does the same. That the method raises when the function does is proved for tokens that are RFC 6901 indices where they meet arrays, and false for a negative index (witness). C17_add_exact, C17_remove_exact and C17_replace_exact give the exact outcome for every pointer, in terms of the patch functions applied to the RFC 6901 form of the pointer."
  },
  {
   "property": "C18",
   "status": "proved",
   "theorems": [
    "C18_add_as_rfc",
    "C18_add_only_rfc",
    "C18_add_exact",
    "C18_value_at_path",
    "C18_frame_outside",
    "C18_frame_object",
    "C18_frame_array"
   ],
   "note": ""
  },
  {
   "property": "C19",
   "status": "proved",
   "theorems": [
    "C19_remove_as_rfc",
    "C19_remove_only_rfc",
    "C19_remove_exact",
    "C19_replace_as_rfc",
    "C19_replace_only_rfc",
    "C19_replace_exact",
    "C19_target_must_exist",
    "C19_remove_frame",
    "C19_replace_frame",
    "C19_replace_is_remove_add"
   ],
   "note": ""
  },
  {
   "property": "C20",
   "status": "partial",
   "theorems": [
    "C20_into_child_exact",
    "C20_copy_is_add",
    "C20_copy_as_rfc",
    "C20_move_is_remove_add",
    "C20_move_as_rfc",
    "C20_move_into_child_rejected_partial",
    "C20_move_into_child_refuted",
    "C20_add_remove_restores"
   ],
   "note": "A move into its own child is rejected when the source is the whole document or an object member; false when it is an array item (witness). The other parts of the claim are proved. C20_into_child_exact says when a move into its own child succeeds and what it leaves: exactly when an array item has another behind it into which the rest of the path leads, and then the item is added to that one."
  },
  {
   "property": "C21",
   "status": "proved",
   "theorems": [
    "C21_test_exact",
    "C21_otherwise_raises"
   ],
   "note": ""
  },
  {
   "property": "C22",
   "status": "proved",
   "theorems": [
    "C22_inputs_unchanged",
    "C22_values_unchanged",
    "C22_result_is_new",
    "C22_same_graph_same_result",
    "C22_same_graph_same_value",
    "C22_again"
   ],
   "note": ""
  },
  {
   "property": "C23",
   "status": "partial",
   "theorems": [
    "C23_unshared",
    "C23_rfc_patch",
    "C23_equal_documents",
    "C23_shared_document_refuted",
    "C23_shared_value_refuted"
   ],
   "note": "Proved for documents and values in which no list or dict occurs at two places, also against the RFC 6902 relations. False with sharing inside the document or inside a value (witnesses)."
  },
  {
   "property": "C24",
   "status": "partial",
   "theorems": [
    "C24_add_partial",
    "C24_remove_partial",
    "C24_replace_partial",
    "C24_test_partial",
    "C24_copy_partial",
    "C24_move_partial",
    "C24_exceptions",
    "C24_scalar_parent_refuted",
    "C24_string_parent_refuted",
    "C24_index_syntax_refuted",
    "C24_add_exact",
    "C24_remove_exact",
    "C24_replace_exact",
    "C24_test_exact",
    "C24_from_exact"
   ],
   "note": "Proved when no scalar stands where an array or object is needed and final array indices are in RFC syntax. False outside: AssertionError, AttributeError, TypeError, lenient index syntax (witnesses). C24_add_exact, C24_remove_exact, C24_replace_exact, C24_test_exact and C24_from_exact say, for every document and path, exactly which of these exceptions each function raises."
  },
  {
   "property": "C25",
   "status": "proved",
   "theorems": [
    "C25_compared_operation",
    "C25_compared_patch",
    "C25_equals_own_list",
    "C25_operation_round_trip",
    "C25_patch_round_trip",
    "C25_equality",
    "C25_unused_value_refuted",
    "C25_move_without_from_refuted"
   ],
   "note": "The property as stated is proved (C25_operation_round_trip, C25_patch_round_trip). The _refuted theorems show that it cannot be extended to operations with an argument their kind does not use, or to move without from. C25_compared_operation, C25_compared_patch, C25_equals_own_list: comparisons with mappings."
  },
  {
   "property": "C26",
   "status": "proved",
   "theorems": [
    "C26_order_respects_dependencies",
    "C26_ends_iff_orderable",
    "C26_unorderable_never_ends",
    "C26_standard_keywords_end",
    "C26_exact"
   ],
   "note": ""
  },
  {
   "property": "C27",
   "status": "partial",
   "theorems": [
    "C27_keywords_conjoin",
    "C27_agrees_partial",
    "C27_verdict_unique",
    "C27_refuted"
   ],
   "note": "Proved for worlds that do not combine an unevaluated keyword with not or with a boolean 2019-09 items, and in which no dynamic reference has to choose between schema resources. Outside it is false (C27_refuted for dynamic references; C34_refuted, C35_refuted, C44_refuted for the others). C74 gives the exact outcome in every case, without these conditions."
  },
  {
   "property": "C28",
   "status": "proved",
   "theorems": [
    "C28_order",
    "C28_kept_order"
   ],
   "note": "For all keywords; compares the results when evaluation returns in both worlds."
  },
  {
   "property": "C29",
   "status": "proved",
   "theorems": [
    "C29_relocated",
    "C29_valid",
    "C29_annotations"
   ],
   "note": ""
  },
  {
   "property": "C30",
   "status": "proved",
   "theorems": [
    "C30_terminates",
    "C30_terminates_wellfounded",
    "C30_circular_never",
    "C30_circular_forever"
   ],
   "note": ""
  },
  {
   "property": "C31",
   "status": "proved",
   "theorems": [
    "C31_allOf",
    "C31_anyOf",
    "C31_oneOf",
    "C31_not",
    "C31_then_else",
    "C31_then_else_alone",
    "C31_if",
    "C31_dependentSchemas",
    "C31_results_allOf",
    "C31_results_anyOf",
    "C31_results_oneOf",
    "C31_results_not",
    "C31_double_negation",
    "C31_de_morgan"
   ],
   "note": ""
  },
  {
   "property": "C32",
   "status": "proved",
   "theorems": [
    "C32_properties",
    "C32_patternProperties",
    "C32_additionalProperties",
    "C32_propertyNames",
    "C32_partition"
   ],
   "note": ""
  },
  {
   "property": "C33",
   "status": "proved",
   "theorems": [
    "C33_prefixItems",
    "C33_items",
    "C33_partition"
   ],
   "note": ""
  },
  {
   "property": "C34",
   "status": "partial",
   "theorems": [
    "C34_refuted",
    "C34_evaluated",
    "C34_members_partial"
   ],
   "note": "Proved for worlds without not and without a boolean 2019-09 items, in which no dynamic reference has to choose between schema resources. False with not (witness). C74 gives the exact outcome in every case, without these conditions."
  },
  {
   "property": "C35",
   "status": "partial",
   "theorems": [
    "C35_items_partial",
    "C35_refuted"
   ],
   "note": "Proved under the conditions of C34. False with not (C35_refuted) and with a boolean 2019-09 items (C44_refuted). C74 gives the exact outcome in every case, without these conditions."
  },
  {
   "property": "C36",
   "status": "proved",
   "theorems": [
    "C36_contains",
    "C36_bounds_alone"
   ],
   "note": ""
  },
  {
   "property": "C37",
   "status": "proved",
   "theorems": [
    "C37_assertions"
   ],
   "note": ""
  },
  {
   "property": "C38",
   "status": "partial",
   "theorems": [
    "C38_divides_partial",
    "C38_integers_partial",
    "C38_exact",
    "C38_message",
    "C38_refuted"
   ],
   "note": "C38_exact: the keyword passes exactly when the divisor is not zero and the quotient is an integer below 10^28 in absolute value, for integers and for the decimals printed for floats. So false beyond (witness: 10^28 is not a multiple of 1)."
  },
  {
   "property": "C39",
   "status": "proved",
   "theorems": [
    "C39_ignored",
    "C39_accepts",
    "C39_types"
   ],
   "note": ""
  },
  {
   "property": "C40",
   "status": "proved",
   "theorems": [
    "C40_inert"
   ],
   "note": "For all keywords; compares the results when evaluation returns in both worlds."
  },
  {
   "property": "C41",
   "status": "proved",
   "theorems": [
    "C41_node",
    "C41_verdict",
    "C41_transparent"
   ],
   "note": ""
  },
  {
   "property": "C42",
   "status": "partial",
   "theorems": [
    "C42_outermost_partial",
    "C42_static",
    "C42_refuted"
   ],
   "note": "Proved for evaluation paths that do not leave a schema resource and enter it again. False for those that do (witness: a cut-down 2020-12 metaschema). C74 gives the exact outcome in every case, without these conditions."
  },
  {
   "property": "C43",
   "status": "proved",
   "theorems": [
    "C43_outermost"
   ],
   "note": ""
  },
  {
   "property": "C44",
   "status": "partial",
   "theorems": [
    "C44_refuted",
    "C44_empty_refuted",
    "C44_items_schema",
    "C44_items_array",
    "C44_additionalItems",
    "C44_additionalItems_alone",
    "C44_valid_partial"
   ],
   "note": "Proved for worlds without not and without the boolean form of items, under the conditions of C27 on dynamic references. The boolean form is false (C44_refuted) and so is the empty array form next to additionalItems (C44_empty_refuted): {\"items\": [], \"additionalItems\": false} accepts [1]. C74 gives the exact verdict in every case."
  },
  {
   "property": "C45",
   "status": "proved",
   "theorems": [
    "C45_annotations",
    "C45_errors",
    "C45_annotations_in_order",
    "C45_errors_in_order",
    "C45_nothing",
    "C45_undiscarded"
   ],
   "note": ""
  },
  {
   "property": "C46",
   "status": "partial",
   "theorems": [
    "C46_verdict",
    "C46_hierarchical",
    "C46_basic_annotations",
    "C46_basic_errors",
    "C46_basic_filtered",
    "C46_verbose",
    "C46_subresult_refuted"
   ],
   "note": "Proved for the results that evaluate returns and, except for hierarchical output, for every result. Hierarchical output of a part of a result can say otherwise (witness). C66_part gives the hierarchical output of every part exactly."
  },
  {
   "property": "C47",
   "status": "proved",
   "theorems": [
    "C47_explained",
    "C47_basic",
    "C47_detailed",
    "C47_detailed_refuted"
   ],
   "note": "The property as stated, about basic output, is proved without conditions (C47_basic). The _refuted theorem is about detailed output of the schema false, which has no error."
  },
  {
   "property": "C48",
   "status": "proved",
   "theorems": [
    "C48_longest",
    "C48_exists",
    "C48_unique",
    "C48_no_source",
    "C48_not_loadable"
   ],
   "note": ""
  },
  {
   "property": "C49",
   "status": "proved",
   "theorems": [
    "C49_last_added",
    "C49_independent",
    "C49_block",
    "C49_in_use"
   ],
   "note": ""
  },
  {
   "property": "C50",
   "status": "partial",
   "theorems": [
    "C50_no_document",
    "C50_refuted",
    "C50_leaves",
    "C50_leaves_lookup",
    "C50_metaschema_refuted"
   ],
   "note": "Proved: a lookup for which there is no document leaves the catalog as it was; and, exactly, what any construction or lookup leaves in the caches however it ends (C50_leaves, C50_leaves_lookup): objects made before are unchanged; every entry is as before, or is in the cache concerned and leads to an object made meanwhile, or is gone, which for a construction can only be the entry of the URI given to the constructor, and for a lookup none (but for URIs made up). The claim as stated is false, for schemas and for metaschemas (witnesses: a broken schema is returned by the next lookup; a failing construction removes or replaces the entry of a sound schema; a metaschema that was refused because it does not satisfy itself, or because it requires a vocabulary that is not known, is returned by the next lookup)."
  },
  {
   "property": "C51",
   "status": "partial",
   "theorems": [
    "C51_canonical_location",
    "C51_exists",
    "C51_lookup",
    "C51_surrogate_refuted",
    "C51_empty_fragment_refuted",
    "C51_rewritten_refuted"
   ],
   "note": "Proved: the fragment of the canonical URI leads from the schema it is relative to back to the subschema, provided the keys hold no lone surrogates and URIs have no non-empty fragment. False for keys with a lone surrogate (no canonical URI) and, for lookup, for an $id with an empty fragment (witnesses). Also false of lookup when the document was given a URI of which its $id is another writing: the setter of JSONSchema.uri compares normal forms and keeps the given URI, the cache compares texts, and the document's own references fail (C51_rewritten_refuted, with rfc3986's rules)."
  },
  {
   "property": "C52",
   "status": "proved",
   "theorems": [
    "C52_references_resolved"
   ],
   "note": ""
  },
  {
   "property": "C53",
   "status": "proved",
   "theorems": [
    "C53_enabled",
    "C53_asserts"
   ],
   "note": ""
  },
  {
   "property": "C54",
   "status": "partial",
   "theorems": [
    "C54_harmless",
    "C54_constructed",
    "C54_only_unknown",
    "C54_unknown_keywords_kept",
    "C54_refuted",
    "C54_names_refuted"
   ],
   "note": "Proved: when construction succeeds, every unrecognised keyword is kept as an annotation with its value; a member with an unrecognised name that Python can use in a class name (not empty, no null character, no surrogates) changes nothing about whether a document can be made into a schema (documents without references: whether it is constructed). False for the empty keyword name and for names with a null character or a lone surrogate (witnesses)."
  },
  {
   "property": "C55",
   "status": "proved",
   "theorems": [
    "C55_made"
   ],
   "note": ""
  },
  {
   "property": "C56",
   "status": "partial",
   "theorems": [
    "C56_refuted",
    "C56_construct_ends",
    "C56_lookup_ends"
   ],
   "note": "False: a document that gives itself another URI than the one it is found at and refers to the latter is loaded again without end (witness, for every fuel). Proved: if the library is finite and each of its documents names itself nothing else than the URI it is found at, every construction and every lookup in every catalog that can arise ends, with an outcome independent of the fuel."
  },
  {
   "property": "C57",
   "status": "proved",
   "theorems": [
    "C57_schemas_stay"
   ],
   "note": ""
  },
  {
   "property": "C58",
   "status": "partial",
   "theorems": [
    "C58_failing_operation_partial",
    "C58_move_refuted",
    "C58_move_leaves"
   ],
   "note": "Proved for every operation but move; false for move (witness). C58_move_leaves says exactly what a failing move leaves: the document as it was, or the document with the item at the source removed."
  },
  {
   "property": "C59",
   "status": "proved",
   "theorems": [
    "C59_good_world",
    "C59_verdict",
    "C59_documents"
   ],
   "note": ""
  },
  {
   "property": "C60",
   "status": "partial",
   "theorems": [
    "C60_valid_without_error",
    "C60_hierarchical_errors",
    "C60_overwritten_refuted"
   ],
   "note": "Proved: no valid node carries an error; the errors listed at the root are exactly those of its failing keywords (one for each). False below the root: of {\"items\": {\"type\": \"string\"}} and [1, 2, \"a\"] two nodes have an error of type and the output has one (witness). C66_hierarchical says exactly what is listed below the root."
  },
  {
   "property": "C61",
   "status": "proved",
   "theorems": [
    "C61_places",
    "C61_hierarchical",
    "C61_children",
    "C61_root",
    "C61_instances"
   ],
   "note": ""
  },
  {
   "property": "C62",
   "status": "proved",
   "theorems": [
    "C62_absolute_location",
    "C62_exists",
    "C62_reference"
   ],
   "note": ""
  },
  {
   "property": "C63",
   "status": "partial",
   "theorems": [
    "C63_verdict",
    "C63_evaluated",
    "C63_member_order",
    "C63_inexact_refuted"
   ],
   "note": "Proved for prescribed verdicts (all schemas) and for evaluation (all keywords, when it returns): members in any order, and equal numbers whose repr is exact. False when repr is not exact: 2^70 as int and as float are equal, only the int is a multiple of 2^70 (witness). Format validators are assumed to treat such values alike."
  },
  {
   "property": "C64",
   "status": "partial",
   "theorems": [
    "C64_read_back",
    "C64_order_refuted",
    "C64_exact",
    "C64_in_order"
   ],
   "note": "Proved up to member order, for every later state of the catalog. The order itself is not kept (witness): keywords are created in the order of their dependencies. C64_exact says, member order included, what every schema reads back as: $schema, $vocabulary and $id first, then the members in the order of the document except that each waits for those it depends on; C64_in_order: documents in that order read back unchanged."
  },
  {
   "property": "C65",
   "status": "partial",
   "theorems": [
    "C65_detailed",
    "C65_messages",
    "C65_false_refuted"
   ],
   "note": "The structure and the set of messages below the root are proved for every result tree. The last sentence of the property fails for the root's own error: the schema false has one error, basic output shows it, detailed output shows none (witness). C65_messages says exactly which messages are shown."
  },
  {
   "property": "C66",
   "status": "proved",
   "theorems": [
    "C66_hierarchical",
    "C66_part"
   ],
   "note": ""
  },
  {
   "property": "C67",
   "status": "proved",
   "theorems": [
    "C67_listed",
    "C67_defaults",
    "C67_class"
   ],
   "note": "For creations that succeed in the model: there the metaschemas consulted must have been loaded before, and the document must keep the URI it is loaded by."
  },
  {
   "property": "C68",
   "status": "proved",
   "theorems": [
    "C68_list",
    "C68_default",
    "C68_standard",
    "C68_known"
   ],
   "note": "Assumes that URI parsing leaves the names of the standard vocabularies as they are. The metaschema documents themselves are not in the repository (submodules), so which vocabularies they list is a hypothesis."
  },
  {
   "property": "C69",
   "status": "proved",
   "theorems": [
    "C69_elsewhere",
    "C69_construct",
    "C69_get"
   ],
   "note": ""
  },
  {
   "property": "C70",
   "status": "proved",
   "theorems": [
    "C70_metaschemas_stay",
    "C70_same_metaschema"
   ],
   "note": ""
  },
  {
   "property": "C71",
   "status": "proved",
   "theorems": [
    "C71_evaluation",
    "C71_verdict"
   ],
   "note": "The world of evaluation gives anchors as a function of base URI and fragment; a set of schemas is closed when it contains the anchors found from its base URIs."
  },
  {
   "property": "C72",
   "status": "proved",
   "theorems": [
    "C72_closed",
    "C72_undisturbed"
   ],
   "note": "Anchors are found in the cache of the schema; a lookup during evaluation that would have to load a document finds nothing."
  },
  {
   "property": "C73",
   "status": "proved",
   "theorems": [
    "C73_good_world",
    "C73_own",
    "C73_verdict",
    "C73_avoiding",
    "C73_documents"
   ],
   "note": "Under the conditions of C27 for the schemas of the cache; the metaschemas are those known when construction starts."
  },
  {
   "property": "C74",
   "status": "proved",
   "theorems": [
    "C74_computes",
    "C74_unique",
    "C74_determined",
    "C74_prescribed"
   ],
   "note": "When evaluation returns."
  },
  {
   "property": "C75",
   "status": "proved",
   "theorems": [
    "C75_raises_nothing",
    "C75_returns",
    "C75_decides",
    "C75_computes",
    "C75_order",
    "C75_itself_needed",
    "C75_infinite_needed",
    "C75_finite_limit_needed"
   ],
   "note": ""
  },
  {
   "property": "C76",
   "status": "proved",
   "theorems": [
    "C76_sound",
    "C76_returns",
    "C76_decides",
    "C76_plain_documents",
    "C76_documents",
    "C76_success_needed"
   ],
   "note": "Under the conditions of C27 for the schemas of the cache; $dynamicRef and $recursiveRef only through C76_decides, which asks that no reference asks a Boolean schema for an anchor."
  },
  {
   "property": "C77",
   "status": "proved",
   "theorems": [
    "C77_objects",
    "C77_refused",
    "C77_known",
    "C77_exactly",
    "C77_plain",
    "C77_pipeline"
   ],
   "note": "Exact for construction from a given catalog; where documents must be loaded only the refusal of non-buildable documents is covered. C77_pipeline keeps the conditions of C76_plain_documents."
  },
  {
   "property": "C78",
   "status": "proved",
   "theorems": [
    "C78_annotations",
    "C78_root",
    "C78_announced",
    "C78_node",
    "C78_content",
    "C78_unevaluated_prescribed",
    "C78_exact",
    "C78_exact_within",
    "C78_exact_prescribed",
    "C78_unevaluated",
    "C78_unevaluated_within"
   ],
   "note": "C78_exact gives the annotations of additionalProperties, items after prefixItems, additionalItems and contains in full, in terms of the sibling keywords and of what the subschemas accept; C78_unevaluated those of the unevaluated keywords, in terms of the outcomes of the other keywords as the code judges them (SpecCode.v; how that differs from the specification is the matter of C27/C35/C44). Error values are the matter of C86."
  },
  {
   "property": "C79",
   "status": "partial",
   "theorems": [
    "C79_where",
    "C79_where_suffix",
    "C79_cases",
    "C79_inside_partial",
    "C79_loads_partial",
    "C79_any_file_refuted",
    "C79_inside_refuted",
    "C79_suffix_refuted"
   ],
   "note": "False of the code. C79_any_file_refuted: two slashes after the registered prefix make relative_path absolute, and pathlib then drops base_dir, so any file of the system is opened (and returned if it is JSON); this needs only that such a URI is valid and normalized. C79_inside_refuted adds two dots and, with a suffix, the empty path (base_dir.json beside base_dir); C79_suffix_refuted a suffix with a slash. Proved: C79_where (exactly where every path leads without a suffix), C79_where_suffix with C79_cases (the same with a suffix that has no slash) and C79_inside_partial/C79_loads_partial (inside for all paths that name something, are not absolute and have no two-dots part)."
  },
  {
   "property": "C80",
   "status": "proved",
   "theorems": [
    "C80_registry",
    "C80_unknown"
   ],
   "note": ""
  },
  {
   "property": "C81",
   "status": "proved",
   "theorems": [
    "C81_get",
    "C81_slice",
    "C81_step",
    "C81_cut",
    "C81_set",
    "C81_delete",
    "C81_insert",
    "C81_delete_slice",
    "C81_slice_refused",
    "C81_append",
    "C81_pop",
    "C81_clear",
    "C81_reverse",
    "C81_extend",
    "C81_remove"
   ],
   "note": ""
  },
  {
   "property": "C82",
   "status": "proved",
   "theorems": [
    "C82_exact",
    "C82_mirror",
    "C82_total",
    "C82_transitive",
    "C82_documented_refuted",
    "C82_antisymmetric_refuted"
   ],
   "note": "Proved for all values: C82_exact (outcome, with TypeError exactly for incomparable values), C82_mirror, C82_total, C82_transitive. Beyond the claim, refuted: the docstrings speak of numbers and strings only, but booleans (as 0 and 1) and arrays are compared as well (C82_documented_refuted), and there <= both ways does not imply == (true and 1, C82_antisymmetric_refuted)."
  },
  {
   "property": "C83",
   "status": "proved",
   "theorems": [
    "C83_loads",
    "C83_dumps",
    "C83_round_trip",
    "C83_equal",
    "C83_injective",
    "C83_well_formed",
    "C83_writable_refuted"
   ],
   "note": "The json module of the standard library is modelled after its C accelerator (CPython 3.11), which is trusted to be what Text.v says. Beyond the claim, C83_writable_refuted: 1e400 is read as an infinity, which json_dumps refuses; so a value that was read cannot always be written."
  },
  {
   "property": "C84",
   "status": "proved",
   "theorems": [
    "C84_document",
    "C84_resource",
    "C84_unique",
    "C84_left_over_refuted"
   ],
   "note": "Proved for every document whose construction returned. Beyond the claim, C84_left_over_refuted: the loops test the parent for truth (bool of its data) instead of for being there, so a schema embedded in a document whose construction failed, which stays in the catalog, takes itself for the root of the document although it has a parent."
  },
  {
   "property": "C85",
   "status": "proved",
   "theorems": [
    "C85_in_force",
    "C85_keyword",
    "C85_pointer",
    "C85_json_pointer",
    "C85_evaluation",
    "C85_own_refuted"
   ],
   "note": "Proved: C85_in_force, C85_keyword, C85_pointer, C85_json_pointer; C85_evaluation says that this is the format evaluation of the other theorems. Beyond the claim, C85_own_refuted: a validator of one's own for json-pointer, the only one registered, is replaced by the library's at the first enable_formats of the process, whatever format is enabled."
  },
  {
   "property": "C86",
   "status": "proved",
   "theorems": [
    "C86_errors",
    "C86_within",
    "C86_prescribed",
    "C86_schema",
    "C86_unevaluated_prescribed",
    "C86_unevaluated",
    "C86_unevaluated_within"
   ],
   "note": "C86_errors for the root schema of an evaluation, C86_within for a schema applied within one (under the conditions pre of SchemaSim.v, which the proof establishes for each schema that is applied), C86_prescribed with the judgement of the specification in place of that of the code. C86_unevaluated and C86_unevaluated_within give the errors of the unevaluated keywords in full, in terms of the outcomes of the other keywords of the schema that concern the instance (within an evaluation for a node that is valid so far). C86_unevaluated_prescribed (and C78_unevaluated_prescribed) state it with the outcomes that the specification gives, where it has none of the other keywords reject the instance and the conditions of C74_prescribed hold. Which schema a dynamic reference leads to is not part of the claim (C35, C44, C74). The text of a format validator's exception is left open. Which of its two texts multipleOf uses is C38_message. That valid nodes have no error is C60."
  },
  {
   "property": "C87",
   "status": "proved",
   "theorems": [
    "C87_offers",
    "C87_unrecognised",
    "C87_registered",
    "C87_failed_refuted"
   ],
   "note": "Metaschemas are found by their URI among the schemas, not through the cache: a document with a nested $id equal to the URI of a version may take its place there. C87_failed_refuted shows a consequence that is easily overlooked: a creation that fails replaces the catalog registered before under that name."
  },
  {
   "property": "C88",
   "status": "proved",
   "theorems": [
    "C88_latest",
    "C88_others",
    "C88_unknown",
    "C88_standard",
    "C88_arguments"
   ],
   "note": ""
  },
  {
   "property": "C89",
   "status": "proved",
   "theorems": [
    "C89_values",
    "C89_setitem",
    "C89_delitem",
    "C89_insert",
    "C89_pop",
    "C89_append",
    "C89_getitem",
    "C89_add_at",
    "C89_whole"
   ],
   "note": ""
  },
  {
   "property": "C90",
   "status": "proved",
   "theorems": [
    "C90_extend",
    "C90_extend_self",
    "C90_reverse",
    "C90_clear",
    "C90_clear_object",
    "C90_update",
    "C90_update_node",
    "C90_update_self",
    "C90_popitem",
    "C90_popitem_first",
    "C90_setdefault",
    "C90_get",
    "C90_search",
    "C90_contains_key",
    "C90_edits"
   ],
   "note": "C90_clear_object and C90_popitem_first record how the code differs from plain dicts. Methods on strings (which are sequences here) and keys/items/values views are not modelled."
  },
  {
   "property": "C91",
   "status": "proved",
   "theorems": [
    "C91_exact",
    "C91_definite",
    "C91_plain",
    "C91_copy",
    "C91_refuted",
    "C91_eq",
    "C91_eq_refuted"
   ],
   "note": "Exact. Beside it C91_refuted and C91_eq_refuted show that copying a document by JSON(node), and comparing with a list of nodes, do not do what one would expect: JSON(JSON({\"a\": 1})) is [\"a\"], and JSON([\"hi\"]) == [JSON(\"hi\")] is False."
  },
  {
   "property": "C92",
   "status": "proved",
   "theorems": [
    "C92_values",
    "C92_setitem",
    "C92_delitem",
    "C92_insert",
    "C92_pop",
    "C92_append",
    "C92_getitem",
    "C92_add_at",
    "C92_whole",
    "C92_getitem_slice",
    "C92_delete_slice",
    "C92_assign_slice",
    "C92_path_after_assignment_refuted",
    "C92_pointer_edit_lost_refuted",
    "C92_remove_after_deletion_refuted"
   ],
   "note": "Values are proved right for every history with slices (C92_values, C92_getitem_slice, C92_delete_slice, C92_assign_slice and the operations of C89 again). The three _refuted theorems show what keys, paths and parents lead to afterwards. Left out: assigning a non-empty string or object to a slice of an array, which puts plain strings among the nodes."
  },
  {
   "property": "C93",
   "status": "proved",
   "theorems": [
    "C93_decimal",
    "C93_float_text",
    "C93_one_value",
    "C93_strings",
    "C93_strings_distinct",
    "C93_values",
    "C93_distinct",
    "C93_nodes",
    "C93_pointers",
    "C93_relative",
    "C93_patches",
    "C93_infinite"
   ],
   "note": "The expressions covered are those in the layout of repr(); float repr and float() are assumed to agree; C93_decimal says that the text made of a float's shortest digits stands for exactly that decimal. A patch with an infinite value has a repr that is no such expression (C93_infinite)."
  },
  {
   "property": "C94",
   "status": "proved",
   "theorems": [
    "C94_item",
    "C94_slice",
    "C94_slice_zero",
    "C94_iter",
    "C94_contains",
    "C94_count",
    "C94_reversed",
    "C94_index"
   ],
   "note": "The methods inherited from collections.abc.Sequence are modelled after CPython; their loops have fuel, and more than the length of the pointer is enough."
  },
  {
   "property": "C95",
   "status": "proved",
   "theorems": [
    "C95_keyword",
    "C95_schema"
   ],
   "note": "C95_keyword is about the keyword's own node in any schema, C95_schema about a schema that has no other keyword. Not covered: multipleOf with a text, which Decimal may read."
  },
  {
   "property": "C96",
   "status": "partial",
   "theorems": [
    "C96_below_partial",
    "C96_loads_partial",
    "C96_below_refuted",
    "C96_default"
   ],
   "note": "False as stated: C96_below_refuted gives URIs whose rest begins with // (any host), with / (outside the base path) or with a scheme. Proved of all paths that begin with no slash, have no colon in the first segment and no dot segments (C96_below_partial, through the catalog C96_loads_partial), and of full URIs (C96_default). Resolution here is RFC 3986's (Rfc3986.v), on which the differences of the rfc3986 package listed there do not bear, base URLs being absolute."
  },
  {
   "property": "C97",
   "status": "proved",
   "theorems": [
    "C97_any_order",
    "C97_fails"
   ],
   "note": "The exceptions of failing orders may differ. C97_case also shows two operations that are not apart and do not commute."
  },
  {
   "property": "C98",
   "status": "proved",
   "theorems": [
    "C98_member_order",
    "C98_equal"
   ],
   "note": ""
  },
  {
   "property": "C99",
   "status": "proved",
   "theorems": [
    "C99_lists",
    "C99_items_in",
    "C99_values_in",
    "C99_keys_equal",
    "C99_items_equal",
    "C99_array"
   ],
   "note": ""
  },
  {
   "property": "C100",
   "status": "proved",
   "theorems": [
    "C100_value",
    "C100_snapshot",
    "C100_shared",
    "C100_shared_object",
    "C100_operand",
    "C100_value_refuted"
   ],
   "note": "The claim as stated is proved; C100_value_refuted is its last sentence, a witness that value need not spell the node once a caller has changed what it was given."
  },
  {
   "property": "C101",
   "status": "proved",
   "theorems": [
    "C101_known",
    "C101_keeps",
    "C101_listed",
    "C101_failing"
   ],
   "note": "C101_known: the table suffices; C101_keeps: what is left alone; C101_listed: what a loaded metaschema provides; C101_failing: a load that raises."
  },
  {
   "property": "C102",
   "status": "proved",
   "theorems": [
    "C102_edited",
    "C102_failed",
    "C102_others",
    "C102_value",
    "C102_unresolved",
    "C102_assignment",
    "C102_as_constructed_refuted"
   ],
   "note": "C102_edited, C102_value, C102_others, C102_failed and C102_unresolved are the claim. C102_as_constructed_refuted is the witness for its last sentence. del schema[key], as called by JSON.remove, is in C105. Not modelled: negative indices, insertion beyond the end."
  },
  {
   "property": "C103",
   "status": "proved",
   "theorems": [
    "C103_correspond",
    "C103_renumbered",
    "C103_document",
    "C103_plain",
    "C103_edited",
    "C103_with_references_refuted"
   ],
   "note": "C103_correspond is the general claim, C103_document, C103_plain and C103_edited its consequences. C103_with_references_refuted is the witness for the last sentence. Dynamic references are covered by C103_correspond and C103_document if the same anchors are in scope (same_scopes). C103_renumbered: moving all objects of any world changes no result."
  },
  {
   "property": "C104",
   "status": "proved",
   "theorems": [
    "C104_lookup",
    "C104_found",
    "C104_no_pointer",
    "C104_catalog_error_refuted",
    "C104_loaded",
    "C104_not_loaded"
   ],
   "note": "C104_lookup is the claim, C104_found and C104_no_pointer complete it. C104_catalog_error_refuted is the witness that the documented CatalogError is not the only outcome. C104_loaded and C104_not_loaded are the same for a document that has to be loaded first."
  },
  {
   "property": "C105",
   "status": "proved",
   "theorems": [
    "C105_as_new",
    "C105_add",
    "C105_replace",
    "C105_remove",
    "C105_failed",
    "C105_worked",
    "C105_nowhere",
    "C105_own_member",
    "C105_root",
    "C105_remove_keyword_refuted",
    "C105_again"
   ],
   "note": "C105_add, C105_remove, C105_replace say what a returning call does; C105_failed, C105_nowhere, C105_own_member and C105_root what a raising one does; C105_worked that the theorems apply again afterwards. C105_as_new: without references in the result, the patched schema evaluates as one constructed from the edited document. C105_remove_keyword_refuted is the witness that a removed keyword goes on being evaluated. They start from a schema without keywords crossed out earlier; C105_again carries them over to one that has some. In add, the last key of a path to an array item may be any integer text of Python, so text_reading and not the RFC's reading."
  },
  {
   "property": "C106",
   "status": "proved",
   "theorems": [
    "C106_item",
    "C106_iter",
    "C106_reversed",
    "C106_search",
    "C106_index",
    "C106_object",
    "C106_readonly",
    "C106_extend",
    "C106_same",
    "C106_substring_refuted"
   ],
   "note": "C106_item, C106_iter, C106_reversed, C106_search, C106_index for arrays and strings alike; C106_readonly: which exception each editing method raises on a string, and that no node changes; C106_extend; C106_object; C106_same: on arrays and objects the model's methods are those of C90. C106_substring_refuted is the witness for `in`. Slices of strings are in C92."
  },
  {
   "property": "C107",
   "status": "proved",
   "theorems": [
    "C107_pointer_equality",
    "C107_pointer_hash",
    "C107_pointer_dict",
    "C107_rel_hash",
    "C107_rel_equality",
    "C107_rel_dict"
   ],
   "note": "C107_pointer_equality, C107_pointer_hash, C107_pointer_dict; C107_rel_hash, C107_rel_equality, C107_rel_dict. The dict is modelled as CPython's: an entry belongs to a key if the hashes are the same and the keys are equal."
  },
  {
   "property": "C108",
   "status": "partial",
   "theorems": [
    "C108_by_text_partial",
    "C108_refuted"
   ],
   "note": "False of the code: C108_refuted, with HTTP://Example.com/a and http://example.com/a, which are equal after normalization but are different tuples for hash(). C108_by_text_partial: what holds instead, without hash collisions: looking up, storing and removing in a dict of URIs goes by their texts alone, as the caches of Catalog.v do, whatever the URI library takes for equal. That rfc3986 hashes its references as tuples is taken from that package, which is not part of the repository."
  },
  {
   "property": "C109",
   "status": "partial",
   "theorems": [
    "C109_as_rfc_partial",
    "C109_only_rfc_partial",
    "C109_patch_partial",
    "C109_patch_only_partial",
    "C109_members_read",
    "C109_ignored",
    "C109_deterministic_partial",
    "C109_cls_refuted",
    "C109_unused_from_refuted",
    "C109_from_underscore_refuted",
    "C109_missing_value_refuted",
    "C109_exceptions"
   ],
   "note": "False of the code in full: a member 'cls' raises TypeError (C109_cls_refuted), 'from_' is taken instead of \"from\" (C109_from_underscore_refuted), a \"from\" that is no pointer is refused where none belongs (C109_unused_from_refuted), a missing \"value\" is taken for null (C109_missing_value_refuted). Without these it holds in both directions: C109_as_rfc_partial, C109_only_rfc_partial (with the conditions of C24 on the last token), C109_patch_partial and C109_patch_only_partial for whole patches; C109_members_read, C109_ignored: only six member names are looked at. C109_exceptions: for every object, when TypeError, ValueError or JSONPointerMalformedError is raised."
  },
  {
   "property": "C110",
   "status": "partial",
   "theorems": [
    "C110_agrees",
    "C110_refused_partial",
    "C110_whole_document",
    "C110_refuted"
   ],
   "note": "False of the code: with a path of null the whole document is removed (C110_refuted). C110_refused_partial: true of every path that is neither a string nor one of null, false, zero, [] and {}. C110_whole_document: exactly what these six do - they stand for the whole document, except in a test. C110_agrees: on strings PatchAny.v is Patch.v, with the same exceptions."
  }
 ]
}