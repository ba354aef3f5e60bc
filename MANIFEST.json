{
 "claims": [
  {
   "property": "C01",
   "status": "proved",
   "theorems": [
    "C01_safe_name_exact",
    "C01_safe_name_clean",
    "C01_safe_name_idempotent",
    "C01_safe_name_collision"
   ],
   "note": "exact characterisation of safe_name, cleanliness, idempotence and the collision criterion, for all strings"
  },
  {
   "property": "C02",
   "status": "partial",
   "theorems": [
    "C02_legal_identifier_refuted",
    "C02_legal_identifier_partial"
   ],
   "note": "false as stated (await, nonlocal, None, True, False are not escaped): refuted with a witness; exact criterion proved"
  },
  {
   "property": "C03",
   "status": "partial",
   "theorems": [
    "C03_separators_partial",
    "C03_separators_refuted",
    "C03_list_key_attrs_refuted",
    "C03_list_key_attrs_partial",
    "C03_key_leaves",
    "C03_no_keys"
   ],
   "note": "false as stated (safe_name is applied to the whole key argument): refuted; exact criterion proved; which leaves count as keys proved in full; with other separators than one blank, which YANG allows, also false: refuted, and the criterion for arguments with any separators proved"
  },
  {
   "property": "C04",
   "status": "partial",
   "theorems": [
    "C04_class_names_distinct_refuted",
    "C04_class_names_distinct_partial"
   ],
   "note": "false as stated (/a/b/c and /a-b/c collide): refuted; injectivity proved for alphanumeric names"
  },
  {
   "property": "C05",
   "status": "proved",
   "theorems": [
    "C05_all_numbers",
    "C05_range_exact"
   ],
   "note": "for all ranges whose single numbers are within 2^53; C05_all_numbers for the others, which stand for the nearest doubles (see C07)"
  },
  {
   "property": "C06",
   "status": "proved",
   "theorems": [
    "C06_builtin_widths"
   ],
   "note": "exact, integers and decimal strings"
  },
  {
   "property": "C07",
   "status": "partial",
   "theorems": [
    "C07_exact",
    "C07_nothing_refuted",
    "C07_single_value_refuted",
    "C07_single_value_partial"
   ],
   "note": "false beyond 2^53 (compared as a double): refuted, and a range of uint64 that accepts nothing; proved up to 2^53; C07_exact: for every number exactly the nearest double (ties to even) is accepted, if the type has it"
  },
  {
   "property": "C08",
   "status": "partial",
   "theorems": [
    "C08_all_restrictions_refuted",
    "C08_levels_partial",
    "C08_one_per_level_partial",
    "C08_single_level_partial"
   ],
   "note": "false with two restrictions on an outer level (any-of): refuted; exact behaviour proved for every number of levels, full statement for one restriction per level and for a single level"
  },
  {
   "property": "C09",
   "status": "partial",
   "theorems": [
    "C09_alternatives_refuted",
    "C09_newline_refuted",
    "C09_dollar_refuted",
    "C09_caret_refuted",
    "C09_inner_caret_refuted",
    "C09_anchored_partial",
    "C09_accepted_partial"
   ],
   "note": "false with alternatives outside a group, with a final newline, and for patterns that begin with ^ or end in $ (which stand for themselves in YANG), or have a bare ^ inside: refuted; for the other patterns of the grammar (any nesting, classes, repetitions, categories), with any number of typedef levels, the accepted strings are exactly those of the language; the accepted strings are characterised with alternatives and newlines too"
  },
  {
   "property": "C10",
   "status": "partial",
   "theorems": [
    "C10_no_invalid_value_refuted",
    "C10_int_value_partial"
   ],
   "note": "false (text into a range-restricted integer leaf gives 0): refuted; an integer leaf holds the denoted integer within all ranges, or 0"
  },
  {
   "property": "C11",
   "status": "partial",
   "theorems": [
    "C11_rejection_refuted",
    "C11_rejection_partial"
   ],
   "note": "false (a value that fails an inner restriction level has already notified the parents): refuted; proved for everything the constructor rejects, list keys and config false leaves"
  },
  {
   "property": "C12",
   "status": "proved",
   "theorems": [
    "C12_enum_accepts",
    "C12_enum_numbers"
   ],
   "note": "acceptance and numbering"
  },
  {
   "property": "C13",
   "status": "partial",
   "theorems": [
    "C13_numbers",
    "C13_rfc_exact",
    "C13_rfc_first",
    "C13_rfc_numbering_refuted",
    "C13_rfc_numbering_partial"
   ],
   "note": "false when explicit and automatic values are mixed: refuted; what all enumerations get instead, exactly when that is what the RFC says, and that it is if names without value come first"
  },
  {
   "property": "C14",
   "status": "partial",
   "theorems": [
    "C14_order_exact",
    "C14_bits_legal_and_reparse",
    "C14_bits_operations",
    "C14_bits_refused",
    "C14_bits_order_refuted",
    "C14_bits_order_partial"
   ],
   "note": "legality, membership and re-parsing proved in full; canonical order is false (positions compared as text), proved for positions with equally many digits; C14_order_exact: for all positions the order is that of the decimals 0.p, and canonical exactly if these agree for the bits that are set"
  },
  {
   "property": "C15",
   "status": "proved",
   "theorems": [
    "C15_boolean"
   ],
   "note": ""
  },
  {
   "property": "C16",
   "status": "proved",
   "theorems": [
    "C16_binary_round_trip"
   ],
   "note": ""
  },
  {
   "property": "C17",
   "status": "partial",
   "theorems": [
    "C17_binary_length_refuted",
    "C17_binary_length_partial"
   ],
   "note": "false (the length of the base64 text is tested as well): refuted; exact conditions proved"
  },
  {
   "property": "C18",
   "status": "proved",
   "theorems": [
    "C18_decimal_rounding"
   ],
   "note": "nearest, ties to even, exact, idempotent, total on the decimal64 range"
  },
  {
   "property": "C19",
   "status": "proved",
   "theorems": [
    "C19_union_first_match"
   ],
   "note": ""
  },
  {
   "property": "C20",
   "status": "partial",
   "theorems": [
    "C20_members_typed_refuted",
    "C20_members_typed_partial",
    "C20_assigned_typed_partial"
   ],
   "note": "false for a typedef chain and the argument False: refuted; invariant over all operation sequences proved for the other arguments (and for whole-list assignment)"
  },
  {
   "property": "C21",
   "status": "partial",
   "theorems": [
    "C21_members_unique_refuted",
    "C21_members_unique_partial",
    "C21_assigned_unique_partial"
   ],
   "note": "false (membership is tested before conversion): refuted; proved for arguments written as values of the member type"
  },
  {
   "property": "C22",
   "status": "proved",
   "theorems": [
    "C22_sequence",
    "C22_member_type"
   ],
   "note": "every operation refines the relational sequence specification, with exact outcomes"
  },
  {
   "property": "C23",
   "status": "proved",
   "theorems": [
    "C23_add",
    "C23_add_existing",
    "C23_add_keyword",
    "C23_delete",
    "C23_delete_iff",
    "C23_setitem",
    "C23_failure",
    "C23_distinct_keys",
    "C23_lookup"
   ],
   "note": "generic in the entry type; add, keyword add, index assignment, delete, failure, distinct keys, lookup"
  },
  {
   "property": "C24",
   "status": "partial",
   "theorems": [
    "C24_keys_agree_refuted",
    "C24_single_key_partial",
    "C24_string_keys_partial",
    "C24_entries_differ_partial"
   ],
   "note": "false (add(5) and add(id=5) give two entries): refuted; proved for one key given positionally in its own spelling and for any number of string keys"
  },
  {
   "property": "C25",
   "status": "partial",
   "theorems": [
    "C25_composite_keys_refuted",
    "C25_composite_keys_partial"
   ],
   "note": "false with spaces in key values: refuted; proved without"
  },
  {
   "property": "C26",
   "status": "proved",
   "theorems": [
    "C26_keyless",
    "C26_keyless_argument"
   ],
   "note": "uuids drawn are assumed pairwise different"
  },
  {
   "property": "C27",
   "status": "partial",
   "theorems": [
    "C27_every_operation_partial",
    "C27_change_tracking_refuted",
    "C27_change_tracking_partial",
    "C27_compiled_partial",
    "C27_leaf_lists_partial",
    "C27_lists_partial"
   ],
   "note": "false with a choice nested in a case of a choice of the same name: refuted; proved otherwise for leaves and leaf-lists and, at any point of a history, for every operation but the assignment of a whole object: frame, enclosing flags, which nodes are cleared"
  },
  {
   "property": "C28",
   "status": "partial",
   "theorems": [
    "C28_set_anywhere_partial",
    "C28_filtered_dump",
    "C28_filtered_dump_only",
    "C28_set_leaves_partial"
   ],
   "note": "dump in terms of the changed flags, members and presence in full, both directions; flag iff successfully set and since then not unset, not cleared as another case, not in a removed entry: leaves anywhere, no choices nested in cases, histories without assignments of whole objects"
  },
  {
   "property": "C29",
   "status": "proved",
   "theorems": [
    "C29_unfiltered_dump",
    "C29_nodes_exist"
   ],
   "note": "every node, all schemas with distinct sibling names, all trees"
  },
  {
   "property": "C30",
   "status": "partial",
   "theorems": [
    "C30_loading_partial",
    "C30_keyless_refuted",
    "C30_deep_refuted",
    "C30_histories_partial",
    "C30_top_level_refuted",
    "C30_nested_refuted",
    "C30_one_case_partial",
    "C30_step_partial"
   ],
   "note": "false for choices at module level, for directly nested choices, behind two further choices, and for data in lists without keys: refuted; proved over all histories of assignments of values, unsets, leaf-list and list operations for schemas without nested choices and lists with keys"
  },
  {
   "property": "C31",
   "status": "proved",
   "theorems": [
    "C31_unset"
   ],
   "note": "all trees, all nodes"
  },
  {
   "property": "C32",
   "status": "partial",
   "theorems": [
    "C32_config_exact",
    "C32_config_writable",
    "C32_config_refuted",
    "C32_config_partial"
   ],
   "note": "false for choices with config false, whose nodes can be assigned: refuted; proved for all others; for all modules exactly when a node can be assigned, and that configuration always can"
  },
  {
   "property": "C33",
   "status": "partial",
   "theorems": [
    "C33_list_copy_refuted",
    "C33_leaf_list_copy_refuted",
    "C33_copy_partial"
   ],
   "note": "false for lists (emptied) and leaf-lists (rejected): refuted; proved for sources without list and leaf-list members in choice-free schemas"
  },
  {
   "property": "C34",
   "status": "partial",
   "theorems": [
    "C34_present_anywhere_partial",
    "C34_presence_refuted",
    "C34_presence_partial",
    "C34_presence_dump"
   ],
   "note": "false (a rejected assignment below makes the container present): refuted; history characterisation for presence containers anywhere, no choices nested in cases, if refused operations have changed nothing; dump part in full"
  },
  {
   "property": "C35",
   "status": "partial",
   "theorems": [
    "C35_round_trip_refuted",
    "C35_rivals_refuted",
    "C35_round_trip_partial",
    "C35_one_case_partial"
   ],
   "note": "false (a leaf-list of decimal64 comes back empty; a leaf in a choice of the same name as one further down is lost): refuted; proved for all schemas and all trees of storable values with no data in rival cases, in particular with data in one case of every choice"
  },
  {
   "property": "C36",
   "status": "partial",
   "theorems": [
    "C36_round_trip_refuted",
    "C36_identity_refuted",
    "C36_empty_refuted",
    "C36_round_trip_partial"
   ],
   "note": "false (uint64/int64 keys come back as text; identity set with a prefix; leaf of type empty set to False): refuted; proved for all schemas whose names have no colon or at sign and all trees of storable values with no data in rival cases, keys included"
  },
  {
   "property": "C37",
   "status": "partial",
   "theorems": [
    "C37_any_order",
    "C37_order_kept_partial"
   ],
   "note": "the order of members is proved not to matter for every document dumps produces; that the tree itself comes back is C35"
  },
  {
   "property": "C38",
   "status": "proved",
   "theorems": [
    "C38_names"
   ],
   "note": "every member of every object of every document written for a module object"
  },
  {
   "property": "C39",
   "status": "partial",
   "theorems": [
    "C39_scalars_refuted",
    "C39_leaf_list_refuted",
    "C39_scalars_partial"
   ],
   "note": "false (typedef of int64 with a range; booleans in leaf-lists): refuted; proved for the other types"
  },
  {
   "property": "C40",
   "status": "partial",
   "theorems": [
    "C40_identities_refuted",
    "C40_leaf_list_refuted",
    "C40_identities_partial"
   ],
   "note": "false (identity name that starts with the module name; leaf-lists): refuted; proved otherwise"
  },
  {
   "property": "C41",
   "status": "partial",
   "theorems": [
    "C41_skip",
    "C41_raises_refuted",
    "C41_raises_partial",
    "C41_ietf_refuted",
    "C41_ietf_skip_partial",
    "C41_ietf_raises_partial"
   ],
   "note": "skip_unknown proved in full for the default format; AttributeError false for two ordered entries at one position, and skip_unknown false for arrays in the IETF format: refuted; proved otherwise in both formats, with the exception raised for paths that lead nowhere"
  },
  {
   "property": "C42",
   "status": "partial",
   "theorems": [
    "C42_overwrite_refuted",
    "C42_ietf_refuted",
    "C42_nested_refuted",
    "C42_overwrite_partial"
   ],
   "note": "false (two stale entries; every IETF document with two entries; lists in list entries): refuted; proved for the default format, lists reached through containers, when the load succeeds"
  },
  {
   "property": "C43",
   "status": "partial",
   "theorems": [
    "C43_skip_partial",
    "C43_ietf_skip_partial",
    "C43_keys_refuted",
    "C43_beyond_refuted",
    "C43_ietf_names_refuted",
    "C43_ietf_entry_refuted"
   ],
   "note": "false for integer keys, for paths below a leaf, and in the IETF format for paths without prefixes and for list entries: refuted; proved in both formats for paths that lead through objects of the document"
  },
  {
   "property": "C44",
   "status": "partial",
   "theorems": [
    "C44_select_partial",
    "C44_ietf_select_partial",
    "C44_refused",
    "C44_unset_refuted",
    "C44_ietf_nested_refuted"
   ],
   "note": "false if a selected leaf is unset in some entry, and for leaves below containers in the IETF format: refuted; proved otherwise in both formats, with the exception raised for paths that lead nowhere"
  },
  {
   "property": "C45",
   "status": "partial",
   "theorems": [
    "C45_if_set_refuted",
    "C45_if_set_partial",
    "C45_filter"
   ],
   "note": "false (an integer leaf that was never set is written): refuted; proved for leaves whose value differs from the default (from False if there is none), at any depth"
  },
  {
   "property": "C46",
   "status": "partial",
   "theorems": [
    "C46_join",
    "C46_position_partial",
    "C46_split_partial",
    "C46_bracket_refuted",
    "C46_quoted_refuted"
   ],
   "note": "false for brackets in quotes: refuted; joining proved in full; proved for paths whose quoted strings hold no brackets"
  },
  {
   "property": "C47",
   "status": "partial",
   "theorems": [
    "C47_map_partial",
    "C47_register_partial",
    "C47_replace_refuted"
   ],
   "note": "false if an equal object is registered (the old one stays): refuted; after every sequence of calls the helper is the map that the calls amount to, for names and key values that the predicate syntax can express and lists registered with all their keys"
  },
  {
   "property": "C48",
   "status": "partial",
   "theorems": [
    "C48_partial"
   ],
   "note": "proved after every sequence of calls, for names and key values that the predicate syntax can express"
  },
  {
   "property": "C49",
   "status": "partial",
   "theorems": [
    "C49_partial",
    "C49_lost_refuted",
    "C49_failed_refuted",
    "C49_key_refuted"
   ],
   "note": "false (objects below an unregistered one, and objects whose registration failed, are kept; a key called obj_ptr): refuted; pointers stored, distinct, and no KeyError proved for every sequence of calls with any texts otherwise"
  },
  {
   "property": "C50",
   "status": "partial",
   "theorems": [
    "C50_malformed",
    "C50_refused",
    "C50_partial",
    "C50_plain",
    "C50_space_refuted",
    "C50_name_refuted",
    "C50_empty_refuted",
    "C50_or_refuted"
   ],
   "note": "false for values with spaces, empty values, key names with dots, and for \"or\": refuted; proved for any number of predicates in any of the usual spellings otherwise, and brackets that do not begin with a predicate are refused (in bracket texts without brackets and bars), by searches, registrations and removals alike"
  },
  {
   "property": "C51",
   "status": "partial",
   "theorems": [
    "C51_accepts_partial",
    "C51_refers_partial",
    "C51_free_partial",
    "C51_pointer_refuted"
   ],
   "note": "false if the path leads to exactly one leaf that is no key (the leaf takes the value): refuted; proved otherwise"
  },
  {
   "property": "C52",
   "status": "partial",
   "theorems": [
    "C52_prefix_refuted",
    "C52_order",
    "C52_ends",
    "C52_iff_partial",
    "C52_complete_partial",
    "C52_grounded",
    "C52_found_partial",
    "C52_depth_refuted",
    "C52_identity_refuted",
    "C52_union_refuted"
   ],
   "note": "order and end in full; failure exactly for undefined or circular references, for up to 1001 typedefs or references not deeper than that; refuted: 1002 typedefs in a chain, a module imported under another prefix and given before the importing one, an identity with the name of the typedef, a union inside a union"
  },
  {
   "property": "C53",
   "status": "partial",
   "theorems": [
    "C53_store",
    "C53_values_partial"
   ],
   "note": "the store holds every identity once, its children are exactly the derived identities, in full; the values by the text of the base for texts that denote one identity (others: C59)"
  },
  {
   "property": "C54",
   "status": "partial",
   "theorems": [
    "C54_partial",
    "C54_forever",
    "C54_refuted"
   ],
   "note": "false (a missing base or a cycle): refuted, and for every such set the loop runs forever; builds exactly if every base is defined and nothing derives from itself"
  },
  {
   "property": "C55",
   "status": "partial",
   "theorems": [
    "C55_partial",
    "C55_override_refuted",
    "C55_member_refuted",
    "C55_passed_refuted"
   ],
   "note": "the nearest default, unless the named typedef has one as well as the leaf, or an unrestricted typedef lies between (both refuted); not for unions (a member's default wins: refuted)"
  },
  {
   "property": "C56",
   "status": "partial",
   "theorems": [
    "C56_string_partial",
    "C56_int_partial",
    "C56_transparent",
    "C56_enum",
    "C56_digits_partial",
    "C56_pattern_refuted",
    "C56_digits_refuted"
   ],
   "note": "restrictions along any chain of typedefs: strings with one restriction per level or one level, ranges of integers (C60 with two or more), enumerations, fraction-digits without range, unrestricted typedefs of any type; refuted: second pattern, fraction-digits with range"
  },
  {
   "property": "C57",
   "status": "partial",
   "theorems": [
    "C57_member_refuted",
    "C57_true_refuted",
    "C57_key_refuted",
    "C57_int_key_refuted",
    "C57_empty_refuted",
    "C57_identities_refuted",
    "C57_length_refuted",
    "C57_round_trip_partial"
   ],
   "note": "false (string members and keys that look like numbers, integer keys, the empty string, False of type empty, identities in leaf-lists, length restrictions on members): refuted; proved for all schemas and all trees of storable values with no data in rival cases; string keys with a length restriction and the text form of documents are not modelled"
  },
  {
   "property": "C58",
   "status": "partial",
   "theorems": [
    "C58_decimals_refuted",
    "C58_ranged_refuted",
    "C58_decimals_partial"
   ],
   "note": "false beyond what a double holds, and for decimal64 with a range: refuted; proved below 2^52 units of the last digit, any number of fraction digits"
  },
  {
   "property": "C59",
   "status": "partial",
   "theorems": [
    "C59_partial",
    "C59_name_refuted",
    "C59_prefix_refuted"
   ],
   "note": "false (a bare name, or a prefix, shared by two modules: the last module wins): refuted; proved for texts that denote one identity"
  },
  {
   "property": "C60",
   "status": "partial",
   "theorems": [
    "C60_typedef_chain_refuted",
    "C60_typedef_chain_partial",
    "C60_typedef_call_exact"
   ],
   "note": "false from three levels on (stored as 0): refuted; exact behaviour for every depth proved"
  },
  {
   "property": "C61",
   "status": "partial",
   "theorems": [
    "C61_bits_leaf_list_refuted"
   ],
   "note": "false: such a leaf-list stays empty under every sequence of operations"
  },
  {
   "property": "C62",
   "status": "partial",
   "theorems": [
    "C62_bool_refuted",
    "C62_document_partial"
   ],
   "note": "structure, names and namespaces in full; text false for booleans in leaf-lists (1/0): refuted; proved for leaves of the builtin types, their restrictions, bits, unions of builtin types and leafrefs, and for leaf-lists of one builtin type"
  },
  {
   "property": "C63",
   "status": "partial",
   "theorems": [
    "C63_refuted",
    "C63_identities_partial"
   ],
   "note": "false for identities whose name starts with the name of their module: refuted; proved otherwise, leaves"
  },
  {
   "property": "C64",
   "status": "partial",
   "theorems": [
    "C64_refuted",
    "C64_raises_partial"
   ],
   "note": "false inside the elements of leaves, and namespaces are ignored: refuted; proved for elements in the module, containers and entries at any depth"
  },
  {
   "property": "C65",
   "status": "partial",
   "theorems": [
    "C65_found_partial",
    "C65_exact_partial",
    "C65_del_refuted",
    "C65_add_refuted",
    "C65_unset_refuted",
    "C65_assign_refuted",
    "C65_late_refuted",
    "C65_leaf_list_refuted",
    "C65_refused_refuted",
    "C65_keyless_refuted"
   ],
   "note": "false (del, a refused add(), unset and assignment of containers leave objects that are still found; an assigned leaf-list is not seen; a leaf refused by its constructor is; lists without keys fail): refuted; everything but assigned leaf-lists is found after any operations that do not fail halfway, and found exactly if only leaves are assigned and entries go with delete(); types and choices are those of other claims (parameters here), loading of documents not modelled here"
  },
  {
   "property": "C66",
   "status": "partial",
   "theorems": [
    "C66_search_partial",
    "C66_relative_partial",
    "C66_unique_partial",
    "C66_tree_partial",
    "C66_caller_refuted"
   ],
   "note": "proved after every sequence of calls, and in data trees after every session that C65 covers, for names and key values that the predicate syntax can express; false for callers that are not registered: refuted; paths with \".\" not covered; current() is in C86, the root object in C91"
  },
  {
   "property": "C67",
   "status": "partial",
   "theorems": [
    "C67_leaves_partial",
    "C67_leaf_list_partial",
    "C67_single_refuted",
    "C67_leaf_lists_refuted",
    "C67_del_refuted",
    "C67_members_partial"
   ],
   "note": "false (a leaf that is no key in a list with one entry, leaf-lists in list entries, entries removed with del): refuted; proved for all schemas and all sessions that C65 covers exactly, paths of names with or without prefix, absolute or relative; predicates in leafref paths are in C86"
  },
  {
   "property": "C68",
   "status": "partial",
   "theorems": [
    "C68_found_partial",
    "C68_only",
    "C68_ends",
    "C68_cycle",
    "C68_choice_refuted",
    "C68_submodule_refuted"
   ],
   "note": "false (a typedef in a container in a choice, a submodule included by a submodule only): refuted; proved for definitions at the top or inside containers, lists, groupings, rpcs and notifications with data nodes, all import graphs without circles; with a circle it never ends; of two definitions with one name under one prefix one is found"
  },
  {
   "property": "C69",
   "status": "partial",
   "theorems": [
    "C69_partial",
    "C69_module_refuted",
    "C69_scope_refuted",
    "C69_prefix_refuted"
   ],
   "note": "false (two modules, with the same prefix or not, or two containers of a module): refuted; proved if all typedefs have different names and modules are imported under their own prefixes"
  },
  {
   "property": "C70",
   "status": "proved",
   "theorems": [
    "C70_json",
    "C70_ietf",
    "C70_xml",
    "C70_histories"
   ],
   "note": "all three formats, in full for the modelled documents; in XML a value refused by a leaf-list of texts may be tried again as text; the histories of C70_histories have no assignments of whole objects and draw new names for entries without keys"
  },
  {
   "property": "C71",
   "status": "partial",
   "theorems": [
    "C71_json_partial",
    "C71_ietf_partial",
    "C71_xml_partial",
    "C71_overwrite_partial",
    "C71_overwrite_ietf_partial",
    "C71_refused_refuted"
   ],
   "note": "false for the effect of a refused document (it is loaded up to the error): refuted; what the document has nothing for is proved to stay, in schemas without nested choices, after every history without assignments of whole objects; with overwrite only for the children of the module"
  },
  {
   "property": "C72",
   "status": "partial",
   "theorems": [
    "C72_loaded_refuted",
    "C72_text_refuted",
    "C72_leaves_partial",
    "C72_members_partial"
   ],
   "note": "false as stated: a text that is no number loads as 0, false loads as the text False for a string restricted twice (refuted); proved for all histories of operations and documents with the blank value as only exception, strings restricted at one level, union and leaf-list member types restricted at one level; bits proved in full for leaves; leafrefs under C48"
  },
  {
   "property": "C73",
   "status": "proved",
   "theorems": [
    "C73_json",
    "C73_ietf",
    "C73_xml"
   ],
   "note": "three formats, any number of operations, each accepted or refused; the values a format can express are those of C35, C36 and C57; in the IETF format and in XML presence is not taken back, and for XML key leaves are not assigned by hand"
  },
  {
   "property": "C74",
   "status": "partial",
   "theorems": [
    "C74_keyless_refuted",
    "C74_quotes_refuted",
    "C74_text_refuted",
    "C74_partial"
   ],
   "note": "false for lists without keys and for quotes in key values (refuted; the text of the path also for lists in lists); proved for all other trees"
  },
  {
   "property": "C75",
   "status": "partial",
   "theorems": [
    "C75_own_refuted",
    "C75_construction_refuted",
    "C75_method_refuted",
    "C75_partial",
    "C75_elsewhere",
    "C75_leaves",
    "C75_exact",
    "C75_hidden_refuted"
   ],
   "note": "false: methods named like a generated method replace it (anything else of such a name hides it), others named like one of the wrapper class make the construction fail, and none is attached after one called method (refuted); what becomes of each name is given exactly, by kind of object, when none is called method; mangled names, and leaves of typedefs called list or container, not looked at"
  },
  {
   "property": "C76",
   "status": "partial",
   "theorems": [
    "C76_reserved_refuted",
    "C76_shadow_refuted",
    "C76_shared_refuted",
    "C76_header_refuted",
    "C76_modules",
    "C76_partial",
    "C76_apart"
   ],
   "note": "false: a reserved word inside itself, names that differ only before safe_name(), a and a_ inside a, and containers named like something the head of the file defines (refuted); module and directory agree for all modules; proved in full for names that avoid these; RPCs, notifications and submodules not modelled"
  },
  {
   "property": "C77",
   "status": "partial",
   "theorems": [
    "C77_data",
    "C77_partial",
    "C77_leaf_list_refuted",
    "C77_module_refuted"
   ],
   "note": "false: the annotations of leaf-lists (arrays, RFC 7952 5.2.4) and of the module itself are refused after part of the document was loaded (refuted); the data for all documents; the annotations for schemas without choices, lists with keys, documents that name each child and entry once and without overwrite"
  },
  {
   "property": "C78",
   "status": "partial",
   "theorems": [
    "C78_clash_refuted",
    "C78_rpc_refuted",
    "C78_loop_refuted",
    "C78_siblings_refuted",
    "C78_partial",
    "C78_plain_partial"
   ],
   "note": "false: /a/b/c and /a-b/c share a class, so do the rpc r of module m and /m/rpc/r, a class can be its own child, siblings a-b and a.b share an attribute (all refuted); proved whenever no two different classes of the file have the same name and siblings differ in Python, which holds for any modules without rpcs and notifications whose containers and lists have alphanumeric names"
  },
  {
   "property": "C79",
   "status": "partial",
   "theorems": [
    "C79_method_refuted",
    "C79_any_name_refuted",
    "C79_nodes_partial",
    "C79_only_partial",
    "C79_get"
   ],
   "note": "false: a node called append or extend below the top is hidden by a method of the class around the generated one, so it cannot be assigned and get() raises; presence containers without children, entries of lists without keys and rpc inputs take any attribute (all refuted); proved for all other nodes and objects with children, and get() works exactly without these names"
  },
  {
   "property": "C80",
   "status": "partial",
   "theorems": [
    "C80_index_never",
    "C80_index_refuted",
    "C80_iteration_refuted",
    "C80_iteration_partial"
   ],
   "note": "indexing with the name of any node raises TypeError, for all schemas (refuted): the library calls what it found; iteration gives all names in order, and the nodes but for those called append or extend (refuted)"
  },
  {
   "property": "C81",
   "status": "partial",
   "theorems": [
    "C81_escapes",
    "C81_cover",
    "C81_integers",
    "C81_strings_partial",
    "C81_booleans",
    "C81_binary",
    "C81_bits_partial",
    "C81_decimals_partial",
    "C81_decimals_exact",
    "C81_decimals_zeros",
    "C81_octal_refuted",
    "C81_backslash_refuted",
    "C81_quote_refuted",
    "C81_bits_refuted",
    "C81_decimal_refuted",
    "C81_reference_refuted",
    "C81_union_refuted",
    "C81_empty_refuted",
    "C81_underscores"
   ],
   "note": "integers, booleans, binaries for all texts of RFC 6020 (an octal integer makes the generated file unreadable: refuted); texts without quotes, backslashes and line ends (refuted for each), and C81_escapes with C81_cover: what becomes of every text of a string; bits declared by the leaf itself (refuted for typedefs); decimals become floats: exact iff 5^n divides the digits, equal after rounding up to 52 bits (refuted); references and unions of typedefs refuted"
  },
  {
   "property": "C82",
   "status": "partial",
   "theorems": [
    "C82_integers",
    "C82_integers_exact",
    "C82_integers_refuted",
    "C82_decimals",
    "C82_decimals_exact",
    "C82_decimals_refuted",
    "C82_error_refuted",
    "C82_binary_refuted"
   ],
   "note": "all texts of RFC 6020 are taken for their numbers (decimals: at most the declared fraction digits); the further texts that are accepted are characterised exactly, so the other direction is refuted: spaces, underscores, exponents; junk on a decimal64 raises InvalidOperation; junk in base64 is skipped; non-ASCII digits, the characters 28-31, NaN and Infinity are outside"
  },
  {
   "property": "C83",
   "status": "partial",
   "theorems": [
    "C83_ietf",
    "C83_json",
    "C83_mistakes_ietf_partial",
    "C83_mistakes_json_partial",
    "C83_list_refuted",
    "C83_entry_refuted",
    "C83_text_refuted",
    "C83_array_refuted",
    "C83_unknown_refuted",
    "C83_container_refuted",
    "C83_xml",
    "C83_mistakes_xml_partial"
   ],
   "note": "what loads has the shape of the schema up to a list of exceptions that is part of the statement; that they are exceptions is refuted by documents: a number for a list or an entry empties the list, a text for a leaf-list is taken apart, an array for a leaf, empty arrays under unknown names, anything for a container without children; in XML an empty element for a leaf assigns nothing, and nothing is said of the texts of keys and members; exceptions of mistakes are proved when the mistake comes first (after members at the top level that load)"
  },
  {
   "property": "C84",
   "status": "partial",
   "theorems": [
    "C84_ietf_partial",
    "C84_empty_key_refuted",
    "C84_twice_refuted"
   ],
   "note": "IETF JSON, schemas without choices (these are in C89), lists with keys, without overwrite; the values of the key leaves are not part of what is said; refuted for documents of the right shape: an entry whose only key is the empty string is refused, a document with a composite key that ends with a space does not load twice"
  },
  {
   "property": "C85",
   "status": "partial",
   "theorems": [
    "C85_members",
    "C85_integers",
    "C85_default_partial",
    "C85_member_default",
    "C85_typedef_default",
    "C85_typedef_first",
    "C85_decimal_refuted",
    "C85_bits_refuted",
    "C85_restricted_refuted",
    "C85_leafref_refuted",
    "C85_enumeration_refuted",
    "C85_nested"
   ],
   "note": "the members and their order are proved for all unions, the defaults for members that are built-in types or unrestricted typedefs of them without defaults; what happens with defaults of members and of typedefs of unions is proved as it is: they replace the leaf's own, and the default of a typedef of a union is read as its last new member. Refuted: defaults behind a decimal64, bits or a restricted typedef make the generator fail, so does a leafref in a typedef of a union with a default; an enumeration takes every default; a union statement directly inside another is never taken"
  },
  {
   "property": "C86",
   "status": "partial",
   "theorems": [
    "C86_plain",
    "C86_search_partial",
    "C86_relative_partial",
    "C86_nobody",
    "C86_leafref_partial",
    "C86_self_refuted",
    "C86_literal_refuted",
    "C86_apostrophe_refuted"
   ],
   "note": "proved after every sequence of calls and in data trees after every session that C65 covers, for expressions current()/ with any number of .. and then names, and for searches that nobody asks; false for current() alone, for key values that contain the text current(), and for texts with an apostrophe: refuted"
  },
  {
   "property": "C87",
   "status": "partial",
   "theorems": [
    "C87_json_partial",
    "C87_members_refuted",
    "C87_order_refuted",
    "C87_position_refuted"
   ],
   "note": "the default format, schemas without choices (these are in C89), lists with keys, without overwrite; the order of members of leaf-lists is not part of what is said and is not that of the document if some were there; refuted without the hypotheses: a member that is converted is added and removed again, of two entries with one position the first is lost"
  },
  {
   "property": "C88",
   "status": "partial",
   "theorems": [
    "C88_xml_partial",
    "C88_members_refuted",
    "C88_blank_refuted",
    "C88_identity_key_refuted"
   ],
   "note": "schemas without choices (these are in C89), documents without lists without keys; the order of members and entries is not part of what is said; members that the document does not give stay (refuted otherwise), an element without text leaves its leaf as it was, and an identity keeps its prefix in a key"
  },
  {
   "property": "C89",
   "status": "partial",
   "theorems": [
    "C89_ietf_partial",
    "C89_json_partial",
    "C89_xml_partial",
    "C89_two_cases_refuted"
   ],
   "note": "choices that are not nested, keys in the case of their list, no assignment of whole objects before; else as C84, C87 and C88; refuted for documents with data in two cases: such a document loads without an exception and what comes first is lost"
  },
  {
   "property": "C90",
   "status": "partial",
   "theorems": [
    "C90_json_partial",
    "C90_ietf_partial",
    "C90_xml_partial"
   ],
   "note": "trees and programs as in C73 (keyed lists, no nested choices, no assignment of whole objects); the values of key leaves are claimed for the default format only"
  },
  {
   "property": "C91",
   "status": "partial",
   "theorems": [
    "C91_get_list_partial",
    "C91_no_child_partial",
    "C91_no_parent_partial",
    "C91_root_partial",
    "C91_root_leaf_lists_partial",
    "C91_top_list_refuted",
    "C91_prefix_refuted",
    "C91_stale_refuted",
    "C91_leaf_list_refuted"
   ],
   "note": "sessions as in C65 (leaf-lists on the root object: not assigned); refuted: lists at the top level are not found, a prefix in the last part is not taken off, entries of lists at the top level stay on the root object after delete, an assigned leaf-list can be another object there; paths with .. and prefixes not covered"
  },
  {
   "property": "C92",
   "status": "partial",
   "theorems": [
    "C92_integers",
    "C92_bytes",
    "C92_decimals",
    "C92_strings",
    "C92_things",
    "C92_bits",
    "C92_binary_numbers",
    "C92_none_refuted",
    "C92_fraction_refuted",
    "C92_false_refuted",
    "C92_bits_refuted"
   ],
   "note": "proved for numbers and bytes; the last sentence is false: None, lists and dicts given to an integer or decimal64 leaf make it 0 (refuted; a bits leaf raises AttributeError, decimal64 refuses lists); also refuted: fractions are refused by integer leaves, False is tested against the range of the leaf, the value of a bits leaf can be assigned to another; infinities and NaN are not modelled"
  },
  {
   "property": "C93",
   "status": "partial",
   "theorems": [
    "C93_ranges_partial",
    "C93_single_refuted",
    "C93_three_refuted",
    "C93_false_refuted"
   ],
   "note": "taken: any chain; refused: at most two ranges in the chain; false, and refuted: a single number that is no double (0.1) is refused, values outside the third range of a chain become 0, False passes the range of the leaf"
  },
  {
   "property": "C94",
   "status": "partial",
   "theorems": [
    "C94_partial",
    "C94_word_refuted",
    "C94_repeated_refuted"
   ],
   "note": "false for modules with a name of one letter (other statements that begin with it are taken for extensions) and for an extension given twice (the first is lost): both refuted; proved otherwise for siblings with different names in Python; what pyang does to statements is taken for granted"
  },
  {
   "property": "C95",
   "status": "partial",
   "theorems": [
    "C95_partial",
    "C95_quotes",
    "C95_quotes_refuted",
    "C95_backslash",
    "C95_backslash_refuted",
    "C95_escapes",
    "C95_escapes_quotes",
    "C95_broken",
    "C95_cover"
   ],
   "note": "word for word for descriptions without backslashes, NUL and three double quotes in a row, and names, paths and types also without quotes and on one line; with backslashes the escape sequences are replaced, which refutes the claim; what follows three double quotes is read as code (refuted); NUL, too few hexadecimal digits and numbers beyond the last character make the file a SyntaxError; these are all descriptions (C95_cover) but those with a character name (\\N), which is not read; the end of the code after the setter's docstring is not modelled"
  },
  {
   "property": "C96",
   "status": "partial",
   "theorems": [
    "C96_found_partial",
    "C96_new_partial",
    "C96_update_refuted",
    "C96_stale_refuted"
   ],
   "note": "as C65: not for leaf-lists, key texts that the helper cannot hold, lists without keys and operations that fail halfway; distinct names at the top of the modules; loading is taken as a series of operations; that the search for / finds nothing is a fact about lxml (trusted). Refuted: a second document updates the tree of the first (the intent of the comment in the code), and the entries of a tree that was given up are no longer found"
  },
  {
   "property": "C97",
   "status": "partial",
   "theorems": [
    "C97_module",
    "C97_partial",
    "C97_ietf",
    "C97_json",
    "C97_ietf_list",
    "C97_json_list",
    "C97_augment_refuted"
   ],
   "note": "both JSON formats in full, for containers, entries and whole lists (default format: siblings with different names); XML proved with the namespace of the module in place of that of the node: the two documents are the same exactly for nodes in that namespace; refuted for nodes that another module adds (augment); containers without content that are not present are not in the document of the tree; values must be ones that can be written"
  },
  {
   "property": "C98",
   "status": "partial",
   "theorems": [
    "C98_partial",
    "C98_pairs",
    "C98_single",
    "C98_refuted"
   ],
   "note": "for namespaces without apostrophes, and for all identifiers and names of types; false for apostrophes, which URIs may have, and refuted: pairs of them are lost, at a single one the literal ends and the rest is read as code; nodes without a namespace are left out"
  },
  {
   "property": "C99",
   "status": "partial",
   "theorems": [
    "C99_refuted",
    "C99_written_partial",
    "C99_refused",
    "C99_no_form",
    "C99_legal"
   ],
   "note": "the first sentence is false and refuted: strings with control characters can be assigned and stored as JSON, not as XML; decided (written or ValueError) for trees of all types but identities and unions with bits or leafrefs in leaves, and of one type, no bits and no binary, in leaf-lists; any tree with such a text is refused, or with a leaf-list of identities or binaries or an identity without module, and the texts of all documents that are written are legal; the characters lxml takes are those of XML 1.0 (trusted)"
  },
  {
   "property": "C100",
   "status": "partial",
   "theorems": [
    "C100_keys_partial",
    "C100_key_lines",
    "C100_paths_partial",
    "C100_path_lines",
    "C100_refuted"
   ],
   "note": "for keys on one line and paths of names, dots, slashes, colons and predicates with blanks and tabs; false, and refuted, for keys over several lines, which RFC 6020 allows: the generated file is a SyntaxError; the same is proved for paths over several lines, which are not legal; escapes and lists without keys are left out"
  },
  {
   "property": "C101",
   "status": "partial",
   "theorems": [
    "C101_members",
    "C101_returns",
    "C101_removes",
    "C101_declared_exact",
    "C101_declared_partial",
    "C101_flags",
    "C101_statements",
    "C101_text",
    "C101_refuted"
   ],
   "note": "the sets in full (C101_members); declared bits exactly unless update or symmetric_difference_update bring in others, after which str() raises KeyError (refuted); flags exactly (C101_flags): the four inherited methods do not mark the leaf as changed, add, discard and clear do not tell the objects around it; remove with a path helper always raises AttributeError, pop returns None, |= and the like raise AttributeError after the set was changed (all refuted)"
  },
  {
   "property": "C102",
   "status": "partial",
   "theorems": [
    "C102_always_raises_partial",
    "C102_integers",
    "C102_pattern",
    "C102_refuted"
   ],
   "note": "the second half is false and refuted: += raises ValueError for every value, also for no values; the first half is proved for leaf-lists of strings, booleans and bits without restrictions and of the built-in integers; C102_pattern: strings with a pattern, where a list whose text matches becomes that one text; no path helper"
  }
 ]
}