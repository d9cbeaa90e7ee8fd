{
 "claims": [
  {
   "property": "C01",
   "status": "proved",
   "theorems": [
    "C01_objlist_is_sequence",
    "C01_insert_before_refuted",
    "C01_insert_before_partial"
   ],
   "note": "Every history of append/insert_at/remove_at/remove/set/clear/get refines a list. comps_objlist_insert_before (static helper) is wrong for the first two positions: refuted separately."
  },
  {
   "property": "C02",
   "status": "partial",
   "theorems": [
    "C02_derived_operations",
    "C02_sublist_indexed_refuted",
    "C02_sublist_indexed_partial",
    "C02_get_it_refuted"
   ],
   "note": "filter, concat, index and sublist by iterator proved. The full property is false of the code: sublist_indexed never returns the last element (refuted; exact behaviour proved) and get_it always returns NULL (refuted)."
  },
  {
   "property": "C03",
   "status": "proved",
   "theorems": [
    "C03_list_cmp"
   ],
   "note": "Element comparison is a parameter."
  },
  {
   "property": "C04",
   "status": "partial",
   "theorems": [
    "C04_hslist_partial",
    "C04_hslist_refuted"
   ],
   "note": "False of the code: prepend on an empty list leaves the tail NULL. Proved for every history that avoids append/pop with such a tail."
  },
  {
   "property": "C05",
   "status": "partial",
   "theorems": [
    "C05_get_after_set_partial",
    "C05_get_after_set_on_clone_partial",
    "C05_get_after_set_refuted",
    "C05_run_exact",
    "C05_set_exact"
   ],
   "note": "False of the code (a key set after a longer key it prefixes can lose siblings). Proved for every history in which no key is first set after a proper extension of it. The outputs of every history are given by a table machine (C05_run_exact), and the keys each set loses by C05_set_exact."
  },
  {
   "property": "C06",
   "status": "partial",
   "theorems": [
    "C06_unset_partial",
    "C06_unset_on_clone_partial",
    "C06_unset_histories_partial",
    "C06_unset_refuted",
    "C06_unset_exact",
    "C05_run_exact"
   ],
   "note": "False of the code: unset can read freed memory or remove longer keys; when it does so is stated exactly for every history (C06_unset_exact, C05_run_exact). Also proved: what unset does when it does not hit that case, on any reachable dictionary, and total correctness for prefix-free key sets."
  },
  {
   "property": "C07",
   "status": "proved",
   "theorems": [
    "C07_enumeration"
   ],
   "note": ""
  },
  {
   "property": "C08",
   "status": "partial",
   "theorems": [
    "C08_clone",
    "C08_copy_partial",
    "C08_copies_compare_equal",
    "C08_copy_count_refuted"
   ],
   "note": "clone fully proved; copy proved except for the element count, which is refuted (copy stores 0)."
  },
  {
   "property": "C09",
   "status": "proved",
   "theorems": [
    "C09_union"
   ],
   "note": ""
  },
  {
   "property": "C10",
   "status": "proved",
   "theorems": [
    "C10_cmp_is_map_equality"
   ],
   "note": ""
  },
  {
   "property": "C100",
   "status": "proved",
   "theorems": [
    "C100_counted"
   ],
   "note": "For every history; references lost by an earlier call are counted in [lost], which is empty after tidy calls."
  },
  {
   "property": "C101",
   "status": "partial",
   "theorems": [
    "C101_no_leak_partial",
    "C101_empty_partial",
    "C101_union_refuted",
    "C101_document_union_refuted",
    "C101_packages_refuted"
   ],
   "note": "Proved for histories without get_packages of NULL, without unions of objects that have two items of one name, and with comps_doc_union only of documents that have a list for groups, categories and environments each, without two objects of one id in a list; get_packages of NULL and the unions of the other kinds leak (refuted). Missing: comps_doc_union of documents that lack one of the three lists."
  },
  {
   "property": "C102",
   "status": "proved",
   "theorems": [
    "C102_copy"
   ],
   "note": "For the objects that can be copied at all (C99: not documents and multi-dictionaries). Integer members are not in this model (they are in C26)."
  },
  {
   "property": "C103",
   "status": "partial",
   "theorems": [
    "C103_defined",
    "C103_sound",
    "C103_counted",
    "C103_sum",
    "C103_packages",
    "C103_no_leak_partial",
    "C103_empty_partial",
    "C103_first_refuted",
    "C103_second_refuted",
    "C103_packages_refuted",
    "C103_own_refuted"
   ],
   "note": "Runs, counters, items and unchanged operands: proved for every two lists. No leak: proved when no id repeats within an operand (and no object has two items of one name); refuted when one repeats in the first or in the second list, and for packages in the first. The values of the new objects are in C53. Objects of the second list are shared, not copied (C103_own_refuted)."
  },
  {
   "property": "C104",
   "status": "partial",
   "theorems": [
    "C104_unique_partial",
    "C104_meaning_partial",
    "C104_no_destructor",
    "C104_same_address_refuted"
   ],
   "note": "Proved for lists of pairwise different addresses with a destructor. Without a destructor: characterised exactly (C104_no_destructor), a repeat calls through NULL. One address twice: refuted, its data are destroyed and stay in the list. Nothing in /repo calls this public function."
  },
  {
   "property": "C105",
   "status": "partial",
   "theorems": [
    "C105_concat",
    "C105_repeat_partial",
    "C105_repeat_empty_refuted"
   ],
   "note": "Sums: proved. Multiples: proved for every sequence but the empty one; refuted for the empty one and a positive number, which reads through NULL. Neither function is installed in a type."
  },
  {
   "property": "C106",
   "status": "partial",
   "theorems": [
    "C106_iterator",
    "C106_defined_partial",
    "C106_all",
    "C106_remove_refuted",
    "C106_append_refuted"
   ],
   "note": "What the iterator gives and when it is undefined: characterised exactly for every history (C106_iterator). Definedness: proved when nothing is taken away and for taking away each item just given; refuted when the item ahead of the iterator is removed or the list cleared. An item appended after the last one was given is missed."
  },
  {
   "property": "C107",
   "status": "partial",
   "theorems": [
    "C107_iterator",
    "C107_defined_partial",
    "C107_changed_refuted"
   ],
   "note": "Characterised exactly for every history (C107_iterator). Keys: proved. Values and items: proved when nothing else is called; refuted when the entry ahead is set, unset or cleared or the dictionary is given back, since the iterator holds uncounted addresses."
  },
  {
   "property": "C108",
   "status": "partial",
   "theorems": [
    "C108_same_kind_partial",
    "C108_empty",
    "C108_refuted"
   ],
   "note": "Proved for two sequences whose objects are of one kind, and for an empty sequence and any other. Refuted for None and everything that is not a sequence, and for sequences of different kinds of objects."
  },
  {
   "property": "C109",
   "status": "partial",
   "theorems": [
    "C109_counted",
    "C109_no_leak_partial",
    "C109_leak_refuted"
   ],
   "note": "Definedness and the exact counters: proved for every history (C109_counted). No leak: proved for histories without item assignment and remove; refuted for both, which lose one reference per call unless a check refuses the item. Not modelled: slices, strings converted to ids, indices outside int, negative positions of insert and item access."
  },
  {
   "property": "C11",
   "status": "partial",
   "theorems": [
    "C11_count_partial",
    "C11_count_refuted",
    "C05_run_exact"
   ],
   "note": "False of the code: unset never decrements, and setting a key on an interior node is not counted. Proved for set-only histories without late prefixes; the count of every history is that of the table machine of C05_run_exact."
  },
  {
   "property": "C12",
   "status": "partial",
   "theorems": [
    "C12_get_partial",
    "C12_get_values_partial",
    "C12_run_exact",
    "C12_get_refuted"
   ],
   "note": "False of the code: when two keys diverge, the list of the first is stored as one element of a new list. C12_run_exact gives every result and the length for every history of set, unset and get. Exact law proved when keys diverge only at existing keys; for every history the values are right after splicing nested lists."
  },
  {
   "property": "C13",
   "status": "partial",
   "theorems": [
    "C13_cmp_keys_partial",
    "C13_cmp_refuted"
   ],
   "note": "False of the code: values are never compared with the other dictionary. Proved: the answer is equality of key sets."
  },
  {
   "property": "C14",
   "status": "proved",
   "theorems": [
    "C14_set_is_set",
    "C14_set_cmp"
   ],
   "note": ""
  },
  {
   "property": "C15",
   "status": "proved",
   "theorems": [
    "C15_group_union"
   ],
   "note": "Arguments are values in the model, so 'unchanged' holds by construction."
  },
  {
   "property": "C16",
   "status": "partial",
   "theorems": [
    "C16_group_intersect",
    "C16_category_intersect",
    "C16_env_intersect_partial",
    "C16_env_intersect_refuted",
    "C16_translations_dropped"
   ],
   "note": "Exact for groups and categories. Environments drop repeated members (refuted as stated). Translations are dropped."
  },
  {
   "property": "C17",
   "status": "proved",
   "theorems": [
    "C17_category_union",
    "C17_env_union"
   ],
   "note": ""
  },
  {
   "property": "C18",
   "status": "proved",
   "theorems": [
    "C18_doc_union",
    "C18_doc_union_unique",
    "C18_parts_dropped",
    "C18_no_encoding_refuted"
   ],
   "note": "First document must have an encoding: otherwise undefined behaviour, proved. Blacklist and whiteout are dropped, proved."
  },
  {
   "property": "C19",
   "status": "proved",
   "theorems": [
    "C19_doc_intersect",
    "C18_no_encoding_refuted",
    "C18_parts_dropped"
   ],
   "note": "Each result is intersect(second document's object, first document's first object with that id); needs an encoding."
  },
  {
   "property": "C20",
   "status": "proved",
   "theorems": [
    "C20_members_filtered",
    "C20_members_idempotent",
    "C20_members_monotone",
    "C20_doc_filter",
    "C20_doc_filter_idempotent",
    "C20_doc_filter_monotone"
   ],
   "note": "Document level needs an encoding (otherwise null dereference, C18_no_encoding_refuted) and arches properties that are lists."
  },
  {
   "property": "C21",
   "status": "proved",
   "theorems": [
    "C21_get_packages"
   ],
   "note": ""
  },
  {
   "property": "C22",
   "status": "partial",
   "theorems": [
    "C22_get_categories",
    "C22_get_envs",
    "C22_get_groups_partial",
    "C22_get_groups_actual",
    "C22_get_groups_refuted"
   ],
   "note": "Categories and environments exact. Groups: refuted when both lang and desc are given (the untranslated text also counts); the actual behaviour is characterised exactly."
  },
  {
   "property": "C23",
   "status": "partial",
   "theorems": [
    "C23_getters",
    "C23_histories_partial",
    "C23_lang_refuted",
    "C23_doctype_ids_refuted"
   ],
   "note": "Every history of the six parts. Refuted for the lang setter (loses other parts) and the doctype id setters."
  },
  {
   "property": "C24",
   "status": "proved",
   "theorems": [
    "C24_setters_independent",
    "C24_setter_histories"
   ],
   "note": "For every object whose properties are written only through the generated setters, copies, unions and intersections."
  },
  {
   "property": "C25",
   "status": "proved",
   "theorems": [
    "C25_cmp_equivalence",
    "C25_cmp_meaning"
   ],
   "note": ""
  },
  {
   "property": "C26",
   "status": "partial",
   "theorems": [
    "C26_pkg_cmp_refuted",
    "C26_pkg_cmp_partial",
    "C26_gid_cmp_partial"
   ],
   "note": "Refuted: basearchonly and architectures are ignored. What is compared is characterised exactly."
  },
  {
   "property": "C27",
   "status": "partial",
   "theorems": [
    "C27_well_formed_partial",
    "C27_saving_defined",
    "C27_return_code_refuted",
    "C27_negative_refuted"
   ],
   "note": "Proved when the writer accepts every call. Missing: 'successful' as told by the return code; that is refuted, since results of inner writers are dropped."
  },
  {
   "property": "C28",
   "status": "partial",
   "theorems": [
    "C28_round_trip_partial",
    "C28_string_partial",
    "C28_compare_partial",
    "C28_any_pieces",
    "C28_readers",
    "C28_line_break_refuted",
    "C28_copied_dictionary_refuted",
    "C28_blacklist_refuted",
    "C28_basearchonly_refuted"
   ],
   "note": "Proved for every document in normal form, all options and defaults, files and strings. Missing: the text layer between libxml2 and expat (relation heard) is assumed, with texts not cut into blank pieces; without that, and outside the normal form, refuted by four witnesses."
  },
  {
   "property": "C29",
   "status": "proved",
   "theorems": [
    "C29_stack",
    "C29_empty_at_end",
    "C29_no_underflow"
   ],
   "note": "For every properly nested event sequence the parser processes without undefined behaviour (C32 says when that is)."
  },
  {
   "property": "C30",
   "status": "partial",
   "theorems": [
    "C30_ignored_partial",
    "C30_unknown_names",
    "C30_inside_text_refuted",
    "C30_inner_comps_refuted"
   ],
   "note": "An element the tables do not allow, with everything inside it, leaves the parser and document as they were except for the log, for every position outside a pending text. Refuted inside a text (the text before it is lost) and for an inner comps element (it resets the document)."
  },
  {
   "property": "C31",
   "status": "partial",
   "theorems": [
    "C31_digest_partial",
    "C31_split_partial",
    "C31_white_space_refuted"
   ],
   "note": "Proved when no chunk is only white space: the result depends on the concatenated text alone. Refuted otherwise: white space chunks are dropped."
  },
  {
   "property": "C32",
   "status": "partial",
   "theorems": [
    "C32_safe_partial",
    "C32_session_partial",
    "C32_refuted",
    "C32_attribute_table_refuted",
    "C32_reuse_refuted"
   ],
   "note": "Refuted by eight concrete files, by the unterminated attribute tables and by reuse of a parser after a failed parse. A decidable condition on the events is proved sufficient, also for whole sessions."
  },
  {
   "property": "C33",
   "status": "partial",
   "theorems": [
    "C33_file",
    "C33_log_grows",
    "C33_clean",
    "C33_str_partial",
    "C33_str_again_refuted",
    "C33_stale_length_refuted"
   ],
   "note": "Files: return code characterised exactly. Strings: exact for a fresh parser; refuted on reuse since the log and the fatal flag are kept."
  },
  {
   "property": "C34",
   "status": "partial",
   "theorems": [
    "C34_calls_partial",
    "C34_exists_partial",
    "C34_release_partial",
    "C34_count_partial",
    "C34_reachable_partial",
    "C34_readable_partial",
    "C34_no_leak_partial",
    "C34_set_self_refuted",
    "C34_cycle_refuted"
   ],
   "note": "All histories of create, incref, destroy, copy and list operations, except that set needs a new element kept by more than the replaced item (refuted without), and that removing, setting and clearing need a list kept by a caller, directly or through lists. Cycles are never freed (refuted). insert_before is left out (C01)."
  },
  {
   "property": "C35",
   "status": "partial",
   "theorems": [
    "C35_num_partial",
    "C35_negative_refuted",
    "C35_list",
    "C35_members",
    "C35_group",
    "C35_category",
    "C35_env",
    "C35_arch",
    "C35_duplicate_message_partial",
    "C35_duplicate_message_refuted",
    "C35_prefix"
   ],
   "note": "Refuted for negative numbers (log10 of a negative number) and for duplicate messages at positions from 10^9 on (buffer one byte short). Everything else proved for all inputs; sizes are unbounded naturals in the model."
  },
  {
   "property": "C36",
   "status": "proved",
   "theorems": [
    "C36_arch_roundtrip",
    "C36_split",
    "C36_any_name_refuted"
   ],
   "note": "Names must be non-empty without space or comma; otherwise false, shown."
  },
  {
   "property": "C37",
   "status": "proved",
   "theorems": [
    "C37_messages",
    "C37_ok_iff",
    "C37_objects",
    "C37_null_id_refuted",
    "C37_member_names_refuted"
   ],
   "note": "For lists of at most 10^9 elements (above that the message overflows, C35) and ids that are strings. Two findings: an id without text passes; member rules are never run."
  },
  {
   "property": "C38",
   "status": "proved",
   "theorems": [
    "C38_unique_check",
    "C38_ok_iff",
    "C38_pairs_unique"
   ],
   "note": "Lists of at most 10^9 elements; needs only transitivity of the comparison."
  },
  {
   "property": "C39",
   "status": "proved",
   "theorems": [
    "C39_history",
    "C39_append",
    "C39_text",
    "C39_call_sites",
    "C39_print",
    "C39_negative_refuted"
   ],
   "note": "Texts of entries with negative numbers are undefined (C35)."
  },
  {
   "property": "C40",
   "status": "proved",
   "theorems": [
    "C40_booleans_file",
    "C40_booleans_string",
    "C40_booleans_events",
    "C40_booleans_partial"
   ],
   "note": "For every group that is written of every document whose display orders fit an int, all options, defaults and values, down to the bytes (libxml2 and expat as for C86; UTF-8). C40_booleans_partial is the earlier form for documents in normal form, with return code 0."
  },
  {
   "property": "C41",
   "status": "partial",
   "theorems": [
    "C41_unset_partial",
    "C41_unset_refuted"
   ],
   "note": "False of the code (use after free). The exact condition for undefined behaviour is proved, and correctness otherwise (after splicing nested lists)."
  },
  {
   "property": "C42",
   "status": "proved",
   "theorems": [
    "C42_unite_concatenates"
   ],
   "note": "Values after splicing nested lists, see C12."
  },
  {
   "property": "C43",
   "status": "proved",
   "theorems": [
    "C43_enumeration"
   ],
   "note": ""
  },
  {
   "property": "C44",
   "status": "partial",
   "theorems": [
    "C44_doc_cmp",
    "C44_doc_cmp_equivalence",
    "C44_values_ignored_refuted"
   ],
   "note": "Refuted: blacklist and whiteout values are not compared. The compared relation is characterised exactly and is an equivalence."
  },
  {
   "property": "C45",
   "status": "partial",
   "theorems": [
    "C45_return_code_partial",
    "C45_wrap_refuted",
    "C45_unwritten_refuted"
   ],
   "note": "Messages exact; the code is the number modulo 256 as a signed character. Refuted from 128 objects on and for an unwritten file."
  },
  {
   "property": "C46",
   "status": "partial",
   "theorems": [
    "C46_index_partial",
    "C46_large_refuted",
    "C46_len",
    "C46_by_id",
    "C46_by_id_refuted"
   ],
   "note": "Proved for every list of fewer than 2^31 items and every index that fits a C int; refuted beyond (the index is cut to 32 bits). By id: proved for lists of groups, categories, environments and named packages; undefined for group ids, strings and nameless packages."
  },
  {
   "property": "C47",
   "status": "partial",
   "theorems": [
    "C47_slice_partial",
    "C47_indices",
    "C47_negative",
    "C47_reverse_refuted",
    "C47_big_step"
   ],
   "note": "Proved for every slice with a step from 1 to INT_MAX. Refuted for negative steps, whose result is characterised exactly, and for steps above INT_MAX (integer overflow)."
  },
  {
   "property": "C48",
   "status": "partial",
   "theorems": [
    "C48_set_partial",
    "C48_del_partial",
    "C48_set_unique_partial",
    "C48_set_unique_taken",
    "C48_negative",
    "C48_negative_refuted",
    "C48_same_id_refuted",
    "C48_packages_refuted"
   ],
   "note": "Proved for non-negative int indices. Refuted: negative indices are ignored without an error; an item cannot be replaced by one with its own id; assignment to a list of packages is undefined."
  },
  {
   "property": "C49",
   "status": "partial",
   "theorems": [
    "C49_assign_partial",
    "C49_exact",
    "C49_overwrites_refuted",
    "C49_empty_refuted",
    "C49_extended_refuted",
    "C49_reverse_refuted",
    "C49_kinds_refuted",
    "C49_taken"
   ],
   "note": "Proved for step 1 when something is selected and the new items fit the selection or the selection reaches the end; the result for step 1 is characterised exactly otherwise. Refuted in general by four kinds of witnesses."
  },
  {
   "property": "C50",
   "status": "partial",
   "theorems": [
    "C50_delete_refuted",
    "C50_length",
    "C50_undefined",
    "C50_empty_partial",
    "C50_beyond_refuted"
   ],
   "note": "Refuted for every non-empty selection: undefined, or the last item becomes NULL and stays. Only deletions of empty selections (when the second computation of the indices agrees) do what they should."
  },
  {
   "property": "C51",
   "status": "partial",
   "theorems": [
    "C51_unique_partial",
    "C51_insert_refuted",
    "C51_slice_refuted",
    "C51_append",
    "C51_refused"
   ],
   "note": "Uniqueness proved for all histories without insert and with distinct ids in each assigned slice; refuted without these. A refused call never changes the list (proved for every call and state)."
  },
  {
   "property": "C52",
   "status": "proved",
   "theorems": [
    "C52_append",
    "C52_insert",
    "C52_remove",
    "C52_remove_text_refuted",
    "C52_iter",
    "C52_iter_exact",
    "C52_iter_refuted"
   ],
   "note": "For lists without NULL items; a NULL left by a slice deletion (C50) ends an iteration early. Occurrence means the same object, so a string is never found by remove."
  },
  {
   "property": "C53",
   "status": "partial",
   "theorems": [
    "C53_groups_sum_partial",
    "C53_categories_sum_partial",
    "C53_environments_sum_partial",
    "C53_packages_sum",
    "C53_distinct",
    "C53_repeated_refuted"
   ],
   "note": "Proved as stated for lists in which no id repeats; the result for arbitrary lists is characterised exactly. Refuted when ids repeat in the second list. Packages: only the type of the last match is taken over (exact). Which objects are new and which shared with the second list: C103."
  },
  {
   "property": "C54",
   "status": "proved",
   "theorems": [
    "C54_remainder",
    "C54_remainder_unique",
    "C54_range",
    "C54_incremental",
    "C54_burst"
   ],
   "note": "Polynomials over GF(2) are defined independently of the table; every message and start value below 2^32."
  },
  {
   "property": "C55",
   "status": "partial",
   "theorems": [
    "C55_equal_hash",
    "C55_equal_hash_partial",
    "C55_equal_hash_refuted",
    "C55_range",
    "C55_close_names"
   ],
   "note": "Proved for group ids, categories and environments; for packages and groups when basearchonly agrees, refuted otherwise (it is rendered but not compared). Hashing an object with a negative number is undefined (C35)."
  },
  {
   "property": "C56",
   "status": "partial",
   "theorems": [
    "C56_comparison",
    "C56_gid_comparison_partial",
    "C56_gid_text_partial",
    "C56_gid_text_refuted"
   ],
   "note": "Proved for packages, groups, categories and environments. Group ids: refuted for text (a default id differs from its own name) and bytes (answer with a pending exception); otherwise proved."
  },
  {
   "property": "C57",
   "status": "partial",
   "theorems": [
    "C57_group_attributes_partial",
    "C57_other_attributes_partial",
    "C57_refused",
    "C57_integers",
    "C57_text",
    "C57_attributes_refuted",
    "C57_package_attributes_partial",
    "C57_gid_attributes_partial",
    "C57_package_attributes_refuted"
   ],
   "note": "For all histories of assignments without deletion of numbers and flags, what is read back is given exactly. Refuted: None does not reset texts, deletions dereference NULL, large integers are cut, None as a type means optional. List and dictionary attributes are not covered."
  },
  {
   "property": "C58",
   "status": "partial",
   "theorems": [
    "C58_group_partial",
    "C58_other_partial",
    "C58_package_partial",
    "C58_gid",
    "C58_constructors_refuted"
   ],
   "note": "Exact results for all arguments. Refuted: display_order 0 and below of groups and -1 of the others are dropped; a package without requires gets an empty one and differs from a parsed one."
  },
  {
   "property": "C59",
   "status": "partial",
   "theorems": [
    "C59_match_partial",
    "C59_match_refuted"
   ],
   "note": "Proved when a type is given; refuted without: nothing is found."
  },
  {
   "property": "C60",
   "status": "partial",
   "theorems": [
    "C60_history_partial",
    "C60_any_history_partial",
    "C60_refused",
    "C60_history_refuted",
    "C60_run_exact",
    "C60_utf8"
   ],
   "note": "All readings after every history without del are given exactly (C60_run_exact). As stated: proved for all histories without del in which no key is first bound after a key it is a proper prefix of. Refuted otherwise: with 'de', 'pt_BR', 'pt' the key 'de' is lost; del dereferences NULL; '' is accepted and ignored; None as a key gives SystemError; an unencodable value is stored with the error pending; bytes that are not UTF-8 make items undefined."
  },
  {
   "property": "C61",
   "status": "partial",
   "theorems": [
    "C61_copy_partial",
    "C61_copy_len_refuted",
    "C61_update_partial",
    "C61_update_refuted",
    "C61_compare",
    "C61_compare_refuted",
    "C61_pair_exact",
    "C61_text"
   ],
   "note": "Update and comparison of any two dictionaries are given exactly (C61_pair_exact). As stated: copy proved except its length, which reads 0. Update proved when no new key is a proper prefix of a present one, refuted otherwise. Comparison of two dictionaries proved; order comparisons return a value with an exception set."
  },
  {
   "property": "C62",
   "status": "partial",
   "theorems": [
    "C62_assign_partial",
    "C62_texts_partial",
    "C62_refused",
    "C62_assign_refuted"
   ],
   "note": "Proved for every reachable state and key except when the key is the only one that extends some key (undefined behaviour, proved to be exactly that case) and except that another key's values may become nested in a list when keys branch (refuted)."
  },
  {
   "property": "C63",
   "status": "partial",
   "theorems": [
    "C63_delete_partial",
    "C63_self_assign_partial",
    "C63_update_appends",
    "C63_compare_keys_partial",
    "C63_refuted"
   ],
   "note": "Outcomes characterised exactly for every reachable state. Refuted: a deleted key that others extend stays; self-assignment then empties it; update appends; values are not compared; update with itself never ends."
  },
  {
   "property": "C64",
   "status": "partial",
   "theorems": [
    "C64_lists_partial",
    "C64_text",
    "C64_text_defined",
    "C64_copy_clear_refuted",
    "C64_len_refuted",
    "C64_get_refuted"
   ],
   "note": "keys, items and str characterised for every reachable state. Refuted: values(), copy() and clear() of any non-empty MDict and str of any empty one are undefined; len counts neither keys nor values; get raises KeyError."
  },
  {
   "property": "C65",
   "status": "partial",
   "theorems": [
    "C65_attribute_partial",
    "C65_attached_partial",
    "C65_detached_refuted",
    "C65_clear",
    "C65_clear_refuted"
   ],
   "note": "Proved for all histories without clear. With clear: exactly the attributes read or assigned before it, and not assigned or loaded since, are cut off from the document (proved for all histories)."
  },
  {
   "property": "C66",
   "status": "partial",
   "theorems": [
    "C66_assign",
    "C66_refused",
    "C66_delete_refuted"
   ],
   "note": "Assignments of every kind proved; del dereferences NULL."
  },
  {
   "property": "C67",
   "status": "partial",
   "theorems": [
    "C67_text",
    "C67_file_refuted",
    "C67_file_is_text",
    "C67_messages",
    "C67_emptied_refuted",
    "C67_calls_defined"
   ],
   "note": "fromxml_str is all or nothing. fromxml_f replaces the document when it raises for an unreadable text (refuted). Results are given through the parser of C29-C33; that calls are defined is proved for texts that satisfy the condition of C32."
  },
  {
   "property": "C68",
   "status": "partial",
   "theorems": [
    "C68_xml_options_partial",
    "C68_nothing_else",
    "C68_def_options",
    "C68_pkgtype",
    "C68_no_dictionary",
    "C68_xml_default",
    "C68_xml_default_refuted",
    "C68_pkgtype_refuted"
   ],
   "note": "Proved for every dictionary. Refuted: xml_default() does not give the defaults; a package type that is no int is reported only after the work is done, as a SystemError."
  },
  {
   "property": "C69",
   "status": "partial",
   "theorems": [
    "C69_file_partial",
    "C69_messages_refuted",
    "C69_unwritten_refuted",
    "C69_text_partial",
    "C69_defined"
   ],
   "note": "Exact results for every history. Refuted: 255 objects left out (modulo 256) make toxml_f fail with SystemError; a file that cannot be written is no exception; toxml_str lets the log grow."
  },
  {
   "property": "C70",
   "status": "partial",
   "theorems": [
    "C70_independent_partial",
    "C70_shared_refuted"
   ],
   "note": "Proved for histories without assignments of attributes; an assigned list is shared (refuted)."
  },
  {
   "property": "C71",
   "status": "partial",
   "theorems": [
    "C71_validate_agree",
    "C71_validate",
    "C71_compare",
    "C71_compare_foreign_refuted",
    "C71_add",
    "C71_add_refuted"
   ],
   "note": "Proved for every history of fine calls. Refuted: == with anything but a Comps object, and + with a foreign left operand, read it as a document."
  },
  {
   "property": "C72",
   "status": "partial",
   "theorems": [
    "C72_plain_partial",
    "C72_exact",
    "C72_refuted",
    "C72_clear_refuted"
   ],
   "note": "Proved against plain Python attributes for every program without clear in which no object is reached through two Python objects or no name_by_lang or desc_by_lang is assigned; refuted outside (both ways). C72_exact gives the outputs of every program."
  },
  {
   "property": "C73",
   "status": "partial",
   "theorems": [
    "C73_safe_partial",
    "C73_crash_partial",
    "C73_fuel",
    "C73_refuted"
   ],
   "note": "Proved for every program without del of an attribute; del of an attribute of Comps crashes (refuted) and is the only operation that does."
  },
  {
   "property": "C74",
   "status": "partial",
   "theorems": [
    "C74_balance_partial",
    "C74_clean_partial",
    "C74_refuted",
    "C74_langpacks_refuted"
   ],
   "note": "The references never given back are counted exactly for every program; programs that assign no list to a Group, Category or Environment and do not use langpacks, blacklist and whiteout leave nothing. Refuted otherwise."
  },
  {
   "property": "C75",
   "status": "partial",
   "theorems": [
    "C75_same",
    "C75_attributes_partial",
    "C75_attributes_refuted",
    "C75_attributes_exact"
   ],
   "note": "Which attribute values are lost is given for every list (C75_attributes_exact). As stated: Agreement proved for every history of set, get and unset. Attribute values: proved when no attribute name is a proper prefix of an earlier one; refuted otherwise (arches, lang, arch: one value is never freed)."
  },
  {
   "property": "C76",
   "status": "partial",
   "theorems": [
    "C76_safe_partial",
    "C76_set",
    "C76_unset",
    "C76_null_destructor",
    "C76_null_destructor_keeps",
    "C76_refuted"
   ],
   "note": "Proved for every history of both implementations with a destructor. Without one nothing is released, but setting a key that is present calls NULL (refuted)."
  },
  {
   "property": "C77",
   "status": "partial",
   "theorems": [
    "C77_released_partial",
    "C77_refuted",
    "C77_empty_key_refuted",
    "C77_run_exact"
   ],
   "note": "The values each call destroys and the values never released are given exactly for every history (C77_run_exact). As stated: Proved for every history with non-empty keys and non-NULL values in which no key is first set after a key it is a proper prefix of. Refuted otherwise: a sibling of a split node is lost; a value set under the empty key is not stored."
  },
  {
   "property": "C78",
   "status": "partial",
   "theorems": [
    "C78_set_n_partial",
    "C78_plain_refuted",
    "C78_objects_refuted",
    "C78_set_n_exact"
   ],
   "note": "Which of the two keys is used is given exactly for every history (C78_set_n_exact). As stated: Proved for every reachable dictionary: the key used is either the first m characters or the whole key. Refuted for both: new nodes of comps_radix.c and split nodes of both files take the whole key."
  },
  {
   "property": "C79",
   "status": "partial",
   "theorems": [
    "C79_union",
    "C79_null_cloner",
    "C79_null_cloner_refuted"
   ],
   "note": "Proved for all reachable dictionaries with cloners and destructor; without a cloner a non-empty union calls NULL (refuted)."
  },
  {
   "property": "C80",
   "status": "partial",
   "theorems": [
    "C80_objects",
    "C80_plain",
    "C80_refuted"
   ],
   "note": "Proved for object dictionaries. A cleared plain dictionary keeps pointers to freed items: every further call with a non-empty key, and destroying it, is undefined (proved for all, refuted as stated)."
  },
  {
   "property": "C81",
   "status": "partial",
   "theorems": [
    "C81_map_partial",
    "C81_width",
    "C81_refuted",
    "C81_crash_refuted"
   ],
   "note": "Proved for all programs in which no key is first set after a key it is a proper prefix of, in particular for keys of one width. Otherwise refuted: the longer key loses bytes, or its bytes are copied from outside."
  },
  {
   "property": "C82",
   "status": "partial",
   "theorems": [
    "C82_released_partial",
    "C82_null_destructor",
    "C82_clear",
    "C82_refuted"
   ],
   "note": "Proved for the programs of C81 with a destructor. Refuted: replacing a value without a destructor calls NULL; after clear of a non-empty tree every call is undefined (proved for all trees)."
  },
  {
   "property": "C83",
   "status": "partial",
   "theorems": [
    "C83_unset_partial",
    "C83_released_partial",
    "C83_refuted",
    "C83_crash_refuted"
   ],
   "note": "Refuted: unset looks only at the first subnode of each level and not at its first byte, so it can remove another key, or nothing, or read freed memory. Proved for all programs over keys none of which is a proper prefix of another: at most one key of the same length goes, its value is released, and all values are released once."
  },
  {
   "property": "C84",
   "status": "partial",
   "theorems": [
    "C84_lists_partial",
    "C84_lists_unset_partial",
    "C84_refuted"
   ],
   "note": "Proved for the programs of C81 and, with unset, those of C83; refuted beyond (a key is listed twice)."
  },
  {
   "property": "C85",
   "status": "partial",
   "theorems": [
    "C85_clone_partial",
    "C85_clone_reads",
    "C85_refuted"
   ],
   "note": "Proved for the programs of C81 when the cloner accepts NULL; with a cloner that does not, defined exactly when every node next to the root has a value (refuted in general)."
  },
  {
   "property": "C86",
   "status": "proved",
   "theorems": [
    "C86_bytes",
    "C86_attributes",
    "C86_public_id"
   ],
   "note": "For the documented behaviour of libxml2 and expat given in TextModel.v (UTF-8)."
  },
  {
   "property": "C87",
   "status": "partial",
   "theorems": [
    "C87_pieces",
    "C87_string_exact",
    "C87_unharmed",
    "C87_string_round_partial",
    "C87_space_refuted"
   ],
   "note": "The exact effect on every text is proved; round trip proved when no text has white space filling the gap between two of <>&, line breaks and its ends. Refuted otherwise: the space in \"< >\" is lost."
  },
  {
   "property": "C88",
   "status": "partial",
   "theorems": [
    "C88_file_round_partial",
    "C88_blocks",
    "C88_small_file_partial",
    "C88_block_boundary_refuted"
   ],
   "note": "Proved for files of one block under the condition of C87 and for all files if white space touches no end of a text and none of <>&, with no line break. Refuted otherwise: a space next to &amp; is lost if it is the last byte of a block."
  },
  {
   "property": "C89",
   "status": "partial",
   "theorems": [
    "C89_run_exact",
    "C89_get_partial",
    "C89_sets_partial",
    "C89_get_refuted",
    "C89_unset_refuted"
   ],
   "note": "The outputs of every history are given by a table machine (C89_run_exact). Stated law proved while no two keys part after a common first character, and for sets alone while keys part only at existing keys; refuted otherwise."
  },
  {
   "property": "C90",
   "status": "partial",
   "theorems": [
    "C90_listing_exact",
    "C90_clone_exact",
    "C90_unite_exact",
    "C90_keys_partial",
    "C90_clone_partial",
    "C90_fork_refuted",
    "C90_no_cloner_refuted"
   ],
   "note": "Exact for every history; as stated while no two keys part after a common first character. Refuted otherwise (NULL is dereferenced) and without a cloner."
  },
  {
   "property": "C91",
   "status": "partial",
   "theorems": [
    "C91_account",
    "C91_release_partial",
    "C91_fork_refuted",
    "C91_clear_refuted"
   ],
   "note": "Account of stored, destroyed and lost values for every history; complete release proved while no two keys part after a common first character and no key is empty. Refuted otherwise and after clear."
  },
  {
   "property": "C92",
   "status": "proved",
   "theorems": [
    "C92_file",
    "C92_string",
    "C92_events",
    "C92_texts",
    "C92_string_exact",
    "C92_squeeze_settles"
   ],
   "note": "For documents in UTF-8 whose strings are XML characters and whose display orders fit an int, given that libxml2 accepted all calls; libxml2 and expat as for C86."
  },
  {
   "property": "C93",
   "status": "partial",
   "theorems": [
    "C93_string_partial",
    "C93_events_partial",
    "C93_blacklist_refuted",
    "C93_arches_refuted"
   ],
   "note": "Refuted in two ways: blacklist values under keys that part inside a word gain brackets at each round, and architectures without a word are read as an empty list that the next save leaves out. Proved for every document whose first load gave neither; through a file under the hypothesis that the parser reports the texts of the second save unchanged (C88: blanks at block boundaries may be lost)."
  },
  {
   "property": "C94",
   "status": "partial",
   "theorems": [
    "C94_load_file",
    "C94_load_string",
    "C94_save_partial",
    "C94_object_refuted"
   ],
   "note": "Loading: proved for every load. Saving: the texts are proved for every save whose calls libxml2 accepts and whose ids are texts; that the sentence names the kind of object is refuted: categories and environments left out are reported as groups without packages."
  },
  {
   "property": "C95",
   "status": "partial",
   "theorems": [
    "C95_string",
    "C95_file",
    "C95_equal_partial",
    "C95_equal_refuted"
   ],
   "note": "Proved for documents in UTF-8 whose strings are XML characters and whose display orders fit an int, given that libxml2 accepted all calls and the call returned without an exception; equality with the saved object is refuted for groups whose booleans were never set, and proved for documents in normal form with their booleans given, arch_output and texts unharmed by C87."
  },
  {
   "property": "C96",
   "status": "partial",
   "theorems": [
    "C96_origin",
    "C96_valid_partial",
    "C96_members",
    "C96_refused",
    "C96_assign_refuted",
    "C96_slice_refuted"
   ],
   "note": "Proved for lists of packages and group ids, and for lists of groups, categories and environments as long as nothing is assigned to an item or slice; item and slice assignment in the latter store objects that fail validate() (refuted). Validity is that of the moment of the call: objects changed later are not looked at again."
  },
  {
   "property": "C97",
   "status": "partial",
   "theorems": [
    "C97_validate",
    "C97_str",
    "C97_gid_str",
    "C97_gid_str_refuted"
   ],
   "note": "Proved for ids that are strings and at most 10^9 members; the text of a group id is not its name but a description of the object (refuted), given exactly. CPython's decoding with 'replace' is an argument that leaves valid UTF-8 alone."
  },
  {
   "property": "C98",
   "status": "partial",
   "theorems": [
    "C98_categories",
    "C98_environments",
    "C98_groups_partial",
    "C98_groups_actual",
    "C98_groups_refuted"
   ],
   "note": "As C22, for every history of Python calls: groups asked for a description in a language also match by the untranslated description (refuted), given exactly."
  },
  {
   "property": "C99",
   "status": "partial",
   "theorems": [
    "C99_defined",
    "C99_sound",
    "C99_document_copy_refuted",
    "C99_multi_copy_refuted",
    "C99_own_list_refuted",
    "C99_own_doctype_refuted"
   ],
   "note": "Proved for every history that keeps to the rules of SpecX.allowed. The rules leave out what is refuted: copying documents and multi-dictionaries, and giving a setter the value the object already has without holding a reference to it. Nodes of lists, radix trees and sets are not cells here (other models have them)."
  }
 ]
}