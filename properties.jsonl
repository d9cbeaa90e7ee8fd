{"id": "C01", "title": "Object list behaves like a sequence", "statement": "After any history of append, insert_at, remove_at, remove, set and clear calls on an object list, reading it back by index (get), walking it, and its length all agree with the mathematical sequence obtained by applying the same operations to an initially empty sequence; an index outside the list makes the call report failure and leaves the list unchanged.", "quantifier": "every finite history of list operations with any positions (including out of range and the unsigned image of -1) and any objects", "why_tests_cant": "the three stored facts (head chain, tail pointer, length) can drift apart only after particular interleavings of head, middle and tail edits; no finite suite covers all histories", "anchors": ["libcomps/src/comps_objlist.c: comps_objlist_append, comps_objlist_insert_at, comps_objlist_remove_at, comps_objlist_remove, comps_objlist_set, comps_objlist_clear, comps_objlist_get"]}
{"id": "C02", "title": "Derived list operations agree with the sequence", "statement": "index returns the position of the first occurrence of the very object given or -1; filter returns exactly the accepted elements in order; concat returns the first list followed by the second and leaves both arguments alone; sublist_indexed(start,end) returns the elements at positions start..end-1.", "quantifier": "every list, object, predicate and pair of bounds", "why_tests_cant": "boundary positions (last element, empty list, end past the tail) are infinitely many", "anchors": ["libcomps/src/comps_objlist.c: comps_objlist_index, comps_objlist_filter, comps_objlist_concat, comps_objlist_sublist_indexed, comps_objlist_get_it"]}
{"id": "C03", "title": "List comparison is element-wise equality", "statement": "Comparing two lists answers true exactly when they have the same length and every pair of corresponding elements compares equal; hence it is reflexive, symmetric and transitive whenever element comparison is.", "quantifier": "every pair of lists and every element comparison", "why_tests_cant": "equivalence laws quantify over all pairs and triples", "anchors": ["libcomps/src/comps_objlist.c: comps_objlist_cmp"]}
{"id": "C04", "title": "Internal linked list (hslist) behaves like a sequence", "statement": "After any history of append, prepend, insert_after, insert_at, remove, shift and pop, the elements reachable from the head are those of the mathematical sequence under the same operations, and no call dereferences a null or stale tail.", "quantifier": "every finite history of operations", "why_tests_cant": "the tail pointer is wrong only after specific orders of operations such as prepend on an empty list followed by append or pop", "anchors": ["libcomps/src/comps_hslist.c: comps_hslist_append, comps_hslist_prepend, comps_hslist_insert_after, comps_hslist_insert_at, comps_hslist_remove, comps_hslist_shift, comps_hslist_pop"]}
{"id": "C05", "title": "Dictionary lookup returns the last value stored", "statement": "For every key, get returns the value of the most recent set of exactly that key in the history (nothing if it was never set); setting one key never changes what any other key returns.", "quantifier": "every finite history of set calls with arbitrary non-empty keys (including keys that are prefixes of each other) and values", "why_tests_cant": "loss needs a particular insertion order of keys sharing prefixes together with unrelated siblings; the key space is infinite", "anchors": ["libcomps/src/comps_objradix.c: __comps_objrtree_set, __comps_objrtree_get", "libcomps/src/comps_objdict.c: comps_objdict_set, comps_objdict_get", "libcomps/src/comps_hslist.c: comps_hslist_prepend"]}
{"id": "C06", "title": "Dictionary removal removes exactly one key and never crashes", "statement": "unset(k) makes get(k) return nothing, leaves every other key's value unchanged, and is memory safe.", "quantifier": "every dictionary reachable by set/unset and every key", "why_tests_cant": "the unsafe path needs a particular tree shape (removed key is last child of an inner node)", "anchors": ["libcomps/src/comps_objradix.c: comps_objrtree_unset", "libcomps/src/comps_objmradix.c: comps_objmrtree_unset", "libcomps/src/comps_radix.c: comps_rtree_unset"]}
{"id": "C07", "title": "Dictionary enumeration is exactly its graph", "statement": "keys, values and pairs enumerate precisely the keys for which get returns a value, each exactly once, paired with that value, in mutually consistent order.", "quantifier": "every dictionary reachable by any history of operations", "why_tests_cant": "an enumeration bug may drop or duplicate one key in one tree shape out of infinitely many", "anchors": ["libcomps/src/comps_objradix.c: __comps_objrtree_all, comps_objrtree_keys, comps_objrtree_values, comps_objrtree_pairs"]}
{"id": "C08", "title": "Dictionary copies are equal and complete", "statement": "clone and copy of a dictionary answer every get, keys and pairs query as the original does, carry the same element count, and compare equal to it.", "quantifier": "every reachable dictionary", "why_tests_cant": "all tree shapes and depths", "anchors": ["libcomps/src/comps_objradix.c: comps_objrtree_clone, comps_objrtree_copy, comps_objrtree_cmp"]}
{"id": "C09", "title": "Dictionary union is right-biased map union", "statement": "get on union(a,b) returns b's value where b has the key and otherwise a's value; a and b are unchanged. No key of either operand is lost, whatever prefixes they share.", "quantifier": "every pair of reachable dictionaries", "why_tests_cant": "needs all pairs of tree shapes: the traversal order of one tree drives restructuring of the other", "anchors": ["libcomps/src/comps_objradix.c: comps_objrtree_union, comps_objrtree_unite", "libcomps/src/comps_objdict.c: comps_objdict_union"]}
{"id": "C10", "title": "Dictionary comparison is map equality", "statement": "Comparing two dictionaries answers true exactly when both have the same keys and corresponding values compare equal, independent of the order in which keys were inserted.", "quantifier": "every pair of reachable dictionaries", "why_tests_cant": "quantifies over insertion orders and all pairs", "anchors": ["libcomps/src/comps_objradix.c: comps_objrtree_cmp, comps_objrtree_paircmp", "libcomps/src/comps_set.c: comps_set_cmp"]}
{"id": "C11", "title": "Dictionary element count", "statement": "The stored element count equals the number of keys for which get returns a value.", "quantifier": "every finite history of set, unset and clear calls", "why_tests_cant": "count drift depends on the history (re-set of an inner node, removal, copy)", "anchors": ["libcomps/src/comps_objradix.c: __comps_objrtree_set, comps_objrtree_unset, comps_objrtree_copy, comps_objrtree_clear", "libcomps/src/comps_doc.c: comps_doc_xml (reads dict->len)"]}
{"id": "C12", "title": "Multi-dictionary lookup returns all values in order", "statement": "For every key, get returns the values set under exactly that key in insertion order.", "quantifier": "every finite history of set calls with arbitrary non-empty keys", "why_tests_cant": "corruption needs two keys that share a first character and then diverge", "anchors": ["libcomps/src/comps_objmradix.c: __comps_objmrtree_set, comps_objmrtree_get"]}
{"id": "C13", "title": "Multi-dictionary comparison sees the values", "statement": "Comparing two multi-dictionaries answers true exactly when they have the same keys with equal value lists.", "quantifier": "every pair of multi-dictionaries", "why_tests_cant": "all pairs", "anchors": ["libcomps/src/comps_objmradix.c: comps_objmrtree_paircmp, comps_objmrtree_cmp"]}
{"id": "C14", "title": "Set container behaves like a mathematical set", "statement": "For an element equality that is an equivalence, after any history of add and remove calls, membership agrees with the mathematical set of equivalence classes, add reports whether the element was new, and no two stored elements are equal; set comparison returns 0 exactly for equal sets.", "quantifier": "every history and every equivalence relation", "why_tests_cant": "all histories, all equivalences", "anchors": ["libcomps/src/comps_set.c: comps_set_add, comps_set_in, comps_set_remove, comps_set_data_at, comps_set_cmp"]}
{"id": "C15", "title": "Group union merges packages by name", "statement": "The union of two groups has: every property and translation of the second group, plus those of the first not present in the second; the first group's packages in order, the first package of each name replaced in place by the second group's package of that name, followed by the second group's packages with new names; and both arguments are unchanged.", "quantifier": "every pair of groups, including duplicate package names", "why_tests_cant": "package lists of any length with any pattern of duplicate names", "anchors": ["libcomps/src/comps_docgroup.c: comps_docgroup_union"]}
{"id": "C16", "title": "Group, category and environment intersection", "statement": "The intersection keeps exactly the properties on which both operands agree and exactly the second operand's members (packages, group ids, option ids) whose name occurs in the first.", "quantifier": "every pair of groups / categories / environments", "why_tests_cant": "all pairs, any list lengths", "anchors": ["libcomps/src/comps_docgroup.c: comps_docgroup_intersect", "libcomps/src/comps_doccategory.c: comps_doccategory_intersect", "libcomps/src/comps_docenv.c: comps_docenv_intersect"]}
{"id": "C17", "title": "Category and environment union merges group ids by name", "statement": "As for groups: properties and translations are right-biased map unions; member lists keep the first operand's order with same-named members replaced in place and new members appended.", "quantifier": "every pair of categories and every pair of environments", "why_tests_cant": "all pairs, any list lengths and duplicate patterns", "anchors": ["libcomps/src/comps_doccategory.c: comps_doccategory_union", "libcomps/src/comps_docenv.c: comps_docenv_union"]}
{"id": "C18", "title": "Document union merges objects by id", "statement": "A document union contains, for every id occurring in either document, exactly one group with that id (likewise category, environment): the union of the two if both have it, a copy otherwise; langpacks are the right-biased union.", "quantifier": "every pair of documents with any number of objects", "why_tests_cant": "all pairs of documents, all id patterns", "anchors": ["libcomps/src/comps_doc.c: comps_doc_union"]}
{"id": "C19", "title": "Document intersection keeps common ids", "statement": "A document intersection contains exactly the groups (categories, environments) whose id occurs in both documents, in the second document's order, each the intersection of the two.", "quantifier": "every pair of documents", "why_tests_cant": "all pairs of documents", "anchors": ["libcomps/src/comps_doc.c: comps_doc_intersect"]}
{"id": "C20", "title": "Architecture filtering keeps exactly the matching objects", "statement": "arch_filter keeps an object (group, category, environment, package, group id) exactly when it has no architecture list or its list shares an architecture with the requested ones, preserving order and all other data; filtering is idempotent and enlarging the requested set never removes an object.", "quantifier": "every document and every list of architectures", "why_tests_cant": "all documents and architecture lists; monotonicity relates two runs", "anchors": ["libcomps/src/comps_doc.c: comps_doc_arch_filter", "libcomps/src/comps_docgroup.c: comps_docgroup_arch_filter", "libcomps/src/comps_doccategory.c: comps_doccategory_arch_filter", "libcomps/src/comps_docenv.c: comps_docenv_arch_filter", "libcomps/src/comps_utils.c: __comps_objlist_intersected"]}
{"id": "C21", "title": "Package query is a conjunctive filter", "statement": "get_packages(name,type) returns exactly the packages, in order, that match every criterion given (all packages if none is given).", "quantifier": "every group, every name/type combination", "why_tests_cant": "all groups and argument combinations", "anchors": ["libcomps/src/comps_docgroup.c: comps_docgroup_get_packages"]}
{"id": "C22", "title": "Document query is a conjunctive filter", "statement": "get_groups/get_categories/get_envs(id,name,desc,lang) return exactly the objects, in order, that match every criterion given, where name and desc are matched against the translation for lang when lang is given and against the untranslated text otherwise.", "quantifier": "every document, pattern and language combination", "why_tests_cant": "all documents and argument combinations", "anchors": ["libcomps/src/comps_doc.c: comps_doc_get_groups, comps_doc_get_categories, comps_doc_get_envs"]}
{"id": "C23", "title": "Document accessors are independent", "statement": "Setting one part of a document (groups, categories, environments, langpacks, blacklist, whiteout, lang) is what the corresponding getter then returns and never changes any other part.", "quantifier": "every document and every history of setter calls in any order", "why_tests_cant": "loss appears only for particular orders of setters (key of one part is a prefix of another's)", "anchors": ["libcomps/src/comps_doc.h: COMPS_DOC_SETOBJLIST, COMPS_DOC_SETPROP, COMPS_DOC_GETOBJLIST", "libcomps/src/comps_doc.c: COMPS_DOC_SETPROP(lang), comps_doc_doctype_sysid_set, comps_doc_doctype_pubid_set"]}
{"id": "C24", "title": "Object setters and getters are independent", "statement": "Every group/category/environment property set through its setter is what its getter returns; setting one never changes another; an unset numeric property reads as absent.", "quantifier": "every history of property setter calls on one object", "why_tests_cant": "all orders of setter calls over the property dictionary", "anchors": ["libcomps/src/comps_utils.h: COMPS_STRPROP_SETTER, COMPS_NUMPROP_SETTER, COMPS_PROP_GETTER", "libcomps/src/comps_docgroup.c", "libcomps/src/comps_docenv.c", "libcomps/src/comps_doccategory.c"]}
{"id": "C25", "title": "Comparison of document objects is an equivalence compatible with copy", "statement": "Comparison of packages, group ids, groups, categories, environments is reflexive, symmetric and transitive on well-typed objects, and a copy of an object always compares equal to it.", "quantifier": "all objects, pairs and triples", "why_tests_cant": "equivalence laws over all objects", "anchors": ["libcomps/src/comps_obj.c: comps_object_cmp, comps_object_copy", "libcomps/src/comps_docpackage.c: comps_docpackage_cmp_u", "libcomps/src/comps_docgroup.c: comps_docgroup_cmp_u"]}
{"id": "C26", "title": "Package comparison distinguishes all package data", "statement": "Two packages compare equal exactly when name, type, requires, basearchonly and architectures are all equal.", "quantifier": "all pairs of packages", "why_tests_cant": "all pairs", "anchors": ["libcomps/src/comps_docpackage.c: comps_docpackage_cmp_u", "libcomps/src/comps_docgroupid.c: comps_docgroupid_cmp_u"]}
{"id": "C27", "title": "XML output is well nested", "statement": "Whatever the document and options, the sequence of writer calls made on a successful save opens and closes elements in a balanced way, with attributes written only inside an open start tag, under a single root.", "quantifier": "every document and every option setting", "why_tests_cant": "all documents (skipped empty groups, missing properties, ...) and 2^n option settings", "anchors": ["libcomps/src/comps_doc.c: comps_doc_xml", "libcomps/src/comps_docgroup.c: comps_docgroup_xml", "libcomps/src/comps_docpackage.c: comps_docpackage_xml", "libcomps/src/comps_docgroupid.c: comps_docgroupid_xml"]}
{"id": "C28", "title": "Save then load preserves the document", "statement": "Loading the XML written for a document yields a document with the same groups, categories, environments, langpacks, blacklist and whiteout (up to the documented defaults), with no log messages.", "quantifier": "every document in the stated normal form and every option setting that writes it completely", "why_tests_cant": "round trip over all documents", "anchors": ["libcomps/src/comps_doc.c: comps_doc_xml", "libcomps/src/comps_parse.c: comps_parse_start_elem_handler, comps_parse_end_elem_handler, comps_parse_char_data_handler", "libcomps/src/comps_elem.c"]}
{"id": "C29", "title": "Parser stack discipline", "statement": "For every well-nested event stream the parser's open-element stack mirrors the open elements of the document, it never pops an empty stack, and it is empty at the end.", "quantifier": "every well-nested sequence of start/character/end events, with any element names and attributes", "why_tests_cant": "all documents, known and unknown elements in any nesting", "anchors": ["libcomps/src/comps_parse.c: comps_parse_start_elem_handler, comps_parse_end_elem_handler"]}
{"id": "C30", "title": "Unknown elements are ignored without side effects", "statement": "Inserting an unknown element (with arbitrary content) anywhere in a document changes only the log, not the resulting document.", "quantifier": "every document, insertion point and inserted subtree", "why_tests_cant": "all documents and subtrees", "anchors": ["libcomps/src/comps_parse.c: comps_parse_start_elem_handler", "libcomps/src/comps_elem.c: comps_elem_get_type"]}
{"id": "C31", "title": "Character data is independent of chunking", "statement": "The parsed document does not depend on how the XML library splits character data into callbacks.", "quantifier": "every document and every split of its character data", "why_tests_cant": "the split depends on buffer boundaries of the XML library; infinitely many", "anchors": ["libcomps/src/comps_parse.c: comps_parse_char_data_handler, __comps_is_whitespace_only"]}
{"id": "C32", "title": "Parser never performs undefined behaviour on well-formed input", "statement": "For every well-nested event stream each handler accesses only initialised, in-bounds memory.", "quantifier": "every well-nested event stream with any attributes and contents", "why_tests_cant": "missing attributes and empty elements in all combinations", "anchors": ["libcomps/src/comps_elem.c: comps_elem_uservisible_postproc, comps_elem_biarchonly_postproc, comps_elem_display_order_postproc, comps_elem_match_preproc, __comps_elem_check_attributes"]}
{"id": "C33", "title": "Parse result code reflects the log", "statement": "A parse returns 0 exactly when nothing was logged, 1 when only non-fatal messages were logged, and -1 when a fatal error occurred.", "quantifier": "every input", "why_tests_cant": "all inputs", "anchors": ["libcomps/src/comps_parse.c: comps_parse_file, comps_parse_str"]}
{"id": "C34", "title": "Reference counting is balanced", "statement": "An object is destroyed exactly when the last owned reference to it is released; while any reference is outstanding it stays readable; list operations own exactly one reference per stored occurrence.", "quantifier": "every history of create, incref, destroy and list operations that releases only references it owns", "why_tests_cant": "all interleavings of sharing and release, including replacing an element by itself", "anchors": ["libcomps/src/comps_mm.c: comps_refc_destroy, comps_refc_incref", "libcomps/src/comps_obj.c: comps_object_destroy, comps_object_incref", "libcomps/src/comps_objlist.c: comps_objlist_set"]}
{"id": "C35", "title": "String rendering fits its buffer", "statement": "Rendering a number, list, architecture list, dictionary key concatenation or validation message never writes past the memory allocated for it and yields the documented text.", "quantifier": "every object / number / list", "why_tests_cant": "off-by-one buffer errors appear only for specific lengths, signs and magnitudes", "anchors": ["libcomps/src/comps_obj.c: comps_num_tostr", "libcomps/src/comps_objlist.c: comps_objlist_tostr_u", "libcomps/src/comps_utils.c: __comps_xml_arch_str, digits_count", "libcomps/src/comps_validate.c: comps_objlist_unique_check, comps_valgenres_prefix", "libcomps/src/comps_doc.c: comps_doc_listobjs_validate"]}
{"id": "C36", "title": "Architecture attribute round trip", "statement": "Splitting the architecture attribute written for a list of architectures gives back that list.", "quantifier": "every list of non-empty architecture names without separators", "why_tests_cant": "all lists", "anchors": ["libcomps/src/comps_utils.c: __comps_xml_arch_str", "libcomps/src/comps_elem.c: __comps_split_arches"]}
{"id": "C37", "title": "Validation accepts exactly the valid objects", "statement": "Validation returns OK exactly when every rule holds for every object; otherwise the error list contains, in order, one entry per violated check, each prefixed with the rule's message and the object's position.", "quantifier": "every document", "why_tests_cant": "all documents and violation patterns", "anchors": ["libcomps/src/comps_validate.c: comps_validate_execute, comps_valgenres_concat, comps_valgenres_prefix", "libcomps/src/comps_doc.c: comps_doc_listobjs_validate"]}
{"id": "C38", "title": "Duplicate check reports each duplicate once with the right positions", "statement": "The uniqueness check succeeds exactly when no two list elements are equal; otherwise it reports, for every position holding an element equal to an earlier one, the position of the first equal element and its own.", "quantifier": "every list and equivalence", "why_tests_cant": "all lists", "anchors": ["libcomps/src/comps_validate.c: comps_objlist_unique_check"]}
{"id": "C39", "title": "Log is append-only and ordered", "statement": "Logging a message appends exactly one entry with the given code and arguments after all existing entries and changes none of them; the printed text substitutes the arguments in order.", "quantifier": "every history of log calls", "why_tests_cant": "all histories", "anchors": ["libcomps/src/comps_log.c: comps_log_error, comps_log_error_x, comps_log_entry_tostr"]}
{"id": "C40", "title": "Default values survive elision", "statement": "A boolean group property (default, uservisible, biarchonly) written under any option setting and read back with the same defaults has the value it had before writing.", "quantifier": "every value (absent, true, false), every default and option setting", "why_tests_cant": "finite per property but must hold through the writer and the parser for every enclosing document", "anchors": ["libcomps/src/comps_docgroup.c: comps_docgroup_xml", "libcomps/src/comps_elem.c: comps_elem_group_postproc"]}
{"id": "C41", "title": "Removing a key from a multi-dictionary", "statement": "Removing a key deletes all its values, leaves the values of every other key unchanged and never touches freed memory.", "quantifier": "every multi-dictionary built by set, unset and unite, every key", "why_tests_cant": "depends on which other keys are prefixes of the removed key", "anchors": ["libcomps/src/comps_objmradix.c: comps_objmrtree_unset"]}
{"id": "C42", "title": "Uniting multi-dictionaries concatenates value lists", "statement": "After unite, the values under each key are those of the first dictionary followed by those of the second.", "quantifier": "every pair of multi-dictionaries built by set, unset and unite, every key", "why_tests_cant": "all pairs of trees of any shape", "anchors": ["libcomps/src/comps_objmradix.c: comps_objmrtree_unite"]}
{"id": "C43", "title": "Multi-dictionary enumeration", "statement": "Enumerating pairs, keys or values yields each key for which get answers a list exactly once, with that list.", "quantifier": "every multi-dictionary built by set, unset and unite", "why_tests_cant": "trees of any depth", "anchors": ["libcomps/src/comps_objmradix.c: __comps_objmrtree_all, comps_objmrtree_pairs, comps_objmrtree_keys, comps_objmrtree_values"]}
{"id": "C44", "title": "Document comparison is an equivalence on contents", "statement": "comps_doc_cmp never fails; it answers true exactly when encodings, doctypes, groups, categories and environments (pairwise, in order), langpacks, blacklists and whiteouts are equal; the relation is an equivalence.", "quantifier": "every pair (and triple) of documents produced by the library's operations", "why_tests_cant": "all pairs of documents; transitivity relates triples", "anchors": ["libcomps/src/comps_doc.c: comps_doc_cmp_u"]}
{"id": "C45", "title": "Saving reports what was left out", "statement": "comps2xml_f logs one message with the id for every group, category and environment it leaves out, in document order, and returns how many there were; 0 means everything was written to the file.", "quantifier": "every document and every option setting", "why_tests_cant": "all documents, any number of empty objects, any failing writer call", "anchors": ["libcomps/src/comps_doc.c: comps2xml_f, comps_doc_xml", "libcomps/src/comps_docgroup.c: comps_docgroup_xml", "libcomps/src/comps_doccategory.c: comps_doccategory_xml", "libcomps/src/comps_docenv.c: comps_docenv_xml"]}
{"id": "C46", "title": "Python sequences read by index and by id", "statement": "len(seq), seq[i] and seq[id] answer as for a Python list of the wrapped objects: seq[i] for every index, negative ones counting from the end, IndexError outside; seq[id] is the first item with that id, KeyError if there is none.", "quantifier": "every list of every kind, every index and id", "why_tests_cant": "all integers as index, including those that do not fit a C int; all lists", "anchors": ["libcomps/src/python/src/pycomps_sequence.c: list_getitem, list_getitem_byid, PyCOMPSSeq_len"]}
{"id": "C47", "title": "Slices of Python sequences", "statement": "seq[start:stop:step] is a new sequence of exactly the items Python's slice.indices selects, in that order.", "quantifier": "every list and every slice", "why_tests_cant": "every combination of start, stop and step, of any sign and size, against every length", "anchors": ["libcomps/src/python/src/pycomps_sequence.c: list_get_slice"]}
{"id": "C48", "title": "Item assignment and deletion in Python sequences", "statement": "seq[i] = x and del seq[i] change exactly the item Python's rules designate, and raise IndexError for an index out of range; lists with unique ids refuse only an id held by another item.", "quantifier": "every list, index and item", "why_tests_cant": "all indices, negative ones and ends included", "anchors": ["libcomps/src/python/src/pycomps_sequence.c: list_setitem, list_setitem_id_unique, list_unique_id_check"]}
{"id": "C49", "title": "Slice assignment in Python sequences", "statement": "seq[start:stop:step] = other gives the list a Python slice assignment gives.", "quantifier": "every list, slice and assigned sequence", "why_tests_cant": "all slices, lengths of the assigned sequence, and list kinds", "anchors": ["libcomps/src/python/src/pycomps_sequence.c: list_set_slice"]}
{"id": "C50", "title": "Slice deletion in Python sequences", "statement": "del seq[start:stop:step] removes exactly the selected items.", "quantifier": "every list and slice", "why_tests_cant": "all slices against all lengths", "anchors": ["libcomps/src/python/src/pycomps_sequence.c: list_set_slice"]}
{"id": "C51", "title": "Ids in Python lists of groups, categories and environments stay unique", "statement": "In every history of calls on such a list no two items have the same id; a call that raises an exception leaves the list as it was.", "quantifier": "every history of append, assignment, deletion, insert, remove, clear, slice assignment and slice deletion", "why_tests_cant": "unbounded histories; every call in every state", "anchors": ["libcomps/src/python/src/pycomps_sequence.c: PyCOMPSSeq_append_unique, list_setitem_id_unique, list_set_slice, PyCOMPSSeq_insert"]}
{"id": "C52", "title": "append, insert, remove and iteration of Python sequences", "statement": "append adds at the end; insert clamps the index as Python does; remove takes away the first occurrence, ValueError if there is none; iteration yields the items in order.", "quantifier": "every list, index and item", "why_tests_cant": "all lists and indices", "anchors": ["libcomps/src/python/src/pycomps_sequence.c: PyCOMPSSeq_append, PyCOMPSSeq_insert, PyCOMPSSeq_remove, PyCOMPSSeq_getiter, PyCOMPSSeq_iternext"]}
{"id": "C53", "title": "Sums of Python lists", "statement": "l1 + l2 of lists of groups, categories, environments or packages holds every id of either list once; objects with the same id are combined as by their own union, all others are kept as they are.", "quantifier": "every two lists of objects made by the library", "why_tests_cant": "unbounded lists with arbitrary repetitions of ids and contents", "anchors": ["libcomps/src/python/src/pycomps_groups.c: comps_groups_union, comps_pkgs_union", "libcomps/src/python/src/pycomps_categories.c: comps_cats_union", "libcomps/src/python/src/pycomps_envs.c: comps_envs_union"]}
{"id": "C54", "title": "crc32 computes the CRC-32 remainder", "statement": "crc32(c, buf) is the remainder of the message modulo the CRC-32 generator polynomial with the usual complements and bit order; it can be computed in pieces; messages of equal length that differ within four neighbouring bytes have different values.", "quantifier": "every start value and message", "why_tests_cant": "all messages; the table has 256 entries whose combination matters", "anchors": ["libcomps/src/python/src/crc32.c: crc32, crc32_tab"]}
{"id": "C55", "title": "Hashes agree with equality", "statement": "Objects that compare equal have equal hashes; a hash is a number from 0 to 2^32-1, never -1.", "quantifier": "every two packages, group ids, groups, categories, environments", "why_tests_cant": "all pairs of equal objects", "anchors": ["libcomps/src/python/src/pycomps_hash.c: PyCOMPS_hash", "libcomps/src/comps_docpackage.c: comps_docpackage_str_u"]}
{"id": "C56", "title": "Comparison operators of Python objects", "statement": "== and != are complementary and decided by the contents; None is unequal to every object; operands of other types and other operators raise; a group id equals a text iff that is its name.", "quantifier": "every object, operand and operator", "why_tests_cant": "all combinations of contents, operands and operators", "anchors": ["libcomps/src/python/src/pycomps_groups.c: PyCOMPSGroup_cmp, PyCOMPSPack_cmp", "libcomps/src/python/src/pycomps_gids.c: PyCOMPSGID_cmp, comps_gid_from_str", "libcomps/src/python/src/pycomps_categories.c: PyCOMPSCat_cmp", "libcomps/src/python/src/pycomps_envs.c: PyCOMPSEnv_cmp", "libcomps/src/python/src/pycomps_macros.h: CMP_NONE_CHECK"]}
{"id": "C57", "title": "Attributes of Python objects", "statement": "Assigning a value of the right type (or None) to an attribute makes it read back as that value and changes no other attribute; other values are refused and change nothing.", "quantifier": "every history of assignments with any Python values, including deletions", "why_tests_cant": "unbounded histories and all values", "anchors": ["libcomps/src/python/src/pycomps_utils.c: __PyCOMPS_set_strattr, __PyCOMPS_set_numattr, __PyCOMPS_set_boolattr, __pycomps_PyUnicode_AsString", "libcomps/src/python/src/pycomps_groups.c: pycomps_group_boolattr_setter", "libcomps/src/python/src/pycomps_gids.c: PyCOMPSGID_set_default"]}
{"id": "C58", "title": "Constructors of Python objects", "statement": "A constructed object has exactly the attributes given to the constructor, the others read None or their documented default.", "quantifier": "all arguments", "why_tests_cant": "all combinations of given and omitted arguments", "anchors": ["libcomps/src/python/src/pycomps_groups.c: PyCOMPSGroup_init, PyCOMPSPack_init", "libcomps/src/python/src/pycomps_categories.c: PyCOMPSCat_init", "libcomps/src/python/src/pycomps_envs.c: PyCOMPSEnv_init", "libcomps/src/python/src/pycomps_gids.c: PyCOMPSGID_init"]}
{"id": "C59", "title": "packages_match", "statement": "packages_match(name, type) returns, in order, the packages of the group with the given name and type; an omitted argument does not restrict the result.", "quantifier": "every group, name and type", "why_tests_cant": "all package lists", "anchors": ["libcomps/src/python/src/pycomps_groups.c: PyCOMPSGroup_packages_match, __pycomps_pkg_type_check"]}
{"id": "C60", "title": "StrDict as a dictionary", "statement": "After any sequence of assignments and clears a StrDict reads back, for every key, the value assigned last; membership, length, keys, values and items agree with it, and a failing call changes nothing.", "quantifier": "all histories of calls", "why_tests_cant": "all orders of keys that are prefixes of one another", "anchors": ["libcomps/src/python/src/pycomps_dict.c: PyCOMPSDict_set, PyCOMPSDict_get, PyCOMPSDict_get_, PyCOMPSDict_has_key, PyCOMPSDict_len, PyCOMPSDict_getiter, PyCOMPSDict_getitervalues, PyCOMPSDict_getiteritems, PyCOMPSDict_clear", "libcomps/src/python/src/pycomps_utils.c: __pycomps_stringable_to_char, __pycomps_unicode_in, __pycomps_bytes_in, __pycomps_str_out"]}
{"id": "C61", "title": "Copy, update and comparison of StrDicts", "statement": "A copy shows the same bindings and length; update takes over all bindings of the other dictionary, overwriting; two StrDicts are equal exactly if they hold the same bindings.", "quantifier": "all pairs of dictionaries", "why_tests_cant": "all pairs of dictionaries", "anchors": ["libcomps/src/python/src/pycomps_dict.c: PyCOMPSDict_copy, PyCOMPSDict_update, PyCOMPSDict_cmp", "libcomps/src/comps_objradix.c: comps_objrtree_copy_shallow, comps_objrtree_unite"]}
{"id": "C62", "title": "Assignments to an MDict", "statement": "In every state, after d[k] = v reading d[k] gives exactly v, no other key changes, and a refused assignment changes nothing.", "quantifier": "all reachable states, keys and values", "why_tests_cant": "states are trees; the outcome depends on how all keys share prefixes", "anchors": ["libcomps/src/python/src/pycomps_mdict.c: PyCOMPSMDict_set, PyCOMPSMDict_get, __pycomps_strlist_in", "libcomps/src/comps_objmradix.c: comps_objmrtree_unset, __comps_objmrtree_set"]}
{"id": "C63", "title": "Deletion, self-assignment, update and comparison of MDicts", "statement": "After del d[k] the key is gone and the others unchanged; d[k] = d[k] changes nothing; update overwrites existing pairs as documented; equality means equal contents.", "quantifier": "all reachable states", "why_tests_cant": "states are trees; the outcome depends on how all keys share prefixes", "anchors": ["libcomps/src/python/src/pycomps_mdict.c: PyCOMPSMDict_set, PyCOMPSMDict_update, PyCOMPSMDict_cmp", "libcomps/src/comps_objmradix.c: comps_objmrtree_unset, comps_objmrtree_unite"]}
{"id": "C64", "title": "Other calls of an MDict", "statement": "keys, values and items list the contents once each, len counts them, str shows them, get returns None for a missing key, copy and clear work, all without undefined behaviour.", "quantifier": "all reachable states", "why_tests_cant": "all contents", "anchors": ["libcomps/src/python/src/pycomps_mdict.c: PyCOMPSMDict_str, PyCOMPSMDict_len, PyCOMPSMDict_copy, PyCOMPSMDict_clear, PyCOMPSMDict_getitervalues, __pycomps_mdict_val_out, __pycomps_mdict_pair_out"]}
{"id": "C65", "title": "Attributes of a Comps object are the parts of its document", "statement": "After any history of calls, reading an attribute of a Comps object gives an object that shows what the document holds for that part, and a change made through this object is a change of the document.", "quantifier": "all histories of calls on any number of Comps objects", "why_tests_cant": "caches and the document drift apart only after particular interleavings of reads, assignments, loads and clears", "anchors": ["libcomps/src/python/src/pycomps.c: PyCOMPS_get_, PyCOMPS_set_, PyCOMPS_clear, PyCOMPS_new, PyCOMPS_init", "libcomps/src/python/src/pycomps.h: PyCOMPS"]}
{"id": "C66", "title": "Assigning to an attribute of a Comps object", "statement": "c.part = x with x of the type of the part makes the document hold the contents of x and the attribute read back as x, and changes no other attribute or document; any other value, or a deletion, raises an exception and changes nothing.", "quantifier": "all states reached by histories of calls, all values", "why_tests_cant": "all states and values", "anchors": ["libcomps/src/python/src/pycomps.c: PyCOMPS_set_"]}
{"id": "C67", "title": "Loading a Comps object", "statement": "fromxml_f and fromxml_str replace the document by what the parser made of the text, with the parser's log, and a call that raises leaves the object as it was; reading a file is reading its text.", "quantifier": "all states, all texts and all cuts of a file into blocks", "why_tests_cant": "all texts and histories", "anchors": ["libcomps/src/python/src/pycomps.c: PyCOMPS_fromxml_f, PyCOMPS_fromxml_str"]}
{"id": "C68", "title": "Option dictionaries", "statement": "The options of a dictionary given as xml_options or def_options are taken over if they have the right type, all others are at their defaults, nothing else in the dictionary counts, options that are no dictionary make the call fail with TypeError and change nothing, and libcomps.xml_default() gives the defaults.", "quantifier": "all dictionaries", "why_tests_cant": "all dictionaries", "anchors": ["libcomps/src/python/src/pycomps.c: __pycomps_dict_to_xml_opts, __pycomps_dict_to_def_opts, Libcomps_xml_default, Libcomps_def_default"]}
{"id": "C69", "title": "Saving a Comps object", "statement": "toxml_f and toxml_str write the document with the options given, change no part of it, and report exactly the objects left out and the failure to write.", "quantifier": "all histories, options and writers", "why_tests_cant": "all documents and option sets; the failure needs 255 objects", "anchors": ["libcomps/src/python/src/pycomps.c: PyCOMPS_toxml_f, PyCOMPS_toxml_str, PyCOMPS_get_last_errors, PyCOMPS_get_last_log"]}
{"id": "C70", "title": "Comps objects are independent", "statement": "A change made through an attribute of one Comps object changes no other part of it and no other Comps object.", "quantifier": "all histories of calls on any number of Comps objects", "why_tests_cant": "sharing arises from particular histories", "anchors": ["libcomps/src/python/src/pycomps.c: PyCOMPS_get_, PyCOMPS_set_, PyCOMPS_union, PyCOMPS_filter_arches"]}
{"id": "C71", "title": "Validating, comparing and adding Comps objects", "statement": "validate() raises exactly if the document is invalid, with the first message of validate_nf(); == tells whether two documents are the same; + makes a new object with the union and leaves the operands alone; other operands are refused.", "quantifier": "all histories of calls, all operands", "why_tests_cant": "all pairs of documents", "anchors": ["libcomps/src/python/src/pycomps.c: PyCOMPS_validate, PyCOMPS_validate_nf, PyCOMPS_cmp, PyCOMPS_union"]}
{"id": "C72", "title": "List and dictionary attributes behave as Python attributes", "statement": "Reading a list or dictionary attribute of a Group, Category, Environment or Comps object yields the value last assigned to that attribute of that object, shared and not copied, through whichever Python object it is read.", "quantifier": "all programs over any number of objects, values and variables: creation, reading, assignment, editing, dropping, reading the same object again from a list, clear, load", "why_tests_cant": "what is cached depends on the history of two wrappers of one object", "anchors": ["libcomps/src/python/src/pycomps_utils.c: __PyCOMPS_get_ids, __PyCOMPS_set_ids, __PyCOMPS_get_dict, __PyCOMPS_set_dict", "libcomps/src/python/src/pycomps.c: PyCOMPS_get_, PyCOMPS_set_, PyCOMPS_clear, PyCOMPS_dealloc"]}
{"id": "C73", "title": "Attributes never use freed memory", "statement": "No program over these attributes touches a freed object or a NULL pointer, or frees something twice, including when all variables are given up at the end.", "quantifier": "all such programs, in any order of dropping variables", "why_tests_cant": "use after free depends on which references are dropped when", "anchors": ["libcomps/src/python/src/pycomps_utils.c: __PyCOMPS_get_ids, __PyCOMPS_set_ids, __PyCOMPS_get_dict, __PyCOMPS_set_dict", "libcomps/src/python/src/pycomps.c: PyCOMPS_get_, PyCOMPS_set_, PyCOMPS_clear, PyCOMPS_dealloc"]}
{"id": "C74", "title": "Attributes give back every reference", "statement": "When all variables of a program over these attributes are gone, every Python object and every library object made is freed.", "quantifier": "all such programs", "why_tests_cant": "tests do not observe leaks; counters must balance over all histories", "anchors": ["libcomps/src/python/src/pycomps_utils.c: __PyCOMPS_get_ids, __PyCOMPS_set_ids, __PyCOMPS_get_dict, __PyCOMPS_set_dict", "libcomps/src/python/src/pycomps.c: PyCOMPS_get_, PyCOMPS_set_, PyCOMPS_clear, PyCOMPS_dealloc", "libcomps/src/python/src/pycomps_groups.c: PyCOMPSGroup_dealloc", "libcomps/src/python/src/pycomps_categories.c: PyCOMPSCat_dealloc", "libcomps/src/python/src/pycomps_envs.c: PyCOMPSEnv_dealloc"]}
{"id": "C75", "title": "Plain and object dictionaries behave alike", "statement": "On every sequence of set, get and unset, comps_dict.c (over comps_radix.c) and comps_objdict.c (over comps_objradix.c) return the same results, show the same content and release the same values in the same order; the attribute values of an XML element are each freed exactly once with the element.", "quantifier": "all sequences of calls; all attribute lists", "why_tests_cant": "two hand-copied implementations are compared on every history", "anchors": ["libcomps/src/comps_radix.c: __comps_rtree_set, comps_rtree_get, comps_rtree_unset", "libcomps/src/comps_objradix.c: __comps_objrtree_set, __comps_objrtree_get, comps_objrtree_unset", "libcomps/src/comps_elem.c: comps_elem_create, comps_elem_destroy"]}
{"id": "C76", "title": "Dictionaries release no value twice or while stored", "statement": "At every moment of every history the values shown by a dictionary and the values it has released are distinct shares of what was given to it; set releases exactly the value it replaces, unset exactly the values that disappear.", "quantifier": "all histories of calls, both implementations, with and without destructor", "why_tests_cant": "double frees depend on the shape the tree took over the whole history", "anchors": ["libcomps/src/comps_radix.c: comps_rtree_data_destroy, __comps_rtree_set, comps_rtree_unset", "libcomps/src/comps_objradix.c: comps_objrtree_data_destroy, __comps_objrtree_set, comps_objrtree_unset"]}
{"id": "C77", "title": "Dictionaries release every value in the end", "statement": "When a dictionary is destroyed, every value ever given to it has been released exactly once.", "quantifier": "all histories of calls, both implementations", "why_tests_cant": "a leak is invisible to tests and depends on the order of insertion", "anchors": ["libcomps/src/comps_radix.c: comps_rtree_destroy, __comps_rtree_set", "libcomps/src/comps_objradix.c: comps_objrtree_destroy, __comps_objrtree_set", "libcomps/src/comps_hslist.c: comps_hslist_destroy"]}
{"id": "C78", "title": "Setting with a length uses that many characters", "statement": "comps_rtree_set_n and comps_objrtree_set_n with length m behave as set with the first m characters of the key.", "quantifier": "all reachable dictionaries, keys and lengths within the key", "why_tests_cant": "which branch copies how much of the key depends on the stored keys", "anchors": ["libcomps/src/comps_radix.c: comps_rtree_set_n, __comps_rtree_set", "libcomps/src/comps_objradix.c: comps_objrtree_set_n, comps_objrtree_set_nx"]}
{"id": "C79", "title": "Unions of plain dictionaries", "statement": "The union of two plain dictionaries shows a clone of the first's value for every key of the first, else a clone of the second's; every clone made is either stored in the union or released.", "quantifier": "all pairs of reachable dictionaries, all cloners and constructors", "why_tests_cant": "breadth-first insertion order versus tree splits on arbitrary trees", "anchors": ["libcomps/src/comps_radix.c: comps_rtree_clone, comps_rtree_unite, comps_rtree_union"]}
{"id": "C80", "title": "Clearing a dictionary", "statement": "clear releases every stored value once and leaves a dictionary that behaves like a new one.", "quantifier": "all reachable dictionaries, both implementations", "why_tests_cant": "needs the state after clear under any further call", "anchors": ["libcomps/src/comps_radix.c: comps_rtree_clear", "libcomps/src/comps_objradix.c: comps_objrtree_clear", "libcomps/src/comps_hslist.c: comps_hslist_clear"]}
{"id": "C81", "title": "Callback radix tree is a map", "statement": "After any sequence of set and get calls on a new tree, get answers for every key with the value (as made by the constructor) set last under exactly that key, and NULL for other keys.", "quantifier": "all programs of set and get with non-empty keys; all constructors", "why_tests_cant": "the effect of a set depends on all keys set before; only a handful of key shapes are tried by tests", "anchors": ["libcomps/src/comps_bradix.c: comps_brtree_set, comps_brtree_get", "libcomps/tests/check_brtree.c: key_cmp, subkey"]}
{"id": "C82", "title": "Values of the callback radix tree are released once", "statement": "Every value given to set is passed to the destructor exactly once: when it is replaced, removed or cleared, else when the tree is destroyed; a cleared tree can be used like a new one.", "quantifier": "all programs of set and get, all constructors, with or without destructor", "why_tests_cant": "needs a count over every history, including double frees that do not show", "anchors": ["libcomps/src/comps_bradix.c: comps_brtree_set, comps_brtree_clear, comps_brtree_destroy, comps_brtree_data_destroy"]}
{"id": "C83", "title": "Unset removes one key", "statement": "unset removes the given key and releases its value, and leaves every other key as it was.", "quantifier": "all programs of set, get and unset, all keys", "why_tests_cant": "depends on the shape of the tree built by the earlier calls", "anchors": ["libcomps/src/comps_bradix.c: comps_brtree_unset"]}
{"id": "C84", "title": "Listings of the callback radix tree", "statement": "pairs lists every key with its value exactly once, keys lists the same keys and values the same values.", "quantifier": "all programs of set, get and unset", "why_tests_cant": "breadth-first traversal of arbitrary trees", "anchors": ["libcomps/src/comps_bradix.c: comps_brtree_values, __comps_brtree_all, comps_brtree_keys, comps_brtree_pairs"]}
{"id": "C85", "title": "Clone of the callback radix tree", "statement": "A clone shows under every key the clone of the value and can be listed like the original; cloning is defined for every tree.", "quantifier": "all programs of set and get, all cloners", "why_tests_cant": "nodes without a value appear only for certain keys", "anchors": ["libcomps/src/comps_bradix.c: comps_brtree_clone", "libcomps/tests/check_brtree.c: int_cloner"]}
{"id": "C86", "title": "Saved bytes are read back", "statement": "For a document in UTF-8 with strings of XML characters and a document type that can be written, the bytes of a save are XML characters, and expat given these bytes in any blocks accepts them and reports the same elements, attributes and document type, every text in pieces that make it up. A public id with white space in any form is reported with single spaces between its words. Loading the file is loading the same calls with at most white characters missing from the texts.", "quantifier": "all saved documents, all ways to cut the bytes into blocks", "why_tests_cant": "every position of a block end, every combination of escapes and multi-byte characters", "anchors": ["libcomps/src/comps_doc.c: comps2xml_f, comps2xml_str", "libcomps/src/comps_parse.c: comps_parse_file"]}
{"id": "C87", "title": "Round trip through a string of bytes", "statement": "A document in normal form saved to a string and loaded from that string gives the same document.", "quantifier": "all documents in normal form, UTF-8", "why_tests_cant": "depends on white space between escaped characters", "anchors": ["libcomps/src/comps_doc.c: comps2xml_str", "libcomps/src/comps_parse.c: comps_parse_str, comps_parse_char_data_handler"]}
{"id": "C88", "title": "Round trip through a file read in blocks", "statement": "A document in normal form saved to a file and loaded from that file, which is read in blocks of 1024 bytes, gives the same document.", "quantifier": "all documents in normal form, UTF-8, of any size", "why_tests_cant": "depends on which character is at a multiple of 1024 bytes", "anchors": ["libcomps/src/comps_doc.c: comps2xml_f", "libcomps/src/comps_parse.c: comps_parse_file, comps_parse_char_data_handler"]}
{"id": "C89", "title": "Plain multi-dictionary lookup", "statement": "Looking up a key in a plain multi-dictionary gives the values set under that key since it was last removed, in the order set.", "quantifier": "all histories of set, get, unset and clear; all keys", "why_tests_cant": "depends on which keys share prefixes and in which order they were set", "anchors": ["libcomps/src/comps_mradix.c: __comps_mrtree_set, comps_mrtree_get, comps_mrtree_unset, comps_mrtree_clear"]}
{"id": "C90", "title": "Plain multi-dictionary listings and copies", "statement": "The listing has every key with values once, the walk visits every value, a clone holds the cloned values under the same keys, and a union appends all values of the second tree.", "quantifier": "all histories, constructors and cloners", "why_tests_cant": "the traversals are over trees of any shape", "anchors": ["libcomps/src/comps_mradix.c: comps_mrtree_keys, comps_mrtree_values_walk, comps_mrtree_clone, comps_mrtree_unite"]}
{"id": "C91", "title": "Plain multi-dictionaries release their values", "statement": "Every value put into a plain multi-dictionary is given to the destructor exactly once, by unset, clear or the final destroy.", "quantifier": "all histories ending with destroy", "why_tests_cant": "leaks and double frees depend on the whole history", "anchors": ["libcomps/src/comps_mradix.c: comps_mrtree_data_destroy, comps_mrtree_unset, comps_mrtree_clear, comps_mrtree_destroy"]}
{"id": "C92", "title": "What a save and load keeps of any document", "statement": "Loading what was saved of any document, complete or not, succeeds without undefined behaviour and gives back every object that was written: each text less some of its white space, a missing property exactly where the text was blank, members, flags, architectures and dictionaries as written; the return code is 0 exactly when no required property, translation or package name is missing and no empty list was written, and 1 otherwise.", "quantifier": "every reachable document, all options and defaults, every division of the file into blocks", "why_tests_cant": "must hold for every combination of missing, blank and odd values in documents of any size", "anchors": ["libcomps/src/comps_doc.c: comps_doc_xml", "libcomps/src/comps_elem.c: __comps_*_preproc, __comps_*_postproc", "libcomps/src/comps_parse.c: comps_parse_file, comps_parse_str"]}
{"id": "C93", "title": "Saving and loading again changes nothing", "statement": "A document that was loaded from what the library saved is unchanged by saving and loading it again under the same options: every property, translation, package, group reference, language pack and blacklist or whiteout entry is as it was, the two documents compare equal, and a second load after a load without messages gives none.", "quantifier": "every reachable document, all options and defaults", "why_tests_cant": "must hold for every combination of odd values in documents of any size; a value that changes a little at each round is only seen by repeating the round trip", "anchors": ["libcomps/src/comps_doc.c: comps_doc_xml", "libcomps/src/comps_parse.c: comps_parse_str, comps_parse_file", "libcomps/src/comps_elem.c: __comps_*_postproc", "libcomps/src/comps_mradix.c: comps_mrtree_set"]}
{"id": "C94", "title": "Messages say what happened", "statement": "Every entry that loading leaves in the log has a text, which is printed whole: one of eleven sentences naming the element, attribute, value or parser message concerned, with line and column. Saving leaves one sentence for every group, category and environment left out, naming the kind of object and its id, in order, and one if the file could not be written.", "quantifier": "every sequence of parser events and feeds, from every log of such entries, all options; every document", "why_tests_cant": "the sentence for every message with every argument, for event sequences of any length; a format that does not fit its arguments is undefined behaviour only for the inputs that reach it", "anchors": ["libcomps/src/comps_log.c: comps_log_entry_tostr, comps_log_entry_print", "libcomps/src/comps_elem.c: comps_log_error_x calls", "libcomps/src/comps_parse.c: comps_log_error_x calls", "libcomps/src/comps_doccategory.c: comps_doccategory_xml", "libcomps/src/comps_docenv.c: comps_docenv_xml"]}
{"id": "C95", "title": "A Python document saved and loaded again", "statement": "After any history of calls, the string that Comps.xml_str returns, and the file that Comps.xml_f writes, can be given to fromxml_str and fromxml_f of any Comps object with the same options: no exception is raised, that object's attributes then show the saved document, its log is empty exactly when 0 is returned, no other document and no Python object made before changes, and the loaded object == the saved one.", "quantifier": "every history of calls on Comps objects, every document in UTF-8 with XML text, all options, every Comps object to load into (the saved one too)", "why_tests_cant": "every document and every history of attribute reads, edits, loads and clears before the save, through both layers, the writer, the reader and the parser", "anchors": ["libcomps/src/python/src/pycomps.c: PyCOMPS_toxml_str, PyCOMPS_toxml_f, PyCOMPS_fromxml_str, PyCOMPS_fromxml_f, PyCOMPS_cmp", "libcomps/src/comps_doc.c: comps2xml_str, comps2xml_f, comps_doc_xml, comps_doc_cmp_u", "libcomps/src/comps_parse.c: comps_parse_str, comps_parse_file"]}
{"id": "C96", "title": "Python lists hold validated objects", "statement": "A list of groups, categories, environments, packages or group ids never holds an object that failed its own validate() when it was added: append, insert, item assignment and slice assignment validate what they store, a refused object leaves the list unchanged.", "quantifier": "every history of append, insert, item and slice assignment, deletion, removal and clear, all objects", "why_tests_cant": "every interleaving of the calls, on lists of any length, with any valid and invalid objects", "anchors": ["libcomps/src/python/src/pycomps_sequence.c: list_setitem, list_setitem_id_unique, list_set_slice, PyCOMPSSeq_append, PyCOMPSSeq_append_unique, PyCOMPSSeq_insert", "libcomps/src/python/src/pycomps_groups.c: pycomps_group_validate, pycomps_package_validate", "libcomps/src/python/src/pycomps_gids.c: pycomps_gid_validate"]}
{"id": "C97", "title": "validate(), str() and repr() of single objects in Python", "statement": "validate() of a group, category, environment, package or group id returns None exactly if the object has an id (a name) that is not empty and no duplicate members, else it raises ValueError with the first message of the C validation; str() is the id or name and repr() contains it.", "quantifier": "all objects", "why_tests_cant": "every object, with any number of members and any duplicates, any id", "anchors": ["libcomps/src/python/src/pycomps_utils.c: __pycomps_validate_process", "libcomps/src/python/src/pycomps_groups.c: PyCOMPSGroup_validate, PyCOMPSGroup_str, PyCOMPSGroup_repr, PyCOMPSPackage_validate, PyCOMPSPack_str, PyCOMPSPack_repr", "libcomps/src/python/src/pycomps_categories.c: PyCOMPSCat_str, PyCOMPSCat_repr", "libcomps/src/python/src/pycomps_envs.c: PyCOMPSEnv_str, PyCOMPSEnv_repr", "libcomps/src/python/src/pycomps_gids.c: PyCOMPSGID_str"]}
{"id": "C98", "title": "Queries of a Python document", "statement": "groups_match, categories_match and environments_match of a Comps object give, after any history of calls, exactly the objects of the document whose id, name and description match all given patterns (in the given language), in their order.", "quantifier": "every history of calls on Comps objects, every document, all patterns, every fnmatch", "why_tests_cant": "every history and every document, any matcher", "anchors": ["libcomps/src/python/src/pycomps.c: PyCOMPS_groups_match, PyCOMPS_categories_match, PyCOMPS_envs_match", "libcomps/src/comps_doc.c: comps_doc_get_groups, comps_doc_get_categories, comps_doc_get_envs"]}
{"id": "C99", "title": "Document objects never use freed or unwritten memory", "statement": "A client that passes live objects of the right kind, and gives away only references it has, never makes a function on documents, groups, categories, environments, packages, group ids and their lists and dictionaries use freed or unwritten memory: creation, copying, setters, getters, unions, intersections, filters, queries, comparison and destruction, in any order.", "quantifier": "every history of calls, any sharing of objects between owners", "why_tests_cant": "every interleaving of calls, with every way of sharing objects, documents of any size", "anchors": ["libcomps/src/comps_obj.c: comps_object_destroy, comps_object_copy, comps_object_incref", "libcomps/src/comps_doc.c: comps_doc_create, comps_doc_copy, comps_doc_destroy, comps_doc_union, comps_doc_intersect, comps_doc_arch_filter, comps_doc_get_groups", "libcomps/src/comps_docgroup.c: comps_docgroup_union, comps_docgroup_intersect, comps_docgroup_arch_filter", "libcomps/src/comps_doccategory.c: comps_doccategory_union", "libcomps/src/comps_docenv.c: comps_docenv_union", "libcomps/src/comps_types.h: COMPS_PROP_SETTER, COMPS_DOCOBJ_SETOBJLIST"]}
{"id": "C100", "title": "Reference counters of document objects are exact", "statement": "After any such history the counter of every object in memory is the number of references to it: those the client has, the pointers stored in other objects, and those an earlier call lost.", "quantifier": "every history of calls", "why_tests_cant": "every interleaving of calls, with every way of sharing objects", "anchors": ["libcomps/src/comps_mm.c: comps_refc_incref, comps_refc_decref", "libcomps/src/comps_obj.c: comps_object_incref, comps_object_destroy", "libcomps/src/comps_docgroup.c", "libcomps/src/comps_doccategory.c", "libcomps/src/comps_docenv.c", "libcomps/src/comps_doc.c"]}
{"id": "C101", "title": "Document objects do not leak", "statement": "After any such history, when the client has given back all its references, no object is left in memory; before, exactly the objects are left that can be reached from the client's references.", "quantifier": "every history of calls", "why_tests_cant": "every interleaving of calls, with every way of sharing objects", "anchors": ["libcomps/src/comps_docgroup.c: comps_docgroup_union, comps_docgroup_get_packages", "libcomps/src/comps_doccategory.c: comps_doccategory_union", "libcomps/src/comps_docenv.c: comps_docenv_union", "libcomps/src/comps_doc.c: comps_doc_union, comps_doc_intersect, comps_doc_arch_filter, comps_doc_get_groups"]}
{"id": "C102", "title": "Copies of document objects share nothing", "statement": "comps_object_copy of a group, category, environment, package, group id, list or dictionary returns a new object that is the same through all levels: same kinds, same members, items and entries in the same order, same strings and numbers. The copy shares no object with what was in memory before, and nothing that was in memory changes, counters included.", "quantifier": "every history of calls, every object", "why_tests_cant": "every object, with any nesting and sharing", "anchors": ["libcomps/src/comps_obj.c: comps_object_copy", "libcomps/src/comps_docgroup.c: comps_docgroup_copy", "libcomps/src/comps_doccategory.c: comps_doccategory_copy", "libcomps/src/comps_docenv.c: comps_docenv_copy", "libcomps/src/comps_docpackage.c: comps_docpackage_copy", "libcomps/src/comps_docgroupid.c: comps_docgroupid_copy", "libcomps/src/comps_objlist.c: comps_objlist_copy", "libcomps/src/comps_objradix.c: comps_objrtree_copy, comps_objrtree_clone"]}
{"id": "C103", "title": "Sums of Python lists in memory", "statement": "Adding two lists of groups, categories, environments or packages, in any history of calls on document objects: every call runs, counters stay exact, and when the client has given back all its references nothing is left in memory. The sum is a new list with one new object for each object of the first list, in order, followed by the objects of the second list that have no id (packages: no name) of the first. The operands and everything else the client can reach stay unchanged but for counters.", "quantifier": "every history of calls, every two lists", "why_tests_cant": "every interleaving of calls, every sharing of objects between lists, every repetition of ids", "anchors": ["libcomps/src/python/src/pycomps_groups.c: comps_groups_union, comps_pkgs_union", "libcomps/src/python/src/pycomps_categories.c: comps_cats_union", "libcomps/src/python/src/pycomps_envs.c: comps_envs_union", "libcomps/src/comps_set.c: comps_set_add, comps_set_data_at", "libcomps/src/comps_objlist.c: comps_objlist_index, comps_objlist_remove_at, comps_objlist_insert_at_x"]}
{"id": "C104", "title": "comps_hslist_unique keeps the first of each class", "statement": "Made unique by a transitive comparison, a list keeps, in order, exactly the elements equal to none in front of them. The other elements are destroyed, each once, and none that stays is destroyed or compared after its destruction. Every old cell is freed exactly once and both ends of the list are right afterwards, whatever its last pointer was before. This holds with or without a destructor, and when one address occurs twice.", "quantifier": "every list, every comparison", "why_tests_cant": "every arrangement of repeats, every comparison, every sharing of addresses", "anchors": ["libcomps/src/comps_hslist.c: comps_hslist_unique, comps_hslist_append", "libcomps/src/comps_set.c: comps_set_in, comps_set_add"]}
{"id": "C105", "title": "Sums and multiples of Python sequences in pycomps_sequence.c", "statement": "list_concat yields the items of the first sequence followed by those of the second, NULL items included; list_repeat yields the items of the sequence that many times, and the empty sequence for a number not above 0.", "quantifier": "every sequence, every number below 2^31", "why_tests_cant": "all sequences and numbers", "anchors": ["libcomps/src/python/src/pycomps_sequence.c: list_concat, list_repeat"]}
{"id": "C106", "title": "Iterating over a Python sequence that changes", "statement": "In any history of appending, inserting, setting, removing and clearing on a sequence and asking its iterator for the next item, every call is defined; the iterator gives each item that stays in front of it once, in order, never one inserted behind it, and ends at the end of the list or at a NULL item. Items appended are given as by a Python list.", "quantifier": "every sequence, every history of calls", "why_tests_cant": "every interleaving of changes and reads", "anchors": ["libcomps/src/python/src/pycomps_sequence.c: PyCOMPSSeq_getiter, PyCOMPSSeq_iternext, PyCOMPSSeq_clear", "libcomps/src/comps_objlist.c: comps_objlist_append_x, comps_objlist_insert_at_x, comps_objlist_set, comps_objlist_remove_at, comps_objlist_remove, comps_objlist_clear"]}
{"id": "C107", "title": "Iterating over a Python dictionary that changes", "statement": "An iterator of the keys, values or items of a string dictionary gives the entries the dictionary had when the iterator was made, in order, then the end, whatever is done to the dictionary meanwhile; every call is defined.", "quantifier": "every dictionary, every history of calls", "why_tests_cant": "every interleaving of changes and reads", "anchors": ["libcomps/src/python/src/pycomps_dict.c: PyCOMPSDict_getiter, PyCOMPSDict_getiteritems, PyCOMPSDict_getitervalues, PyCOMPSDict_iternext, __pycomps_dict_val_out, __pycomps_dict_pair_out", "libcomps/src/comps_objradix.c: __comps_objrtree_all"]}
{"id": "C108", "title": "Comparing Python sequences", "statement": "For a sequence and any Python object, == answers whether the object is a sequence with equal items at equal places, != answers the contrary, the ordering operators answer false; every comparison is defined.", "quantifier": "every sequence, every right operand, every operator", "why_tests_cant": "all lists, all types of operands", "anchors": ["libcomps/src/python/src/pycomps_sequence.c: PyCOMPSSeq_cmp", "libcomps/src/comps_objlist.c: comps_objlist_cmp", "libcomps/src/comps_obj.c: comps_object_cmp"]}
{"id": "C109", "title": "References taken by the methods of Python sequences", "statement": "Whatever sequence of appends, insertions, item assignments and deletions, removals, item accesses and clears a Python client makes on a sequence of document objects, every call is defined and the counter of every object is the number of places in the list and of wrappers that hold it; so when the list is empty and no wrapper is left every object is freed.", "quantifier": "every finite history of calls, every object, every outcome of the checks", "why_tests_cant": "all histories; a lost reference changes no answer", "anchors": ["libcomps/src/python/src/pycomps_sequence.c: list_setitem, list_setitem_id_unique, PyCOMPSSeq_append, PyCOMPSSeq_insert, PyCOMPSSeq_append_unique, PyCOMPSSeq_remove, list_getitem, PyCOMPSSeq_clear", "libcomps/src/comps_objlist.c: comps_objlist_set, comps_objlist_remove, comps_objlist_remove_at"]}
