# Formal model of libcomps: design

Source modelled: `/repo/libcomps/src` (C). All file:line citations in the Coq
files are relative to `/repo/libcomps/src`.

## Modelling conventions

* A C string is a `list ascii` (type `str`); NUL never occurs inside one.
  `strcmp` compares bytes as unsigned, sibling ordering in the radix trees
  compares them as signed `char` (x86), exactly where the code does so.
* A function that mutates through a pointer is a function returning the new
  value. A linked list with a tail pointer keeps the *position* the tail
  pointer designates, so that a stale or null tail is visible in the model.
* Undefined behaviour (null dereference, use after free, out-of-bounds write,
  type confusion) is a distinct outcome `UB`, never a default value.
* Loops are structural recursions or fuelled recursions whose exhaustion is an
  error value that a lemma proves unreachable.
* Allocation always succeeds (the code mostly does not check it).
* External code: libxml2's writer is modelled by the sequence of calls made to
  it; expat by the sequence of callbacks it makes; `fnmatch` is a universally
  quantified parameter.
* When the full property is false of the code, it is refuted by a theorem named
  `..._refuted` with a concrete witness and the strongest true variant we found
  is proved, with the side condition visible.

## Files (`rocq/theories`)

| file | models |
|---|---|
| `CStr.v` | C strings, results with UB |
| `HSListModel.v` | `comps_hslist.c` |
| `ObjListModel.v` | `comps_objlist.c` |
| `SetModel.v` | `comps_set.c` |
| `RTreeModel.v` | `comps_objradix.c`, `comps_objdict.c` (and `comps_radix.c`) |
| `MRTreeModel.v` | `comps_objmradix.c` |
| `ObjModel.v` | `comps_docpackage.c`, `comps_docgroupid.c`, `comps_docgroup.c`, `comps_doccategory.c`, `comps_docenv.c`: values, cmp, copy, union, intersection, filter, setters |
| `DocModel.v` | `comps_doc.c`: parts, union, intersection, filter, queries, comparison |
| `XmlModel.v` | `*_xml` writers as call sequences |
| `Dec.v`, `StrModel.v` | decimal numerals; text rendering into buffers, architecture attribute |
| `ParseModel.v` | `comps_parse.c`, `comps_elem.c` as an event state machine |
| `ValidateModel.v` | `comps_validate.c` and the rule tables |
| `RefcModel.v` | `comps_mm.c`, reference counting heap |
| `LogModel.v` | `comps_log.c` |
| `PySeqModel.v` | `python/src/pycomps_sequence.c` |
| `CrcModel.v` | `python/src/crc32.c`, `pycomps_hash.c` |
| `PyObjModel.v` | of `python/src/pycomps_{groups,categories,envs,gids}.c`, `pycomps_utils.c`: constructors, attributes, comparison, hash, sums of lists, `packages_match` |
| `PyDictModel.v` | `python/src/pycomps_dict.c`, `pycomps_mdict.c` and the conversions they use |
| `PyDocModel.v` | `python/src/pycomps.c`: the document object, its attributes, loading, saving, options, sums |
| `PyItemModel.v` | `validate`, `str`, `repr` of single Python objects, the lists of packages and group ids, the `*_match` queries |
| `CountMem.v` | memory of counted cells: allocation, increment, release with destructors |
| `PyAttrModel.v` | list and dictionary attributes of Group, Category, Environment, Comps with all counters: `pycomps_utils.c:184-286`, `pycomps.c:201-211, 382-466, 809-816`, destructors |
| `PyAttrSpec.v` | what such programs show, without counters and addresses |
| `OwnModel.v` | `comps_radix.c` (behind `comps_dict.c`) and `comps_objradix.c` side by side: what every call destroys; clones and unions of plain dictionaries |
| `BRadixModel.v` | `comps_bradix.c` with the key callbacks of `tests/check_brtree.c` |
| `TextModel.v` | the bytes between saving and loading: libxml2's serialisation, expat's reading in blocks, the block loop of `comps_parse_file` |
| `MDictModel.v` | `comps_mradix.c` (plain multi-dictionaries): set, get, unset, clear, destroy, listings, walk, clone, unite |
| `ObjMemModel.v` | the memory of the document objects: `comps_obj.c`, `comps_doc*.c`: which objects exist, their counters, who points to whom |
| `ObjMemSum.v` | the memory of sums of Python lists: `comps_groups_union`, `comps_cats_union`, `comps_envs_union`, `comps_pkgs_union` in `pycomps_groups.c`, `pycomps_categories.c`, `pycomps_envs.c`; the Python objects around them and the type number of packages are not in it |
| `HSUniqModel.v` | `comps_hslist_unique` in `comps_hslist.c`, with the data destroyed and the cells freed; data are addresses, the comparison answers anything; the two structures of the set are not in it |
| `PyIterModel.v` | the iterator of Python sequences in `pycomps_sequence.c` with the life of the list nodes; the list is its nodes in order (tail pointers: C01), objects and their counters are not in it |
| `PyDictIterModel.v` | the iterators of Python string dictionaries in `pycomps_dict.c` with the life of the string objects; the dictionary is its entries, an object lives while the dictionary or someone else holds it (C100) |
| `PySeqCmpModel.v` | the comparison operators of Python sequences in `pycomps_sequence.c`, with the kinds of the objects compared; what comparing two objects of one kind does is in `ObjModel.v` |
| `PySeqRefModel.v` | the references taken and given back by append, insert, item assignment and deletion, remove, item access and clear of Python sequences in `pycomps_sequence.c`; whether an item passes the check is an argument; not slices, strings converted to ids, indices outside int, negative positions of insert and item access |
| `*Facts*.v` | proofs about the models |
| `Spec*.v` | specifications and the proofs connecting them to the models |
| `RefcFacts.v`, `SpecH*.v` | the account of references: counter + 1 = references of callers + stored occurrences |
| `Properties*.v` | only the property theorems, `Print Assumptions`, non-vacuity examples |

## Plan per property

| id | model | proof |
|---|---|---|
| C01 | list with tail position and length | refinement to `list` for every history |
| C02 | derived list operations | equations; `sublist_indexed` end handling refuted; `get_it` refuted |
| C03 | `comps_objlist_cmp` | `Forall2`, equivalence laws |
| C04 | hslist with tail position | refinement, refuted for `prepend` then `append`, exact condition proved |
| C05 | radix tree `set`/`get` | refuted; conditional map law for every history without clobbering; every history simulated by a machine on tables of paths |
| C06 | radix tree `unset` | refuted (UB / subtree loss); UB and loss told exactly by the same machine |
| C07 | `all` traversal | every well-formed tree |
| C08 | `clone`, `copy` | every tree; count of `copy` refuted |
| C09 | `union`, `unite` | every pair of well-formed trees |
| C10 | `cmp` via sets of pairs | iff same map |
| C11 | stored count | refuted; conditional; exact by the same machine |
| C12 | multi radix tree | refuted; conditional |
| C13 | multi radix cmp | refuted; keys only |
| C14 | set | refinement for every history and equivalence |
| C15, C17 | union of groups, categories, envs | refinement to a list merge spec |
| C16 | intersections | filter spec |
| C18, C19 | doc union, intersection | spec by id |
| C20 | arch filter | filter spec, idempotent, monotone |
| C21, C22 | queries | filter spec; desc/lang guard refuted for groups |
| C23 | doc property dictionary | refuted for `lang` and doctype; conditional |
| C24 | object property dictionary | map law for the fixed key sets |
| C25, C26 | cmp, copy | equivalence; C26 refuted |
| C27 | writer calls | balanced for every document and options |
| C28 | writer + parser | round trip by induction over the document, for documents in normal form (`parts_normal`); four ways out of it refuted |
| C40, C92 | writer + parser | the same induction for every document: each text loses white space as in C86, complaints are collected, and what is missing is what is complained about |
| C93 | writer + parser twice | the law of C92 for two readers, the second keeping what the first made (`settles`); nothing is read differently the second time, for tidy documents; two refutations |
| C94 | ParseModel + XmlModel + LogModel | an inductive list of the sentences (`message`); invariant of the parser's log over all events; the formats are read by C39 |
| C95 | PyDocModel + XmlModel + TextModel + ParseModel | composition of C67, C69, C87, C92 and C71: the bytes saved through one Comps object are loaded through another (`text_feed`, `file_feeds`: SpecV) |
| C96 | PyItemModel + PySeqModel + ValidateModel | invariant over the calls of a list: every stored object was validated or came from an assignment (`idl_origin`, `mem_origin`) |
| C97 | PyItemModel | composition with C37's messages; decoding of the framed text of a group id |
| C98 | PyItemModel + PyDocModel | composition of C22 with the documents Python histories reach |
| C99 | ObjMemModel | weakest preconditions: every function keeps the account of references (`ObjMemFacts*`: `G`), every allowed call runs |
| C100 | ObjMemModel | the account, from histories: counter + 1 = references of the client + stored pointers + lost ones |
| C101 | ObjMemModel | pointers go down in `rank`, so whatever is counted is reached; unions of documents without two objects of one id lose nothing (`ObjMemFactsE`: ids stay, `ObjMemFactsF`: the set refuses nothing); witnesses for the three leaks |
| C102 | ObjMemModel | copying only appends memory; the new part is related level by level to the old (`like`) |
| C103 | ObjMemSum, ObjMemModel | the loops as invariants over the part read so far (`first_sum`, `second_sum`); only objects made by the sum leave the result, so operands stay; histories as in C99 to C101 with sums as further calls |
| C104 | HSUniqModel | invariant of the loop: the kept elements stand for all elements read (`stands`), destroyed ones are among those read and never kept |
| C105 | PySeqModel | the appending loops as sequences (`ogood_append_all`), by induction on the number |
| C106 | PyIterModel | refinement: the numbered nodes against the two parts behind and ahead of the iterator (`place`); fresh numbers keep a lost iterator lost |
| C107 | PyDictIterModel | invariant: the first objects are in the dictionary exactly under the keys not touched since; the answers as a deterministic relation that knows only touched keys |
| C108 | PySeqCmpModel | induction on the two lists |
| C109 | PySeqRefModel | invariant of histories: counters are the references held and lost |
| C29, C30 | parser machine | invariant over well-nested streams |
| C31 | char handler | refuted; conditional |
| C32 | parser UB outcomes | refuted; conditional |
| C33 | return codes | case analysis over log |
| C34 | heap of counters | invariant over histories; self-replacement refuted |
| C35 | buffer sizes | arithmetic; refuted cases |
| C36 | arch split/join | induction |
| C37, C38 | validation | iff specification |
| C39 | log | induction |
| C41 | multi radix tree `unset` | exact UB condition; refuted as stated |
| C42, C43 | multi dictionary unite, enumeration | every reachable dictionary |
| C44 | document comparison | exact relation; values of blacklist/whiteout refuted |
| C45 | writer return code and log | exact for an accepting writer; wrap-around and unwritten file refuted |
| C46, C47 | Python sequence reads | equality with Python's rules for int indices and positive steps; refuted beyond |
| C48-C50 | Python sequence writes | exact results; refuted for negative indices, steps, empty selections, all slice deletions |
| C51 | unique ids | invariant over histories; insert and slices with duplicates refuted |
| C52 | append, insert, remove, iteration | equality with Python's rules |
| C53 | sums of Python lists | exact result for all lists; union for lists without repeated ids |
| C54 | crc32 | refinement to polynomial remainder over GF(2) |
| C55 | hashes | equal objects render equally; refuted for basearchonly |
| C56 | comparison operators | exact answers |
| C57, C58 | attributes, constructors | history semantics: last accepted assignment |
| C59 | `packages_match` | filter specification |
| C60 | `StrDict` history | bindings of a history, radix tree facts; every history read off the table machine of C05 |
| C61 | `StrDict` copy, update, comparison | same; update of any two as sets on that table |
| C62 | `MDict` assignment | exact effect of unset and set on the multi tree |
| C63 | `MDict` deletion, self-assignment, update, comparison | same |
| C64 | `MDict` lists, text, copy, clear, length | enumeration of the tree |
| C65 | attributes and the document | heap of parts, status of an attribute over histories |
| C66 | assignment to attributes | the same invariant |
| C67 | loading | the parser of C29-C33 behind `replace_doc` |
| C68 | options | tables of option names |
| C69 | saving, log | the writer of C27, C40 behind `save_file` |
| C70 | independence of documents | separation of locations over histories |
| C71 | validate, `==`, `+` | C18, C25, C37 behind `view` |
| C72 | attributes as Python attributes | counted memory simulates `PyAttrSpec`; what is remembered equals the field |
| C73 | no use of freed memory | counter = references from variables, cells and lost ones; order of destruction by rank |
| C74 | references given back | the same account at the end of a program |
| C75 | both dictionaries agree | erasing NULL releases, step by step; attributes of an element as a history of sets; lost attribute values by the table machine of C77 |
| C76 | nothing released twice | entries + released + lost = given, as multisets |
| C77 | everything released | the same with nothing lost, while no stored path ends at a proper prefix of another; otherwise the lost values are those of the rows the table machine drops |
| C78 | set with a length | induction over the descent, comparing the two key copies; the key used told by the table |
| C79 | unions of plain dictionaries | breadth-first list of sets (C05) with the account of C76 |
| C80 | clear | dangling first item as a separate state |
| C81, C82 | callback radix tree `set`/`get` | every node's path is a prefix of a key set, and every key set has a node; refinement to a map with the account of C76 |
| C83 | its `unset` | induction over the descent along first subnodes |
| C84 | its listings | breadth-first list of C09 |
| C85 | its clone | equal to the clone of C08 if the cloner accepts NULL |
| C86 | saved bytes are read back | simulation of the printer by the reader, byte by byte, with block ends anywhere |
| C87, C88 | round trips through bytes | C28 with the pieces of each text computed from the cuts |
| C89 | plain multi-dictionary `get` | simulation by a table from keys to lists, in which prefixes alone decide forks; the table law is then a map law while nothing forks. The same simulation gives `C12_run_exact` |
| C90 | its listings, clone, union | breadth-first lists are permutations of the table |
| C91 | its release of values | account over the table: stored, destroyed, lost |

## Trusted base

* Coq 8.16.1's kernel and its conversion (including `vm_compute`).
* `Print Assumptions` is run after every property theorem in `Properties*.v`;
  every one prints "Closed under the global context": no axioms, neither of this
  development nor of the standard library. (Checkers that list the axioms of all
  loaded libraries show `Under_rel` of `Coq.ssr.ssrunder`, which the standard
  library loads and no theorem here uses.)
* The reading of the C code embodied in the model files. The code was read, not
  compiled or run.

### Modelled

Each definition cites its lines. In short: `comps_hslist.c`, `comps_set.c`,
`comps_objradix.c`, `comps_objdict.c`, `comps_objmradix.c`, `comps_objlist.c`
(list operations, comparison, rendering), `comps_docpackage.c`,
`comps_docgroupid.c`, `comps_docgroup.c`, `comps_doccategory.c`, `comps_docenv.c`,
`comps_doc.c`, `comps_validate.c` with all rule tables, `comps_log.c`,
`comps_parse.c` and `comps_elem.c` (handlers, tables, parse_file, parse_str),
`comps_mm.c` with the life cycle in `comps_obj.c`,
`comps_utils.c` (architecture attribute, digit counts, XML helpers), `comps_obj.c`
(numbers and strings), the `*_xml` functions with `comps2xml_f` and
`comps2xml_str`; of the Python bindings `pycomps_sequence.c`,
`crc32.c`, `pycomps_hash.c` and the objects' constructors, scalar attributes,
comparison, hash, sums, validation, texts and `packages_match`, `pycomps_dict.c`, `pycomps_mdict.c`,
`pycomps.c`, and the attribute functions of `pycomps_utils.c`. Of `comps_radix.c`:
creation, set, set_n, get, unset, clear, destroy, clone, unite, union (as `comps_objradix.c`). `comps_bradix.c`,
`comps_mradix.c`.

### Not modelled

* Memory allocation failure, integer wrap-around of lengths and of `int` sizes.
* CPython: `slice_indices` (`PySeqModel.v`) is the documented behaviour of
  `PySlice_GetIndicesEx`; conversions of Python objects to items are an input of the
  model. In `pycomps_sequence.c` the model leaves out reference counts and wrapper
  objects. Seen there and not modelled: `iter()` of an iterator treats the iterator
  as a sequence (both types use `PyCOMPSSeq_getiter`); an iterator keeps a raw item pointer, so removing
  that item while iterating is a use after free; `list_concat` and `list_repeat` are
  installed in no type. In `PyObjModel.v` a Python text is its UTF-8 bytes (or
  not encodable), `PyLong_AsLong` gives a 64-bit long or raises, a long becomes an
  int by keeping its low 32 bits, and `s` arguments refuse texts with NUL. Sums of
  lists share the second list's objects; the model has values. In `PyDictModel.v`
  decoding is real UTF-8 (RFC 3629); an `MDict` value read into a `StrSeq` shares the
  stored list, which is modelled only for assigning it back to its key.
  In `PyDocModel.v` an object inside a list is a value; wrappers, documents and the
  lists they share are locations. The text of a log entry is a parameter there.
  In `PyAttrModel.v` the content of a list or dictionary is an abstract value; the
  elements' own counters, the `properties` dictionary and scalar fields are left out;
  `PAgain` stands for reading the same object again from a list that holds it (the
  list itself is not a cell there). CPython's collector is not modelled: these types
  do not take part in it, and cells cannot form cycles (`rank`).
  In `OwnModel.v` a value is an abstract token; the same token given twice counts
  twice. Lengths beyond the key's end given to `set_n` are UB there. The listings of
  `comps_radix.c` (keys, values, pairs) are not modelled separately.
  In `PyItemModel.v` the decoding of `PyUnicode_FromFormat` and the address printed by
  `%p` are parameters; seen there and not modelled: `PyCOMPSSeq_str` does not free the text it
  decodes, and `comps_gid_from_str` loses its object when the conversion fails.
* The rest of the Python bindings, tests and tools.
* In `ObjMemModel.v` the nodes of lists, radix trees and sets are not cells, a dictionary is its entries in
  order of insertion, and integer members, log entries and `lang` are left out. Comparing objects other than
  strings and numbers reads them and answers anything; so does matching a pattern. The claims C99 to C103 are
  about memory only; what the functions compute is in `ObjModel.v` and `DocModel.v`.
* In `MDictModel.v` a destructor that is given one of the lists made by a fork is UB. (Plain `free`
  would lose the values in it.) `comps_mrtree_set_n` is modelled with the length of the key only; seen
  there: with a shorter length new nodes still take the whole key.
* In `BRadixModel.v` the key callbacks are fixed to those of the only client. `unset` takes
  `strlen` of the key: it is modelled for keys that are C strings (for the client's `struct _key`
  it would measure the bytes of a pointer). The memory of the keys is not modelled; seen there: the list made by
  `comps_brtree_keys` frees its keys with `free`, not with `key_destroy`, and
  `comps_brtree_values_walk` does not free its work items.
* expat: the parser model takes the sequence of callbacks as input, for any
  sequence (nesting is a hypothesis where it is needed). The document under
  construction is owned by the parser alone. The flag `strict` of the model says
  whether reading past the unterminated attribute tables of `comps_elem.c` counts
  as UB (`true`) or as finding a terminator (`false`).
* libxml2's text writer: the model of saving produces the sequence of calls made
  to it. Whether a call succeeds is decided by an oracle that sees all earlier
  calls. For reading back, the relation `heard` (`SpecG2.v`) says which events
  expat may report for accepted calls: the same elements and attributes, white
  space anywhere, texts in pieces none of which is white space only. The last is
  an assumption about where expat cuts: it does cut at line breaks and entities, so
  it fails for texts with line breaks (`C28_line_break_refuted`). `heard_any`
  (`SpecG7.v`) drops it; for texts without white space both agree
  (`C28_any_pieces`). C86 to C88 remove both assumptions for documents in UTF-8,
  down to the bytes: `TextModel.v` states the documented behaviour of the libraries.
  Printing: a tree built by the calls, `xmlSaveFormat...` with format 1 (indentation
  two spaces, up to libxml2's limit of depth, which no libcomps document reaches),
  escapes `&lt; &gt; &amp; &#13;` in texts and `&quot; &#9; &#10; &#13;` besides in
  attributes. Reading: the part of XML 1.0 that such files use; comments, CDATA,
  a raw CR, white space around `=`, an internal subset, references other
  than the five entities and decimal numbers, and any encoding but UTF-8 are not in the
  reader, which answers `None` for them (that is not a claim about expat); processing
  instructions are skipped. Character data is reported up to each special character
  and each end of a block; an incomplete character and a trailing `]` or `]]` are kept for the next
  block. Versions of expat that put off parsing report fewer cuts, which
  `C86_bytes` covers (any blocks); the refutation of C88 is for one that parses each
  block when it gets it.
* Reference counting (`RefcModel.v`) is a model of its own: memory with counters,
  leaves and object lists. The other models use values, not memory, so they do not
  say when an object is freed. Addresses are not reused, counters do not wrap.
* Pointer identity of shared objects, except where a function compares or frees
  pointers (tags in `ObjListModel.v`, the duplicate check, `RefcModel.v`).
* The insides of libxml2, expat, fnmatch and the C library; see the conventions.

## Findings (properties false of the code, with a proved witness)

| theorem | what goes wrong |
|---|---|
| `C01_insert_before_refuted` | `insert_before` the second element of an object list puts the new one first; before the first element it runs off the list |
| `C02_*_refuted` | end handling of sublists, `get_it` |
| `C04_*_refuted` | `comps_hslist_prepend` on an empty list leaves `last` NULL; later appends lose elements |
| `C05_*_refuted` | setting "abc", "x", "ab" in a radix tree loses "x" |
| `C06_*_refuted` | unsetting "a" destroys "ab"; null dereference on some trees |
| `C08_*_refuted`, `C11_*_refuted` | stored element count wrong after copy, unset and overwrite |
| `C12_*`, `C13_*`, `C41_*_refuted` | multi dictionary nests value lists, compares values with itself, frees a node still linked |
| `C16_env_intersect_refuted` | environment intersection drops repeated members |
| `C18_no_encoding_refuted`, `C18_parts_dropped` | NULL encoding is dereferenced; union drops blacklist and whiteout |
| `C22_get_groups_refuted` | group query by description ignores that a language was asked for |
| `C23_lang_refuted`, `C23_doctype_ids_refuted` | lang setter loses other parts; doctype id setters overwrite the name |
| `C26_pkg_cmp_refuted` | package comparison ignores architectures and basearchonly |
| `C44_values_ignored_refuted` | document comparison ignores blacklist and whiteout values |
| `C35_negative_refuted`, `C39_negative_refuted` | rendering a negative number takes its log10 |
| `C35_duplicate_message_refuted` | message buffer one byte short from position 10^9 on |
| `C36_any_name_refuted` | architecture names with separators or empty do not survive saving |
| `C37_null_id_refuted`, `C37_member_names_refuted` | an id without text passes validation; members are never validated |
| `C30_inside_text_refuted` | an unknown element inside a text makes the text before it disappear |
| `C30_inner_comps_refuted` | a `comps` element inside an unknown element resets the whole document |
| `C31_white_space_refuted` | a character chunk of white space only (also a line break) is dropped, so texts depend on how expat cuts them |
| `C32_refuted` | eight well-formed files with undefined behaviour: inner `comps`, missing key attributes, empty or blank `uservisible`, `biarchonly`, `display_order`, numbers outside `int` |
| `C32_attribute_table_refuted` | the attribute tables of `name` and `description` (`comps_elem.c:60,70`) have no terminator and are read past their end |
| `C32_reuse_refuted` | reusing a parser after a failed parse frees or writes a freed document |
| `C33_str_again_refuted` | `comps_parse_str` resets neither log nor fatal flag: an old error spoils a good text |
| `C33_stale_length_refuted` | `text_buffer_len` survives re-initialisation |
| `C27_return_code_refuted` | results of writing a package or property are dropped: a failing call gives unbalanced XML and code 0 |
| `C27_negative_refuted` | a negative display order makes saving undefined |
| `C45_wrap_refuted` | the code is a signed character: 256 objects left out give 0 (success), 255 give -1 |
| `C45_unwritten_refuted` | the code is the same when the file could not be written |
| `C28_line_break_refuted` | a line break in a name is lost by saving and loading, without a message (expat reports it as a piece of its own) |
| `C28_copied_dictionary_refuted` | copied langpacks count 0 entries and are not written |
| `C28_blacklist_refuted` | two blacklisted names with a common prefix: an architecture is written as `[x]` |
| `C28_basearchonly_refuted` | basearchonly 0 written explicitly is written as `true` and read back as 1 |
| `C34_set_self_refuted` | `comps_objlist_set` destroys the old element before counting the new one: replacing an element by itself uses freed memory when the list keeps the only reference |
| `C34_cycle_refuted` | a list that contains itself is never freed; copying it recurses for ever |
| `C46_large_refuted` | an index from Python is cut to 32 bits: `seq[2**32]` is `seq[0]` |
| `C46_by_id_refuted` | looking up an id in a list of group ids or strings reads the reference counter as a pointer |
| `C47_reverse_refuted`, `C47_big_step` | `seq[::-1]` repeats the last item; a step above INT_MAX overflows an int |
| `C48_negative_refuted` | `seq[-1] = x` and `del seq[-1]` do nothing and report success |
| `C48_same_id_refuted`, `C48_packages_refuted` | an item cannot be replaced by one with its own id; assigning a package to an index uses its name as a dictionary |
| `C49_*_refuted` | `l[1:1] = [d]` overwrites instead of inserting; `l[2:-1] = []` deletes an item not selected; steps from 2 on are always refused; a reversed assignment writes one item |
| `C50_delete_refuted`, `C50_beyond_refuted` | no slice deletion removes anything: use after free, or a NULL item stays |
| `C51_insert_refuted`, `C51_slice_refuted` | `insert` and slice assignment can give two items one id |
| `C52_remove_text_refuted`, `C52_iter_refuted` | a string is never found by `remove`; a NULL item hides the rest from iteration |
| `C53_repeated_refuted` | `l1 + l2` ignores a second object with a matching id and appends all duplicates of a new id |
| `C55_equal_hash_refuted` | packages and groups that differ in basearchonly only are equal but hash differently |
| `C56_gid_text_refuted` | a default group id is unequal to its own name; comparing with bytes answers with an exception pending |
| `C57_attributes_refuted` | None does not reset a text; deleting a number or flag dereferences NULL; integers are cut to 32 bits, beyond a long stored as -1 with an exception pending |
| `C57_package_attributes_refuted` | type None makes a package optional; name None reads `''` |
| `C58_constructors_refuted` | display_order 0 of a group, -1 of others is dropped; a package made without requires differs from a parsed one |
| `C59_match_refuted` | `packages_match` without a type finds nothing |
| `C60_history_refuted` | `StrDict`: keys `de`, `pt_BR`, `pt` in this order lose `de`; `del` dereferences NULL; key `''` is ignored; key None raises SystemError; undecodable bytes make `items()` undefined |
| `C61_copy_len_refuted`, `C61_update_refuted` | the copy of a `StrDict` has length 0; update can lose keys |
| `C61_compare_refuted` | `<` on dictionaries returns a value with an exception set |
| `C62_assign_refuted` | `MDict`: adding `abd` nests the values of `abc`; assigning twice to the only key that extends another is a use after free |
| `C63_refuted` | `MDict`: a deleted key stays if others extend it, `d[k] = d[k]` then empties it; update appends; equality ignores values; `d.update(d)` never ends |
| `C64_copy_clear_refuted`, `C64_len_refuted`, `C64_get_refuted`, `C64_text_defined`, `C64_lists_partial` | `MDict`: `copy`, `clear`, `values` undefined unless empty, `str` undefined if empty; `len` counts neither keys nor values; `get` raises |
| `C65_detached_refuted`, `C65_clear_refuted` | `Comps.clear()` leaves the cached attributes: they show the old contents, and what is added to them is never saved |
| `C66_delete_refuted` | `del c.groups` dereferences NULL |
| `C67_file_refuted`, `C67_emptied_refuted` | `fromxml_f` of an unreadable text raises and still replaces the document; `fromxml_str` does not |
| `C68_xml_default_refuted` | `xml_default()` says True for every option (it tests an address), has keys that are no options and lacks `arch_output` |
| `C68_pkgtype_refuted` | a `default_pkgtype` that is no int is noticed after the work is done: SystemError |
| `C69_messages_refuted`, `C69_unwritten_refuted` | 255 objects left out by `toxml_f`: SystemError; a file that cannot be written: no exception |
| `C70_shared_refuted` | `a.groups = b.groups` makes both documents share the list |
| `C71_compare_foreign_refuted`, `C71_add_refuted` | `c == 1` and `1 + c` read the other operand as a document |
| `C72_refuted` | two Python objects for one group (read twice from a list) each keep the `name_by_lang` they assigned: one shows an outdated dictionary |
| `C72_clear_refuted` | after `Comps.clear()` an attribute read before still shows the old list |
| `C73_refuted` | `del comps.groups` dereferences NULL (`pycomps.c:450`) |
| `C74_refuted` | every assignment of a list to `packages`, `group_ids` or `option_ids` leaks the assigned list object (`pycomps_utils.c:225` stores the old pointer back) |
| `C74_langpacks_refuted` | `langpacks`, `blacklist` and `whiteout` of a Comps object, once read, are never released (`pycomps.c:809-816`) |
| `C75_attributes_refuted`, `C77_refuted` | a value that sits behind a node split by a shorter key is cut off and never freed, also the attributes of an XML element (`arches`, `lang`, `arch`) |
| `C76_refuted` | a `COMPS_RTree` made without destructor crashes when a key is set twice (`comps_radix.c:240` calls NULL) |
| `C77_empty_key_refuted` | a value set under the empty key is neither stored nor freed |
| `C78_plain_refuted`, `C78_objects_refuted` | `set_n` stores under the whole key when it makes a new node (`comps_radix.c:223`) or splits one (277-280, `comps_objradix.c:427-431`) |
| (reading) | `comps_objrtree_set_n` takes the caller's reference and `set_nx` adds one, the reverse of `set` and `set_x` |
| `C79_null_cloner_refuted` | clone, unite and union call a NULL cloner |
| `C80_refuted` | `comps_rtree_clear` keeps pointers to freed items: any later use, and destroying the tree, reads freed memory |
| `C81_refuted`, `C81_crash_refuted`, `C84_refuted` | `comps_brtree_set`: "abcd" then "a" turns "abcd" into "abc"; then "abc" copies from outside the key; "ab" then "a" lists "a" twice (`comps_bradix.c:287` mixes offset and end) |
| `C82_refuted`, `C82_clear` | replacing a value without destructor calls NULL (275); clear keeps pointers to freed items (483-500) |
| `C83_refuted`, `C83_crash_refuted` | `comps_brtree_unset` takes the first subnode whatever its first byte (414): unset "xbcd" removes "abcd"; removing the only node below its parent uses freed memory |
| `C85_refuted` | `comps_brtree_clone` calls the cloner with NULL for a node next to the root without a value (170) |
| `C87_space_refuted` | the space in "< >" is lost by saving and loading, without a message |
| `C88_block_boundary_refuted` | "R & D" is loaded as "R &D" from a file in which the space after `&amp;` is byte 1024 (`comps_parse.c:218-237`), and as "R & D" from the same bytes in a string |
| `C89_get_refuted`, `C90_fork_refuted`, `C91_fork_refuted` | `comps_mrtree_set` of "abd" after "abc" puts the values of "abc" into a list within a list and makes a node "ab" with a NULL list (`comps_mradix.c:386-413`): a value set under "ab" is lost, and keys, walk, clone, unite and destroy are undefined |
| `C89_unset_refuted` | removing the only key that extends another uses freed memory |
| `C90_no_cloner_refuted` | a tree without cloner calls NULL when cloned |
| `C91_clear_refuted` | `comps_mrtree_clear` keeps pointers to freed items |
| `C93_blacklist_refuted` | a blacklist with the keys "abc" and "abd": the value "1" is loaded as "[1]", then "[[1]]", one pair of brackets more per save and load |
| `C93_arches_refuted` | architectures without a word are loaded as an empty list (`arch=""`), which the next save leaves out: the documents compare different |
| `C94_object_refuted` | a category or environment left out of a save is reported as "Group with id ... has no packages" (comps_doccategory.c:228, comps_docenv.c:312; the messages made for them are never used) |
| `C95_equal_refuted` | a group with id, name and description only, saved by xml_str and loaded with answer 0, makes a Comps object that is != the saved one: the booleans that were never set are set after loading (comps_docgroup.c, comps_elem.c) |
| `C96_assign_refuted`, `C96_slice_refuted` | `groups[0] = Group()` and `groups[:] = other` store objects that append refuses: list_setitem_id_unique and list_set_slice do not call the pre_checker (pycomps_sequence.c:164-192, 332-378) |
| `C97_gid_str_refuted` | str() of a GroupId is `<COMPS_DocGroupId name='a' default='True'>`, not the name as for the other objects (pycomps_gids.c:126-133) |
| `C98_groups_refuted` | groups_match(desc=…, lang=…) also finds groups by the untranslated description (comps_doc.c:468-523) |
| `C99_document_copy_refuted` | releasing a copy of a document uses an unwritten pointer: comps_doc_copy does not set `log` (comps_doc.c:49-55) |
| `C99_multi_copy_refuted` | copying a blacklist or whiteout uses unwritten memory (comps_objmradix.c:119-170) |
| `C99_own_list_refuted`, `C99_own_doctype_refuted` | setting the list an object already has, or the doctype name a document already has, destroys it before counting it: use after free |
| `C101_union_refuted` | the union of two groups leaks a copy for every further package of one name: the set refuses it after it was counted (comps_docgroup.c:190-195; same in comps_doccategory.c:143-147, comps_docenv.c:172-176) |
| `C101_document_union_refuted` | comps_doc_union leaks copies of objects of one id: comps_set_add refuses them (comps_doc.c:301-384) |
| `C101_packages_refuted` | comps_docgroup_get_packages(NULL, …) loses the name object it made (comps_docgroup.c:105-106) |
| `C103_first_refuted`, `C103_packages_refuted` | adding Python lists leaks a copy for every further object of one id (packages: of one name) in the first list: the set refuses it after it was created (pycomps_groups.c:395-399, 588-592; same in pycomps_categories.c:322-326, pycomps_envs.c:342-346) |
| `C103_second_refuted` | adding Python lists leaks a union for every further object of one id in the second list: the matched object is no longer in the result, its index is -1 and comps_objlist_insert_at_x refuses it (pycomps_groups.c:401-407) |
| `C103_own_refuted` | the sum of two Python lists holds objects of the second operand themselves (those of the first are copied): what is changed in the sum changes in the operand (pycomps_groups.c:410) |
| `C104_no_destructor` | comps_hslist_unique calls a NULL destructor at the first repeat of a list created without one (comps_hslist.c:300) |
| `C104_same_address_refuted` | comps_hslist_unique destroys data whose address is in the list twice and keeps them in the list; the next comparison reads them (comps_hslist.c:297-300) |
| `C105_repeat_empty_refuted` | list_repeat of an empty sequence reads `end->next` of a NULL `end` (pycomps_sequence.c:229-232); the function is not installed in a type |
| `C106_remove_refuted` | a Python iterator of a sequence keeps a pointer to the next list node: removing that item or clearing the list during a loop makes the next step read freed memory (pycomps_sequence.c:593-597) |
| `C106_append_refuted` | an item appended in the last round of a loop over a sequence is not visited (pycomps_sequence.c:597) |
| `C107_changed_refuted` | iterators of `values()` and `items()` of a Python dictionary hold uncounted addresses and no reference to the dictionary: changing an entry or dropping the dictionary during a loop makes the next step read freed memory (pycomps_dict.c:328-346, comps_objradix.c:657, 661) |
| `C108_refuted` | comparing a Python sequence with None or any object that is not a sequence reads that object as a sequence, and comparing sequences of different types casts their objects to the wrong type (pycomps_sequence.c:568-569, comps_obj.c:53-54) |
| `C109_leak_refuted` | item assignment to a Python sequence takes a second reference in comps_objlist_set and never gives back the converted one, also when it ends in IndexError or the index is negative (pycomps_sequence.c:120-130, 177-189, comps_objlist.c:443-444); remove never gives back the converted one (pycomps_sequence.c:513-528) |
