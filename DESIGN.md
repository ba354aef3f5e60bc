# Model of pyangbind in Rocq: design

Source modelled: `/repo/pyangbind` (read as text, never executed).  Prover: Coq 8.16.1,
standard library only.

## Trusted base

* Coq's kernel (no kernel check is switched off; no axioms are added; no plugin).
* What `Print Assumptions` lists for each theorem (printed under every theorem in the
  `Props_*.v` files): "Closed under the global context" for all of them unless a line in the
  section "Axioms" below says otherwise.
* The faithfulness of the model: each definition cites the file and lines it transcribes
  and lists its simplifications.

### Axioms

None.  (`coqchk` additionally reports constants of `Coq.ssr.ssrunder.Under_rel` that
stdlib tactics files pull in; no theorem depends on them: they appear in no
`Print Assumptions`.)

## Ground rules of the model

* Python strings are lists of code points (`str := list N`), Python values are the
  inductive type `pyval` (None, bool, int, float as a dyadic rational, str, bytes, Decimal as
  coefficient/exponent, list, dict).
* Exceptions are values: `res A := Ok a | Raise e`.  Where an operation has effects before
  it raises, the model returns the new state next to the outcome.
* Regular expression matching (`regex.match`) and `repr` of exotic objects are
  parameters of the model (record `oracle`), so theorems hold for every engine,
  except in the pattern-anchoring part, which has its own small regex semantics.
* Python objects with parent pointers are modelled as a tree addressed by paths from the
  root; a stale reference to a detached subtree is not modelled.
* Loops that may not terminate in Python are modelled with explicit fuel and an explicit
  out-of-fuel result, and termination is a theorem.

## What is modelled and what is not

Modelled (the definitions cite the lines):

* `lib/yangtypes.py`: `safe_name`, `RestrictedPrecisionDecimalType`, `RestrictedClassType`, `TypedListType`,
  `YANGListType`, `YANGBool`, `YANGDynClass` (construction, `_set`, `_changed`, `_present`, choices, `_unset`,
  `default`), `ReferenceType` (`__new__` with its checks), `YANGBinary`, `YANGBitsType`.
* `lib/base.py`: `get`.
* `lib/serialise.py`: both JSON encoders and decoders, XML encoder and decoder.
* `lib/pybindJSON.py`: `remove_path`, `dumps` with its options; `loads`, `loads_ietf`.
* `lib/xpathhelper.py`: `YANGPathHelper` on its own (`register`, `unregister`, `get`, `get_unique`, `get_list`, the root object, the path parser), and the calls that
  a data tree makes to it (`RegTree.v`; there without types, choices and loading).
* the paths of objects and the attachment of `extmethods` (`Paths.v`);
* annotations in IETF JSON documents (`Annotate.v`);
* the files, imports and class names of `--split-class-dir` (`Split.v`);
* the classes of the single output file, which refer to one another by name, with those for submodules, RPCs and notifications, and the objects
  they make (`File.v`);
* the values of defaults: the text that the plugin writes for them as Python reads it (`Defaults.v`);
* the extensions stored with the objects (`Extensions.v`);
* the docstrings of classes, getters and setters as Python reads them (`Docs.v`);
* several modules with one path helper, and the object that a document is loaded into (`Modules.v`);
* the XML documents of containers and entries on their own, and the namespaces of the classes (`Parts.v`);
* the literals in single quotes in the generated code (`Literals.v`);
* the literals of lists and references in the generated code (`ListLiterals.v`);
* bits leaves as Python sets (`BitsSets.v`);
* the statement `+=` on leaf-lists (`AddAssign.v`);
* which attributes of generated objects can be read and assigned, `__getitem__` and `__iter__` (`Assign.v`); the other files
  look nodes up by name and so take for granted that no node below the top is called `append` or `extend` (C79);
* `helpers/misc.py` `find_definitions`, `helpers/identity.py`, `plugin/pybind.py`: the search for modules in `build_pybind`, `build_identities`, `build_typedefs`, `build_elemtype`, the naming, choice,
  config and default logic of `get_children` / `get_element`.

Not modelled: pyang itself (the statements it hands over are the input), the text of the generated Python code (the
schema is what it denotes) except for that of docstrings (`Docs.v`) and defaults (`Defaults.v`; there underscores in floats and names of characters are not read), the files of `--split-class-dir` beyond names and imports, RPCs and notifications beyond the attributes of their classes, metadata in other formats, lxml and `json` below the
level of trees, `regex` outside the plain fragment, floats beyond dyadic rationals, non-ASCII white space and digits in
`int()` and `split()`, references to detached subtrees, threads.

## Files

| file | content |
|------|---------|
| `PyStr.v`, `PyVal.v` | Python strings, values, `int()`, `str()`, comparison |
| `SafeName.v` | `safe_name`, class names |
| `Restricted.v` | `RestrictedClassType`, `YANGDynClass` construction protocol, bool, binary, decimal, unions |
| `Regex.v` | the reading and matching of regular expressions by the `regex` library, on its plain fragment |
| `IntTypes.v`, `StrTypes.v` | the integer / string / enumeration / binary types the compiler builds |
| `Enum.v`, `Bits.v`, `Base64.v` | enumeration numbers, bits objects, base64 |
| `Types_main.v` | final forms of the scalar-type lemmas and the counterexamples |
| `TypedList.v`, `MemberTypes.v`, `YList.v` | leaf-list and list; `YList.v` is generic in the entries, `entry_*` sees entries through their key leaves |
| `Tree.v` | schema, object tree, set / unset / notify / choice / get / copy |
| `Compile.v` | data definition statements to the schema of `Tree.v`: names, choices, config, presence |
| `Serialise.v` | default and IETF JSON encoders and decoders |
| `Xml.v` | XML encoder and decoder over trees of elements |
| `PathHelper.v` | `YANGPathHelper` |
| `RegTree.v` | a data tree whose objects register with a path helper |
| `RegRef.v` | leafrefs and `get_unique` on such a tree |
| `RegRoot.v` | `get_list` and the root object of the path helper |
| `Paths.v` | `_path`, `_yang_path`, `remove_path_attributes`, `extmethods` |
| `Split.v` | directories, imports and uses of `get_children` with `--split-class-dir` |
| `Annotate.v` | the IETF decoder once more, with `_metadata` |
| `File.v` | the classes of the generated file by name, and the objects made from them |
| `Assign.v` | attribute lookup and assignment, indexing and iteration of generated objects |
| `Defaults.v` | the values of defaults: Python's literals, the conversion to the base type, `default()` |
| `Extensions.v` | the extensions stored with the objects |
| `Docs.v` | docstrings: Python's long string literals, the texts of getter, setter and class |
| `Modules.v` | programs that construct, load and change objects of several modules with one path helper |
| `Parts.v` | the namespace in the classes of a module (pybind.py:864-869), and encode() for a container, an entry, a module |
| `Literals.v` | names, namespaces and types in the text of the generated code (pybind.py:862-869, 1000-1003), and how Python reads literals in single quotes (backslashes are not read) |
| `ListLiterals.v` | keys of lists, paths of references and their names in the text of the generated code (pybind.py:907-914, 940-944, 951-958, 1541-1546), and how Python reads literals in either quote (escapes, long strings and adjacent literals give no result) |
| `BitsSets.v` | the methods of a bits leaf that change the set, its own and those inherited from set, with the flags (yangtypes.py:1010-1213, 1378-1445), and the statements `\|=`, `&=`, `-=`, `^=`, which also call the setter (pybind.py:1137-1151) |
| `AddAssign.v` | `x.l += values`: extend in place, then the setter with the leaf-list itself (yangtypes.py:414-427, pybind.py:1137-1151); the leaf-list as a value is `VList` |
| `Options.v` | `remove_path`, `lookup_subdict`, the loops of `dumps` |
| `Identity.v` | `IdentityStore`, `build_identities` |
| `Typedefs.v` | `build_typedefs`, `build_elemtype`, the type and the default of a leaf in `get_element` |
| `Collect.v` | `find_definitions`, the modules and prefixes of `build_pybind` |
| `Spec_*.v` | independent specifications |
| `*_proofs.v` | lemmas |
| `Props_*.v` | the property theorems, each closed by `exact`, with `Print Assumptions` |

## Per property

Statuses: *full* = planned as a full theorem; *boundary* = the statement as written is
false of the code; a `_refuted` theorem gives the witness and a `_partial` theorem proves the
strongest guarded form.

| id | modelled | how |
|----|----------|-----|
| C01 | `safe_name` on strings | direct; collision characterisation as iff. full |
| C02 | `safe_name` + RFC identifier grammar + Python keyword list | boundary (keywords missing from the list) |
| C03 | key string handling in `get_element` | boundary (reserved names in composite keys; separators other than one blank) |
| C04 | class name construction | boundary |
| C05 | range parsing and tests in `RestrictedClass.__new__/__init__`, setter | iff against an interval-set spec, induction on parts. full |
| C06 | `class_map` entries through the same model | corollary of C05 plus `int(str(z)) = z`. full |
| C07 | float rounding of an integer to 53 bits | boundary (2^53); for all numbers against nearest double, ties to even (Spec_SingleValues.v), unique |
| C08 | nested restricted classes | boundary (single level full; nested refuted) |
| C09 | `convert_regexp`, the library's reading of the text (`Regex.v`), `match_pattern_check` in the leaf | boundary (top-level alternation, trailing newline, `^`, `$`); YANG patterns as a grammar with text and language (`Spec_Regex.v`); lexer, parser and matcher recover it, by mutual induction |
| C10 | `YANGDynClass.__new__/__init__` fallbacks | boundary (None, list to an int leaf) |
| C11 | setter in the tree | boundary |
| C12 | enum value loop | full, fuel-free termination by pigeonhole |
| C13 | same | boundary; invariant of the loop: the counter has as many free numbers below it as names were passed (`EnumNumbers_proofs.v`) |
| C14 | `YANGBits` | boundary (string positions); the order of texts of digits is that of decimals 0.p (`Spec_BitsOrder.v`) |
| C15 | `YANGBool` | full |
| C16 | base64 both ways | full, induction on 3-byte groups |
| C17 | restricted binary | boundary |
| C18 | `quantize` | full within the 28-digit context |
| C19 | union loop | full |
| C20 | `TypedList` operations | invariant over operation sequences; boundary (False into a typedef chain) |
| C21 | same | boundary |
| C22 | same, against a list spec | refinement. full |
| C23 | `YANGList` | refinement to an ordered map. full |
| C24 | same | boundary (mixed key spellings) |
| C25 | `_generate_key` | boundary (spaces) |
| C26 | keyless lists, uuid source as a stream of distinct keys | full |
| C27–C31, C33, C34 | `Tree.v` | induction on paths / trees / histories; C29 and C31 full, the others boundary |
| C32 | config inheritance in `get_children` | boundary (choice-level config) |
| C35 | `dumps`, `loads` (default format) | boundary; simulation of the decoder on the encoder's output, schema induction, over [storable] trees; with choices: what a load notifies finds every rival still as new |
| C36 | `dumps(mode="ietf")`, `loads_ietf` | boundary; same scheme as C35, with keys as they stand in the document |
| C37 | `preprocess_element`, the ordering pass of `load_json` | documents that differ by a permutation of ordered entries load alike |
| C38 | `generate_ietf_tree`, `yname_ns_func` | full; relation between tree and document |
| C39, C40 | `IETFYangDataSerialiser` | boundary; same relation with a predicate on scalars |
| C41 | `load_json`, `load_ietf_json` with and without `skip_unknown` | boundary; equality of runs on the cleaned document |
| C42 | `load_json` with `overwrite` | boundary; frame lemma for loading, keys of the list step by step |
| C45 | `generate_ietf_tree` with `with_defaults` | boundary; place of a leaf in the document |
| C43, C44 | `remove_path`, `lookup_subdict`, the two loops of `dumps` (`Options.v`) | boundary; pruning relation between documents, composed over the paths; selection as a filtered list |
| C46 | `_path_parts` | boundary (brackets in quotes); state of the scanner as counts of quotes and last bracket |
| C47, C48 | `register`, `unregister`, `get` over the element tree | boundary; simulation of a map from places to objects over all call sequences |
| C49 | the same, any texts | boundary; invariant of the tree and the object library |
| C50 | `_tagname_attributes` | boundary (spaces, empty values, dots, "or"); printer of predicates, parser recovers them; conversely what the parser takes begins with a predicate (`Spec_Brackets`) |
| C51 | `ReferenceType.__new__` | boundary (single leaf that is no key) |
| C53, C54 | worklist of `IdentityStore`, its closure, the dictionary of values | store exact against an inductive derivation relation; ends iff grounded |
| C52 | `build_typedefs` with its worklist, the limit of 1000 attempts as a parameter (`Typedefs.v`) | boundary; references as a relation, groundedness as an inductive with depth; invariants of the worklist; for the refutation the exact state of the queue in every round |
| C59 | `build_identities` | boundary (texts that denote one identity) |
| C55 | the search for the default in `get_element`, 1570-1666 (`Typedefs.v`) | boundary; chain of typedefs as a relation; what the search sees is computed along the chain |
| C56 | `build_elemtype`, the typedef entries, the type of a leaf (`Typedefs.v`) | boundary; restrictions along the chain as a relation on type statements; composed with C08, C12, C18, C60 |
| C57 | XML element tree encoder/decoder (`Xml.v`) | boundary; scheme of C36, what lxml sees in a text as a function with a parameter for non-integers |
| C58 | float conversion of decimals | boundary (15 digits) |
| C60 | chains of restricted classes | boundary (three levels) |
| C61 | `TypedList.check` on a bits type | boundary (nothing is accepted) |
| C62, C63 | `pybindIETFXMLEncoder` | boundary; relation between tree and elements with a predicate on the elements of values |
| C64 | `load_xml` | boundary (elements inside leaves); every run over a document with an unknown element raises |
| C65 | registration and unregistration along construction, assignment and list operations (`RegTree.v`) | boundary (stale and missing registrations); invariant between tree and map of places, by induction on schemas, values and positions |
| C66 | `get`, `get_unique` (`PathHelper.v`, `RegRef.v`) | boundary (which places match, duplicates, unregistered callers); simulation of the element tree by a map of places, search as filter of its domain |
| C67 | `ReferencePathType` with `get` on the tree of `RegTree.v` (`RegRef.v`) | boundary (one target, leaf-lists, stale registrations); C66 in trees composed with the checks of C51 |
| C68 | `find_child_definitions`, the worklist of modules, `dedup` and merging in `build_pybind` (`Collect.v`) | boundary (choices, submodules of submodules); places of definitions and prefixes as inductive relations; ends iff imports are acyclic, by the cost of a module |
| C69 | the same composed with `build_typedefs` and `build_elemtype` | boundary (one name, two typedefs) |
| C70 | `load_json`, `load_ietf_json`, `load_xml` into an existing tree | full; series of operations by induction on the schema; what a document names as an inductive relation, one per format (`Spec_Loading.v`) |
| C71 | the same | boundary (refused documents are half loaded; nested choices); C70 with the frame of a single operation, and made-up keys differ from keys there |
| C72 | `Values_proofs`, `ValuesTypes_proofs`, `ValuesMain_proofs`; `Spec_Values` | boundary (blank values, text of a twice restricted string); every leaf that is set got its value out of an assignment, kept by each operation and so by each document (C70) |
| C73 | `Stored_proofs`, `StoredXml_proofs`; `Spec_Stored`, `Spec_StoredXml` | every operation of the program keeps the tree storable (C35, C36) whether accepted or refused: what an assignment leaves is the old value or one that survives, a new entry has its key leaves filled from its key, choices are cleared after each change; then the round trips of C35, C36 and C57 |
| C74 | `Paths`, `Paths_proofs`; `Spec_Paths` | boundary (keyless lists, quotes); a path read from the left: names have no "/" and no "[", a quote ends a value, so the steps come back |
| C75 | `Paths`, `Paths_proofs`; `Spec_Paths` | boundary (slots that shadow, "method"); the path without predicates is the schema path for any key text, then induction over the attributes offered |
| C76 | `Split`, `Split_proofs`; `Spec_Split` | boundary (reserved words, `a-b`/`a_b`, `a`/`a_`, `long`); induction over statements: every file is that of a node and starts with the directory of a child, so different children never meet |
| C77 | `Annotate`, `Annotate_proofs`; `Spec_Annotate` | boundary (leaf-lists, module); the load with annotations against the load without; a log of what happens to the annotations of objects against what the document says, by induction over the document |
| C78 | `File`, `File_proofs`; `Spec_File` | boundary (four kinds of clashes); by induction over the statements: looking the classes up by name gives the schema of `Compile.v`, and its attributes are those of the statements (`stmt_at`); injectivity of class names for alphanumeric node names in several modules |
| C79 | `Assign`, `Assign_proofs`; `Spec_Assign` (`stmt_at` of `Spec_File`) | boundary (names of methods; objects with a `__dict__`); attribute lookup along the path, from C78's correspondence of statements and attributes; `get()` by induction over the statements |
| C80 | `Assign`, `Assign_proofs`; `Spec_Assign` | indexing fails for all schemas; order of iteration by induction over the statements |
| C81 | `Defaults.v` on top of the search of C55; `Spec_Defaults` (texts of RFC 6020) | the base entry from C55; digits by induction; decimals by the error bound of the float, exactness by Gauss' lemma; strings with escape sequences piece by piece (`Spec_Escapes`, `Spec_DefaultEscapes`), every text split so |
| C82 | `parse_int`, `parse_dec` of `PyStr.v`/`PyVal.v` under `leaf_assign`; `Spec_Lexical` (grammars of RFC 6020 and of Python) | both directions of the grammars by induction over the characters |
| C83 | both JSON loaders of `Serialise.v`, `load_xml` of `Xml.v`; `Spec_Shape`, `Spec_ShapeXml` (what fits, mistakes) | by induction over schemas: every branch that does not raise was taken with a fitting part of the document; mistakes by induction over the path to them |
| C84 | `load_ietf` of `Serialise.v`, `yl_add`/`yl_add_kw` of `YList.v`; `Spec_Accept` (valid documents, what they say) | by induction over schemas, with the frame that members of other children and entries with other keys are untouched; keys by the uniqueness of the names |
| C85 | `build_elemtype`, `typedef_entry`, `absolute_default`, `last_default`, `first_default`, `ancestors` of `Typedefs.v`, `leaf_value` of `Defaults.v`; `Spec_Unions` (members of a union, types that lead to a built-in one) | by mutual induction over the union and its members; the breadth-first search over built-in parents in closed form |
| C86 | `Current.v` on top of `PathHelper.v` (`current_path`, `get_in`, `leafref_in`); `Spec_Current` (what an expression asks for, the one object there, the pattern that results) | the path of the expression is searched as in C66, then the pattern with the texts in place |
| C87 | `load`, `load_members`, `in_order` of `Serialise.v`; `Spec_AcceptJson` (valid documents, what they say) | as C84; the entries in their order are a permutation of the entries of the document; the members of a leaf-list by two loops, one that adds and one that removes |
| C88 | `load_xml`, `xml_entry`, `xml_member`, `xml_set` of `Xml.v`; `Spec_AcceptXml` (valid documents, what they say) | as C87; what one element says persists through the later ones: other child, other key, or a leaf-list that only grows |
| C89 | as C84, C87 and C88; `Spec_AcceptChoice` | the proofs of C84, C87 and C88 are over an interface (`AcceptBase_proofs.lawful`: what one operation at a node that the document is about leaves alone); without choices it holds for all paths, with choices for paths that are not rivals, by the frame of C34 |
| C90 | as C73 and C89; `Spec_Merge` (what a node of a tree holds) | by induction on the schema: what the encoder writes for a storable tree is a valid document (C84, C87, C88), says only what the tree has data for, and says all that the tree holds; then C89 |
| C91 | `RegRoot` (get_list, the FakeRoot) on the trees of `RegTree`; `Spec_RegRoot` (the children at a place, the object that a child is) | containers and entries have identities of their own in every session, so the object that the search returns is the one at the place; the root object: by induction on the session, every registration with one part replaces the attribute together with the child |
| C92 | leaves of `Restricted` with all `pyval`s; `Spec_Native` (the rational number that a value is, dropping the fraction) | boundary (falsy values, fallbacks after TypeError); truncation and decimal expansion of m*2^e as rationals, then C18 and the chains of C05 |
| C93 | `Restricted` over `TDecimal` and `TDecPrec`; `Spec_DecRange` (numbers with points as digits and as rationals, parts, chains of ranges) | uniqueness of the two points that part a range (no ".." inside a number); exactness of rounding to 53 bits for doubles; induction on the chain |
| C94 | statement trees with keywords of substatements (`Extensions.v`), the dictionary of `get_element`, the elements of classes, `_extensions()` by path | the dictionary after the loop by induction on the substatements; elements of the statements of a level have distinct names, so the object at a path is that of its statement |
| C95 | the texts of getters, setters and classes with their descriptions, and Python's reading of a long string literal (`Docs.v`) | the literal is read by induction on the length of its text; three quotes before its end would be three quotes of the description, as the text around it has none; with escape sequences (`Spec_Escapes.v`) it is read piece by piece, and every description is cut into pieces up to the first place where Python stops |
| C96 | the sequence of constructions and operations of all modules on one helper (`Modules.v`, on `RegTree.v`); the search for the path of a module, `/`, finds nothing in lxml (the document node is left out of results), so the object is always a new one | the invariant of C65 for the tree that each module has now, relative to the names of all modules; an operation or construction changes the helper only below the names of its own module; new objects by induction on the class |
| C97 | `encode` of `Xml.v` for the class of the part; `inside` and `part` are the spec | the elements of the children do not depend on who asks for them; induction over the depth of the part; in the IETF format only the name of a member depends on the namespace above it |
| C98 | the text of the arguments and class variables, and a reader of adjacent literals | a text without apostrophes, line ends and backslashes is read as it is; URIs and identifiers are such texts but for apostrophes |
| C99 | the texts of leaves and members in the encoder (`Xml.v`) | boundary (control characters, surrogates, the last character); by induction on the tree either all values of a tree are legal and it is written, or one is not and the encoder raises ValueError |
| C100 | the texts of `YANGListType(...)` and `ReferenceType(...)`, and a reader of one literal after given code | a text without the quote, line ends and backslashes is read as it is; with an end of a line before the quote it is no literal; safe_name keeps both facts |
| C101 | one step of a leaf (set, changed, told) per call | membership after each operation as on sets; legality by NoDup and membership; flags by cases; by induction over sequences |
| C102 | extend followed by the construction from the object | no plain member type takes a leaf-list for a member, so that the construction fails; the members by the step lemma of C22 |

## Findings

Where the model (and so, as far as it was read faithfully, the code) violates the property as written.  Each has a
`_refuted` theorem whose witness can be traced through the implementation.

| theorem | witness | cause |
|---------|---------|-------|
| `C02_legal_identifier_refuted` | leaf `await` or `None` | keywords missing from `reserved_name` (`yangtypes.py`) |
| `C03_list_key_attrs_refuted` | `key "class id"` | `safe_name` is applied to the whole key argument (`get_element`) |
| `C03_separators_refuted` | `key "a  b"`, or the names on two lines | the argument is split at each single blank, and only there (pybind.py:813-817, 1541) |
| `C04_class_names_distinct_refuted` | `/a/b/c` and `/a-b/c` | path joined with `_` after replacing `-` by `_` |
| `C07_single_value_refuted` | `range "9007199254740993"` | single numbers of a range go through `float` |
| `C08_all_restrictions_refuted`, `C56_pattern_refuted` | two patterns on an outer level | tests of an outer level are any-of |
| `C09_*_refuted` | `a\|b` accepts `ax`; a final newline; `a$`, `^a` | `convert_regexp` wraps without a group, `$` matches before a newline, existing anchors are kept |
| `C10_no_invalid_value_refuted`, `C60_typedef_chain_refuted` | text into a two-level integer leaf is stored as 0 | fallback of `YANGDynClass.__new__` to the empty constructor |
| `C11_rejection_refuted`, `C34_presence_refuted` | rejected value clears the other case, makes a container present | `_set` notifies before the inner level has checked |
| `C13_rfc_numbering_refuted` | enum values mixed explicit and automatic | the automatic numbers come from a counter of their own that skips the explicit values |
| `C14_bits_order_refuted` | positions 2 and 10 | positions are sorted as text |
| `C17_binary_length_refuted` | 3 bytes, `length 3` | the base64 text is measured as well |
| `C20_…`, `C21_…` | leaf-list of a typedef chain gets `False`; `1` next to `"1"` | membership and type are tested before conversion |
| `C24_…`, `C25_…` | `add(5)` and `add(id=5)`; composite keys with spaces | keys are used in the caller's spelling, joined by a space |
| `C27_…`, `C30_…` | choice in a choice; choice at module level | tags of nested choices replace each other; module-level leaves know no parent |
| `C30_keyless_refuted`, `C30_deep_refuted` | adding to a list without keys in a case; writing behind two further choices | nobody is told; what reaches the third object is the case of the second |
| `C32_config_refuted` | `config false` on a choice | only data nodes pass `config` on |
| `C33_…` | `obj.list = other.list` empties, `obj.ll = other.ll` raises | the copying loop of `YANGDynClass.__new__` |
| `C35_…`, `C58_…` | leaf-list of decimal64 comes back empty; decimals beyond a double; a leaf in a choice of the same name as one further down is lost | floats in the default format; choice notices go to all ancestors |
| `C36_…` | int64 keys come back as text; identity set with its prefix; `empty` set to False | keys taken from the document before typing |
| `C39_…`, `C40_…` | typedef of int64 with a range is a number; leaf-list of booleans is 1/0; identity called like its module | serialiser looks at the outer class and at the start of the text |
| `C41_…` | two ordered entries at one position: one is dropped; arrays under unknown IETF members raise | `load_json`, `load_ietf_json` |
| `C42_…` | overwrite with two stale entries raises RuntimeError; an IETF document keeps only the last entry; in list entries nothing is overwritten | deletion while iterating; the list is emptied per entry; `overwrite` is not handed down |
| `C43_…`, `C44_…` | integer keys are never removed; a path below a leaf raises TypeError; select on an unset leaf raises KeyError | `remove_path`, `lookup_subdict` |
| `C45_if_set_refuted` | an integer leaf that was never set is written as 0 | the test compares with the default only |
| `C46_…`, `C50_…` | brackets in quotes; spaces and empty values in predicates; "or" between predicates is read as "and" | `_path_parts`, `_tagname_attributes` |
| `C47_…`, `C49_…` | re-registering an equal object keeps the old one; failed registration leaves an object behind; a key called `obj_ptr` | `register` |
| `C51_pointer_refuted` | leafref to a single leaf accepts any value and writes it there | `ReferenceType.__init__` |
| `C52_…`, `C54_refuted`, `C59_…` | 1002 typedefs in a chain; a typedef through another prefix, if its module is given first; a missing identity base loops forever; identities of the same name | `build_typedefs`, `build_identities` |
| `C55_…`, `C56_digits_refuted` | the typedef's default wins over the leaf's; fraction-digits dropped when a range follows | `get_element`, `build_elemtype` |
| `C57_…`, `C62_…`, `C63_…`, `C64_…` | members and keys that look like numbers; `""`; namespaces ignored | `load_xml` takes lxml's guess of the type |
| `C61_bits_leaf_list_refuted` | a leaf-list of bits accepts nothing | `TypedList.check` has no case for bits |
| `C65_…` | `del`, refused `add`, unset and replacement leave stale registrations; an assigned leaf-list is not seen; a refused assignment to a container leaves an empty one in the helper | registration happens in constructors only |
| `C66_caller_refuted` | a relative path from an object that is not registered finds nothing | `get` starts from the registered caller |
| `C67_…` | leafref to a non-key leaf of a list with one entry; to leaf-lists in entries; to entries after `del` | `ReferencePathType.__init__` decides by the number of objects found, compares `str()` of the leaf-list; stale registrations |
| `C68_…` | typedef in a container in a choice; submodule included by a submodule | `possible_parents` in `find_child_definitions`; one level of includes in `build_pybind` |
| `C69_…` | typedefs of one name in two modules, or in two containers | `build_typedefs` enters the bare name, and `find_child_definitions` knows no scopes |
| `C71_refused_refuted` | a document with a bad value at the end: what comes before is loaded, and the other case of a choice cleared | values are assigned as the document is read |
| `C72_loaded_refuted`, `C72_text_refuted` | `"http"` for a port number loads as 0; `false` for a string restricted twice loads as `False` | `YANGDynClass` falls back to the bare type; the default branch of `RestrictedClassType.__new__` for false |
| `C74_keyless_refuted`, `C74_quotes_refuted`, `C74_text_refuted` | entries without keys share the path of their list; `add(a="x' b='y", b="z")` and `add(a="x", b="y' b='z")` have one path | `_register_path`; key values are put between quotes as they are |
| `C75_own_refuted` | an extension method `unset_a` replaces the container's `_unset_a`, which choices call | the slot of the subclass hides the method of the base class before `hasattr` is asked |
| `C75_hidden_refuted` | an attribute `unset_a` of the application's object that is no method takes the container's `_unset_a` away | the slot is made for every public name, but only callables are stored in it |
| `C75_construction_refuted`, `C75_method_refuted` | an extension method called `set` makes the construction of the container fail; none is attached after one called `method` | `__slots__` in conflict with the class body; `hasattr(self, "_method")` |
| `C76_reserved_refuted` | `container class { container class {…} }` is written to `class__` but imported as `class_` | `safe_name(a) + "_"` against `safe_name(a + "_")` |
| `C76_shadow_refuted` | `container a-b { container a_b {…} }`: the class hides the imported module | names are compared before `safe_name` |
| `C76_shared_refuted` | `a` and `a_` inside `a` share a directory, so do their children of the same name, and the second class replaces the first | the suffix is not checked against the siblings |
| `C76_header_refuted` | a container called `long` takes the name of the integer type | the imports follow the head of the file |
| `C77_leaf_list_refuted` | `"@ll": [{…}]`, the form RFC 7952 prescribes for leaf-lists, raises AttributeError after the value was set | `check_metadata_add` asks for `.items()` |
| `C77_module_refuted` | `"@"` at the top of a document raises AttributeError | the module class is not a `YANGDynClass` and has no `_add_metadata` |
| `C78_clash_refuted` | with containers `/a/b/c` and `/a-b/c`, `a.b.c` has the children of `/a-b/c` | class names join the path with `_` |
| `C78_rpc_refuted` | with `--build-rpcs`, the rpc `r` of module `m` replaces the container `/m/rpc/r` | the path of the rpcs is `m_rpc` |
| `C78_loop_refuted` | the module `m` with `/m__m_/m_` cannot be instantiated: RecursionError | a class name is that of its own child |
| `C78_siblings_refuted` | of siblings `a-b` and `a.b` one is lost | both are the attribute `a_b` |
| `C79_method_refuted` | a leaf `append` (or `extend`) in a container: `c.append` is a method, it cannot be assigned, `get()` raises AttributeError | `YANGBaseClass` defines them above the generated class, and `reserved_name` lacks them |
| `C79_any_name_refuted` | empty presence containers, entries of keyless lists and rpc inputs take misspelt attributes silently | no `__slots__` in one of the classes |
| `C80_index_refuted` | `obj["mtu"]` raises TypeError for every child | `PybindBase.__getitem__` calls what it found |
| `C80_iteration_refuted` | iteration over a container with a leaf `append` gives a method | as `C79_method_refuted` |
| `C81_octal_refuted` | `default 010` of an integer makes the generated file a SyntaxError | the text of the default is written as a Python number |
| `C81_backslash_refuted`, `C81_quote_refuted` | a default with a backslash is another text; what follows a double quote is executed as Python code | no escaping in `get_element` |
| `C81_decimal_refuted` | the default 0.1 of a decimal64 is 0.1000000000000000055... | written as a float, and `Decimal()` does not round |
| `C81_bits_refuted` | the default of a typedef of bits: importing or making the object raises ValueError | converted with `YANGBitsType(allowed_bits={})` |
| `C81_reference_refuted` | a leafref has no default with a path helper | dropped in `get_children` |
| `C81_union_refuted` | the default "abc" of a typedef of a union of string and int32 is written as the name `abc` | the last parent type decides |
| `C81_empty_refuted` | `default()` answers False for the default "" | `if default:` in `YANGDynClass` |
| `C82_integers_refuted`, `C82_decimals_refuted` | `" 1_000"` is taken for an integer, `"1e3"` for a decimal64 | `int()` and `Decimal()` read the text |
| `C82_error_refuted` | `"abc"` on a decimal64 raises decimal.InvalidOperation, all other types raise ValueError | the exception is an ArithmeticError, not caught by `_set_` methods |
| `C82_binary_refuted` | `"A#A=="` is taken for a binary | `b64decode` without `validate` skips other characters |
| `C83_list_refuted`, `C83_entry_refuted` | `{"l": 5}` in IETF JSON, `{"l": {"x": 5}}` in the default format: the list is emptied, no exception | `_set_l(5)` makes a new `YANGListType`, which ignores its argument |
| `C83_text_refuted` | `{"ll": "abca"}` in the default format gives the leaf-list `["a", "b", "c"]` | `for item in d[key]` iterates over the characters |
| `C83_array_refuted` | an array for a leaf of type string is stored as Python's text for it | `str(value)` |
| `C83_unknown_refuted`, `C83_container_refuted` | an empty array under an unknown name, and a number for a presence container without children, are accepted | arrays are only looked at by element; a class without children has no generated `__init__` |
| `C84_empty_key_refuted` | an entry whose only key is `""` is refused with KeyError | `YANGListType.__set` raises it for the key `""` |
| `C84_twice_refuted` | a list with two keys, the last ending with a space: the document loads once, the second time KeyError | the loader looks for the key text stripped, the list stores it as it is |
| `C85_decimal_refuted` | a union of decimal64 and string with the default `auto`: the generator stops with InvalidOperation | `find_absolute_default_type` catches ValueError and TypeError only |
| `C85_bits_refuted` | a union of bits and string with the default `auto`: KeyError | the entry that a bits statement makes has no `pytype` |
| `C85_restricted_refuted` | a union with a restricted typedef before the member that takes the default: KeyError | the parent is the typedef, whose entry has no `pytype` |
| `C85_leafref_refuted` | a typedef, with a default, of a union with a leafref: KeyError | `leafref` is a parent type but not in the map (pybind.py:1648-1657) |
| `C85_enumeration_refuted` | a union of an enumeration and uint8 with the default 5: the default is the text `5` | the enumeration is represented by its parent `string`, which takes every text |
| `C86_self_refuted` | a predicate `[name=current()]`, the value of the leaf itself: IndexError | xpathhelper.py:182 takes the second part of the split without looking |
| `C86_literal_refuted` | a list entry whose key contains the text `current()`: every search for it fails | the test is for the text anywhere in the value, also in quotes (xpathhelper.py:178) |
| `C86_apostrophe_refuted` | current() leads to a leaf whose text has an apostrophe: lxml refuses the expression | the value is put between apostrophes as it is (xpathhelper.py:192) |
| `C87_members_refuted` | `{"n": ["5"]}` for a leaf-list of uint8 loads without an exception and leaves the leaf-list empty | the member is added as the number 5, and 5 is not in `["5"]` (serialise.py:684-686) |
| `C87_order_refuted` | `["a", "b"]` loaded over `["b"]` gives `["b", "a"]` | only missing members are appended |
| `C87_position_refuted` | of two entries with the same `__yang_order` the first is not loaded | the positions are the keys of a dictionary (serialise.py:648) |
| `C88_members_refuted` | `<s>b</s>` loaded over `["a"]` gives `["a", "b"]`; the JSON loaders would leave `["b"]` | members are only appended (serialise.py:538-544) |
| `C88_blank_refuted` | `<note/>` for a string leaf that holds "old" leaves "old" | the text is None, and nothing is set (serialise.py:564) |
| `C88_identity_key_refuted` | the entry "gige" of a list whose key is an identityref is written and comes back as the entry "x:gige" | the prefix is taken off for leaves that are not keys only (serialise.py:520, 560-562) |
| `C89_two_cases_refuted` | `{"c": {"x": "a", "t": {"z": 2}}}`, `x` and `t` in two cases of a choice, loads without an exception; `x` has no value afterwards | assigning `z` unsets what is in the other cases, whoever put it there |
| `C91_top_list_refuted` | a list at the top level: get_list('/l') raises | lists are not registered, and the root object has only what is registered (xpathhelper.py:235-238) |
| `C91_prefix_refuted` | get('/c/m:x') finds the leaf, get_list('/c/m:x') raises | `safe_name` of the part as it is (xpathhelper.py:326) |
| `C91_stale_refuted` | an entry of a list at the top level is an element of the root object, also after delete() | `unregister` does not touch the root object |
| `C91_leaf_list_refuted` | a refused assignment of a leaf-list leaves the root object with an empty leaf-list that is not in the tree | the new object registers itself before it is refused |
| `C92_none_refuted` | None (or a list, or a dict) given to a uint8 leaf: no exception, the leaf is 0 | `YANGDynClass.__new__` and `__init__` fall back to a call without argument after TypeError (yangtypes.py:1023-1091) |
| `C92_fraction_refuted` | 1.5 given to a uint8 leaf makes it 1 | `int()` |
| `C92_false_refuted` | False given to a uint8 with the range 5..10 makes it 0; the number 0 is refused | the tests are skipped for `val is False` (yangtypes.py:361), the check in `__init__` uses the tests of the base type |
| `C92_bits_refuted` | the value of a bits leaf given to another of the same type: AttributeError | `value.split()` of a set (yangtypes.py:1409) |
| `C93_single_refuted` | a decimal64 leaf with the range "0.1" refuses 0.1 | `value != float(check_tuple[0])` (yangtypes.py:288) |
| `C93_three_refuted` | decimal64, three ranges along typedefs: a value outside the innermost becomes 0 without an exception | TypeError from the range (yangtypes.py:336) and the fallbacks after TypeError |
| `C93_false_refuted` | False is taken as 0 by a decimal64 leaf with the range 1..10 over a typedef with 0..10; the number 0 is refused | as `C92_false_refuted` |
| `C94_word_refuted`, `C94_repeated_refuted` | with an interesting module called `d` a description is taken for its extension `e`; of two statements of one extension only the last is kept | `ext.keyword[0]` of a word is its first letter (pybind.py:1459); one dictionary entry per name (1462) |
| `C95_quotes`, `C95_quotes_refuted`, `C95_backslash`, `C95_backslash_refuted` | a description with three double quotes puts the rest of itself into the code (statements of a YANG file run in the bindings); one with `\users` makes the whole file a SyntaxError; `\t` shows as a tab | descriptions are written into literals as they are (pybind.py:819-835, 1103-1128) |
| `C96_update_refuted`, `C96_stale_refuted` | `loads(..., path_helper=ph)` looks for the existing object in order not to "create a duplicate", but never finds it: the second load makes a second tree, without the data of the first, whose entries the helper still finds | serialise.py:480, 586, 730; xpathhelper.py:155 |
| `C97_augment_refuted` | the XML document of a container that module b adds to module a has its root element in the namespace of a | `_yang_namespace` is that of the module the classes are generated for (pybind.py:869) |
| `C98_refuted` | `namespace "urn:a''b"` becomes `urn:ab`; `urn:a'+exit()+'b` makes the bindings call `exit()` | `namespace='%s'` without quoting (pybind.py:869, 1000) |
| `C99_refuted` | `x.s = "a\x01"` is accepted and stored as JSON, but `pybindIETFXMLEncoder.serialise(x)` raises ValueError | YANG strings have no control characters (RFC 6020, 9.4), the string type does not check; lxml does |
| `C100_refuted` | `key "a` and, on the next line, `b"`: the generated file is a SyntaxError | `"%s"` and `yang_keys='%s'` without quoting (pybind.py:909, 913); RFC 6020 allows ends of lines between keys |
| `C101_refuted` | `x.flags.update({"left"})` takes an undeclared bit and `str(x.flags)` then raises KeyError; `update({"down"})` is not stored (leaf not marked as changed); `add` does not make the presence container around present; with a path helper `remove` raises AttributeError; `pop()` returns None; `x.flags \|= {"down"}` raises AttributeError but sets the bit | YANGBits overrides five methods of set (yangtypes.py:1418-1440); `YANGBaseClass.remove` asks for `index` (1167) |
| `C102_refuted` | `x.l += ["b"]` raises ValueError, but b is then in the list; with pattern `.*` the list becomes the one text `['a', 'b']` (`C102_pattern`) | `TypedList.__init__` looks for `list`, and a TypedList is none (yangtypes.py:419) |
