{"id": "C01", "title": "Python-safe names", "statement": "safe_name(n) never contains '-' or '.', is never one of the reserved words, leaves every other character alone, is idempotent, and two YANG names get the same Python name exactly when their '-'/'.'->'_' images are equal or one image is a reserved word and the other is that word followed by '_'.", "quantifier": "all strings", "why_tests_cant": "names are unbounded strings; collisions are a property of all pairs of names", "anchors": ["pyangbind/lib/yangtypes.py:safe_name", "pyangbind/lib/yangtypes.py:reserved_name"]}
{"id": "C02", "title": "Generated attribute names are legal Python identifiers", "statement": "For every YANG identifier (RFC 6020 grammar) the attribute name that the generated class uses is a legal Python identifier and not a Python keyword.", "quantifier": "all YANG identifiers", "why_tests_cant": "the set of identifiers is infinite; a missing keyword shows only on the one name that is missing", "anchors": ["pyangbind/lib/yangtypes.py:safe_name", "pyangbind/lib/yangtypes.py:reserved_name", "pyangbind/plugin/pybind.py:get_element"]}
{"id": "C03", "title": "List key attribute names match element names", "statement": "For every list statement the Python names of its keys (used to address the key leaves of an entry) are exactly the attribute names generated for those key leaves; the leaves that are treated as keys are exactly those that the key statement of their list names.", "quantifier": "all key statements (any number of key names)", "why_tests_cant": "depends on which names occur, in which combination", "anchors": ["pyangbind/plugin/pybind.py:get_element", "pyangbind/lib/yangtypes.py:safe_name", "pyangbind/lib/yangtypes.py:YANGListType"]}
{"id": "C04", "title": "Generated class names are unique", "statement": "In single-file output two distinct containers/lists of a module never get the same class name.", "quantifier": "all pairs of schema paths in a module", "why_tests_cant": "collision depends on a pair of paths", "anchors": ["pyangbind/plugin/pybind.py:get_element", "pyangbind/plugin/pybind.py:get_children"]}
{"id": "C05", "title": "Integer range restrictions are enforced exactly", "statement": "Assigning an integer to a leaf whose type is a built-in integer type with a range statement (any number of '|' parts, with min/max) succeeds iff the integer lies in one of the parts, and then the stored value is that integer; otherwise ValueError is raised.", "quantifier": "all range statements, all integers", "why_tests_cant": "boundaries are unbounded integers and arbitrary unions of intervals", "anchors": ["pyangbind/lib/yangtypes.py:RestrictedClassType", "pyangbind/plugin/pybind.py:build_elemtype"]}
{"id": "C06", "title": "Built-in integer types have exactly the RFC width", "statement": "An intN leaf accepts exactly -2^(N-1)..2^(N-1)-1 and a uintN leaf exactly 0..2^N-1, for N=8,16,32,64, given either as an integer or as its decimal string, and stores that number.", "quantifier": "all integers, all eight types", "why_tests_cant": "2^64 values and infinitely many rejected ones", "anchors": ["pyangbind/plugin/pybind.py:class_map", "pyangbind/lib/yangtypes.py:RestrictedClassType"]}
{"id": "C07", "title": "Single-value range parts are exact", "statement": "A range part that is a single number n accepts the integer v iff v = n.", "quantifier": "all integers n and v", "why_tests_cant": "goes through binary floating point; only wrong for some large numbers", "anchors": ["pyangbind/lib/yangtypes.py:RestrictedClassType"]}
{"id": "C08", "title": "Several restrictions are all enforced", "statement": "A string leaf whose type chain carries several pattern/length restrictions (on the leaf and on every typedef below it) accepts a string iff every one of the restrictions accepts it.", "quantifier": "all restriction sets, all strings, any typedef depth", "why_tests_cant": "any-of and all-of agree on most test inputs", "anchors": ["pyangbind/lib/yangtypes.py:RestrictedClassType"]}
{"id": "C09", "title": "Patterns are anchored to the whole value", "statement": "A pattern restriction accepts a string iff the YANG pattern matches the complete string.", "quantifier": "all patterns of the modelled regular-expression language, all strings", "why_tests_cant": "needs all pattern/string pairs", "anchors": ["pyangbind/lib/yangtypes.py:RestrictedClassType", "pyangbind/lib/yangtypes.py:convert_regexp"]}
{"id": "C10", "title": "A leaf never holds a value outside its type", "statement": "After a successful assignment of any Python value to a leaf, the stored value satisfies every restriction of the leaf's type.", "quantifier": "all types, all Python values (None, bool, int, str, bytes, Decimal, float, list, dict)", "why_tests_cant": "quantifies over all values of all Python types, including the ones no test thinks of passing", "anchors": ["pyangbind/lib/yangtypes.py:YANGDynClass", "pyangbind/lib/yangtypes.py:RestrictedClassType"]}
{"id": "C11", "title": "A rejected assignment has no effect", "statement": "When an assignment to a leaf raises, the data tree is exactly as it was before: same values, same changed flags, same choice branches.", "quantifier": "all trees, all leaves, all values", "why_tests_cant": "the effect is on other nodes than the one assigned", "anchors": ["pyangbind/lib/yangtypes.py:YANGDynClass", "pyangbind/lib/yangtypes.py:_set", "pyangbind/plugin/pybind.py:get_children"]}
{"id": "C12", "title": "Enumeration values", "statement": "An enumeration leaf accepts exactly the declared names; the numbers reported by getValue(mapped=True) keep every explicit value, give every name without one a number, and are pairwise different whenever the explicit ones are.", "quantifier": "all enumerations (any number of names, any explicit values)", "why_tests_cant": "unbounded number of names; assignment loop depends on the whole set", "anchors": ["pyangbind/lib/yangtypes.py:RestrictedClassType", "pyangbind/lib/yangtypes.py:getValue"]}
{"id": "C13", "title": "Enumeration numbering follows RFC 6020", "statement": "A name without a value gets one more than the highest value before it (0 if it is first).", "quantifier": "all enumerations", "why_tests_cant": "depends on all earlier names", "anchors": ["pyangbind/lib/yangtypes.py:RestrictedClassType"]}
{"id": "C14", "title": "Bits stay legal and print canonically", "statement": "After any sequence of add/discard/remove/clear on a bits leaf the set bits are declared bits; str() lists exactly the set bits, each once, in declared position order, and parsing that string gives the same set.", "quantifier": "all bit declarations, all operation sequences", "why_tests_cant": "all histories", "anchors": ["pyangbind/lib/yangtypes.py:YANGBitsType"]}
{"id": "C15", "title": "Boolean leaves", "statement": "A boolean leaf accepts exactly the values equal to true/false in one of the documented spellings, stores the corresponding truth value, and re-reading its printed form gives the same value.", "quantifier": "all Python values", "why_tests_cant": "the accept set is defined over all values by Python equality", "anchors": ["pyangbind/lib/yangtypes.py:YANGBool"]}
{"id": "C16", "title": "Binary round trip", "statement": "For every byte string, the base64 text written by the serialiser decodes to the same bytes when assigned to a binary leaf.", "quantifier": "all byte strings", "why_tests_cant": "all lengths modulo 3 and all byte values", "anchors": ["pyangbind/lib/yangtypes.py:YANGBinary", "pyangbind/lib/serialise.py:default"]}
{"id": "C17", "title": "Binary length restriction counts bytes", "statement": "A binary leaf with a length restriction accepts base64 text iff the number of decoded bytes satisfies the restriction.", "quantifier": "all byte strings, all lengths", "why_tests_cant": "encoded and decoded length coincide on small test cases", "anchors": ["pyangbind/lib/yangtypes.py:YANGBinary", "pyangbind/lib/yangtypes.py:RestrictedClassType"]}
{"id": "C18", "title": "decimal64 rounding", "statement": "Assigning a decimal to a decimal64 leaf with fraction-digits n stores the multiple of 10^-n nearest to it, ties to even; values with at most n fraction digits are stored exactly and storing is idempotent.", "quantifier": "all decimals, all n", "why_tests_cant": "tie cases are measure zero among test inputs", "anchors": ["pyangbind/lib/yangtypes.py:RestrictedPrecisionDecimalType"]}
{"id": "C19", "title": "Unions take the first member type that accepts", "statement": "A union leaf accepts a value iff some member type accepts it, and then stores what the first accepting member type makes of it.", "quantifier": "all unions, all values", "why_tests_cant": "order-dependent over all values", "anchors": ["pyangbind/lib/yangtypes.py:YANGDynClass"]}
{"id": "C20", "title": "Leaf-list members always have the declared type", "statement": "After any sequence of operations on a leaf-list every member is a value of one of the declared member types.", "quantifier": "all member types, all operation sequences, all values", "why_tests_cant": "all histories", "anchors": ["pyangbind/lib/yangtypes.py:TypedListType"]}
{"id": "C21", "title": "Leaf-list members are unique", "statement": "After any sequence of operations a leaf-list holds no two equal members.", "quantifier": "all operation sequences", "why_tests_cant": "only sequences that mix spellings of one value expose it", "anchors": ["pyangbind/lib/yangtypes.py:TypedListType"]}
{"id": "C22", "title": "Leaf-list behaves as a sequence", "statement": "append/insert/index-assignment/delete/pop/remove/extend on a leaf-list act as on the list of its members: append adds at the end iff absent, insert and index assignment insert before the position, delete removes exactly one; nothing else moves.", "quantifier": "all operation sequences", "why_tests_cant": "all histories and all (negative, out of range) indices", "anchors": ["pyangbind/lib/yangtypes.py:TypedListType", "pyangbind/lib/yangtypes.py:YANGDynClass"]}
{"id": "C23", "title": "A YANG list behaves as an insertion-ordered map", "statement": "add of a fresh valid key appends one entry; add of an existing key raises KeyError and changes nothing; delete removes exactly that entry and raises KeyError if absent; keys() is always in order of insertion and len/in/[] agree with it.", "quantifier": "all operation sequences", "why_tests_cant": "all histories", "anchors": ["pyangbind/lib/yangtypes.py:YANGListType"]}
{"id": "C24", "title": "List keys and key leaves agree", "statement": "In every reachable list, the key leaf of each entry holds the value of the key under which the entry is stored, and no two entries have the same key-leaf values.", "quantifier": "all operation sequences", "why_tests_cant": "all histories, mixed key spellings", "anchors": ["pyangbind/lib/yangtypes.py:YANGListType"]}
{"id": "C25", "title": "Composite keys are unambiguous", "statement": "Two different tuples of key values never address the same list entry.", "quantifier": "all key tuples", "why_tests_cant": "needs the one pair of tuples that collides", "anchors": ["pyangbind/lib/yangtypes.py:YANGListType", "pyangbind/lib/yangtypes.py:_generate_key", "pyangbind/lib/yangtypes.py:_item"]}
{"id": "C26", "title": "Keyless list entries are never overwritten", "statement": "Every add() on a list without keys yields a new entry and keeps all the earlier ones.", "quantifier": "all numbers of adds", "why_tests_cant": "all histories", "anchors": ["pyangbind/lib/yangtypes.py:YANGListType"]}
{"id": "C27", "title": "Change tracking", "statement": "Setting a leaf marks that leaf and every enclosing container below the module as changed; a leaf outside the addressed path keeps its changed flag and value (unless a choice clears it).", "quantifier": "all schemas, all trees, all paths", "why_tests_cant": "all depths and all siblings", "anchors": ["pyangbind/lib/yangtypes.py:YANGDynClass", "pyangbind/lib/yangtypes.py:_set", "pyangbind/plugin/pybind.py:get_children"]}
{"id": "C28", "title": "get(filter=True) returns exactly the data that was set", "statement": "The filtered dump contains a leaf iff it was explicitly set, a leaf-list iff it is non-empty, a list iff it has entries, and a container iff something inside is in the dump or it is a present presence container.", "quantifier": "all schemas, all trees", "why_tests_cant": "all trees", "anchors": ["pyangbind/lib/base.py:PybindBase.get"]}
{"id": "C29", "title": "get(filter=False) fills in defaults", "statement": "The unfiltered dump contains every node of the schema; an unset leaf appears with its default if it has a non-empty one, a set leaf with its value.", "quantifier": "all schemas, all trees", "why_tests_cant": "all trees", "anchors": ["pyangbind/lib/base.py:PybindBase.get"]}
{"id": "C30", "title": "At most one case of a choice holds data", "statement": "After any sequence of leaf assignments, for every choice at most one case has data.", "quantifier": "all schemas, all operation sequences", "why_tests_cant": "all histories", "anchors": ["pyangbind/lib/yangtypes.py:YANGDynClass", "pyangbind/lib/yangtypes.py:_set", "pyangbind/plugin/pybind.py:get_children_elements"]}
{"id": "C31", "title": "Unset restores the initial state", "statement": "_unset_x makes node x (with its whole subtree) equal to a freshly created one and changes nothing else.", "quantifier": "all schemas, all trees", "why_tests_cant": "all trees", "anchors": ["pyangbind/plugin/pybind.py:get_children"]}
{"id": "C32", "title": "config false data is not assignable", "statement": "A node can be assigned through attribute access iff neither it nor any of its ancestors is config false.", "quantifier": "all schema trees", "why_tests_cant": "inheritance over arbitrary depth", "anchors": ["pyangbind/plugin/pybind.py:get_children", "pyangbind/plugin/pybind.py:get_element"]}
{"id": "C33", "title": "Assigning a container copies its data", "statement": "After parent.c = other, the filtered dump of parent.c equals that of other.", "quantifier": "all schemas, all trees", "why_tests_cant": "all trees", "anchors": ["pyangbind/plugin/pybind.py:get_children", "pyangbind/lib/yangtypes.py:YANGListType"]}
{"id": "C34", "title": "Presence containers", "statement": "A presence container is reported present iff it was marked present or something below it was set since it was last unset; it appears (possibly empty) in the filtered dump iff present.", "quantifier": "all operation sequences", "why_tests_cant": "all histories", "anchors": ["pyangbind/lib/yangtypes.py:_set_present", "pyangbind/lib/yangtypes.py:_present", "pyangbind/lib/base.py:PybindBase.get"]}
{"id": "C35", "title": "JSON round trip (default format)", "statement": "loads(dumps(obj)) yields an object with the same set data.", "quantifier": "all schemas, all trees", "why_tests_cant": "all trees", "anchors": ["pyangbind/lib/pybindJSON.py:dumps", "pyangbind/lib/pybindJSON.py:loads", "pyangbind/lib/serialise.py:pybindJSONDecoder.load_json", "pyangbind/lib/serialise.py:YangDataSerialiser"]}
{"id": "C36", "title": "IETF JSON round trip", "statement": "loads_ietf(dumps(obj, mode='ietf')) yields an object with the same set data.", "quantifier": "all schemas, all trees", "why_tests_cant": "all trees", "anchors": ["pyangbind/lib/pybindJSON.py:dumps", "pyangbind/lib/pybindJSON.py:loads_ietf", "pyangbind/lib/serialise.py:load_ietf_json", "pyangbind/lib/serialise.py:make_generate_ietf_tree"]}
{"id": "C37", "title": "User ordering survives JSON", "statement": "The entries of an ordered-by-user list come back from loads(dumps(.)) in the same order, whatever order the JSON object members are in.", "quantifier": "all lists, all permutations of members", "why_tests_cant": "all permutations", "anchors": ["pyangbind/lib/serialise.py:preprocess_element", "pyangbind/lib/serialise.py:load_json"]}
{"id": "C38", "title": "IETF member names are namespace-qualified exactly when needed", "statement": "In IETF JSON a member name carries 'module:' iff the node's namespace differs from its parent's (and always at the top).", "quantifier": "all schemas", "why_tests_cant": "all augmentation nestings", "anchors": ["pyangbind/lib/serialise.py:yname_ns_func", "pyangbind/lib/serialise.py:make_generate_ietf_tree"]}
{"id": "C39", "title": "IETF scalar encodings", "statement": "In IETF JSON every 64-bit integer and every decimal64 is a JSON string, smaller integers are numbers, booleans are booleans and empty is [null].", "quantifier": "all leaf types (any typedef chain) and values", "why_tests_cant": "all typedef chains", "anchors": ["pyangbind/lib/serialise.py:IETFYangDataSerialiser"]}
{"id": "C40", "title": "IETF identityref values are qualified", "statement": "An identityref value whose identity is defined in another module than the leaf is written as 'module:identity'.", "quantifier": "all identities, all modules", "why_tests_cant": "depends on the pair of names", "anchors": ["pyangbind/lib/serialise.py:yangt_identityref"]}
{"id": "C41", "title": "Unknown members", "statement": "load_json / load_ietf_json raise AttributeError on a member the schema does not have; with skip_unknown they give the same object as if the unknown members had been removed first.", "quantifier": "all JSON documents", "why_tests_cant": "all documents", "anchors": ["pyangbind/lib/serialise.py:load_json", "pyangbind/lib/serialise.py:load_ietf_json"]}
{"id": "C42", "title": "overwrite=True replaces list content", "statement": "After loading with overwrite=True a list holds exactly the entries of the document.", "quantifier": "all prior contents, all documents", "why_tests_cant": "all prior states", "anchors": ["pyangbind/lib/serialise.py:load_json", "pyangbind/lib/serialise.py:load_ietf_json"]}
{"id": "C43", "title": "skip_subtrees removes exactly the named subtree", "statement": "dumps(obj, skip_subtrees=[p]) removes the node at p and leaves everything else as it is.", "quantifier": "all trees, all paths", "why_tests_cant": "all trees", "anchors": ["pyangbind/lib/pybindJSON.py:remove_path", "pyangbind/lib/pybindJSON.py:dumps"]}
{"id": "C44", "title": "select keeps exactly the matching entries", "statement": "dumps(list, select=...) contains exactly the entries whose selected leaves have the requested values; a path that leads to nothing in an entry that is looked at raises KeyError, one that goes on below a leaf AttributeError.", "quantifier": "all lists, all selections", "why_tests_cant": "all lists", "anchors": ["pyangbind/lib/pybindJSON.py:dumps"]}
{"id": "C45", "title": "with_defaults=IF_SET emits exactly what was set", "statement": "With WithDefaults.IF_SET a leaf is emitted iff it was explicitly set.", "quantifier": "all leaves", "why_tests_cant": "depends on Python equality between unset values and missing defaults", "anchors": ["pyangbind/lib/serialise.py:make_generate_ietf_tree"]}
{"id": "C46", "title": "Path splitting", "statement": "_path_parts splits a path at exactly those '/' that are outside quotes and brackets; joining the parts with '/' gives the path back.", "quantifier": "all strings", "why_tests_cant": "all strings", "anchors": ["pyangbind/lib/xpathhelper.py:_path_parts"]}
{"id": "C47", "title": "Registered objects are found", "statement": "After register(path, obj), get(path) returns [obj]; results for other registered paths do not change; registering again replaces.", "quantifier": "all sequences of registrations", "why_tests_cant": "all histories", "anchors": ["pyangbind/lib/xpathhelper.py:register", "pyangbind/lib/xpathhelper.py:get"]}
{"id": "C48", "title": "unregister removes the subtree", "statement": "After unregister(path), neither path nor any path below it is found; other paths are unaffected.", "quantifier": "all sequences", "why_tests_cant": "all histories", "anchors": ["pyangbind/lib/xpathhelper.py:unregister"]}
{"id": "C49", "title": "get never fails on a registered tree", "statement": "In every reachable state of the helper each tree node points at a stored object, distinct nodes at distinct slots, so get() never raises KeyError; and every stored object is reachable from the tree.", "quantifier": "all sequences of register/unregister", "why_tests_cant": "all histories", "anchors": ["pyangbind/lib/xpathhelper.py:YANGPathHelper"]}
{"id": "C50", "title": "Key predicates survive encoding", "statement": "The predicates of a path element, and how they are combined, are recovered exactly from its textual form; brackets that hold something else are refused, and nothing is changed.", "quantifier": "all key names and values", "why_tests_cant": "all strings", "anchors": ["pyangbind/lib/xpathhelper.py:_tagname_attributes", "pyangbind/lib/xpathhelper.py:_encode_path"]}
{"id": "C51", "title": "Leafref integrity", "statement": "A leafref with require-instance accepts a value iff some instance with that string value exists at assignment time; without it, and without a path helper, any value is accepted.", "quantifier": "all helper states, all values", "why_tests_cant": "all states", "anchors": ["pyangbind/lib/yangtypes.py:ReferenceType"]}
{"id": "C52", "title": "Typedef resolution", "statement": "Typedefs are built in an order in which each one comes after every type it refers to; resolution always terminates and fails exactly if some typedef (transitively) refers to an undefined type or to itself.", "quantifier": "all sets of typedefs in all orders", "why_tests_cant": "all dependency graphs", "anchors": ["pyangbind/plugin/pybind.py:build_typedefs"]}
{"id": "C53", "title": "Identity derivation", "statement": "The values accepted for a base identity are exactly the identities derived from it directly or transitively.", "quantifier": "all identity hierarchies in all orders", "why_tests_cant": "all graphs", "anchors": ["pyangbind/helpers/identity.py:IdentityStore"]}
{"id": "C54", "title": "Identity resolution terminates", "statement": "Building the identity store terminates for every set of definitions.", "quantifier": "all sets of definitions", "why_tests_cant": "non-termination cannot be observed by a test", "anchors": ["pyangbind/helpers/identity.py:build_store_from_definitions"]}
{"id": "C55", "title": "A leaf's own default wins", "statement": "The default of a leaf is its own default statement if it has one, otherwise that of the nearest typedef in its type chain that has one.", "quantifier": "all type chains", "why_tests_cant": "all chains", "anchors": ["pyangbind/plugin/pybind.py:get_element"]}
{"id": "C56", "title": "Type restrictions survive compilation", "statement": "The generated type of a leaf enforces every restriction (range, length, pattern, fraction-digits) written in its type statement.", "quantifier": "all type statements", "why_tests_cant": "all combinations", "anchors": ["pyangbind/plugin/pybind.py:build_elemtype"]}
{"id": "C57", "title": "XML round trip", "statement": "decode(serialise(obj)) yields an object with the same set data.", "quantifier": "all schemas, all trees", "why_tests_cant": "all trees", "anchors": ["pyangbind/lib/serialise.py:pybindIETFXMLEncoder", "pyangbind/lib/serialise.py:pybindIETFXMLDecoder"]}
{"id": "C58", "title": "decimal64 survives default-format JSON", "statement": "A decimal64 value written as a JSON number by dumps() and read back is the same value.", "quantifier": "all decimal64 values", "why_tests_cant": "passes through binary floating point", "anchors": ["pyangbind/lib/serialise.py:yangt_decimal"]}
{"id": "C59", "title": "Identities of the same name do not interfere", "statement": "An identityref accepts exactly the identities derived from the identity it names, even if another module defines an identity of the same name.", "quantifier": "all sets of modules", "why_tests_cant": "needs the colliding pair", "anchors": ["pyangbind/plugin/pybind.py:build_identities"]}
{"id": "C60", "title": "Ranges of a typedef chain are all enforced", "statement": "An integer leaf whose type is a chain of typedefs, each with its own range, rejects every integer that is outside one of the ranges and stores every other integer unchanged.", "quantifier": "all chains of any depth, all integers (and all Python values that denote one)", "why_tests_cant": "wrong only from three levels on, for values that fail two levels down", "anchors": ["pyangbind/lib/yangtypes.py:RestrictedClassType", "pyangbind/lib/yangtypes.py:YANGDynClass"]}
{"id": "C61", "title": "A leaf-list of bits holds bits values", "statement": "A value that a leaf of a bits type accepts can be appended to a leaf-list of that type and is then a member.", "quantifier": "all bits types, all sequences of operations", "why_tests_cant": "needs a theorem about every sequence of operations to state that the type is unusable", "anchors": ["pyangbind/lib/yangtypes.py:TypedListType", "pyangbind/lib/yangtypes.py:YANGBitsType"]}
{"id": "C62", "title": "XML documents mirror the data tree", "statement": "The XML document written for an object has one element per set leaf, per leaf-list member, per non-empty (or present) container and per list entry, in schema and list order, each with the YANG name and the namespace of its node, and the text of a leaf or member is the lexical form of its value.", "quantifier": "all schemas, all trees, with and without filtering", "why_tests_cant": "a relation between every tree and every document", "anchors": ["pyangbind/lib/serialise.py:pybindIETFXMLEncoder", "pyangbind/lib/serialise.py:XmlYangDataSerialiser"]}
{"id": "C63", "title": "Identities in XML are namespace-qualified", "statement": "The element of a set identityref leaf declares the prefix that stands for the namespace of the identity's module, and its text is the identity with that prefix unless the identity is of the leaf's own module.", "quantifier": "all schemas, all trees", "why_tests_cant": "depends on the names of identities and modules", "anchors": ["pyangbind/lib/serialise.py:pybindIETFXMLEncoder", "pyangbind/lib/serialise.py:IETFYangDataSerialiser"]}
{"id": "C64", "title": "Unknown XML elements are rejected", "statement": "Decoding a document that holds an element the schema does not have raises an exception, wherever the element stands.", "quantifier": "all schemas, all documents, all trees loaded into", "why_tests_cant": "elements at any depth, after any amount of valid data", "anchors": ["pyangbind/lib/serialise.py:pybindIETFXMLDecoder"]}
{"id": "C65", "title": "The path helper and the data tree agree", "statement": "After any operations on a module object that was given a path helper, get() with the path of an object of the tree returns that object, and get() with a path where the tree has nothing returns nothing.", "quantifier": "all schemas, all sequences of operations, all spellings of paths", "why_tests_cant": "the helper is updated as a side effect of every construction and deletion", "anchors": ["pyangbind/lib/yangtypes.py:YANGDynClass", "pyangbind/lib/yangtypes.py:YANGListType", "pyangbind/lib/yangtypes.py:TypedListType", "pyangbind/lib/xpathhelper.py:register", "pyangbind/lib/xpathhelper.py:unregister", "pyangbind/lib/xpathhelper.py:get"]}
{"id": "C66", "title": "Searches find every match once", "statement": "YANGPathHelper.get() with a path that leaves out keys, absolute or relative to a registered object, returns the registered objects whose names match and whose keys include those given, each exactly once; get_unique() returns the one match or raises the exception it was given.", "quantifier": "all sequences of registrations and deregistrations, all paths and spellings", "why_tests_cant": "the result depends on everything registered so far", "anchors": ["pyangbind/lib/xpathhelper.py:get", "pyangbind/lib/xpathhelper.py:get_unique"]}
{"id": "C67", "title": "Leafrefs refer to what is in the tree", "statement": "With a path helper, a leafref leaf with require-instance accepts a value exactly if one of the leaves, or one of the members of the leaf-list, that its path means in the data tree at that moment has this value, whether the path is absolute or relative.", "quantifier": "all schemas, all sequences of operations before, all values", "why_tests_cant": "the accepted set is the state of other nodes, reached through the helper", "anchors": ["pyangbind/lib/yangtypes.py:ReferenceType", "pyangbind/lib/xpathhelper.py:get", "pyangbind/lib/xpathhelper.py:register", "pyangbind/lib/xpathhelper.py:unregister"]}
{"id": "C68", "title": "Every typedef and identity is found", "statement": "Compiling a set of modules knows every typedef and identity of these modules, of the submodules they include and of the modules they import directly or indirectly, under each prefix by which the module is referred to, and nothing else; the search ends unless modules import each other in a circle.", "quantifier": "all sets of modules, all nestings of statements", "why_tests_cant": "all import graphs and all places of a definition", "anchors": ["pyangbind/plugin/pybind.py:build_pybind", "pyangbind/helpers/misc.py:find_definitions"]}
{"id": "C69", "title": "Typedefs of the same name do not interfere", "statement": "A leaf accepts exactly what the type of the typedef accepts that its type statement names by the rules of YANG, whatever typedefs of the same name other modules or other containers define.", "quantifier": "all sets of modules", "why_tests_cant": "needs the colliding pair", "anchors": ["pyangbind/plugin/pybind.py:build_typedefs", "pyangbind/plugin/pybind.py:build_elemtype", "pyangbind/helpers/misc.py:find_child_definitions"]}
{"id": "C70", "title": "Loading is a series of API calls", "statement": "Loading a document - JSON, IETF JSON or XML - into an object has the effect of a series of assignments, appends, adds, presence flags (and with overwrite=True deletions and resets), each for a node the document names; all succeed if the document is accepted, all but the last if it is not.  Everything true of every sequence of API calls is so true of programs that load documents.", "quantifier": "all schemas, all trees reached, all documents accepted or refused", "why_tests_cant": "quantifies over documents and over the state they are loaded into", "anchors": ["pyangbind/lib/serialise.py:pybindJSONDecoder", "pyangbind/lib/serialise.py:pybindIETFXMLDecoder", "pyangbind/lib/pybindJSON.py:loads", "pyangbind/lib/pybindJSON.py:loads_ietf"]}
{"id": "C71", "title": "Loading leaves the rest alone", "statement": "Loading a document without overwrite, accepted or not, changes nothing in the parts of the tree that the document has nothing for, unless they belong to another case of a choice than data of the document; with overwrite this is so of the children of the module that it does not name.", "quantifier": "all schemas, all trees reached, all documents", "why_tests_cant": "a frame condition: every node the document does not mention, after every history", "anchors": ["pyangbind/lib/serialise.py:pybindJSONDecoder", "pyangbind/lib/serialise.py:pybindIETFXMLDecoder", "pyangbind/lib/pybindJSON.py:loads", "pyangbind/lib/pybindJSON.py:loads_ietf"]}
{"id": "C72", "title": "What a tree holds is of its type", "statement": "Whatever is done to a module object - assignments, clears, list operations with any arguments, whole objects, documents of all formats, accepted or not - a leaf that is set holds a value of its YANG type, a leaf that is not set holds its initial value, and the members of a leaf-list are values of its type.", "quantifier": "all schemas, all sequences of operations and documents", "why_tests_cant": "an invariant over all histories: tests try single assignments, not what survives a refused one after any other steps", "anchors": ["pyangbind/lib/yangtypes.py:YANGDynClass", "pyangbind/lib/yangtypes.py:RestrictedClassType", "pyangbind/lib/yangtypes.py:TypedListType", "pyangbind/lib/serialise.py:pybindJSONDecoder", "pyangbind/lib/serialise.py:pybindIETFXMLDecoder"]}
{"id": "C73", "title": "Programs whose data survives being stored", "statement": "Take any program of assignments of values the format can express (or of their texts), clears, leaf-list operations, additions of entries by key or keywords, deletions and _set_present(). Whichever of the operations are refused and in whatever order they come, the data in the object is the same after dumps and loads, after dumps(mode='ietf') and loads_ietf, and after being written and read as XML - for modules whose lists have keys, whose choices are not nested and not named like one further down, and whose node names differ after safe_name().", "quantifier": "all such modules, all such programs", "why_tests_cant": "tests dump trees built by a handful of assignments; this is about every interleaving, with refused operations and choices switching case", "anchors": ["pyangbind/lib/pybindJSON.py:dumps", "pyangbind/lib/pybindJSON.py:loads", "pyangbind/lib/pybindJSON.py:loads_ietf", "pyangbind/lib/serialise.py:pybindJSONDecoder.load_json", "pyangbind/lib/serialise.py:load_ietf_json", "pyangbind/lib/serialise.py:pybindIETFXMLEncoder.generate_xml_tree", "pyangbind/lib/serialise.py:pybindIETFXMLDecoder.load_xml", "pyangbind/lib/yangtypes.py:YANGListType.add"]}
{"id": "C74", "title": "Paths identify objects", "statement": "No two objects of a data tree have the same _path() or the same _yang_path().", "quantifier": "all schemas, all trees, all key values", "why_tests_cant": "key values are free text and end up in the path: quotes, slashes and brackets in them have to be told from the syntax of the path", "anchors": ["pyangbind/lib/yangtypes.py:YANGDynClass", "pyangbind/lib/yangtypes.py:YANGListType", "pyangbind/plugin/pybind.py:get_children"]}
{"id": "C75", "title": "Extension methods go by schema path", "statement": "Each public method m of the object given in extmethods for a path is available as _m on all objects with that schema path - for list entries whatever their keys - and on no others; attributes that an object has of its own are never replaced.", "quantifier": "all schemas, all trees, all extmethods", "why_tests_cant": "an attribute added to one class can shadow those the library relies on; tests attach two or three methods to one leaf", "anchors": ["pyangbind/lib/yangtypes.py:remove_path_attributes", "pyangbind/lib/yangtypes.py:YANGDynClass"]}
{"id": "C76", "title": "Split classes find one another", "statement": "In the package written with --split-class-dir every class finds the classes of its children: the module named where a class is used is imported under that name, is hidden neither by the class of the file nor by a name of the file's head, and holds exactly one class of that name.", "quantifier": "all modules", "why_tests_cant": "the directory, the import statement and the use of a class are named by three pieces of code; tests generate packages from a few modules with friendly names", "anchors": ["pyangbind/plugin/pybind.py:get_children", "pyangbind/plugin/pybind.py:get_children_elements", "pyangbind/plugin/pybind.py:get_element"]}
{"id": "C77", "title": "Annotations of IETF JSON documents", "statement": "Loading an IETF JSON document with annotations (RFC 7952: members '@' and '@name') leaves the data it leaves without them, and afterwards the metadata an object got from the document is exactly what the document says about that node: '@' about the object it is in, '@name' about the child of that name, for a list about each of its entries.", "quantifier": "all schemas, documents and trees", "why_tests_cant": "annotations can stand at every level, before or after what they are about, and the objects that carry them are replaced by later assignments; tests load one annotated document", "anchors": ["pyangbind/lib/serialise.py:pybindJSONDecoder.check_metadata_add", "pyangbind/lib/serialise.py:pybindJSONDecoder.load_ietf_json", "pyangbind/lib/yangtypes.py:YANGDynClass"]}
{"id": "C78", "title": "The generated file makes the objects the modules declare", "statement": "After importing the file that the plugin writes for some modules, an object of the class of a module has, at every path of Python names, exactly the node that the module's statements declare there - containers and lists without children left out - with its YANG name, namespace, module, type, default, keys and order; likewise the classes written for its submodules, its rpcs and its notifications.", "quantifier": "all sets of modules, statements and options", "why_tests_cant": "classes refer to each other by names made from paths, so that one class can take the place of another anywhere else in the same file; tests generate small modules with a handful of names", "anchors": ["pyangbind/plugin/pybind.py:build_pybind", "pyangbind/plugin/pybind.py:get_children", "pyangbind/plugin/pybind.py:get_children_elements", "pyangbind/plugin/pybind.py:get_element", "pyangbind/lib/yangtypes.py:safe_name"]}
{"id": "C79", "title": "Data nodes are the attributes of generated objects, and nothing else can be assigned", "statement": "In an object of a generated class, the attribute with the Python name of a data node reads as that node, assigning it reaches its setter exactly if the node and its ancestors are configuration (AttributeError otherwise), and assigning any other public name raises AttributeError instead of being stored silently; get() of a module never fails for the names of its nodes.", "quantifier": "all modules, all containers, lists and entries in them, all attribute names", "why_tests_cant": "which names clash with the methods of the library depends on the schema; typing errors in attribute names are unbounded; test schemas use a fixed handful of names", "anchors": ["pyangbind/plugin/pybind.py:get_children", "pyangbind/lib/yangtypes.py:YANGDynClass", "pyangbind/lib/yangtypes.py:reserved_name", "pyangbind/lib/base.py:PybindBase.get"]}
{"id": "C80", "title": "Indexing and iteration of generated objects", "statement": "obj[name] gives the child of that name; iterating over an object gives every child once, in the order of the statements, with its Python name and the child itself.", "quantifier": "all modules, all containers and entries in them", "why_tests_cant": "a property of all schemas: no test indexes a generated object by name", "anchors": ["pyangbind/lib/base.py:PybindBase.__getitem__", "pyangbind/lib/base.py:PybindBase.__iter__", "pyangbind/lib/yangtypes.py:YANGDynClass"]}
{"id": "C81", "title": "The default of a leaf is the value its module gives", "statement": "The default of a leaf, as the generated objects have it, is the value that the text of its nearest default statement stands for in the type of the leaf (RFC 6020): integers in decimal, hexadecimal and octal, decimals, texts, booleans, binaries, bits.", "quantifier": "all types that are not unions, all chains of typedefs, all default texts, all values", "why_tests_cant": "the text of the default is pasted into Python code: only a proof over all texts shows for which of them Python reads the value that YANG means", "anchors": ["pyangbind/plugin/pybind.py:get_element", "pyangbind/plugin/pybind.py:get_children", "pyangbind/plugin/pybind.py:build_elemtype", "pyangbind/plugin/pybind.py:class_map", "pyangbind/lib/yangtypes.py:YANGDynClass"]}
{"id": "C82", "title": "Values given as text are read by YANG's lexical rules", "statement": "A text assigned to an integer or decimal64 leaf is taken for the number that RFC 6020 reads in it, and refused with ValueError if RFC 6020 reads none; exactly which texts Python reads otherwise is stated too.", "quantifier": "all integer types, all fraction-digits, all texts of ASCII characters", "why_tests_cant": "the set of texts is infinite, and tests try the ones their authors think of; Python's int() and Decimal() accept more than YANG", "anchors": ["pyangbind/lib/yangtypes.py:RestrictedClassType", "pyangbind/lib/yangtypes.py:RestrictedPrecisionDecimalType", "pyangbind/lib/yangtypes.py:YANGBinary", "pyangbind/lib/yangtypes.py:YANGDynClass"]}
{"id": "C83", "title": "Documents that load have the shape the schema requires", "statement": "A document - in IETF JSON, the default format or XML - that loads without an exception has an object (an element) for every container, an array (a keyed object, an element for every entry) for every list with the keys in every entry, values that the types take for leaves, and no unknown names unless they are to be skipped; the deviations that are accepted are listed, and the exceptions for mistakes are stated.", "quantifier": "all schemas, all documents, all states of the tree, with and without overwrite and skip_unknown", "why_tests_cant": "documents of a wrong shape are unlimited in number, and a silently accepted one changes or empties parts of the tree", "anchors": ["pyangbind/lib/serialise.py:pybindJSONDecoder.load_json", "pyangbind/lib/serialise.py:pybindJSONDecoder.load_ietf_json", "pyangbind/lib/serialise.py:pybindIETFXMLDecoder", "pyangbind/lib/pybindJSON.py:loads", "pyangbind/lib/pybindJSON.py:loads_ietf"]}
{"id": "C84", "title": "Valid documents are accepted and mean what they say", "statement": "An IETF JSON document in which every member names a child, every value is taken by its type, every entry has keys that the key leaves take, and no child or entry is given twice, loads without an exception whatever the tree holds; afterwards every leaf, leaf-list, presence container and entry that the document gives holds what the document says.", "quantifier": "all schemas, all valid documents, all states of the tree reached by any operations and loads", "why_tests_cant": "the loader works through the document in place: a later member could undo, refuse or redirect an earlier one, and which combinations do is not visible from examples", "anchors": ["pyangbind/lib/serialise.py:pybindJSONDecoder.load_ietf_json", "pyangbind/lib/pybindJSON.py:loads_ietf", "pyangbind/lib/yangtypes.py:YANGListType"]}
{"id": "C85", "title": "Unions: their members in order, and their defaults", "statement": "The class generated for a union tries exactly the types that the union lists, in this order, with typedefs of unions among them opened in place; the first that takes a value makes it, and if none does the assignment is refused and changes nothing. The default of a leaf of a union is read by the first member that takes its text.", "quantifier": "all modules with typedefs in dependency order, all unions over them, all values", "why_tests_cant": "the order of tests among the members decides the value, typedefs of unions are flattened by string concatenation in the generator, and the number of combinations of member types is unbounded", "anchors": ["pyangbind/plugin/pybind.py:build_elemtype", "pyangbind/plugin/pybind.py:build_typedefs", "pyangbind/plugin/pybind.py:find_absolute_default_type", "pyangbind/plugin/pybind.py:get_element", "pyangbind/lib/yangtypes.py:YANGDynClass"]}
{"id": "C86", "title": "current() in the path of a leafref", "statement": "A search with a path whose predicates compare a key with current()/../name finds exactly the registered objects that the path leads to when the text of the one object with that name beside the object that asks stands in place of the expression; if there is no such object, or more than one, the search is refused and not answered. A leafref with such a path accepts exactly the values of the leaves that are found.", "quantifier": "all sequences of calls of register and unregister, all data trees after all sessions, all callers, absolute and relative paths with any number of predicates", "why_tests_cant": "what is found depends on the values of two places in the tree at the time of the search; tests have one list and one sibling", "anchors": ["pyangbind/lib/xpathhelper.py:_encode_path", "pyangbind/lib/xpathhelper.py:_get_etree", "pyangbind/lib/xpathhelper.py:get", "pyangbind/lib/yangtypes.py:ReferenceType"]}
{"id": "C87", "title": "Valid documents in the default format are accepted and mean what they say", "statement": "A document in the default JSON format in which every member names a child, every value is taken by its type, the members of leaf-lists are taken as they are, every entry has a name whose parts are taken by the key leaves, and the positions of entries are different numbers, loads without an exception whatever the tree holds; afterwards every leaf, leaf-list, presence container and entry that the document gives holds what the document says.", "quantifier": "all schemas, all valid documents, all states of the tree reached by any operations and loads", "why_tests_cant": "the loader adds and removes in place, and orders the entries by a member that it takes out; whether a later member or entry undoes an earlier one depends on the whole document and on what was there", "anchors": ["pyangbind/lib/serialise.py:load_json", "pyangbind/lib/yangtypes.py:YANGListType", "pyangbind/lib/yangtypes.py:TypedListType"]}
{"id": "C88", "title": "Valid XML documents are accepted and mean what they say", "statement": "An XML document in which every element names a child, every text is taken by the type of its leaf, the members of leaf-lists are taken by one of their types as lxml sees them or else as text, every entry gives its keys once and no two entries have the same keys, loads without an exception whatever the tree holds; afterwards every leaf, member, presence container and entry that the document gives is there with the value that it says.", "quantifier": "all schemas, all valid documents, all states of the tree reached by any operations and loads", "why_tests_cant": "elements for a list or a leaf-list can be scattered over the document and each is loaded on its own; whether a later one undoes an earlier one depends on the whole document and on what was there", "anchors": ["pyangbind/lib/serialise.py:load_xml", "pyangbind/lib/yangtypes.py:YANGListType", "pyangbind/lib/yangtypes.py:TypedListType"]}
{"id": "C89", "title": "Valid documents with data in one case of each choice are accepted and mean what they say", "statement": "In a module with choices, a valid document (IETF JSON, default JSON or XML, as in C84, C87 and C88) that has nothing in two cases of a choice loads without an exception whatever data, of these cases or others, the tree holds; afterwards everything that the document says holds, so no part of the document undoes another part.", "quantifier": "all schemas without nested choices, all valid documents, all states reached by any operations and loads that do not assign whole objects", "why_tests_cant": "every assignment unsets what belongs to other cases, in all objects above it; whether it hits something that the document said before depends on the order of the members, the schema and what was there", "anchors": ["pyangbind/lib/serialise.py:load_json", "pyangbind/lib/serialise.py:load_ietf_json", "pyangbind/lib/serialise.py:load_xml", "pyangbind/lib/yangtypes.py:YANGListType", "pyangbind/lib/yangtypes.py:TypedListType"]}
{"id": "C90", "title": "What is written for one tree can be loaded into another", "statement": "For every program of C73 on one tree and every tree of the same module that holds anything: the document that is written for the first (default JSON, IETF JSON or XML) loads into the second without an exception, and afterwards everything that the first tree holds - values of leaves, members of leaf-lists, present containers, list entries - is in the second.", "quantifier": "all schemas without nested choices, all programs of C73, all states of the second tree reached by any operations and loads that do not assign whole objects", "why_tests_cant": "the tests load into empty objects; what the second tree holds decides which entries are created, which members are removed, and what choices unset", "anchors": ["pyangbind/lib/pybindJSON.py:dumps", "pyangbind/lib/serialise.py:load_json", "pyangbind/lib/serialise.py:load_ietf_json", "pyangbind/lib/serialise.py:load_xml"]}
{"id": "C91", "title": "get_list finds every child, and the root object of the path helper has the top level", "statement": "After every session of C65: get_list with the path of a container or of a list entry and the name of one of its children returns this child, also if it is a list, and raises the exception that the caller chose if there is no such child or nothing at the path. get('/') gives the root object, which has every container, leaf and leaf-list at the top level as element, as attribute and through get_list, and these are the objects of the tree.", "quantifier": "all schemas of C65 whose siblings have different names in Python, all sessions of C65, all paths of names with all keys, with or without a leading slash", "why_tests_cant": "lists are not registered and found through their parents only; what the root object has depends on all registrations before, which no test repeats", "anchors": ["pyangbind/lib/xpathhelper.py:get_list", "pyangbind/lib/xpathhelper.py:register", "pyangbind/lib/base.py:elements"]}
{"id": "C92", "title": "Python numbers, bytes and other objects as values of leaves", "statement": "For every Python number - bool, int, float or Decimal: an integer leaf takes it with what is behind the point dropped and refuses it exactly if that is out of the range of the type; a decimal64 leaf takes the nearest value and refuses nothing in its range; a string leaf takes a text that is read back as the same number. Bytes are read like text. Objects that are neither numbers nor text are refused.", "quantifier": "all Python values except infinities and NaN, all built-in integer types, all fraction-digits", "why_tests_cant": "the tests assign a few ints and texts; floats, Decimals, False, None and containers each take their own way through truthiness tests, TypeError fallbacks and conversions", "anchors": ["pyangbind/lib/yangtypes.py:RestrictedClassType", "pyangbind/lib/yangtypes.py:RestrictedPrecisionDecimalType", "pyangbind/lib/yangtypes.py:YANGDynClass", "pyangbind/lib/yangtypes.py:YANGBitsType", "pyangbind/lib/yangtypes.py:YANGBinary"]}
{"id": "C93", "title": "Ranges of decimal64", "statement": "A decimal64 leaf with a range takes exactly the values for which the number it keeps - the value itself, rounded to the fraction digits - is in the range, in all parts of the forms lo..hi, min..hi, lo..max and a single number, with or without spaces, along the typedefs of its type; other values raise ValueError.", "quantifier": "all ranges, all chains of typedefs, all numbers as bool, int, float, Decimal or text", "why_tests_cant": "the repository has one test of a decimal range; bounds with points meet the two points of the range in one regular expression, and values take different ways by type", "anchors": ["pyangbind/lib/yangtypes.py:RestrictedClassType", "pyangbind/lib/yangtypes.py:RestrictedPrecisionDecimalType", "pyangbind/lib/yangtypes.py:YANGDynClass"]}
{"id": "C94", "title": "Objects carry the extensions of their statements", "statement": "With --interesting-extension, _extensions() of every object of the data tree - containers, lists, entries, leaves, leaf-lists, also in choices - is a dictionary with exactly the extension statements of the interesting modules that the node's own statement has, by module and name, with their arguments; entries have those of their list; it is None if there are none.", "quantifier": "all trees of data definitions with any extensions, all sets of interesting modules, all objects", "why_tests_cant": "the test has one module with one extension; the dictionary depends on the keywords of all substatements", "anchors": ["pyangbind/plugin/pybind.py:get_element", "pyangbind/plugin/pybind.py:get_children", "pyangbind/lib/yangtypes.py:_extensions", "pyangbind/lib/yangtypes.py:YANGListType"]}
{"id": "C95", "title": "Docstrings show the description", "statement": "In the docstrings of the class, the getter and the setter of a node the generated code shows the description of the node word for word, ends of lines as line feeds; whatever the description says, it does not change the code of the bindings.", "quantifier": "all descriptions, all names, paths and types of nodes", "why_tests_cant": "the descriptions of the test modules are plain text; a description is any string, and the effect shows only where it has quotes or backslashes", "anchors": ["pyangbind/plugin/pybind.py:get_children", "pyangbind/plugin/pybind.py:get_element"]}
{"id": "C96", "title": "One helper for several modules", "statement": "Objects of several modules may share one path helper: whatever is constructed, loaded and changed, each container, entry and leaf of the trees that the program now has is found by its path and is the object of that tree. A document that is loaded with a path helper and no object goes into a new object without data; a tree that was loaded before is not updated.", "quantifier": "all modules with distinct names at the top, all programs", "why_tests_cant": "all histories of constructions and operations over several modules", "anchors": ["pyangbind/lib/xpathhelper.py:register", "pyangbind/lib/xpathhelper.py:get", "pyangbind/lib/serialise.py:load_json", "pyangbind/lib/serialise.py:load_ietf_json"]}
{"id": "C97", "title": "The document of a part is that part of the document", "statement": "Every container and entry of a list can be written as a document on its own, in XML and in both JSON formats, whenever the whole tree can, and the result is the element (the object) that the document of the tree has for it, but for the prefixes that names at the top of a document have in the IETF format; the XML document of a module is an element with the name and the namespace of the module, that of a submodule is in the namespace of its module. The JSON document of a whole list is what the document of the tree has for the list, again but for the prefixes.", "quantifier": "all schemas, all trees, all parts at any depth", "why_tests_cant": "every part of every tree, including nodes that other modules add", "anchors": ["pyangbind/lib/serialise.py:pybindIETFXMLEncoder.encode", "pyangbind/lib/serialise.py:pybindIETFXMLEncoder.generate_xml_tree", "pyangbind/lib/serialise.py:pybindIETFJSONEncoder.generate_element", "pyangbind/lib/pybindJSON.py:dumps", "pyangbind/plugin/pybind.py:get_children"]}
{"id": "C98", "title": "Names and namespaces in the generated code", "statement": "The name of a node, its namespace, the module that defines it and the name of its type are, when the bindings are loaded, what the YANG module says, whatever characters a namespace may have; they do not change the code of the bindings.", "quantifier": "all identifiers, all URIs", "why_tests_cant": "the namespaces of the test modules have letters, colons and slashes; a URI may have any of eighty-four characters in any order", "anchors": ["pyangbind/plugin/pybind.py:get_children", "pyangbind/plugin/pybind.py:get_element"]}
{"id": "C99", "title": "Which trees can be written as XML", "statement": "Every tree can be written as XML. No text in a document that is written has a character that XML 1.0 does not have; a tree that holds such a text is refused with ValueError and no document is made.", "quantifier": "all trees, all texts", "why_tests_cant": "a test writes some strings; whether a document is made depends on every character of every value at every depth of the tree", "anchors": ["pyangbind/lib/serialise.py:pybindIETFXMLEncoder"]}
{"id": "C100", "title": "Keys of lists and paths of references in the generated code", "statement": "The keys of a list, with any separators between them, the name of the list, and the path and the name of a reference are, when the bindings are loaded, what the YANG module says; they do not change the code of the bindings.", "quantifier": "all keys and separators, all names, all paths", "why_tests_cant": "the lists of the test modules have their keys on one line with single blanks; keys may be any number of identifiers with any blanks, tabs and ends of lines between them", "anchors": ["pyangbind/plugin/pybind.py:get_children", "pyangbind/plugin/pybind.py:get_element"]}
{"id": "C101", "title": "Bits leaves as Python sets", "statement": "A bits leaf can be changed with every method of Python's sets, and with |=, &=, -= and ^=: a call does what it does on a set, or raises and leaves the set as it was; the bits stay declared ones, str() gives their text; every change marks the leaf as changed and tells the objects around it, as an assignment does, with a path helper or without.", "quantifier": "all bit declarations, all sets, all operations and sequences of them", "why_tests_cant": "the tests call add, discard and clear on one leaf; sets have further methods that the library does not override, and all states matter", "anchors": ["pyangbind/lib/yangtypes.py:YANGBitsType", "pyangbind/lib/yangtypes.py:YANGDynClass"]}
{"id": "C102", "title": "Adding members to a leaf-list with +=", "statement": "x.l += values does what x.l.extend(values) does: it adds the values that the leaf-list takes, and raises exactly if extend() does.", "quantifier": "all leaf-lists, all members, all values", "why_tests_cant": "no test uses += on a leaf-list; that it fails for every list and every value, and what it leaves behind, takes all of them", "anchors": ["pyangbind/lib/yangtypes.py:TypedListType", "pyangbind/plugin/pybind.py:get_children"]}
