#!/usr/bin/env python3
"""Regenerates /verif/properties.jsonl.  One tuple per property:
(id, title, statement, quantifier, why_tests_cant, anchors)."""
import json, os
YT = "pyangbind/lib/yangtypes.py"
SE = "pyangbind/lib/serialise.py"
PJ = "pyangbind/lib/pybindJSON.py"
XP = "pyangbind/lib/xpathhelper.py"
BA = "pyangbind/lib/base.py"
PL = "pyangbind/plugin/pybind.py"
ID = "pyangbind/helpers/identity.py"
MI = "pyangbind/helpers/misc.py"
def a(f, *syms): return ["%s:%s" % (f, s) for s in syms]
P = []
def p(i, title, stmt, quant, why, anchors):
    P.append(dict(id=i, title=title, statement=stmt, quantifier=quant, why_tests_cant=why, anchors=anchors))

# ---------------------------------------------------------------- naming
p("C01", "Python-safe names",
  "safe_name(n) never contains '-' or '.', is never one of the reserved words, leaves every other character alone, is idempotent, and two YANG names get the same Python name exactly when their '-'/'.'->'_' images are equal or one image is a reserved word and the other is that word followed by '_'.",
  "all strings", "names are unbounded strings; collisions are a property of all pairs of names",
  a(YT, "safe_name", "reserved_name"))
p("C02", "Generated attribute names are legal Python identifiers",
  "For every YANG identifier (RFC 6020 grammar) the attribute name that the generated class uses is a legal Python identifier and not a Python keyword.",
  "all YANG identifiers", "the set of identifiers is infinite; a missing keyword shows only on the one name that is missing",
  a(YT, "safe_name", "reserved_name") + a(PL, "get_element"))
p("C03", "List key attribute names match element names",
  "For every list statement the Python names of its keys (used to address the key leaves of an entry) are exactly the attribute names generated for those key leaves; the leaves that are treated as keys are exactly those that the key statement of their list names.",
  "all key statements (any number of key names)", "depends on which names occur, in which combination",
  a(PL, "get_element") + a(YT, "safe_name", "YANGListType"))
p("C04", "Generated class names are unique",
  "In single-file output two distinct containers/lists of a module never get the same class name.",
  "all pairs of schema paths in a module", "collision depends on a pair of paths", a(PL, "get_element", "get_children"))
# ---------------------------------------------------------------- scalar types
p("C05", "Integer range restrictions are enforced exactly",
  "Assigning an integer to a leaf whose type is a built-in integer type with a range statement (any number of '|' parts, with min/max) succeeds iff the integer lies in one of the parts, and then the stored value is that integer; otherwise ValueError is raised.",
  "all range statements, all integers", "boundaries are unbounded integers and arbitrary unions of intervals",
  a(YT, "RestrictedClassType") + a(PL, "build_elemtype"))
p("C06", "Built-in integer types have exactly the RFC width",
  "An intN leaf accepts exactly -2^(N-1)..2^(N-1)-1 and a uintN leaf exactly 0..2^N-1, for N=8,16,32,64, given either as an integer or as its decimal string, and stores that number.",
  "all integers, all eight types", "2^64 values and infinitely many rejected ones", a(PL, "class_map") + a(YT, "RestrictedClassType"))
p("C07", "Single-value range parts are exact",
  "A range part that is a single number n accepts the integer v iff v = n.",
  "all integers n and v", "goes through binary floating point; only wrong for some large numbers", a(YT, "RestrictedClassType"))
p("C08", "Several restrictions are all enforced",
  "A string leaf whose type chain carries several pattern/length restrictions (on the leaf and on every typedef below it) accepts a string iff every one of the restrictions accepts it.",
  "all restriction sets, all strings, any typedef depth", "any-of and all-of agree on most test inputs", a(YT, "RestrictedClassType"))
p("C09", "Patterns are anchored to the whole value",
  "A pattern restriction accepts a string iff the YANG pattern matches the complete string.",
  "all patterns of the modelled regular-expression language, all strings", "needs all pattern/string pairs", a(YT, "RestrictedClassType", "convert_regexp"))
p("C10", "A leaf never holds a value outside its type",
  "After a successful assignment of any Python value to a leaf, the stored value satisfies every restriction of the leaf's type.",
  "all types, all Python values (None, bool, int, str, bytes, Decimal, float, list, dict)",
  "quantifies over all values of all Python types, including the ones no test thinks of passing", a(YT, "YANGDynClass", "RestrictedClassType"))
p("C11", "A rejected assignment has no effect",
  "When an assignment to a leaf raises, the data tree is exactly as it was before: same values, same changed flags, same choice branches.",
  "all trees, all leaves, all values", "the effect is on other nodes than the one assigned", a(YT, "YANGDynClass", "_set") + a(PL, "get_children"))
p("C12", "Enumeration values",
  "An enumeration leaf accepts exactly the declared names; the numbers reported by getValue(mapped=True) keep every explicit value, give every name without one a number, and are pairwise different whenever the explicit ones are.",
  "all enumerations (any number of names, any explicit values)", "unbounded number of names; assignment loop depends on the whole set", a(YT, "RestrictedClassType", "getValue"))
p("C13", "Enumeration numbering follows RFC 6020",
  "A name without a value gets one more than the highest value before it (0 if it is first).",
  "all enumerations", "depends on all earlier names", a(YT, "RestrictedClassType"))
p("C14", "Bits stay legal and print canonically",
  "After any sequence of add/discard/remove/clear on a bits leaf the set bits are declared bits; str() lists exactly the set bits, each once, in declared position order, and parsing that string gives the same set.",
  "all bit declarations, all operation sequences", "all histories", a(YT, "YANGBitsType"))
p("C15", "Boolean leaves",
  "A boolean leaf accepts exactly the values equal to true/false in one of the documented spellings, stores the corresponding truth value, and re-reading its printed form gives the same value.",
  "all Python values", "the accept set is defined over all values by Python equality", a(YT, "YANGBool"))
p("C16", "Binary round trip",
  "For every byte string, the base64 text written by the serialiser decodes to the same bytes when assigned to a binary leaf.",
  "all byte strings", "all lengths modulo 3 and all byte values", a(YT, "YANGBinary") + a(SE, "default"))
p("C17", "Binary length restriction counts bytes",
  "A binary leaf with a length restriction accepts base64 text iff the number of decoded bytes satisfies the restriction.",
  "all byte strings, all lengths", "encoded and decoded length coincide on small test cases", a(YT, "YANGBinary", "RestrictedClassType"))
p("C18", "decimal64 rounding",
  "Assigning a decimal to a decimal64 leaf with fraction-digits n stores the multiple of 10^-n nearest to it, ties to even; values with at most n fraction digits are stored exactly and storing is idempotent.",
  "all decimals, all n", "tie cases are measure zero among test inputs", a(YT, "RestrictedPrecisionDecimalType"))
p("C19", "Unions take the first member type that accepts",
  "A union leaf accepts a value iff some member type accepts it, and then stores what the first accepting member type makes of it.",
  "all unions, all values", "order-dependent over all values", a(YT, "YANGDynClass"))
# ---------------------------------------------------------------- collections
p("C20", "Leaf-list members always have the declared type",
  "After any sequence of operations on a leaf-list every member is a value of one of the declared member types.",
  "all member types, all operation sequences, all values", "all histories", a(YT, "TypedListType"))
p("C21", "Leaf-list members are unique",
  "After any sequence of operations a leaf-list holds no two equal members.",
  "all operation sequences", "only sequences that mix spellings of one value expose it", a(YT, "TypedListType"))
p("C22", "Leaf-list behaves as a sequence",
  "append/insert/index-assignment/delete/pop/remove/extend on a leaf-list act as on the list of its members: append adds at the end iff absent, insert and index assignment insert before the position, delete removes exactly one; nothing else moves.",
  "all operation sequences", "all histories and all (negative, out of range) indices", a(YT, "TypedListType") + a(YT, "YANGDynClass"))
p("C23", "A YANG list behaves as an insertion-ordered map",
  "add of a fresh valid key appends one entry; add of an existing key raises KeyError and changes nothing; delete removes exactly that entry and raises KeyError if absent; keys() is always in order of insertion and len/in/[] agree with it.",
  "all operation sequences", "all histories", a(YT, "YANGListType"))
p("C24", "List keys and key leaves agree",
  "In every reachable list, the key leaf of each entry holds the value of the key under which the entry is stored, and no two entries have the same key-leaf values.",
  "all operation sequences", "all histories, mixed key spellings", a(YT, "YANGListType"))
p("C25", "Composite keys are unambiguous",
  "Two different tuples of key values never address the same list entry.",
  "all key tuples", "needs the one pair of tuples that collides", a(YT, "YANGListType", "_generate_key", "_item"))
p("C26", "Keyless list entries are never overwritten",
  "Every add() on a list without keys yields a new entry and keeps all the earlier ones.",
  "all numbers of adds", "all histories", a(YT, "YANGListType"))
# ---------------------------------------------------------------- tree
p("C27", "Change tracking",
  "Setting a leaf marks that leaf and every enclosing container below the module as changed; a leaf outside the addressed path keeps its changed flag and value (unless a choice clears it).",
  "all schemas, all trees, all paths", "all depths and all siblings", a(YT, "YANGDynClass", "_set") + a(PL, "get_children"))
p("C28", "get(filter=True) returns exactly the data that was set",
  "The filtered dump contains a leaf iff it was explicitly set, a leaf-list iff it is non-empty, a list iff it has entries, and a container iff something inside is in the dump or it is a present presence container.",
  "all schemas, all trees", "all trees", a(BA, "PybindBase.get"))
p("C29", "get(filter=False) fills in defaults",
  "The unfiltered dump contains every node of the schema; an unset leaf appears with its default if it has a non-empty one, a set leaf with its value.",
  "all schemas, all trees", "all trees", a(BA, "PybindBase.get"))
p("C30", "At most one case of a choice holds data",
  "After any sequence of leaf assignments, for every choice at most one case has data.",
  "all schemas, all operation sequences", "all histories", a(YT, "YANGDynClass", "_set") + a(PL, "get_children_elements"))
p("C31", "Unset restores the initial state",
  "_unset_x makes node x (with its whole subtree) equal to a freshly created one and changes nothing else.",
  "all schemas, all trees", "all trees", a(PL, "get_children"))
p("C32", "config false data is not assignable",
  "A node can be assigned through attribute access iff neither it nor any of its ancestors is config false.",
  "all schema trees", "inheritance over arbitrary depth", a(PL, "get_children", "get_element"))
p("C33", "Assigning a container copies its data",
  "After parent.c = other, the filtered dump of parent.c equals that of other.",
  "all schemas, all trees", "all trees", a(PL, "get_children") + a(YT, "YANGListType"))
p("C34", "Presence containers",
  "A presence container is reported present iff it was marked present or something below it was set since it was last unset; it appears (possibly empty) in the filtered dump iff present.",
  "all operation sequences", "all histories", a(YT, "_set_present", "_present") + a(BA, "PybindBase.get"))
# ---------------------------------------------------------------- serialisation
p("C35", "JSON round trip (default format)",
  "loads(dumps(obj)) yields an object with the same set data.",
  "all schemas, all trees", "all trees", a(PJ, "dumps", "loads") + a(SE, "pybindJSONDecoder.load_json", "YangDataSerialiser"))
p("C36", "IETF JSON round trip",
  "loads_ietf(dumps(obj, mode='ietf')) yields an object with the same set data.",
  "all schemas, all trees", "all trees", a(PJ, "dumps", "loads_ietf") + a(SE, "load_ietf_json", "make_generate_ietf_tree"))
p("C37", "User ordering survives JSON",
  "The entries of an ordered-by-user list come back from loads(dumps(.)) in the same order, whatever order the JSON object members are in.",
  "all lists, all permutations of members", "all permutations", a(SE, "preprocess_element", "load_json"))
p("C38", "IETF member names are namespace-qualified exactly when needed",
  "In IETF JSON a member name carries 'module:' iff the node's namespace differs from its parent's (and always at the top).",
  "all schemas", "all augmentation nestings", a(SE, "yname_ns_func", "make_generate_ietf_tree"))
p("C39", "IETF scalar encodings",
  "In IETF JSON every 64-bit integer and every decimal64 is a JSON string, smaller integers are numbers, booleans are booleans and empty is [null].",
  "all leaf types (any typedef chain) and values", "all typedef chains", a(SE, "IETFYangDataSerialiser"))
p("C40", "IETF identityref values are qualified",
  "An identityref value whose identity is defined in another module than the leaf is written as 'module:identity'.",
  "all identities, all modules", "depends on the pair of names", a(SE, "yangt_identityref"))
p("C41", "Unknown members",
  "load_json / load_ietf_json raise AttributeError on a member the schema does not have; with skip_unknown they give the same object as if the unknown members had been removed first.",
  "all JSON documents", "all documents", a(SE, "load_json", "load_ietf_json"))
p("C42", "overwrite=True replaces list content",
  "After loading with overwrite=True a list holds exactly the entries of the document.",
  "all prior contents, all documents", "all prior states", a(SE, "load_json", "load_ietf_json"))
p("C43", "skip_subtrees removes exactly the named subtree",
  "dumps(obj, skip_subtrees=[p]) removes the node at p and leaves everything else as it is.",
  "all trees, all paths", "all trees", a(PJ, "remove_path", "dumps"))
p("C44", "select keeps exactly the matching entries",
  "dumps(list, select=...) contains exactly the entries whose selected leaves have the requested values; a path that leads to nothing in an entry that is looked at raises KeyError, one that goes on below a leaf AttributeError.",
  "all lists, all selections", "all lists", a(PJ, "dumps"))
p("C45", "with_defaults=IF_SET emits exactly what was set",
  "With WithDefaults.IF_SET a leaf is emitted iff it was explicitly set.",
  "all leaves", "depends on Python equality between unset values and missing defaults", a(SE, "make_generate_ietf_tree"))
# ---------------------------------------------------------------- path helper
p("C46", "Path splitting",
  "_path_parts splits a path at exactly those '/' that are outside quotes and brackets; joining the parts with '/' gives the path back.",
  "all strings", "all strings", a(XP, "_path_parts"))
p("C47", "Registered objects are found",
  "After register(path, obj), get(path) returns [obj]; results for other registered paths do not change; registering again replaces.",
  "all sequences of registrations", "all histories", a(XP, "register", "get"))
p("C48", "unregister removes the subtree",
  "After unregister(path), neither path nor any path below it is found; other paths are unaffected.",
  "all sequences", "all histories", a(XP, "unregister"))
p("C49", "get never fails on a registered tree",
  "In every reachable state of the helper each tree node points at a stored object, distinct nodes at distinct slots, so get() never raises KeyError; and every stored object is reachable from the tree.",
  "all sequences of register/unregister", "all histories", a(XP, "YANGPathHelper"))
p("C50", "Key predicates survive encoding",
  "The predicates of a path element, and how they are combined, are recovered exactly from its textual form; brackets that hold something else are refused, and nothing is changed.",
  "all key names and values", "all strings", a(XP, "_tagname_attributes", "_encode_path"))
p("C51", "Leafref integrity",
  "A leafref with require-instance accepts a value iff some instance with that string value exists at assignment time; without it, and without a path helper, any value is accepted.",
  "all helper states, all values", "all states", a(YT, "ReferenceType"))
# ---------------------------------------------------------------- compiler
p("C52", "Typedef resolution",
  "Typedefs are built in an order in which each one comes after every type it refers to; resolution always terminates and fails exactly if some typedef (transitively) refers to an undefined type or to itself.",
  "all sets of typedefs in all orders", "all dependency graphs", a(PL, "build_typedefs"))
p("C53", "Identity derivation",
  "The values accepted for a base identity are exactly the identities derived from it directly or transitively.",
  "all identity hierarchies in all orders", "all graphs", a(ID, "IdentityStore"))
p("C54", "Identity resolution terminates",
  "Building the identity store terminates for every set of definitions.",
  "all sets of definitions", "non-termination cannot be observed by a test", a(ID, "build_store_from_definitions"))
p("C55", "A leaf's own default wins",
  "The default of a leaf is its own default statement if it has one, otherwise that of the nearest typedef in its type chain that has one.",
  "all type chains", "all chains", a(PL, "get_element"))
p("C56", "Type restrictions survive compilation",
  "The generated type of a leaf enforces every restriction (range, length, pattern, fraction-digits) written in its type statement.",
  "all type statements", "all combinations", a(PL, "build_elemtype"))
p("C57", "XML round trip",
  "decode(serialise(obj)) yields an object with the same set data.",
  "all schemas, all trees", "all trees", a(SE, "pybindIETFXMLEncoder", "pybindIETFXMLDecoder"))
p("C58", "decimal64 survives default-format JSON",
  "A decimal64 value written as a JSON number by dumps() and read back is the same value.",
  "all decimal64 values", "passes through binary floating point", a(SE, "yangt_decimal"))
p("C59", "Identities of the same name do not interfere",
  "An identityref accepts exactly the identities derived from the identity it names, even if another module defines an identity of the same name.",
  "all sets of modules", "needs the colliding pair", a(PL, "build_identities"))

# ---------------------------------------------------------------- added while modelling
p("C60", "Ranges of a typedef chain are all enforced",
  "An integer leaf whose type is a chain of typedefs, each with its own range, rejects every integer that is outside one of the ranges and stores every other integer unchanged.",
  "all chains of any depth, all integers (and all Python values that denote one)", "wrong only from three levels on, for values that fail two levels down",
  a(YT, "RestrictedClassType", "YANGDynClass"))

p("C61", "A leaf-list of bits holds bits values",
  "A value that a leaf of a bits type accepts can be appended to a leaf-list of that type and is then a member.",
  "all bits types, all sequences of operations", "needs a theorem about every sequence of operations to state that the type is unusable",
  a(YT, "TypedListType", "YANGBitsType"))
p("C62", "XML documents mirror the data tree",
  "The XML document written for an object has one element per set leaf, per leaf-list member, per non-empty (or present) container and per list entry, in schema and list order, each with the YANG name and the namespace of its node, and the text of a leaf or member is the lexical form of its value.",
  "all schemas, all trees, with and without filtering", "a relation between every tree and every document", a(SE, "pybindIETFXMLEncoder", "XmlYangDataSerialiser"))
p("C63", "Identities in XML are namespace-qualified",
  "The element of a set identityref leaf declares the prefix that stands for the namespace of the identity's module, and its text is the identity with that prefix unless the identity is of the leaf's own module.",
  "all schemas, all trees", "depends on the names of identities and modules", a(SE, "pybindIETFXMLEncoder", "IETFYangDataSerialiser"))
p("C64", "Unknown XML elements are rejected",
  "Decoding a document that holds an element the schema does not have raises an exception, wherever the element stands.",
  "all schemas, all documents, all trees loaded into", "elements at any depth, after any amount of valid data", a(SE, "pybindIETFXMLDecoder"))
p("C65", "The path helper and the data tree agree",
  "After any operations on a module object that was given a path helper, get() with the path of an object of the tree returns that object, and get() with a path where the tree has nothing returns nothing.",
  "all schemas, all sequences of operations, all spellings of paths", "the helper is updated as a side effect of every construction and deletion", a(YT, "YANGDynClass", "YANGListType", "TypedListType") + a(XP, "register", "unregister", "get"))
p("C66", "Searches find every match once",
  "YANGPathHelper.get() with a path that leaves out keys, absolute or relative to a registered object, returns the registered objects whose names match and whose keys include those given, each exactly once; get_unique() returns the one match or raises the exception it was given.",
  "all sequences of registrations and deregistrations, all paths and spellings", "the result depends on everything registered so far", a(XP, "get", "get_unique"))
p("C67", "Leafrefs refer to what is in the tree",
  "With a path helper, a leafref leaf with require-instance accepts a value exactly if one of the leaves, or one of the members of the leaf-list, that its path means in the data tree at that moment has this value, whether the path is absolute or relative.",
  "all schemas, all sequences of operations before, all values", "the accepted set is the state of other nodes, reached through the helper", a(YT, "ReferenceType") + a(XP, "get", "register", "unregister"))
p("C68", "Every typedef and identity is found",
  "Compiling a set of modules knows every typedef and identity of these modules, of the submodules they include and of the modules they import directly or indirectly, under each prefix by which the module is referred to, and nothing else; the search ends unless modules import each other in a circle.",
  "all sets of modules, all nestings of statements", "all import graphs and all places of a definition", a(PL, "build_pybind") + ["pyangbind/helpers/misc.py:find_definitions"])
p("C69", "Typedefs of the same name do not interfere",
  "A leaf accepts exactly what the type of the typedef accepts that its type statement names by the rules of YANG, whatever typedefs of the same name other modules or other containers define.",
  "all sets of modules", "needs the colliding pair", a(PL, "build_typedefs", "build_elemtype") + ["pyangbind/helpers/misc.py:find_child_definitions"])
p("C70", "Loading is a series of API calls",
  "Loading a document - JSON, IETF JSON or XML - into an object has the effect of a series of assignments, appends, adds, presence flags (and with overwrite=True deletions and resets), each for a node the document names; all succeed if the document is accepted, all but the last if it is not.  Everything true of every sequence of API calls is so true of programs that load documents.",
  "all schemas, all trees reached, all documents accepted or refused", "quantifies over documents and over the state they are loaded into", a(SE, "pybindJSONDecoder", "pybindIETFXMLDecoder") + a(PJ, "loads", "loads_ietf"))
p("C71", "Loading leaves the rest alone",
  "Loading a document without overwrite, accepted or not, changes nothing in the parts of the tree that the document has nothing for, unless they belong to another case of a choice than data of the document; with overwrite this is so of the children of the module that it does not name.",
  "all schemas, all trees reached, all documents", "a frame condition: every node the document does not mention, after every history", a(SE, "pybindJSONDecoder", "pybindIETFXMLDecoder") + a(PJ, "loads", "loads_ietf"))

p("C72", "What a tree holds is of its type",
  "Whatever is done to a module object - assignments, clears, list operations with any arguments, whole objects, documents of all formats, accepted or not - a leaf that is set holds a value of its YANG type, a leaf that is not set holds its initial value, and the members of a leaf-list are values of its type.",
  "all schemas, all sequences of operations and documents", "an invariant over all histories: tests try single assignments, not what survives a refused one after any other steps", a(YT, "YANGDynClass", "RestrictedClassType", "TypedListType") + a(SE, "pybindJSONDecoder", "pybindIETFXMLDecoder"))

p("C73", "Programs whose data survives being stored",
  "Take any program of assignments of values the format can express (or of their texts), clears, leaf-list operations, additions of entries by key or keywords, deletions and _set_present(). Whichever of the operations are refused and in whatever order they come, the data in the object is the same after dumps and loads, after dumps(mode='ietf') and loads_ietf, and after being written and read as XML - for modules whose lists have keys, whose choices are not nested and not named like one further down, and whose node names differ after safe_name().",
  "all such modules, all such programs", "tests dump trees built by a handful of assignments; this is about every interleaving, with refused operations and choices switching case", a(PJ, "dumps", "loads", "loads_ietf") + a(SE, "pybindJSONDecoder.load_json", "load_ietf_json", "pybindIETFXMLEncoder.generate_xml_tree", "pybindIETFXMLDecoder.load_xml") + a(YT, "YANGListType.add"))

p("C74", "Paths identify objects",
  "No two objects of a data tree have the same _path() or the same _yang_path().",
  "all schemas, all trees, all key values", "key values are free text and end up in the path: quotes, slashes and brackets in them have to be told from the syntax of the path", a(YT, "YANGDynClass", "YANGListType") + a(PL, "get_children"))
p("C75", "Extension methods go by schema path",
  "Each public method m of the object given in extmethods for a path is available as _m on all objects with that schema path - for list entries whatever their keys - and on no others; attributes that an object has of its own are never replaced.",
  "all schemas, all trees, all extmethods", "an attribute added to one class can shadow those the library relies on; tests attach two or three methods to one leaf", a(YT, "remove_path_attributes", "YANGDynClass"))

p("C76", "Split classes find one another",
  "In the package written with --split-class-dir every class finds the classes of its children: the module named where a class is used is imported under that name, is hidden neither by the class of the file nor by a name of the file's head, and holds exactly one class of that name.",
  "all modules", "the directory, the import statement and the use of a class are named by three pieces of code; tests generate packages from a few modules with friendly names", a(PL, "get_children", "get_children_elements", "get_element"))

p("C77", "Annotations of IETF JSON documents",
  "Loading an IETF JSON document with annotations (RFC 7952: members '@' and '@name') leaves the data it leaves without them, and afterwards the metadata an object got from the document is exactly what the document says about that node: '@' about the object it is in, '@name' about the child of that name, for a list about each of its entries.",
  "all schemas, documents and trees", "annotations can stand at every level, before or after what they are about, and the objects that carry them are replaced by later assignments; tests load one annotated document", a(SE, "pybindJSONDecoder.check_metadata_add", "pybindJSONDecoder.load_ietf_json") + a(YT, "YANGDynClass"))
p("C78", "The generated file makes the objects the modules declare",
  "After importing the file that the plugin writes for some modules, an object of the class of a module has, at every path of Python names, exactly the node that the module's statements declare there - containers and lists without children left out - with its YANG name, namespace, module, type, default, keys and order; likewise the classes written for its submodules, its rpcs and its notifications.",
  "all sets of modules, statements and options", "classes refer to each other by names made from paths, so that one class can take the place of another anywhere else in the same file; tests generate small modules with a handful of names", a(PL, "build_pybind", "get_children", "get_children_elements", "get_element") + a(YT, "safe_name"))

p("C79", "Data nodes are the attributes of generated objects, and nothing else can be assigned",
  "In an object of a generated class, the attribute with the Python name of a data node reads as that node, assigning it reaches its setter exactly if the node and its ancestors are configuration (AttributeError otherwise), and assigning any other public name raises AttributeError instead of being stored silently; get() of a module never fails for the names of its nodes.",
  "all modules, all containers, lists and entries in them, all attribute names", "which names clash with the methods of the library depends on the schema; typing errors in attribute names are unbounded; test schemas use a fixed handful of names", a(PL, "get_children") + a(YT, "YANGDynClass", "reserved_name") + a(BA, "PybindBase.get"))
p("C80", "Indexing and iteration of generated objects",
  "obj[name] gives the child of that name; iterating over an object gives every child once, in the order of the statements, with its Python name and the child itself.",
  "all modules, all containers and entries in them", "a property of all schemas: no test indexes a generated object by name", a(BA, "PybindBase.__getitem__", "PybindBase.__iter__") + a(YT, "YANGDynClass"))

p("C81", "The default of a leaf is the value its module gives",
  "The default of a leaf, as the generated objects have it, is the value that the text of its nearest default statement stands for in the type of the leaf (RFC 6020): integers in decimal, hexadecimal and octal, decimals, texts, booleans, binaries, bits.",
  "all types that are not unions, all chains of typedefs, all default texts, all values", "the text of the default is pasted into Python code: only a proof over all texts shows for which of them Python reads the value that YANG means", a(PL, "get_element", "get_children", "build_elemtype", "class_map") + a(YT, "YANGDynClass"))

p("C82", "Values given as text are read by YANG's lexical rules",
  "A text assigned to an integer or decimal64 leaf is taken for the number that RFC 6020 reads in it, and refused with ValueError if RFC 6020 reads none; exactly which texts Python reads otherwise is stated too.",
  "all integer types, all fraction-digits, all texts of ASCII characters", "the set of texts is infinite, and tests try the ones their authors think of; Python's int() and Decimal() accept more than YANG", a(YT, "RestrictedClassType", "RestrictedPrecisionDecimalType", "YANGBinary", "YANGDynClass"))

p("C83", "Documents that load have the shape the schema requires",
  "A document - in IETF JSON, the default format or XML - that loads without an exception has an object (an element) for every container, an array (a keyed object, an element for every entry) for every list with the keys in every entry, values that the types take for leaves, and no unknown names unless they are to be skipped; the deviations that are accepted are listed, and the exceptions for mistakes are stated.",
  "all schemas, all documents, all states of the tree, with and without overwrite and skip_unknown", "documents of a wrong shape are unlimited in number, and a silently accepted one changes or empties parts of the tree", a(SE, "pybindJSONDecoder.load_json", "pybindJSONDecoder.load_ietf_json", "pybindIETFXMLDecoder") + a(PJ, "loads", "loads_ietf"))

p("C84", "Valid documents are accepted and mean what they say",
  "An IETF JSON document in which every member names a child, every value is taken by its type, every entry has keys that the key leaves take, and no child or entry is given twice, loads without an exception whatever the tree holds; afterwards every leaf, leaf-list, presence container and entry that the document gives holds what the document says.",
  "all schemas, all valid documents, all states of the tree reached by any operations and loads", "the loader works through the document in place: a later member could undo, refuse or redirect an earlier one, and which combinations do is not visible from examples", a(SE, "pybindJSONDecoder.load_ietf_json") + a(PJ, "loads_ietf") + a(YT, "YANGListType"))

p("C85", "Unions: their members in order, and their defaults",
  "The class generated for a union tries exactly the types that the union lists, in this order, with typedefs of unions among them opened in place; the first that takes a value makes it, and if none does the assignment is refused and changes nothing. The default of a leaf of a union is read by the first member that takes its text.",
  "all modules with typedefs in dependency order, all unions over them, all values", "the order of tests among the members decides the value, typedefs of unions are flattened by string concatenation in the generator, and the number of combinations of member types is unbounded", a(PL, "build_elemtype", "build_typedefs", "find_absolute_default_type", "get_element") + a(YT, "YANGDynClass"))

p("C86", "current() in the path of a leafref",
  "A search with a path whose predicates compare a key with current()/../name finds exactly the registered objects that the path leads to when the text of the one object with that name beside the object that asks stands in place of the expression; if there is no such object, or more than one, the search is refused and not answered. A leafref with such a path accepts exactly the values of the leaves that are found.",
  "all sequences of calls of register and unregister, all data trees after all sessions, all callers, absolute and relative paths with any number of predicates", "what is found depends on the values of two places in the tree at the time of the search; tests have one list and one sibling", a(XP, "_encode_path", "_get_etree", "get") + a(YT, "ReferenceType"))

p("C87", "Valid documents in the default format are accepted and mean what they say",
  "A document in the default JSON format in which every member names a child, every value is taken by its type, the members of leaf-lists are taken as they are, every entry has a name whose parts are taken by the key leaves, and the positions of entries are different numbers, loads without an exception whatever the tree holds; afterwards every leaf, leaf-list, presence container and entry that the document gives holds what the document says.",
  "all schemas, all valid documents, all states of the tree reached by any operations and loads", "the loader adds and removes in place, and orders the entries by a member that it takes out; whether a later member or entry undoes an earlier one depends on the whole document and on what was there", a(SE, "load_json") + a(YT, "YANGListType", "TypedListType"))

p("C88", "Valid XML documents are accepted and mean what they say",
  "An XML document in which every element names a child, every text is taken by the type of its leaf, the members of leaf-lists are taken by one of their types as lxml sees them or else as text, every entry gives its keys once and no two entries have the same keys, loads without an exception whatever the tree holds; afterwards every leaf, member, presence container and entry that the document gives is there with the value that it says.",
  "all schemas, all valid documents, all states of the tree reached by any operations and loads", "elements for a list or a leaf-list can be scattered over the document and each is loaded on its own; whether a later one undoes an earlier one depends on the whole document and on what was there", a(SE, "load_xml") + a(YT, "YANGListType", "TypedListType"))

p("C89", "Valid documents with data in one case of each choice are accepted and mean what they say",
  "In a module with choices, a valid document (IETF JSON, default JSON or XML, as in C84, C87 and C88) that has nothing in two cases of a choice loads without an exception whatever data, of these cases or others, the tree holds; afterwards everything that the document says holds, so no part of the document undoes another part.",
  "all schemas without nested choices, all valid documents, all states reached by any operations and loads that do not assign whole objects", "every assignment unsets what belongs to other cases, in all objects above it; whether it hits something that the document said before depends on the order of the members, the schema and what was there", a(SE, "load_json", "load_ietf_json", "load_xml") + a(YT, "YANGListType", "TypedListType"))

p("C90", "What is written for one tree can be loaded into another",
  "For every program of C73 on one tree and every tree of the same module that holds anything: the document that is written for the first (default JSON, IETF JSON or XML) loads into the second without an exception, and afterwards everything that the first tree holds - values of leaves, members of leaf-lists, present containers, list entries - is in the second.",
  "all schemas without nested choices, all programs of C73, all states of the second tree reached by any operations and loads that do not assign whole objects", "the tests load into empty objects; what the second tree holds decides which entries are created, which members are removed, and what choices unset", a(PJ, "dumps") + a(SE, "load_json", "load_ietf_json", "load_xml"))

p("C91", "get_list finds every child, and the root object of the path helper has the top level",
  "After every session of C65: get_list with the path of a container or of a list entry and the name of one of its children returns this child, also if it is a list, and raises the exception that the caller chose if there is no such child or nothing at the path. get('/') gives the root object, which has every container, leaf and leaf-list at the top level as element, as attribute and through get_list, and these are the objects of the tree.",
  "all schemas of C65 whose siblings have different names in Python, all sessions of C65, all paths of names with all keys, with or without a leading slash", "lists are not registered and found through their parents only; what the root object has depends on all registrations before, which no test repeats", a(XP, "get_list", "register") + a(BA, "elements"))

p("C92", "Python numbers, bytes and other objects as values of leaves",
  "For every Python number - bool, int, float or Decimal: an integer leaf takes it with what is behind the point dropped and refuses it exactly if that is out of the range of the type; a decimal64 leaf takes the nearest value and refuses nothing in its range; a string leaf takes a text that is read back as the same number. Bytes are read like text. Objects that are neither numbers nor text are refused.",
  "all Python values except infinities and NaN, all built-in integer types, all fraction-digits", "the tests assign a few ints and texts; floats, Decimals, False, None and containers each take their own way through truthiness tests, TypeError fallbacks and conversions", a(YT, "RestrictedClassType", "RestrictedPrecisionDecimalType", "YANGDynClass", "YANGBitsType", "YANGBinary"))

p("C93", "Ranges of decimal64",
  "A decimal64 leaf with a range takes exactly the values for which the number it keeps - the value itself, rounded to the fraction digits - is in the range, in all parts of the forms lo..hi, min..hi, lo..max and a single number, with or without spaces, along the typedefs of its type; other values raise ValueError.",
  "all ranges, all chains of typedefs, all numbers as bool, int, float, Decimal or text", "the repository has one test of a decimal range; bounds with points meet the two points of the range in one regular expression, and values take different ways by type", a(YT, "RestrictedClassType", "RestrictedPrecisionDecimalType", "YANGDynClass"))

p("C94", "Objects carry the extensions of their statements",
  "With --interesting-extension, _extensions() of every object of the data tree - containers, lists, entries, leaves, leaf-lists, also in choices - is a dictionary with exactly the extension statements of the interesting modules that the node's own statement has, by module and name, with their arguments; entries have those of their list; it is None if there are none.",
  "all trees of data definitions with any extensions, all sets of interesting modules, all objects", "the test has one module with one extension; the dictionary depends on the keywords of all substatements", a(PL, "get_element", "get_children") + a(YT, "_extensions", "YANGListType"))

p("C95", "Docstrings show the description",
  "In the docstrings of the class, the getter and the setter of a node the generated code shows the description of the node word for word, ends of lines as line feeds; whatever the description says, it does not change the code of the bindings.",
  "all descriptions, all names, paths and types of nodes", "the descriptions of the test modules are plain text; a description is any string, and the effect shows only where it has quotes or backslashes", a(PL, "get_children", "get_element"))

p("C96", "One helper for several modules",
  "Objects of several modules may share one path helper: whatever is constructed, loaded and changed, each container, entry and leaf of the trees that the program now has is found by its path and is the object of that tree. A document that is loaded with a path helper and no object goes into a new object without data; a tree that was loaded before is not updated.",
  "all modules with distinct names at the top, all programs", "all histories of constructions and operations over several modules", a(XP, "register", "get") + a(SE, "load_json", "load_ietf_json"))

p("C97", "The document of a part is that part of the document",
  "Every container and entry of a list can be written as a document on its own, in XML and in both JSON formats, whenever the whole tree can, and the result is the element (the object) that the document of the tree has for it, but for the prefixes that names at the top of a document have in the IETF format; the XML document of a module is an element with the name and the namespace of the module, that of a submodule is in the namespace of its module. The JSON document of a whole list is what the document of the tree has for the list, again but for the prefixes.",
  "all schemas, all trees, all parts at any depth", "every part of every tree, including nodes that other modules add", a(SE, "pybindIETFXMLEncoder.encode", "pybindIETFXMLEncoder.generate_xml_tree", "pybindIETFJSONEncoder.generate_element") + a(PJ, "dumps") + a(PL, "get_children"))

p("C98", "Names and namespaces in the generated code",
  "The name of a node, its namespace, the module that defines it and the name of its type are, when the bindings are loaded, what the YANG module says, whatever characters a namespace may have; they do not change the code of the bindings.",
  "all identifiers, all URIs", "the namespaces of the test modules have letters, colons and slashes; a URI may have any of eighty-four characters in any order", a(PL, "get_children", "get_element"))

p("C99", "Which trees can be written as XML",
  "Every tree can be written as XML. No text in a document that is written has a character that XML 1.0 does not have; a tree that holds such a text is refused with ValueError and no document is made.",
  "all trees, all texts", "a test writes some strings; whether a document is made depends on every character of every value at every depth of the tree", a(SE, "pybindIETFXMLEncoder"))

p("C100", "Keys of lists and paths of references in the generated code",
  "The keys of a list, with any separators between them, the name of the list, and the path and the name of a reference are, when the bindings are loaded, what the YANG module says; they do not change the code of the bindings.",
  "all keys and separators, all names, all paths", "the lists of the test modules have their keys on one line with single blanks; keys may be any number of identifiers with any blanks, tabs and ends of lines between them", a(PL, "get_children", "get_element"))

p("C101", "Bits leaves as Python sets",
  "A bits leaf can be changed with every method of Python's sets, and with |=, &=, -= and ^=: a call does what it does on a set, or raises and leaves the set as it was; the bits stay declared ones, str() gives their text; every change marks the leaf as changed and tells the objects around it, as an assignment does, with a path helper or without.",
  "all bit declarations, all sets, all operations and sequences of them", "the tests call add, discard and clear on one leaf; sets have further methods that the library does not override, and all states matter", a(YT, "YANGBitsType", "YANGDynClass"))

p("C102", "Adding members to a leaf-list with +=",
  "x.l += values does what x.l.extend(values) does: it adds the values that the leaf-list takes, and raises exactly if extend() does.",
  "all leaf-lists, all members, all values", "no test uses += on a leaf-list; that it fails for every list and every value, and what it leaves behind, takes all of them", a(YT, "TypedListType") + a(PL, "get_children"))

out = os.path.join(os.path.dirname(os.path.abspath(__file__)), "..", "properties.jsonl")
with open(out, "w") as f:
    for x in P:
        f.write(json.dumps(x) + "\n")
print(len(P))
