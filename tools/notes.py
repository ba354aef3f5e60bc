NOTES = {
"C01": ("proved", "exact characterisation of safe_name, cleanliness, idempotence and the collision criterion, for all strings"),
"C02": ("partial", "false as stated (await, nonlocal, None, True, False are not escaped): refuted with a witness; exact criterion proved"),
"C03": ("partial", "false as stated (safe_name is applied to the whole key argument): refuted; exact criterion proved; which leaves count as keys proved in full; with other separators than one blank, which YANG allows, also false: refuted, and the criterion for arguments with any separators proved"),
"C04": ("partial", "false as stated (/a/b/c and /a-b/c collide): refuted; injectivity proved for alphanumeric names"),
"C05": ("proved", "for all ranges whose single numbers are within 2^53; C05_all_numbers for the others, which stand for the nearest doubles (see C07)"),
"C06": ("proved", "exact, integers and decimal strings"),
"C07": ("partial", "false beyond 2^53 (compared as a double): refuted, and a range of uint64 that accepts nothing; proved up to 2^53; C07_exact: for every number exactly the nearest double (ties to even) is accepted, if the type has it"),
"C08": ("partial", "false with two restrictions on an outer level (any-of): refuted; exact behaviour proved for every number of levels, full statement for one restriction per level and for a single level"),
"C09": ("partial", "false with alternatives outside a group, with a final newline, and for patterns that begin with ^ or end in $ (which stand for themselves in YANG), or have a bare ^ inside: refuted; for the other patterns of the grammar (any nesting, classes, repetitions, categories), with any number of typedef levels, the accepted strings are exactly those of the language; the accepted strings are characterised with alternatives and newlines too"),
"C10": ("partial", "false (text into a range-restricted integer leaf gives 0): refuted; an integer leaf holds the denoted integer within all ranges, or 0"),
"C12": ("proved", "acceptance and numbering"),
"C13": ("partial", "false when explicit and automatic values are mixed: refuted; what all enumerations get instead, exactly when that is what the RFC says, and that it is if names without value come first"),
"C14": ("partial", "legality, membership and re-parsing proved in full; canonical order is false (positions compared as text), proved for positions with equally many digits; C14_order_exact: for all positions the order is that of the decimals 0.p, and canonical exactly if these agree for the bits that are set"),
"C15": ("proved", ""),
"C16": ("proved", ""),
"C17": ("partial", "false (the length of the base64 text is tested as well): refuted; exact conditions proved"),
"C18": ("proved", "nearest, ties to even, exact, idempotent, total on the decimal64 range"),
"C19": ("proved", ""),
"C60": ("partial", "false from three levels on (stored as 0): refuted; exact behaviour for every depth proved"),
"C20": ("partial", "false for a typedef chain and the argument False: refuted; invariant over all operation sequences proved for the other arguments (and for whole-list assignment)"),
"C21": ("partial", "false (membership is tested before conversion): refuted; proved for arguments written as values of the member type"),
"C22": ("proved", "every operation refines the relational sequence specification, with exact outcomes"),
"C23": ("proved", "generic in the entry type; add, keyword add, index assignment, delete, failure, distinct keys, lookup"),
"C24": ("partial", "false (add(5) and add(id=5) give two entries): refuted; proved for one key given positionally in its own spelling and for any number of string keys"),
"C25": ("partial", "false with spaces in key values: refuted; proved without"),
"C26": ("proved", "uuids drawn are assumed pairwise different"),
"C61": ("partial", "false: such a leaf-list stays empty under every sequence of operations"),
"C11": ("partial", "false (a value that fails an inner restriction level has already notified the parents): refuted; proved for everything the constructor rejects, list keys and config false leaves"),
"C27": ("partial", "false with a choice nested in a case of a choice of the same name: refuted; proved otherwise for leaves and leaf-lists and, at any point of a history, for every operation but the assignment of a whole object: frame, enclosing flags, which nodes are cleared"),
"C28": ("partial", "dump in terms of the changed flags, members and presence in full, both directions; flag iff successfully set and since then not unset, not cleared as another case, not in a removed entry: leaves anywhere, no choices nested in cases, histories without assignments of whole objects"),
"C29": ("proved", "every node, all schemas with distinct sibling names, all trees"),
"C30": ("partial", "false for choices at module level, for directly nested choices, behind two further choices, and for data in lists without keys: refuted; proved over all histories of assignments of values, unsets, leaf-list and list operations for schemas without nested choices and lists with keys"),
"C31": ("proved", "all trees, all nodes"),
"C32": ("partial", "false for choices with config false, whose nodes can be assigned: refuted; proved for all others; for all modules exactly when a node can be assigned, and that configuration always can"),
"C33": ("partial", "false for lists (emptied) and leaf-lists (rejected): refuted; proved for sources without list and leaf-list members in choice-free schemas"),
"C34": ("partial", "false (a rejected assignment below makes the container present): refuted; history characterisation for presence containers anywhere, no choices nested in cases, if refused operations have changed nothing; dump part in full"),
"C35": ("partial", "false (a leaf-list of decimal64 comes back empty; a leaf in a choice of the same name as one further down is lost): refuted; proved for all schemas and all trees of storable values with no data in rival cases, in particular with data in one case of every choice"),
"C36": ("partial", "false (uint64/int64 keys come back as text; identity set with a prefix; leaf of type empty set to False): refuted; proved for all schemas whose names have no colon or at sign and all trees of storable values with no data in rival cases, keys included"),
"C37": ("partial", "the order of members is proved not to matter for every document dumps produces; that the tree itself comes back is C35"),
"C38": ("proved", "every member of every object of every document written for a module object"),
"C39": ("partial", "false (typedef of int64 with a range; booleans in leaf-lists): refuted; proved for the other types"),
"C40": ("partial", "false (identity name that starts with the module name; leaf-lists): refuted; proved otherwise"),
"C41": ("partial", "skip_unknown proved in full for the default format; AttributeError false for two ordered entries at one position, and skip_unknown false for arrays in the IETF format: refuted; proved otherwise in both formats, with the exception raised for paths that lead nowhere"),
"C42": ("partial", "false (two stale entries; every IETF document with two entries; lists in list entries): refuted; proved for the default format, lists reached through containers, when the load succeeds"),
"C43": ("partial", "false for integer keys, for paths below a leaf, and in the IETF format for paths without prefixes and for list entries: refuted; proved in both formats for paths that lead through objects of the document"),
"C44": ("partial", "false if a selected leaf is unset in some entry, and for leaves below containers in the IETF format: refuted; proved otherwise in both formats, with the exception raised for paths that lead nowhere"),
"C45": ("partial", "false (an integer leaf that was never set is written): refuted; proved for leaves whose value differs from the default (from False if there is none), at any depth"),
"C52": ("partial", "order and end in full; failure exactly for undefined or circular references, for up to 1001 typedefs or references not deeper than that; refuted: 1002 typedefs in a chain, a module imported under another prefix and given before the importing one, an identity with the name of the typedef, a union inside a union"),
"C55": ("partial", "the nearest default, unless the named typedef has one as well as the leaf, or an unrestricted typedef lies between (both refuted); not for unions (a member's default wins: refuted)"),
"C56": ("partial", "restrictions along any chain of typedefs: strings with one restriction per level or one level, ranges of integers (C60 with two or more), enumerations, fraction-digits without range, unrestricted typedefs of any type; refuted: second pattern, fraction-digits with range"),
"C53": ("partial", "the store holds every identity once, its children are exactly the derived identities, in full; the values by the text of the base for texts that denote one identity (others: C59)"),
"C54": ("partial", "false (a missing base or a cycle): refuted, and for every such set the loop runs forever; builds exactly if every base is defined and nothing derives from itself"),
"C59": ("partial", "false (a bare name, or a prefix, shared by two modules: the last module wins): refuted; proved for texts that denote one identity"),
"C58": ("partial", "false beyond what a double holds, and for decimal64 with a range: refuted; proved below 2^52 units of the last digit, any number of fraction digits"),
"C46": ("partial", "false for brackets in quotes: refuted; joining proved in full; proved for paths whose quoted strings hold no brackets"),
"C47": ("partial", "false if an equal object is registered (the old one stays): refuted; after every sequence of calls the helper is the map that the calls amount to, for names and key values that the predicate syntax can express and lists registered with all their keys"),
"C48": ("partial", "proved after every sequence of calls, for names and key values that the predicate syntax can express"),
"C49": ("partial", "false (objects below an unregistered one, and objects whose registration failed, are kept; a key called obj_ptr): refuted; pointers stored, distinct, and no KeyError proved for every sequence of calls with any texts otherwise"),
"C50": ("partial", "false for values with spaces, empty values, key names with dots, and for \"or\": refuted; proved for any number of predicates in any of the usual spellings otherwise, and brackets that do not begin with a predicate are refused (in bracket texts without brackets and bars), by searches, registrations and removals alike"),
"C51": ("partial", "false if the path leads to exactly one leaf that is no key (the leaf takes the value): refuted; proved otherwise"),
"C57": ("partial", "false (string members and keys that look like numbers, integer keys, the empty string, False of type empty, identities in leaf-lists, length restrictions on members): refuted; proved for all schemas and all trees of storable values with no data in rival cases; string keys with a length restriction and the text form of documents are not modelled"),
"C62": ("partial", "structure, names and namespaces in full; text false for booleans in leaf-lists (1/0): refuted; proved for leaves of the builtin types, their restrictions, bits, unions of builtin types and leafrefs, and for leaf-lists of one builtin type"),
"C63": ("partial", "false for identities whose name starts with the name of their module: refuted; proved otherwise, leaves"),
"C64": ("partial", "false inside the elements of leaves, and namespaces are ignored: refuted; proved for elements in the module, containers and entries at any depth"),
"C65": ("partial", "false (del, a refused add(), unset and assignment of containers leave objects that are still found; an assigned leaf-list is not seen; a leaf refused by its constructor is; lists without keys fail): refuted; everything but assigned leaf-lists is found after any operations that do not fail halfway, and found exactly if only leaves are assigned and entries go with delete(); types and choices are those of other claims (parameters here), loading of documents not modelled here"),
"C66": ("partial", "proved after every sequence of calls, and in data trees after every session that C65 covers, for names and key values that the predicate syntax can express; false for callers that are not registered: refuted; paths with \".\" not covered; current() is in C86, the root object in C91"),
"C67": ("partial", "false (a leaf that is no key in a list with one entry, leaf-lists in list entries, entries removed with del): refuted; proved for all schemas and all sessions that C65 covers exactly, paths of names with or without prefix, absolute or relative; predicates in leafref paths are in C86"),
"C68": ("partial", "false (a typedef in a container in a choice, a submodule included by a submodule only): refuted; proved for definitions at the top or inside containers, lists, groupings, rpcs and notifications with data nodes, all import graphs without circles; with a circle it never ends; of two definitions with one name under one prefix one is found"),
"C69": ("partial", "false (two modules, with the same prefix or not, or two containers of a module): refuted; proved if all typedefs have different names and modules are imported under their own prefixes"),
"C70": ("proved", "all three formats, in full for the modelled documents; in XML a value refused by a leaf-list of texts may be tried again as text; the histories of C70_histories have no assignments of whole objects and draw new names for entries without keys"),
"C71": ("partial", "false for the effect of a refused document (it is loaded up to the error): refuted; what the document has nothing for is proved to stay, in schemas without nested choices, after every history without assignments of whole objects; with overwrite only for the children of the module"),
"C72": ("partial", "false as stated: a text that is no number loads as 0, false loads as the text False for a string restricted twice (refuted); proved for all histories of operations and documents with the blank value as only exception, strings restricted at one level, union and leaf-list member types restricted at one level; bits proved in full for leaves; leafrefs under C48"),
"C73": ("proved", "three formats, any number of operations, each accepted or refused; the values a format can express are those of C35, C36 and C57; in the IETF format and in XML presence is not taken back, and for XML key leaves are not assigned by hand"),
"C74": ("partial", "false for lists without keys and for quotes in key values (refuted; the text of the path also for lists in lists); proved for all other trees"),
"C75": ("partial", "false: methods named like a generated method replace it (anything else of such a name hides it), others named like one of the wrapper class make the construction fail, and none is attached after one called method (refuted); what becomes of each name is given exactly, by kind of object, when none is called method; mangled names, and leaves of typedefs called list or container, not looked at"),
"C76": ("partial", "false: a reserved word inside itself, names that differ only before safe_name(), a and a_ inside a, and containers named like something the head of the file defines (refuted); module and directory agree for all modules; proved in full for names that avoid these; RPCs, notifications and submodules not modelled"),
"C77": ("partial", "false: the annotations of leaf-lists (arrays, RFC 7952 5.2.4) and of the module itself are refused after part of the document was loaded (refuted); the data for all documents; the annotations for schemas without choices, lists with keys, documents that name each child and entry once and without overwrite"),
"C78": ("partial", "false: /a/b/c and /a-b/c share a class, so do the rpc r of module m and /m/rpc/r, a class can be its own child, siblings a-b and a.b share an attribute (all refuted); proved whenever no two different classes of the file have the same name and siblings differ in Python, which holds for any modules without rpcs and notifications whose containers and lists have alphanumeric names"),
"C79": ("partial", "false: a node called append or extend below the top is hidden by a method of the class around the generated one, so it cannot be assigned and get() raises; presence containers without children, entries of lists without keys and rpc inputs take any attribute (all refuted); proved for all other nodes and objects with children, and get() works exactly without these names"),
"C80": ("partial", "indexing with the name of any node raises TypeError, for all schemas (refuted): the library calls what it found; iteration gives all names in order, and the nodes but for those called append or extend (refuted)"),
"C81": ("partial", "integers, booleans, binaries for all texts of RFC 6020 (an octal integer makes the generated file unreadable: refuted); texts without quotes, backslashes and line ends (refuted for each), and C81_escapes with C81_cover: what becomes of every text of a string; bits declared by the leaf itself (refuted for typedefs); decimals become floats: exact iff 5^n divides the digits, equal after rounding up to 52 bits (refuted); references and unions of typedefs refuted"),
"C82": ("partial", "all texts of RFC 6020 are taken for their numbers (decimals: at most the declared fraction digits); the further texts that are accepted are characterised exactly, so the other direction is refuted: spaces, underscores, exponents; junk on a decimal64 raises InvalidOperation; junk in base64 is skipped; non-ASCII digits, the characters 28-31, NaN and Infinity are outside"),
"C83": ("partial", "what loads has the shape of the schema up to a list of exceptions that is part of the statement; that they are exceptions is refuted by documents: a number for a list or an entry empties the list, a text for a leaf-list is taken apart, an array for a leaf, empty arrays under unknown names, anything for a container without children; in XML an empty element for a leaf assigns nothing, and nothing is said of the texts of keys and members; exceptions of mistakes are proved when the mistake comes first (after members at the top level that load)"),
"C84": ("partial", "IETF JSON, schemas without choices (these are in C89), lists with keys, without overwrite; the values of the key leaves are not part of what is said; refuted for documents of the right shape: an entry whose only key is the empty string is refused, a document with a composite key that ends with a space does not load twice"),
"C85": ("partial", "the members and their order are proved for all unions, the defaults for members that are built-in types or unrestricted typedefs of them without defaults; what happens with defaults of members and of typedefs of unions is proved as it is: they replace the leaf's own, and the default of a typedef of a union is read as its last new member. Refuted: defaults behind a decimal64, bits or a restricted typedef make the generator fail, so does a leafref in a typedef of a union with a default; an enumeration takes every default; a union statement directly inside another is never taken"),
"C86": ("partial", "proved after every sequence of calls and in data trees after every session that C65 covers, for expressions current()/ with any number of .. and then names, and for searches that nobody asks; false for current() alone, for key values that contain the text current(), and for texts with an apostrophe: refuted"),
"C87": ("partial", "the default format, schemas without choices (these are in C89), lists with keys, without overwrite; the order of members of leaf-lists is not part of what is said and is not that of the document if some were there; refuted without the hypotheses: a member that is converted is added and removed again, of two entries with one position the first is lost"),
"C88": ("partial", "schemas without choices (these are in C89), documents without lists without keys; the order of members and entries is not part of what is said; members that the document does not give stay (refuted otherwise), an element without text leaves its leaf as it was, and an identity keeps its prefix in a key"),
"C89": ("partial", "choices that are not nested, keys in the case of their list, no assignment of whole objects before; else as C84, C87 and C88; refuted for documents with data in two cases: such a document loads without an exception and what comes first is lost"),
"C90": ("partial", "trees and programs as in C73 (keyed lists, no nested choices, no assignment of whole objects); the values of key leaves are claimed for the default format only"),
"C91": ("partial", "sessions as in C65 (leaf-lists on the root object: not assigned); refuted: lists at the top level are not found, a prefix in the last part is not taken off, entries of lists at the top level stay on the root object after delete, an assigned leaf-list can be another object there; paths with .. and prefixes not covered"),
"C92": ("partial", "proved for numbers and bytes; the last sentence is false: None, lists and dicts given to an integer or decimal64 leaf make it 0 (refuted; a bits leaf raises AttributeError, decimal64 refuses lists); also refuted: fractions are refused by integer leaves, False is tested against the range of the leaf, the value of a bits leaf can be assigned to another; infinities and NaN are not modelled"),
"C93": ("partial", "taken: any chain; refused: at most two ranges in the chain; false, and refuted: a single number that is no double (0.1) is refused, values outside the third range of a chain become 0, False passes the range of the leaf"),
"C94": ("partial", "false for modules with a name of one letter (other statements that begin with it are taken for extensions) and for an extension given twice (the first is lost): both refuted; proved otherwise for siblings with different names in Python; what pyang does to statements is taken for granted"),
"C95": ("partial", "word for word for descriptions without backslashes, NUL and three double quotes in a row, and names, paths and types also without quotes and on one line; with backslashes the escape sequences are replaced, which refutes the claim; what follows three double quotes is read as code (refuted); NUL, too few hexadecimal digits and numbers beyond the last character make the file a SyntaxError; these are all descriptions (C95_cover) but those with a character name (\\N), which is not read; the end of the code after the setter's docstring is not modelled"),
"C96": ("partial", "as C65: not for leaf-lists, key texts that the helper cannot hold, lists without keys and operations that fail halfway; distinct names at the top of the modules; loading is taken as a series of operations; that the search for / finds nothing is a fact about lxml (trusted). Refuted: a second document updates the tree of the first (the intent of the comment in the code), and the entries of a tree that was given up are no longer found"),
"C97": ("partial", "both JSON formats in full, for containers, entries and whole lists (default format: siblings with different names); XML proved with the namespace of the module in place of that of the node: the two documents are the same exactly for nodes in that namespace; refuted for nodes that another module adds (augment); containers without content that are not present are not in the document of the tree; values must be ones that can be written"),
"C98": ("partial", "for namespaces without apostrophes, and for all identifiers and names of types; false for apostrophes, which URIs may have, and refuted: pairs of them are lost, at a single one the literal ends and the rest is read as code; nodes without a namespace are left out"),
"C99": ("partial", "the first sentence is false and refuted: strings with control characters can be assigned and stored as JSON, not as XML; decided (written or ValueError) for trees of all types but identities and unions with bits or leafrefs in leaves, and of one type, no bits and no binary, in leaf-lists; any tree with such a text is refused, or with a leaf-list of identities or binaries or an identity without module, and the texts of all documents that are written are legal; the characters lxml takes are those of XML 1.0 (trusted)"),
"C100": ("partial", "for keys on one line and paths of names, dots, slashes, colons and predicates with blanks and tabs; false, and refuted, for keys over several lines, which RFC 6020 allows: the generated file is a SyntaxError; the same is proved for paths over several lines, which are not legal; escapes and lists without keys are left out"),
"C101": ("partial", "the sets in full (C101_members); declared bits exactly unless update or symmetric_difference_update bring in others, after which str() raises KeyError (refuted); flags exactly (C101_flags): the four inherited methods do not mark the leaf as changed, add, discard and clear do not tell the objects around it; remove with a path helper always raises AttributeError, pop returns None, |= and the like raise AttributeError after the set was changed (all refuted)"),
"C102": ("partial", "the second half is false and refuted: += raises ValueError for every value, also for no values; the first half is proved for leaf-lists of strings, booleans and bits without restrictions and of the built-in integers; C102_pattern: strings with a pattern, where a list whose text matches becomes that one text; no path helper"),
}
