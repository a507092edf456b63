st("C01","proved","for hashable values (all nodes are); C01_unhashable_refuted shows the exception for unhashable ones.")
st("C02","proved","balance on the exact domain where it holds, exact counts for slice assignment; _refuted theorems show the failures outside (duplicates, inherited clear).")
st("C03","proved","")
st("C04","partial","REFUTED: both halves of the English property are false of the code, proved for every list and index.")
st("C05","proved","")
st("C06","proved","exact behaviour under every collection schedule; the wider claim (every survivor is visited) is refuted.")
st("C07","partial","REFUTED: the queries raise for every list on Python 3.")
st("C08","proved","")
st("C09","proved","")
st("C10","proved","")
st("C11","proved","")
st("C12","proved","for the accelerated implementation; refuted for the pure-Python one for every set field.")
st("C13","proved","")
st("C14","proved","fget/fset half; attribute access refuted.")
st("C47","proved","")
st("C48","proved","")
st("C49","proved","exact set of marked paths for every history; the wider claim (all descendants) is refuted.")
st("C57","proved","over rationals and, in comparison form, over any arithmetic.")
st("C58","proved","documented order proved; two _refuted theorems show a string result for storage names and the set_/_changed clash.")
st("C59","proved","")
st("C37","proved","complete description over all registration histories; direct assignment to node.DEF is outside and refuted.")
st("C38","proved","")
st("C39","proved","")
st("C40","proved","acyclic graphs; divergence on every graph with a reachable cycle is the refuted half.")
st("C32","proved","")
st("C33","proved","on graphs of plain fields; C34_reaches_exactly extends the reach part to event ports.")
st("C34","proved","exact termination criterion for mixed graphs; the English guarantee (always terminates, delivers the value) is refuted.")
st("C35","partial","REFUTED: the rejected value travels on, for every rejecting field; proved instead that no field ever stores an uncoerced value.")
st("C36","proved","agreement of all ends and exact set counts; 'without echo' and same-node mappings are refuted.")
st("C44","proved","no stale data and retention; two docstring side claims (default after invalidation, other holders unaffected) are refuted.")
st("C45","proved","")
st("C46","proved","for every flags except scale-without-rotate, and for all flags when no center changes; the remaining case is refuted.")
st("C41","proved","equality, freshness and independence in both directions at the level of the node's own fields; sub-nodes are shared for every node (deep claim refuted), the weak root reference becomes strong.")
st("C42","partial","REFUTED for every scenegraph and DEF name; a scenegraph with a DEF name of its own cannot be copied at all.")
st("C43","proved","exact effect of instantiation: last target initialised, nothing else changed, all targets linked; the all-targets claim is refuted.")
st("C60","proved","for lists first set through fset; assigned and default lists are silent, the value and the other fields announced are wrong, += drops children (refuted parts).")
st("C61","partial","REFUTED for every prototype with a mapped field.")
st("C15","proved","canonical format, idempotence and the stored value, for the modelled Python values; string conversions of the runtime are parameters.")
st("C16","proved","on a heap of list objects: termination exactly for finite nestings, exact result, no existing list changed.")
st("C17","proved","sequences accepted iff the flattened length is right; scalars rejected by all, matrices reject all sequences and strings (the documented conversions are refuted).")
st("C18","proved","all components in [0,1] except nan (refuted for nan); MFColor lists of names and triples characterised exactly; iterators and nested triples with names refuted.")
st("C19","proved","each component is the double nearest to byte/255; the #rgb shorthand is refuted.")
st("C50", "proved", "over the reals; exact domain: rotations with an axis")
st("C51", "proved", "over the reals; iff no zero scale factor; parentMatrix pair refuted")
st("C52", "proved", "over the reals")
st("C53", "proved", "over the reals, after any cache history (flags other than scale without rotate, see C46)")
st("C54", "proved", "over the reals; row-vector use of orthoMatrix refuted except for centred boxes")
st("C55", "partial", "REFUTED: center() raises for every non-zero translation or center; the zero case is right")
st("C56", "proved", "over the reals; differ on zero axes and degenerate boxes (refuted there)")
st("C25", "proved", "Nested vectors, and PROTO, EXTERNPROTO or ROUTE between the attributes of a node, are outside the layout theorem; the separator theorem covers every text.")
st("C26", "proved", "Positive on names without a keyword prefix; for names continuing a keyword both refutations hold for every continuation.")
st("C62", "proved", "")
st("C63", "partial", "REFUTED: an empty scene whose first line is ended is a syntax error, for every first line and separators.")
st("C20", "proved", "")
st("C21", "proved", "for writer settings whose separators are separators (both settings shipped are)")
st("C22", "proved", "for every decimal rendering; the round trip of a float is relative to str( float ) being such a rendering that reads back (shown satisfiable); infinities and nans refuted")
st("C23", "proved", "")
st("C24", "proved", "element texts are the tokens, in order, for any length; dimension above 100 refuted (the loop never ends)")
st("C64", "proved", "relative to str( float ) being a faithful decimal rendering, which is shown satisfiable; the nine types without reader and infinities are refuted")
st("C30", "proved", "for declared defaults that are plain numbers, strings, lists or tuples, up to the sign of a zero; array defaults and the sign of a zero are refuted")
st("C31", "proved", "for every reference graph, including cyclic ones")
st("C27", "proved", "for node types with parsable fields and plain defaults (all standard nodes but FontStyle are such: C27_standard_nodes), scenes whose string lists are empty or default and whose shared nodes are named; no PROTO instances, scripts or nested scenegraphs")
st("C29", "proved", "same domain as C27; without the requirement that shared nodes are named it is refuted (C29_unnamed_sharing_refuted)")
st("C28", "partial", "REFUTED: every scene that reaches a node holding a non-empty, non-default string list is written as text that does not parse, at any size, depth and writer settings; every FontStyle is such a node unless its family was emptied")
st("C65", "proved", "MFVec2d is refuted: it is derived from the single-precision base class")
st("C66", "proved", "documents without nested vectors and without PROTO, EXTERNPROTO or ROUTE between attributes; values are plain or start with a node (tidy_doc)")
st("C67", "proved", "where fields that hold one node are given one entry; otherwise refuted")
st("C68", "proved", "where fields that hold one node are given one entry; files that redeclare a type already known are outside the model")
st("C69", "proved", "for every text")
st("C70", "partial", "REFUTED for every document ending with two such instances")
st("C71", "proved", "without PROTOs and Scripts; finite numbers, string lists empty or default, no NULL in lists of nodes; str( float ) faithful")
st("C72", "proved", "saving again: same domain as C27 and C71; equal scenes: all scenes of modelled node types")
st("C73", "proved", "PROTOs of different names; values as in C27; fields mapped by IS hold no nodes; an instance with a value in a field that leads into the body is the only one of its type (C70); what an IS map says about names that are not fields is not kept (C76)")
st("C74", "partial", "REFUTED for every file of C73 with a PROTO")
st("C75", "partial", "REFUTED by a file, and for all files: whatever a PROTO inside another one is, if its name is already taken the saved text is the same")
st("C76", "partial", "REFUTED by a file, and for all files of C73: after saving and loading every IS map left is of a field")
st("C77", "proved", "events given as keywords are refuted")
st("C78", "proved", "that every listed field can be removed is refuted")
st("C79", "proved", "that reading leaves the field intact, and that class values can be deleted, are refuted")
st("C80", "proved", "")
st("C81", "proved", "that unknown names are reported is refuted")
st("C82", "proved", "for ROUTEs that keep their source; changing it is refuted")
st("C83", "proved", "three stronger readings are refuted")
st("C84", "proved", "for a field that does not exist it is refuted")
st("C85", "proved", "Scripts among the children of the scene; fields of types with a value (not SFNode, MFNode) for the values")
st("C86", "proved", "")
st("C87", "proved", "Scripts as children of the scene, no routes; default node fields empty; that field values survive is refuted")
st("C88", "partial", "REFUTED: every such file is a syntax error")
st("C89", "proved", "bodies without the four X3D words (C91); vectors in parentheses within lists are refused")
st("C90", "partial", "REFUTED: COMPONENT, several META statements, a plain number as version")
st("C91", "partial", "REFUTED for inputOutput and outputOnly; proved for the other two, for EXTERNPROTOs")
st("C92", "partial", "REFUTED: every file saved with an EXTERNPROTO is a syntax error")
st("C93", "proved", "USE of a name given several times: the last one before, by C66; fields passed on by IS are left out (C70)")
st("C94", "proved", "rotations are in C98; refutations outside the stated domain included")
st("C95", "proved", "for values of built-in node types; entries after the node of an SFNode field are not looked at and are left out; what a string field makes of an entry that is not a string is not stated")
st("C96", "proved", "encoding utf-8, the default; CPython codecs as specified; refutations beyond the stated domain included")
st("C97", "proved", "observers raise but do not call back into the list or node; integer deletion, which only announces (C04), is covered as it is; refutation beyond the stated domain included")
st("C98", "proved", "pure Python version; float32 values combine with Python numbers as in numpy 2; a zero length raises ZeroDivisionError for Python floats where float64 gives nan; accuracy of the C library is a hypothesis; refutations outside the stated domain included")
st("C99", "proved", "connections do not change while messages are sent; refutation beyond the stated domain included")
st("C100", "proved", "scenes as in C27; of the shader types the seven that have a name and defaults of the right type; refutations for the default parser and for types without name included")
st("C101", "proved", "one thread; methods inherited from weakref.WeakKeyDictionary as in CPython 3.9 to 3.13; refutations beyond the stated domain included")
st("C102", "proved", "the pure Python version, for arguments that are Python floats; that the library's tangent is accurate to one unit in the last place at the angle is a hypothesis; refutation beyond the stated domain included")
st("C103", "proved", "relative to the exact product of the matrices of the parts as stored; how accurate those are is C94 and C98; refutation beyond the stated domain included")
st("C104", "proved", "the pure Python version, numpy 2, all five fields set; excludes nonzero angles whose remainder modulo 2*pi is computed as 0; accuracy of the library's root, cosine and sine is a hypothesis, shown satisfiable; refutations for scales with a 0 and for such angles included")
