{"id": "C01", "title": "An observable list has exactly the contents a plain list would have", "statement": "After any sequence of append, insert, pop, remove, slice deletion, item assignment, slice assignment, extend and += on an OList, the contents, the returned value and the exception (if any) are those of a builtin list receiving the same sequence (integer deletion is C04).", "quantifier": "every initial list, every finite history of those calls, every index/slice including negative and out-of-range ones", "why_tests_cant": "the claim ranges over unboundedly long histories and all indices; tests use one call on a 3-4 element list", "anchors": ["vrml/olist.py: OList.append, insert, pop, remove, __delitem__, __setitem__, __iadd__, extend"]}
{"id": "C02", "title": "Observers that count add/remove events know the membership of the list", "statement": "For every value v, (number of NEW_CHILD events for v) - (number of DEL_CHILD events for v) equals the change of the number of occurrences of v in the list, for every history in which no slice assignment has duplicates; for any slice assignment the exact event counts are max(0,..)-style functions of the two multisets, and a value is announced as new iff it was not in the replaced slice.", "quantifier": "every history, every value, every slice", "why_tests_cant": "an accounting identity over all histories", "anchors": ["vrml/olist.py: OList._sendAdded, _sendRemoved, __setitem__, __delitem__"]}
{"id": "C03", "title": "Every list event is delivered as a child/parent pair from the current sender", "statement": "Each list-side event NEW/DEL_CHILD(value=v) from sender S is immediately followed by NEW/DEL_PARENT from v with parent=S, where S is the node given to setSender while that node is alive and the list itself otherwise; nothing else is ever sent.", "quantifier": "every operation, every setSender history, every point at which the sender node may be collected", "why_tests_cant": "depends on when the weakly referenced sender is collected", "anchors": ["vrml/olist.py: OList._sender, _sendAdded, _sendRemoved, setSender"]}
{"id": "C04", "title": "Deleting by integer index and += keep list and announcements consistent", "statement": "del l[i] should remove the item it announces as removed, and `l += xs` should leave the name bound to the same observable list. (Settled negatively: del l[i] announces the removal and leaves the list unchanged for every list and every valid index; += rebinds to a plain list of the added values only.)", "quantifier": "every list and valid index / every list and iterable", "why_tests_cant": "the negative result is proved for every list and index, not one example", "anchors": ["vrml/olist.py: OList.__delitem__ lines 80-91, __iadd__ lines 122-125"]}
{"id": "C05", "title": "A weak list shows exactly the live members, in order", "statement": "After any interleaving of append/insert/extend/pop/slice-assignment with object collections, the list holds exactly the surviving entries in list order; a collected object is never visible and never shifts the relative order of survivors.", "quantifier": "every interleaving of list operations and collections (any schedule of the collector)", "why_tests_cant": "the collector may run at any point; tests cannot enumerate schedules", "anchors": ["vrml/weaklist.py: WeakList.wrap, append, insert, extend, pop, __setitem__, __getitem__, __remover"]}
{"id": "C06", "title": "Iterating a weak list visits every member that stays alive", "statement": "Iteration visits all members exactly once in order when nothing is collected during the iteration; if members are collected between steps, a still-live member can be skipped (settled negatively for the wider claim), but a yielded item was always a live member and no member is yielded twice.", "quantifier": "every list, every interleaving of iteration steps and collections", "why_tests_cant": "schedule-dependent", "anchors": ["vrml/weaklist.py: WeakList.__iter__"]}
{"id": "C07", "title": "Membership, count, index, remove, sort and comparison of weak lists", "statement": "`x in wl`, count, index, remove, sort, ==, repr should work like on a list of the live items. (Settled negatively on Python 3: every one of them raises AttributeError for every list, and integer item assignment raises NameError.)", "quantifier": "every weak list and argument", "why_tests_cant": "universal negative", "anchors": ["vrml/weaklist.py: WeakList.get, __contains__, count, index, remove, sort, __eq__, __setitem__"]}
{"id": "C08", "title": "A field reads back what was last stored in it, and only it changes", "statement": "After any history of sets, gets, deletes and notifications, reading field f of node n returns the coercion of the last value successfully set on (n,f) since it was last deleted, or the coerced default; operations on (n,f) never change what any other (node, field) reads.", "quantifier": "every history over any set of nodes and fields, every coercion function (including failing ones)", "why_tests_cant": "unbounded histories with aliasing between fields and nodes", "anchors": ["vrml/field.py: BaseField.__get__, __set__, fset, _set, getDefault, __delete__, fdel", "accelerate/src/fieldaccel2.pyx: BaseField"]}
{"id": "C09", "title": "A rejected value leaves no trace", "statement": "If coercion fails with ValueError or TypeError, set raises ValueError, the stored state of every field of every node is unchanged and no notification is sent; any other exception propagates unchanged with the same guarantee.", "quantifier": "every state, field, value and coercion failure", "why_tests_cant": "crash-point style atomicity over all states", "anchors": ["vrml/field.py: BaseField._set, __set__, fset"]}
{"id": "C10", "title": "Watchers hear every set exactly once and never a default read", "statement": "Every successful set with notification sends exactly one ('set', field) message whose value is the value now stored; sets with notify=0, reads and default materialisation send none. Consequently a watcher that remembers the last message value of a notified-only history agrees with the stored value.", "quantifier": "every history", "why_tests_cant": "ranges over histories; tests never look at message streams", "anchors": ["vrml/field.py: BaseField.__set__, fset, getDefault"]}
{"id": "C11", "title": "Reading an unset field materialises its default once", "statement": "The first read of an unset field stores the coerced default (so fhas becomes true) and returns it; later reads return the same value and store nothing; getDefault() without a client stores nothing.", "quantifier": "every state and field", "why_tests_cant": "idempotence over every state", "anchors": ["vrml/field.py: BaseField.__get__, getDefault, Field.fhas"]}
{"id": "C12", "title": "Deleting a field value returns it to its default", "statement": "With the accelerated implementation: deleting a set field removes it, sends one ('del', field), and the next read gives the default; deleting an unset field raises AttributeError and changes nothing. With the pure-Python implementation the value survives the deletion (settled negatively for every set field).", "quantifier": "every state, node and field", "why_tests_cant": "universal statement about both implementations", "anchors": ["vrml/field.py: BaseField.__delete__, fdel", "accelerate/src/fieldaccel2.pyx: BaseField._del, __delete__"]}
{"id": "C13", "title": "The accelerated and the pure-Python field behave the same", "statement": "For every history of __set__, fset, __get__, getDefault without deletions the two implementations produce the same stored state, the same results and the same notifications; the first divergence is always a deletion.", "quantifier": "every history", "why_tests_cant": "equivalence over all histories", "anchors": ["vrml/field.py: BaseField", "accelerate/src/fieldaccel2.pyx: BaseField"]}
{"id": "C14", "title": "Weak node fields never hand out a dead node", "statement": "fget of a weak field returns None or a live node for every interleaving of sets and collections; setting a falsy value clears it. Attribute access (descriptor __get__) bypasses the dereference and returns the raw reference (settled negatively).", "quantifier": "every interleaving of sets, reads and collections", "why_tests_cant": "depends on collector schedule", "anchors": ["vrml/field.py: WeakField.fset, fget", "vrml/node.py: WeakSFNode"]}
{"id": "C15", "title": "Coercion produces canonical values and is idempotent", "statement": "For SFBool, SFInt32, SFFloat, SFString, MFString, MFInt32, MFFloat, SFVec*, MFVec*, SFColor, MFColor: a successful coercion yields a value in the canonical storage format, and coercing that value again yields the same value.", "quantifier": "every Python value of the modelled kinds, every nesting", "why_tests_cant": "ranges over all values", "anchors": ["vrml/fieldtypes.py: _SFBool, _SFInt32, _SFFloat, _SFString, _MFString, _MFInt32, _MFFloat, _SFVec, _MFVec, _Color .coerce"]}
{"id": "C16", "title": "Nested sequences are flattened completely and in order", "statement": "collapse(x) terminates for every finite nesting of lists and returns exactly the leaves in left-to-right order, leaving the argument unchanged.", "quantifier": "every finite tree of lists, any depth and width, including empty lists", "why_tests_cant": "in-place mutation while scanning: termination and correctness need an induction", "anchors": ["vrml/fieldtypes.py: _collapse, collapse"]}
{"id": "C17", "title": "Vector fields accept exactly the sequences with the right number of components", "statement": "A 1-D vector field accepts a (nested) sequence of numbers iff its flattened length is the dimension and stores the numbers in order. Scalars are rejected for every vector field and matrix fields reject every Python sequence (settled negatively for the wider claim).", "quantifier": "every dimension, every nested sequence", "why_tests_cant": "all lengths and nestings", "anchors": ["vrml/fieldtypes.py: _SFVec.coerce, _SFMatrix3f, _SFMatrix4f"]}
{"id": "C18", "title": "Colours are always within [0,1]", "statement": "Every component of a stored SFColor/MFColor value is in [0,1]; values already in range are unchanged; MFColor accepts a mix of colour names and RGB triples and yields one row per colour in order, rejecting left-over components.", "quantifier": "every sequence of numbers and names", "why_tests_cant": "all inputs", "anchors": ["vrml/fieldtypes.py: _Color.coerce, _SFColor.coerce, _MFColor.coerce"]}
{"id": "C19", "title": "Colour strings denote the colour they spell", "statement": "'#rrggbb' decodes to (r/255,g/255,b/255) for every r,g,b in 0..255 in either letter case; names are case-insensitive; toInt(toFloat(n)) = n for every byte; every named colour is in [0,1]^3.", "quantifier": "all 2^24 hex colours, all spellings, all names", "why_tests_cant": "2^24 times letter-case variants", "anchors": ["vrml/csscolors.py: stringToColor, toFloat, toInt, cssColors"]}
{"id": "C20", "title": "Any string survives being written as an SFString and parsed back", "statement": "For every string s (any characters, including quotes, backslashes, newlines), parsing the written SFString with the VRML97 grammar consumes exactly the written text and yields s.", "quantifier": "every string and every following text", "why_tests_cant": "all strings, all escape combinations", "anchors": ["vrml/fieldtypes.py: SFString_vrmlstr", "vrml/vrml97/parser.py: grammar SFString, CHARNODBLQUOTE, ESCAPEDCHAR, SIMPLEBACKSLASH", "vrml/vrml97/parseprocessor.py: SFString"]}
{"id": "C21", "title": "Any list of strings survives being written as an MFString field value and parsed back", "statement": "For every list of strings, the text produced by MFString_vrmlstr parses as a Field whose MFString value is that list (short, long and single-element layouts).", "quantifier": "every list of strings", "why_tests_cant": "all lists; three layouts selected by total length", "anchors": ["vrml/fieldtypes.py: MFString_vrmlstr", "vrml/vrml97/parseprocessor.py: MFString, Field"]}
{"id": "C22", "title": "Compact float notation preserves the number", "statement": "SFFloat_vrmlstr applied to any decimal rendering of a finite float yields a text the grammar's SFNumber consumes entirely and which denotes the same number.", "quantifier": "every finite decimal rendering with or without exponent", "why_tests_cant": "all floats", "anchors": ["vrml/fieldtypes.py: SFFloat_vrmlstr", "vrml/vrml97/parser.py: grammar SFNumber"]}
{"id": "C23", "title": "Integers survive being written and parsed back", "statement": "For every integer, the written decimal text is consumed entirely by SFNumber and int(text,0) is that integer.", "quantifier": "every integer", "why_tests_cant": "all integers", "anchors": ["vrml/fieldtypes.py: _SFInt32.vrmlstr", "vrml/vrml97/parser.py: SFNumber", "vrml/vrml97/parseprocessor.py: SFInt32, MFInt32"]}
{"id": "C24", "title": "Long numeric lists are written in chunks without losing or merging elements", "statement": "The text of an MFInt32/MFFloat/MFVec value of any length parses as a Field whose number tokens are exactly the element texts in order; the chunking loop terminates for every element dimension up to 100.", "quantifier": "every list length and element", "why_tests_cant": "chunk boundaries at 100/33/... elements; all lengths", "anchors": ["vrml/fieldtypes.py: MFSimple_vrmlstr, _MFVec.vrmlstr", "vrml/vrml97/parser.py: Field"]}
{"id": "C25", "title": "Whitespace, commas and comments between tokens do not matter", "statement": "The separator production consumes exactly the maximal run of blanks, commas and terminated comments; two texts differing only in separators between tokens parse to the same tree.", "quantifier": "every separator text", "why_tests_cant": "all interleavings of blanks, commas, comments", "anchors": ["vrml/vrml97/parser.py: grammar <ts>"]}
{"id": "C26", "title": "Names that start with a keyword are read as names", "statement": "A field or node-type name should be read as one name. (Settled negatively: a node type or field whose name merely starts with DEF, USE, Script, NULL, TRUE, FALSE, PROTO, ROUTE is mis-tokenised; proved for names without such a prefix.)", "quantifier": "every well-formed name", "why_tests_cant": "all names", "anchors": ["vrml/vrml97/parser.py: grammar Node, Script, Field, rootItem"]}
{"id": "C27", "title": "A written scene parses back to the same scene", "statement": "For every scene of declared node types with scalar, vector, multi-value and node fields, DEF names and shared nodes satisfying the stated well-formedness, linearise then parse yields an isomorphic scene (same node types, DEF names, field values, sharing).", "quantifier": "every scene of any size and depth satisfying the well-formedness predicate", "why_tests_cant": "composition of lineariser, grammar and builder over all scenes", "anchors": ["vrml/vrml97/linearise.py: Lineariser", "vrml/vrml97/parser.py", "vrml/vrml97/parseprocessor.py: ParseProcessor"]}
{"id": "C28", "title": "Nodes with string lists are written as readable VRML", "statement": "A node holding a non-empty MFString attribute should be written as parseable text. (Settled negatively: for every non-empty string list the attribute writer emits an unbalanced '[' and the result does not parse.)", "quantifier": "every non-empty string list", "why_tests_cant": "universal negative", "anchors": ["vrml/vrml97/linearise.py: _sffield, _mfnode, _linear", "vrml/protofunctions.py: protoName"]}
{"id": "C29", "title": "Shared nodes are written once and referenced afterwards", "statement": "In the written form of any finite node graph each DEF-named node's body occurs at most once per scene and every other occurrence is USE name, after the DEF.", "quantifier": "every finite node graph including shared and cyclic ones", "why_tests_cant": "all graphs", "anchors": ["vrml/vrml97/linearise.py: _canUse, _Node"]}
{"id": "C30", "title": "A field differing from its default is never dropped when writing", "statement": "Attributes are omitted only when they equal the default. Proved for scalars, strings and lists; settled negatively for array-valued defaults: safeCompare treats arrays sharing a single element as equal.", "quantifier": "every pair of values", "why_tests_cant": "all pairs", "anchors": ["vrml/arrays.py: safeCompare", "vrml/vrml97/linearise.py: _attrDict"]}
{"id": "C31", "title": "Writing terminates on every finite node graph, even a cyclic one", "statement": "The lineariser terminates on every finite graph of nodes, shared or cyclic, and visits each node's body at most once.", "quantifier": "every finite graph", "why_tests_cant": "termination on all graphs", "anchors": ["vrml/vrml97/linearise.py: _canUse, _Node, _linear, _mfnode"]}
{"id": "C32", "title": "Event cascades terminate and set each target at most once per event", "statement": "For every ROUTE graph between ordinary fields, including cycles and self-loops, the cascade started by one notification terminates, and within one event each (node, field) target is set at most once.", "quantifier": "every finite route graph, every value, every coercion", "why_tests_cant": "termination and at-most-once over all graphs", "anchors": ["vrml/route.py: ROUTE.forward, _forward", "vrml/event.py: Event.visited"]}
{"id": "C33", "title": "An event reaches exactly the fields connected to its source", "statement": "After the cascade every (node, field) reachable from the source over routes holds the routed value (when all coercions accept it), and every field not reachable is unchanged.", "quantifier": "every finite route graph", "why_tests_cant": "reachability over all graphs", "anchors": ["vrml/route.py: ROUTE._forward"]}
{"id": "C34", "title": "Routing into events keeps the guarantee of cycle-free delivery and values", "statement": "Routes through eventIn/eventOut ports should also terminate on cycles and deliver the routed value. (Settled negatively: a two-route cycle between events recurses forever, and the 'route' message after an event target carries None, overwriting later targets.)", "quantifier": "every recursion budget / the stated graphs", "why_tests_cant": "non-termination for every budget", "anchors": ["vrml/route.py: ROUTE._forward lines 97-107", "vrml/field.py: Event.__set__"]}
{"id": "C35", "title": "A value rejected by a routed field is not propagated", "statement": "If an intermediate field rejects a routed value, fields downstream should not receive it. (Settled negatively: the uncoerced value is forwarded.)", "quantifier": "every rejecting coercion", "why_tests_cant": "holds for every rejecting field", "anchors": ["vrml/route.py: ROUTE._forward lines 92-107"]}
{"id": "C36", "title": "An IS mapping mirrors changes in both directions without echo", "statement": "Setting either end of an IS mapping sets the other end exactly once and terminates; for a set of IS mappings on one field all ends agree afterwards.", "quantifier": "every number of mappings and every value", "why_tests_cant": "all fan-outs", "anchors": ["vrml/route.py: IS.bind, IS.forward", "vrml/node.py: PrototypedNode.instantiate"]}
{"id": "C37", "title": "A DEF name table agrees with the nodes' own names", "statement": "Starting from an empty table, after any sequence of regDefName calls on one scenegraph: if the table maps name d to node o then o's DEF is d; hence no node is listed under two names; the most recent registration of a name wins; lookups of other names of other nodes are unaffected.", "quantifier": "every sequence of registrations", "why_tests_cant": "invariant over histories of renamings and collisions", "anchors": ["vrml/vrml97/scenegraph.py: SceneGraph.regDefName, getDEF"]}
{"id": "C38", "title": "Prototype lookup finds the nearest enclosing definition", "statement": "getProto(name) returns the definition in the nearest scenegraph of the chain that defines name, or None; definitions elsewhere never shadow it.", "quantifier": "every chain of nested scenegraphs", "why_tests_cant": "all depths and shadowings", "anchors": ["vrml/vrml97/scenegraph.py: SceneGraph.getProto, addProto"]}
{"id": "C39", "title": "Routed nodes get fresh unique DEF names when written", "statement": "Before writing, every route endpoint without DEF gets a name PROTO_n not in use in the scene (smallest such n); the search terminates for every table; afterwards both endpoints of every route resolve to the right node.", "quantifier": "every DEF table and list of routes", "why_tests_cant": "search termination and freshness over all tables", "anchors": ["vrml/vrml97/linearise.py: _preroute, _route"]}
{"id": "C40", "title": "Setting the root scenegraph reaches every descendant", "statement": "On every acyclic node graph, setting a node's root sets it on all descendants and terminates; on any graph with a reachable cycle it never terminates (settled negatively).", "quantifier": "every finite graph", "why_tests_cant": "termination/divergence over all graphs", "anchors": ["vrml/node.py: RootScenegraphNode.fset"]}
{"id": "C41", "title": "A copied node equals the original and is independent of it", "statement": "copy() yields a node with equal field values; arrays and string lists are fresh; sub-nodes are the same objects, so changes below are shared (settled negatively for the deep claim).", "quantifier": "every node and every later mutation", "why_tests_cant": "all values and all later mutations", "anchors": ["vrml/node.py: Node.copy, _MFNode.copyValue", "vrml/field.py: Field.copy, copyValue", "vrml/copier.py: Copier.use"]}
{"id": "C42", "title": "A copied scenegraph's DEF table points into the copy", "statement": "getDEF on a copied scenegraph should return a node of the copied tree. (Settled negatively: it returns a fresh copy that is not in the tree, for every DEF-named root child.)", "quantifier": "every scenegraph with a named child", "why_tests_cant": "universal negative", "anchors": ["vrml/vrml97/scenegraph.py: SceneGraph.copy"]}
{"id": "C43", "title": "Every IS target of a prototype field starts with the field's default", "statement": "Instantiating a prototype should push each field's default to all its IS targets. (Settled negatively: only the last target of each field is initialised; proved for single targets.)", "quantifier": "every list of IS mappings", "why_tests_cant": "all mapping lists", "anchors": ["vrml/node.py: PrototypedNode.instantiate lines 198-217"]}
{"id": "C44", "title": "Cached data is never served after a dependency changed", "statement": "For every history of holder creation, set, depend, field notifications (set/del/route) and collections, getData returns data d only if d was stored after the last notification of any dependency of that holder.", "quantifier": "every history and schedule of collections", "why_tests_cant": "staleness is a history property", "anchors": ["vrml/cache.py: Cache.getData, CacheHolder"]}
{"id": "C45", "title": "Cache entries die with their node and never leak to a new node", "statement": "When a client node is collected its entries disappear; a new object reusing its id sees an empty cache.", "quantifier": "every allocation/collection schedule with id reuse", "why_tests_cant": "id reuse depends on allocator", "anchors": ["vrml/cache.py: cleaner, CacheHolder.__init__"]}
{"id": "C46", "title": "A path's cached transform matrix is always up to date", "statement": "After any history of field changes on the path's transforms, transformMatrix(flags) returns what a fresh computation would, for all flags except scale-without-rotate, where a change of center is missed (settled negatively).", "quantifier": "every path, every history of field sets, all 16 flag combinations", "why_tests_cant": "histories times flag combinations", "anchors": ["vrml/vrml97/nodepath.py: _NodePath.transformMatrix", "vrml/vrml97/basenodes.py: Transform.localMatrices"]}
{"id": "C47", "title": "common() is the longest common root path", "statement": "common(p,q) is a prefix of both p and q by object identity and every common prefix is a prefix of it; it is commutative on contents.", "quantifier": "every pair of paths", "why_tests_cant": "all pairs", "anchors": ["vrml/nodepath.py: NodePath.common"]}
{"id": "C48", "title": "Path equality is element identity and + extends at the tail", "statement": "p == q iff the same node objects in the same order; (p+q) has p's nodes then q's; equality is an equivalence and congruent for +.", "quantifier": "every pair/triple of paths", "why_tests_cant": "algebraic laws", "anchors": ["vrml/nodepath.py: NodePath.__eq__, __add__"]}
{"id": "C49", "title": "Invalidating a path marks the paths built from it", "statement": "invalidate marks the path, its live children and their live children as broken and nothing else; deeper descendants are not marked (settled negatively for the wider claim).", "quantifier": "every tree of derived paths and every collection schedule", "why_tests_cant": "all tree shapes", "anchors": ["vrml/vrml97/nodepath.py: _NodePath.__add__, iterchildren, iterdescendents, invalidate"]}
{"id": "C50", "title": "The transform matrix implements the VRML Transform semantics", "statement": "For every point p, dot(p, transformMatrix(...)) equals translating by -center, unrotating by scaleOrientation, scaling, rotating back, rotating, translating by center and by translation, in this order (rotation by Rodrigues' formula about the normalised axis).", "quantifier": "all real parameters and points", "why_tests_cant": "all reals; includes the None shortcuts", "anchors": ["vrml/vrml97/transformmatrix.py: transformMatrix, compressMatrices", "vrml/vrml97/_transformmatrix.py: rotMatrix, scaleMatrix, transMatrix"]}
{"id": "C51", "title": "The inverse transform undoes the transform", "statement": "itransformMatrix of the same parameters is a two-sided inverse of transformMatrix whenever all scale factors are non-zero (and a rotation axis is non-zero); with a parentMatrix the pair returned by transformMatrices is not inverse in general (settled negatively).", "quantifier": "all real parameters", "why_tests_cant": "all reals", "anchors": ["vrml/vrml97/transformmatrix.py: itransformMatrix, transformMatrices, localMatrices"]}
{"id": "C52", "title": "Rotation matrices are rotations", "statement": "rotMatrix yields R,R' with R R' = I, R' = transpose R, det R = 1, the axis is fixed, lengths are preserved, and scaling the axis by a positive factor does not change R; None is returned exactly for multiples of 2 pi.", "quantifier": "all axes and angles", "why_tests_cant": "all reals", "anchors": ["vrml/vrml97/_transformmatrix.py: rotMatrix"]}
{"id": "C53", "title": "A path matrix is the composition of its transforms and inverse=True inverts it", "statement": "transformMatrix of a path maps leaf coordinates to root coordinates through every transform in turn, and its inverse variant is its two-sided inverse, for paths of any length.", "quantifier": "paths of any length, all real parameters", "why_tests_cant": "unbounded path length", "anchors": ["vrml/vrml97/nodepath.py: transformMatrix, transformChildren", "vrml/vrml97/transformmatrix.py: compressMatrices"]}
{"id": "C54", "title": "Projection matrices", "statement": "perspectiveMatrix(inverse=True) inverts perspectiveMatrix for all non-degenerate parameters; orthoMatrix maps the view box to the clip cube as a column-vector matrix, but not under the documented row-vector convention (settled negatively).", "quantifier": "all non-degenerate real parameters", "why_tests_cant": "all reals", "anchors": ["vrml/vrml97/_transformmatrix.py: perspectiveMatrix, orthoMatrix"]}
{"id": "C55", "title": "center() returns the centre of rotation", "statement": "center(translation, center) should return the parent-space centre. (Settled negatively: it raises ValueError for every non-zero translation or center.)", "quantifier": "all parameters", "why_tests_cant": "universal negative", "anchors": ["vrml/vrml97/transformmatrix.py: center"]}
{"id": "C56", "title": "Accelerated and pure-Python matrices agree", "statement": "tmatrixaccel and _transformmatrix return the same matrices for all parameters with a non-zero axis.", "quantifier": "all real parameters", "why_tests_cant": "all reals", "anchors": ["accelerate/src/tmatrixaccel.pyx", "vrml/vrml97/_transformmatrix_accel.py", "vrml/vrml97/_transformmatrix.py"]}
{"id": "C57", "title": "Frustum culling excludes a point set iff some plane excludes all points", "statement": "planeCull returns (True, plane) iff some plane has all points strictly further than minDistance behind it, and then returns the first such plane; otherwise (False, None).", "quantifier": "every number of planes and points", "why_tests_cant": "all configurations including empty ones", "anchors": ["accelerate/src/frustcullaccel.pyx: planeCull"]}
{"id": "C58", "title": "Field lookup resolves names as documented", "statement": "getField(cls, name) terminates for every string, prefers an attribute with exactly that name, then storage names, then strips set_/_changed (recursively); on failure raises AttributeError. For storage names it returns the name itself instead of the field object (settled negatively).", "quantifier": "every class and every string", "why_tests_cant": "recursion over all strings", "anchors": ["vrml/protofunctions.py: getField"]}
{"id": "C59", "title": "getFields lists each field once with subclass overrides winning", "statement": "getFields(cls) returns for each attribute name defined as a field somewhere in the MRO the most derived such definition, exactly once.", "quantifier": "every MRO", "why_tests_cant": "all hierarchies", "anchors": ["vrml/protofunctions.py: getFields"]}
{"id": "C60", "title": "List changes of a node-list field are announced as changes of that field", "statement": "Mutating node.children in place sends ('set', children) from the node, if the list was first assigned through fset/constructor. For lists obtained by default read or attribute assignment nothing is announced, the announced value is the node instead of the list, and other node-list fields of the same node are announced too (settled negatively).", "quantifier": "every history of assignments and in-place mutations", "why_tests_cant": "history-dependent wiring", "anchors": ["vrml/node.py: _MFNode.fset, _changeSender", "vrml/olist.py"]}
{"id": "C61", "title": "Instances of a prototype are independent", "statement": "Setting a mapped field of one instance of a PROTO should not affect other instances. (Settled negatively: all instances share the template's nodes, so setting a field of one sets the same field of every other live instance, and creating an instance resets the shared implementation to the defaults.)", "quantifier": "every prototype with a mapped field, every pair of instances and every value", "why_tests_cant": "universal negative over prototypes and routing histories", "anchors": ["vrml/node.py: PrototypedNode.instantiate", "vrml/route.py: IS"]}
{"id": "C62", "title": "The parser gives exactly one answer for every text", "statement": "Parsing any text as a VRML97 file terminates, with one result (a tag tree, or a syntax error); a text that is accepted has been consumed completely.", "quantifier": "every text of any length", "why_tests_cant": "termination and determinism over all texts", "anchors": ["vrml/vrml97/parser.py: grammar, Parser"]}
{"id": "C63", "title": "A file without contents", "statement": "A text consisting of its first line and separators only should be an empty scene. (Settled negatively: for every first line, ending it with a newline and any separators is a syntax error; the first line without its newline is accepted.)", "quantifier": "every first line and every separator text", "why_tests_cant": "universal negative", "anchors": ["vrml/vrml97/parser.py: grammar vrmlFile, vrmlScene, rootItem"]}
{"id": "C64", "title": "Every storable field value survives being written and read back", "statement": "For each of the 20 field types with a reader, and every value without infinities or nans that an assignment can leave in such a field, the text written by the field is taken by the grammar as exactly one field value, in every context, and reading it stores the same value again. For the nine types without a reader, reading always fails (settled negatively).", "quantifier": "every field type, every value, every writer setting and every following text", "why_tests_cant": "universal over values, lengths and floating-point numbers", "anchors": ["vrml/fieldtypes.py: vrmlstr methods, coerce methods", "vrml/vrml97/parseprocessor.py: Field, SFBool, SFFloat, SFInt32, SFVec3f, MFInt32, MFFloat, MFString, SFString"]}
{"id": "C65", "title": "Every field type stores its numbers in the format its name promises", "statement": "Whatever is assigned, an accepted value is stored as the number format of its type; double-precision vector, row and list types keep every double exactly, single-precision types store the nearest single, integer lists take exactly the 32-bit range and keep each number. The field class MFVec2d stores single precision (settled negatively).", "quantifier": "every field type, every accepted argument, every double and integer", "why_tests_cant": "universal over floating-point numbers and list lengths", "anchors": ["vrml/fieldtypes.py: coerce methods, the *f/*d field classes, MFVec2d"]}
{"id": "C66", "title": "Reading a file gives the scene the text describes", "statement": "Whatever layout, reading a document gives exactly the nodes in the order of the text, each with the type, DEF name and field values written there; USE gives the last node so named before, in the same scene; ROUTEs connect the nodes named; PROTOs get a body with names and IS maps of its own. A document without PROTOs for which this description exists is read without an exception.", "quantifier": "every document of any size and depth made of nodes, values, DEF/USE, ROUTE, PROTO and IS, every layout, every table of built-in node types", "why_tests_cant": "universal over documents, nesting and layouts", "anchors": ["vrml/vrml97/parseprocessor.py: ParseProcessor", "vrml/vrml97/parser.py: grammar", "vrml/vrml97/scenegraph.py: regDefName, getDEF"]}
{"id": "C67", "title": "A file that can be read uses no name before its definition", "statement": "In every document that can be read, each name in a USE or a ROUTE has been given by a DEF before, in the same scene (the file, or the body of the same PROTO). Not so for what follows the node in an SFNode field, which is never looked at (settled negatively).", "quantifier": "every readable document and every scene in it", "why_tests_cant": "universal over documents", "anchors": ["vrml/vrml97/parseprocessor.py: USE, ROUTE", "vrml/vrml97/scenegraph.py: getDEF"]}
{"id": "C68", "title": "A file that can be read uses no node type before its declaration", "statement": "In every document that can be read, each node type is built in or declared by a PROTO before, in the same scene or one around it; PROTOs declared inside a PROTO cannot be used outside.", "quantifier": "every readable document", "why_tests_cant": "universal over documents and nesting", "anchors": ["vrml/vrml97/parseprocessor.py: Node, Proto", "vrml/vrml97/scenegraph.py: getProto, addProto"]}
{"id": "C69", "title": "Scenes that were read have no dangling references", "statement": "Whatever text is read, in the resulting scene and in the body of every PROTO: children, node fields, ROUTEs and IS maps lead to nodes of the same scene; nodes hold values only in fields of their type, in the storage format of the field; each DEF name leads to the last node that has it.", "quantifier": "every text", "why_tests_cant": "universal over texts", "anchors": ["vrml/vrml97/parseprocessor.py: ParseProcessor", "vrml/vrml97/scenegraph.py: regDefName"]}
{"id": "C70", "title": "Instances of a PROTO keep the values the file gives them", "statement": "Two instances of a PROTO in a file should each have the value written in it. (Settled negatively: for a field that stands for a field in the body by IS, both end up with the value of the second.)", "quantifier": "every document ending with two instances of such a PROTO", "why_tests_cant": "universal negative over documents", "anchors": ["vrml/vrml97/parseprocessor.py: Attr", "vrml/node.py: PrototypedNode.instantiate", "vrml/route.py: IS"]}
{"id": "C71", "title": "Loading a file, saving it and loading that again gives the same scene", "statement": "If a document is read, its scene can be saved, and reading the saved text gives the same scene: the nodes correspond one to one, with the same types, names, field values, sharing and routes.", "quantifier": "every document without PROTOs and Scripts, of any size, layout and sharing, in which no two nodes have the same DEF name and no attribute is given twice in a node, and whose values the writer can write", "why_tests_cant": "universal over documents, layouts and writer settings", "anchors": ["vrml/vrml97/parseprocessor.py: ParseProcessor", "vrml/vrml97/linearise.py: Lineariser"]}
{"id": "C72", "title": "Saving again changes nothing", "statement": "The text written for a scene depends only on what is in it, not on the identity or age of its node objects: scenes that are equal node for node are written as the same text. Saving a scene, loading the file and saving that gives the same text again, with any writer settings.", "quantifier": "every two scenes equal up to the identity of their nodes; every scene that can be written and read; every document as in C71; every writer setting", "why_tests_cant": "universal over scenes, sharing and settings", "anchors": ["vrml/vrml97/linearise.py: Lineariser", "vrml/vrml97/parseprocessor.py: ParseProcessor"]}
{"id": "C73", "title": "A saved file with PROTOs can be loaded again as the same file", "statement": "Saving a file with PROTO declarations, their interfaces, bodies, IS maps, routes and instances, gives text that reads, and what is read is the same file: the same PROTOs with the same fields, defaults and events, bodies that correspond node for node with the same IS maps, and the same scene. PROTOs declared inside others become PROTOs of the file.", "quantifier": "every file whose PROTOs have different names, whose nodes, values and names the writer can write, with any nesting, and every writer setting", "why_tests_cant": "universal over files, nesting, sharing and settings", "anchors": ["vrml/vrml97/linearise.py: Lineariser", "vrml/vrml97/parseprocessor.py: Proto, FieldDecl, EventDecl, ISStatement", "vrml/protofunctions.py: getFields"]}
{"id": "C74", "title": "A file with PROTOs that was saved and loaded can be saved again", "statement": "Whatever was loaded from a file this package wrote should be writable again. (Settled negatively: with at least one PROTO, the second save always fails.)", "quantifier": "every file as in C73 with at least one PROTO, every pair of writer settings", "why_tests_cant": "universal negative over files and settings", "anchors": ["vrml/vrml97/linearise.py: Lineariser._linear_Prototype", "vrml/node.py: Node.externalURL"]}
{"id": "C75", "title": "PROTOs of the same name inside different PROTOs stay different when saved", "statement": "Instances should have the same body before saving and after loading. (Settled negatively: the second PROTO of a name is left out, its instances get the body of the first.)", "quantifier": "files with two PROTOs declared inside others under one name", "why_tests_cant": "needs a counterexample checked against the whole writer and reader", "anchors": ["vrml/vrml97/linearise.py: Lineariser._linear_Prototype"]}
{"id": "C76", "title": "IS maps of events are saved", "statement": "An event in the body of a PROTO that stands for an event of its interface should still do so after saving and loading. (Settled negatively: only maps of fields are written.)", "quantifier": "files with PROTOs whose bodies map events", "why_tests_cant": "needs a counterexample checked against the whole writer and reader", "anchors": ["vrml/vrml97/linearise.py: Lineariser._linear_Node"]}
{"id": "C77", "title": "Constructing a node with keywords is assigning them", "statement": "Node( **keywords ) gives the node the coerced value of each keyword and leaves its other fields unset, tells watchers of exactly these sets in the order of the keywords, and changes no other node or class. Where all keywords are field names it does exactly what assigning them one by one does, with the same error at the same point. set_x and x_changed stand for x. Unknown names raise AttributeError. (Refuted for events: they can be assigned but not given as keywords.)", "quantifier": "every node type with any bases, every number of keywords, every coercion, including ones that fail", "why_tests_cant": "universal over class hierarchies, keywords and values", "anchors": ["vrml/node.py: Node.__init__", "vrml/protofunctions.py: getField", "vrml/field.py: BaseField.fset"]}
{"id": "C78", "title": "Fields added to a node type are found, and can be removed again", "statement": "addField( cls, field ) makes the field an attribute of the class and every class derived from it that has no own one of that name, found by getField and listed by getFields; no other name of any class changes. removeField undoes it exactly, and removing an attribute shows the one of the base classes again. (Refuted: a field listed for a class is not always one it can remove.)", "quantifier": "every class hierarchy, every class and field", "why_tests_cant": "universal over class hierarchies", "anchors": ["vrml/protofunctions.py: addField, removeField, getFields, getField"]}
{"id": "C79", "title": "Class-level values of fields read back", "statement": "setExternalURL( cls, value ) and setSceneGraph( cls, value ) keep the coerced value, get returns it, or the coerced default if none was set, and no other class or field is affected. Reading an attribute of a node or a value of a class sends no message, gives the same when repeated and leaves all other nodes alone. (Refuted: reading such a value hides the field from the nodes of the class; class values cannot be deleted.)", "quantifier": "every class, field and value", "why_tests_cant": "universal over classes, fields and values", "anchors": ["vrml/protofunctions.py: getExternalURL, setExternalURL, getSceneGraph, delExternalURL", "vrml/field.py: BaseField.fget, fset, fdel"]}
{"id": "C80", "title": "Prototypes have the name, fields and bases they were made with", "statement": "prototype( name, bases, fields ) makes a class whose name is the given one, with the given members, later ones of a name replacing earlier ones, and all other attributes those of the bases; no existing class changes. A name set later reads back, also from derived classes without an own name; an empty one means the name of the Python class. Other classes keep their names.", "quantifier": "every name, base list and field list, every class hierarchy", "why_tests_cant": "universal over class hierarchies and names", "anchors": ["vrml/node.py: prototype", "vrml/protofunctions.py: protoName, name"]}
{"id": "C81", "title": "addRoute adds the route it describes, in all its forms", "statement": "scene.addRoute( source, field, destination, field ) appends one ROUTE with these ends to scene.routes and returns it; ends given by DEF name are the nodes of that name; the routes there were are unaffected. Giving names or nodes, or a ROUTE object made before, comes to the same. SceneGraph( routes=... ) has the given routes in the given order. (Refuted: a name that is not there is not reported; the route then leads nowhere for good.)", "quantifier": "every history of a scene's routes, every form of addRoute, every list of routes", "why_tests_cant": "universal over histories and forms", "anchors": ["vrml/vrml97/scenegraph.py: SceneGraph.addRoute, SceneGraph.__init__", "vrml/route.py: ROUTE.__init__, bind"]}
{"id": "C82", "title": "The ROUTEs of the scene are the ones in effect", "statement": "At every moment, whatever was added, removed or retargeted before, a value assigned to a field goes to exactly the fields the scene's current ROUTEs lead to, directly or through others; a removed ROUTE nobody refers to has no effect; assignments end. (Refuted for ROUTEs given another source: they keep forwarding from the old one.)", "quantifier": "every history of adding, removing, making, keeping and retargeting ROUTEs; every field, value and coercion; ROUTEs with a destination", "why_tests_cant": "universal over histories and route graphs", "anchors": ["vrml/vrml97/scenegraph.py: SceneGraph.addRoute", "vrml/route.py: ROUTE.bind, forward, _forward"]}
{"id": "C83", "title": "Functions given to addRoute are called for their field", "statement": "addRoute( node, field, function ) connects the function until nobody, neither scene.routes nor the user, keeps it. An assignment to the field calls every connected function once, in the order they were added, with the value the field now has; a deletion does so without a value; other fields' functions are not called. (Refuted: values arriving by a ROUTE are not reported; removing one of two watches of a function ends neither; the scene cannot be saved.)", "quantifier": "every history of routes and watches, every assignment between ordinary fields", "why_tests_cant": "universal over histories and route graphs", "anchors": ["vrml/vrml97/scenegraph.py: SceneGraph.addRoute", "vrml/field.py: Field.watch", "vrml/route.py: ROUTE._forward"]}
{"id": "C84", "title": "ROUTEs without destination have no effect", "statement": "A ROUTE whose destination is NULL or whose destination field is empty changes nothing about any assignment. (Refuted for ROUTEs to a field that does not exist: they are accepted, and then every assignment to their source stores the value and raises AttributeError, without telling the receivers after them.)", "quantifier": "every route graph, every assignment", "why_tests_cant": "universal over route graphs", "anchors": ["vrml/route.py: ROUTE._forward"]}
{"id": "C85", "title": "Scripts are read as they are written", "statement": "A Script in a file becomes a node at its place and with its name; it has exactly the fields and events its text declares, with the types and classes written, the last declaration of a name counting; a declared field has the value last given to it as an attribute, wherever that stands in the text, and else the value in its declaration; url, directOutput and mustEvaluate likewise, with their defaults if not given. A file in which an attribute of a Script is not a field of it, or stands for a field of a PROTO outside a PROTO, is not read.", "quantifier": "every document, of any size and layout, every Script in it that is not inside another node, every name", "why_tests_cant": "universal over documents, declarations and attributes", "anchors": ["vrml/vrml97/parseprocessor.py: Script, ScriptFieldDecl, ScriptEventDecl", "vrml/vrml97/script.py: _Script", "vrml/vrml97/parser.py: Script, ScriptGut"]}
{"id": "C86", "title": "EXTERNPROTOs are read as they are written", "statement": "An EXTERNPROTO in a file gives the scene a prototype of that name; its nodes have the declared fields and events, with the classes and types written, the last declaration of a name counting; the fields have the default values of their types; and the prototype has the URLs written, in their order. Names of built-in nodes cannot be declared.", "quantifier": "every document, of any size and layout, every EXTERNPROTO in it, every name", "why_tests_cant": "universal over documents and declarations", "anchors": ["vrml/vrml97/parseprocessor.py: ExternProto, ExtProtoURL, FieldDecl, EventDecl", "vrml/vrml97/parser.py: ExternProto"]}
{"id": "C87", "title": "Saved Scripts can be loaded again", "statement": "A scene of Scripts without url is saved, with any writer settings, as a file that reads; the Scripts come back in order with their names, exactly the events and fields they declare, of the same types and classes, and their directOutput and mustEvaluate. The fields hold the defaults declared. (Refuted for the values: what has been set on a declared field is not in the file, so a field that holds something else than its default does not hold it in the scene read back.)", "quantifier": "every list of Scripts with any number of declarations whose names and defaults can be written; every setting and rendering of numbers", "why_tests_cant": "universal over declarations, values and settings", "anchors": ["vrml/vrml97/linearise.py: Lineariser._Script, _eventDict, _fieldDict, _attrDict", "vrml/vrml97/parseprocessor.py: Script"]}
{"id": "C88", "title": "A Script with a url can be saved and loaded again", "statement": "Saving a scene in which some Script has a url gives a file that can be loaded. (Refuted: whatever the Script's declarations and sources, saving succeeds and the file is a syntax error.)", "quantifier": "every list of Scripts of which one has sources; every setting", "why_tests_cant": "universal over Scripts, sources and settings", "anchors": ["vrml/vrml97/linearise.py: Lineariser._Script, _attrDict, _sffield"]}
{"id": "C89", "title": "X3D files are read as VRML97 files", "statement": "A file that starts with the header the X3D grammar asks for (#X3D, version, utf8, PROFILE line, at most one META) and goes on with a VRML97 body that does not use the X3D words for fields and events gives, with the X3D parser, the scene the VRML97 parser gives for the same body: the same nodes, names, routes, prototypes, or the same error. Files with a vector in parentheses within a list, which the X3D grammar leaves out, are syntax errors; every other document is read. Reading always ends with exactly one answer.", "quantifier": "every header, every body of any length, well formed or not", "why_tests_cant": "universal over texts", "anchors": ["vrml/vrml200x/parser.py: grammar, VRMLParser", "vrml/vrml97/parseprocessor.py: ParseProcessor", "vrml/vrml97/parser.py: grammar"]}
{"id": "C90", "title": "The statements of the X3D header are understood", "statement": "Files with COMPONENT statements, with several META statements or with a plain number as version can be read with the X3D parser. (Refuted: each makes every such file fail.)", "quantifier": "every name, level, key, value, version number and every body", "why_tests_cant": "universal over texts", "anchors": ["vrml/vrml200x/parser.py: header, headerStatement, profileStatement, componentStatement, metaStatement"]}
{"id": "C91", "title": "The X3D words for fields and events mean what the VRML97 words mean", "statement": "initializeOnly, inputOutput, inputOnly and outputOnly declare a field, an exposed field, an incoming event and an outgoing event. (True of initializeOnly and inputOnly; refuted for inputOutput, which declares a plain field, and outputOnly, which declares an incoming event.)", "quantifier": "every EXTERNPROTO, with any number of declarations", "why_tests_cant": "universal over declarations", "anchors": ["vrml/vrml200x/parser.py: fieldDecl, fieldExposure, eventDecl", "vrml/vrml97/parseprocessor.py: fieldDecl, extFieldDecl, eventDecl"]}
{"id": "C92", "title": "Scenes with EXTERNPROTOs can be saved and loaded again", "statement": "Saving a scene whose table of prototypes has an EXTERNPROTO, among PROTOs that can be saved, gives a file that can be loaded. (Refuted: whatever the EXTERNPROTO declares and wherever it is found, the file is a syntax error: the fields, among them the externalURL nobody declared, are written with defaults.)", "quantifier": "every list of PROTOs before it, every EXTERNPROTO with any number of fields, events and URLs, anything after it, every setting and rendering of numbers", "why_tests_cant": "universal over prototypes, scenes and settings", "anchors": ["vrml/vrml97/linearise.py: Lineariser._proto, _eventDict, _fieldDict", "vrml/vrml97/parser.py: ExternProto, extFieldDecl"]}
{"id": "C93", "title": "The scene is a mirror of the text", "statement": "In the scene read from a file, every node stands where the text has it: the children of the scene are the entries of the file in order, every node has the type and name written, each of its fields holds the last value written for it (nodes at their positions, to any depth) and no field holds a value that is not written; Scripts anywhere in the tree have what they declare; USE stands for a node of that name, and if the name is given once, for the node found at the place of the DEF; the same in the bodies of all PROTOs, at any depth of nesting. Following the attributes and positions on the way to a node in the text leads to that node in the scene. (Fields of a PROTO's instances that stand by IS for fields in its body are the exception, see C70.)", "quantifier": "every document that can be read, every nesting of nodes, Scripts and PROTOs, every path", "why_tests_cant": "universal over documents, depths and paths", "anchors": ["vrml/vrml97/parseprocessor.py: ParseProcessor, Node, Script, Attr, Proto, USE", "vrml/node.py: Node", "vrml/field.py: Field.fset"]}
{"id": "C94", "title": "Translation and scale matrices in floating point", "statement": "With the matrices stored as float32 and the products computed in float32, in any order of additions and with or without fused multiply-add: the matrices of a translation and its inverse multiply to exactly the identity, if the translation fits float32; those of a scale and its inverse multiply to within 2^-22 of the identity and exactly to it off the diagonal, for components between 2^-120 and 2^120; a point moved by a translation and back is off by at most 2^-22 of the two distances. Outside that they do not: a zero scale component or a translation that overflows float32 gives NaN, a scale by 41 is not exactly undone, and a point nearer to the origin than 2^-26 of the translation comes back as 0.", "quantifier": "every translation and scale given as Python floats, every point, every order of summation", "why_tests_cant": "universal over binary64 inputs and over the orders of summation a linear algebra library may use", "anchors": ["vrml/vrml97/_transformmatrix.py: transMatrix, scaleMatrix", "vrml/vrml97/transformmatrix.py: compressMatrices"]}
{"id": "C95", "title": "Values that do not fit their field are refused", "statement": "A file in which a node of a built-in type, anywhere in the scene or in a PROTO body, is given an attribute its type does not have, or a value that does not fit the field (a wrong number of entries, entries that are not numbers where numbers are due, decimal points where integers are due), is refused as a whole: reading it raises. No value at all can be written for fields of nine types (SFUInt32, SFVec4f, MFVec4f and the double vectors). Violated for truth values: any single entry other than TRUE, such as a number, is read as FALSE.", "quantifier": "every document of the grammar, every node in it at any depth, every attribute", "why_tests_cant": "universal over documents and over the places where a value may be written", "anchors": ["vrml/vrml97/parseprocessor.py: Attr, Field, SFBool, SFFloat, SFInt32, MFFloat, MFInt32, SFVec3f", "vrml/fieldtypes.py: _SFVec.coerce, _MFVec.coerce, _MFColor.coerce"]}
{"id": "C96", "title": "Text and bytes", "statement": "Encoding a text to bytes fails exactly when it contains a surrogate; every other text is encoded as UTF-8 and comes back unchanged. Bytes are accepted as a native string, or by an SFString field, exactly when they are UTF-8, and encoding the result gives the same bytes. UTF-8 may be cut at any ASCII byte: the pieces decode to the pieces of the text. The tolerant conversion never raises. Violated beyond: bytes that are not UTF-8 come out of the tolerant conversion as a text whose encoding is different and longer, and bytes assigned to an MFString field become one decimal number per byte.", "quantifier": "every text and every sequence of bytes", "why_tests_cant": "universal over texts and bytes of any length", "anchors": ["vrml/_bytes.py: as_8_bit, as_str, as_unicode", "vrml/fieldtypes.py: _SFString.coerce, _MFString.coerce"]}
{"id": "C97", "title": "Observers that raise", "statement": "Observers of a child list or of a field may raise on any message. The exception ends the call and reaches the caller; what was announced is the first part of what would have been announced, up to the message that failed. No call is left half done: the list has its old contents or those a builtin list has after the call, so after any history it is what a builtin list is after some of the calls, in order. append, insert, pop, remove, extend and slice assignment of hashable items have taken effect whether or not they raise; slice deletion takes effect exactly when it does not raise. Field values, and the messages sent, are after any history the same as if no observer raised. Violated: messages and contents may disagree for good. An appended item whose announcement failed is in the list and never hears of its parent, and an item announced as removed by a slice deletion that failed is still there.", "quantifier": "every behaviour of the observers, list, field type and history of calls", "why_tests_cant": "universal over histories and over the messages on which observers raise", "anchors": ["vrml/olist.py: OList", "vrml/field.py: BaseField.__set__, fset, fdel", "accelerate/src/fieldaccel2.pyx: BaseField._set, _del"]}
{"id": "C98", "title": "Rotation matrices in floating point", "statement": "The two matrices rotMatrix makes of a rotation are, to within a few units in the last place of 1, those of the rotation and of its inverse by Rodrigues' formula: every item is finite and off by at most 2^-47, for components given as Python floats or float64, and by at most 2^-18 for the float32 values of SFRotation fields. Their products, in either order, with the additions in any order and with or without fused multiply-add, are the identity to within 2^-44, or 2^-15. The axis need not have length 1: it is enough that its length is between 2^-500 and 2^500, or between 2^-50 and 2^50 for fields, and that the library's cosine, sine and square root are off by at most one unit in the last place. Violated beyond: with a component of 2^512 (2^64 for fields) or more the matrix is a scaling by the cosine, and with all components below 2^-538 (2^-75) its diagonal is not made of numbers.", "quantifier": "every rotation whose axis is neither huge nor tiny, every library with accurate functions, every order of the additions", "why_tests_cant": "universal over binary64 and binary32 numbers and over libraries", "anchors": ["vrml/vrml97/_transformmatrix.py: rotMatrix", "vrml/fieldtypes.py: _SFRotation, _SFVec32"]}
{"id": "C99", "title": "Watchers that set fields", "statement": "Watchers of fields may themselves assign to fields, the one they hear of included, read fields, raise, and catch what their assignments raise. A field always has the value last stored in it, a value its type accepted. No watcher hears of a value that was not stored, or twice of one assignment; if nobody raises, each hears of every assignment to its field exactly once. A watcher hears of the values in the order they were stored, so that the last one it heard of is the field's value, if the watchers called before it neither assign to the field, themselves or through others, nor raise: always for the watcher connected first. An accepted assignment sticks, even if it raises, if the field's watchers do not assign to the field. All this holds in every network of watchers without cycles. Violated otherwise: when an earlier watcher corrects a value, a later one hears of the correction before it hears of the value corrected, and is left with a value the field does not have.", "quantifier": "every network of watchers, program of each of them, initial values and client program, terminating or cut by the recursion limit", "why_tests_cant": "universal over programs, and over interleavings of nested assignments", "anchors": ["vrml/field.py: BaseField.__set__, fset, _set, Field.watch", "accelerate/src/fieldaccel2.pyx: BaseField"]}
{"id": "C100", "title": "Programs that know different node types", "statement": "A scene saved by one program is loaded as the same scene by every program that knows its node types, whatever further types it knows and whatever further fields it declares for these types, if the common fields have the same types and defaults. If the scene reaches a node whose type the loader does not know, the text parses and loading it raises an exception, whatever the rest of the scene. In particular scenes with the NURBS and shader types of this library are loaded by a parser that has been given these types. Violated by default: the default parser is not given them, so no saved scene that has such a node can be loaded. Nodes of the shader types that declare no name are written without one, and such a text does not parse.", "quantifier": "every pair of tables of node types, scene, settings of the writer, and rendering of numbers", "why_tests_cant": "universal over node types and scenes", "anchors": ["vrml/vrml97/nurbs.py", "vrml/vrml97/shaders.py", "vrml/vrml97/basenamespaces.py: basePrototypes", "vrml/vrml97/parseprocessor.py: ParseProcessor", "vrml/vrml97/linearise.py: Lineariser"]}
{"id": "C101", "title": "Tables with weak keys", "statement": "A table with weak keys, such as the one that keeps the connections of each prototype, answers every call, after every history of calls and collections, as an ordinary dictionary over the objects still alive: assignment, lookup, membership, deletion, pop, popitem, setdefault, update and clear. It never returns an object that is gone. Once an object has been collected, nothing is kept alive on its account, and once the callbacks have run the keys listed are the live ones, each once. Every prototype has its own map of connections, the same at every request, whatever is collected in between. This is for keys compared by identity, as prototypes are. Violated beyond: a key that its own value leads to is never collected; of two keys that compare equal the second loses its entry when the first is collected; and counting, testing, iterating, copying or comparing a table, or filling one from another, always raises AttributeError.", "quantifier": "every history of calls, of objects held and given up and of collections, and every graph of references", "why_tests_cant": "universal over histories, collections at any point and callbacks in any order", "anchors": ["vrml/weakkeydictfix.py: WeakKeyDictionary", "vrml/node.py: ISMAPS, ismaps"]}
{"id": "C102", "title": "Projection matrices in floating point", "statement": "For angles, aspects, planes and boxes of ordinary size (and planes that are not extremely close to each other), perspectiveMatrix returns the matrix of gluPerspective, and with inverse=True its inverse, and orthoMatrix the matrix of glOrtho: each item is its exact value up to one unit in the last place of a float32, and an item that should be 0 is 0. The product of a perspective with its inverse, in either order and however the additions are arranged, is the identity up to 2^-21, except for one item each whose error grows with the sum of the planes over their product, or over their distance. A near plane equal to the far plane is refused. Violated beyond: for a near plane extremely close to the eye the inverse has infinite items.", "quantifier": "every angle, aspect, pair of planes and box of ordinary size, every rounding and every order of additions", "why_tests_cant": "universal over floating point numbers", "anchors": ["vrml/vrml97/_transformmatrix.py: perspectiveMatrix, orthoMatrix"]}
{"id": "C103", "title": "Combined matrices in floating point", "statement": "The matrix of a path, and its inverse matrix, combined of the matrices of the translations, centers, rotations, scale orientations and scales of its Transforms, is the exact product of these, in the right order, up to about 2^-19 per matrix times the product of their sizes, whatever the depth of the path, whichever of the arrays are of float32 or float64 and however numpy arranges the additions; and a point multiplied with it lands where the exact product takes it, up to the same relative error. All items are finite as long as the sizes do not multiply to more than about 2^100. The same holds for compressMatrices of any number of matrices, which is None only if all of them are. Violated beyond: finite scales that multiply to too much give infinite items.", "quantifier": "every path, of every depth, every finite matrices of its parts, every point, every rounding and every order of additions", "why_tests_cant": "universal over depths and floating point numbers", "anchors": ["vrml/vrml97/transformmatrix.py: localMatrices, compressMatrices", "vrml/vrml97/nodepath.py: _NodePath.transformMatrix"]}
{"id": "C104", "title": "Points through Transforms in floating point", "statement": "A point with float64 coordinates, multiplied with the matrix of a path of Transforms, lands where the VRML97 standard puts it, given the values stored in the fields: up to a relative error of about 25 * 2^-19 for each Transform, in proportion to the sizes of the point, the translations, the centers and the scales, whatever the depth of the path. The inverse matrix takes the point that belongs to a place back from that place with about the same accuracy, if the scales are neither huge nor tiny. A point moved by the matrix and then by the inverse matrix is where it was, up to the errors of both ways. This assumes axes that are neither huge nor tiny, and that no angle but 0 counts as no turn; library functions are accurate to one unit in the last place. Violated beyond: a scale with a 0 has an inverse matrix, but every point multiplied with it gets a coordinate that is infinite or no number; and an angle of 2^20 times the float32 nearest to 2*pi counts as no turn, although it turns a point by more than a tenth of its distance from the axis.", "quantifier": "every path, of every depth, every finite values of the fields in the stated ranges, every point, every rounding and every order of additions", "why_tests_cant": "universal over depths and floating point numbers", "anchors": ["vrml/vrml97/_transformmatrix.py: rotMatrix, scaleMatrix, transMatrix", "vrml/vrml97/transformmatrix.py: localMatrices, compressMatrices", "vrml/vrml97/nodepath.py: _NodePath.transformMatrix"]}
