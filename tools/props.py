#!/usr/bin/env python3
"""Regenerates /verif/properties.jsonl from the table below."""
import json
P = []
def p(id, title, statement, quantifier, why, anchors):
    P.append(dict(id=id, title=title, statement=statement, quantifier=quantifier,
                  why_tests_cant=why, anchors=anchors))

# ---------------------------------------------------------------- observable list
p("C01", "An observable list has exactly the contents a plain list would have",
  "After any sequence of append, insert, pop, remove, slice deletion, item assignment, slice assignment, extend and += on an OList, the contents, the returned value and the exception (if any) are those of a builtin list receiving the same sequence (integer deletion is C04).",
  "every initial list, every finite history of those calls, every index/slice including negative and out-of-range ones",
  "the claim ranges over unboundedly long histories and all indices; tests use one call on a 3-4 element list",
  ["vrml/olist.py: OList.append, insert, pop, remove, __delitem__, __setitem__, __iadd__, extend"])
p("C02", "Observers that count add/remove events know the membership of the list",
  "For every value v, (number of NEW_CHILD events for v) - (number of DEL_CHILD events for v) equals the change of the number of occurrences of v in the list, for every history in which no slice assignment has duplicates; for any slice assignment the exact event counts are max(0,..)-style functions of the two multisets, and a value is announced as new iff it was not in the replaced slice.",
  "every history, every value, every slice",
  "an accounting identity over all histories",
  ["vrml/olist.py: OList._sendAdded, _sendRemoved, __setitem__, __delitem__"])
p("C03", "Every list event is delivered as a child/parent pair from the current sender",
  "Each list-side event NEW/DEL_CHILD(value=v) from sender S is immediately followed by NEW/DEL_PARENT from v with parent=S, where S is the node given to setSender while that node is alive and the list itself otherwise; nothing else is ever sent.",
  "every operation, every setSender history, every point at which the sender node may be collected",
  "depends on when the weakly referenced sender is collected",
  ["vrml/olist.py: OList._sender, _sendAdded, _sendRemoved, setSender"])
p("C04", "Deleting by integer index and += keep list and announcements consistent",
  "del l[i] should remove the item it announces as removed, and `l += xs` should leave the name bound to the same observable list. (Settled negatively: del l[i] announces the removal and leaves the list unchanged for every list and every valid index; += rebinds to a plain list of the added values only.)",
  "every list and valid index / every list and iterable",
  "the negative result is proved for every list and index, not one example",
  ["vrml/olist.py: OList.__delitem__ lines 80-91, __iadd__ lines 122-125"])
# ---------------------------------------------------------------- weak list
p("C05", "A weak list shows exactly the live members, in order",
  "After any interleaving of append/insert/extend/pop/slice-assignment with object collections, the list holds exactly the surviving entries in list order; a collected object is never visible and never shifts the relative order of survivors.",
  "every interleaving of list operations and collections (any schedule of the collector)",
  "the collector may run at any point; tests cannot enumerate schedules",
  ["vrml/weaklist.py: WeakList.wrap, append, insert, extend, pop, __setitem__, __getitem__, __remover"])
p("C06", "Iterating a weak list visits every member that stays alive",
  "Iteration visits all members exactly once in order when nothing is collected during the iteration; if members are collected between steps, a still-live member can be skipped (settled negatively for the wider claim), but a yielded item was always a live member and no member is yielded twice.",
  "every list, every interleaving of iteration steps and collections",
  "schedule-dependent",
  ["vrml/weaklist.py: WeakList.__iter__"])
p("C07", "Membership, count, index, remove, sort and comparison of weak lists",
  "`x in wl`, count, index, remove, sort, ==, repr should work like on a list of the live items. (Settled negatively on Python 3: every one of them raises AttributeError for every list, and integer item assignment raises NameError.)",
  "every weak list and argument",
  "universal negative",
  ["vrml/weaklist.py: WeakList.get, __contains__, count, index, remove, sort, __eq__, __setitem__"])
# ---------------------------------------------------------------- fields
p("C08", "A field reads back what was last stored in it, and only it changes",
  "After any history of sets, gets, deletes and notifications, reading field f of node n returns the coercion of the last value successfully set on (n,f) since it was last deleted, or the coerced default; operations on (n,f) never change what any other (node, field) reads.",
  "every history over any set of nodes and fields, every coercion function (including failing ones)",
  "unbounded histories with aliasing between fields and nodes",
  ["vrml/field.py: BaseField.__get__, __set__, fset, _set, getDefault, __delete__, fdel", "accelerate/src/fieldaccel2.pyx: BaseField"])
p("C09", "A rejected value leaves no trace",
  "If coercion fails with ValueError or TypeError, set raises ValueError, the stored state of every field of every node is unchanged and no notification is sent; any other exception propagates unchanged with the same guarantee.",
  "every state, field, value and coercion failure",
  "crash-point style atomicity over all states",
  ["vrml/field.py: BaseField._set, __set__, fset"])
p("C10", "Watchers hear every set exactly once and never a default read",
  "Every successful set with notification sends exactly one ('set', field) message whose value is the value now stored; sets with notify=0, reads and default materialisation send none. Consequently a watcher that remembers the last message value of a notified-only history agrees with the stored value.",
  "every history",
  "ranges over histories; tests never look at message streams",
  ["vrml/field.py: BaseField.__set__, fset, getDefault"])
p("C11", "Reading an unset field materialises its default once",
  "The first read of an unset field stores the coerced default (so fhas becomes true) and returns it; later reads return the same value and store nothing; getDefault() without a client stores nothing.",
  "every state and field",
  "idempotence over every state",
  ["vrml/field.py: BaseField.__get__, getDefault, Field.fhas"])
p("C12", "Deleting a field value returns it to its default",
  "With the accelerated implementation: deleting a set field removes it, sends one ('del', field), and the next read gives the default; deleting an unset field raises AttributeError and changes nothing. With the pure-Python implementation the value survives the deletion (settled negatively for every set field).",
  "every state, node and field",
  "universal statement about both implementations",
  ["vrml/field.py: BaseField.__delete__, fdel", "accelerate/src/fieldaccel2.pyx: BaseField._del, __delete__"])
p("C13", "The accelerated and the pure-Python field behave the same",
  "For every history of __set__, fset, __get__, getDefault without deletions the two implementations produce the same stored state, the same results and the same notifications; the first divergence is always a deletion.",
  "every history",
  "equivalence over all histories",
  ["vrml/field.py: BaseField", "accelerate/src/fieldaccel2.pyx: BaseField"])
p("C14", "Weak node fields never hand out a dead node",
  "fget of a weak field returns None or a live node for every interleaving of sets and collections; setting a falsy value clears it. Attribute access (descriptor __get__) bypasses the dereference and returns the raw reference (settled negatively).",
  "every interleaving of sets, reads and collections",
  "depends on collector schedule",
  ["vrml/field.py: WeakField.fset, fget", "vrml/node.py: WeakSFNode"])
# ---------------------------------------------------------------- coercion
p("C15", "Coercion produces canonical values and is idempotent",
  "For SFBool, SFInt32, SFFloat, SFString, MFString, MFInt32, MFFloat, SFVec*, MFVec*, SFColor, MFColor: a successful coercion yields a value in the canonical storage format, and coercing that value again yields the same value.",
  "every Python value of the modelled kinds, every nesting",
  "ranges over all values",
  ["vrml/fieldtypes.py: _SFBool, _SFInt32, _SFFloat, _SFString, _MFString, _MFInt32, _MFFloat, _SFVec, _MFVec, _Color .coerce"])
p("C16", "Nested sequences are flattened completely and in order",
  "collapse(x) terminates for every finite nesting of lists and returns exactly the leaves in left-to-right order, leaving the argument unchanged.",
  "every finite tree of lists, any depth and width, including empty lists",
  "in-place mutation while scanning: termination and correctness need an induction",
  ["vrml/fieldtypes.py: _collapse, collapse"])
p("C17", "Vector fields accept exactly the sequences with the right number of components",
  "A 1-D vector field accepts a (nested) sequence of numbers iff its flattened length is the dimension and stores the numbers in order. Scalars are rejected for every vector field and matrix fields reject every Python sequence (settled negatively for the wider claim).",
  "every dimension, every nested sequence",
  "all lengths and nestings",
  ["vrml/fieldtypes.py: _SFVec.coerce, _SFMatrix3f, _SFMatrix4f"])
p("C18", "Colours are always within [0,1]",
  "Every component of a stored SFColor/MFColor value is in [0,1]; values already in range are unchanged; MFColor accepts a mix of colour names and RGB triples and yields one row per colour in order, rejecting left-over components.",
  "every sequence of numbers and names",
  "all inputs",
  ["vrml/fieldtypes.py: _Color.coerce, _SFColor.coerce, _MFColor.coerce"])
p("C19", "Colour strings denote the colour they spell",
  "'#rrggbb' decodes to (r/255,g/255,b/255) for every r,g,b in 0..255 in either letter case; names are case-insensitive; toInt(toFloat(n)) = n for every byte; every named colour is in [0,1]^3.",
  "all 2^24 hex colours, all spellings, all names",
  "2^24 times letter-case variants",
  ["vrml/csscolors.py: stringToColor, toFloat, toInt, cssColors"])
# ---------------------------------------------------------------- text
p("C20", "Any string survives being written as an SFString and parsed back",
  "For every string s (any characters, including quotes, backslashes, newlines), parsing the written SFString with the VRML97 grammar consumes exactly the written text and yields s.",
  "every string and every following text",
  "all strings, all escape combinations",
  ["vrml/fieldtypes.py: SFString_vrmlstr", "vrml/vrml97/parser.py: grammar SFString, CHARNODBLQUOTE, ESCAPEDCHAR, SIMPLEBACKSLASH", "vrml/vrml97/parseprocessor.py: SFString"])
p("C21", "Any list of strings survives being written as an MFString field value and parsed back",
  "For every list of strings, the text produced by MFString_vrmlstr parses as a Field whose MFString value is that list (short, long and single-element layouts).",
  "every list of strings",
  "all lists; three layouts selected by total length",
  ["vrml/fieldtypes.py: MFString_vrmlstr", "vrml/vrml97/parseprocessor.py: MFString, Field"])
p("C22", "Compact float notation preserves the number",
  "SFFloat_vrmlstr applied to any decimal rendering of a finite float yields a text the grammar's SFNumber consumes entirely and which denotes the same number.",
  "every finite decimal rendering with or without exponent",
  "all floats",
  ["vrml/fieldtypes.py: SFFloat_vrmlstr", "vrml/vrml97/parser.py: grammar SFNumber"])
p("C23", "Integers survive being written and parsed back",
  "For every integer, the written decimal text is consumed entirely by SFNumber and int(text,0) is that integer.",
  "every integer",
  "all integers",
  ["vrml/fieldtypes.py: _SFInt32.vrmlstr", "vrml/vrml97/parser.py: SFNumber", "vrml/vrml97/parseprocessor.py: SFInt32, MFInt32"])
p("C24", "Long numeric lists are written in chunks without losing or merging elements",
  "The text of an MFInt32/MFFloat/MFVec value of any length parses as a Field whose number tokens are exactly the element texts in order; the chunking loop terminates for every element dimension up to 100.",
  "every list length and element",
  "chunk boundaries at 100/33/... elements; all lengths",
  ["vrml/fieldtypes.py: MFSimple_vrmlstr, _MFVec.vrmlstr", "vrml/vrml97/parser.py: Field"])
p("C25", "Whitespace, commas and comments between tokens do not matter",
  "The separator production consumes exactly the maximal run of blanks, commas and terminated comments; two texts differing only in separators between tokens parse to the same tree.",
  "every separator text",
  "all interleavings of blanks, commas, comments",
  ["vrml/vrml97/parser.py: grammar <ts>"])
p("C26", "Names that start with a keyword are read as names",
  "A field or node-type name should be read as one name. (Settled negatively: a node type or field whose name merely starts with DEF, USE, Script, NULL, TRUE, FALSE, PROTO, ROUTE is mis-tokenised; proved for names without such a prefix.)",
  "every well-formed name",
  "all names",
  ["vrml/vrml97/parser.py: grammar Node, Script, Field, rootItem"])
p("C27", "A written scene parses back to the same scene",
  "For every scene of declared node types with scalar, vector, multi-value and node fields, DEF names and shared nodes satisfying the stated well-formedness, linearise then parse yields an isomorphic scene (same node types, DEF names, field values, sharing).",
  "every scene of any size and depth satisfying the well-formedness predicate",
  "composition of lineariser, grammar and builder over all scenes",
  ["vrml/vrml97/linearise.py: Lineariser", "vrml/vrml97/parser.py", "vrml/vrml97/parseprocessor.py: ParseProcessor"])
p("C28", "Nodes with string lists are written as readable VRML",
  "A node holding a non-empty MFString attribute should be written as parseable text. (Settled negatively: for every non-empty string list the attribute writer emits an unbalanced '[' and the result does not parse.)",
  "every non-empty string list",
  "universal negative",
  ["vrml/vrml97/linearise.py: _sffield, _mfnode, _linear", "vrml/protofunctions.py: protoName"])
p("C29", "Shared nodes are written once and referenced afterwards",
  "In the written form of any finite node graph each DEF-named node's body occurs at most once per scene and every other occurrence is USE name, after the DEF.",
  "every finite node graph including shared and cyclic ones",
  "all graphs",
  ["vrml/vrml97/linearise.py: _canUse, _Node"])
p("C30", "A field differing from its default is never dropped when writing",
  "Attributes are omitted only when they equal the default. Proved for scalars, strings and lists; settled negatively for array-valued defaults: safeCompare treats arrays sharing a single element as equal.",
  "every pair of values",
  "all pairs",
  ["vrml/arrays.py: safeCompare", "vrml/vrml97/linearise.py: _attrDict"])
p("C31", "Writing terminates on every finite node graph, even a cyclic one",
  "The lineariser terminates on every finite graph of nodes, shared or cyclic, and visits each node's body at most once.",
  "every finite graph",
  "termination on all graphs",
  ["vrml/vrml97/linearise.py: _canUse, _Node, _linear, _mfnode"])
# ---------------------------------------------------------------- routes
p("C32", "Event cascades terminate and set each target at most once per event",
  "For every ROUTE graph between ordinary fields, including cycles and self-loops, the cascade started by one notification terminates, and within one event each (node, field) target is set at most once.",
  "every finite route graph, every value, every coercion",
  "termination and at-most-once over all graphs",
  ["vrml/route.py: ROUTE.forward, _forward", "vrml/event.py: Event.visited"])
p("C33", "An event reaches exactly the fields connected to its source",
  "After the cascade every (node, field) reachable from the source over routes holds the routed value (when all coercions accept it), and every field not reachable is unchanged.",
  "every finite route graph",
  "reachability over all graphs",
  ["vrml/route.py: ROUTE._forward"])
p("C34", "Routing into events keeps the guarantee of cycle-free delivery and values",
  "Routes through eventIn/eventOut ports should also terminate on cycles and deliver the routed value. (Settled negatively: a two-route cycle between events recurses forever, and the 'route' message after an event target carries None, overwriting later targets.)",
  "every recursion budget / the stated graphs",
  "non-termination for every budget",
  ["vrml/route.py: ROUTE._forward lines 97-107", "vrml/field.py: Event.__set__"])
p("C35", "A value rejected by a routed field is not propagated",
  "If an intermediate field rejects a routed value, fields downstream should not receive it. (Settled negatively: the uncoerced value is forwarded.)",
  "every rejecting coercion",
  "holds for every rejecting field",
  ["vrml/route.py: ROUTE._forward lines 92-107"])
p("C36", "An IS mapping mirrors changes in both directions without echo",
  "Setting either end of an IS mapping sets the other end exactly once and terminates; for a set of IS mappings on one field all ends agree afterwards.",
  "every number of mappings and every value",
  "all fan-outs",
  ["vrml/route.py: IS.bind, IS.forward", "vrml/node.py: PrototypedNode.instantiate"])
# ---------------------------------------------------------------- scenegraph
p("C37", "A DEF name table agrees with the nodes' own names",
  "Starting from an empty table, after any sequence of regDefName calls on one scenegraph: if the table maps name d to node o then o's DEF is d; hence no node is listed under two names; the most recent registration of a name wins; lookups of other names of other nodes are unaffected.",
  "every sequence of registrations",
  "invariant over histories of renamings and collisions",
  ["vrml/vrml97/scenegraph.py: SceneGraph.regDefName, getDEF"])
p("C38", "Prototype lookup finds the nearest enclosing definition",
  "getProto(name) returns the definition in the nearest scenegraph of the chain that defines name, or None; definitions elsewhere never shadow it.",
  "every chain of nested scenegraphs",
  "all depths and shadowings",
  ["vrml/vrml97/scenegraph.py: SceneGraph.getProto, addProto"])
p("C39", "Routed nodes get fresh unique DEF names when written",
  "Before writing, every route endpoint without DEF gets a name PROTO_n not in use in the scene (smallest such n); the search terminates for every table; afterwards both endpoints of every route resolve to the right node.",
  "every DEF table and list of routes",
  "search termination and freshness over all tables",
  ["vrml/vrml97/linearise.py: _preroute, _route"])
p("C40", "Setting the root scenegraph reaches every descendant",
  "On every acyclic node graph, setting a node's root sets it on all descendants and terminates; on any graph with a reachable cycle it never terminates (settled negatively).",
  "every finite graph",
  "termination/divergence over all graphs",
  ["vrml/node.py: RootScenegraphNode.fset"])
p("C41", "A copied node equals the original and is independent of it",
  "copy() yields a node with equal field values; arrays and string lists are fresh; sub-nodes are the same objects, so changes below are shared (settled negatively for the deep claim).",
  "every node and every later mutation",
  "all values and all later mutations",
  ["vrml/node.py: Node.copy, _MFNode.copyValue", "vrml/field.py: Field.copy, copyValue", "vrml/copier.py: Copier.use"])
p("C42", "A copied scenegraph's DEF table points into the copy",
  "getDEF on a copied scenegraph should return a node of the copied tree. (Settled negatively: it returns a fresh copy that is not in the tree, for every DEF-named root child.)",
  "every scenegraph with a named child",
  "universal negative",
  ["vrml/vrml97/scenegraph.py: SceneGraph.copy"])
p("C43", "Every IS target of a prototype field starts with the field's default",
  "Instantiating a prototype should push each field's default to all its IS targets. (Settled negatively: only the last target of each field is initialised; proved for single targets.)",
  "every list of IS mappings",
  "all mapping lists",
  ["vrml/node.py: PrototypedNode.instantiate lines 198-217"])
# ---------------------------------------------------------------- cache
p("C44", "Cached data is never served after a dependency changed",
  "For every history of holder creation, set, depend, field notifications (set/del/route) and collections, getData returns data d only if d was stored after the last notification of any dependency of that holder.",
  "every history and schedule of collections",
  "staleness is a history property",
  ["vrml/cache.py: Cache.getData, CacheHolder"])
p("C45", "Cache entries die with their node and never leak to a new node",
  "When a client node is collected its entries disappear; a new object reusing its id sees an empty cache.",
  "every allocation/collection schedule with id reuse",
  "id reuse depends on allocator",
  ["vrml/cache.py: cleaner, CacheHolder.__init__"])
p("C46", "A path's cached transform matrix is always up to date",
  "After any history of field changes on the path's transforms, transformMatrix(flags) returns what a fresh computation would, for all flags except scale-without-rotate, where a change of center is missed (settled negatively).",
  "every path, every history of field sets, all 16 flag combinations",
  "histories times flag combinations",
  ["vrml/vrml97/nodepath.py: _NodePath.transformMatrix", "vrml/vrml97/basenodes.py: Transform.localMatrices"])
# ---------------------------------------------------------------- paths
p("C47", "common() is the longest common root path",
  "common(p,q) is a prefix of both p and q by object identity and every common prefix is a prefix of it; it is commutative on contents.",
  "every pair of paths",
  "all pairs",
  ["vrml/nodepath.py: NodePath.common"])
p("C48", "Path equality is element identity and + extends at the tail",
  "p == q iff the same node objects in the same order; (p+q) has p's nodes then q's; equality is an equivalence and congruent for +.",
  "every pair/triple of paths",
  "algebraic laws",
  ["vrml/nodepath.py: NodePath.__eq__, __add__"])
p("C49", "Invalidating a path marks the paths built from it",
  "invalidate marks the path, its live children and their live children as broken and nothing else; deeper descendants are not marked (settled negatively for the wider claim).",
  "every tree of derived paths and every collection schedule",
  "all tree shapes",
  ["vrml/vrml97/nodepath.py: _NodePath.__add__, iterchildren, iterdescendents, invalidate"])
# ---------------------------------------------------------------- matrices
p("C50", "The transform matrix implements the VRML Transform semantics",
  "For every point p, dot(p, transformMatrix(...)) equals translating by -center, unrotating by scaleOrientation, scaling, rotating back, rotating, translating by center and by translation, in this order (rotation by Rodrigues' formula about the normalised axis).",
  "all real parameters and points",
  "all reals; includes the None shortcuts",
  ["vrml/vrml97/transformmatrix.py: transformMatrix, compressMatrices", "vrml/vrml97/_transformmatrix.py: rotMatrix, scaleMatrix, transMatrix"])
p("C51", "The inverse transform undoes the transform",
  "itransformMatrix of the same parameters is a two-sided inverse of transformMatrix whenever all scale factors are non-zero (and a rotation axis is non-zero); with a parentMatrix the pair returned by transformMatrices is not inverse in general (settled negatively).",
  "all real parameters",
  "all reals",
  ["vrml/vrml97/transformmatrix.py: itransformMatrix, transformMatrices, localMatrices"])
p("C52", "Rotation matrices are rotations",
  "rotMatrix yields R,R' with R R' = I, R' = transpose R, det R = 1, the axis is fixed, lengths are preserved, and scaling the axis by a positive factor does not change R; None is returned exactly for multiples of 2 pi.",
  "all axes and angles",
  "all reals",
  ["vrml/vrml97/_transformmatrix.py: rotMatrix"])
p("C53", "A path matrix is the composition of its transforms and inverse=True inverts it",
  "transformMatrix of a path maps leaf coordinates to root coordinates through every transform in turn, and its inverse variant is its two-sided inverse, for paths of any length.",
  "paths of any length, all real parameters",
  "unbounded path length",
  ["vrml/vrml97/nodepath.py: transformMatrix, transformChildren", "vrml/vrml97/transformmatrix.py: compressMatrices"])
p("C54", "Projection matrices",
  "perspectiveMatrix(inverse=True) inverts perspectiveMatrix for all non-degenerate parameters; orthoMatrix maps the view box to the clip cube as a column-vector matrix, but not under the documented row-vector convention (settled negatively).",
  "all non-degenerate real parameters",
  "all reals",
  ["vrml/vrml97/_transformmatrix.py: perspectiveMatrix, orthoMatrix"])
p("C55", "center() returns the centre of rotation",
  "center(translation, center) should return the parent-space centre. (Settled negatively: it raises ValueError for every non-zero translation or center.)",
  "all parameters",
  "universal negative",
  ["vrml/vrml97/transformmatrix.py: center"])
p("C56", "Accelerated and pure-Python matrices agree",
  "tmatrixaccel and _transformmatrix return the same matrices for all parameters with a non-zero axis.",
  "all real parameters",
  "all reals",
  ["accelerate/src/tmatrixaccel.pyx", "vrml/vrml97/_transformmatrix_accel.py", "vrml/vrml97/_transformmatrix.py"])
p("C57", "Frustum culling excludes a point set iff some plane excludes all points",
  "planeCull returns (True, plane) iff some plane has all points strictly further than minDistance behind it, and then returns the first such plane; otherwise (False, None).",
  "every number of planes and points",
  "all configurations including empty ones",
  ["accelerate/src/frustcullaccel.pyx: planeCull"])
# ---------------------------------------------------------------- protofunctions
p("C58", "Field lookup resolves names as documented",
  "getField(cls, name) terminates for every string, prefers an attribute with exactly that name, then storage names, then strips set_/_changed (recursively); on failure raises AttributeError. For storage names it returns the name itself instead of the field object (settled negatively).",
  "every class and every string",
  "recursion over all strings",
  ["vrml/protofunctions.py: getField"])
p("C59", "getFields lists each field once with subclass overrides winning",
  "getFields(cls) returns for each attribute name defined as a field somewhere in the MRO the most derived such definition, exactly once.",
  "every MRO",
  "all hierarchies",
  ["vrml/protofunctions.py: getFields"])
p("C60", "List changes of a node-list field are announced as changes of that field",
  "Mutating node.children in place sends ('set', children) from the node, if the list was first assigned through fset/constructor. For lists obtained by default read or attribute assignment nothing is announced, the announced value is the node instead of the list, and other node-list fields of the same node are announced too (settled negatively).",
  "every history of assignments and in-place mutations",
  "history-dependent wiring",
  ["vrml/node.py: _MFNode.fset, _changeSender", "vrml/olist.py"])
p("C61", "Instances of a prototype are independent",
  "Setting a mapped field of one instance of a PROTO should not affect other instances. (Settled negatively: all instances share the template's nodes, so setting a field of one sets the same field of every other live instance, and creating an instance resets the shared implementation to the defaults.)",
  "every prototype with a mapped field, every pair of instances and every value",
  "universal negative over prototypes and routing histories",
  ["vrml/node.py: PrototypedNode.instantiate", "vrml/route.py: IS"])
# ---------------------------------------------------------------- text
p("C62", "The parser gives exactly one answer for every text",
  "Parsing any text as a VRML97 file terminates, with one result (a tag tree, or a syntax error); a text that is accepted has been consumed completely.",
  "every text of any length",
  "termination and determinism over all texts",
  ["vrml/vrml97/parser.py: grammar, Parser"])
p("C63", "A file without contents",
  "A text consisting of its first line and separators only should be an empty scene. (Settled negatively: for every first line, ending it with a newline and any separators is a syntax error; the first line without its newline is accepted.)",
  "every first line and every separator text",
  "universal negative",
  ["vrml/vrml97/parser.py: grammar vrmlFile, vrmlScene, rootItem"])
p("C64", "Every storable field value survives being written and read back",
  "For each of the 20 field types with a reader, and every value without infinities or nans that an assignment can leave in such a field, the text written by the field is taken by the grammar as exactly one field value, in every context, and reading it stores the same value again. For the nine types without a reader, reading always fails (settled negatively).",
  "every field type, every value, every writer setting and every following text",
  "universal over values, lengths and floating-point numbers",
  ["vrml/fieldtypes.py: vrmlstr methods, coerce methods", "vrml/vrml97/parseprocessor.py: Field, SFBool, SFFloat, SFInt32, SFVec3f, MFInt32, MFFloat, MFString, SFString"])
p("C65", "Every field type stores its numbers in the format its name promises",
  "Whatever is assigned, an accepted value is stored as the number format of its type; double-precision vector, row and list types keep every double exactly, single-precision types store the nearest single, integer lists take exactly the 32-bit range and keep each number. The field class MFVec2d stores single precision (settled negatively).",
  "every field type, every accepted argument, every double and integer",
  "universal over floating-point numbers and list lengths",
  ["vrml/fieldtypes.py: coerce methods, the *f/*d field classes, MFVec2d"])
p("C66", "Reading a file gives the scene the text describes",
  "Whatever layout, reading a document gives exactly the nodes in the order of the text, each with the type, DEF name and field values written there; USE gives the last node so named before, in the same scene; ROUTEs connect the nodes named; PROTOs get a body with names and IS maps of its own. A document without PROTOs for which this description exists is read without an exception.",
  "every document of any size and depth made of nodes, values, DEF/USE, ROUTE, PROTO and IS, every layout, every table of built-in node types",
  "universal over documents, nesting and layouts",
  ["vrml/vrml97/parseprocessor.py: ParseProcessor", "vrml/vrml97/parser.py: grammar", "vrml/vrml97/scenegraph.py: regDefName, getDEF"])
p("C67", "A file that can be read uses no name before its definition",
  "In every document that can be read, each name in a USE or a ROUTE has been given by a DEF before, in the same scene (the file, or the body of the same PROTO). Not so for what follows the node in an SFNode field, which is never looked at (settled negatively).",
  "every readable document and every scene in it",
  "universal over documents",
  ["vrml/vrml97/parseprocessor.py: USE, ROUTE", "vrml/vrml97/scenegraph.py: getDEF"])
p("C68", "A file that can be read uses no node type before its declaration",
  "In every document that can be read, each node type is built in or declared by a PROTO before, in the same scene or one around it; PROTOs declared inside a PROTO cannot be used outside.",
  "every readable document",
  "universal over documents and nesting",
  ["vrml/vrml97/parseprocessor.py: Node, Proto", "vrml/vrml97/scenegraph.py: getProto, addProto"])
p("C69", "Scenes that were read have no dangling references",
  "Whatever text is read, in the resulting scene and in the body of every PROTO: children, node fields, ROUTEs and IS maps lead to nodes of the same scene; nodes hold values only in fields of their type, in the storage format of the field; each DEF name leads to the last node that has it.",
  "every text",
  "universal over texts",
  ["vrml/vrml97/parseprocessor.py: ParseProcessor", "vrml/vrml97/scenegraph.py: regDefName"])
p("C70", "Instances of a PROTO keep the values the file gives them",
  "Two instances of a PROTO in a file should each have the value written in it. (Settled negatively: for a field that stands for a field in the body by IS, both end up with the value of the second.)",
  "every document ending with two instances of such a PROTO",
  "universal negative over documents",
  ["vrml/vrml97/parseprocessor.py: Attr", "vrml/node.py: PrototypedNode.instantiate", "vrml/route.py: IS"])
p("C71", "Loading a file, saving it and loading that again gives the same scene",
  "If a document is read, its scene can be saved, and reading the saved text gives the same scene: the nodes correspond one to one, with the same types, names, field values, sharing and routes.",
  "every document without PROTOs and Scripts, of any size, layout and sharing, in which no two nodes have the same DEF name and no attribute is given twice in a node, and whose values the writer can write",
  "universal over documents, layouts and writer settings",
  ["vrml/vrml97/parseprocessor.py: ParseProcessor", "vrml/vrml97/linearise.py: Lineariser"])
p("C72", "Saving again changes nothing",
  "The text written for a scene depends only on what is in it, not on the identity or age of its node objects: scenes that are equal node for node are written as the same text. Saving a scene, loading the file and saving that gives the same text again, with any writer settings.",
  "every two scenes equal up to the identity of their nodes; every scene that can be written and read; every document as in C71; every writer setting",
  "universal over scenes, sharing and settings",
  ["vrml/vrml97/linearise.py: Lineariser", "vrml/vrml97/parseprocessor.py: ParseProcessor"])
p("C73", "A saved file with PROTOs can be loaded again as the same file",
  "Saving a file with PROTO declarations, their interfaces, bodies, IS maps, routes and instances, gives text that reads, and what is read is the same file: the same PROTOs with the same fields, defaults and events, bodies that correspond node for node with the same IS maps, and the same scene. PROTOs declared inside others become PROTOs of the file.",
  "every file whose PROTOs have different names, whose nodes, values and names the writer can write, with any nesting, and every writer setting",
  "universal over files, nesting, sharing and settings",
  ["vrml/vrml97/linearise.py: Lineariser", "vrml/vrml97/parseprocessor.py: Proto, FieldDecl, EventDecl, ISStatement", "vrml/protofunctions.py: getFields"])
p("C74", "A file with PROTOs that was saved and loaded can be saved again",
  "Whatever was loaded from a file this package wrote should be writable again. (Settled negatively: with at least one PROTO, the second save always fails.)",
  "every file as in C73 with at least one PROTO, every pair of writer settings",
  "universal negative over files and settings",
  ["vrml/vrml97/linearise.py: Lineariser._linear_Prototype", "vrml/node.py: Node.externalURL"])
p("C75", "PROTOs of the same name inside different PROTOs stay different when saved",
  "Instances should have the same body before saving and after loading. (Settled negatively: the second PROTO of a name is left out, its instances get the body of the first.)",
  "files with two PROTOs declared inside others under one name",
  "needs a counterexample checked against the whole writer and reader",
  ["vrml/vrml97/linearise.py: Lineariser._linear_Prototype"])
p("C76", "IS maps of events are saved",
  "An event in the body of a PROTO that stands for an event of its interface should still do so after saving and loading. (Settled negatively: only maps of fields are written.)",
  "files with PROTOs whose bodies map events",
  "needs a counterexample checked against the whole writer and reader",
  ["vrml/vrml97/linearise.py: Lineariser._linear_Node"])
p("C77", "Constructing a node with keywords is assigning them",
  "Node( **keywords ) gives the node the coerced value of each keyword and leaves its other fields unset, tells watchers of exactly these sets in the order of the keywords, and changes no other node or class. Where all keywords are field names it does exactly what assigning them one by one does, with the same error at the same point. set_x and x_changed stand for x. Unknown names raise AttributeError. (Refuted for events: they can be assigned but not given as keywords.)",
  "every node type with any bases, every number of keywords, every coercion, including ones that fail",
  "universal over class hierarchies, keywords and values",
  ["vrml/node.py: Node.__init__", "vrml/protofunctions.py: getField", "vrml/field.py: BaseField.fset"])
p("C78", "Fields added to a node type are found, and can be removed again",
  "addField( cls, field ) makes the field an attribute of the class and every class derived from it that has no own one of that name, found by getField and listed by getFields; no other name of any class changes. removeField undoes it exactly, and removing an attribute shows the one of the base classes again. (Refuted: a field listed for a class is not always one it can remove.)",
  "every class hierarchy, every class and field",
  "universal over class hierarchies",
  ["vrml/protofunctions.py: addField, removeField, getFields, getField"])
p("C79", "Class-level values of fields read back",
  "setExternalURL( cls, value ) and setSceneGraph( cls, value ) keep the coerced value, get returns it, or the coerced default if none was set, and no other class or field is affected. Reading an attribute of a node or a value of a class sends no message, gives the same when repeated and leaves all other nodes alone. (Refuted: reading such a value hides the field from the nodes of the class; class values cannot be deleted.)",
  "every class, field and value",
  "universal over classes, fields and values",
  ["vrml/protofunctions.py: getExternalURL, setExternalURL, getSceneGraph, delExternalURL", "vrml/field.py: BaseField.fget, fset, fdel"])
p("C80", "Prototypes have the name, fields and bases they were made with",
  "prototype( name, bases, fields ) makes a class whose name is the given one, with the given members, later ones of a name replacing earlier ones, and all other attributes those of the bases; no existing class changes. A name set later reads back, also from derived classes without an own name; an empty one means the name of the Python class. Other classes keep their names.",
  "every name, base list and field list, every class hierarchy",
  "universal over class hierarchies and names",
  ["vrml/node.py: prototype", "vrml/protofunctions.py: protoName, name"])
p("C81", "addRoute adds the route it describes, in all its forms",
  "scene.addRoute( source, field, destination, field ) appends one ROUTE with these ends to scene.routes and returns it; ends given by DEF name are the nodes of that name; the routes there were are unaffected. Giving names or nodes, or a ROUTE object made before, comes to the same. SceneGraph( routes=... ) has the given routes in the given order. (Refuted: a name that is not there is not reported; the route then leads nowhere for good.)",
  "every history of a scene's routes, every form of addRoute, every list of routes",
  "universal over histories and forms",
  ["vrml/vrml97/scenegraph.py: SceneGraph.addRoute, SceneGraph.__init__", "vrml/route.py: ROUTE.__init__, bind"])
p("C82", "The ROUTEs of the scene are the ones in effect",
  "At every moment, whatever was added, removed or retargeted before, a value assigned to a field goes to exactly the fields the scene's current ROUTEs lead to, directly or through others; a removed ROUTE nobody refers to has no effect; assignments end. (Refuted for ROUTEs given another source: they keep forwarding from the old one.)",
  "every history of adding, removing, making, keeping and retargeting ROUTEs; every field, value and coercion; ROUTEs with a destination",
  "universal over histories and route graphs",
  ["vrml/vrml97/scenegraph.py: SceneGraph.addRoute", "vrml/route.py: ROUTE.bind, forward, _forward"])
p("C83", "Functions given to addRoute are called for their field",
  "addRoute( node, field, function ) connects the function until nobody, neither scene.routes nor the user, keeps it. An assignment to the field calls every connected function once, in the order they were added, with the value the field now has; a deletion does so without a value; other fields' functions are not called. (Refuted: values arriving by a ROUTE are not reported; removing one of two watches of a function ends neither; the scene cannot be saved.)",
  "every history of routes and watches, every assignment between ordinary fields",
  "universal over histories and route graphs",
  ["vrml/vrml97/scenegraph.py: SceneGraph.addRoute", "vrml/field.py: Field.watch", "vrml/route.py: ROUTE._forward"])
p("C84", "ROUTEs without destination have no effect",
  "A ROUTE whose destination is NULL or whose destination field is empty changes nothing about any assignment. (Refuted for ROUTEs to a field that does not exist: they are accepted, and then every assignment to their source stores the value and raises AttributeError, without telling the receivers after them.)",
  "every route graph, every assignment",
  "universal over route graphs",
  ["vrml/route.py: ROUTE._forward"])
p("C85", "Scripts are read as they are written",
  "A Script in a file becomes a node at its place and with its name; it has exactly the fields and events its text declares, with the types and classes written, the last declaration of a name counting; a declared field has the value last given to it as an attribute, wherever that stands in the text, and else the value in its declaration; url, directOutput and mustEvaluate likewise, with their defaults if not given. A file in which an attribute of a Script is not a field of it, or stands for a field of a PROTO outside a PROTO, is not read.",
  "every document, of any size and layout, every Script in it that is not inside another node, every name",
  "universal over documents, declarations and attributes",
  ["vrml/vrml97/parseprocessor.py: Script, ScriptFieldDecl, ScriptEventDecl", "vrml/vrml97/script.py: _Script", "vrml/vrml97/parser.py: Script, ScriptGut"])
p("C86", "EXTERNPROTOs are read as they are written",
  "An EXTERNPROTO in a file gives the scene a prototype of that name; its nodes have the declared fields and events, with the classes and types written, the last declaration of a name counting; the fields have the default values of their types; and the prototype has the URLs written, in their order. Names of built-in nodes cannot be declared.",
  "every document, of any size and layout, every EXTERNPROTO in it, every name",
  "universal over documents and declarations",
  ["vrml/vrml97/parseprocessor.py: ExternProto, ExtProtoURL, FieldDecl, EventDecl", "vrml/vrml97/parser.py: ExternProto"])
p("C87", "Saved Scripts can be loaded again",
  "A scene of Scripts without url is saved, with any writer settings, as a file that reads; the Scripts come back in order with their names, exactly the events and fields they declare, of the same types and classes, and their directOutput and mustEvaluate. The fields hold the defaults declared. (Refuted for the values: what has been set on a declared field is not in the file, so a field that holds something else than its default does not hold it in the scene read back.)",
  "every list of Scripts with any number of declarations whose names and defaults can be written; every setting and rendering of numbers",
  "universal over declarations, values and settings",
  ["vrml/vrml97/linearise.py: Lineariser._Script, _eventDict, _fieldDict, _attrDict", "vrml/vrml97/parseprocessor.py: Script"])
p("C88", "A Script with a url can be saved and loaded again",
  "Saving a scene in which some Script has a url gives a file that can be loaded. (Refuted: whatever the Script's declarations and sources, saving succeeds and the file is a syntax error.)",
  "every list of Scripts of which one has sources; every setting",
  "universal over Scripts, sources and settings",
  ["vrml/vrml97/linearise.py: Lineariser._Script, _attrDict, _sffield"])
p("C89", "X3D files are read as VRML97 files",
  "A file that starts with the header the X3D grammar asks for (#X3D, version, utf8, PROFILE line, at most one META) and goes on with a VRML97 body that does not use the X3D words for fields and events gives, with the X3D parser, the scene the VRML97 parser gives for the same body: the same nodes, names, routes, prototypes, or the same error. Files with a vector in parentheses within a list, which the X3D grammar leaves out, are syntax errors; every other document is read. Reading always ends with exactly one answer.",
  "every header, every body of any length, well formed or not",
  "universal over texts",
  ["vrml/vrml200x/parser.py: grammar, VRMLParser", "vrml/vrml97/parseprocessor.py: ParseProcessor", "vrml/vrml97/parser.py: grammar"])
p("C90", "The statements of the X3D header are understood",
  "Files with COMPONENT statements, with several META statements or with a plain number as version can be read with the X3D parser. (Refuted: each makes every such file fail.)",
  "every name, level, key, value, version number and every body",
  "universal over texts",
  ["vrml/vrml200x/parser.py: header, headerStatement, profileStatement, componentStatement, metaStatement"])
p("C91", "The X3D words for fields and events mean what the VRML97 words mean",
  "initializeOnly, inputOutput, inputOnly and outputOnly declare a field, an exposed field, an incoming event and an outgoing event. (True of initializeOnly and inputOnly; refuted for inputOutput, which declares a plain field, and outputOnly, which declares an incoming event.)",
  "every EXTERNPROTO, with any number of declarations",
  "universal over declarations",
  ["vrml/vrml200x/parser.py: fieldDecl, fieldExposure, eventDecl", "vrml/vrml97/parseprocessor.py: fieldDecl, extFieldDecl, eventDecl"])
p("C92", "Scenes with EXTERNPROTOs can be saved and loaded again",
  "Saving a scene whose table of prototypes has an EXTERNPROTO, among PROTOs that can be saved, gives a file that can be loaded. (Refuted: whatever the EXTERNPROTO declares and wherever it is found, the file is a syntax error: the fields, among them the externalURL nobody declared, are written with defaults.)",
  "every list of PROTOs before it, every EXTERNPROTO with any number of fields, events and URLs, anything after it, every setting and rendering of numbers",
  "universal over prototypes, scenes and settings",
  ["vrml/vrml97/linearise.py: Lineariser._proto, _eventDict, _fieldDict", "vrml/vrml97/parser.py: ExternProto, extFieldDecl"])
p("C93", "The scene is a mirror of the text",
  "In the scene read from a file, every node stands where the text has it: the children of the scene are the entries of the file in order, every node has the type and name written, each of its fields holds the last value written for it (nodes at their positions, to any depth) and no field holds a value that is not written; Scripts anywhere in the tree have what they declare; USE stands for a node of that name, and if the name is given once, for the node found at the place of the DEF; the same in the bodies of all PROTOs, at any depth of nesting. Following the attributes and positions on the way to a node in the text leads to that node in the scene. (Fields of a PROTO's instances that stand by IS for fields in its body are the exception, see C70.)",
  "every document that can be read, every nesting of nodes, Scripts and PROTOs, every path",
  "universal over documents, depths and paths",
  ["vrml/vrml97/parseprocessor.py: ParseProcessor, Node, Script, Attr, Proto, USE", "vrml/node.py: Node", "vrml/field.py: Field.fset"])
p("C94", "Translation and scale matrices in floating point",
  "With the matrices stored as float32 and the products computed in float32, in any order of additions and with or without fused multiply-add: the matrices of a translation and its inverse multiply to exactly the identity, if the translation fits float32; those of a scale and its inverse multiply to within 2^-22 of the identity and exactly to it off the diagonal, for components between 2^-120 and 2^120; a point moved by a translation and back is off by at most 2^-22 of the two distances. Outside that they do not: a zero scale component or a translation that overflows float32 gives NaN, a scale by 41 is not exactly undone, and a point nearer to the origin than 2^-26 of the translation comes back as 0.",
  "every translation and scale given as Python floats, every point, every order of summation",
  "universal over binary64 inputs and over the orders of summation a linear algebra library may use",
  ["vrml/vrml97/_transformmatrix.py: transMatrix, scaleMatrix", "vrml/vrml97/transformmatrix.py: compressMatrices"])
p("C95", "Values that do not fit their field are refused",
  "A file in which a node of a built-in type, anywhere in the scene or in a PROTO body, is given an attribute its type does not have, or a value that does not fit the field (a wrong number of entries, entries that are not numbers where numbers are due, decimal points where integers are due), is refused as a whole: reading it raises. No value at all can be written for fields of nine types (SFUInt32, SFVec4f, MFVec4f and the double vectors). Violated for truth values: any single entry other than TRUE, such as a number, is read as FALSE.",
  "every document of the grammar, every node in it at any depth, every attribute",
  "universal over documents and over the places where a value may be written",
  ["vrml/vrml97/parseprocessor.py: Attr, Field, SFBool, SFFloat, SFInt32, MFFloat, MFInt32, SFVec3f", "vrml/fieldtypes.py: _SFVec.coerce, _MFVec.coerce, _MFColor.coerce"])
p("C96", "Text and bytes",
  "Encoding a text to bytes fails exactly when it contains a surrogate; every other text is encoded as UTF-8 and comes back unchanged. Bytes are accepted as a native string, or by an SFString field, exactly when they are UTF-8, and encoding the result gives the same bytes. UTF-8 may be cut at any ASCII byte: the pieces decode to the pieces of the text. The tolerant conversion never raises. Violated beyond: bytes that are not UTF-8 come out of the tolerant conversion as a text whose encoding is different and longer, and bytes assigned to an MFString field become one decimal number per byte.",
  "every text and every sequence of bytes",
  "universal over texts and bytes of any length",
  ["vrml/_bytes.py: as_8_bit, as_str, as_unicode", "vrml/fieldtypes.py: _SFString.coerce, _MFString.coerce"])
p("C97", "Observers that raise",
  "Observers of a child list or of a field may raise on any message. The exception ends the call and reaches the caller; what was announced is the first part of what would have been announced, up to the message that failed. No call is left half done: the list has its old contents or those a builtin list has after the call, so after any history it is what a builtin list is after some of the calls, in order. append, insert, pop, remove, extend and slice assignment of hashable items have taken effect whether or not they raise; slice deletion takes effect exactly when it does not raise. Field values, and the messages sent, are after any history the same as if no observer raised. Violated: messages and contents may disagree for good. An appended item whose announcement failed is in the list and never hears of its parent, and an item announced as removed by a slice deletion that failed is still there.",
  "every behaviour of the observers, list, field type and history of calls",
  "universal over histories and over the messages on which observers raise",
  ["vrml/olist.py: OList", "vrml/field.py: BaseField.__set__, fset, fdel", "accelerate/src/fieldaccel2.pyx: BaseField._set, _del"])
p("C98", "Rotation matrices in floating point",
  "The two matrices rotMatrix makes of a rotation are, to within a few units in the last place of 1, those of the rotation and of its inverse by Rodrigues' formula: every item is finite and off by at most 2^-47, for components given as Python floats or float64, and by at most 2^-18 for the float32 values of SFRotation fields. Their products, in either order, with the additions in any order and with or without fused multiply-add, are the identity to within 2^-44, or 2^-15. The axis need not have length 1: it is enough that its length is between 2^-500 and 2^500, or between 2^-50 and 2^50 for fields, and that the library's cosine, sine and square root are off by at most one unit in the last place. Violated beyond: with a component of 2^512 (2^64 for fields) or more the matrix is a scaling by the cosine, and with all components below 2^-538 (2^-75) its diagonal is not made of numbers.",
  "every rotation whose axis is neither huge nor tiny, every library with accurate functions, every order of the additions",
  "universal over binary64 and binary32 numbers and over libraries",
  ["vrml/vrml97/_transformmatrix.py: rotMatrix", "vrml/fieldtypes.py: _SFRotation, _SFVec32"])
p("C99", "Watchers that set fields",
  "Watchers of fields may themselves assign to fields, the one they hear of included, read fields, raise, and catch what their assignments raise. A field always has the value last stored in it, a value its type accepted. No watcher hears of a value that was not stored, or twice of one assignment; if nobody raises, each hears of every assignment to its field exactly once. A watcher hears of the values in the order they were stored, so that the last one it heard of is the field's value, if the watchers called before it neither assign to the field, themselves or through others, nor raise: always for the watcher connected first. An accepted assignment sticks, even if it raises, if the field's watchers do not assign to the field. All this holds in every network of watchers without cycles. Violated otherwise: when an earlier watcher corrects a value, a later one hears of the correction before it hears of the value corrected, and is left with a value the field does not have.",
  "every network of watchers, program of each of them, initial values and client program, terminating or cut by the recursion limit",
  "universal over programs, and over interleavings of nested assignments",
  ["vrml/field.py: BaseField.__set__, fset, _set, Field.watch", "accelerate/src/fieldaccel2.pyx: BaseField"])
p("C100", "Programs that know different node types",
  "A scene saved by one program is loaded as the same scene by every program that knows its node types, whatever further types it knows and whatever further fields it declares for these types, if the common fields have the same types and defaults. If the scene reaches a node whose type the loader does not know, the text parses and loading it raises an exception, whatever the rest of the scene. In particular scenes with the NURBS and shader types of this library are loaded by a parser that has been given these types. Violated by default: the default parser is not given them, so no saved scene that has such a node can be loaded. Nodes of the shader types that declare no name are written without one, and such a text does not parse.",
  "every pair of tables of node types, scene, settings of the writer, and rendering of numbers",
  "universal over node types and scenes",
  ["vrml/vrml97/nurbs.py", "vrml/vrml97/shaders.py", "vrml/vrml97/basenamespaces.py: basePrototypes", "vrml/vrml97/parseprocessor.py: ParseProcessor", "vrml/vrml97/linearise.py: Lineariser"])
p("C101", "Tables with weak keys",
  "A table with weak keys, such as the one that keeps the connections of each prototype, answers every call, after every history of calls and collections, as an ordinary dictionary over the objects still alive: assignment, lookup, membership, deletion, pop, popitem, setdefault, update and clear. It never returns an object that is gone. Once an object has been collected, nothing is kept alive on its account, and once the callbacks have run the keys listed are the live ones, each once. Every prototype has its own map of connections, the same at every request, whatever is collected in between. This is for keys compared by identity, as prototypes are. Violated beyond: a key that its own value leads to is never collected; of two keys that compare equal the second loses its entry when the first is collected; and counting, testing, iterating, copying or comparing a table, or filling one from another, always raises AttributeError.",
  "every history of calls, of objects held and given up and of collections, and every graph of references",
  "universal over histories, collections at any point and callbacks in any order",
  ["vrml/weakkeydictfix.py: WeakKeyDictionary", "vrml/node.py: ISMAPS, ismaps"])
p("C102", "Projection matrices in floating point",
  "For angles, aspects, planes and boxes of ordinary size (and planes that are not extremely close to each other), perspectiveMatrix returns the matrix of gluPerspective, and with inverse=True its inverse, and orthoMatrix the matrix of glOrtho: each item is its exact value up to one unit in the last place of a float32, and an item that should be 0 is 0. The product of a perspective with its inverse, in either order and however the additions are arranged, is the identity up to 2^-21, except for one item each whose error grows with the sum of the planes over their product, or over their distance. A near plane equal to the far plane is refused. Violated beyond: for a near plane extremely close to the eye the inverse has infinite items.",
  "every angle, aspect, pair of planes and box of ordinary size, every rounding and every order of additions",
  "universal over floating point numbers",
  ["vrml/vrml97/_transformmatrix.py: perspectiveMatrix, orthoMatrix"])
p("C103", "Combined matrices in floating point",
  "The matrix of a path, and its inverse matrix, combined of the matrices of the translations, centers, rotations, scale orientations and scales of its Transforms, is the exact product of these, in the right order, up to about 2^-19 per matrix times the product of their sizes, whatever the depth of the path, whichever of the arrays are of float32 or float64 and however numpy arranges the additions; and a point multiplied with it lands where the exact product takes it, up to the same relative error. All items are finite as long as the sizes do not multiply to more than about 2^100. The same holds for compressMatrices of any number of matrices, which is None only if all of them are. Violated beyond: finite scales that multiply to too much give infinite items.",
  "every path, of every depth, every finite matrices of its parts, every point, every rounding and every order of additions",
  "universal over depths and floating point numbers",
  ["vrml/vrml97/transformmatrix.py: localMatrices, compressMatrices", "vrml/vrml97/nodepath.py: _NodePath.transformMatrix"])
p("C104", "Points through Transforms in floating point",
  "A point with float64 coordinates, multiplied with the matrix of a path of Transforms, lands where the VRML97 standard puts it, given the values stored in the fields: up to a relative error of about 25 * 2^-19 for each Transform, in proportion to the sizes of the point, the translations, the centers and the scales, whatever the depth of the path. The inverse matrix takes the point that belongs to a place back from that place with about the same accuracy, if the scales are neither huge nor tiny. A point moved by the matrix and then by the inverse matrix is where it was, up to the errors of both ways. This assumes axes that are neither huge nor tiny, and that no angle but 0 counts as no turn; library functions are accurate to one unit in the last place. Violated beyond: a scale with a 0 has an inverse matrix, but every point multiplied with it gets a coordinate that is infinite or no number; and an angle of 2^20 times the float32 nearest to 2*pi counts as no turn, although it turns a point by more than a tenth of its distance from the axis.",
  "every path, of every depth, every finite values of the fields in the stated ranges, every point, every rounding and every order of additions",
  "universal over depths and floating point numbers",
  ["vrml/vrml97/_transformmatrix.py: rotMatrix, scaleMatrix, transMatrix", "vrml/vrml97/transformmatrix.py: localMatrices, compressMatrices", "vrml/vrml97/nodepath.py: _NodePath.transformMatrix"])
if __name__ == "__main__":
    with open("/verif/properties.jsonl", "w") as f:
        for q in P:
            f.write(json.dumps(q) + "\n")
    print(len(P))
