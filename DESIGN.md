# Formal model of mcfletch/pyvrml97

Everything is in `rocq/theories` (logical name `Verif`), Coq 8.16.1, standard
library and (for IEEE-754 numbers, without axioms of its own) Flocq. `/repo` was read as text; nothing of it was built or run.

## Layout

For each topic `X`:

* `X_Model.v`  - definitions only. Each carries the `/repo` file and lines it models.
* `X_Spec.v` (or the top of the property file) - the specification vocabulary,
  written independently of the model's helpers.
* `X_Proofs.v` - lemmas.
* `P_X.v` - the property theorems (ids in the names), each closed by a lemma,
  followed by `Print Assumptions` and by a concrete example meeting its hypotheses.

Naming: `Cnn_...` is a theorem about property Cnn; the suffix `_refuted` marks
a theorem showing that the (wider) claim is *false* of the code as written,
`_partial` a theorem weaker than the English property.

## Plan per property

| id | modelled | proof |
|----|----------|-------|
| C01-C04 | `olist.py` OList over Python list semantics (index/slice normalisation) with an event log | refinement to a plain-list machine, induction over histories; counting lemmas for events |
| C05-C07 | `weaklist.py` WeakList as list of references + liveness set, collections as explicit schedule steps | invariants over arbitrary schedules |
| C08-C14 | `field.py` BaseField/Field/WeakField and `fieldaccel2.pyx`, state = (node,field) -> option value, event log, arbitrary coercion function | refinement / simulation, induction over histories |
| C15-C19 | `fieldtypes.py` coercions on a Python value datatype; `csscolors.py` | structural induction, arithmetic |
| C20-C28 | `fieldtypes.py` writers, `parser.py` grammar as PEG data with a fuelled interpreter, `parseprocessor.py`, `linearise.py` | big-step lemmas for every production, induction over strings/lists/trees |
| C29,C31 | `linearise.py` node traversal over an arbitrary finite graph | measure on unvisited nodes |
| C30 | `arrays.safeCompare` | case analysis, refutation witness |
| C32-C36 | `route.py`, `event.py`, dispatcher delivery over arbitrary route graphs | measure = unvisited targets; invariants |
| C37-C40 | `scenegraph.py` regDefName/getProto, `linearise._preroute`, `node.RootScenegraphNode.fset` | invariants, pigeonhole, graph induction |
| C41-C43 | `node.py` copy/instantiate over a heap | heap reasoning |
| C44-C46 | `cache.py`, `nodepath.transformMatrix`, `Transform.localMatrices` | invariant over histories |
| C47-C49 | `nodepath.py` (both) | list induction |
| C50-C56 | `_transformmatrix.py`, `transformmatrix.py`, `tmatrixaccel.pyx` over Coq's reals | `field`/`ring`/`nsatz`-style algebra |
| C57 | `frustcullaccel.pyx` | list induction |
| C58-C60 | `protofunctions.py`, `node._MFNode` | string length measure, invariants |

| C61 | `node.py` PrototypedNode.instantiate with the links of `route.py` | invariants over histories |
| C62-C63, C25-C26 | `parser.py` as a PEG run by a fuelled interpreter | totality by a measure, big-step lemmas |
| C64-C65 | the `vrmlstr` and `coerce` methods of `fieldtypes.py` with IEEE-754 numbers | induction over values, Flocq's rounding theorems |
| C66-C70 | `parseprocessor.py` with PROTO scopes and IS maps, behind the grammar | a relation giving the meaning of a document (`Reading_Spec.v`), soundness and completeness by induction over documents; an invariant (`Closed_Spec.v`) for arbitrary tag lists |
| C71 | reader and writer together | scenes that were read satisfy the conditions of C27: nodes without name occur once and every node is reachable, by induction over the meaning of documents (`Reload.v`) |
| C72 | the writer, run on two scenes | a simulation between the two runs: same buffer and indentation, visited nodes correspond (`Resave.v`) |
| C73-C76 | the writer of PROTO declarations (`Proto_Model.v`) with the reader of C66 | the written text is a document of Doc_Spec (`ProtoText.v`); its declarations read back as the interface (`ProtoTable.v`), its body as the body (`ProtoBody.v`); an invariant over the table of PROTOs written so far (`ProtoFile.v`); refutations from the same lemmas and by computation |
| C77-C80 | classes with attribute dictionaries and method resolution order, instances, log of messages (`Class_Model.v`): Node.__init__, addField, removeField, class-level fset/fget/fdel, protoName, prototype | induction on keyword and class lists; lookups as in C58 |
| C81-C84 | ROUTE objects, scene.routes, what the user holds, the dispatcher's weak table (`Net_Model.v`), events as in `Route_Model` with destinations looked up late | invariant over histories: connections = kept ROUTEs with a source; simulation by the static network of C32-C34 |
| C85-C86 | reading of Scripts and EXTERNPROTOs (`Build_Model.v`) | from the meaning of documents of C66; a frame lemma: what is read after a Script leaves its declarations and values alone (`Script_Proofs.v`) |
| C87-C88 | writing of Scripts (`Linearise_Model.v`: `script_body`) and reading as in C85 | the written text is a document (`ScriptText.v`, `ScriptSave.v`) whose meaning is given by C66/C85; with sources, an error of the grammar at the url (`ScriptGarbled.v`) |
| C89-C91 | the X3D grammar (`X3D_Model.v`) with the builder of C66 | the two grammars agree production by production on bodies without the X3D words, by induction on the steps of the parser (`X3D_Proofs.v`); headers parsed by hand (`X3D_File.v`) |
| C92 | the writing of EXTERNPROTOs (`Proto_Model.v`) | PROTOs before it by the text lemmas of C73; its declarations shown to stop the grammar at the first default (`ExternGarbled.v`) |
| C93 | the reading of C66 (`Reading_Spec.v`), the mirror relation (`Tree_Spec.v`) | mutual induction over the reading, with a frame invariant: what is read later leaves the nodes read before as they are, except fields shared by IS (`Tree_Proofs.v`) |
| C94 | `transMatrix`, `scaleMatrix` and `dot` on binary32 (`Rounded_Model.v`, Flocq) | a sum of four products in any order is a function of the set of summands, by induction over the orders (`Rounded_Proofs.v`); relative errors |
| C95 | no new model: `read_value` over the reading relation of C66 (`Values_Spec.v` says which entries fit which type) | induction over the reading relation with the set of values written at any depth (`Values_Proofs.v`) |
| C96 | `_bytes.py` with CPython's UTF-8 codec (`Bytes_Model.v`); RFC 3629 as a relation (`Bytes_Spec.v`) | encoder and decoder are both proved equivalent to the relation by induction (`Bytes_Proofs.v`) |
| C97 | `olist.py` and `field.py` again, with a message that raises cutting the method (`Watch_Model.v`); the quiet models of C01-C10 are the reference | each method is shown to run as the quiet one or to be cut after the failing message; induction over histories (`Watch_Proofs.v`) |
| C98 | `rotMatrix` in binary64 (`Turn_Model.v`) and, for SFRotation fields, binary32 (`Turn32_Model.v`); cosine, sine and square root are parameters | forward error analysis: each intermediate number is a known real up to a count of units (`Turn_Proofs.v`, `Turn32_Proofs.v`); products by induction over the orders of summation (`TurnWide_Proofs.v` where binary32 items are multiplied in binary64) |
| C99 | assignment with watchers that are arbitrary programs over fields, as a big-step relation that records stores and calls (`Echo_Model.v`) | mutual induction over executions: the record determines the store, and what each watcher heard (`Echo_Proofs.v`) |
| C100 | no new functions: writer and reader with different tables of node types; the declarations of nurbs.py and shaders.py (`ExtNodes.v`, generated) | induction over what is written and what reading it means, side by side (`P_Types.v`) |
| C101 | the table as a dictionary of weakrefs; deaths of objects and callbacks as separate steps; reachability (`WeakKey_Model.v`) | invariant over histories: the live entries are what each object was last given (`WeakKey_Proofs.v`) |
| C102 | `perspectiveMatrix` and `orthoMatrix` in binary64, stored in binary32 (`Proj_Model.v`); the tangent is a parameter | forward error analysis: relative error of each item, then of dot products in any order of additions (`Proj_Proofs.v`) |
| C103 | `compressMatrices`, `localMatrices` and `transformMatrix` over float32 and float64 arrays, numpy's dot in any order of additions (`Combined_Model.v`) | induction over the list of matrices: error in the row-sum norm grows by a factor 1 + 2^-20 with each product (`Combined_Proofs.v`) |
| C104 | translation, scale and rotation matrices of float32 field values, combined along a path as in C103 and applied to a float64 point (`Placed_Model.v`) | each part is near the matrix of its step in the VRML97 standard (C98 for rotations); induction along the path; the inverse by undoing each step exactly (`Placed_Proofs.v`) |

Status, theorem names and the exact domain of each property are in
`MANIFEST.json`; the English properties in `properties.jsonl`. Properties the
code violates are listed as `partial` with a note starting REFUTED when nothing
of the claim is true, and as `proved` on the stated domain, together with
`_refuted` theorems for the rest, otherwise.

## Trusted base

* Coq's kernel (8.16.1); `coqchk` on all files.
* Axioms: `AXIOMS.md` lists what `Print Assumptions` gives for each of the
  theorems. Most are closed under the global context. The rest use only the
  standard library's real numbers: `ClassicalDedekindReals.sig_forall_dec`,
  `ClassicalDedekindReals.sig_not_dec`,
  `FunctionalExtensionality.functional_extensionality_dep` and, through
  Flocq's lemmas on rounding, `Classical_Prop.classic`. (`vcheck` also lists
  the axioms of modules that are loaded but not used, such as
  `Coq.ssr.ssrunder`.)
* That the model says what the code does. Every definition cites the lines it
  models; simplifications are in the comments.
* The semantics of Python (CPython >= 3.9), numpy, PyDispatcher and SimpleParse,
  as far as used, transcribed in `PyList.v`, `PyDict.v`, `PyNum.v`, `Float.v`,
  `Coerce_Model.v` (numpy arrays), `Route_Model.v`/`Cache_Model.v` (synchronous
  delivery in connection order, weak receivers) and `Grammar_Model.v` (ordered
  choice, greedy repetition, `!` = syntax error on failure, `<x>` unreported).
* Parameters instead of assumptions: what Python's `str( float )`, `float( str )`,
  `int( str )`, codecs and out-of-range float-to-integer casts give are record
  fields or function arguments (`prims`, `fstr`); theorems that need something of
  them take it as a hypothesis (`sane`, `faithful`), and each such hypothesis is
  shown satisfiable by a concrete instance (`P1`, `P_ex`, `exact_str`).

## What is modelled

| repo | model | remarks |
|------|-------|---------|
| `vrml/olist.py` | `OList_Model`, `Watch_Model` | all methods; receivers that do nothing, or only raise |
| `vrml/weaklist.py`, `WeakField` | `Weak_Model` | collections as explicit steps |
| `vrml/field.py` BaseField/Field, `accelerate/src/fieldaccel2.pyx` | `Field_Model`, `Echo_Model` | instances as clients |
| `vrml/fieldtypes.py` coerce/check | `Coerce_Model`, `Collapse_Model`, `Color_Model` | objects of foreign classes, object arrays left out |
| `vrml/fieldtypes.py` vrmlstr | `VrmlStr_Model` | |
| `vrml/csscolors.py` | `Color_Model` | ASCII lower-casing |
| `vrml/route.py`, `vrml/event.py`, `field.Event` | `Route_Model` | routes stay alive |
| `vrml/node.py` copy, fset/root propagation, instantiate, _MFNode | `Copy_Model`, `SceneGraph_Model`, `Instantiate_Model`, `MFNode_Model` | |
| `vrml/copier.py`, `SceneGraph.copy` | `Copy_Model` | |
| `vrml/vrml97/scenegraph.py` names, protos | `SceneGraph_Model` | |
| `vrml/protofunctions.py` getField/getFields | `ProtoFn_Model` | |
| `vrml/protofunctions.py` class functions, `Node.__init__`, `prototype` | `Class_Model` | linear method resolution order given; receivers passive |
| `SceneGraph.addRoute`, `ROUTE.bind`, `field.watch` | `Net_Model` | one scene; ROUTEs die with their last reference |
| `vrml/cache.py` | `Cache_Model` | |
| `vrml/nodepath.py`, `vrml/vrml97/nodepath.py`, Transform.localMatrices | `NodePath_Model`, `PathMatrix_Model` | |
| `_transformmatrix.py`, `transformmatrix.py`, `tmatrixaccel.pyx` | `Matrix_Model` | over the reals: rounding left out |
| `_transformmatrix.py`: `transMatrix`, `scaleMatrix`; `numpy.dot` on float32 | `Rounded_Model` | IEEE-754 binary64 arguments and binary32 items, any order of summation |
| `_transformmatrix.py`: `rotMatrix` | `Turn_Model`, `Turn32_Model` | IEEE-754 binary64 and binary32; library functions as parameters, assumed accurate to one unit in the last place |
| `_transformmatrix.py`: `perspectiveMatrix`, `orthoMatrix` | `Proj_Model` | IEEE-754 binary64 stored in binary32; the tangent as a parameter, assumed accurate to one unit in the last place |
| `transformmatrix.py`: `localMatrices`, `compressMatrices`; `nodepath.py`: `transformMatrix` | `Combined_Model` | IEEE-754, float32 and float64 arrays mixed; matrices computed anew (the cache is in `PathMatrix_Model`) |
| `_transformmatrix.py`: `scaleMatrix`, `transMatrix`, `rotMatrix`; `transformmatrix.py`: `localMatrices` from the fields of a Transform | `Placed_Model` | IEEE-754, float32 fields; all five fields set; numpy 2 |
| `frustcullaccel.pyx` | `Cull_Model` | over any ordered arithmetic |
| `vrml/vrml97/parser.py` | `Grammar_Model` | the whole grammar |
| `vrml/vrml200x/parser.py` | `X3D_Model` | the whole grammar, as changes to `Grammar_Model` |
| `vrml/vrml97/parseprocessor.py`, `script.py` | `Build_Model`, `VrmlStr_Model` (values) | PROTOs, EXTERNPROTOs, Scripts; see the header of the file |
| `vrml/vrml97/linearise.py` | `Linearise_Model`, `Proto_Model` (PROTO and EXTERNPROTO declarations) | see the headers of the files |
| `vrml/vrml97/basenodes.py` | `StdNodes` (generated) | all node types, their fields and defaults |
| `vrml/vrml97/nurbs.py`, `shaders.py` | `ExtNodes` (generated) | the types that have a name and defaults of the right type |
| `vrml/arrays.py` safeCompare | `Scene_Model` | |
| `vrml/_bytes.py` | `Bytes_Model` | Python 3, encoding utf-8 |
| `vrml/weakkeydictfix.py`, `node.ismaps` | `WeakKey_Model` | with what is inherited from weakref.WeakKeyDictionary; keys compare without side effects |

## What is not modelled

The shader
types without a name and ShaderGeometry, script execution, pickling, threads, `weaktuple.py` (on
Python 3 every construction raises TypeError, because `tuple` has no `__init__`
of its own).

## Findings

Each of the following is either the content of a `_refuted` theorem or was
found while reading.

* Every scene that reaches a node with a non-default, non-empty MFString is
  written as text that does not parse (C28); every FontStyle is such a node.
* `del l[i]` on an OList announces the removal and keeps the item; `+=` rebinds
  to a plain list of the new values (C04), so `node.children += [x]` loses the
  old children (C60).
* WeakList queries (`in`, count, index, remove, sort, comparison, repr) raise on
  Python 3 (C07).
* The field class MFVec2d stores single precision (C65).
* Node.copy is shallow; NULL.copy() raises; a SceneGraph with a DEF name of its
  own recurses without end in copy; prototype instances share the template's
  nodes (C41, C42, C61); instantiate with an empty mapping list leaks the loop
  variable of the previous one.
* A node list assigned as attribute, or read as default, announces nothing when
  mutated (C60).
* getField returns the name, not the field, for storage names (C58).
* SFColor/MFColor store nan unclipped; `#rgb` shorthand is read wrongly (C18, C19).
* MFVec types reject strings with TypeError; SFMatrix types reject every sequence
  and string (C17).
* `collapse` loops on cyclic lists; MFInt32 does not flatten; MFString(b'abc')
  gives digit strings; SFString([b'abc']) is "b'abc'"; MFString.check is always 0;
  `_SFVec.length` refers to itself.
* Vector lists of dimension above 100 are written by a loop that never ends (C24);
  infinities and nans are written as unreadable text (C22); nine field types have
  no reader (C64).
* An array default that shares one component with the value drops the value when
  writing (C30); the sign of a zero is lost.
* An empty scene is written as text that is a syntax error (C63); names that
  begin with a keyword are mis-tokenised (C26); a node of more than 600
  characters written alone ends in an unterminated comment.
* An unnamed shared node is written twice (C29), an unnamed node inside itself as
  a comment without value.
* `center()` raises for every non-zero translation or center (C55);
  transformMatrices with a parent matrix does not return inverses;
  zero rotation axes and degenerate boxes differ between the pure and the
  accelerated code (C54, C56).
* `_NodePath.iterdescendents` looks only two levels down, so `invalidate()` misses
  great-grandchildren (C49).
* Two instances of a PROTO in one file end up with the value of the second in
  every field that IS one in the body (C70).
* What follows the node in an SFNode field, and values that are not nodes in an
  MFNode field, are silently ignored; a USE there is not checked (C67). A USE among
  the strings of an MFString is read as an empty string.
* A PROTO written to a file gains an `externalURL` field; the class read back owns
  it, and writing it again raises TypeError (C74). IS on events is lost when
  writing (C76). PROTOs of one name inside different PROTOs become one (C75).
  Writing a PROTO leaves a class attribute `externalURL = []` that hides the field.
  A PROTO field whose default is a named node puts that name into the outermost
  scene. A node list given to an instance is not passed on by IS.
* Events can be assigned but not given to the constructor (C77); reading
  getExternalURL( cls ) hides the field of that name from the nodes of the class,
  and class values cannot be deleted (C79). NULL is equal to nothing, not even NULL.
* addRoute accepts unknown DEF names silently (C81); a ROUTE given a new source
  keeps forwarding from the old one (C82); a ROUTE to a field that does not exist
  makes assignments raise after storing (C84); addRoute with a function misses
  routed values and puts a tuple into scene.routes, which cannot be saved (C83).
* The value of a field a Script declares is not saved, only its default (C87); a
  Script with a url, that is every useful one, is saved as a syntax error (C88).
* The X3D parser reads no file with a COMPONENT statement, with two META
  statements or with a plain number as version (C90); inputOutput gives an
  unexposed field, outputOnly an incoming event (C91).
* A table passed as basePrototypes is changed by reading a file.
* A saved EXTERNPROTO cannot be read: its fields are written with defaults, and externalURL is written as one of them (C92). An EXTERNPROTO without URLs is taken for a PROTO without a body, and saving it fails.
* Billboard is Transforming without having localMatrices.
* A zero scale component (1/1e-300 is infinite in float32) and a translation beyond float32 give NaN in products of the matrices with their inverses (C94).
* `solid 1` is read as `solid FALSE`: a truth value is compared with the text TRUE and nothing else (C95).
* Bytes assigned to an MFString field become a list of decimal numbers, one for each byte; `as_unicode` of bytes that are not UTF-8 cannot be undone (C96).
* When an observer raises, messages and contents of a child list disagree from then on: nothing is undone and nothing is announced again (C97).
* A rotation about an axis with a component of 2^64 or more in a field is a scaling by the cosine; one about an axis shorter than 2^-75 is not made of numbers (C98).
* When a watcher corrects the value it hears of, watchers called after it hear of the correction first and of the corrected value last (C99).
* Saved scenes with NURBS or shader nodes cannot be loaded by the default parser, which does not know their types; five shader types have no name and are written without one (C100). A new ShaderGeometry cannot be read or saved: the default of its SFNode field appearance is an empty list, which SFNode refuses (by reading the code; not modelled).
* `weakkeydictfix.WeakKeyDictionary` does not create the attributes the standard library's methods need: its length, truth value, iteration, copy and comparison always raise AttributeError (C101).
* `perspectiveMatrix(..., inverse=True)` has infinite items for a near plane extremely close to the eye (C102).
* An SFRotation angle that is a multiple of the float32 nearest to 2*pi counts as no turn: at 2^20 turns the rotation that is left out is more than 0.1 radians (C104).
* The inverse matrix of a Transform with a 0 in its scale takes every point to one with a coordinate that is not finite (C104).

## Testing the theorems

`tools/mutate.py` applies an edit to a copy of the model, rebuilds, admits every
lemma that fails and asks `Print Assumptions` which theorems of the `P_*.v` files
depend on them. `seeded/LOG.jsonl` has one line per edit. Theorems that survived
an edit that falsifies their English claim were tightened (field `tightened`).
