# A Rocq model of jschon

Source under study: `/repo/jschon` (pinned commit; `__version__` 0.12.0). The model
lives in `rocq/theories`, logical name `Verif`. Everything is plain Gallina over the
standard library.

* Model files contain no proofs; every definition cites the lines of the source it
  stands for and says where it simplifies.
* `Spec*` files contain the independent specifications.
* The remaining files (`*Facts`, `Schema*`, `Build*`, `PatchHeap*`, ...) contain proofs.
* `Props*` files contain the property theorems, named after the property, each with
  `Print Assumptions` and a concrete non-trivial case. A suffix `_partial` marks a
  theorem weaker than the property (the comment says what is missing), `_refuted` a
  proof that the property fails, with a witness.

## What is modelled

| source | model | not modelled |
|--------|-------|--------------|
| jsonpointer.py | `Pointer.v` (JSONPointer), `RelPointer.v` (RelativeJSONPointer), `Regex.v` (the expressions they use), `Quote.v` (URI fragments), `ReprObjects.v` (repr), `PointerSeq.v` (methods of Sequence), `Hashing.v` (hashes) | keys that are not strings |
| json.py | `Json.v` (values, equality, comparison of numbers), `Compare.v` (the ordering methods), `Text.v` (with `utils.py`: json_dumps and json_loads, and the parts of the standard library behind them), `JTree.v` (nodes with identity, cached path and value, editing), `JSeq.v` (the methods inherited from collections.abc), `JChars.v` (strings as sequences of characters, reversed(), the bounds of index()), `JSlice.v` (slices as indices), `JViews.v` (keys(), items() and values()), `JAlias.v` (identity of the lists and dicts that `.value` returns), `Repr.v` (repr() and str() of the values that appear in error messages; which code points repr() prints as they are is approximated, see the file), `Keywords.v`/`Schema.v` (uses by keywords) | files and the network; assigning a string or object to a slice; JSON.move, copy and test (empty stubs in the source); subclass arguments `itemclass`, `itemkwargs` except JSONSchema for the values of keywords (`Build.v`, `SchemaEdit.v`) |
| jsonpatch.py | `Patch.v` (values), `PatchHeap.v` (Python objects with identity, `deepcopy`), `PatchSeq.v` (JSONPatch as a sequence), `PatchAny.v` (paths that are no strings), `ReprObjects.v` (repr) | |
| jsonschema.py | `Schema.v` (evaluation, Result), `Locate.v` (Result.absolute_uri), `ReadBack.v` (value), `Deps.v` and `Order.v` (keyword order), `Build.v` (construction, references, URIs), `Meta.v` (validate), `Roots.v` (document_rootschema, resource_rootschema, parentschema), `SchemaEdit.v` (editing the values of keywords), `SchemaPatch.v` (add, remove and replace on a schema) | in error messages, the text of a format validator's exception |
| vocabulary/*.py | `Keywords.v`, `Schema.v`, `Build.v`: the keyword classes of 2019-09, 2020-12 and next; `Meta.v`: Vocabulary, Metaschema, VocabularyKeyword | keyword classes of other vocabularies; format validators are arguments (their registration is in `Formats.v`) |
| output.py | `Output.v`, `Formatters.v` (the table of formatters) | values of keyword arguments other than None and lists of strings |
| \_\_init\_\_.py | `Start.v` (create_catalog and the initialize functions of catalog/_*.py) | |
| catalog/__init__.py | `Catalog.v` (sources, caches, formats), `Source.v` (LocalSource, RemoteSource, the registry of catalogs; file system and network are functions), `Build.v` (get_schema), `Meta.v` (creation and lookup of vocabularies and metaschemas, the standard vocabularies of the three versions), `Late.v` (metaschemas loaded in the middle of a construction, and metaschema documents that change their URI; in `Build.v` metaschemas are a table from URIs to keyword classes) | validating a metaschema whose own metaschema has changed its URI |
| uri.py | a URI is a base text and a fragment; parsing, resolution and equality of normal forms are functions about which nothing is assumed (`Catalog.v`); the setter of `JSONSchema.uri` compares with `URI.__eq__`, the caches compare texts | rfc3986 in the theorems, which hold for every parsing and resolution; `Rfc3986.v` has its parsing, resolution and normalization for the conformance checks, for C96, which is about that resolution, and for the witness of C108 |
| formats.py, catalog/_*.py | `Formats.v` (the one validator and the table it is put in), the keyword lists of the dialects, in `Keywords.v` | the metaschema documents (submodules, not in the repository at hand) |

## Modelling conventions

* Python `str` is a list of Unicode code points (`pystr := list N`), so lone
  surrogates exist as they do in Python.
* Python `dict` is an association list in insertion order; assignment to an existing
  key keeps its position, as in CPython.
* Numbers: `int` is `Z`; `float` is an exact dyadic rational `m * 2^e`, an infinity,
  or NaN. Every Python float is of this form (the model admits more dyadics than
  binary64, so universally quantified theorems are stronger). The sign of zero is
  not represented: nothing modelled observes it.
* `int(str)` accepts any number of digits; CPython's limit of 4300 digits is not
  modelled.
* Exceptions are values (`Ok` / `Exn e` / `Fuel`). Python recursion whose
  termination is not structural is fuelled; running out of fuel is a distinct value
  that no theorem confuses with an answer.
* Mutation through references is modelled with explicit heaps where the property is
  about aliasing or caching (json.py trees, patch documents, schema objects of a
  catalog), and by state passing elsewhere (Result trees).
* Runtime facilities (regular expressions, float repr and parsing, format validators, URI
  resolution, file/network sources) are arguments of the model (records of
  functions), universally quantified in the theorems.

## Conformance checks

`Suite.v`, `SuiteSchema.v` and `SuiteOutput.v` run the model on the inputs of the
repository's own tests and compare with the outcomes written there, by
`vm_compute`. They are generated from the test files, read as text. No theorem
depends on them; they are evidence that the model says what the code does. They use
concrete instances of the facilities that are arguments of the model elsewhere:
`Rfc3986.v` (the rfc3986 package) and `Double.v` (binary64 parsing and shortest
repr). `SuiteOutput.v` compares the basic and detailed outputs with error messages
to the letter. Writing it uncovered an error in the model (six patterns bound the
tail of a list of errors), since corrected.

## Per property

| id | model | proof |
|----|-------|-------|
| C01-C05 | `Pointer.v`: escape/unescape by `str.replace`, split, regex as matcher over the same expression, slices | list induction; grammar as an independent inductive in `SpecPointer.v` |
| C06 | `Quote.v`: UTF-8 encoder/decoder, `quote`/`unquote` | case analysis on code point ranges with `lia` |
| C07-C09 | `Pointer.v` `evaluate` on plain values and on JSON nodes, `int()` parsing in `Base.v` | induction on keys; refutation witnesses for C09; exact outcome for every key in `PropsLenient.v`, over the grammar of int() texts in `SpecPyInt.v` |
| C10, C13 | `JTree.v`: heap of JSON nodes, `JSON.__init__` | invariant on the heap |
| C11, C12 | `RelPointer.v` | parser/printer round-trip; evaluation against location arithmetic; exact outcome for every reference in `PropsLenient.v` |
| C14 | `Json.v` `json_eqb`; `SpecEq.v` | structural induction; exact rational comparison |
| C15-C17 | `JTree.v`: heap with cached `path`/`value` | invariant over operation histories, refinement to plain values; refutations for negative indices; `PropsLabels.v` says exactly which keys and paths every history with any indices leaves (spec `SpecLabels.v`, proofs `JTreeLabels.v`); exact outcome for every pointer in `PropsLenient.v` |
| C18-C21, C24, C25 | `Patch.v`: value-level model of jsonpatch.py with all exceptions | induction on paths; frame lemmas; refutations; `PropsPatchErrors.v` gives for every document and path the exception raised; `PropsMoveInto.v` says when a move into its own child succeeds; `PropsOpMembers.v`: comparisons with mappings (C25) |
| C22, C23, C58 | `PatchHeap.v`: heap of Python lists and dicts, `deepcopy` with memo | isolation of old objects; bisimulation of equal graphs; refinement to `Patch.v` for unshared documents; refutations with sharing; what a failing move leaves (`C58_move_leaves`) |
| C26 | `Deps.v`: `_resolve_dependencies` | invariant of the loop; divergence for cycles |
| C27-C44, C53 | `Schema.v`: schema heap, `Result` trees, all keyword classes, fuelled `evaluate`; `SpecSchema.v`: declarative outcome (validity + evaluated members/items) with no result trees | simulation by induction on fuel of the judgement of C74, corollaries per keyword; C28 and C40 by comparing judgements (`SchemaAlike`); refutations |
| C45-C47 | `Schema.v` collectors, `Output.v` | tree induction; an invariant of `evaluate` for C47 |
| C48-C50 | `Catalog.v`, `Build.v`, `Meta.v` | invariants over histories; refutations; for C50 also a frame argument over the whole of construction (`BuildLeaves.v`): which entries of the caches may differ afterwards, however it ends |
| C51, C52, C54-C57 | `Build.v`: schema construction in a catalog; `SpecBuild.v`: the schema a document describes, the schema a URI designates | invariants of the construction (`BuildInv`, `BuildFrame`), partial correctness (`BuildMade`, `BuildOk`, `BuildRefs`), later constructions (`BuildStays`) |
| C59 | `Build.v` and `Schema.v` together; `SpecWritten.v`: documents of one dialect | invariant of the construction (`BuildGood`), composed with C27 and C55 |
| C60, C61 | `Schema.v`, `Output.v` (hierarchical) | invariants of `evaluate` (`SchemaQuiet`, `SchemaPlaced`, `SchemaShape`), tree induction (`HierFacts`); refutation |
| C62 | `Locate.v`, `Build.v` | C51, C61 and the round trip of fragments |
| C63 | `Schema.v`; `SpecEqual.v`: instances alike up to member order and the writing of numbers | induction on the prescribed judgement and on that of C74, keyword by keyword (`SchemaEqual`); refutation for inexact repr |
| C64 | `ReadBack.v` (JSON.value of a schema), `Build.v` | induction on C55 (`ReadBackFacts`), C57; refutation for the order; the order that results, exactly (`SpecReadBack`, `ReadBackExact`) |
| C65, C66 | `Output.v`; `SpecOutline.v` | tree induction (`OutlineFacts`); refutation for the error of the root |
| C67, C68 | `Meta.v`; `SpecMeta.v`: which classes a metaschema should provide | the tables of classes as maps (`MetaFacts`); C55 for the keyword $id; computation on the standard tables |
| C69, C70 | `Build.v`, `Meta.v`; `SpecCaches.v`: histories of catalogs, and steps outside one cache | frame of the construction by cache ids (`BuildCaches`), steps of catalogs (`BuildSteps`) |
| C71 | `Schema.v`; `SpecLocal.v`: the schemas a schema leads to | induction on fuel over pairs of worlds (`SchemaLocal`), on the judgement (`JudgeLocal`) |
| C72 | all of these | invariant that caches are closed (`BuildClosed`), C69 and C71 |
| C73 | all of these; `SpecWritten.v`: a cache of one dialect | invariant of the construction per cache (`BuildGood`), C27, C55 and C71 |
| C74 | `Schema.v`; `SpecCode.v`: what evaluation computes, without result trees | simulation by induction on fuel (`SchemaSim` to `SchemaMain`), uniqueness (`SchemaCode`), comparison with the prescribed judgement (`SchemaStrict`) |
| C75 | `Schema.v`; `SpecSound.v`: sound schemas and instances | invariant of result trees (annotations by class, places of siblings) by induction on fuel (`SchemaSafe`), with C30 and C27; witnesses that the conditions are needed, among them finite limits: an infinite limit cannot be written into the error message and raises ValueError |
| C76 | `Build.v`, `Schema.v`; `SpecStrict.v`: documents in strict form and catalogs where their construction succeeded | invariant of construction (`BuildGood`, `BuildSettled`: on success every new schema object has its references resolved), translated into the conditions of C75 (`BuildStrict`), with C73; assumed: no cycle of in-place references, regular expressions that compile, finite numbers; `C76_success_needed`: after a failed construction a document referring to the broken one is constructed and its evaluation raises AttributeError |
| C77 | `Build.v`; `SpecAccept.v`: `buildable`, a recursive predicate on documents (`SpecNames.v`: `nameable`, the names Python takes for a class of an unknown keyword), and `all_found`, references that lead to what is in the cache | `BuildAccept`: every part of construction succeeds exactly if the corresponding part of the document is acceptable (the dependency order exists by C26's argument), by induction on the document; `BuildFound`: resolution only fills in references, so what is found stays found; fuel beyond the number of schema objects suffices; C76 for the verdict |
| C78 | `Schema.v`; `SpecAnnot.v`: `notes`, the annotation of a keyword in terms of its value and the instance; `SpecNotes.v`: `jots`, those that depend on siblings, and contains, in full, `remarks`, those of the unevaluated keywords | `SchemaNotes`: along the same loop invariant as C86, minContains passing on the annotation of contains; for the unevaluated keywords the relation of nodes to outcomes that the loop ends with fixes the annotation; `SchemaAnnot`: evaluation never annotates the node it is given, so each evaluator sets exactly its own annotation; induction over the keywords of the schema, with minContains changing only the validity of contains |
| C56 (ends), C54 (success) | `Build.v`; `SpecEnds.v`: `library`, a finite list of the documents that can be read, each naming itself by the URI it is found at | `BuildEnds`: making the objects of such a document takes nothing out of the caches (`held_build`), so each document is read at most once per cache; induction over the number of documents not yet read, then over the schema objects behind the current one. `PropsAccept`: an unknown member changes neither `buildable` nor `free_of_references` |
| C79 | `Source.v`: the part of pathlib that LocalSource uses, on POSIX; `SpecSource.v`: where a file name leads, by POSIX path resolution without symbolic links | `SourceFacts`: parsing and printing a path keeps where it leads; refuted for absolute relative paths, two dots, the empty path with a suffix, suffixes with a slash |
| C80 | `Source.v`: the registry as a dict | induction on the history |
| C81 | `PatchSeq.v`: the sequence methods of JSONPatch and those inherited from MutableSequence; `SpecSeq.v`: what indices and slices stand for | `PatchSeqFacts`: `slice.indices` against the selected positions; reverse by swapping, with the invariant of a half-reversed list |
| C82 | `Compare.v`: the ordering methods on values, with Python's comparison of lists; `SpecCompare.v`: the order of rationals extended by infinities and NaN, of texts, and when arrays can be compared | induction on the value; case analysis on numbers through rationals |
| C83 | `Text.v`: encoder and scanner after CPython's `_json.c`; `SpecText.v`: the grammar of RFC 8259 as a relation between texts and values | `TextFacts`: scanner sound and complete for the grammar (mutual induction), fuel beyond the length suffices; the encoder's text is in the grammar |
| C84 | `Roots.v`: the three cached properties on the schema objects of `Build.v`, with the truth of the parent's data; `SpecRoots.v`: innermost identified schema, in terms of `within` | parents of made schemas are the schemas they are subschemas of; induction up the parents |
| C85 | `Formats.v`: the table of validators, the import of `formats.py`, enabling, FormatKeyword with the validator it holds; `SpecFormats.v`: the validator in force after a history | induction on the history from its end; C03 for the grammar |
| C86 | Schema.v (`eval_keyword`, `said`, `tell`, `finish`), Repr.v, Text.v | SpecErrors.v states the error of each class; SchemaErrors.v follows the loop over the keywords next to the simulation of SchemaLoop.v and shows that the error of each invalid child is that one; `SpecNotes.v` (`grumbles`) and `SchemaNotes.v` do so for the unevaluated keywords in full, from what the nodes beside them say when they are reached; `PropsLeft.v` with the outcomes of the specification |
| C87 | `Start.v`, `Meta.v`, `Source.v`, `Catalog.v` | `SpecStart.v`, `StartFacts.v`, `PropsStart.v`: C87_offers, C87_unrecognised, C87_registered, C87_failed_refuted |
| C88 | `Formatters.v`, `Output.v` | `PropsFormatters.v`: C88_latest, C88_others, C88_unknown, C88_standard, C88_arguments |
| C89 | `JTree.v`; spec `SpecTreeAny.v` | C89_values, C89_setitem, C89_delitem, C89_insert, C89_pop, C89_append, C89_getitem, C89_add_at, C89_whole in `PropsTreeAny.v`; by a simulation (`JTreeSim.v`) between heaps that differ only in keys and cached paths |
| C90 | `JSeq.v` (mixin methods of CPython's collections.abc over `JTree.v`); spec `SpecInherit.v` | C90_extend, C90_extend_self, C90_reverse, C90_clear, C90_update, C90_update_node, C90_update_self, C90_popitem, C90_setdefault, C90_get, C90_search, C90_contains_key, C90_edits; C90_clear_object, C90_popitem_first (`PropsInherit.v`) |
| C91 | `AnyValue.v`: `JSON.__init__` and `__eq__` on values with nodes; `SpecAnyValue.v`: what such a value means | induction on values and on node depth, reduction to plain construction (`AnyValueFacts`) |
| C92 | `JSlice.v`: `__getitem__`, `__delitem__`, `__setitem__` with a slice; `SpecSlice.v`: slices as relations, histories | a weaker invariant than that of C15/C89, without keys and with items held elsewhere than under their parent (`JLoose`, `JLooseOps`, `JSliceFacts`) |
| C93 | `Repr.v`, `ReprObjects.v`; `SpecPython.v`: the literals of Python and lists and dicts of them, as inductive relations between texts and values; `SpecReprs.v`: calls of the constructors | `PythonFacts`: repr writes texts of the grammar, by induction on the value; the grammar is unambiguous: an expression followed by a closing character is determined by the text, by mutual induction; with C01, C11, C83 |
| C94 | `PointerSeq.v`: `__getitem__` and the methods inherited from Sequence; `SpecSeq.v` | induction on the loops; slices as in C81 |
| C95 | `Schema.v`: `iterated`, `iterated_nodes`, `iterated_items`, `with_subs`, `with_prefix`; `SpecMistyped.v` | case analysis |
| C96 | `Source.v`: `remote_source`; `Rfc3986.v`; `SpecRemote.v` | splitting, merging and removal of dot segments on paths given by their segments; C48; refuted by four URIs |
| C97 | `Patch.v`; `SpecCommute.v`: operations that are apart, documents that differ in the order of members | `CommuteFacts.v`: an operation below a member or item acts as on that value alone; adjacent swaps |
| C98 | `Patch.v`; `SpecCommute.v` | `CommuteFacts.v`: congruence of each function of jsonpatch.py |
| C99 | `JTree.v`, `JSeq.v`, `JViews.v` | from the simulation of any history (C89) and node equality (C90) |
| C100 | `JAlias.v` over `JTree.v`; `SpecAlias.v` | `AliasFacts.v`: a cached list holds the cached values of the children |
| C101 | `Late.v` over `Meta.v`, `Build.v`; `SpecLate.v` | `LateFacts.v`: a simulation of Build.v; `LateKeeps.v`: what every step keeps |
| C102 | `SchemaEdit.v` over `Build.v`; `SpecEdit.v`: the edited document, the path to a subschema | `EditFacts.v`: a change below one node lifted to the document; `EditRuns.v`, `EditSane.v`: what an edit does; C55 |
| C103 | `Schema.v`, `Build.v`, `SchemaEdit.v`; `SpecTwin.v`: corresponding schemas and results | `SchemaTwin.v`: every keyword in two worlds at once; `TwinMade.v`: two schemas made from one document correspond; C55, C102 |
| C104 | `Build.v` `get_schema`, `Schema.v` `sn_walk`; `SpecPyInt.v`: how a pointer is read; `SpecEdit.v` `reached`: the way to a subschema | `LookupFacts.v`: one step on a node of the schema against one on the document, induction on the keys |
| C105 | `SchemaPatch.v` over `SchemaEdit.v`; `SpecPatch.v`, `SpecSchemaPatch.v`: the edited document; `SpecPyInt.v`: how a path is read | `PatchSpots.v`: the walk to the parent against the document; C102 for the edit itself; C103 for evaluation afterwards |
| C106 | `JChars.v` over `JSeq.v` and `JTree.v`; `SpecChars.v`, `SpecSeq.v`: items, characters and what indices stand for | item by item against the sequence; C90 and C92 for equality and for what editing leaves |
| C107 | `Hashing.v`: the `__hash__` methods, dict entries found by hash and equality; `SpecHashing.v`: what a dict holds after a history, without hashes | no two entries of a dict are the same key; induction on the history; C01 and C11 for the texts |
| C108 | `Hashing.v` over `Catalog.v` and `Rfc3986.v` | a witness; otherwise entry by entry, the hash deciding first |
| C109 | `Patch.v`: `mk_op`, `op_apply`, `mk_patch`; `SpecOpMembers.v`: what RFC 6902 makes of an operation object | C18-C21 for the operations, C03 for the pointer texts; witnesses for the exceptions |
| C110 | `PatchAny.v`: jsonpatch.py with paths and sources of any JSON type | by cases on the operation and on the truth value of the path |

Full detail per theorem is in the comments beside each theorem; `MANIFEST.json`
lists the exact theorem names.

## Trusted base

Coq 8.16.1's kernel, the reading of the Python source recorded in the comments of
the model files, and the standard library. Of Python's own library, what `Text.v` says of
the `json` module and `Compare.v` of the comparison of lists is likewise taken on trust. `Print Assumptions` is run under every
property theorem and reports "Closed under the global context" for each: no axiom is
used. The axioms that `coqchk` lists are the parameters of the standard library's
`ssr/ssrunder.v`, which is loaded with a library module; no theorem uses them.

The source was meant to be read as text only. Once, during this work, a one-line Python
command that imports the standard library's `json` was run with `/repo/jschon` as the
working directory, so Python took up the project's `json.py` instead. The import failed
at line 9 (`from jschon.exc import ...`, no such package), three times over, after the
standard library imports above that line and before any definition; Python left a
compiled copy, `/repo/jschon/__pycache__/json.cpython-311.pyc`. The copy has been removed
(the modification time of `/repo/jschon` still shows it). The command gave no result, and
nothing here rests on it.
