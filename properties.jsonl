{"id": "C01", "title": "JSON pointer text round-trip (keys to text to keys)", "statement": "For every sequence of keys ks, JSONPointer(str(JSONPointer(ks))) is accepted and has exactly the keys ks; in particular str() is injective on pointers.", "quantifier": "every finite sequence of arbitrary Unicode keys (including empty keys and keys with ~ and /)", "why_tests_cant": "The escape and unescape substitutions interact ('~01' must decode to '~1'); a random test rarely draws the interacting sequences and never all of them.", "anchors": ["jschon/jsonpointer.py:JSONPointer.__new__", "jschon/jsonpointer.py:JSONPointer.__str__", "jschon/jsonpointer.py:JSONPointer.escape", "jschon/jsonpointer.py:JSONPointer.unescape"]}
{"id": "C02", "title": "JSON pointer text round-trip (text to keys to text)", "statement": "For every string s accepted by JSONPointer(s), str(JSONPointer(s)) == s.", "quantifier": "every string", "why_tests_cant": "The set of accepted strings is infinite.", "anchors": ["jschon/jsonpointer.py:JSONPointer.__new__", "jschon/jsonpointer.py:JSONPointer.__str__"]}
{"id": "C03", "title": "JSON pointer acceptance is exactly the RFC 6901 grammar", "statement": "JSONPointer(s) raises JSONPointerMalformedError exactly when s is not in the RFC 6901 grammar *( '/' *( unescaped / '~0' / '~1' ) ), and no other exception.", "quantifier": "every string", "why_tests_cant": "Acceptance is a language-equality claim over infinitely many strings.", "anchors": ["jschon/jsonpointer.py:JSON_POINTER_RE", "jschon/jsonpointer.py:JSONPointer.__new__"]}
{"id": "C04", "title": "JSON pointer concatenation and slicing algebra", "statement": "JSONPointer(a, b) has the keys of a followed by the keys of b; (p / q) / r == p / (q / r); p / () == p; p[:i] / p[i:] == p for every integer slice bound i; len(p / q) == len(p) + len(q).", "quantifier": "all pointers and all integer slice bounds (including negative and out-of-range ones)", "why_tests_cant": "Algebraic laws over unbounded sequences and over all Python slice bounds.", "anchors": ["jschon/jsonpointer.py:JSONPointer.__new__", "jschon/jsonpointer.py:JSONPointer.__truediv__", "jschon/jsonpointer.py:JSONPointer.__getitem__"]}
{"id": "C05", "title": "JSON pointer prefix order", "statement": "p <= q exactly when some r satisfies q == p / r; p < q exactly when p <= q and p != q; <= is reflexive, antisymmetric and transitive; equal pointers hash the same key tuple.", "quantifier": "all pairs and triples of pointers", "why_tests_cant": "Order laws quantify over all pairs and triples.", "anchors": ["jschon/jsonpointer.py:JSONPointer.__le__", "jschon/jsonpointer.py:JSONPointer.__lt__", "jschon/jsonpointer.py:JSONPointer.__eq__", "jschon/jsonpointer.py:JSONPointer.__hash__"]}
{"id": "C06", "title": "URI fragment round-trip", "statement": "For every pointer p whose keys contain no lone surrogates, JSONPointer.parse_uri_fragment(p.uri_fragment()) == p, and p.uri_fragment() consists only of characters of the RFC 3986 fragment production.", "quantifier": "every sequence of keys over all Unicode scalar values", "why_tests_cant": "UTF-8 percent-encoding has four length classes and boundary code points; tests sample a few ASCII characters.", "anchors": ["jschon/jsonpointer.py:JSONPointer.uri_fragment", "jschon/jsonpointer.py:JSONPointer.parse_uri_fragment"]}
{"id": "C07", "title": "Pointer evaluation on plain Python documents is RFC 6901 evaluation", "statement": "p.evaluate(d) for d built of lists, dicts and scalars returns exactly the value found by following the keys (object member by exact key, array element by an index of the form 0|[1-9][0-9]*), and raises JSONPointerReferenceError otherwise; it never raises anything else.", "quantifier": "all pointers and all documents of any depth", "why_tests_cant": "Depth, keys and index spellings are unbounded.", "anchors": ["jschon/jsonpointer.py:JSONPointer.evaluate"]}
{"id": "C08", "title": "Pointer evaluation composes", "statement": "(p / q).evaluate(d) succeeds exactly when p.evaluate(d) succeeds and q.evaluate of that value succeeds, with the same value.", "quantifier": "all pointers and documents", "why_tests_cant": "Compositionality quantifies over all splits of all pointers.", "anchors": ["jschon/jsonpointer.py:JSONPointer.evaluate", "jschon/jsonpointer.py:JSONPointer.__truediv__"]}
{"id": "C09", "title": "Pointer evaluation on JSON instances agrees with evaluation on their plain value", "statement": "For every document v and pointer p: p.evaluate(JSON(v)) succeeds exactly when p.evaluate(v) succeeds, with corresponding values, and otherwise raises JSONPointerReferenceError. (False of the code: for JSON arrays the index syntax is not checked, so '/-1' resolves and '/foo' raises ValueError.)", "quantifier": "all documents and pointers", "why_tests_cant": "The disagreement appears only for index tokens outside the tested shape; tests only try failing pointers on the plain value.", "anchors": ["jschon/jsonpointer.py:JSONPointer.evaluate", "jschon/json.py:JSON.__getitem__"]}
{"id": "C10", "title": "Every node's path leads back to that node", "statement": "For a JSON document built from any value, for every node n in it, n.path.evaluate(root) is n, and two different nodes have different paths.", "quantifier": "all documents and all nodes in them", "why_tests_cant": "Quantifies over every node of every document.", "anchors": ["jschon/json.py:JSON.path", "jschon/json.py:JSON.__init__", "jschon/jsonpointer.py:JSONPointer.evaluate"]}
{"id": "C11", "title": "Relative JSON pointer text round-trip and acceptance", "statement": "RelativeJSONPointer(s) is accepted exactly for the grammar up over ref; str(RelativeJSONPointer(s)) == s for every accepted s; RelativeJSONPointer(str(r)) == r for every r made from non-negative up, any over, and a pointer or '#'.", "quantifier": "every string; every up >= 0, every integer over, every ref", "why_tests_cant": "Language equality and round-trip over unbounded integers and pointers.", "anchors": ["jschon/jsonpointer.py:RelativeJSONPointer.__new__", "jschon/jsonpointer.py:RelativeJSONPointer.__str__", "jschon/jsonpointer.py:RELATIVE_JSON_POINTER_RE"]}
{"id": "C12", "title": "Relative JSON pointer evaluation", "statement": "Evaluating up/over/ref at a node goes up exactly `up` levels, moves by exactly `over` array positions, then follows ref or returns the key/index; each failing step raises RelativeJSONPointerReferenceError.", "quantifier": "all documents, all nodes, all relative pointers", "why_tests_cant": "All combinations of depth, offset and reference.", "anchors": ["jschon/jsonpointer.py:RelativeJSONPointer.evaluate"]}
{"id": "C13", "title": "JSON construction and value are inverse, and classify types correctly", "statement": "JSON(v).value == v (same types, same key order), JSON(v).type is the JSON type of v with booleans never classified as numbers; every descendant is of the class JSON with parent and key set to its location.", "quantifier": "all JSON-compatible values of any depth", "why_tests_cant": "Unbounded nesting.", "anchors": ["jschon/json.py:JSON.__init__", "jschon/json.py:JSON.value"]}
{"id": "C14", "title": "JSON equality is JSON-Schema equality", "statement": "JSON(a) == JSON(b) exactly when a and b are the same JSON value: same type, numbers equal mathematically (1 == 1.0), booleans distinct from numbers, arrays elementwise, objects as unordered maps. It is reflexive, symmetric and transitive on NaN-free values.", "quantifier": "all pairs and triples of values", "why_tests_cant": "Equivalence laws over all triples; mixed int/float comparison is exact at any magnitude.", "anchors": ["jschon/json.py:JSON.__eq__"]}
{"id": "C15", "title": "Mutation histories keep documents coherent", "statement": "After any sequence of item assignments, deletions, insertions and in-place add/remove/replace on any nodes of a document with in-range non-negative indices, interleaved with any reads of path and value: every node's value equals the freshly recomputed one, every node's path is its actual location, and the document's value equals the result of the same operations on plain lists and dicts.", "quantifier": "all documents and all finite histories of operations and reads", "why_tests_cant": "Cache staleness depends on the interleaving of reads and writes over the whole history.", "anchors": ["jschon/json.py:JSON.__setitem__", "jschon/json.py:JSON.__delitem__", "jschon/json.py:JSON.insert", "jschon/json.py:JSON._invalidate_path", "jschon/json.py:JSON._invalidate_value", "jschon/json.py:JSON.add", "jschon/json.py:JSON.remove", "jschon/json.py:JSON.replace"]}
{"id": "C16", "title": "Negative or out-of-range list indices keep documents coherent", "statement": "Deleting or inserting at any index that a Python list accepts (negative, or beyond the end for insert) leaves every node's path equal to its actual location. (False of the code: del doc[-1], doc.pop() and doc.insert(-1, x) leave wrong keys.)", "quantifier": "all arrays and all integer indices", "why_tests_cant": "The existing property tests only draw non-negative in-range indices.", "anchors": ["jschon/json.py:JSON.__delitem__", "jschon/json.py:JSON.insert", "jschon/json.py:JSON.__setitem__"]}
{"id": "C17", "title": "In-place JSON add/remove/replace agree with JSON Patch", "statement": "For any document, path and value: doc.add(path, x) leaves doc.value equal to jsonpatch.add(doc.value, path, x), and raises when that raises; likewise remove and replace.", "quantifier": "all documents, paths and values", "why_tests_cant": "Two independent implementations of the same operations; agreement is over all inputs.", "anchors": ["jschon/json.py:JSON.add", "jschon/json.py:JSON.remove", "jschon/json.py:JSON.replace", "jschon/jsonpatch.py:add", "jschon/jsonpatch.py:remove", "jschon/jsonpatch.py:replace"]}
{"id": "C18", "title": "JSON Patch add", "statement": "add(doc, path, v): afterwards the value at path is v ('-' or the length appends; an array index shifts the later items by one; an object member is set); every location not at or below the target (after the shift) keeps its value.", "quantifier": "all documents, paths, values", "why_tests_cant": "Frame conditions quantify over all other locations.", "anchors": ["jschon/jsonpatch.py:add", "jschon/jsonpatch.py:Node"]}
{"id": "C19", "title": "JSON Patch remove and replace", "statement": "remove deletes exactly the value at path (array items after it shift down) and fails if it does not exist; replace sets exactly the value at an existing path; nothing else changes. replace equals remove followed by add for a value (up to the order of object members).", "quantifier": "all documents, paths, values", "why_tests_cant": "Frame conditions and equivalence over all inputs.", "anchors": ["jschon/jsonpatch.py:remove", "jschon/jsonpatch.py:replace", "jschon/jsonpatch.py:Node"]}
{"id": "C20", "title": "JSON Patch move and copy", "statement": "copy(path, from) is add of the value at from; move is remove(from) followed by add at path; moving a location into one of its own children is rejected; add followed by remove of the same array position or new member restores the document.", "quantifier": "all documents and pairs of paths", "why_tests_cant": "Quantifies over all pairs of overlapping paths.", "anchors": ["jschon/jsonpatch.py:move", "jschon/jsonpatch.py:copy"]}
{"id": "C21", "title": "JSON Patch test never changes the document and compares by JSON equality", "statement": "test(doc, path, v) returns doc unchanged when the value at path equals v in the JSON sense and raises otherwise.", "quantifier": "all documents, paths, values", "why_tests_cant": "All values including nested ones and mixed numeric types.", "anchors": ["jschon/jsonpatch.py:test"]}
{"id": "C22", "title": "JSON Patch evaluation leaves its inputs alone", "statement": "JSONPatch.evaluate(doc) never modifies doc, the operations or the values in them, even when it raises; evaluating the same patch again on an equal document gives an equal result; results do not share structure with the operations.", "quantifier": "all documents (as Python objects that may share sub-objects), all patches, all failure points", "why_tests_cant": "Aliasing shows up only through later mutations; failure can occur at any operation.", "anchors": ["jschon/jsonpatch.py:JSONPatch.evaluate", "jschon/jsonpatch.py:add", "jschon/jsonpatch.py:replace"]}
{"id": "C23", "title": "JSON Patch evaluation has value semantics", "statement": "The result of JSONPatch.evaluate(doc) depends only on the JSON value of doc: it is the sequential composition of the RFC 6902 operations on that value. (False when doc is a Python object in which one list or dict occurs twice: deepcopy keeps the sharing, so one operation changes both places.)", "quantifier": "all documents, with and without shared sub-objects, and all patches", "why_tests_cant": "Tests build documents from JSON text, which never shares.", "anchors": ["jschon/jsonpatch.py:JSONPatch.evaluate", "jschon/jsonpatch.py:JSONPatchOperation.apply"]}
{"id": "C24", "title": "An inapplicable patch operation raises JSONPatchError", "statement": "Every operation that RFC 6902 rejects (missing parent, bad index, missing target, failed test) raises JSONPatchError, and array indices follow the RFC 6901 syntax. (False of the code: a scalar parent gives AssertionError, AttributeError or TypeError, and '01' or '+1' are accepted as indices.)", "quantifier": "all documents and operations", "why_tests_cant": "The leak depends on the kind of value met at the parent path.", "anchors": ["jschon/jsonpatch.py:Node", "jschon/jsonpatch.py:add", "jschon/jsonpatch.py:test"]}
{"id": "C25", "title": "Patch operation dictionaries round-trip", "statement": "JSONPatchOperation(**op.asdict()) == op for every operation made from the fields its kind uses, and JSONPatch(*patch.aslist()) == patch. Comparing an operation with a mapping, or a patch with a sequence of operations and mappings, gives what comparing with the operations made of them gives, or the exception of the first one that cannot be made.", "quantifier": "all operations and patches", "why_tests_cant": "All pointers, values and kinds.", "anchors": ["jschon/jsonpatch.py:JSONPatchOperation.asdict", "jschon/jsonpatch.py:JSONPatchOperation.__new__", "jschon/jsonpatch.py:JSONPatch.aslist", "jschon/jsonpatch.py:JSONPatchOperation.__eq__", "jschon/jsonpatch.py:175-179"]}
{"id": "C26", "title": "Keyword evaluation order respects dependencies and loses nothing", "statement": "When a schema is constructed, its keywords are evaluated in an order that is a permutation of the recognised and unknown keywords present, in which each keyword comes after every present keyword it depends on; the ordering loop ends exactly when the present keywords have no cyclic (or duplicated) dependency.", "quantifier": "all schemas and all keyword classes with arbitrary depends_on declarations", "why_tests_cant": "Termination and topological order over arbitrary dependency graphs.", "anchors": ["jschon/jsonschema.py:JSONSchema._resolve_dependencies"]}
{"id": "C27", "title": "Validation agrees with the JSON Schema specification", "statement": "For every 2020-12 schema object (all standard assertion and applicator keywords, with references) and every instance: if evaluation returns, result.valid is exactly the validity defined by the JSON Schema rules.", "quantifier": "all schemas and instances of any depth, any set of references", "why_tests_cant": "The central claim: test suites sample it.", "anchors": ["jschon/jsonschema.py:JSONSchema.evaluate", "jschon/vocabulary/applicator.py", "jschon/vocabulary/validation.py", "jschon/vocabulary/core.py"]}
{"id": "C28", "title": "Validity does not depend on the order of keywords in the schema", "statement": "Two schemas that differ only in the order in which keywords are written evaluate every instance to the same validity.", "quantifier": "all schemas, all permutations of their keywords, all instances", "why_tests_cant": "Permutations of interacting keywords cannot be enumerated.", "anchors": ["jschon/jsonschema.py:JSONSchema.__init__", "jschon/jsonschema.py:JSONSchema._resolve_dependencies", "jschon/vocabulary/applicator.py"]}
{"id": "C29", "title": "Validity does not depend on where the instance sits", "statement": "Evaluating a schema against a node of a larger document gives the same validity and annotations as evaluating it against the same value as a document of its own.", "quantifier": "all schemas, all instances, all locations", "why_tests_cant": "Results are indexed by instance path; independence must hold for every path.", "anchors": ["jschon/jsonschema.py:JSONSchema.evaluate", "jschon/jsonschema.py:Result.__call__", "jschon/json.py:JSON.path"]}
{"id": "C30", "title": "Evaluation terminates for guarded schemas", "statement": "If references and in-place applicators cannot lead from a subschema back to itself without descending into the instance, evaluate returns (or raises a keyword error) for every instance; a schema whose $ref leads directly to itself never returns.", "quantifier": "all schema graphs and instances", "why_tests_cant": "Termination is not observable by testing.", "anchors": ["jschon/jsonschema.py:JSONSchema.evaluate", "jschon/vocabulary/core.py:RefKeyword.evaluate"]}
{"id": "C31", "title": "allOf, anyOf, oneOf, not, if/then/else are the boolean connectives", "statement": "An instance is valid against allOf/anyOf/oneOf/not/if-then-else exactly when all/at least one/exactly one/none/the selected branch of the subschemas accept it; De Morgan and double negation hold for validity.", "quantifier": "all lists of subschemas and instances", "why_tests_cant": "All lengths and nestings.", "anchors": ["jschon/vocabulary/applicator.py:AllOfKeyword", "jschon/vocabulary/applicator.py:AnyOfKeyword", "jschon/vocabulary/applicator.py:OneOfKeyword", "jschon/vocabulary/applicator.py:NotKeyword", "jschon/vocabulary/applicator.py:IfKeyword", "jschon/vocabulary/applicator.py:ThenKeyword", "jschon/vocabulary/applicator.py:ElseKeyword"]}
{"id": "C32", "title": "properties, patternProperties and additionalProperties partition an object", "statement": "Each member of an object instance is checked against its properties subschema, against every matching patternProperties subschema, and against additionalProperties exactly when neither of those applies.", "quantifier": "all objects, all property sets, all regular expressions", "why_tests_cant": "All combinations of names and patterns.", "anchors": ["jschon/vocabulary/applicator.py:PropertiesKeyword", "jschon/vocabulary/applicator.py:PatternPropertiesKeyword", "jschon/vocabulary/applicator.py:AdditionalPropertiesKeyword"]}
{"id": "C33", "title": "prefixItems and items partition an array", "statement": "Item i is checked against prefixItems[i] when that exists and against items exactly when it does not.", "quantifier": "all arrays and prefix lengths", "why_tests_cant": "All lengths.", "anchors": ["jschon/vocabulary/applicator.py:PrefixItemsKeyword", "jschon/vocabulary/applicator.py:ItemsKeyword"]}
{"id": "C34", "title": "unevaluatedProperties sees exactly the members nothing else evaluated", "statement": "unevaluatedProperties applies to a member exactly when no adjacent or successfully validated in-place subschema evaluated it. (False of the code when a not keyword is present: annotations inside a failed subschema of not are collected.)", "quantifier": "all schemas and instances", "why_tests_cant": "Depends on annotation flow through arbitrary nesting of in-place applicators.", "anchors": ["jschon/vocabulary/applicator.py:UnevaluatedPropertiesKeyword", "jschon/jsonschema.py:Result.collect_annotations", "jschon/vocabulary/applicator.py:NotKeyword"]}
{"id": "C35", "title": "unevaluatedItems sees exactly the items nothing else evaluated", "statement": "unevaluatedItems applies to an item exactly when no adjacent or successfully validated in-place subschema (prefixItems, items, contains, unevaluatedItems) evaluated it.", "quantifier": "all schemas and instances", "why_tests_cant": "Depends on annotation flow through arbitrary nesting.", "anchors": ["jschon/vocabulary/applicator.py:UnevaluatedItemsKeyword", "jschon/jsonschema.py:Result.collect_annotations"]}
{"id": "C36", "title": "contains with minContains and maxContains counts matches", "statement": "An array is valid against contains/minContains/maxContains exactly when the number of items valid against contains lies within the bounds (default lower bound 1, and minContains 0 makes contains always succeed).", "quantifier": "all arrays, bounds and subschemas", "why_tests_cant": "All counts; the keywords repair each other's results after the fact.", "anchors": ["jschon/vocabulary/applicator.py:ContainsKeyword", "jschon/vocabulary/validation.py:MinContainsKeyword", "jschon/vocabulary/validation.py:MaxContainsKeyword"]}
{"id": "C37", "title": "Assertion keywords decide their mathematical relation", "statement": "type, enum, const, (exclusive)minimum/maximum, min/maxLength, min/maxItems, uniqueItems, min/maxProperties, required and dependentRequired accept exactly the instances their definition describes, with exact int/float comparison.", "quantifier": "all instances and keyword values", "why_tests_cant": "Numbers and lengths are unbounded; int/float comparison is exact only if done right.", "anchors": ["jschon/vocabulary/validation.py"]}
{"id": "C38", "title": "multipleOf decides divisibility", "statement": "An integer instance is valid against multipleOf m (m a positive integer) exactly when it is divisible by m. (False of the code when the quotient has more than 28 digits: decimal arithmetic raises and the keyword fails.)", "quantifier": "all integers", "why_tests_cant": "Only quotients of 10**28 and more fail.", "anchors": ["jschon/vocabulary/validation.py:MultipleOfKeyword"]}
{"id": "C39", "title": "Keywords ignore instances of other types", "statement": "A keyword restricted to certain instance types never changes validity, annotations or errors for an instance of another type; a schema whose keywords are all inapplicable accepts.", "quantifier": "all keywords, all instances", "why_tests_cant": "All type/keyword combinations inside arbitrary schemas.", "anchors": ["jschon/jsonschema.py:JSONSchema.evaluate", "jschon/vocabulary/__init__.py:Keyword.instance_types"]}
{"id": "C40", "title": "Unknown and annotation keywords never affect validity", "statement": "Adding or removing unknown keywords and annotation keywords (title, default, examples, format when not enabled, ...) never changes result.valid.", "quantifier": "all schemas, all unknown keywords with any values, all instances", "why_tests_cant": "Any key and any value at any depth.", "anchors": ["jschon/vocabulary/__init__.py:_UnknownKeyword", "jschon/vocabulary/annotation.py:_AnnotationKeyword", "jschon/vocabulary/format.py:FormatKeyword"]}
{"id": "C41", "title": "A reference is transparent", "statement": "A schema whose only keyword is $ref accepts exactly what the referenced schema accepts, and passes on its annotations; siblings of $ref apply as well.", "quantifier": "all reference targets and instances", "why_tests_cant": "All targets, including recursive ones.", "anchors": ["jschon/vocabulary/core.py:RefKeyword"]}
{"id": "C42", "title": "$dynamicRef picks the outermost dynamic anchor", "statement": "A dynamic $dynamicRef evaluates the schema that is declared with the same $dynamicAnchor by the outermost schema resource in the evaluation path that has one, and the statically resolved schema if none has.", "quantifier": "all evaluation paths", "why_tests_cant": "All dynamic scopes of any depth.", "anchors": ["jschon/vocabulary/core.py:DynamicRefKeyword"]}
{"id": "C43", "title": "$recursiveRef picks the outermost recursive anchor", "statement": "With $recursiveAnchor true at the target, $recursiveRef evaluates the outermost schema on the evaluation path that has $recursiveAnchor true; otherwise the base resource.", "quantifier": "all evaluation paths", "why_tests_cant": "All dynamic scopes of any depth.", "anchors": ["jschon/vocabulary/legacy.py:RecursiveRefKeyword_2019_09"]}
{"id": "C44", "title": "2019-09 items, additionalItems and unevaluatedItems", "statement": "Under 2019-09, items (schema or array form), additionalItems and unevaluatedItems accept exactly what that draft prescribes. (False of the code for the boolean form items: true, which leaves no annotation, and for the empty array form.)", "quantifier": "all arrays and subschemas", "why_tests_cant": "Interaction of three keywords over all lengths.", "anchors": ["jschon/vocabulary/legacy.py:ItemsKeyword_2019_09", "jschon/vocabulary/legacy.py:AdditionalItemsKeyword_2019_09", "jschon/vocabulary/legacy.py:UnevaluatedItemsKeyword_2019_09"]}
{"id": "C45", "title": "Collected annotations and errors come only from the right subtrees", "statement": "collect_annotations yields nothing below an invalid result node and exactly the annotations of nodes all of whose ancestors (up to the queried node) are valid, filtered by instance and keyword; collect_errors is the dual.", "quantifier": "all result trees", "why_tests_cant": "All tree shapes.", "anchors": ["jschon/jsonschema.py:Result.collect_annotations", "jschon/jsonschema.py:Result.collect_errors"]}
{"id": "C46", "title": "All output formats report the same verdict", "statement": "For every result, the valid flag in flag, basic, detailed, verbose and hierarchical output equals result.valid, and basic output lists exactly the annotations (or errors) that collect_annotations (or collect_errors) yields, in order.", "quantifier": "all result trees", "why_tests_cant": "All tree shapes.", "anchors": ["jschon/output.py:flag", "jschon/output.py:basic", "jschon/output.py:detailed", "jschon/output.py:verbose", "jschon/output.py:hierarchical"]}
{"id": "C47", "title": "An invalid result is explained", "statement": "Whenever evaluation finds the instance invalid, basic output contains at least one error.", "quantifier": "all schemas and instances for which evaluation returns invalid", "why_tests_cant": "Every failure path of every keyword through any nesting.", "anchors": ["jschon/output.py:basic", "jschon/jsonschema.py:Result.fail", "jschon/jsonschema.py:JSONSchema.evaluate"]}
{"id": "C48", "title": "Source selection is longest-prefix", "statement": "load_json consults exactly the source registered last for the longest registered base URI that is a prefix of the URI, with the remainder as relative path, whatever the registration order; with no matching source it raises CatalogError.", "quantifier": "all registration histories and URIs", "why_tests_cant": "All orders of registration.", "anchors": ["jschon/catalog/__init__.py:Catalog.add_uri_source", "jschon/catalog/__init__.py:Catalog.load_json"]}
{"id": "C49", "title": "Schema caches are independent maps", "statement": "Under any history of add_schema, del_schema and cache() blocks, get of a cached URI in a cache returns the schema last added for that URI in that cache and not deleted since, unaffected by operations on other caches; leaving a cache() block, normally or by an exception, removes exactly that cache.", "quantifier": "all histories of catalog operations over any number of caches", "why_tests_cant": "History-dependent state with exceptions at any point.", "anchors": ["jschon/catalog/__init__.py:Catalog.add_schema", "jschon/catalog/__init__.py:Catalog.del_schema", "jschon/catalog/__init__.py:Catalog.get_schema", "jschon/catalog/__init__.py:Catalog.cache"]}
{"id": "C50", "title": "A failed construction leaves the catalog as it was", "statement": "If constructing a schema or metaschema raises, later lookups behave as if it had not been attempted. (False of the code: the schema is cached before it is built, so a broken schema or an invalid metaschema is returned by the next lookup.)", "quantifier": "all failing constructions and later lookups", "why_tests_cant": "Requires considering every failure point in construction.", "anchors": ["jschon/jsonschema.py:JSONSchema.__init__", "jschon/catalog/__init__.py:Catalog.create_metaschema", "jschon/catalog/__init__.py:Catalog.get_metaschema", "jschon/catalog/__init__.py:Catalog.get_schema"]}
{"id": "C51", "title": "A schema can be looked up by its canonical location", "statement": "For every subschema s of a cached schema document, following the JSON pointer fragment of its canonical URI from the schema it is relative to leads back to s.", "quantifier": "all schema documents and subschemas", "why_tests_cant": "All nestings and embedded resources.", "anchors": ["jschon/jsonschema.py:JSONSchema.canonical_uri", "jschon/catalog/__init__.py:Catalog.get_schema", "jschon/jsonpointer.py:JSONPointer.uri_fragment"]}
{"id": "C52", "title": "All references are resolved at construction", "statement": "When constructing a root schema returns, every reference keyword in every subschema reachable through keywords has been resolved against the catalog.", "quantifier": "all schema documents", "why_tests_cant": "All nestings of applicators.", "anchors": ["jschon/jsonschema.py:JSONSchema._resolve_references", "jschon/vocabulary/core.py:RefKeyword.resolve"]}
{"id": "C53", "title": "Format assertion happens exactly for enabled formats", "statement": "format fails an instance only if the attribute was enabled in the catalog when the schema was constructed, the instance is of a type the validator covers and the validator rejects it; otherwise it only annotates.", "quantifier": "all formats, validators, instances and orders of enabling", "why_tests_cant": "All histories of enabling and construction.", "anchors": ["jschon/vocabulary/format.py:FormatKeyword", "jschon/catalog/__init__.py:Catalog.enable_formats", "jschon/formats.py:validate_json_pointer"]}
{"id": "C54", "title": "Every schema document with a string key can be constructed", "statement": "Constructing a schema with any unrecognised keyword names treats them as annotations, and they make no difference to whether the document can be constructed. (False of the code: the empty keyword name raises IndexError, and a name with a null character or a lone surrogate raises ValueError or UnicodeEncodeError.)", "quantifier": "all key strings", "why_tests_cant": "Only the empty key and keys with rare characters fail.", "anchors": ["jschon/vocabulary/__init__.py:Metaschema.get_kwclass"]}
{"id": "C55", "title": "Construction makes the schema its document describes", "statement": "When JSONSchema(value) returns, the schema has exactly the keys of the document; each keyword has the class its metaschema provides for the key, an unknown-keyword class otherwise; subschemas are made from the corresponding parts of the document with inherited metaschema and base URI; every schema has the URI its $id says; keywords stand after those they depend on.", "quantifier": "all documents, metaschema tables, catalogs reachable by earlier constructions", "why_tests_cant": "Unboundedly many nestings of applicators, $id and $schema.", "anchors": ["jschon/jsonschema.py:JSONSchema.__init__", "jschon/jsonschema.py:JSONSchema._bootstrap", "jschon/vocabulary/__init__.py:Keyword.__init__", "jschon/vocabulary/core.py:IdKeyword"]}
{"id": "C56", "title": "Constructing a schema ends", "statement": "Construction and lookup end for every finite set of documents. (False of the code: a document whose $id differs from the URI it is found at and which refers to the latter is loaded again and again until RecursionError. True of finite sets of documents whose $id, if any, is the URI they are found at, whatever they refer to, cyclically or not, and whatever the constructed document calls itself.)", "quantifier": "all finite sets of documents", "why_tests_cant": "No bound on steps is enough in the failing case; tests would have to know it. That all other cases end is a statement about all documents and catalogs.", "anchors": ["jschon/catalog/__init__.py:Catalog.get_schema", "jschon/jsonschema.py:JSONSchema.uri", "jschon/vocabulary/core.py:RefKeyword.resolve"]}
{"id": "C57", "title": "Schemas stay as they were constructed", "statement": "Constructing further schemas, looking schemas up and leaving cache blocks, successfully or not, changes nothing in schemas made before: neither keywords nor resolved references nor URIs.", "quantifier": "all histories of constructions, lookups and cache blocks", "why_tests_cant": "All interleavings of operations, including failing ones.", "anchors": ["jschon/jsonschema.py:JSONSchema._resolve_references", "jschon/catalog/__init__.py:Catalog.get_schema", "jschon/catalog/__init__.py:Catalog.cache"]}
{"id": "C58", "title": "A failing patch operation leaves the document as it was", "statement": "JSONPatchOperation.apply(doc), used directly on a document, leaves every list and dict as it was when it raises. (False for move: a move whose target does not exist has already removed the value from its old place.)", "quantifier": "all operations, all documents as Python objects, all failures", "why_tests_cant": "Tests of errors check the exception, not the state of the document afterwards.", "anchors": ["jschon/jsonpatch.py:JSONPatchOperation.apply", "jschon/jsonpatch.py:move"]}
{"id": "C59", "title": "From document to verdict", "statement": "Take schema documents written in one dialect: the values fit the keywords, and none of a list of avoided keywords is used. Whatever is constructed from them and looked up, in whatever order and with whatever failures, every schema object in the catalog is as evaluation expects it: each keyword once, of the class the dialect gives to its name, with a value of the right kind, after the keywords it depends on. Hence evaluating a document constructed in such a catalog gives the verdict the specification prescribes, provided the documents avoid (a) the unevaluated keywords or else `not` (and, in 2019-09, items), and (b) `$dynamicRef`.", "quantifier": "the three dialects; all documents, catalogs, histories of constructions (also failing ones), instances", "why_tests_cant": "It composes construction and evaluation over all documents, all reference graphs and all earlier uses of the catalog.", "anchors": ["jschon/jsonschema.py:JSONSchema.__init__", "jschon/jsonschema.py:JSONSchema.evaluate", "jschon/jsonschema.py:JSONSchema._resolve_references", "jschon/vocabulary/__init__.py:Metaschema.get_kwclass"]}
{"id": "C60", "title": "Errors belong to failures, and hierarchical output lists them", "statement": "In the result of an evaluation no node that is valid carries an error. In the hierarchical output of an invalid result, each error listed at the root is the error of a keyword that failed, and each keyword of the root that failed with an error is listed; likewise every error of a node deeper down is listed in its unit. (The last part is false of the code: units collect messages by keyword name, so of the errors of one keyword at several items only the last is kept.)", "quantifier": "all schemas, instances and result trees", "why_tests_cant": "Results keep and overwrite errors along many paths (not, if, oneOf, contains, references); tests of output look at a few documents with one error per keyword.", "anchors": ["jschon/jsonschema.py:Result.pass_", "jschon/jsonschema.py:Result.fail", "jschon/output.py:hierarchical"]}
{"id": "C61", "title": "The result tree mirrors the schema and the instance", "statement": "In the tree of an evaluation, every node stands for an existing place of the schema it belongs to (its relative path resolves there); no two children of a node have the same key and instance; each child has the evaluation path of its parent extended by its key, and an instance at its parent's place or one step below; the root is at the top of both, and every instance location leads to a value of the instance. Hence hierarchical output, which resolves the places, does not raise.", "quantifier": "all worlds of schemas as constructed from a dialect, all instances, all nodes", "why_tests_cant": "The relative path is maintained by every keyword class separately, also across references; an error would show only in output of the keyword and nesting concerned.", "anchors": ["jschon/jsonschema.py:Result.__call__", "jschon/jsonschema.py:Result.relpath", "jschon/jsonschema.py:JSONSchema.evaluate", "jschon/output.py:hierarchical"]}
{"id": "C62", "title": "The absolute location of a result leads to its keyword", "statement": "Result.absolute_uri of a node that is not a reference is the URI of a schema of the document together with a fragment which parses to a pointer leading from that schema to the place the node stands for. It exists when the document has a URI. The node of a reference has the canonical URI of the target.", "quantifier": "all documents constructed in any catalog, all instances and nodes of the result; keys without lone surrogates, base URIs without fragments", "why_tests_cant": "It composes canonical URIs over all nestings of $id with relative paths of nodes over all keywords, and percent-encoding of all keys.", "anchors": ["jschon/jsonschema.py:Result.absolute_uri", "jschon/jsonschema.py:JSONSchema.canonical_uri", "jschon/jsonpointer.py:JSONPointer.uri_fragment"]}
{"id": "C63", "title": "Equal instances are judged alike", "statement": "Two instances that are equal as JSON values (members in another order, 1 and 1.0) are judged alike by every schema: the same verdict is prescribed, and evaluation returns the same validity. Needed: format validators that treat equal values alike. Member order never matters; equal numbers matter only to multipleOf, and only when repr does not write them exactly.", "quantifier": "all schemas with any keywords, references and nesting, all pairs of equal instances", "why_tests_cant": "Equality has to pass through every keyword and every annotation that unevaluated keywords read; tests compare hand-picked pairs.", "anchors": ["jschon/json.py:JSON.__eq__", "jschon/vocabulary/applicator.py", "jschon/vocabulary/validation.py:MultipleOfKeyword.evaluate", "jschon/jsonschema.py:JSONSchema.evaluate"]}
{"id": "C64", "title": "A schema reads back as its document", "statement": "The value of a constructed schema is the document it was constructed from, up to the order of members: right after construction and after anything constructed or looked up later.", "quantifier": "all documents, environments and histories of the catalog", "why_tests_cant": "Each keyword class builds its own tree of subschemas, in an order determined by the dependencies, while references load other documents in between.", "anchors": ["jschon/json.py:JSON.value", "jschon/jsonschema.py:JSONSchema.__init__", "jschon/vocabulary/__init__.py:Keyword", "jschon/vocabulary/__init__.py:Subschema", "jschon/vocabulary/__init__.py:ArrayOfSubschemas"]}
{"id": "C65", "title": "Detailed output is the condensed tree and keeps every final message", "statement": "Detailed output lists, below the root, the nodes with the verdict of the root; a node with one such child is replaced by the child, a node with several lists them, one with none carries its message and locations. Its messages are exactly those of the nodes of that verdict that have no child of that verdict. In particular an invalid result shows at least the errors that no other failure accounts for.", "quantifier": "all result trees", "why_tests_cant": "All tree shapes; collapsing composes over any depth.", "anchors": ["jschon/output.py:detailed"]}
{"id": "C66", "title": "Hierarchical output follows the schemas", "statement": "Hierarchical output has one object for each evaluated schema, with its verdict, its locations and for each key the last message of its keywords of that key, and in it the objects of the schemas below the keywords that share its verdict.", "quantifier": "all results of evaluation, every node at every depth", "why_tests_cant": "All tree shapes; which nodes are schemas depends on resolving relative paths.", "anchors": ["jschon/output.py:hierarchical", "jschon/jsonschema.py:Result.schema_node"]}
{"id": "C67", "title": "A metaschema provides the keywords of its vocabularies", "statement": "When a metaschema has been created, the class it provides for a key is that of its core vocabulary, else that of the last of the vocabularies listed under $vocabulary that has the key; of a document without $vocabulary, that of the last of the vocabularies given at creation; for other keys the class of unknown keywords. Every vocabulary listed as required is known, and exactly one core vocabulary is listed, as true.", "quantifier": "all catalogs reached by any history of creations, lookups and constructions, all metaschema documents, all vocabularies", "why_tests_cant": "Tests use the shipped metaschemas and a few custom ones; precedence between overlapping vocabularies is not exercised.", "anchors": ["jschon/vocabulary/__init__.py:Metaschema.__init__", "jschon/vocabulary/__init__.py:Metaschema._bootstrap", "jschon/vocabulary/core.py:VocabularyKeyword", "jschon/catalog/__init__.py:Catalog.create_metaschema"]}
{"id": "C68", "title": "The standard metaschemas provide the standard dialects", "statement": "After the initialisation of a version its metaschema provides exactly the keyword classes of the dialect of that version, whether its document lists the vocabularies of the version, in any order, or lists none.", "quantifier": "the three versions, all documents and orders", "why_tests_cant": "Tests see one document per version.", "anchors": ["jschon/catalog/_2019_09.py:initialize", "jschon/catalog/_2020_12.py:initialize", "jschon/catalog/_next.py:initialize"]}
{"id": "C69", "title": "Caches are separate", "statement": "Constructing and looking up schemas with one cache id, leaving cache blocks and creating metaschemas, with whatever outcome, leaves the entries of every other cache as they are, adds no schema to it and changes no schema made before; all schemas made get the cache id of the call, including those of documents loaded on the way.", "quantifier": "all catalogs reached by any history, all documents, sources and cache ids", "why_tests_cant": "Tests use one or two caches at a time and no failures in between.", "anchors": ["jschon/catalog/__init__.py:Catalog.cache", "jschon/catalog/__init__.py:Catalog.add_schema", "jschon/catalog/__init__.py:Catalog.get_schema", "jschon/jsonschema.py:JSONSchema.__init__"]}
{"id": "C70", "title": "A metaschema stays what it is", "statement": "A metaschema that has been loaded is returned by every later lookup, and gives the same keyword classes to every later construction, whatever is constructed and looked up in other caches, even under the URI of the metaschema.", "quantifier": "all catalogs reached by any history, all later steps outside the cache of metaschemas", "why_tests_cant": "All interleavings of constructions with equal URIs.", "anchors": ["jschon/catalog/__init__.py:Catalog.get_metaschema", "jschon/jsonschema.py:JSONSchema.metaschema"]}
{"id": "C71", "title": "Evaluation looks only at what it can come to", "statement": "The result of an evaluation, with all its annotations and errors, and the prescribed verdict depend only on the schemas that can be reached from the schema by subschemas, references and anchors.", "quantifier": "all schemas, cyclic ones included, all instances and all sets of schemas closed under these", "why_tests_cant": "Needs reasoning about all possible contents of the rest of the catalog.", "anchors": ["jschon/jsonschema.py:JSONSchema.evaluate", "jschon/vocabulary/core.py:RefKeyword", "jschon/vocabulary/core.py:DynamicRefKeyword", "jschon/vocabulary/core.py:RecursiveRefKeyword"]}
{"id": "C72", "title": "What happens in other caches does not change an evaluation", "statement": "A schema leads only to schemas of its own cache, so the evaluation of a schema gives the same result, and the same is prescribed, before and after whatever is done in other caches.", "quantifier": "all catalogs reached by any history, all later steps in other caches, all instances", "why_tests_cant": "All interleavings of constructions in different caches.", "anchors": ["jschon/catalog/__init__.py:Catalog.get_schema", "jschon/jsonschema.py:JSONSchema._resolve_references", "jschon/vocabulary/core.py:DynamicRefKeyword"]}
{"id": "C73", "title": "A cache of one dialect is evaluated correctly among caches of others", "statement": "When the documents of one cache name only metaschemas that provide one standard dialect, every schema of that cache is evaluated as the specification prescribes, whatever documents, dialects and metaschemas the catalog holds elsewhere.", "quantifier": "all catalogs whose other caches come from any history, all documents of the cache without unevaluated keywords and dynamic references (or under the conditions of C27), all instances", "why_tests_cant": "All mixtures of dialects and histories of constructions, including failed ones, in one catalog.", "anchors": ["jschon/jsonschema.py:JSONSchema.__init__", "jschon/jsonschema.py:JSONSchema.evaluate", "jschon/catalog/__init__.py:Catalog.get_schema", "jschon/catalog/__init__.py:Catalog.get_metaschema"]}
{"id": "C74", "title": "Evaluation computes one outcome, described without result trees", "statement": "For every schema, also where the verdict is not the prescribed one, the validity that evaluation returns is that of a judgement by recursion on schemas and values, with no result tree, no annotations and no evaluation order; the judgement is unique, and gives the prescribed verdict unless an unevaluated keyword is combined with not or with a boolean items of 2019-09.", "quantifier": "all schemas of the standard dialects with any keywords and references, all instances", "why_tests_cant": "Interactions of all keywords through annotations in arbitrarily nested results.", "anchors": ["jschon/jsonschema.py:JSONSchema.evaluate", "jschon/jsonschema.py:Result", "jschon/vocabulary/applicator.py", "jschon/vocabulary/legacy.py", "jschon/vocabulary/validation.py"]}
{"id": "C75", "title": "Evaluation of sound schemas raises nothing and decides", "statement": "When keyword values have the form their keywords are written for (limits neither infinite nor NaN), references are resolved, regular expressions compile, no schema refers to itself in place and the instance holds no infinite or NaN number, evaluation raises no exception; if in-place references form no cycle it returns, and the result is the prescribed verdict under the conditions of C27. Self references, infinite numbers and infinite limits do raise.", "quantifier": "all schemas of the standard dialects with any keywords, references and nesting, all instances", "why_tests_cant": "Absence of exceptions over all combinations of keywords, whose evaluation reads annotations and schema nodes left by other keywords.", "anchors": ["jschon/jsonschema.py:JSONSchema.evaluate", "jschon/jsonschema.py:Result.schema_node", "jschon/jsonschema.py:Result.sibling", "jschon/vocabulary/applicator.py", "jschon/vocabulary/legacy.py", "jschon/vocabulary/validation.py"]}
{"id": "C76", "title": "Documents in strict form, once constructed, are evaluated to the prescribed verdict", "statement": "When a cache was filled only by successful constructions of documents whose keyword values have the form the specification demands (so that numeric limits are finite), every schema in it that contains no in-place reference cycle evaluates every instance without exceptions and returns the prescribed verdict under the conditions of C27; for documents without references nothing is required of the catalog or the references. After a failed construction this is no longer so.", "quantifier": "all documents, catalogs, histories of successful constructions and loads, other caches with anything in them, all finite instances", "why_tests_cant": "Ranges over all documents and all histories of a catalog; the exception needs a failed construction followed by an apparently successful one.", "anchors": ["jschon/jsonschema.py:JSONSchema.__init__", "jschon/jsonschema.py:JSONSchema._resolve_references", "jschon/jsonschema.py:JSONSchema.evaluate", "jschon/catalog/__init__.py:Catalog.get_schema", "jschon/vocabulary/core.py:RefKeyword"]}
{"id": "C77", "title": "A document is made into a schema exactly when it is buildable and its references can be followed", "statement": "Creating the schema objects of a document ends, and succeeds exactly if the document is a Boolean or an object each of whose members has a non-empty name, a keyword class under the metaschema that applies, a value that class accepts, and subschemas of the same kind where schemas are expected; otherwise an exception is raised. A buildable document whose references all lead to schemas in the cache is constructed without loading anything; if nothing can be loaded, construction succeeds in exactly these cases and never runs on. A buildable strict document without references is constructed, and evaluating it returns the prescribed verdict.", "quantifier": "all JSON documents, all metaschemas and dialects, all catalogs that can arise, all instances", "why_tests_cant": "An exact characterisation over all documents: tests show single documents that are accepted or refused.", "anchors": ["jschon/jsonschema.py:JSONSchema.__init__", "jschon/jsonschema.py:JSONSchema._bootstrap", "jschon/jsonschema.py:JSONSchema._resolve_references", "jschon/vocabulary/__init__.py:Keyword.__init__", "jschon/catalog/__init__.py:Catalog.get_schema"]}
{"id": "C78", "title": "Each keyword leaves the prescribed annotation", "statement": "In the result of evaluating a schema, the node of a keyword that is valid carries the annotation which the specification prescribes for it: dependentSchemas and properties the names they applied to, patternProperties the matched names without repeats, additional and unevaluated properties the members they judged, prefixItems the last index or true, items and its relatives true or nothing, contains increasing positions (in full: additionalProperties the members that neither properties nor patternProperties concern, items and additionalItems true exactly if there are items beyond those of their sibling, contains the positions of exactly the items that are accepted), format and the annotation keywords their value, all others nothing. contentSchema annotates a string exactly if the schema also says contentMediaType. A keyword that only annotates always leaves its value. The node that a schema is evaluated into is not annotated itself.", "quantifier": "all schemas of a standard dialect, all instances and result nodes", "why_tests_cant": "It quantifies over all keyword values and instances; most annotations are never looked at by validity tests.", "anchors": ["jschon/vocabulary/applicator.py", "jschon/vocabulary/annotation.py:AnnotationKeyword.evaluate", "jschon/vocabulary/legacy.py", "jschon/jsonschema.py:Result.annotate"]}
{"id": "C79", "title": "A LocalSource reads only files below its base directory", "statement": "Whatever relative path is asked of a LocalSource, and whatever URI is loaded through a catalog in which it is registered, the file opened lies inside base_dir.", "quantifier": "all base directories, suffixes, relative paths and URIs, all working directories", "why_tests_cant": "A safety claim over all strings; the strings that break it are exactly the ones a test author does not think of.", "anchors": ["jschon/catalog/__init__.py:LocalSource.__call__", "jschon/catalog/__init__.py:Catalog.load_json", "jschon/catalog/__init__.py:Catalog.add_uri_source"]}
{"id": "C80", "title": "A catalog name stands for the catalog created last under it", "statement": "After any sequence of creations of catalogs, get_catalog(name) gives the one created last with that name, and raises CatalogError exactly if there is none.", "quantifier": "all sequences of creations, all names", "why_tests_cant": "It quantifies over all histories.", "anchors": ["jschon/catalog/__init__.py:Catalog.get_catalog", "jschon/catalog/__init__.py:Catalog.__init__"]}
{"id": "C81", "title": "JSONPatch behaves as a list of its operations", "statement": "Indexing, slicing with any bounds and step, item assignment, deletion, insertion, append, extend, pop, remove, reverse and clear of a JSONPatch do to its operations what they do to a Python list; an operation that cannot be made is refused and changes nothing, except that extend keeps what it had added before. Cut anywhere, the two slices of a patch applied one after the other do what the patch does.", "quantifier": "all patches, all integer indices and slice bounds, all operations and mappings, all documents", "why_tests_cant": "Negative, out-of-range and stepped bounds over sequences of every length.", "anchors": ["jschon/jsonpatch.py:JSONPatch.__getitem__", "jschon/jsonpatch.py:JSONPatch.__setitem__", "jschon/jsonpatch.py:JSONPatch.__delitem__", "jschon/jsonpatch.py:JSONPatch.insert"]}
{"id": "C82", "title": "The ordering methods of JSON form a total order on numbers and on strings", "statement": "For any two JSON values, >=, >, <= and < either give the truth of the comparison (of numbers by value, of strings by code points, of arrays at the first place where they differ or by length) or raise TypeError if the values cannot be compared; a < b always says the same as b > a. Between two strings, or two numbers that are not NaN, exactly one of <, == and > holds, <= is < or ==, >= is > or ==, and all four are transitive.", "quantifier": "all well-formed JSON values, integers and floats of any size, arrays of any length and depth", "why_tests_cant": "Trichotomy and transitivity over mixed integers and floats of every magnitude, and nested arrays of every length.", "anchors": ["jschon/json.py:JSON.__ge__", "jschon/json.py:JSON.__gt__", "jschon/json.py:JSON.__le__", "jschon/json.py:JSON.__lt__"]}
{"id": "C83", "title": "Reading and writing JSON text", "statement": "json_loads accepts exactly the texts of RFC 8259 and returns the values they stand for (the last of several members with one name counts, escaped surrogate pairs are joined); for any other text, NaN and Infinity included, it raises ValueError. json_dumps raises ValueError exactly for values with a NaN or an infinity in them. What json_dumps writes, json_loads reads back as the same value, with the same member order and with integers as integers; so values with the same text are equal.", "quantifier": "all texts over all code points (lone surrogates included), all well-formed JSON values, integers of any size, any nesting; float printing and parsing are arguments that agree on the floats at hand", "why_tests_cant": "Infinitely many texts; refusing everything outside the grammar cannot be sampled.", "anchors": ["jschon/utils.py:json_dumps", "jschon/utils.py:json_loads", "jschon/utils.py:_parse_invalid_const", "jschon/utils.py:_serialize_custom_obj", "jschon/json.py:JSON.dumps", "jschon/json.py:JSON.loads"]}
{"id": "C84", "title": "Root schemas of documents and resources", "statement": "Once a document has been constructed, document_rootschema of every schema in it is the schema constructed, and resource_rootschema of every schema in it is the innermost schema around it (itself included) that has an $id, or the root of the document if there is none; there is exactly one such schema, and it is its own resource root.", "quantifier": "all documents of any depth, any catalog history before the construction, any references followed in the course of it", "why_tests_cant": "Trees of any depth with any placing of $id, boolean subschemas among them.", "anchors": ["jschon/jsonschema.py:JSONSchema.parentschema", "jschon/jsonschema.py:JSONSchema.resource_rootschema", "jschon/jsonschema.py:JSONSchema.document_rootschema"]}
{"id": "C85", "title": "Format validators: registration, enabling and json-pointer", "statement": "After any history of registering validators and enabling formats, in any number of catalogs, a format keyword holds a validator exactly if its format has been enabled in the catalog of its schema, namely the one put in place last (importing jschon.formats, which the first enable_formats does, puts json-pointer in place); an enabled format without a validator raises KeyError. Where nobody registers another one, an enabled json-pointer fails exactly the strings that are not JSON pointers by RFC 6901.", "quantifier": "all histories of any length, all format names, all instances", "why_tests_cant": "Histories and strings are unbounded; the validator in force depends on the order of registrations and the first import.", "anchors": ["jschon/vocabulary/format.py:format_validator", "jschon/vocabulary/format.py:FormatKeyword.__init__", "jschon/vocabulary/format.py:FormatKeyword.evaluate", "jschon/formats.py:validate_json_pointer", "jschon/catalog/__init__.py:Catalog.enable_formats", "jschon/catalog/__init__.py:Catalog.is_format_enabled"]}
{"id": "C86", "title": "The error of a failing keyword names what failed", "statement": "Whenever a keyword of the schema that an instance is evaluated by is invalid in the result, the error of its node is the one its class prescribes: allOf and oneOf list the numbers of exactly the subschemas that reject (and accept) the instance, items, prefixItems, additionalItems the numbers of exactly the items rejected, properties, patternProperties, additionalProperties, propertyNames and dependentSchemas exactly the members rejected, in the order of the instance or the schema, required and dependentRequired exactly the names missing; a limit quotes its value as JSON text; a reference, if, then and else carry the error of the subschema, which is the text of a false schema or none. The unevaluated keywords list exactly the rejected ones among the members and items that no accepting keyword beside them has evaluated. Anything that a node says is rejected is rejected by the subschema concerned.", "quantifier": "all schemas of the three dialects built as JSONSchema builds them, all instances, all regex, format and number writing functions, any depth", "why_tests_cant": "The tests compare the error of a handful of keywords for single instances; that the numbers and names listed are exactly the rejected ones for any mixture of subschemas, items and members, with siblings shifting the start, is a statement about all of them.", "anchors": ["jschon/vocabulary/applicator.py:36-405", "jschon/vocabulary/validation.py:30-256", "jschon/vocabulary/core.py:101-169", "jschon/jsonschema.py:193-222"]}
{"id": "C87", "title": "create_catalog offers every version it is asked for", "statement": "If create_catalog returns, then for each version named the catalog has all vocabularies of that version, a metaschema with its URI that provides exactly the keyword classes of its dialect, and reads every URI below that of the version from the directory of the version; initializing one version takes nothing from another. A name that is not that of a version makes it raise ValueError, unless an earlier version fails first. Returning or raising, the new catalog is registered under the given name, in place of any other, and other names keep their catalogs.", "quantifier": "all lists of version names in any order and number, all file systems whose main documents list the vocabularies of their version or none, all URI libraries that split the standard URIs, all registries", "why_tests_cant": "The tests create catalogs with one list of versions and the shipped files; the statement is about every list of names and whatever the files contain.", "anchors": ["jschon/__init__.py:create_catalog", "jschon/catalog/_2019_09.py:initialize", "jschon/catalog/_2020_12.py:initialize", "jschon/catalog/_next.py:initialize", "jschon/catalog/__init__.py:Catalog.add_uri_source"]}
{"id": "C88", "title": "The output format asked for is the one registered last under its name", "statement": "After any registrations of output formatters, Result.output(format) calls the function registered last for that format, with the result and the keyword arguments; a format never registered raises KeyError. The five standard formats, unless registered anew, can be produced from every result of an evaluation and report its verdict; of these only basic takes a keyword argument, namely annotations, and any other raises TypeError.", "quantifier": "all sequences of registrations, all formats, arguments and results", "why_tests_cant": "It quantifies over all histories of the table and all results.", "anchors": ["jschon/output.py:output_formatter", "jschon/output.py:create_output", "jschon/jsonschema.py:Result.output"]}
{"id": "C89", "title": "Editing with any integer index keeps values right", "statement": "A JSON document is edited by any sequence of assignments, deletions, insertions, appends and pops with any integer index (negative, or beyond the end), and of add, remove and replace by any pointer (remove and replace act on the item that the target's key means, which after such indices need not be the target: see C16). Reading the value of any node then gives the value that its children spell out; and each operation changes that value exactly as the same operation changes a plain Python list or dict, raising exactly when Python raises. (Keys and paths are not right after such indices: see C16.)", "quantifier": "all heaps reached by such histories, all nodes, all integer indices, all operands (plain values and nodes)", "why_tests_cant": "A test fixes one document and one short sequence of edits; the claim concerns caches left behind by every earlier read and edit.", "anchors": ["jschon/json.py:176-190", "jschon/json.py:220-275", "jschon/json.py:300-420"]}
{"id": "C90", "title": "The methods inherited from collections.abc act as on plain lists and dicts", "statement": "extend (with a list, or with the array itself), reverse, clear, update (with pairs, with a node that does not contain the target, or with the object itself), popitem, setdefault, get, in, index and count of a JSON array or object give what the method of the same name gives on the plain list or dict, change nothing else but what contains the node, and leave caches, keys and paths right. Two exceptions, also proved: clear of an object raises KeyError and removes nothing; popitem takes the first member, not the last. Searching for a node that holds NaN is left out.", "quantifier": "all documents edited by any history, all nodes, all operands", "why_tests_cant": "The methods are inherited, so their effect depends on which of the two base classes comes first and on every method of JSON they call; tests call few of them, on small documents.", "anchors": ["jschon/json.py:35", "jschon/json.py:213-289"]}
{"id": "C91", "title": "A JSON node used as a value is taken for a sequence", "statement": "JSON(value) where JSON nodes occur in value, alone or inside lists and dicts: an array node gives an array of what its items give, an object node gives the array of its member names, a string node gives the array of its characters, and a null, boolean or number node (directly or as an item of an array node) raises TypeError, as does a value of a class that is not JSON-compatible. Everything else is as for plain values and no existing node changes. So JSON(node) has the value of the node exactly when that value is made of arrays alone. Comparing a node with a list or dict compares it with what that value means in this sense, and raises TypeError when it means nothing; only a node compared with a node compares their values.", "quantifier": "all heaps reached by any history, all Python values with nodes among them, all depths", "why_tests_cant": "It says for every value exactly which document results or which exception is raised.", "anchors": ["jschon/json.py:JSON.__init__", "jschon/json.py:JSON.__iter__", "jschon/json.py:JSON.__eq__"]}
{"id": "C92", "title": "Slices of JSON nodes act on values as slices of plain lists; deletion raises all the same", "statement": "Reading node[a:b:c] gives the nodes at the positions that Python's slice stands for (for a string node, the plain characters); del node[a:b:c] removes exactly those items and then raises TypeError; node[a:b:c] = array puts the items of the array in their place as Python's list does, ValueError or TypeError otherwise. Nothing else changes except what contains the node, and every later operation with any index, slice or pointer keeps reading the right values. What is not right, also proved: items put in by a slice keep a path and a parent that are not the array's, so removing or replacing them by pointer returns without any effect; after a deleted slice a pointer may remove another item.", "quantifier": "all histories of edits with any indices, slices and pointers, all nodes, all slices (any start, stop and step), all operands", "why_tests_cant": "The tests never delete or assign a slice; the claim is about every slice in every reachable document, including the ones that earlier slices have left with wrong keys and parents.", "anchors": ["jschon/json.py:222-227", "jschon/json.py:229-234", "jschon/json.py:236-247", "jschon/json.py:249-259"]}
{"id": "C93", "title": "repr is an expression for an equal object", "statement": "repr() of a JSON node, a JSON pointer, a relative JSON pointer, a patch operation or a patch is a Python expression that evaluates to an equal object, provided there is no NaN or infinity in it; such an expression has one value, so objects with the same repr are equal. repr() of a node containing a NaN or an infinity raises ValueError.", "quantifier": "all values, pointers, relative pointers and patches; all strings, including quotes, control characters and lone surrogates; any table of printable characters (strings)", "why_tests_cant": "The tests evaluate the reprs of random objects; quoting depends on combinations of characters.", "anchors": ["jschon/json.py:JSON.__repr__", "jschon/jsonpointer.py:JSONPointer.__repr__", "jschon/jsonpointer.py:RelativeJSONPointer.__repr__", "jschon/jsonpatch.py:JSONPatchOperation.__repr__", "jschon/jsonpatch.py:JSONPatch.__repr__", "jschon/jsonpatch.py:PatchOp.__repr__"]}
{"id": "C94", "title": "A pointer is a sequence of its keys", "statement": "Indexing a JSON pointer gives the key at that position, counted from the end if negative, and IndexError otherwise; a slice with any bounds and step is the pointer of the keys at the selected positions, in the direction of the step; iteration gives the keys in order and reversed() the keys in reverse order; membership and count() are those of the list of keys; index(key, start, stop) is the first position of the key between the bounds, taken as those of slices, and ValueError if there is none.", "quantifier": "all pointers, keys, indices, bounds and steps", "why_tests_cant": "The tests index and slice a few pointers without steps, and the methods inherited from Sequence are hardly called.", "anchors": ["jschon/jsonpointer.py:JSONPointer.__getitem__", "jschon/jsonpointer.py:JSONPointer.__len__", "jschon/jsonpointer.py:JSONPointer.__new__"]}
{"id": "C95", "title": "Keyword values of a forbidden type act as Python's operations make them", "statement": "Evaluating a keyword whose value has a type that its metaschema forbids has one known outcome: enum with a text accepts the one-character texts of its characters and with an object the names in it; required and dependentRequired with an empty value accept everything, and otherwise raise AttributeError for the characters or names they come to, or TypeError; multipleOf and type with a value that cannot match refuse every instance; limits that are not numbers raise TypeError; uniqueItems with a false value accepts; allOf, anyOf, oneOf and prefixItems take a text for a sequence: the empty one passes, fails, fails and passes, any other raises AttributeError as soon as it is gone through.", "quantifier": "all such values, instances, and schemas that hold the keyword", "why_tests_cant": "No test gives a keyword a value that the metaschema refuses, as validate() is not called when a schema is constructed.", "anchors": ["jschon/vocabulary/validation.py:EnumKeyword.evaluate", "jschon/vocabulary/validation.py:RequiredKeyword.evaluate", "jschon/vocabulary/validation.py:DependentRequiredKeyword.evaluate", "jschon/vocabulary/validation.py:MultipleOfKeyword.evaluate", "jschon/vocabulary/applicator.py:PrefixItemsKeyword.evaluate", "jschon/vocabulary/__init__.py:ArrayOfSubschemas.jsonify"]}
{"id": "C96", "title": "A RemoteSource fetches only from below its base", "statement": "What a RemoteSource fetches for a relative path is the URL made of its base URL, the path and the suffix, so that a URI under a registered prefix is loaded from below the base URL registered for it. A source registered for all URIs fetches the URI itself. False for relative paths that begin with a slash or have a colon in their first segment: a URI such as https://a.org///evil.org/x, which is normalized and under the prefix https://a.org/, is fetched from https://evil.org/x.", "quantifier": "all base URLs that end with a slash, relative paths, suffixes, registrations of sources, and results of fetching", "why_tests_cant": "The tests fetch one or two paths, and none that leaves the base.", "anchors": ["jschon/catalog/__init__.py:RemoteSource.__call__", "jschon/catalog/__init__.py:Catalog.load_json", "jschon/uri.py:URI.resolve"]}
{"id": "C97", "title": "Operations on different places may be applied in any order", "statement": "Operations add, remove, replace and test whose paths part from each other - at different member names, or into different items of an array that stays as long as it is - give the same document in whichever order a patch lists them, but for the order of object members; and if they fail in one order they fail in every order.", "quantifier": "all documents, all lists of operations that are pairwise apart, and all permutations of them", "why_tests_cant": "The tests apply each patch in the order it is written.", "anchors": ["jschon/jsonpatch.py:JSONPatch.evaluate", "jschon/jsonpatch.py:add", "jschon/jsonpatch.py:remove", "jschon/jsonpatch.py:replace", "jschon/jsonpatch.py:test", "jschon/jsonpatch.py:Node.__init__"]}
{"id": "C98", "title": "The order of members does not matter to a patch", "statement": "Patching two documents that differ only in the order of object members, at any depth, gives two documents that differ only so, or raises the same exception; so does patching with values that differ only so.", "quantifier": "all pairs of such documents and all lists of operations of all six kinds", "why_tests_cant": "Each test patches one document, written in one order.", "anchors": ["jschon/jsonpatch.py:JSONPatch.evaluate", "jschon/jsonpatch.py:move", "jschon/jsonpatch.py:copy", "jschon/jsonpatch.py:test"]}
{"id": "C99", "title": "The views keys(), items() and values() of a node", "statement": "On an object node, after any editing, keys() runs over the member names in order and values() and items() over the child nodes of those names; len() of a view is the number of members; (k, o) in items() and o in values() compare with the member values; two keys() views are equal iff the names are the same, two items() views iff the objects are equal. On an array node keys() runs over the items, while items() and values() raise TypeError unless the array is empty.", "quantifier": "all heaps reached by any editing, all nodes, all operands (plain values or nodes; NaN in nodes excepted)", "why_tests_cant": "The test suite uses the views on a few hypothesis-made documents, never after editing and never on arrays.", "anchors": ["jschon/json.py:JSON.__getitem__", "jschon/json.py:JSON.__iter__", "jschon/json.py:JSON.__len__", "jschon/json.py:JSON.__eq__"]}
{"id": "C100", "title": "The lists and dicts that value hands out", "statement": "The lists and dicts that JSON.value returns are those of the cache: no later editing of the document changes one that was handed out; the parts of one are the very objects that value returns for the children; as long as the program leaves them alone, value spells the node after any editing, and a node used as operand is copied. A program that changes one changes what value returns next, though the node is as before.", "quantifier": "all programs of constructions, reads, assignments, deletions and insertions, with nodes or plain values as operands; the second part for all states and all programs, whatever the caller has changed", "why_tests_cant": "Tests compare values by ==, which does not show who shares a list with whom.", "anchors": ["jschon/json.py:JSON.value", "jschon/json.py:JSON._invalidate_value", "jschon/json.py:JSON.__setitem__", "jschon/json.py:JSON.__delitem__", "jschon/json.py:JSON.insert"]}
{"id": "C101", "title": "Metaschemas loaded while a schema is built", "statement": "A metaschema that a schema names and that is not cached is loaded when it is first needed. Where the cached metaschemas suffice nothing is loaded, and construction and lookup give the same result, the same exception, the same schemas and the same caches as with a fixed table of those metaschemas. However many are loaded, and whether or not it ends in an exception, no vocabulary, schema or metaschema that was there is changed, and no cache but the schema's own and that of the metaschemas. A metaschema loaded in this way provides exactly the classes that its $vocabulary lists, and if loading raises, so does construction, leaving the schema in the cache with nothing but $schema.", "quantifier": "all documents, caches, metaschemas and chains of metaschemas, all states that any history of constructions, lookups, creations and left caches leads to, all environments", "why_tests_cant": "The tests create their metaschemas before they use them; what a load in the middle of a construction does to the rest of the catalog depends on the whole history.", "anchors": ["jschon/jsonschema.py:JSONSchema.metaschema", "jschon/catalog/__init__.py:Catalog.get_metaschema", "jschon/catalog/__init__.py:Catalog.create_metaschema", "jschon/jsonschema.py:JSONSchema._bootstrap", "jschon/vocabulary/__init__.py:Metaschema.__init__"]}
{"id": "C102", "title": "Editing a constructed schema", "statement": "Setting, inserting or deleting an item of the value of a keyword, or of an array or object further inside it, anywhere in a constructed schema leaves exactly the schema that the edited document describes: the same keywords of the same classes, subschemas at their new positions, new subschemas under the metaschema and base URI in force there; the value read back is the edited document. Other documents in the catalog stay as they are, and an edit that raises leaves every existing schema as it was. References inside what is brought in are not resolved, so such a schema does not evaluate as one constructed from the edited document would.", "quantifier": "all schema documents, all paths into them, all edits and items, all catalogs that constructions, lookups and earlier edits lead to", "why_tests_cant": "The tests edit JSON documents but no schemas; that no path, depth or series of edits leaves a stale label or a wrongly classed subschema is a statement about all of them.", "anchors": ["jschon/json.py:JSON.__setitem__", "jschon/json.py:JSON.__delitem__", "jschon/json.py:JSON.insert", "jschon/jsonschema.py:JSONSchema.__init__", "jschon/vocabulary/__init__.py:ArrayOfSubschemas.jsonify", "jschon/vocabulary/__init__.py:ObjectOfSubschemas.jsonify"]}
{"id": "C103", "title": "Evaluation depends on the document alone", "statement": "Schemas that correspond keyword by keyword give the same result tree (validity, paths, annotations, errors) or the same exception on every instance, whichever objects, catalogs and URIs they have. In particular a document without references, constructed twice under one metaschema after any histories, evaluates alike both times, and an edited schema without references evaluates as the one constructed from the edited document. With references this holds as far as they lead to corresponding schemas and, for dynamic ones, the same anchors are in scope; after an edit they need not, since a reference keeps leading to the schema that was there when it was resolved.", "quantifier": "all pairs of worlds and correspondences, all schema documents, catalogs, URIs, edits and instances", "why_tests_cant": "The tests construct each schema once and compare verdicts with expected values; independence from earlier constructions, object identities and edit history is a statement about pairs of runs.", "anchors": ["jschon/jsonschema.py:JSONSchema.evaluate", "jschon/jsonschema.py:JSONSchema._resolve_references", "jschon/jsonschema.py:Result", "jschon/vocabulary/core.py:RefKeyword.resolve", "jschon/json.py:JSON.__setitem__"]}
{"id": "C104", "title": "Looking a schema up by a JSON pointer", "statement": "Catalog.get_schema of a URI whose base leads to a schema in the cache, or to a document that can be loaded and constructed, and whose fragment is a JSON pointer returns exactly the subschema at the place of the document that the pointer is read as (array items may be named by any integer text, counting from the end if negative), for every place that holds a subschema. At places that hold none, and where the pointer leads nowhere, it raises CatalogError, except ValueError where an array is given a key that is no integer. Apart from the construction the catalog is not changed.", "quantifier": "all schema documents made into schemas (also by edits), all URIs, pointers, caches and catalogs", "why_tests_cant": "The tests look up a few canonical locations and two missing ones; that no pointer leads to a wrong subschema, and which exception each dead end raises, is a statement about all documents and pointers.", "anchors": ["jschon/catalog/__init__.py:Catalog.get_schema", "jschon/jsonpointer.py:JSONPointer.evaluate", "jschon/jsonpointer.py:JSONPointer.parse_uri_fragment", "jschon/vocabulary/__init__.py:ArrayOfSubschemas.jsonify"]}
{"id": "C105", "title": "JSON Patch methods on a constructed schema", "statement": "After schema.add, schema.remove or schema.replace has returned on a schema inside a constructed document, the schema is the one that the correspondingly edited document describes (RFC 6902, at the place that the path is read as), with one exception: removing a member of a schema only takes the keyword out of the value, evaluation goes on as before. If the edited document has no references, the schema then evaluates as one newly constructed from it. If the method raises, every schema is as before. Adding or replacing a member of a schema, and an empty path, raise AttributeError; a path whose parent is not there raises JSONError, or ValueError where an array is given a key that is no integer.", "quantifier": "all catalogs reached by constructing, loading, leaving caches and editing; all documents, paths and values", "why_tests_cant": "The tests patch plain JSON trees only. That a patch of a schema rebuilds exactly the right subschemas, renumbers the others, and leaves everything else alone is a statement about all schemas and paths.", "anchors": ["jschon/json.py:JSON.add", "jschon/json.py:JSON.remove", "jschon/json.py:JSON.replace", "jschon/json.py:JSON.__delitem__", "jschon/jsonschema.py:JSONSchema.__init__", "jschon/jsonpointer.py:JSONPointer.evaluate"]}
{"id": "C106", "title": "Arrays and strings are sequences of items and characters", "statement": "For a JSON node of type array or string, indexing, iteration, reversed(), `in`, count() and index() with any bounds give what a Python sequence of its items, or of its characters, gives, with items compared by value. No method changes a string: item assignment and deletion raise TypeError, insert and append AttributeError, and pop, clear, reverse, extend, popitem and setdefault raise unless there is nothing to do. Extending an array by a string appends its characters. Unlike Python's str, `in` finds single characters only, not longer substrings; on an object, reversed() and index() raise KeyError (index() with empty bounds ValueError).", "quantifier": "all nodes and operands after all histories of edits, all integer indices and bounds", "why_tests_cant": "Indices and bounds are arbitrary integers, negative ones included, on strings and arrays of any length after any edits; the tests use a few indices of fixed documents and never treat a string node as a sequence.", "anchors": ["jschon/json.py:JSON.__getitem__", "jschon/json.py:JSON.__iter__", "jschon/json.py:JSON.__len__", "jschon/json.py:JSON.__setitem__", "jschon/json.py:JSON.__delitem__", "jschon/json.py:JSON.insert", "jschon/json.py:JSON.__eq__"]}
{"id": "C107", "title": "Pointers as keys of dicts", "statement": "Two JSON pointers are equal exactly when their texts are the same, and equal pointers have equal hashes; so a dict keyed by pointers holds under each pointer the value last stored under a pointer of the same text, unless it was removed since. The same holds of relative JSON pointers, whether made from text or from numbers.", "quantifier": "all pointers and relative pointers, all histories of assignments and removals, all hash functions of strings, numbers and tuples, with or without collisions", "why_tests_cant": "Whether an entry is found depends on hashes that differ from run to run and on every entry stored before; a test sees one run of one history.", "anchors": ["jschon/jsonpointer.py:149-153", "jschon/jsonpointer.py:175-181", "jschon/jsonpointer.py:335-352"]}
{"id": "C108", "title": "Equal URIs are the same key of a dict", "statement": "URIs that URI.__eq__ takes for equal have equal hashes, so that a schema stored in a cache under one URI is found under every URI equal to it.", "quantifier": "all URIs, all hash functions", "why_tests_cant": "The tests store and look up schemas under identically written URIs; equality after normalization is never combined with a lookup.", "anchors": ["jschon/uri.py:28-36", "jschon/catalog/__init__.py:281-354"]}
{"id": "C109", "title": "Operation objects are read as RFC 6902 says", "statement": "An operation made from a JSON object changes a document exactly as RFC 6902 sections 3 and 4 say of that object: the members defined for its operation count, and members that are not defined for it are ignored.", "quantifier": "all operation objects and patches, all documents", "why_tests_cant": "The tests pass objects with the members of their operation and a few more; which further names collide with the parameters of a Python function is not asked.", "anchors": ["jschon/jsonpatch.py:39-66", "jschon/jsonpatch.py:68-82", "jschon/jsonpatch.py:114-122"]}
{"id": "C110", "title": "An operation whose path is not a string changes no document", "statement": "A patch operation object whose \"path\" member is not a string is refused, at construction or when the operation is applied; it never gives a changed document.", "quantifier": "all operation objects, all documents", "why_tests_cant": "The tests give strings and pointers as paths; the values that Python takes for false are not among them.", "anchors": ["jschon/jsonpatch.py:59-66", "jschon/jsonpatch.py:194-201", "jschon/jsonpatch.py:230-331"]}
