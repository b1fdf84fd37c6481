(** Suite.v continued: tests of schemas, keywords, URIs and catalogs. *)
From Coq Require Import String List Bool ZArith.
From Verif Require Import Suite Roots.
Import ListNotations.
Open Scope string_scope.
Open Scope list_scope.
Open Scope nat_scope.

Definition d2020 : option string := Some "2020-12".
Definition is_bool (b : bool) (v : json) : bool := json_eqb v (JBool b).
Definition judged (b : json) (r : res rnode) : bool := valid_is (is_bool true b) r.

(** ** tests/test_applicators.py *)

(** test_applicator, test_array_applicator, test_property_applicator: the
    verdicts, and that the schema reads as the value it was made from. *)
Definition applicator_check (e : json) : bool :=
  both (schema_of d2020 (nth_of 0 e)) (fun sc =>
    match schema_value 20 (c_objs (snd sc)) (fst sc) with Some v => json_eqb v (nth_of 0 e) | None => false end
    && valid_is true (evaluated sc (nth_of 1 e)) && valid_is false (evaluated sc (nth_of 2 e))).
Example suite_applicator : all_pass applicator_check (elements (given
"[[{""not"": {""type"": [""array"", ""object""]}}, ""valid"", [""invalid""]], [{""if"": {""type"": ""integer""}, ""then"": {""minimum"": 1}, ""else"": {""enum"": [""foo"", ""bar""]}}, 5, ""invalid""], [{""contains"": {""const"": ""a""}}, [""b"", ""a""], [""b"", ""c""]], [{""items"": {""const"": ""a""}}, [""a"", ""a""], [""a"", ""b""]], [{""unevaluatedItems"": false}, [], [""invalid""]], [{""additionalProperties"": {""const"": ""a""}}, {""valid"": ""a""}, {""invalid"": ""b""}], [{""unevaluatedProperties"": false}, {}, {""invalid"": true}], [{""propertyNames"": {""pattern"": ""^v""}}, {""valid"": true}, {""invalid"": true}]]")) = true.
Proof. vm_compute. reflexivity. Qed.
Example suite_array_applicator : all_pass applicator_check (elements (given
"[[{""allOf"": [{""type"": ""string""}, {""maxLength"": 10}]}, ""valid"", ""invalid string""], [{""anyOf"": [{""type"": ""number""}, {""const"": true}]}, 5, ""invalid""], [{""oneOf"": [{""type"": ""array""}, {""const"": true}], ""prefixItems"": [{""const"": 1}, {""const"": 2}, {""const"": 3}]}, [1], false]]")) = true.
Proof. vm_compute. reflexivity. Qed.
Example suite_property_applicator : all_pass applicator_check (elements (given
"[[{""$ref"": ""#/$defs/foo"", ""$defs"": {""foo"": {""type"": ""integer""}}}, 1, ""invalid""], [{""dependentSchemas"": {""foo"": true, ""bar"": false}}, {""foo"": ""valid""}, {""bar"": ""invalid""}], [{""properties"": {""foo"": {""type"": ""integer""}, ""bar"": {""type"": ""number""}}, ""patternProperties"": {""^x"": {""type"": ""string""}}}, {""foo"": 1, ""bar"": 1.1, ""xyz"": ""baz""}, {""foo"": 1.1, ""bar"": ""1.1"", ""xyz"": false}]]")) = true.
Proof. vm_compute. reflexivity. Qed.

(** test_additional_properties, test_items: the set of keyword locations of the
    errors in the basic output. *)
Definition same_set (a b : list json) : bool :=
  forallb (fun x => existsb (json_eqb x) b) a && forallb (fun x => existsb (json_eqb x) a) b.
Definition error_paths_check (x : json) (e : json) : bool :=
  both (schema_of d2020 (nth_of 0 e)) (fun sc =>
    both (output_of basic sc x) (fun o => same_set (map (member_of "keywordLocation") (elements (member_of "errors" o))) (elements (nth_of 1 e)))).
Example suite_additional_properties : all_pass (error_paths_check (given "{""foo"": ""bar""}")) (elements (given
"[[{""additionalProperties"": false}, [""/additionalProperties""]], [{""properties"": {""foo"": false}, ""additionalProperties"": false}, [""/properties"", ""/properties/foo""]], [{""properties"": {""oof"": false}, ""additionalProperties"": false}, [""/additionalProperties""]], [{""patternProperties"": {""o+"": false}, ""additionalProperties"": false}, [""/patternProperties"", ""/patternProperties/o+""]], [{""patternProperties"": {""n+"": false}, ""additionalProperties"": false}, [""/additionalProperties""]]]")) = true.
Proof. vm_compute. reflexivity. Qed.
Example suite_items : all_pass (error_paths_check (given "[""foo""]")) (elements (given
"[[{""items"": false}, [""/items""]], [{""items"": false, ""prefixItems"": [false]}, [""/prefixItems"", ""/prefixItems/0""]]]")) = true.
Proof. vm_compute. reflexivity. Qed.

(** ** tests/test_annotations.py *)

(** test_annotate. *)
Definition annotate_check (e : json) : bool :=
  let key := text_of (nth_of 0 e) in
  both (schema_of d2020 (JObj [(key, nth_of 1 e)])) (fun sc =>
    both (evaluated sc (JStr [])) (fun r => r_valid r &&
      match cget (key, []) (r_children r) with
      | Some n => r_valid n && negb (r_assert n) && json_eqb (r_annot n) (nth_of 1 e)
      | None => false
      end)).
Example suite_annotate : all_pass annotate_check (elements (given
"[[""title"", ""Test Title""], [""description"", ""Test Description""], [""default"", ""Test Default""], [""deprecated"", true], [""readOnly"", false], [""writeOnly"", null], [""examples"", [""foo"", 1.1, {""bar"": null}]], [""contentMediaType"", ""application/json""], [""contentEncoding"", ""base64""]]")) = true.
Proof. vm_compute. reflexivity. Qed.
(** test_content_schema. *)
Definition content_schema : json := given "{""required"": [""foo""], ""properties"": {""foo"": {""type"": ""string""}}}".
Example suite_content_schema :
  both (schema_of d2020 (JObj [(lit "contentMediaType", JStr (lit "application/json")); (lit "contentSchema", content_schema)])) (fun sc =>
    both (evaluated sc (JStr [])) (fun r => match cget (lit "contentSchema", []) (r_children r) with Some n => json_eqb (r_annot n) content_schema | None => false end)) = true /\
  both (schema_of d2020 (JObj [(lit "contentSchema", content_schema)])) (fun sc =>
    both (evaluated sc (JStr [])) (fun r => match cget (lit "contentSchema", []) (r_children r) with Some n => false | None => true end)) = true.
Proof. vm_compute. split; reflexivity. Qed.

(** ** tests/test_schema.py *)

(** test_schema_examples, without schema.validate(). *)
Definition example_check (e : json) : bool :=
  both (schema_of d2020 (nth_of 0 e)) (fun sc =>
    match schema_value 20 (c_objs (snd sc)) (fst sc) with Some v => json_eqb v (nth_of 0 e) | None => false end
    && (match metaschema_uri (c_objs (snd sc)) (fst sc) with Some u => uri_eqb u (draft_uri "2020-12") | None => false end)
    && judged (nth_of 1 e) (evaluated sc (given "{""alpha"": 1.1}"))
    && judged (nth_of 2 e) (evaluated sc (given "{""november"": 1.1}"))).
Example suite_schema_examples : all_pass example_check (elements (given
"[[false, false, false], [true, true, true], [{}, true, true], [{""not"": {}}, false, false], [{""const"": {""alpha"": 1.1}}, true, false], [{""$schema"": ""https://json-schema.org/draft/2020-12/schema"", ""$id"": ""dynamicRef8_main.json"", ""$defs"": {""inner"": {""$id"": ""dynamicRef8_inner.json"", ""$dynamicAnchor"": ""foo"", ""title"": ""inner"", ""additionalProperties"": {""$dynamicRef"": ""#foo""}}}, ""if"": {""propertyNames"": {""pattern"": ""^[a-m]""}}, ""then"": {""title"": ""any type of node"", ""$id"": ""dynamicRef8_anyLeafNode.json"", ""$dynamicAnchor"": ""foo"", ""$ref"": ""dynamicRef8_main.json#/$defs/inner""}, ""else"": {""title"": ""integer node"", ""$id"": ""dynamicRef8_integerNode.json"", ""$dynamicAnchor"": ""foo"", ""type"": [""object"", ""integer""], ""$ref"": ""dynamicRef8_main.json#/$defs/inner""}}, true, false]]")) = true.
Proof. vm_compute. reflexivity. Qed.

(** test_document_rootschema and test_resource_rootschema, for a schema that is
    not inside other JSON. *)
Definition rooted : json := given
"{""$schema"": ""https://json-schema.org/draft/2020-12/schema"",
  ""$defs"": {""a"": {""$id"": ""https://example.com/whatever"", ""$defs"": {""b"": {""properties"": {""c"": {}}}}}}}".
Example suite_rootschemas :
  both (schema_of None rooted) (fun sc =>
    let at_ p := match schema_at sc p with Ok s => s | _ => 99 end in
    let objs := c_objs (snd sc) in
    forallb (fun p => document_rootschema objs (at_ p) =? fst sc)
      [""; "/$defs/a"; "/$defs/a/$defs/b"; "/$defs/a/$defs/b/properties/c"]
    && (resource_rootschema objs (fst sc) =? fst sc)
    && forallb (fun p => resource_rootschema objs (at_ p) =? at_ "/$defs/a")
      ["/$defs/a"; "/$defs/a/$defs/b"; "/$defs/a/$defs/b/properties/c"]) = true.
Proof. vm_compute. reflexivity. Qed.

(** test_base_uri and test_uri.  A fragment is part of the path in the first
    column; test_uri looks the URI up and, unless the fragment is an anchor,
    compares it with the canonical one. *)
Definition id_example : json := given
"{""$id"": ""https://example.com/root.json"", ""$defs"": {""A"": {""$anchor"": ""foo""}, ""B"": {""$id"": ""other.json"", ""$defs"": {""X"": {""$anchor"": ""bar""}, ""Y"": {""$id"": ""t/inner.json"", ""$anchor"": ""bar""}}}, ""C"": {""$id"": ""urn:uuid:ee564b8a-7a87-4125-8c96-e9f123d6766f""}}}".
Definition pointed (sc : sid * cat) (v : json) : res sid :=
  let* p := parse_uri_fragment (tl (text_of v)) in
  let* n := sn_walk (suite_world (snd sc)) (SNSchema (fst sc)) p in
  match n with SNSchema t => Ok t | SNJson _ => Exn EOther end.
Example suite_base_uri : all_pass (fun e => both (schema_of d2020 id_example) (fun sc =>
    both (pointed sc (nth_of 0 e)) (fun s => match base_uri (c_objs (snd sc)) s with Some u => uri_eqb u (parse_uri_reference (text_of (nth_of 1 e))) | None => false end)))
  (elements (given
"[[""#"", ""https://example.com/root.json""], [""#/$defs/A"", ""https://example.com/root.json""], [""#/$defs/B"", ""https://example.com/other.json""], [""#/$defs/B/$defs/X"", ""https://example.com/other.json""], [""#/$defs/B/$defs/Y"", ""https://example.com/t/inner.json""], [""#/$defs/C"", ""urn:uuid:ee564b8a-7a87-4125-8c96-e9f123d6766f""]]")) = true.
Proof. vm_compute. reflexivity. Qed.
Definition anchored (u : uri) : bool := match u_frag u with Some (c :: _) => negb (N.eqb c 47) | _ => false end.
Example suite_uri : all_pass (fun e => both (schema_of d2020 id_example) (fun sc =>
    both (pointed sc (nth_of 0 e)) (fun s =>
      let u := parse_uri_reference (text_of (nth_of 1 e)) in
      match fst (get_schema suite_env 40 (lit "default") u (Some (draft_uri "2020-12")) (snd sc)) with Ok t => t =? s | _ => false end
      && (is_bool false (nth_of 2 e) || anchored u ||
          match canonical_uri (c_objs (snd sc)) s with
          | Ok (Some v) => uri_eqb v (match u_frag u with Some [] => no_fragment u | _ => u end)
          | _ => false
          end))))
  (elements (given
"[[""#"", ""https://example.com/root.json"", true], [""#"", ""https://example.com/root.json#"", true], [""#/$defs/A"", ""https://example.com/root.json#foo"", true], [""#/$defs/A"", ""https://example.com/root.json#/$defs/A"", true], [""#/$defs/B"", ""https://example.com/other.json#"", true], [""#/$defs/B"", ""https://example.com/root.json#/$defs/B"", false], [""#/$defs/B/$defs/X"", ""https://example.com/other.json#bar"", true], [""#/$defs/B/$defs/X"", ""https://example.com/other.json#/$defs/X"", true], [""#/$defs/B/$defs/X"", ""https://example.com/root.json#/$defs/B/$defs/X"", false], [""#/$defs/B/$defs/Y"", ""https://example.com/t/inner.json#bar"", true], [""#/$defs/B/$defs/Y"", ""https://example.com/t/inner.json#"", true], [""#/$defs/B/$defs/Y"", ""https://example.com/other.json#/$defs/Y"", false], [""#/$defs/B/$defs/Y"", ""https://example.com/root.json#/$defs/B/$defs/Y"", false], [""#/$defs/C"", ""urn:uuid:ee564b8a-7a87-4125-8c96-e9f123d6766f#"", true], [""#/$defs/C"", ""https://example.com/root.json#/$defs/C"", false]]")) = true.
Proof. vm_compute. reflexivity. Qed.

(** test_recursive_schema_extension_2019_09 and _2020_12. *)
Definition tree_check (tree strict instance : json) : bool :=
  both (schema_of None tree) (fun sc => both (schema_in (snd sc) None strict) (fun sc' =>
    valid_is true (evaluated (fst sc, snd sc') instance) && valid_is false (evaluated sc' instance))).
Example suite_tree_2019_09 : tree_check (given
"{""$schema"": ""https://json-schema.org/draft/2019-09/schema"", ""$id"": ""https://example.com/tree"", ""$recursiveAnchor"": true, ""type"": ""object"", ""properties"": {""data"": true, ""children"": {""type"": ""array"", ""items"": {""$recursiveRef"": ""#""}}}}") (given
"{""$schema"": ""https://json-schema.org/draft/2019-09/schema"", ""$id"": ""https://example.com/strict-tree"", ""$recursiveAnchor"": true, ""$ref"": ""tree"", ""unevaluatedProperties"": false}") (given
"{""children"": [{""daat"": 1}]}") = true.
Proof. vm_compute. reflexivity. Qed.
Example suite_tree_2020_12 : tree_check (given
"{""$schema"": ""https://json-schema.org/draft/2020-12/schema"", ""$id"": ""https://example.com/tree"", ""$dynamicAnchor"": ""node"", ""type"": ""object"", ""properties"": {""data"": true, ""children"": {""type"": ""array"", ""items"": {""$dynamicRef"": ""#node""}}}}") (given
"{""$schema"": ""https://json-schema.org/draft/2020-12/schema"", ""$id"": ""https://example.com/strict-tree"", ""$dynamicAnchor"": ""node"", ""$ref"": ""tree"", ""unevaluatedProperties"": false}") (given
"{""children"": [{""daat"": 1}]}") = true.
Proof. vm_compute. reflexivity. Qed.

(** ** tests/test_vocabulary.py *)

Definition with_schema (draft : string) (rest : list (string * json)) : json :=
  JObj ((lit "$schema", JStr (uri_str (draft_uri draft))) :: map (fun kv => (lit (fst kv), snd kv)) rest).
Definition nested : json := given "{""need"": ""to"", ""test"": [""nested"", ""structures""]}".
Example suite_unknown_keyword :
  both (schema_of None (with_schema "2020-12" [("foo", nested)])) (fun sc =>
    both (output_of basic sc (JObj [])) (fun o => json_eqb (member_of "annotation" (nth_of 0 (member_of "annotations" o))) nested)) = true.
Proof. vm_compute. reflexivity. Qed.
Definition made_with_id (draft id : string) : res sid :=
  let* sc := schema_of None (with_schema draft [("$id", JStr (lit id))]) in Ok (fst sc).
Example suite_ids :
  map (fun d => made_with_id d "http://localhost:1234/foo/bar/../baz") ["2019-09"; "2020-12"; "next"] = [Ok 0; Ok 0; Ok 0] /\
  map (fun d => made_with_id d "#foo") ["2019-09"; "2020-12"; "next"] = [Exn EURI; Exn EURI; Exn EURI] /\
  map (fun d => made_with_id d "/foo/bar#") ["2019-09"; "2020-12"; "next"] = [Ok 0; Ok 0; Exn EURI].
Proof. vm_compute. repeat (split; [reflexivity|]). reflexivity. Qed.

(** ** tests/test_catalog.py *)

(** test_uri_source_invalid_uri, test_load_json_invalid_uri, test_local_source,
    with a source that knows one document. *)
Definition one_file : source := fun rest => if str_eqb rest (lit "sub/file") then Ok (given "{""foo"": ""bar""}") else Exn EOther.
Definition with_source (base : string) : res sources := add_uri_source rfc3986 (Some (parse_uri_reference (lit base))) one_file [].
Example suite_invalid_source_uri : map (fun e => match with_source e with Exn ECatalog => true | _ => false end)
  ["//example.com/foo/bar/"; "http://Example.com/foo/bar/"; "http://example.com/foo/#"; "http://example.com/foo/#bar"; "http://example.com/foo/bar"]
  = repeat true 5.
Proof. vm_compute. reflexivity. Qed.
Example suite_invalid_load_uri : map (fun e => match load_json rfc3986 [] (parse_uri_reference (lit e)) with Exn ECatalog => true | _ => false end)
  ["//example.com/foo/bar/file.json"; "http://Example.com/foo/bar/file.json"; "http://example.com/foo/file.json#"; "http://example.com/foo/file.json#bar"]
  = repeat true 4.
Proof. vm_compute. reflexivity. Qed.
Example suite_local_source : map (fun base =>
    both (with_source base) (fun t =>
      let ask s := load_json rfc3986 t (parse_uri_reference (lit s)) in
      agree (ask (base ++ "sub/file")%string) (given "{""foo"": ""bar""}")
      && match ask "http://example.net/sub/file", ask (base ++ "sub/baz")%string with Exn ECatalog, Exn ECatalog => true | _, _ => false end))
  ["http://example.com/"; "http://example.com/foo/"; "http://example.com/foo/bar/"] = repeat true 3.
Proof. vm_compute. reflexivity. Qed.
(** test_get_schema. *)
Definition example_schema : json := given
"{""$schema"": ""https://json-schema.org/draft/2020-12/schema"", ""$id"": ""dynamicRef8_main.json"", ""$defs"": {""inner"": {""$id"": ""dynamicRef8_inner.json"", ""$dynamicAnchor"": ""foo"", ""title"": ""inner"", ""additionalProperties"": {""$dynamicRef"": ""#foo""}}}, ""if"": {""propertyNames"": {""pattern"": ""^[a-m]""}}, ""then"": {""title"": ""any type of node"", ""$id"": ""dynamicRef8_anyLeafNode.json"", ""$dynamicAnchor"": ""foo"", ""$ref"": ""dynamicRef8_main.json#/$defs/inner""}, ""else"": {""title"": ""integer node"", ""$id"": ""dynamicRef8_integerNode.json"", ""$dynamicAnchor"": ""foo"", ""type"": [""object"", ""integer""], ""$ref"": ""dynamicRef8_main.json#/$defs/inner""}}".
Example suite_get_schema : all_pass (fun e => both (schema_of None example_schema) (fun sc =>
    match canonical_uri (c_objs (snd sc)) (fst sc) with
    | Ok (Some u) =>
        match fst (get_schema suite_env 40 (lit "default") (with_fragment u (text_of (nth_of 0 e))) None (snd sc)) with
        | Ok t => is_bool true (nth_of 1 e) && match schema_at sc (string_of_list_ascii (map ascii_of_N (text_of (nth_of 0 e)))) with Ok s => s =? t | _ => false end
        | Exn ECatalog => is_bool false (nth_of 1 e)
        | _ => false
        end
    | _ => false
    end)) (elements (given
"[["""", true], [""/$id"", false], [""/$defs"", false], [""/if"", true], [""/then"", true], [""/else"", true]]")) = true.
Proof. vm_compute. reflexivity. Qed.
(** test_cache_independence. *)
Definition in_cache (id : string) (n : Z) (c : cat) : cat :=
  snd (construct suite_env 40 (lit id) (JObj [(lit "const", JNum (NInt n))]) (Some (parse_uri_reference (lit "http://example.com"))) (Some (draft_uri "2020-12")) c).
Example suite_cache_independence :
  let c := in_cache "two" 2 (in_cache "one" 1 (in_cache "default" 0 (mkCat [] []))) in
  map (fun id => match fst (get_schema suite_env 40 (lit id) (parse_uri_reference (lit "http://example.com")) None c) with
                 | Ok s => schema_value 9 (c_objs c) s
                 | _ => None
                 end) ["default"; "one"; "two"]
  = map (fun n => Some (JObj [(lit "const", JNum (NInt n))])) [0; 1; 2]%Z.
Proof. vm_compute. reflexivity. Qed.

(** ** tests/test_uri.py *)

(** test_uri_parts. *)
Example suite_uri_parts :
  let u := parse_uri_reference (lit "http://example.com/foo?bar#baz") in
  split_parts (u_base u) = mkParts (Some (lit "http")) (Some (lit "example.com")) (lit "/foo") (Some (lit "bar")) /\ u_frag u = Some (lit "baz").
Proof. vm_compute. split; reflexivity. Qed.
