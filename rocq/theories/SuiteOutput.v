(** Suite.v continued: tests/test_output.py, apart from the tests that evaluate
    a published meta-schema or output schema. *)
From Coq Require Import String List Bool ZArith.
From Verif Require Import Suite.
Import ListNotations.
Open Scope string_scope.
Open Scope list_scope.
Open Scope nat_scope.

Definition d2020 : option string := Some "2020-12".
Definition holds_true (v : json) : bool := json_eqb v (JBool true).
Definition output_check (schema instance expected : json) : bool := both (schema_of d2020 schema) (fun sc => agree (output_of basic sc instance) expected).

(** test_evaluate_instance_flag, test_evaluate_instance_basic. *)
Definition schema_valid : json := given
"{""$id"": ""http://example.com"", ""if"": {""prefixItems"": [{""const"": 1}]}, ""then"": {""contains"": {""multipleOf"": 2}}, ""else"": {""contains"": {""multipleOf"": 3}}}".
Example suite_instance_flag : all_pass (fun e => both (schema_of d2020 schema_valid) (fun sc => agree (output_of (fun _ => out_flag) sc (nth_of 0 e)) (JObj [(lit "valid", nth_of 1 e)]))) (elements (given
"[[[1, 2], true, {""valid"": true, ""annotations"": [{""instanceLocation"": """", ""keywordLocation"": ""/if/prefixItems"", ""absoluteKeywordLocation"": ""http://example.com#/if/prefixItems"", ""annotation"": 0}, {""instanceLocation"": """", ""keywordLocation"": ""/then/contains"", ""absoluteKeywordLocation"": ""http://example.com#/then/contains"", ""annotation"": [1]}]}], [[1, 3], false, {""valid"": false, ""errors"": [{""instanceLocation"": """", ""keywordLocation"": ""/then/contains"", ""absoluteKeywordLocation"": ""http://example.com#/then/contains"", ""error"": ""The array does not contain any element that is valid against the \""contains\"" subschema""}, {""instanceLocation"": ""/0"", ""keywordLocation"": ""/then/contains/multipleOf"", ""absoluteKeywordLocation"": ""http://example.com#/then/contains/multipleOf"", ""error"": ""The value must be a multiple of 2""}, {""instanceLocation"": ""/1"", ""keywordLocation"": ""/then/contains/multipleOf"", ""absoluteKeywordLocation"": ""http://example.com#/then/contains/multipleOf"", ""error"": ""The value must be a multiple of 2""}]}], [[2, 2], false, {""valid"": false, ""errors"": [{""instanceLocation"": """", ""keywordLocation"": ""/if/prefixItems"", ""absoluteKeywordLocation"": ""http://example.com#/if/prefixItems"", ""error"": [0]}, {""instanceLocation"": ""/0"", ""keywordLocation"": ""/if/prefixItems/0/const"", ""absoluteKeywordLocation"": ""http://example.com#/if/prefixItems/0/const"", ""error"": ""The instance value must be equal to the defined constant""}, {""instanceLocation"": """", ""keywordLocation"": ""/else/contains"", ""absoluteKeywordLocation"": ""http://example.com#/else/contains"", ""error"": ""The array does not contain any element that is valid against the \""contains\"" subschema""}, {""instanceLocation"": ""/0"", ""keywordLocation"": ""/else/contains/multipleOf"", ""absoluteKeywordLocation"": ""http://example.com#/else/contains/multipleOf"", ""error"": ""The value must be a multiple of 3""}, {""instanceLocation"": ""/1"", ""keywordLocation"": ""/else/contains/multipleOf"", ""absoluteKeywordLocation"": ""http://example.com#/else/contains/multipleOf"", ""error"": ""The value must be a multiple of 3""}]}], [[2, 3], true, {""valid"": true, ""annotations"": [{""instanceLocation"": """", ""keywordLocation"": ""/else/contains"", ""absoluteKeywordLocation"": ""http://example.com#/else/contains"", ""annotation"": [1]}]}]]")) = true.
Proof. vm_compute. reflexivity. Qed.
Example suite_instance_basic : all_pass (fun e => output_check schema_valid (nth_of 0 e) (nth_of 2 e)) (elements (given
"[[[1, 2], true, {""valid"": true, ""annotations"": [{""instanceLocation"": """", ""keywordLocation"": ""/if/prefixItems"", ""absoluteKeywordLocation"": ""http://example.com#/if/prefixItems"", ""annotation"": 0}, {""instanceLocation"": """", ""keywordLocation"": ""/then/contains"", ""absoluteKeywordLocation"": ""http://example.com#/then/contains"", ""annotation"": [1]}]}], [[1, 3], false, {""valid"": false, ""errors"": [{""instanceLocation"": """", ""keywordLocation"": ""/then/contains"", ""absoluteKeywordLocation"": ""http://example.com#/then/contains"", ""error"": ""The array does not contain any element that is valid against the \""contains\"" subschema""}, {""instanceLocation"": ""/0"", ""keywordLocation"": ""/then/contains/multipleOf"", ""absoluteKeywordLocation"": ""http://example.com#/then/contains/multipleOf"", ""error"": ""The value must be a multiple of 2""}, {""instanceLocation"": ""/1"", ""keywordLocation"": ""/then/contains/multipleOf"", ""absoluteKeywordLocation"": ""http://example.com#/then/contains/multipleOf"", ""error"": ""The value must be a multiple of 2""}]}], [[2, 2], false, {""valid"": false, ""errors"": [{""instanceLocation"": """", ""keywordLocation"": ""/if/prefixItems"", ""absoluteKeywordLocation"": ""http://example.com#/if/prefixItems"", ""error"": [0]}, {""instanceLocation"": ""/0"", ""keywordLocation"": ""/if/prefixItems/0/const"", ""absoluteKeywordLocation"": ""http://example.com#/if/prefixItems/0/const"", ""error"": ""The instance value must be equal to the defined constant""}, {""instanceLocation"": """", ""keywordLocation"": ""/else/contains"", ""absoluteKeywordLocation"": ""http://example.com#/else/contains"", ""error"": ""The array does not contain any element that is valid against the \""contains\"" subschema""}, {""instanceLocation"": ""/0"", ""keywordLocation"": ""/else/contains/multipleOf"", ""absoluteKeywordLocation"": ""http://example.com#/else/contains/multipleOf"", ""error"": ""The value must be a multiple of 3""}, {""instanceLocation"": ""/1"", ""keywordLocation"": ""/else/contains/multipleOf"", ""absoluteKeywordLocation"": ""http://example.com#/else/contains/multipleOf"", ""error"": ""The value must be a multiple of 3""}]}], [[2, 3], true, {""valid"": true, ""annotations"": [{""instanceLocation"": """", ""keywordLocation"": ""/else/contains"", ""absoluteKeywordLocation"": ""http://example.com#/else/contains"", ""annotation"": [1]}]}]]")) = true.
Proof. vm_compute. reflexivity. Qed.

(** test_array_item_output, test_contains_if_output. *)
Definition array_schema : json := given
"{""$id"": ""http://example.com"", ""items"": {""type"": ""integer"", ""description"": ""an item""}}".
Example suite_array_item : all_pass (fun e => output_check array_schema (nth_of 0 e) (nth_of 1 e)) (elements (given
"[[[1, 2], {""valid"": true, ""annotations"": [{""instanceLocation"": """", ""keywordLocation"": ""/items"", ""absoluteKeywordLocation"": ""http://example.com#/items"", ""annotation"": true}, {""instanceLocation"": ""/0"", ""keywordLocation"": ""/items/description"", ""absoluteKeywordLocation"": ""http://example.com#/items/description"", ""annotation"": ""an item""}, {""instanceLocation"": ""/1"", ""keywordLocation"": ""/items/description"", ""absoluteKeywordLocation"": ""http://example.com#/items/description"", ""annotation"": ""an item""}]}], [[1, ""foo""], {""valid"": false, ""errors"": [{""instanceLocation"": """", ""keywordLocation"": ""/items"", ""absoluteKeywordLocation"": ""http://example.com#/items"", ""error"": [1]}, {""instanceLocation"": ""/1"", ""keywordLocation"": ""/items/type"", ""absoluteKeywordLocation"": ""http://example.com#/items/type"", ""error"": ""The instance must be of type \""integer\""""}]}], [[""bar"", 2], {""valid"": false, ""errors"": [{""instanceLocation"": """", ""keywordLocation"": ""/items"", ""absoluteKeywordLocation"": ""http://example.com#/items"", ""error"": [0]}, {""instanceLocation"": ""/0"", ""keywordLocation"": ""/items/type"", ""absoluteKeywordLocation"": ""http://example.com#/items/type"", ""error"": ""The instance must be of type \""integer\""""}]}]]")) = true.
Proof. vm_compute. reflexivity. Qed.
Definition contains_if_schema : json := given
"{""$id"": ""http://example.com"", ""contains"": {""if"": {""type"": ""integer""}, ""else"": {""type"": ""string""}}}".
Example suite_contains_if : all_pass (fun e => output_check contains_if_schema (nth_of 0 e) (nth_of 1 e)) (elements (given
"[[[1, ""foo""], {""valid"": true, ""annotations"": [{""instanceLocation"": """", ""keywordLocation"": ""/contains"", ""absoluteKeywordLocation"": ""http://example.com#/contains"", ""annotation"": [0, 1]}]}], [[""bar"", 2], {""valid"": true, ""annotations"": [{""instanceLocation"": """", ""keywordLocation"": ""/contains"", ""absoluteKeywordLocation"": ""http://example.com#/contains"", ""annotation"": [0, 1]}]}], [[""baz"", 3.1], {""valid"": true, ""annotations"": [{""instanceLocation"": """", ""keywordLocation"": ""/contains"", ""absoluteKeywordLocation"": ""http://example.com#/contains"", ""annotation"": [0]}]}]]")) = true.
Proof. vm_compute. reflexivity. Qed.

(** test_ref_absolute_uri and the three after it: absoluteKeywordLocation in
    the verbose output. *)
Definition verbose_of (draft : string) (schema instance : json) : json :=
  match schema_of (Some draft) schema with
  | Ok sc => match output_of out_verbose sc instance with Ok v => v | _ => JNull end
  | _ => JNull
  end.
Definition kid (key : string) (v : json) : json := nth_of 0 (member_of key v).
Definition absolute (v : json) : json := member_of "absoluteKeywordLocation" v.
Definition ref_schema (foo : json) : json :=
  JObj [(lit "$id", JStr (lit "http://example.com")); (lit "$ref", JStr (lit "#/$defs/foo")); (lit "$defs", JObj [(lit "foo", foo)])].
Example suite_ref_absolute_uri : all_pass (fun e =>
    json_eqb (absolute (kid (if holds_true (nth_of 1 e) then "annotations" else "errors") (verbose_of "2020-12" (ref_schema (nth_of 0 e)) (JObj []))))
             (JStr (lit "http://example.com#/$defs/foo"))) (elements (given
"[[false, false], [true, true], [{}, true], [{""not"": {}}, false]]")) = true.
Proof. vm_compute. reflexivity. Qed.
Example suite_dynamic_ref_absolute_uri :
  json_eqb (absolute (kid "annotations" (verbose_of "2020-12" (given
"{""$id"": ""http://example.com"", ""$dynamicRef"": ""#item"", ""$defs"": {""foo"": {""$dynamicAnchor"": ""item""}}}") (JObj []))))
    (JStr (lit "http://example.com#/$defs/foo")) = true.
Proof. vm_compute. reflexivity. Qed.
Example suite_recursive_ref_absolute_uri :
  json_eqb (absolute (kid "annotations" (kid "annotations" (verbose_of "2019-09" (given
"{""$id"": ""http://example.com"", ""$recursiveAnchor"": true, ""items"": {""$recursiveRef"": ""#""}, ""type"": [""array"", ""string""]}") (given "[[""foo""]]")))))
    (JStr (lit "http://example.com")) = true.
Proof. vm_compute. reflexivity. Qed.
Example suite_chained_ref_absolute_uri :
  let v := verbose_of "2020-12" (given
"{""$id"": ""http://example.com"", ""$ref"": ""#/$defs/foo"", ""$defs"": {""foo"": {""$ref"": ""#/$defs/bar""}, ""bar"": true}}") (JObj []) in
  json_eqb (absolute (kid "annotations" v)) (JStr (lit "http://example.com#/$defs/foo")) = true /\
  json_eqb (absolute (kid "annotations" (kid "annotations" v))) (JStr (lit "http://example.com#/$defs/bar")) = true.
Proof. vm_compute. split; reflexivity. Qed.

(** test_basic_output_filtering. *)
Definition tree_schema : json := given
"{""$id"": ""http://example.com"", ""$anchor"": ""node"", ""type"": ""object"", ""title"": ""Tree Node"", ""properties"": {""data"": true, ""children"": {""type"": ""array"", ""items"": {""$ref"": ""#node""}}}}".
Definition tree_data : json := given
"{""children"": [{""data"": ""foo"", ""children"": [{}, {""children"": [{""data"": ""bar""}]}]}]}".
Definition tree_output : json := given
"{""valid"": true, ""annotations"": [{""instanceLocation"": """", ""keywordLocation"": ""/title"", ""absoluteKeywordLocation"": ""http://example.com#/title"", ""annotation"": ""Tree Node""}, {""instanceLocation"": """", ""keywordLocation"": ""/properties"", ""absoluteKeywordLocation"": ""http://example.com#/properties"", ""annotation"": [""children""]}, {""instanceLocation"": ""/children"", ""keywordLocation"": ""/properties/children/items"", ""absoluteKeywordLocation"": ""http://example.com#/properties/children/items"", ""annotation"": true}, {""instanceLocation"": ""/children/0"", ""keywordLocation"": ""/properties/children/items/$ref/title"", ""absoluteKeywordLocation"": ""http://example.com#/title"", ""annotation"": ""Tree Node""}, {""instanceLocation"": ""/children/0"", ""keywordLocation"": ""/properties/children/items/$ref/properties"", ""absoluteKeywordLocation"": ""http://example.com#/properties"", ""annotation"": [""data"", ""children""]}, {""instanceLocation"": ""/children/0/children"", ""keywordLocation"": ""/properties/children/items/$ref/properties/children/items"", ""absoluteKeywordLocation"": ""http://example.com#/properties/children/items"", ""annotation"": true}, {""instanceLocation"": ""/children/0/children/0"", ""keywordLocation"": ""/properties/children/items/$ref/properties/children/items/$ref/title"", ""absoluteKeywordLocation"": ""http://example.com#/title"", ""annotation"": ""Tree Node""}, {""instanceLocation"": ""/children/0/children/0"", ""keywordLocation"": ""/properties/children/items/$ref/properties/children/items/$ref/properties"", ""absoluteKeywordLocation"": ""http://example.com#/properties"", ""annotation"": []}, {""instanceLocation"": ""/children/0/children/1"", ""keywordLocation"": ""/properties/children/items/$ref/properties/children/items/$ref/title"", ""absoluteKeywordLocation"": ""http://example.com#/title"", ""annotation"": ""Tree Node""}, {""instanceLocation"": ""/children/0/children/1"", ""keywordLocation"": ""/properties/children/items/$ref/properties/children/items/$ref/properties"", ""absoluteKeywordLocation"": ""http://example.com#/properties"", ""annotation"": [""children""]}, {""instanceLocation"": ""/children/0/children/1/children"", ""keywordLocation"": ""/properties/children/items/$ref/properties/children/items/$ref/properties/children/items"", ""absoluteKeywordLocation"": ""http://example.com#/properties/children/items"", ""annotation"": true}, {""instanceLocation"": ""/children/0/children/1/children/0"", ""keywordLocation"": ""/properties/children/items/$ref/properties/children/items/$ref/properties/children/items/$ref/title"", ""absoluteKeywordLocation"": ""http://example.com#/title"", ""annotation"": ""Tree Node""}, {""instanceLocation"": ""/children/0/children/1/children/0"", ""keywordLocation"": ""/properties/children/items/$ref/properties/children/items/$ref/properties/children/items/$ref/properties"", ""absoluteKeywordLocation"": ""http://example.com#/properties"", ""annotation"": [""data""]}]}".
Definition last_key (v : json) : pystr := match parse_pointer (text_of v) with Ok p => last p [] | _ => [] end.
Definition filter_check (e : json) : bool :=
  let names := match e with JArr l => Some (map text_of l) | _ => None end in
  let expected := match names with
                  | None => tree_output
                  | Some l => JObj (dset (lit "annotations")
                                         (JArr (filter (fun a => mem_str (last_key (member_of "keywordLocation" a)) l) (elements (member_of "annotations" tree_output))))
                                         (entries tree_output))
                  end in
  both (schema_of d2020 tree_schema) (fun sc => agree (output_of (fun uri => out_basic uri names) sc tree_data) expected).
Example suite_basic_output_filtering : all_pass filter_check (elements (given
"[null, [], [""items""], [""properties""], [""title"", ""description""], [""items"", ""properties""], [""properties"", ""title"", ""description""]]")) = true.
Proof. vm_compute. reflexivity. Qed.

(** test_hierarchical_output: the verdict. *)
Definition any_of : json := given
"{""$schema"": ""https://json-schema.org/draft/next/schema"", ""type"": ""array"", ""anyOf"": [{""items"": {""type"": ""integer""}}, {""items"": {""type"": ""string""}}]}".
Example suite_hierarchical : all_pass (fun e => both (schema_of None any_of) (fun sc =>
    both (evaluated sc (nth_of 0 e)) (fun r => both (out_hierarchical (location_uri (snd sc)) (suite_world (snd sc)) r) (fun o => json_eqb (member_of "valid" o) (nth_of 1 e))))) (elements (given
"[[[1, 2], true], [[""one"", ""two""], true], [[1, ""two""], false], [[null, false], false]]")) = true.
Proof. vm_compute. reflexivity. Qed.

(** test_unknown_keywords_as_annotations. *)
Example suite_unknown_keywords : map (fun d =>
    both (schema_of None (JObj [(lit "$schema", JStr (uri_str (draft_uri d))); (lit "$id", JStr (lit "https://example.com/schema")); (lit "extra", JStr (lit "annotation"))])) (fun sc =>
      agree (output_of basic sc (JObj [])) (given
"{""valid"": true, ""annotations"": [{""instanceLocation"": """", ""keywordLocation"": ""/extra"", ""absoluteKeywordLocation"": ""https://example.com/schema#/extra"", ""annotation"": ""annotation""}]}")))
  ["2019-09"; "2020-12"; "next"] = [true; true; true].
Proof. vm_compute. reflexivity. Qed.
