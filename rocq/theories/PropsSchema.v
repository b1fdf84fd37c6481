(** C27, C34, C42, C43, C44: evaluation of whole schemas against the meaning
    that the specification gives them (SpecSchema.v). *)
From Coq Require Import String List.
From Verif Require Import SchemaCases.
Import ListNotations.
Open Scope string_scope.
Open Scope list_scope.
Open Scope nat_scope.

(** Missing from C27: schemas that use unevaluatedItems or
    unevaluatedProperties together with [not] (or with a boolean [items] under
    2019-09), and schema resources between which a dynamic reference has to
    choose; for these the claim is false, see below.  The judgement takes
    [multipleOf] as the code computes it; C38 says when that is divisibility.
    The second condition on instances says that no object has a key twice. *)
Theorem C27_agrees_partial : forall W d legacy fuel s i r,
  dialect legacy d -> good_world d W -> no_unevaluated W \/ no_misjudged W -> plain_dynamics W ->
  jwf (i_val i) = true ->
  evaluate_root W fuel s i = Ok r -> verdict W s (i_val i) (r_valid r).
Proof.
  intros W d legacy fuel s i r Hd Hg Ht Hp Hw E.
  assert (X : exists o, judge W (code_choice W) fuel [] s (i_val i) = Some o /\ r_valid r = o_ok o).
  { destruct Ht as [Ht|Ht].
    - exact (evaluate_root_judge W d legacy false Hd Hg Ht fuel s i r Hw E).
    - exact (evaluate_root_judge W d legacy true Hd Hg Ht fuel s i r Hw E). }
  destruct X as (o & J & V). rewrite (judge_prescribed W Hp) in J. exists fuel, o. auto.
Qed.
Print Assumptions C27_agrees_partial.

(** The verdict is a function of the schema and the value, so the theorem
    pins the result down. *)
Theorem C27_verdict_unique : forall W s x b b', verdict W s x b -> verdict W s x b' -> b = b'.
Proof. exact verdict_unique. Qed.
Print Assumptions C27_verdict_unique.

(** A schema for trees: a node has a name, maybe children which are nodes
    again, maybe a note; nothing else.
    {"allOf": [{"properties": {"name": {"type": "string", "minLength": 2}}, "required": ["name"]}],
     "properties": {"children": {"items": {"$ref": "#"}}},
     "patternProperties": {"note": true}, "unevaluatedProperties": false} *)
Definition tree_schema : list snode :=
  let k := kw_in dialect_2020_12 in
  [ SObj [k "allOf" (KSubs [1]); k "properties" (KSubm [(lit "children", 3)]);
          k "patternProperties" (KSubm [(lit "note", 6)]); k "unevaluatedProperties" (KSub 5)];
    SObj [k "properties" (KSubm [(lit "name", 2)]); k "required" (KJ (JArr [text "name"]))];
    SObj [k "type" (KJ (text "string")); k "minLength" (KJ (int 2))];
    SObj [k "items" (KSub 4)];
    SObj [ref_in dialect_2020_12 "$ref" 0];
    SBool false ].
Definition tree_good : json :=
  obj [("name", text "ab"); ("children", JArr [obj [("name", text "cd"); ("note 1", JNull)]])].
Definition tree_bad : json :=
  obj [("name", text "ab"); ("children", JArr [obj [("name", text "cd"); ("extra", JNull)]])].
Example C27_case :
  (dialect false dialect_2020_12 /\ good_world dialect_2020_12 (small tree_schema)
   /\ no_misjudged (small tree_schema) /\ plain_dynamics (small tree_schema)
   /\ jwf tree_good = true /\ jwf tree_bad = true)
  /\ valid_of (evaluate_root (small tree_schema) 20 0 (root tree_good)) = Some true
  /\ valid_of (evaluate_root (small tree_schema) 20 0 (root tree_bad)) = Some false.
Proof.
  split; [|split; vm_compute; reflexivity]. split; [now left|]. split; [apply good_small; vm_compute; reflexivity|].
  split; [apply no_misjudged_small; vm_compute; reflexivity|]. split; [apply plain_small; vm_compute; reflexivity|].
  split; vm_compute; reflexivity.
Qed.

(** ** What goes wrong outside these conditions. *)

(** {"not": {"properties": {"a": true}, "required": ["b"]}, "unevaluatedProperties": false}
    accepts {"a": null}: the subschema of [not] rejects, so by the
    specification nothing it looked at counts as evaluated. *)
Definition not_schema : list snode :=
  let k := kw_in dialect_2020_12 in
  [ SObj [k "not" (KSub 1); k "unevaluatedProperties" (KSub 3)];
    SObj [k "properties" (KSubm [(lit "a", 2)]); k "required" (KJ (JArr [text "b"]))];
    SBool true; SBool false ].
Theorem C34_refuted : exists l x r,
  good_world dialect_2020_12 (small l) /\ plain_dynamics (small l) /\ jwf x = true /\
  evaluate_root (small l) 9 0 (root x) = Ok r /\ r_valid r = true /\ verdict (small l) 0 x false.
Proof.
  exists not_schema, (obj [("a", JNull)]). eexists.
  split; [apply good_small; vm_compute; reflexivity|]. split; [apply plain_small; vm_compute; reflexivity|].
  split; [vm_compute; reflexivity|]. split; [vm_compute; reflexivity|]. split; [vm_compute; reflexivity|].
  exists 9. eexists. split; vm_compute; reflexivity.
Qed.
Print Assumptions C34_refuted.

(** Under 2019-09, {"items": true, "unevaluatedItems": false} rejects [[1]],
    although every item has been evaluated. *)
Definition bool_items_schema : list snode :=
  let k := kw_in dialect_2019_09 in
  [ SObj [k "items" (KSub 1); k "unevaluatedItems" (KSub 2)]; SBool true; SBool false ].
Theorem C44_refuted : exists l x r,
  good_world dialect_2019_09 (small l) /\ plain_dynamics (small l) /\ jwf x = true /\
  evaluate_root (small l) 9 0 (root x) = Ok r /\ r_valid r = false /\ verdict (small l) 0 x true.
Proof.
  exists bool_items_schema, (JArr [int 1]). eexists.
  split; [apply good_small; vm_compute; reflexivity|]. split; [apply plain_small; vm_compute; reflexivity|].
  split; [vm_compute; reflexivity|]. split; [vm_compute; reflexivity|]. split; [vm_compute; reflexivity|].
  exists 9. eexists. split; vm_compute; reflexivity.
Qed.
Print Assumptions C44_refuted.

(** The empty array form: of {"items": [], "additionalItems": false} and [1] the
    standard says that the schema rejects (no item is covered by "items"); the
    code accepts, for with no schema to apply "items" leaves no annotation and
    "additionalItems" then takes itself to be without an "items" beside it.
    (vocabulary/legacy.py:74-86, 94-95.) *)
Definition empty_items_schema : list snode :=
  let k := kw_in dialect_2019_09 in
  [ SObj [k "items" (KSubs []); k "additionalItems" (KSub 1)]; SBool false ].
Theorem C44_empty_refuted : exists l x r,
  plain_dynamics (small l) /\ jwf x = true /\
  evaluate_root (small l) 9 0 (root x) = Ok r /\ r_valid r = true /\ verdict (small l) 0 x false.
Proof.
  exists empty_items_schema, (JArr [int 1]). eexists.
  split; [apply plain_small; vm_compute; reflexivity|].
  split; [vm_compute; reflexivity|]. split; [vm_compute; reflexivity|]. split; [vm_compute; reflexivity|].
  exists 9. eexists. split; vm_compute; reflexivity.
Qed.
Print Assumptions C44_empty_refuted.

(** A metaschema made of three vocabulary metaschemas that refer to each other
    by {"$dynamicRef": "#meta"}, like the one of 2020-12: 0 is the whole
    metaschema, 1 the core vocabulary ($defs), 2 the applicator vocabulary
    (properties), 3 the validation vocabulary (type). *)
Definition meta_schemas : list snode :=
  let k := kw_in dialect_2020_12 in
  let meta := k "$dynamicAnchor" (KJ (text "meta")) in
  [ SObj [meta; k "allOf" (KSubs [4; 5; 6])];
    SObj [meta; k "properties" (KSubm [(lit "$defs", 7)])];
    SObj [meta; k "properties" (KSubm [(lit "properties", 9)])];
    SObj [meta; k "properties" (KSubm [(lit "type", 11)])];
    SObj [ref_in dialect_2020_12 "$ref" 1]; SObj [ref_in dialect_2020_12 "$ref" 2]; SObj [ref_in dialect_2020_12 "$ref" 3];
    SObj [k "additionalProperties" (KSub 8)]; SObj [dynref "meta" 1];
    SObj [k "additionalProperties" (KSub 10)]; SObj [dynref "meta" 2];
    SObj [k "type" (KJ (text "string"))] ].
Definition meta_world : world :=
  with_bases (small meta_schemas)
    (fun s => Some (lit (match s with 0 | 4 | 5 | 6 => "schema" | 1 | 7 | 8 => "core" | 2 | 9 | 10 => "applicator" | _ => "validation" end)))
    (fun b f => if str_eqb f (lit "meta") then
       if str_eqb b (lit "schema") then Some 0 else if str_eqb b (lit "core") then Some 1
       else if str_eqb b (lit "applicator") then Some 2 else if str_eqb b (lit "validation") then Some 3 else None
     else None).

(** The metaschema finds the fault in {"properties": {"b": {"type": 42}}}, but
    not when that schema sits under $defs: the walk towards the root counts a
    resource only the first time it is met, i.e. at its innermost place, so
    after schema, core, schema, applicator the outermost resource is taken to
    be core, and the schema with the fault is checked against the core
    vocabulary alone. *)
Definition faulty : json := obj [("properties", obj [("b", obj [("type", int 42)])])].
Theorem C42_refuted : exists W s x r,
  good_world dialect_2020_12 W /\ no_unevaluated W /\ no_misjudged W /\ jwf x = true /\
  evaluate_root W 30 s (root x) = Ok r /\ r_valid r = true /\ verdict W s x false.
Proof.
  exists meta_world, 0, (obj [("$defs", obj [("a", faulty)])]). eexists.
  split; [apply (good_small dialect_2020_12 meta_schemas); vm_compute; reflexivity|].
  split; [apply (no_unevaluated_small meta_schemas); vm_compute; reflexivity|].
  split; [apply (no_misjudged_small meta_schemas); vm_compute; reflexivity|].
  split; [vm_compute; reflexivity|]. split; [vm_compute; reflexivity|]. split; [vm_compute; reflexivity|].
  exists 30. eexists. split; vm_compute; reflexivity.
Qed.
Print Assumptions C42_refuted.
Example C42_refuted_contrast : valid_of (evaluate_root meta_world 30 0 (root faulty)) = Some false.
Proof. vm_compute. reflexivity. Qed.

(** The same world refutes C27 as stated. *)
Theorem C27_refuted : exists W s x r,
  good_world dialect_2020_12 W /\ no_unevaluated W /\ no_misjudged W /\ jwf x = true /\
  evaluate_root W 30 s (root x) = Ok r /\ ~ verdict W s x (r_valid r).
Proof.
  destruct C42_refuted as (W & s & x & r & A & B & C & D & E & V & F). exists W, s, x, r.
  split; [exact A|]. split; [exact B|]. split; [exact C|]. split; [exact D|]. split; [exact E|]. rewrite V. intro V'. discriminate (verdict_unique _ _ _ _ _ V' F).
Qed.
Print Assumptions C27_refuted.
