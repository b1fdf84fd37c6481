(** C74: what evaluation computes, for every schema. *)
From Coq Require Import String List.
From Verif Require Import SchemaStrict SchemaCode SchemaMain SchemaCases PropsSchema.
Import ListNotations.
Open Scope string_scope.
Open Scope list_scope.
Open Scope nat_scope.

(** Whatever the keywords, a result that evaluation returns is the one that
    SpecCode.v computes. *)
Theorem C74_computes : forall W d legacy fuel s i r,
  dialect legacy d -> good_world d W -> jwf (i_val i) = true ->
  evaluate_root W fuel s i = Ok r ->
  exists o, code_judge W (code_choice W) fuel [] s (i_val i) = Some o /\ r_valid r = o_ok o.
Proof. intros W d legacy fuel s i r Hd Hg Hw E. exact (evaluate_root_code W d legacy Hd Hg fuel s i r Hw E). Qed.
Print Assumptions C74_computes.

(** There is one such outcome, however deep one looks. *)
Theorem C74_unique : forall W choose n m scope s x o o',
  code_judge W choose n scope s x = Some o -> code_judge W choose m scope s x = Some o' -> o = o'.
Proof. exact code_unique. Qed.
Print Assumptions C74_unique.

(** So the verdict depends on the schema and on the value of the instance
    alone: not on where the instance stands, nor on the fuel of the model. *)
Theorem C74_determined : forall W d legacy fuel fuel' s i i' r r',
  dialect legacy d -> good_world d W -> jwf (i_val i) = true -> i_val i = i_val i' ->
  evaluate_root W fuel s i = Ok r -> evaluate_root W fuel' s i' = Ok r' -> r_valid r = r_valid r'.
Proof.
  intros W d legacy fuel fuel' s i i' r r' Hd Hg Hw V E E'.
  destruct (C74_computes W d legacy fuel s i r Hd Hg Hw E) as (o & J & ->). rewrite V in Hw, J.
  destruct (C74_computes W d legacy fuel' s i' r' Hd Hg Hw E') as (o' & J' & ->).
  now rewrite (C74_unique _ _ _ _ _ _ _ _ _ J J').
Qed.
Print Assumptions C74_determined.

(** It is the prescribed verdict, unless an unevaluated keyword is used
    together with [not] or with a boolean [items] of 2019-09. *)
Theorem C74_prescribed : forall W d legacy choose n scope s x o,
  dialect legacy d -> good_world d W -> no_unevaluated W \/ no_misjudged W ->
  code_judge W choose n scope s x = Some o ->
  exists o', judge W choose n scope s x = Some o' /\ o_ok o' = o_ok o.
Proof.
  intros W d legacy choose n scope s x o Hd Hg [H|H] J.
  - destruct (strict_judge W d legacy false Hd Hg H choose n scope s x o J) as (o' & J' & M & _). eauto.
  - destruct (strict_judge W d legacy true Hd Hg H choose n scope s x o J) as (o' & J' & M & _). eauto.
Qed.
Print Assumptions C74_prescribed.

(** The two schemas of PropsSchema.v that are misjudged, and one that is not:
    {"contains": {"type": "integer"}, "minContains": 0, "prefixItems": [true], "unevaluatedItems": false}. *)
Definition mixed_schema : list snode :=
  let k := kw_in dialect_2020_12 in
  [ SObj [k "contains" (KSub 1); k "minContains" (KJ (int 0)); k "prefixItems" (KSubs [2]); k "unevaluatedItems" (KSub 3)];
    SObj [k "type" (KJ (text "integer"))]; SBool true; SBool false ].
Definition both (l : list snode) (x : json) : option (bool * bool) :=
  let W := small l in
  match code_judge W (code_choice W) 9 [] 0 x, judge W (code_choice W) 9 [] 0 x with
  | Some o, Some o' => Some (o_ok o, o_ok o')
  | _, _ => None
  end.
Example C74_case :
  good_world dialect_2020_12 (small not_schema) /\ good_world dialect_2019_09 (small bool_items_schema) /\
  good_world dialect_2020_12 (small mixed_schema) /\ no_misjudged (small mixed_schema) /\
  both not_schema (obj [("a", JNull)]) = Some (true, false) /\
  both bool_items_schema (JArr [int 1]) = Some (false, true) /\
  both mixed_schema (JArr [text "a"; int 1]) = Some (true, true) /\
  both mixed_schema (JArr [text "a"]) = Some (true, true) /\
  both mixed_schema (JArr [text "a"; text "b"]) = Some (false, false) /\
  valid_of (evaluate_root (small not_schema) 9 0 (root (obj [("a", JNull)]))) = Some true /\
  valid_of (evaluate_root (small bool_items_schema) 9 0 (root (JArr [int 1]))) = Some false /\
  valid_of (evaluate_root (small mixed_schema) 9 0 (root (JArr [text "a"; text "b"]))) = Some false.
Proof.
  split; [apply good_small; vm_compute; reflexivity|]. split; [apply good_small; vm_compute; reflexivity|].
  split; [apply good_small; vm_compute; reflexivity|]. split; [apply no_misjudged_small; vm_compute; reflexivity|].
  repeat (split; [vm_compute; reflexivity|]). vm_compute. reflexivity.
Qed.
