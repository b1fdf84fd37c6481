(** C78: the annotations that depend on the siblings of a keyword, and that of
    contains. C86: the errors of the unevaluated keywords. *)
From Coq Require Import String List.
From Verif Require Import SchemaNotes SchemaCases PropsErrors PropsAnnot.
Import ListNotations.
Open Scope string_scope.
Open Scope list_scope.
Open Scope nat_scope.

(** additionalProperties lists the members that neither properties nor
    patternProperties concern; items and additionalItems tell whether there
    are items after those of prefixItems, or of an array of items; contains
    lists the positions of the items that its subschema accepts. *)
Theorem C78_exact : forall W legacy d fuel s kws i r key k c, dialect legacy d -> good_world d W -> jwf (i_val i) = true ->
  w_schema W s = SObj kws -> evaluate_root W (S fuel) s i = Ok r ->
  In (key, k) kws -> cget (key, i_path i) (r_children r) = Some c ->
  jots W (fun t y b => exists o, code_judge W (code_choice W) fuel [s] t y = Some o /\ o_ok o = b) kws k (i_val i) (r_valid c) (r_annot c).
Proof.
  intros W legacy d fuel s kws i r key k c Hd Hg Hw Hs E HIn G.
  exact (evaluate_jotted W d legacy fuel s i [] (new_root s i) [] r kws Hd Hg (root_pre W s i Hw) E Hs key k c HIn G).
Qed.
Print Assumptions C78_exact.

(** The same for the schemas that are applied within an evaluation. *)
Theorem C78_exact_within : forall W legacy d fuel s kws i anc n scope n' key k c, dialect legacy d -> good_world d W -> pre W s i anc n scope ->
  w_schema W s = SObj kws -> evaluate W (S fuel) s i anc n = Ok n' ->
  In (key, k) kws -> cget (key, i_path i) (r_children n') = Some c ->
  jots W (fun t y b => exists o, code_judge W (code_choice W) fuel (s :: scope) t y = Some o /\ o_ok o = b) kws k (i_val i) (r_valid c) (r_annot c).
Proof.
  intros W legacy d fuel s kws i anc n scope n' key k c Hd Hg P Hs E HIn G.
  exact (evaluate_jotted W d legacy fuel s i anc n scope n' kws Hd Hg P E Hs key k c HIn G).
Qed.
Print Assumptions C78_exact_within.

(** In terms of what the specification says about the subschemas. *)
Theorem C78_exact_prescribed : forall W legacy d fuel s kws i r key k c, dialect legacy d -> good_world d W -> jwf (i_val i) = true ->
  no_unevaluated W \/ no_misjudged W -> plain_dynamics W ->
  w_schema W s = SObj kws -> evaluate_root W fuel s i = Ok r ->
  In (key, k) kws -> cget (key, i_path i) (r_children r) = Some c ->
  jots W (accepts W [s]) kws k (i_val i) (r_valid c) (r_annot c).
Proof.
  intros W legacy d fuel s kws i r key k c Hd Hg Hw Hm Hp Hs E HIn G. destruct fuel as [|fuel]; [discriminate|].
  generalize (C78_exact W legacy d fuel s kws i r key k c Hd Hg Hw Hs E HIn G).
  assert (A : forall t y b, (exists o, code_judge W (code_choice W) fuel [s] t y = Some o /\ o_ok o = b) -> accepts W [s] t y b).
  { intros t y b (o & J & O).
    assert (X : exists o', judge W (code_choice W) fuel [s] t y = Some o' /\ o_ok o' = o_ok o).
    { destruct Hm as [Hm|Hm].
      - destruct (strict_judge W d legacy false Hd Hg Hm (code_choice W) fuel [s] t y o J) as (o' & J' & M & _). eauto.
      - destruct (strict_judge W d legacy true Hd Hg Hm (code_choice W) fuel [s] t y o J) as (o' & J' & M & _). eauto. }
    destruct X as (o' & J' & O'). exists fuel, o'. rewrite <- (judge_prescribed W Hp). split; [exact J'|congruence]. }
  unfold jots. destruct (kw_class k) as [cl|u]; [|auto]. destruct cl; auto; destruct (kw_json k); auto.
  intros (bs & F & Q). exists bs. split; [|exact Q]. revert F. apply Forall2_weaken. intros y b. apply A.
Qed.
Print Assumptions C78_exact_prescribed.

(** The unevaluated keywords: what no other accepting keyword has evaluated. *)
Theorem C78_unevaluated : forall W legacy d fuel s kws i r key k c, dialect legacy d -> good_world d W -> jwf (i_val i) = true ->
  w_schema W s = SObj kws -> evaluate_root W (S fuel) s i = Ok r ->
  In (key, k) kws -> late k <> None -> cget (key, i_path i) (r_children r) = Some c -> r_valid c = true ->
  exists os, all_some (map (code_keyword W (code_choice W) (code_judge W (code_choice W) fuel) [s] kws (i_val i)) (others kws (i_val i))) = Some os /\
    remarks os k (i_val i) (r_annot c).
Proof.
  intros W legacy d fuel s kws i r key k c Hd Hg Hw Hs E HIn La G V.
  refine (evaluate_remarked W d legacy fuel s i [] (new_root s i) [] r kws Hd Hg (root_pre W s i Hw) eq_refl E Hs key k c HIn La G V _).
  destruct (C78_root W legacy d (S fuel) s kws i r key c Hd Hg Hs E G) as (k' & HIn' & _ & N).
  replace k with k'; [exact (N V)|]. apply (dget_kws d kws (Hg _ _ Hs)) in HIn, HIn'. congruence.
Qed.
Print Assumptions C78_unevaluated.

(** The same within an evaluation, for a node that is valid so far. *)
Theorem C78_unevaluated_within : forall W legacy d fuel s kws i anc n scope n' key k c, dialect legacy d -> good_world d W -> pre W s i anc n scope ->
  r_valid n = true -> w_schema W s = SObj kws -> (forall key, cget (key, i_path i) (r_children n) = None) -> evaluate W (S fuel) s i anc n = Ok n' ->
  In (key, k) kws -> late k <> None -> cget (key, i_path i) (r_children n') = Some c -> r_valid c = true ->
  exists os, all_some (map (code_keyword W (code_choice W) (code_judge W (code_choice W) fuel) (s :: scope) kws (i_val i)) (others kws (i_val i))) = Some os /\
    remarks os k (i_val i) (r_annot c).
Proof.
  intros W legacy d fuel s kws i anc n scope n' key k c Hd Hg P V0 Hs New E HIn La G V.
  refine (evaluate_remarked W d legacy fuel s i anc n scope n' kws Hd Hg P V0 E Hs key k c HIn La G V _).
  destruct (C78_annotations W legacy d (S fuel) s kws i anc n n' key c Hd Hg Hs New E G) as (k' & HIn' & _ & N).
  replace k with k'; [exact (N V)|]. apply (dget_kws d kws (Hg _ _ Hs)) in HIn, HIn'. congruence.
Qed.
Print Assumptions C78_unevaluated_within.

(** {"properties": {"a": true}, "patternProperties": {"b": true},
     "additionalProperties": {"prefixItems": [true, true], "items": true,
                              "contains": {"type": "null"}, "minContains": 0}} *)
Definition k20 := kw_in dialect_2020_12.
Definition noted : list snode := [
  SObj [k20 "properties" (KSubm [(lit "a", 1)]); k20 "patternProperties" (KSubm [(lit "b", 1)]); k20 "additionalProperties" (KSub 2)];
  SBool true;
  SObj [k20 "prefixItems" (KSubs [1; 1]); k20 "items" (KSub 1); k20 "contains" (KSub 3); k20 "minContains" (KJ (int 0))];
  SObj [k20 "type" (KJ (text "null"))] ].
Definition case78x : json := obj [("d", JArr [int 1; JNull; int 2; JNull]); ("a", int 2); ("bc", int 3); ("c", JArr [int 1; int 2])].
Definition found78 (r : rnode) (path : list pystr) (key : string) := collect_annotations (Some path) (Some (lit key)) r.
Example C78_exact_case : good_world dialect_2020_12 (small noted) /\ jwf case78x = true /\
  match evaluate_root (small noted) 9 0 (root case78x) with
  | Ok r => found78 r [] "additionalProperties" = [JArr [text "d"; text "c"]]
      /\ found78 r [lit "d"] "items" = [JBool true] /\ found78 r [lit "c"] "items" = []
      /\ found78 r [lit "d"] "contains" = [JArr [int 1; int 3]] /\ found78 r [lit "c"] "contains" = [JArr []]
  | _ => False
  end.
Proof. split; [apply good_small; vm_compute; reflexivity|]. split; [vm_compute; reflexivity|]. vm_compute. auto. Qed.

(** {"items": [true, true], "additionalItems": {"type": "integer"}} of 2019-09. *)
Definition noted19 : list snode := [
  SObj [kw_in dialect_2019_09 "items" (KSubs [1; 1]); kw_in dialect_2019_09 "additionalItems" (KSub 2)]; SBool true;
  SObj [kw_in dialect_2019_09 "type" (KJ (text "integer"))] ].
Example C78_exact_2019_case : good_world dialect_2019_09 (small noted19) /\
  map (fun l => match evaluate_root (small noted19) 9 0 (root (JArr l)) with
                | Ok r => map (fun kc => (fst (fst kc), r_valid (snd kc), r_annot (snd kc))) (r_children r)
                | _ => [] end) [[int 1; int 2; int 3]; [int 1; int 2]; [text "x"; text "y"; text "z"]; []] =
  [ [(lit "items", true, int 1); (lit "additionalItems", true, JBool true)];
    [(lit "items", true, int 1); (lit "additionalItems", true, JNull)];
    [(lit "items", true, int 1); (lit "additionalItems", false, JNull)];
    [(lit "items", true, JNull)] ].
Proof. split; [apply good_small; vm_compute; reflexivity|]. vm_compute. reflexivity. Qed.

(** {"properties": {"a": true}, "anyOf": [{"patternProperties": {"b": true}},
     {"properties": {"c": false}}], "unevaluatedProperties": true}: the second
    subschema of anyOf rejects the member, so that its name is left over. *)
Definition noted_left : list snode := [
  SObj [k20 "properties" (KSubm [(lit "a", 1)]); k20 "anyOf" (KSubs [2; 3]); k20 "unevaluatedProperties" (KSub 1)];
  SBool true; SObj [k20 "patternProperties" (KSubm [(lit "b", 1)])]; SObj [k20 "properties" (KSubm [(lit "c", 4)])]; SBool false ].
Definition case78u : json := obj [("d", int 0); ("a", int 2); ("bc", int 3); ("c", int 1)].
(** {"prefixItems": [true], "contains": {"type": "null"}, "unevaluatedItems": true}. *)
Definition noted_items : list snode := [
  SObj [k20 "prefixItems" (KSubs [1]); k20 "contains" (KSub 2); k20 "unevaluatedItems" (KSub 1)]; SBool true; SObj [k20 "type" (KJ (text "null"))] ].
Definition note_of (l : list snode) (x : json) (key : string) : option (bool * json) :=
  match evaluate_root (small l) 9 0 (root x) with
  | Ok r => option_map (fun c => (r_valid c, r_annot c)) (cget (lit key, []) (r_children r))
  | _ => None
  end.
Example C78_unevaluated_case : good_world dialect_2020_12 (small noted_left) /\ good_world dialect_2020_12 (small noted_items) /\
  jwf case78u = true /\
  note_of noted_left case78u "unevaluatedProperties" = Some (true, JArr [text "d"; text "c"]) /\
  note_of noted_items (JArr [int 1; JNull; int 2]) "unevaluatedItems" = Some (true, JBool true) /\
  note_of noted_items (JArr [int 1; JNull]) "unevaluatedItems" = Some (true, JNull).
Proof.
  split; [apply good_small; vm_compute; reflexivity|]. split; [apply good_small; vm_compute; reflexivity|].
  split; [vm_compute; reflexivity|]. split; [vm_compute; reflexivity|]. split; vm_compute; reflexivity.
Qed.

(** The errors of the unevaluated keywords: those of the members and items that
    no other accepting keyword has evaluated which the subschema rejects. *)
Theorem C86_unevaluated : forall W legacy d fuel s kws i r key k c, dialect legacy d -> good_world d W -> jwf (i_val i) = true ->
  w_schema W s = SObj kws -> evaluate_root W (S fuel) s i = Ok r ->
  In (key, k) kws -> late k <> None -> cget (key, i_path i) (r_children r) = Some c -> r_valid c = false ->
  exists os, all_some (map (code_keyword W (code_choice W) (code_judge W (code_choice W) fuel) [s] kws (i_val i)) (others kws (i_val i))) = Some os /\
    grumbles (fun t y b => exists o, code_judge W (code_choice W) fuel [s] t y = Some o /\ o_ok o = b) os k (i_val i) (r_error c).
Proof.
  intros W legacy d fuel s kws i r key k c Hd Hg Hw Hs E HIn La G V.
  exact (evaluate_grumbled W d legacy fuel s i [] (new_root s i) [] r kws Hd Hg (root_pre W s i Hw) eq_refl E Hs key k c HIn La G V).
Qed.
Print Assumptions C86_unevaluated.

(** The same within an evaluation, for a node that is valid so far. *)
Theorem C86_unevaluated_within : forall W legacy d fuel s kws i anc n scope n' key k c, dialect legacy d -> good_world d W -> pre W s i anc n scope ->
  r_valid n = true -> w_schema W s = SObj kws -> evaluate W (S fuel) s i anc n = Ok n' ->
  In (key, k) kws -> late k <> None -> cget (key, i_path i) (r_children n') = Some c -> r_valid c = false ->
  exists os, all_some (map (code_keyword W (code_choice W) (code_judge W (code_choice W) fuel) (s :: scope) kws (i_val i)) (others kws (i_val i))) = Some os /\
    grumbles (fun t y b => exists o, code_judge W (code_choice W) fuel (s :: scope) t y = Some o /\ o_ok o = b) os k (i_val i) (r_error c).
Proof.
  intros W legacy d fuel s kws i anc n scope n' key k c Hd Hg P V0 Hs E HIn La G V.
  exact (evaluate_grumbled W d legacy fuel s i anc n scope n' kws Hd Hg P V0 E Hs key k c HIn La G V).
Qed.
Print Assumptions C86_unevaluated_within.

(** The schemas of above with a subschema that rejects some of what is left. *)
Definition grumble_left : list snode := [
  SObj [k20 "properties" (KSubm [(lit "a", 1)]); k20 "anyOf" (KSubs [2; 3]); k20 "unevaluatedProperties" (KSub 5)];
  SBool true; SObj [k20 "patternProperties" (KSubm [(lit "b", 1)])]; SObj [k20 "properties" (KSubm [(lit "c", 4)])]; SBool false;
  SObj [k20 "type" (KJ (text "string"))] ].
Definition case86u : json := obj [("d", int 0); ("a", int 2); ("bc", int 3); ("e", text "x"); ("c", int 1)].
Definition grumble_items : list snode := [
  SObj [k20 "prefixItems" (KSubs [1]); k20 "contains" (KSub 2); k20 "unevaluatedItems" (KSub 3)]; SBool true; SObj [k20 "type" (KJ (text "null"))];
  SObj [k20 "type" (KJ (text "string"))] ].
Definition grumble_of (l : list snode) (x : json) (key : string) : option (bool * json) :=
  match evaluate_root (small l) 9 0 (root x) with
  | Ok r => option_map (fun c => (r_valid c, r_error c)) (cget (lit key, []) (r_children r))
  | _ => None
  end.
Example C86_unevaluated_case : good_world dialect_2020_12 (small grumble_left) /\ good_world dialect_2020_12 (small grumble_items) /\
  jwf case86u = true /\
  grumble_of grumble_left case86u "unevaluatedProperties" = Some (false, JArr [text "d"; text "c"]) /\
  grumble_of grumble_items (JArr [int 1; JNull; int 2; text "x"; JBool true]) "unevaluatedItems" = Some (false, JArr [int 2; int 4]).
Proof.
  split; [apply good_small; vm_compute; reflexivity|]. split; [apply good_small; vm_compute; reflexivity|].
  split; [vm_compute; reflexivity|]. split; vm_compute; reflexivity.
Qed.
