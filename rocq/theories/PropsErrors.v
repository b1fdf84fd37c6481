(** C86: the error of each keyword. *)
From Coq Require Import String List.
From Verif Require Import SchemaErrors SchemaCases.
Import ListNotations.
Open Scope string_scope.
Open Scope list_scope.
Open Scope nat_scope.

Lemma root_pre W s i : jwf (i_val i) = true -> pre W s i [] (new_root s i) [].
Proof.
  intro Hw. split; [exact Hw|]. split; [constructor|]. split; [apply st_dup, st_cons, st_nil|]. split; [|now split].
  intros _ sn. cbn. intros [= <-]. now left.
Qed.

(** The keywords of the schema that an instance is evaluated by. *)
Theorem C86_errors : forall W legacy d fuel s kws i r key k c, dialect legacy d -> good_world d W -> jwf (i_val i) = true ->
  w_schema W s = SObj kws -> evaluate_root W (S fuel) s i = Ok r ->
  In (key, k) kws -> cget (key, i_path i) (r_children r) = Some c -> r_valid c = false ->
  complaint W (fun t y b => exists o, code_judge W (code_choice W) fuel [s] t y = Some o /\ o_ok o = b) kws k (i_val i) (r_error c).
Proof.
  intros W legacy d fuel s kws i r key k c Hd Hg Hw Hs E HIn G V.
  exact (evaluate_explained W d legacy fuel s i [] (new_root s i) [] r kws Hd Hg (root_pre W s i Hw) E Hs key k c HIn G V).
Qed.
Print Assumptions C86_errors.

(** The same for the schemas that are applied within an evaluation: [anc] are
    the schemas on the way, [n] the node that the evaluation is to fill in. *)
Theorem C86_within : forall W legacy d fuel s kws i anc n scope n' key k c, dialect legacy d -> good_world d W -> pre W s i anc n scope ->
  w_schema W s = SObj kws -> evaluate W (S fuel) s i anc n = Ok n' ->
  In (key, k) kws -> cget (key, i_path i) (r_children n') = Some c -> r_valid c = false ->
  complaint W (fun t y b => exists o, code_judge W (code_choice W) fuel (s :: scope) t y = Some o /\ o_ok o = b) kws k (i_val i) (r_error c).
Proof.
  intros W legacy d fuel s kws i anc n scope n' key k c Hd Hg P Hs E HIn G V.
  exact (evaluate_explained W d legacy fuel s i anc n scope n' kws Hd Hg P E Hs key k c HIn G V).
Qed.
Print Assumptions C86_within.

Lemma complaint_weaken W (says says' : sid -> json -> bool -> Prop) kws k x e :
  (forall t y b, says t y b -> says' t y b) -> complaint W says kws k x e -> complaint W says' kws k x e.
Proof.
  intro H. assert (F : forall A (f : A -> sid) (g : A -> json) l bs, Forall2 (fun a b => says (f a) (g a) b) l bs -> Forall2 (fun a b => says' (f a) (g a) b) l bs).
  { intros A f g l bs. apply Forall2_weaken. intros a b. apply H. }
  assert (R : forall st t y e', items_refused says st t y e' -> items_refused says' st t y e').
  { intros st t y e' (bs & S & Q). exists bs. split; [exact (F _ (fun _ => t) (fun z => z) _ _ S)|exact Q]. }
  assert (P : forall ts y e', pairs_refused says ts y e' -> pairs_refused says' ts y e').
  { intros ts y e' (bs & S & Q). exists bs. split; [exact (F _ fst snd _ _ S)|exact Q]. }
  assert (M : forall t l e', members_refused says t l e' -> members_refused says' t l e').
  { intros t l e' (bs & S & Q). exists bs. split; [exact (F _ (fun _ => t) snd _ _ S)|exact Q]. }
  unfold complaint. destruct (kw_class k) as [c|u]; [|auto]. destruct c; auto; destruct (kw_json k) as [v|t|ts|m]; auto;
    try (intros (t0 & A & B & Q); exists t0; auto; fail); try (intros (t0 & A & Q); exists t0; auto; fail); try (intros [A Q]; auto; fail).
  - intros [S Q]. split; [|exact Q]. revert S. apply Forall_impl. auto.
  - intros (l & bs & A & B & S & Q). exists l, bs. split; [exact A|]. split; [exact B|]. split; [exact (F _ (fun _ => t) (fun n => nth n (items x) JNull) _ _ S)|exact Q].
  - intros [S Q]. split; [|exact Q]. revert S. apply Forall_impl. auto.
  - intros (bs & S & Q). exists bs. split; [|exact Q]. revert S. apply Forall2_weaken. intros a b (t & A & B). eauto.
  - intros (keep & S). exists keep. auto.
  - intros (l & bs & A & B & S & Q). exists l, bs. split; [exact A|]. split; [exact B|]. split; [exact (F _ (fun _ => t) (fun n => nth n (items x) JNull) _ _ S)|exact Q].
  - intros (keep & S). exists keep. auto.
Qed.

(** In terms of what the specification says about the subschemas, under the
    conditions of C74_prescribed. *)
Theorem C86_prescribed : forall W legacy d fuel s kws i r key k c, dialect legacy d -> good_world d W -> jwf (i_val i) = true ->
  no_unevaluated W \/ no_misjudged W -> plain_dynamics W ->
  w_schema W s = SObj kws -> evaluate_root W fuel s i = Ok r ->
  In (key, k) kws -> cget (key, i_path i) (r_children r) = Some c -> r_valid c = false ->
  complaint W (accepts W [s]) kws k (i_val i) (r_error c).
Proof.
  intros W legacy d fuel s kws i r key k c Hd Hg Hw Hm Hp Hs E HIn G V. destruct fuel as [|fuel]; [discriminate|].
  generalize (C86_errors W legacy d fuel s kws i r key k c Hd Hg Hw Hs E HIn G V). apply complaint_weaken. intros t y b (o & J & O).
  assert (X : exists o', judge W (code_choice W) fuel [s] t y = Some o' /\ o_ok o' = o_ok o).
  { destruct Hm as [Hm|Hm].
    - destruct (strict_judge W d legacy false Hd Hg Hm (code_choice W) fuel [s] t y o J) as (o' & J' & M & _). eauto.
    - destruct (strict_judge W d legacy true Hd Hg Hm (code_choice W) fuel [s] t y o J) as (o' & J' & M & _). eauto. }
  destruct X as (o' & J' & O'). exists fuel, o'. rewrite <- (judge_prescribed W Hp). split; [exact J'|congruence].
Qed.
Print Assumptions C86_prescribed.

(** A schema itself: the words of a false schema, none for an object. *)
Theorem C86_schema : forall W fuel s i r, evaluate_root W fuel s i = Ok r -> r_valid r = false -> r_error r = own_error W s.
Proof. intros W fuel s i r E V. destruct (evaluate_blames W fuel _ _ _ _ _ E) as [[B _]|[_ B]]; [rewrite B in V; discriminate V|exact B]. Qed.
Print Assumptions C86_schema.

(** {"allOf": [true, {"type": "null"}, {"minProperties": 9}],
     "oneOf": [true, false, true],
     "properties": {"a": false, "b": {"prefixItems": [true, false, {"const": 1}]}},
     "patternProperties": {"a": {"type": "null"}, "b": true, "aa": false},
     "additionalProperties": {"maximum": 3},
     "propertyNames": {"maxLength": 2},
     "required": ["a", "it's", "z"], "dependentRequired": {"a": ["b", "y"], "n": ["m"], "b": ["a"]},
     "dependentSchemas": {"b": false, "a": true},
     "minProperties": 20} *)
Definition k20 := kw_in dialect_2020_12.
Definition wrong : list snode := [
  SObj [k20 "allOf" (KSubs [1; 3; 4]); k20 "oneOf" (KSubs [1; 2; 1]);
        k20 "properties" (KSubm [(lit "a", 2); (lit "b", 5)]);
        k20 "patternProperties" (KSubm [(lit "a", 3); (lit "b", 1); (lit "aa", 2)]);
        k20 "additionalProperties" (KSub 7); k20 "propertyNames" (KSub 8);
        k20 "required" (KJ (JArr [text "a"; text "it's"; text "z"]));
        k20 "dependentRequired" (KJ (obj [("a", JArr [text "b"; text "y"]); ("n", JArr [text "m"]); ("b", JArr [text "a"])]));
        k20 "dependentSchemas" (KSubm [(lit "b", 2); (lit "a", 1)]);
        k20 "minProperties" (KJ (int 20))];
  SBool true; SBool false; SObj [k20 "type" (KJ (text "null"))]; SObj [k20 "minProperties" (KJ (int 9))];
  SObj [k20 "prefixItems" (KSubs [1; 2; 6])]; SObj [k20 "const" (KJ (int 1))]; SObj [k20 "maximum" (KJ (int 3))]; SObj [k20 "maxLength" (KJ (int 2))] ].
Definition case86 : json := obj [("ddd", int 4); ("aa", int 1); ("a", JNull); ("e", int 3); ("b", JArr [int 0; int 0; int 0]); ("d", int 5)].
Example C86_case : good_world dialect_2020_12 (small wrong) /\ jwf case86 = true /\
  match evaluate_root (small wrong) 9 0 (root case86) with
  | Ok r => map (fun kc => (fst (fst kc), r_valid (snd kc), r_error (snd kc))) (r_children r) =
      [(lit "allOf", false, text "The instance is invalid against subschemas [1, 2]");
       (lit "oneOf", false, text "The instance must be valid against exactly one subschema; it is valid against [0, 2] and invalid against [1]");
       (lit "properties", false, text "Properties ['a', 'b'] are invalid");
       (lit "patternProperties", false, text "Properties ['aa', 'aa'] are invalid");
       (lit "additionalProperties", false, JArr [text "ddd"; text "d"]);
       (lit "propertyNames", false, JArr [text "ddd"]);
       (lit "required", false, text "The object is missing required properties [""it's"", 'z']");
       (lit "dependentRequired", false, text "The object is missing dependent properties {'a': [JSON('y')]}");
       (lit "dependentSchemas", false, text "Properties ['b'] are invalid against the corresponding ""dependentSchemas"" subschemas");
       (lit "minProperties", false, text "The object has too few properties (minimum 20)")]
  | _ => False
  end.
Proof. split; [apply good_small; vm_compute; reflexivity|]. split; [vm_compute; reflexivity|]. vm_compute. reflexivity. Qed.
