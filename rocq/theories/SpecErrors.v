(** The error that a keyword leaves in the node of its result when it is
    invalid: which subschemas, items or members are named, and the words around
    them, read off vocabulary/*.py.  [says t y b] tells whether subschema [t]
    accepts the value [y]. *)
From Coq Require Import Sorting.Sorted.
From Verif Require Export SpecSchema SpecAnnot.
From Verif Require Text Repr.
Open Scope nat_scope.

(** The numbers of the entries of [l] that are [b], counted from [k]. *)
Definition numbered (b : bool) (k : nat) (l : list bool) : list nat :=
  map (fun j => k + j) (filter (fun j => Bool.eqb (nth j l (negb b)) b) (seq 0 (length l))).
(** Those of [l] that were rejected. *)
Definition refused {A} (l : list A) (bs : list bool) : list A :=
  map fst (filter (fun ab => negb (snd ab)) (combine l bs)).

(** How Python writes them: [0, 2] and ['a', 'b']. *)
Definition in_brackets (l : list pystr) : pystr := Repr.repr_list l.
Definition list_of_numbers (l : list nat) : pystr := in_brackets (map (fun n => str_of_Z (Z.of_nat n)) l).
Definition list_of_names (l : list pystr) : pystr := in_brackets (map Repr.repr_str l).
(** str() of a JSON value: its JSON text. *)
Definition text_of_json (W : world) (v : json) (t : pystr) : Prop := Text.json_dumps (writer W) v = Ok t.

(** A subschema evaluated in place: the error of a false schema, and none for
    an object, whose keywords have their own. *)
Definition own_error (W : world) (t : sid) : json :=
  match w_schema W t with
  | SBool _ => JStr (lit "The instance is disallowed by a boolean false schema")
  | SObj _ => JNull
  end.

(** A text around the value of the keyword. *)
Definition around (W : world) (before : string) (v : kjson) (after : string) (e : json) : Prop :=
  exists w t, v = KJ w /\ text_of_json W w t /\ e = JStr (lit before ++ t ++ lit after).

(** The members of the instance that the patterns concern, with the subschemas
    to judge them. *)
Definition pattern_hits (W : world) (m : list (pystr * sid)) (x : json) : list (pystr * (sid * json)) :=
  flat_map (fun kv => map (fun rt => (fst kv, (snd rt, snd kv)))
                          (filter (fun rt => match w_search W (fst rt) (fst kv) with Some b => b | None => false end) m)) (members x).

(** Items from [start] on judged by [t]: the error lists the rejected ones. *)
Definition items_refused (says : sid -> json -> bool -> Prop) (start : nat) (t : sid) (x e : json) : Prop :=
  exists bs, Forall2 (says t) (skipn start (items x)) bs /\ e = JArr (map number (numbered false start bs)).
Definition pairs_refused (says : sid -> json -> bool -> Prop) (ts : list sid) (x e : json) : Prop :=
  exists bs, Forall2 (fun ty b => says (fst ty) (snd ty) b) (combine ts (items x)) bs /\ e = JArr (map number (numbered false 0 bs)).
(** Members judged by [t]. *)
Definition members_refused (says : sid -> json -> bool -> Prop) (t : sid) (l : list (pystr * json)) (e : json) : Prop :=
  exists bs, Forall2 (fun kv b => says t (snd kv) b) l bs /\ e = names (refused (map fst l) bs).

(** The required names that are missing from the instance. *)
Definition missing_from (x : json) (l : list json) : list json :=
  filter (fun n => match n with JStr name => negb (has x name) | _ => true end) l.

(** The members that neither properties nor patternProperties of [kws] concern. *)
Definition left_over (W : world) (kws : list (pystr * keyword)) (x : json) : list (pystr * json) :=
  let known := names_under (subm_of (dget (lit "properties") kws)) in
  let patterns := names_under (subm_of (dget (lit "patternProperties") kws)) in
  filter (fun kv => negb (listed (fst kv) known)
                    && negb (existsb (fun r => match w_search W r (fst kv) with Some b => b | None => false end) patterns)) (members x).

(** [e] is the error of keyword [k] of a schema object with keywords [kws], when
    the keyword is invalid for [x]. *)
Definition complaint (W : world) (says : sid -> json -> bool -> Prop) (kws : list (pystr * keyword)) (k : keyword) (x e : json) : Prop :=
  match kw_class k, kw_json k with
  | Std KAllOf, KSubs ts =>
      exists bs, Forall2 (fun t b => says t x b) ts bs /\
        e = JStr (lit "The instance is invalid against subschemas " ++ list_of_numbers (numbered false 0 bs))
  | Std KAnyOf, KSubs ts =>
      Forall (fun t => says t x false) ts /\ e = JStr (lit "The instance must be valid against at least one subschema")
  | Std KOneOf, KSubs ts =>
      exists bs, Forall2 (fun t b => says t x b) ts bs /\
        e = JStr (lit "The instance must be valid against exactly one subschema; it is valid against "
                  ++ list_of_numbers (numbered true 0 bs) ++ lit " and invalid against " ++ list_of_numbers (numbered false 0 bs))
  | Std KNot, KSub t => says t x true /\ e = JStr (lit "The instance must not be valid against the subschema")
  | Std (KIf | KThen | KElse), KSub t => says t x false /\ e = own_error W t
  | Std KRef, _ => exists t, kw_ref k = Some t /\ says t x false /\ e = own_error W t
  (* the target is the matter of C42, C43 and C74 *)
  | Std (KDynamicRef | KRecursiveRef), _ => exists t, says t x false /\ e = own_error W t
  | Std KDependentSchemas, KSubm m =>
      let applied := filter (fun nt => has x (fst nt)) m in
      exists bs, Forall2 (fun nt b => says (snd nt) x b) applied bs /\
        e = JStr (lit "Properties " ++ list_of_names (refused (map fst applied) bs)
                  ++ lit " are invalid against the corresponding ""dependentSchemas"" subschemas")
  | Std (KPrefixItems | KItems2019), KSubs ts => pairs_refused says ts x e
  | Std KItems2019, KSub t => e = own_error W t
  | Std KItems, KSub t =>
      items_refused says (match subs_of (dget (lit "prefixItems") kws) with Some ts => length ts | None => 0 end) t x e
  | Std KAdditionalItems, KSub t =>
      exists ts, subs_of (dget (lit "items") kws) = Some ts /\ items_refused says (min (length ts) (length (items x))) t x e
  (* which of them are unevaluated is the matter of SpecNotes.v *)
  | Std (KUnevaluatedItems | KUnevaluatedItems2019), KSub t =>
      exists l bs, StronglySorted lt l /\ Forall (fun n => n < length (items x)) l /\
        Forall2 (fun n b => says t (nth n (items x) JNull) b) l bs /\ e = JArr (map number (refused l bs))
  | Std KContains, KSub t =>
      Forall (fun y => says t y false) (items x) /\
      e = JStr (lit "The array does not contain any element that is valid against the ""contains"" subschema")
  | Std KProperties, KSubm m =>
      exists bs, let present := filter (fun kv => dmem (fst kv) m) (members x) in
        Forall2 (fun kv b => exists t, dget (fst kv) m = Some t /\ says t (snd kv) b) present bs /\
        e = JStr (lit "Properties " ++ list_of_names (refused (map fst present) bs) ++ lit " are invalid")
  (* a member is listed once for each pattern that concerns it *)
  | Std KPatternProperties, KSubm m =>
      exists bs, Forall2 (fun h b => says (fst (snd h)) (snd (snd h)) b) (pattern_hits W m x) bs /\
        e = JStr (lit "Properties " ++ list_of_names (refused (map fst (pattern_hits W m x)) bs) ++ lit " are invalid")
  | Std KAdditionalProperties, KSub t => members_refused says t (left_over W kws x) e
  | Std (KUnevaluatedProperties | KUnevaluatedProperties2019), KSub t =>
      exists keep, members_refused says t (filter (fun kv => keep (fst kv)) (members x)) e
  | Std KPropertyNames, KSub t => members_refused says t (map (fun kv => (fst kv, JStr (fst kv))) (members x)) e
  | Std KType_, v => around W "The instance must be of type " v "" e
  | Std KEnum, _ => e = JStr (lit "The instance value must be equal to one of the elements in the defined enumeration")
  | Std KConst, _ => e = JStr (lit "The instance value must be equal to the defined constant")
  | Std KMultipleOf, v =>
      around W "The value must be a multiple of " v "" e
      \/ exists w a b, v = KJ w /\ text_of_json W x a /\ text_of_json W w b /\ e = JStr (lit "Invalid operation: " ++ a ++ lit " % " ++ b)
  | Std KMaximum, v => around W "The value may not be greater than " v "" e
  | Std KExclusiveMaximum, v => around W "The value must be less than " v "" e
  | Std KMinimum, v => around W "The value may not be less than " v "" e
  | Std KExclusiveMinimum, v => around W "The value must be greater than " v "" e
  | Std KMaxLength, v => around W "The text is too long (maximum " v " characters)" e
  | Std KMinLength, v => around W "The text is too short (minimum " v " characters)" e
  | Std KPattern, v => around W "The text must match the regular expression " v "" e
  | Std KMaxItems, v => around W "The array has too many elements (maximum " v ")" e
  | Std KMinItems, v => around W "The array has too few elements (minimum " v ")" e
  | Std KUniqueItems, _ => e = JStr (lit "The array's elements must all be unique")
  | Std KMaxContains, v => around W "The array has too many elements matching the ""contains"" subschema (maximum " v ")" e
  | Std KMinContains, v => around W "The array has too few elements matching the ""contains"" subschema (minimum " v ")" e
  | Std KMaxProperties, v => around W "The object has too many properties (maximum " v ")" e
  | Std KMinProperties, v => around W "The object has too few properties (minimum " v ")" e
  | Std KRequired, KJ (JArr l) =>
      e = JStr (lit "The object is missing required properties " ++ in_brackets (map (Repr.repr_value (writer W)) (missing_from x l)))
  | Std KDependentRequired, KJ (JObj m) =>
      exists ts, Forall2 (fun nl t => exists us, Forall2 (fun n u => Repr.repr_node (writer W) n = Ok u) (snd nl) us /\ t = (Repr.repr_str (fst nl), in_brackets us))
                   (filter (fun nl => match snd nl with [] => false | _ => true end)
                     (map (fun nd => (fst nd, missing_from x (match snd nd with JArr l => l | _ => [] end))) (filter (fun nd => has x (fst nd)) m))) ts /\
        e = JStr (lit "The object is missing dependent properties " ++ Repr.repr_dict ts)
  (* followed by the text of the validator's exception *)
  | Std KFormat, KJ (JStr a) => exists rest, e = JStr (lit "The instance is invalid against the """ ++ a ++ lit """ format: " ++ rest)
  | _, _ => False
  end.
