(** The annotations of the keywords that look at their siblings, and of
    contains, to the letter (Core, 10.3.1.2, 10.3.1.3 and 10.3.2.3 of 2020-12;
    9.3.1.2 of 2019-09).  [says t y b]: schema [t] accepts [y] if [b]. *)
From Verif Require Export SpecErrors SpecCode.
Open Scope nat_scope.

(** True if there are items from [start] on, nothing otherwise. *)
Definition items_beyond (start : nat) (x : json) : json :=
  if start <? length (items x) then JBool true else JNull.

(** What the node of keyword [k], of a schema with keywords [kws], is annotated
    with for the instance [x]; the other keywords are the matter of SpecAnnot.v. *)
Definition jots (W : world) (says : sid -> json -> bool -> Prop) (kws : list (pystr * keyword)) (k : keyword) (x : json) (valid : bool) (a : json) : Prop :=
  match kw_class k, kw_json k with
  (* the names of the members that no sibling concerns, as the instance lists them *)
  | Std KAdditionalProperties, KSub _ => valid = true -> a = names (map fst (left_over W kws x))
  (* whether there are items after those of the sibling *)
  | Std KItems, KSub _ =>
      valid = true -> a = items_beyond (match subs_of (dget (lit "prefixItems") kws) with Some ts => length ts | None => 0 end) x
  | Std KAdditionalItems, KSub _ =>
      valid = true -> exists ts, subs_of (dget (lit "items") kws) = Some ts /\ a = items_beyond (length ts) x
  (* the positions of the items that are accepted, whether or not that suffices *)
  | Std KContains, KSub t => exists bs, Forall2 (says t) (items x) bs /\ a = JArr (map number (numbered true 0 bs))
  | _, _ => True
  end.

(** The keywords that concern [x], other than the unevaluated ones. *)
Definition others (kws : list (pystr * keyword)) (x : json) : list keyword :=
  filter (fun k => match late k with None => true | Some _ => false end) (filter (concerns x) (map snd kws)).

(** The annotation of a valid unevaluated keyword, given the outcomes of the
    others: unevaluatedProperties lists the members that none of the accepting
    ones evaluated, unevaluatedItems tells whether there are such items. *)
Definition remarks (os : list outcome) (k : keyword) (x a : json) : Prop :=
  let said := filter o_ok os in
  let any_left evaluated := existsb (fun n => negb (existsb (Nat.eqb n) evaluated)) (seq 0 (length (items x))) in
  match kw_class k with
  | Std (KUnevaluatedProperties | KUnevaluatedProperties2019) =>
      a = names (filter (fun n => negb (listed n (flat_map o_names said))) (own_names x))
  | Std KUnevaluatedItems =>
      a = if any_left (flat_map o_places said ++ flat_map o_found said) then JBool true else JNull
  | Std KUnevaluatedItems2019 => a = if any_left (flat_map o_places said) then JBool true else JNull
  | _ => True
  end.

(** The error of an invalid unevaluated keyword: the names, or positions, of
    those among the unevaluated members, or items, that the subschema rejects. *)
Definition places_refused (says : sid -> json -> bool -> Prop) (t : sid) (x : json) (evaluated : list nat) (e : json) : Prop :=
  let l := filter (fun n => negb (existsb (Nat.eqb n) evaluated)) (seq 0 (length (items x))) in
  exists bs, Forall2 (fun n b => says t (nth n (items x) JNull) b) l bs /\ e = JArr (map number (refused l bs)).
Definition grumbles (says : sid -> json -> bool -> Prop) (os : list outcome) (k : keyword) (x e : json) : Prop :=
  let said := filter o_ok os in
  match kw_class k, kw_json k with
  | Std (KUnevaluatedProperties | KUnevaluatedProperties2019), KSub t =>
      members_refused says t (filter (fun kv => negb (listed (fst kv) (flat_map o_names said))) (members x)) e
  | Std KUnevaluatedItems, KSub t => places_refused says t x (flat_map o_places said ++ flat_map o_found said) e
  | Std KUnevaluatedItems2019, KSub t => places_refused says t x (flat_map o_places said) e
  | _, _ => True
  end.
