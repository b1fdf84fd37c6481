(** Schema documents written in one dialect, and the catalogs they give. *)
From Verif Require Export SpecCaches.
Open Scope nat_scope.

Definition is_text (v : json) : bool := match v with JStr _ => true | _ => false end.
(** What the metaschemas demand of the value of a keyword, as far as
    evaluation relies on it. *)
Definition value_fits (c : stdclass) (v : json) : bool :=
  match c with
  | KType_ => match v with JStr _ => true | JArr l => forallb is_text l | _ => false end
  | KUniqueItems => match v with JBool _ => true | _ => false end
  | KEnum => match v with JArr _ => true | _ => false end
  | KMultipleOf => match v with JNum _ => true | _ => false end
  | KAllOf | KAnyOf | KOneOf | KPrefixItems => negb (is_text v)
  | KRequired => match v with JArr l => forallb is_text l | _ => false end
  | KDependentRequired =>
      match v with
      | JObj m => forallb (fun kv => match snd kv with JArr l => forallb is_text l | _ => false end) m
      | _ => false
      end
  | KMaximum | KMinimum | KExclusiveMaximum | KExclusiveMinimum | KMaxLength | KMinLength | KMaxItems | KMinItems
  | KMaxContains | KMinContains | KMaxProperties | KMinProperties => match v with JNum _ => true | _ => false end
  | KFormat => is_text v
  | KItems2019 => match v with JArr [] | JStr _ => false | _ => true end
  | _ => true
  end.

(** Where the subschemas are. *)
Definition one_schema (c : stdclass) : bool :=
  match c with
  | KNot | KIf | KThen | KElse | KItems | KUnevaluatedItems | KContains | KAdditionalProperties | KUnevaluatedProperties
  | KPropertyNames | KItems2019 | KAdditionalItems | KUnevaluatedItems2019 | KUnevaluatedProperties2019 => true
  | _ => false
  end.
Definition many_schemas (c : stdclass) : bool :=
  match c with KAllOf | KAnyOf | KOneOf | KPrefixItems | KItems2019 => true | _ => false end.
Definition named_schemas (c : stdclass) : bool :=
  match c with KDefs | KDependentSchemas | KProperties | KPatternProperties => true | _ => false end.

(** A schema document of dialect [d]: the values fit the keywords, all members
    are [ok], and likewise in the subschemas. *)
Fixpoint proper_with (d : list stdclass) (ok : pystr -> json -> bool) (v : json) : bool :=
  match v with
  | JObj ms =>
      forallb (fun kv =>
        ok (fst kv) (snd kv) &&
        match find_class d (fst kv) with
        | None => true
        | Some c =>
            value_fits c (snd kv) &&
            match snd kv with
            | JObj m => if one_schema c then proper_with d ok (snd kv)
                        else if named_schemas c then forallb (fun kv' => proper_with d ok (snd kv')) m else true
            | JArr l => if many_schemas c then forallb (proper_with d ok) l else true
            | _ => true
            end
        end) ms
  | _ => true
  end.
(** One in which none of the keywords [avoid] is used. *)
Definition proper (d : list stdclass) (avoid : list pystr) : json -> bool := proper_with d (fun key _ => negb (mem_str key avoid)).

(** Every metaschema known provides dialect [d], and every document that can
    be loaded is written in it. *)
Definition speaks (E : env) (d : list stdclass) (avoid : list pystr) : Prop :=
  (forall u d', e_dialect E u = Some d' -> d' = d) /\
  (forall u doc, load_json (e_lib E) (e_sources E) u = Ok doc -> jwf doc = true /\ proper d avoid doc = true).

(** The catalogs that arise from such documents, whether or not constructing
    them succeeds. *)
Inductive written (d : list stdclass) (avoid : list pystr) : cat -> Prop :=
| written_empty : written d avoid (mkCat [] [])
| written_construct E f id v u m c : speaks E d avoid -> jwf v = true -> proper d avoid v = true ->
    written d avoid c -> written d avoid (snd (construct E f id v u m c))
| written_get E f id u m c : speaks E d avoid -> written d avoid c -> written d avoid (snd (get_schema E f id u m c))
| written_leave id c : written d avoid c -> written d avoid (mkCat (c_objs c) (leave_cache id (c_cache c))).

(** [W] is how evaluation sees the schemas of catalog [c]. *)
Definition shows (c : cat) (W : world) : Prop :=
  (forall s, w_schema W s = match nth_error (c_objs c) s with Some o => so_data o | None => SBool true end) /\
  (forall s, w_base W s = option_map uri_str (base_uri (c_objs c) s)).

(** ** One cache among others. *)

(** None of the keywords [avoid] is used, and only the metaschemas [ms] are
    named. *)
Definition declares (lib : urilib) (ms : uri -> bool) (avoid : list pystr) (key : pystr) (v : json) : bool :=
  negb (mem_str key avoid) &&
  (if str_eqb key (lit "$schema") then match v with JStr t => ms (ul_parse lib t) | _ => true end else true).
(** The metaschemas [ms] provide dialect [d], and every document that can be
    loaded is written in it. *)
Definition speaks_in (E : env) (ms : uri -> bool) (d : list stdclass) (avoid : list pystr) : Prop :=
  (forall u d', ms u = true -> e_dialect E u = Some d' -> d' = d) /\
  (forall u doc, load_json (e_lib E) (e_sources E) u = Ok doc -> jwf doc = true /\ proper_with d (declares (e_lib E) ms avoid) doc = true).
(** The catalogs in whose cache [id] there are only such documents; in other
    caches there may be anything. *)
Inductive written_in (id : pystr) (ms : uri -> bool) (d : list stdclass) (avoid : list pystr) : mcat -> Prop :=
| wi_empty : written_in id ms d avoid empty_catalog
| wi_construct E f v u m st : speaks_in E ms d avoid -> jwf v = true -> proper_with d (declares (e_lib E) ms avoid) v = true ->
    (forall m', m = Some m' -> ms m' = true) -> written_in id ms d avoid st -> written_in id ms d avoid (upon (construct E f id v u m) st)
| wi_get E f u m st : speaks_in E ms d avoid -> (forall m', m = Some m' -> ms m' = true) ->
    written_in id ms d avoid st -> written_in id ms d avoid (upon (get_schema E f id u m) st)
| wi_leave st : written_in id ms d avoid st -> written_in id ms d avoid (left_cache id st)
| wi_elsewhere st st' : written_in id ms d avoid st -> elsewhere id st st' -> written_in id ms d avoid st'.
(** The schemas of cache [id] alone. *)
Definition own_world (lib : urilib) (id : pystr) (W : world) (c : cat) : world :=
  let V := cache_world lib id W c in
  mkWorld (fun s => match nth_error (c_objs c) s with
                    | Some o => if str_eqb (so_cache o) id then so_data o else SBool true
                    | None => SBool true
                    end)
          (w_base V) (w_anchor V) (w_search V) (w_repr V) (w_format V) (w_uri V).
