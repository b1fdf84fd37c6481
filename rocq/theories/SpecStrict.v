(** Documents whose keyword values all have the form that the specification
    demands, and the catalogs that arise where constructing them succeeds. *)
From Verif Require Export SpecWritten SpecSound.
Open Scope nat_scope.

(** What is demanded of a member of a schema object beyond [value_fits];
    [re] are the regular expressions that compile. *)
Definition strict (re : pystr -> bool) (d : list stdclass) (key : pystr) (v : json) : bool :=
  match find_class d key, v with
  | Some (KAllOf | KAnyOf | KOneOf | KPrefixItems | KEnum | KRequired), JArr _ => true
  | Some (KAllOf | KAnyOf | KOneOf | KPrefixItems | KEnum | KRequired), _ => false
  | Some KDependentRequired, JObj _ => true
  | Some KDependentRequired, _ => false
  | Some (KMaximum | KMinimum | KExclusiveMaximum | KExclusiveMinimum | KMaxLength | KMinLength | KMaxItems | KMinItems
        | KMaxContains | KMinContains | KMaxProperties | KMinProperties | KMultipleOf), (JNum (NInf _) | JNum NNan) => false
  | Some KMultipleOf, JNum _ => true
  | Some KMultipleOf, _ => false
  | Some KPattern, JStr r => re r
  | Some KPattern, _ => false
  | Some KPatternProperties, JObj m => forallb (fun kv => re (fst kv)) m
  | _, _ => true
  end.
Definition demands (re : pystr -> bool) (lib : urilib) (ms : uri -> bool) (d : list stdclass) (avoid : list pystr) (key : pystr) (v : json) : bool :=
  declares lib ms avoid key v && strict re d key v.
Definition speaks_strictly (re : pystr -> bool) (E : env) (ms : uri -> bool) (d : list stdclass) (avoid : list pystr) : Prop :=
  (forall u d', ms u = true -> e_dialect E u = Some d' -> d' = d) /\
  (forall u doc, load_json (e_lib E) (e_sources E) u = Ok doc -> jwf doc = true /\ proper_with d (demands re (e_lib E) ms d avoid) doc = true).

(** The catalogs in whose cache [id] there are only such documents and
    everything was constructed successfully; in other caches there may be
    anything. *)
Inductive completed (re : pystr -> bool) (id : pystr) (ms : uri -> bool) (d : list stdclass) (avoid : list pystr) : mcat -> Prop :=
| co_empty : completed re id ms d avoid empty_catalog
| co_construct E f v u m st s : speaks_strictly re E ms d avoid -> jwf v = true -> proper_with d (demands re (e_lib E) ms d avoid) v = true ->
    (forall m', m = Some m' -> ms m' = true) -> fst (construct E f id v u m (mc_cat st)) = Ok s ->
    completed re id ms d avoid st -> completed re id ms d avoid (upon (construct E f id v u m) st)
| co_get E f u m st s : speaks_strictly re E ms d avoid -> (forall m', m = Some m' -> ms m' = true) -> fst (get_schema E f id u m (mc_cat st)) = Ok s ->
    completed re id ms d avoid st -> completed re id ms d avoid (upon (get_schema E f id u m) st)
| co_leave st : completed re id ms d avoid st -> completed re id ms d avoid (left_cache id st)
| co_elsewhere st st' : completed re id ms d avoid st -> elsewhere id st st' -> completed re id ms d avoid st'.

(** No reference asks a Boolean schema for an anchor. *)
Definition well_aimed (W : world) : Prop := forall s kws key k, w_schema W s = SObj kws -> In (key, k) kws -> aimed W k.
