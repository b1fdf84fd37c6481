(** What constructing a schema document should leave in the catalog. *)
From Verif Require Export Build SpecSchema SpecDeps.
Open Scope nat_scope.

(** ** The document as read.  *)

(** The metaschema that applies to an object of a document: the one it names,
    else the one that applies to the surrounding schema. *)
Definition applies (E : env) (m : option uri) (doc : list (pystr * json)) : option uri :=
  match dget (lit "$schema") doc with Some (JStr t) => Some (ul_parse (e_lib E) t) | _ => m end.
(** The class of a keyword under metaschema [m]. *)
Definition class_for (E : env) (m : option uri) (key : pystr) : option kwclass :=
  if str_eqb key (lit "$schema") then Some (Std KSchema_)
  else if str_eqb key (lit "$vocabulary") then Some (Std KVocabulary_)
  else match m with
       | None => None
       | Some u =>
           match e_dialect E u with
           | None => None
           | Some d =>
               if str_eqb key (lit "$id")
               then Some (Std (match find_class d (lit "$id") with Some KId_ => KId_ | _ => KIdNext end))
               else Some (match find_class d key with Some c => Std c | None => Unknown key end)
           end
       end.

(** Keywords whose value is a schema, an array of schemas, an object of
    schemas. *)
Definition takes_one (c : kwclass) : Prop :=
  In c (map Std [KNot; KIf; KThen; KElse; KItems; KUnevaluatedItems; KContains; KAdditionalProperties; KUnevaluatedProperties;
                 KPropertyNames; KItems2019; KAdditionalItems; KUnevaluatedItems2019; KUnevaluatedProperties2019]).
Definition takes_many (c : kwclass) : Prop := In c (map Std [KAllOf; KAnyOf; KOneOf; KPrefixItems; KItems2019]).
Definition takes_named (c : kwclass) : Prop := In c (map Std [KDefs; KDependentSchemas; KProperties; KPatternProperties]).

(** The URI of a schema whose document is the object [doc]: its $id, resolved
    against the base URI, else [given].  If both are there and differ only in
    writing, it is the one given. *)
Definition base_of (given b : option uri) : option uri := match given with Some u => Some (no_fragment u) | None => b end.
Definition entitled (L : urilib) (given : option uri) (u : uri) : uri :=
  match given with Some g => if uri_same L g u then g else u | None => u end.
Definition own_uri (E : env) (given b : option uri) (doc : list (pystr * json)) : option uri :=
  match dget (lit "$id") doc with
  | Some (JStr t) =>
      let u := ul_parse (e_lib E) t in
      option_map (entitled (e_lib E) given) (if ul_absolute (e_lib E) u then Some u else option_map (ul_resolve (e_lib E) u) (base_of given b))
  | _ => given
  end.

Definition is_enabled_type (E : env) (v : json) (types : option (list jtype)) : Prop :=
  match v with
  | JStr a => (In a (e_formats E) -> exists l, e_validators E a = Some l /\ types = Some l) /\ (~ In a (e_formats E) -> types = None)
  | _ => types = None
  end.
(** What a keyword keeps of its value besides subschemas. *)
Definition keeps (E : env) (c : kwclass) (v : json) (fragment : pystr) (types : option (list jtype)) : Prop :=
  match c with
  | Std KDynamicRef => exists t, v = JStr t /\ fragment = match u_frag (ul_parse (e_lib E) t) with Some f => f | None => [] end
  | _ => True
  end /\
  match c with Std KFormat => is_enabled_type E v types | _ => types = None end.

(** The order in which the keywords of an object come about, under metaschema
    [m]: $schema, $vocabulary and $id, then the others, in the order of the
    document except that each waits for those it depends on. *)
Definition foremost : list pystr := [lit "$schema"; lit "$vocabulary"; lit "$id"].
Definition waits_for (E : env) (m : option uri) (key n : pystr) : Prop :=
  exists c, class_for E m key = Some c /\ In n (depends_on c).
Definition creation_order (E : env) (m : option uri) (doc : list (pystr * json)) (ks : list pystr) : Prop :=
  exists others, ks = filter (fun key => mem_str key (keys doc)) foremost ++ others /\
    in_turn (waits_for E m) (filter (fun key => negb (mem_str key foremost)) (keys doc)) others.

(** ** The schema objects. *)
Section Made.
Variable E : env.
Variable objs : list sobj.

(** [made m b u v s up]: schema [s] is the one that document [v] describes,
    where [m] and [b] are the metaschema and base URI of the surroundings, [u]
    the URI it was given, and [up] the parent schema and the keys that lead
    from there to [s]. *)
Inductive made : option uri -> option uri -> option uri -> json -> sid -> option (sid * list pystr) -> Prop :=
| made_bool m b u x s up o :
    nth_error objs s = Some o -> so_data o = SBool x -> so_up o = up -> so_uri o = u ->
    made m b u (JBool x) s up
| made_object m b u doc s up o kws :
    nth_error objs s = Some o -> so_data o = SObj kws -> so_up o = up -> so_uri o = own_uri E u b doc ->
    NoDup (keys kws) -> (forall key, In key (keys kws) <-> In key (keys doc)) ->
    (forall key k, In (key, k) kws -> class_for E (applies E m doc) key = Some (kw_class k)) ->
    (forall key k v, In (key, k) kws -> dget key doc = Some v -> keeps E (kw_class k) v (kw_fragment k) (kw_format k)) ->
    (forall key k v, In (key, k) kws -> dget key doc = Some v ->
       holds (applies E m doc) (base_of (so_uri o) b) s key (kw_class k) v (kw_json k)) ->
    (forall key k n, In (key, k) kws -> In n (depends_on (kw_class k)) -> In n (keys kws) -> earlier n key (keys kws)) ->
    creation_order E (applies E m doc) doc (keys kws) ->
    (match so_meta o with Some x => Some x | None => match up with Some _ => m | None => None end end) = applies E m doc ->
    made m b u (JObj doc) s up
with holds : option uri -> option uri -> sid -> pystr -> kwclass -> json -> kjson -> Prop :=
| holds_plain m b s key c v : ~ takes_one c -> ~ takes_many c -> ~ takes_named c -> holds m b s key c v (KJ v)
| holds_one m b s key c v t : takes_one c -> made m b None v t (Some (s, [key])) -> holds m b s key c v (KSub t)
| holds_many m b s key c l ts : takes_many c -> length ts = length l ->
    (forall i v t, nth_error l i = Some v -> nth_error ts i = Some t -> made m b None v t (Some (s, [key; str_of_nat i]))) ->
    holds m b s key c (JArr l) (KSubs ts)
| holds_text m b s key c x : takes_many c -> holds m b s key c (JStr x) (KJ (JStr x))
| holds_named m b s key c doc ts : takes_named c -> NoDup (keys doc) -> keys ts = keys doc ->
    (forall n v t, dget n doc = Some v -> dget n ts = Some t -> made m b None v t (Some (s, [key; n]))) ->
    holds m b s key c (JObj doc) (KSubm ts).
End Made.

(** ** Reachability and references. *)

(** [t] is [s] or a subschema of it, at any depth. *)
Definition subschema_of (k : keyword) (t : sid) : Prop :=
  match kw_json k with
  | KSub t' => t' = t
  | KSubs l => In t l
  | KSubm m => In t (map snd m)
  | KJ _ => False
  end.
Definition keywords_at (objs : list sobj) (s : sid) (kws : list (pystr * keyword)) : Prop :=
  exists o, nth_error objs s = Some o /\ so_data o = SObj kws.
Inductive within (objs : list sobj) (s : sid) : sid -> Prop :=
| within_self : within objs s s
| within_step t t' kws key k : within objs s t -> keywords_at objs t kws -> In (key, k) kws -> subschema_of k t' -> within objs s t'.

Definition is_reference (k : keyword) : Prop :=
  kw_class k = Std KRef \/ kw_class k = Std KDynamicRef \/ kw_class k = Std KRecursiveRef.
(** The URI that reference [k] of schema [s] stands for. *)
Definition reference_uri (E : env) (objs : list sobj) (s : sid) (k : keyword) (u : uri) : Prop :=
  match kw_class k with
  | Std KRecursiveRef => base_uri objs s = Some u
  | _ => exists t, kw_json k = KJ (JStr t) /\
           let r := ul_parse (e_lib E) t in
           (ul_absolute (e_lib E) (no_fragment r) = true /\ u = r \/
            ul_absolute (e_lib E) (no_fragment r) = false /\ exists b, base_uri objs s = Some b /\ u = ul_resolve (e_lib E) r b)
  end.
(** [r] is the schema with URI [base], or the one that the document found at
    [base] describes. *)
Definition document (E : env) (c : cat) (id : pystr) (m : option uri) (base : uri) (r : sid) : Prop :=
  cached id base (c_cache c) = Some r \/
  exists doc, load_json (e_lib E) (e_sources E) base = Ok doc /\ made E (c_objs c) m None (Some base) doc r None.
(** [t] is the schema that [u] designates: the one with URI [u], or the one at
    the place of the document that the fragment of [u] points to. *)
Definition designates (E : env) (c : cat) (id : pystr) (m : option uri) (u : uri) (t : sid) : Prop :=
  cached id u (c_cache c) = Some t \/
  exists r, document E c id m (no_fragment u) r /\
    match u_frag u with
    | None | Some [] => t = r
    | Some f => exists p, parse_uri_fragment f = Ok p /\ sn_walk (objs_world (c_objs c)) (SNSchema r) p = Ok (SNSchema t)
    end.
Definition cache_of (objs : list sobj) (s : sid) : pystr := match nth_error objs s with Some o => so_cache o | None => [] end.

(** Every parent was made before its children. *)
Definition upward (objs : list sobj) : Prop := forall s o p ks, nth_error objs s = Some o -> so_up o = Some (p, ks) -> p < s.

(** The same objects, except that references may have been resolved and
    objects added. *)
Definition strip (k : keyword) : keyword := mkKw (kw_class k) (kw_json k) None false (kw_fragment k) (kw_format k).
Definition shape (o : sobj) : sobj :=
  with_data (match so_data o with SObj kws => SObj (map (fun kk => (fst kk, strip (snd kk))) kws) | d => d end) o.
Definition kw_later (a b : pystr * keyword) : Prop :=
  fst b = fst a /\ strip (snd b) = strip (snd a) /\ (kw_ref (snd a) <> None -> kw_ref (snd b) <> None).
Definition node_later (d d' : snode) : Prop :=
  match d, d' with SBool b, SBool b' => b = b' | SObj k, SObj k' => Forall2 kw_later k k' | _, _ => False end.
Definition obj_later (o o' : sobj) : Prop :=
  so_uri o' = so_uri o /\ so_meta o' = so_meta o /\ so_up o' = so_up o /\ so_cache o' = so_cache o /\ node_later (so_data o) (so_data o').
Definition kept (c c' : cat) : Prop :=
  forall i o, nth_error (c_objs c) i = Some o -> exists o', nth_error (c_objs c') i = Some o' /\ obj_later o o'.

(** Reference [k] of [s] was resolved between [c] and [c']: at that time its
    URI designated the schema it leads to. *)
Definition resolved_between (E : env) (c c' : cat) (s : sid) (k : keyword) : Prop :=
  exists c1 u t, kept c c1 /\ kept c1 c' /\ reference_uri E (c_objs c1) s k u /\
    designates E c1 (cache_of (c_objs c1) s) (metaschema_uri (c_objs c1) s) u t /\ kw_ref k = Some t.

(** ** Histories. *)

(** The catalogs that arise from an empty one by constructing schemas, looking
    schemas up (successfully or not, while sources, formats and metaschemas may
    change from step to step) and leaving cache blocks. *)
Inductive reachable : cat -> Prop :=
| reach_empty : reachable (mkCat [] [])
| reach_construct E f id v u m c : reachable c -> reachable (snd (construct E f id v u m c))
| reach_get E f id u m c : reachable c -> reachable (snd (get_schema E f id u m c))
| reach_leave id c : reachable c -> reachable (mkCat (c_objs c) (leave_cache id (c_cache c))).

(** JSON documents: their objects have no key twice. *)
Definition reads_json (E : env) : Prop := forall u doc, load_json (e_lib E) (e_sources E) u = Ok doc -> jwf doc = true.
(** [c'] comes about from [c] in the same ways. *)
Inductive develops (c : cat) : cat -> Prop :=
| dev_self : develops c c
| dev_construct E f id v u m c' : reads_json E -> jwf v = true -> develops c c' -> develops c (snd (construct E f id v u m c'))
| dev_get E f id u m c' : reads_json E -> develops c c' -> develops c (snd (get_schema E f id u m c'))
| dev_leave id c' : develops c c' -> develops c (mkCat (c_objs c') (leave_cache id (c_cache c'))).
