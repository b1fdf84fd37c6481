(** Which documents can be made into schemas. *)
From Verif Require Export SpecWritten SpecNames.
Open Scope nat_scope.

(** What the constructor of a keyword class demands of the value, apart from
    subschemas. *)
Definition takes_value (E : env) (c : kwclass) (v : json) : bool :=
  match c, v with
  | Std KSchema_, JStr t => let u := ul_parse (e_lib E) t in ul_conforms (e_lib E) u && ul_has_scheme (e_lib E) u && ul_normal (e_lib E) u
  | Std KId_, JStr t => let u := ul_parse (e_lib E) t in ul_conforms (e_lib E) u && match u_frag u with Some (_ :: _) => false | _ => true end
  | Std KIdNext, JStr t => let u := ul_parse (e_lib E) t in ul_conforms (e_lib E) u && match u_frag u with Some _ => false | None => true end
  | Std (KAnchor | KDynamicAnchor | KDynamicRef), JStr _ => true
  | Std KRecursiveRef, JStr t => str_eqb t (lit "#")
  | Std KPattern, JStr t => e_regex E t
  | Std (KSchema_ | KId_ | KIdNext | KAnchor | KDynamicAnchor | KDynamicRef | KRecursiveRef | KPattern), _ => false
  | Std KFormat, JStr a => negb (mem_str a (e_formats E)) || match e_validators E a with Some _ => true | None => false end
  | Std KFormat, (JArr _ | JObj _) => false
  | _, _ => true
  end.

(** A document for a schema under metaschema [m]: a Boolean, or an object
    whose members all have usable names, known classes and values that these accept;
    subschemas where schemas are expected, and only there.  (A string is
    accepted in place of an array of schemas.) *)
Fixpoint buildable (E : env) (m : option uri) (v : json) {struct v} : bool :=
  match v with
  | JBool _ => true
  | JObj doc =>
      forallb (fun kv =>
        nameable (fst kv) &&
        match class_for E (applies E m doc) (fst kv) with
        | None => false
        | Some c =>
            takes_value E c (snd kv) &&
            match c with
            | Unknown _ => true
            | Std c =>
                if one_schema c || many_schemas c || named_schemas c then
                  match snd kv with
                  | JBool _ => one_schema c
                  | JObj m' => if one_schema c then buildable E (applies E m doc) (snd kv)
                               else named_schemas c && forallb (fun kv' => buildable E (applies E m doc) (snd kv')) m'
                  | JArr l => many_schemas c && forallb (buildable E (applies E m doc)) l
                  | JStr _ => many_schemas c
                  | _ => false
                  end
                else true
            end
        end) doc
  | _ => false
  end.

(** ** References to what is there. *)

(** The schema that URI [u] designates in cache [id] as it is. *)
Definition at_hand (c : cat) (id : pystr) (u : uri) (t : sid) : Prop :=
  cached id u (c_cache c) = Some t \/
  cached id u (c_cache c) = None /\
  exists r f, u_frag u = Some f /\ cached id (no_fragment u) (c_cache c) = Some r /\
    match f with
    | [] => t = r
    | _ => exists p, parse_uri_fragment f = Ok p /\ sn_walk (objs_world (c_objs c)) (SNSchema r) p = Ok (SNSchema t)
    end.
(** Reference [k] of schema [s] leads to such a schema; $dynamicRef must not
    lead to a Boolean schema. *)
Definition found (E : env) (c : cat) (s : sid) (k : keyword) : Prop :=
  exists u t, reference_uri E (c_objs c) s k u /\ at_hand c (cache_of (c_objs c) s) u t /\
    (kw_class k = Std KDynamicRef -> exists kws, keywords_at (c_objs c) t kws).
Definition all_found (E : env) (c : cat) (s : sid) : Prop :=
  forall t kws key k, within (c_objs c) s t -> keywords_at (c_objs c) t kws -> In (key, k) kws -> is_reference k -> found E c t k.
(** No document can be loaded. *)
Definition loads_nothing (E : env) : Prop := forall u, exists e, load_json (e_lib E) (e_sources E) u = Exn e.

(** No references in a document. *)
Definition refers (c : kwclass) : bool := match c with Std (KRef | KDynamicRef | KRecursiveRef) => true | _ => false end.
Fixpoint free_of_references (E : env) (m : option uri) (v : json) {struct v} : bool :=
  match v with
  | JObj doc =>
      forallb (fun kv =>
        match class_for E (applies E m doc) (fst kv) with
        | Some c =>
            negb (refers c) &&
            match c, snd kv with
            | Std c, JObj m' => if one_schema c then free_of_references E (applies E m doc) (snd kv)
                                else if named_schemas c then forallb (fun kv' => free_of_references E (applies E m doc) (snd kv')) m' else true
            | Std c, JArr l => if many_schemas c then forallb (free_of_references E (applies E m doc)) l else true
            | _, _ => true
            end
        | None => true
        end) doc
  | _ => true
  end.
