(** Vocabularies and metaschemas: Vocabulary and Metaschema
    (vocabulary/__init__.py:27-124), VocabularyKeyword (core.py:37-62),
    JSONSchema.validate (jsonschema.py:187-189) and Catalog.create_vocabulary,
    get_vocabulary, create_metaschema, get_metaschema
    (catalog/__init__.py:166-265).

    Simplifications.
    - Vocabularies provide the keyword classes of Keywords.v.
    - The metaschemas that a construction consults are those loaded before it
      began, and the one under construction; one that would have to be loaded in
      the middle is not found.
    - A metaschema document that gives itself another URI than the one it is
      loaded by is not followed: the outcome is [Fuel].
    - JSONSchema.metaschema is a cached property; here it is looked up anew.
    - The keyword arguments passed on to the constructor are left out. *)
From Verif Require Export Build ReadBack.
Open Scope nat_scope.

(** The attribute kwclasses: a dict from keys to classes. *)
Definition kwdict := list (pystr * stdclass).
(** dict.update with the kwclasses of a vocabulary, made from its classes at
    vocabulary/__init__.py:116-120. *)
Definition update_classes (d : kwdict) (cs : list stdclass) : kwdict :=
  fold_left (fun d c => dset (std_key c) c d) cs d.

(** A Vocabulary: its URI and classes. *)
Record vocab : Set := mkVocab { v_uri : uri; v_classes : list stdclass }.
(** What a Metaschema has besides a JSONSchema: core_vocabulary (its URI) and
    kwclasses.  The classes that get_kwclass adds for unknown keys are those
    that Keywords.get_kwclass gives each time. *)
Record meta : Set := mkMeta { m_core : uri; m_classes : kwdict }.

(** A catalog with its vocabularies (catalog/__init__.py:94; the newest first)
    and with what the metaschemas among its objects have. *)
Record mcat : Set := mkMcat { mc_cat : cat; mc_vocabs : list vocab; mc_metas : list (sid * meta) }.
Definition meta_id : pystr := lit "__meta__".
Definition meta_at (st : mcat) (s : sid) : option meta :=
  option_map snd (find (fun p => fst p =? s) (mc_metas st)).

(** Catalog.create_vocabulary and get_vocabulary, catalog/__init__.py:166-189. *)
Definition create_vocabulary (u : uri) (cs : list stdclass) (st : mcat) : mcat :=
  mkMcat (mc_cat st) (mkVocab u cs :: mc_vocabs st) (mc_metas st).
Definition get_vocabulary (vs : list vocab) (u : uri) : res vocab :=
  match find (fun v => uri_eqb (v_uri v) u) vs with Some v => Ok v | None => Exn ECatalog end.

(** ** Which classes a metaschema provides. *)

(** re.match of _CORE_VOCAB_RE, vocabulary/__init__.py:35: the part matched by
    [^/]+ reaches to the next slash; the dollar sign matches at the end and
    before a final newline. *)
Fixpoint upto_slash (s : pystr) : pystr * pystr :=
  match s with
  | [] => ([], [])
  | c :: r => if N.eqb c 47 then ([], s) else let '(a, b) := upto_slash r in (c :: a, b)
  end.
Definition core_like (s : pystr) : bool :=
  let start := lit "https://json-schema.org/draft/" in
  prefixb start s &&
  (let '(name, rest) := upto_slash (skipn (length start) s) in
   negb (match name with [] => true | _ => false end) &&
   (str_eqb rest (lit "/vocab/core") || str_eqb rest (lit "/vocab/core" ++ [10%N]))).

(** Lines 66-70 of Metaschema.__init__: iterating over a dict gives its keys, over a list its items
    (re.match raises TypeError unless they are strings), over a str its
    characters, none of which matches. *)
Fixpoint all_texts (l : list json) : res (list pystr) :=
  match l with
  | [] => Ok []
  | JStr t :: r => let* ts := all_texts r in Ok (t :: ts)
  | _ :: _ => Exn EType
  end.
Definition possible_cores (v : json) : res (list pystr) :=
  match v with
  | JObj m => Ok (filter core_like (keys m))
  | JArr l => let* ts := all_texts l in Ok (filter core_like ts)
  | JStr _ => Ok []
  | _ => Exn EType
  end.

Section Env.
Variable E : env.

(** vocabulary/__init__.py:63-82.  The message at lines 75-78 calls keys() on the value. *)
Definition core_vocabulary (vs : list vocab) (value : option json) (default : option vocab) : res vocab :=
  let fallback := match default with Some v => Ok v | None => Exn ESchema end in
  match value with
  | None => fallback
  | Some v =>
      if truthy (KJ v) then
        let* cores := possible_cores v in
        match cores, v with
        | [t], _ => get_vocabulary vs (ul_parse (e_lib E) t)
        | _, JObj _ => Exn ESchema
        | _, _ => Exn EAttribute
        end
      else fallback
  end.

(** VocabularyKeyword, core.py:41-62, for a metaschema whose core vocabulary
    is [core]: the classes gathered, and the exception that ended it. *)
Fixpoint gather_classes (vs : list vocab) (listed : list (pystr * json)) (d : kwdict) : kwdict * option exn :=
  match listed with
  | [] => (d, None)
  | (name, required) :: r =>
      let u := ul_parse (e_lib E) name in
      match uri_validate (e_lib E) true true true true u with
      | Ok _ =>
          match get_vocabulary vs u with
          | Ok v => gather_classes vs r (update_classes d (v_classes v))
          | _ => if truthy (KJ required) then (d, Some ESchema) else gather_classes vs r d
          end
      | _ => (d, Some ESchema)
      end
  end.
Definition is_true (v : option json) : bool := match v with Some (JBool true) => true | _ => false end.
Definition vocabulary_keyword (vs : list vocab) (core : vocab) (v : json) : kwdict * option exn :=
  let name := uri_str (v_uri core) in
  match v with
  | JObj m => if is_true (dget name m) then gather_classes vs m [] else ([], Some ESchema)
  | JArr l => ([], Some (if existsb (fun x => match x with JStr t => str_eqb t name | _ => false end) l then EType else ESchema))
  | JStr _ => ([], Some ESchema)
  | _ => ([], Some EType)
  end.

(** Metaschema._bootstrap, vocabulary/__init__.py:86-91, after the inherited
    part has left the classes [d]. *)
Definition complete_classes (listed : bool) (core : vocab) (defaults : list vocab) (d : kwdict) : kwdict :=
  let d := update_classes d (v_classes core) in
  if listed then d else fold_left (fun d v => update_classes d (v_classes v)) defaults d.

(** Every keyword class.  A dict of classes is used by looking keys up, so the
    classes it holds may be listed in any fixed order. *)
Definition every_class : list stdclass :=
  [KSchema_; KVocabulary_; KId_; KIdNext; KRef; KAnchor; KDynamicRef; KDynamicAnchor; KRecursiveRef; KRecursiveAnchor; KDefs; KComment_;
   KAllOf; KAnyOf; KOneOf; KNot; KIf; KThen; KElse; KDependentSchemas; KPrefixItems; KItems; KItems2019; KAdditionalItems;
   KUnevaluatedItems2019; KContains; KProperties; KPatternProperties; KAdditionalProperties; KUnevaluatedProperties2019; KPropertyNames;
   KUnevaluatedItems; KUnevaluatedProperties;
   KType_; KEnum; KConst; KMultipleOf; KMaximum; KExclusiveMaximum; KMinimum; KExclusiveMinimum; KMaxLength; KMinLength; KPattern;
   KMaxItems; KMinItems; KUniqueItems; KMaxContains; KMinContains; KMaxProperties; KMinProperties; KRequired; KDependentRequired;
   KFormat; KTitle; KDescription; KDefault; KDeprecated; KReadOnly; KWriteOnly; KExamples; KContentMediaType; KContentEncoding; KContentSchema].
(** The class made for $id is decided by the URI of the core vocabulary,
    jsonschema.py:140-147. *)
Definition id_class (core : uri) : stdclass :=
  if mem_str (uri_str core) [lit "https://json-schema.org/draft/2019-09/vocab/core"; lit "https://json-schema.org/draft/2020-12/vocab/core"]
  then KId_ else KIdNext.
Definition provided (m : meta) : list stdclass :=
  filter (fun c => if str_eqb (std_key c) (lit "$id") then N.eqb (tag c) (tag (id_class (m_core m)))
                   else match dget (std_key c) (m_classes m) with Some c' => N.eqb (tag c) (tag c') | None => false end) every_class.

(** ** Looking up metaschemas. *)

(** JSON.__bool__, json.py:211-213, of a schema object. *)
Definition has_data (c : cat) (s : sid) : bool :=
  match nth_error (c_objs c) s with
  | Some o => match so_data o with SBool b => b | SObj [] => false | SObj _ => true end
  | None => false
  end.
(** Catalog.get_metaschema, catalog/__init__.py:253-265, as far as the cache
    goes: None if the metaschema has to be created. *)
Definition cached_metaschema (st : mcat) (u : uri) : option (res (sid * meta)) :=
  match cached meta_id u (c_cache (mc_cat st)) with
  | Some s => if has_data (mc_cat st) s
              then Some (match meta_at st s with Some m => Ok (s, m) | None => Exn ECatalog end)
              else None
  | None => None
  end.
(** What construction sees in a catalog: [E] with the metaschemas cached. *)
Definition with_dialects (d : uri -> option (list stdclass)) : env :=
  mkEnv (e_lib E) (e_sources E) (e_formats E) (e_validators E) d (e_regex E) (e_uuid E).
Definition known_dialects (st : mcat) (u : uri) : option (list stdclass) :=
  match cached_metaschema st u with Some (Ok (_, m)) => Some (provided m) | _ => None end.
Definition env_in (st : mcat) : env := with_dialects (known_dialects st).

(** ** Making metaschemas. *)

(** Does the document leave its URI as it is? *)
Definition same_id (u : uri) (ms : list (pystr * json)) : bool :=
  match dget (lit "$id") ms with
  | Some (JStr t) =>
      let i := ul_parse (e_lib E) t in
      uri_eqb u (if ul_absolute (e_lib E) i then i else ul_resolve (e_lib E) i (no_fragment u))
  | _ => true
  end.
Definition has_keyword (c : cat) (s : sid) (key : pystr) : bool :=
  match nth_error (c_objs c) s with Some o => match so_data o with SObj kws => dmem key kws | _ => false end | None => false end.

(** Metaschema(catalog, value, core, *defaults, uri=u), vocabulary/__init__.py:37-84,
    with JSONSchema.__init__ (jsonschema.py:27-125) as in Build.v.  If the
    VocabularyKeyword raises, the object has been cached and has at most the
    keyword $schema; if $id raises, the classes of the core vocabulary have not
    been added.  A value other than a dict has no get. *)
Definition new_metaschema (fuel : nat) (u : uri) (v : json) (core : option vocab) (defaults : list vocab) (st : mcat) : res sid * mcat :=
  match v with
  | JObj ms =>
      match core_vocabulary (mc_vocabs st) (dget (lit "$vocabulary") ms) core with
      | Exn e => (Exn e, st)
      | Fuel => (Fuel, st)
      | Ok vc =>
          let s := length (c_objs (mc_cat st)) in
          let listed := dget (lit "$vocabulary") ms in
          let '(d, raised) := match listed with Some x => vocabulary_keyword (mc_vocabs st) vc x | None => ([], None) end in
          match raised with
          | Some e =>
              let '(r, c) :=
                (do s <- new_schema meta_id (Some u) None None (SObj []);
                 do _ <- match dget (lit "$schema") ms with
                         | Some x => add_keyword E s [(lit "$schema", mkMember x (fun _ => throw EOther) [])] (lit "$schema") (Std KSchema_)
                         | None => ret tt
                         end;
                 throw e) (mc_cat st) in
              (r, mkMcat c (mc_vocabs st) ((s, mkMeta (v_uri vc) d) :: mc_metas st))
          | None =>
              if same_id u ms then
                let full := complete_classes (match listed with Some _ => true | None => false end) vc defaults d in
                let own := mkMeta (v_uri vc) full in
                let '(r, c) :=
                  construct (with_dialects (fun w => if uri_eqb w u then Some (provided own) else known_dialects st w))
                    fuel meta_id v (Some u) None (mc_cat st) in
                let reached := negb (dmem (lit "$id") ms) || has_keyword c s (lit "$id") in
                (r, mkMcat c (mc_vocabs st) ((s, mkMeta (v_uri vc) (if reached then full else d)) :: mc_metas st))
              else (Fuel, st)
          end
      end
  | _ => (Exn EAttribute, st)
  end.

(** JSONSchema.validate: the metaschema evaluates the schema as an instance.
    [W] is how evaluation sees the catalog; a metaschema that would have to be
    loaded is not followed. *)
Definition validate (W : world) (fuel : nat) (s : sid) (st : mcat) : res bool :=
  match metaschema_uri (c_objs (mc_cat st)) s with
  | None => Exn ESchema
  | Some u =>
      match cached_metaschema st u, schema_value (length (c_objs (mc_cat st))) (c_objs (mc_cat st)) s with
      | Some (Ok (t, _)), Some x => let* r := evaluate_root W fuel t (mkInst [] x) in Ok (r_valid r)
      | Some (Exn e), _ => Exn e
      | _, _ => Fuel
      end
  end.

(** [see] gives the evaluator's view of a catalog. *)
Variable see : cat -> world.

(** Catalog.create_metaschema, catalog/__init__.py:191-238. *)
Fixpoint all_vocabularies (vs : list vocab) (us : list uri) : res (list vocab) :=
  match us with
  | [] => Ok []
  | u :: r => let* v := get_vocabulary vs u in let* l := all_vocabularies vs r in Ok (v :: l)
  end.
Definition default_core (vs : list vocab) (core : option uri) : res (option vocab) :=
  match core with
  | Some u => match uri_str u with [] => Ok None | _ => let* v := get_vocabulary vs u in Ok (Some v) end
  | None => Ok None
  end.
Definition create_metaschema (fuel : nat) (u : uri) (core : option uri) (defaults : list uri) (st : mcat) : res sid * mcat :=
  match (let* v := load_json (e_lib E) (e_sources E) u in
         let* vc := default_core (mc_vocabs st) core in
         let* vs := all_vocabularies (mc_vocabs st) defaults in
         Ok (v, vc, vs)) with
  | Ok (v, vc, vs) =>
      match new_metaschema fuel u v vc vs st with
      | (Ok s, st') =>
          (match validate (see (mc_cat st')) fuel s st' with
           | Ok true => Ok s
           | Ok false => Exn ECatalog
           | Exn e => Exn e
           | Fuel => Fuel
           end, st')
      | r => r
      end
  | Exn e => (Exn e, st)
  | Fuel => (Fuel, st)
  end.
(** Catalog.get_metaschema, catalog/__init__.py:240-265.  A metaschema just
    created is an instance of Metaschema. *)
Definition get_metaschema (fuel : nat) (u : uri) (st : mcat) : res sid * mcat :=
  match cached_metaschema st u with
  | Some r => (let* p := r in Ok (fst p), st)
  | None => create_metaschema fuel u None [] st
  end.
End Env.

(** ** The standard vocabularies. *)
Inductive version : Set := V2019 | V2020 | VNext.
Definition version_name (v : version) : pystr := match v with V2019 => lit "2019-09" | V2020 => lit "2020-12" | VNext => lit "next" end.
Definition draft (v : version) (name : string) : pystr := lit "https://json-schema.org/draft/" ++ version_name v ++ lit "/" ++ lit name.
(** catalog/_2019_09.py:19-98, _2020_12.py:18-101, _next.py:19-102; the core
    vocabulary first. *)
Definition standard_vocabularies (v : version) : list (pystr * list stdclass) :=
  map (fun nc => (draft v (fst nc), snd nc))
    ([("vocab/core"%string, match v with
                     | V2019 => [KSchema_; KVocabulary_; KId_; KRef; KAnchor; KRecursiveRef; KRecursiveAnchor; KDefs; KComment_]
                     | V2020 => [KSchema_; KVocabulary_; KId_; KRef; KAnchor; KDynamicRef; KDynamicAnchor; KDefs; KComment_]
                     | VNext => [KSchema_; KVocabulary_; KIdNext; KRef; KAnchor; KDynamicRef; KDynamicAnchor; KDefs; KComment_]
                     end);
      ("vocab/applicator"%string, match v with
                           | V2019 => [KAllOf; KAnyOf; KOneOf; KNot; KIf; KThen; KElse; KDependentSchemas; KItems2019; KAdditionalItems; KUnevaluatedItems2019;
                                       KContains; KProperties; KPatternProperties; KAdditionalProperties; KUnevaluatedProperties2019; KPropertyNames]
                           | _ => [KAllOf; KAnyOf; KOneOf; KNot; KIf; KThen; KElse; KDependentSchemas; KPrefixItems; KItems; KContains; KProperties;
                                   KPatternProperties; KAdditionalProperties; KPropertyNames]
                           end)] ++
     match v with V2019 => [] | _ => [("vocab/unevaluated"%string, [KUnevaluatedItems; KUnevaluatedProperties])] end ++
     [("vocab/validation"%string, vocab_validation);
      (match v with V2019 => "vocab/format"%string | _ => "vocab/format-annotation"%string end, [KFormat]);
      ("vocab/meta-data"%string, [KTitle; KDescription; KDefault; KDeprecated; KReadOnly; KWriteOnly; KExamples]);
      ("vocab/content"%string, [KContentMediaType; KContentEncoding; KContentSchema])]).
(** initialize, up to the creation of the metaschema: the vocabularies of a
    version, for a [parse] that makes URIs. *)
Definition create_standard (parse : pystr -> uri) (v : version) (st : mcat) : mcat :=
  fold_left (fun st nc => create_vocabulary (parse (fst nc)) (snd nc) st) (standard_vocabularies v) st.
(** catalog/_2019_09.py:100-108, _2020_12.py:103-112, _next.py:104-113. *)
Definition create_standard_metaschema (E : env) (see : cat -> world) (fuel : nat) (v : version) (st : mcat) : res sid * mcat :=
  match map (fun nc => ul_parse (e_lib E) (fst nc)) (standard_vocabularies v) with
  | core :: others => create_metaschema E see fuel (ul_parse (e_lib E) (draft v "schema"%string)) (Some core) others st
  | [] => (Exn EOther, st)
  end.
