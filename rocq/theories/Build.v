(** Construction of schemas: JSONSchema.__init__, _bootstrap,
    _resolve_references (jsonschema.py:27-166), the URI properties (263-340),
    Keyword.__init__ and the subschema mixins (vocabulary/__init__.py:141-150,
    168-221), the constructors and resolve methods of the keyword classes, and
    Catalog.get_schema (catalog/__init__.py:313-368).

    Simplifications.
    - Metaschemas are given as a table from URIs to the keyword classes they
      provide; see Meta.v for how that table comes about.
    - A keyword value of a type its metaschema forbids: where the code formats
      it into a URI ($anchor, $dynamicAnchor), the model raises. *)
From Verif Require Export Catalog Deps Quote Order.
Open Scope nat_scope.

(** A JSONSchema object: _uri, _metaschema_uri, the parentschema with the keys
    that lead from it to this schema (jsonschema.py:222-232), cacheid, and
    data/keywords. *)
Record sobj : Set := mkObj {
  so_uri : option uri;
  so_meta : option uri;
  so_up : option (sid * list pystr);
  so_cache : pystr;
  so_data : snode
}.

(** All schema objects made so far, a [sid] being the position of one, and the
    caches of the catalog. *)
Record cat : Set := mkCat { c_objs : list sobj; c_cache : caches }.

(** What construction reads: rfc3986, the sources, the enabled formats, the
    types covered by registered format validators (format.py:44,
    _format_validators), the keyword classes of each metaschema, which strings
    re.compile accepts, and the fresh URIs of jsonschema.py:106. *)
Record env : Type := mkEnv {
  e_lib : urilib;
  e_sources : sources;
  e_formats : list pystr;
  e_validators : pystr -> option (list jtype);
  e_dialect : uri -> option (list stdclass);
  e_regex : pystr -> bool;
  e_uuid : nat -> uri
}.

(** ** Computations that read and change the catalog. *)
Definition M (A : Type) : Type := cat -> res A * cat.
Definition ret {A} (a : A) : M A := fun c => (Ok a, c).
Definition throw {A} (e : exn) : M A := fun c => (Exn e, c).
Definition lift {A} (r : res A) : M A := fun c => (r, c).
Definition bindM {A B} (x : M A) (f : A -> M B) : M B :=
  fun c => match x c with
           | (Ok a, c') => f a c'
           | (Exn e, c') => (Exn e, c')
           | (Fuel, c') => (Fuel, c')
           end.
Notation "'do' x '<-' a ';' b" := (bindM a (fun x => b))
  (at level 200, x pattern, a at level 100, b at level 200, right associativity).
Definition read {A} (f : cat -> A) : M A := fun c => (Ok (f c), c).
Definition modify (f : cat -> cat) : M unit := fun c => (Ok tt, f c).
Fixpoint each_ {A} (f : A -> M unit) (l : list A) : M unit :=
  match l with [] => ret tt | x :: r => do _ <- f x; each_ f r end.
Fixpoint mapM {A B} (f : A -> M B) (l : list A) : M (list B) :=
  match l with [] => ret [] | x :: r => do y <- f x; do ys <- mapM f r; ret (y :: ys) end.

(** The list with its n-th element replaced. *)
Fixpoint set_nth {A} (n : nat) (x : A) (l : list A) : list A :=
  match l, n with
  | [], _ => []
  | _ :: r, O => x :: r
  | y :: r, S n => y :: set_nth n x r
  end.
Definition put_obj (s : sid) (o : sobj) (c : cat) : cat := mkCat (set_nth s o (c_objs c)) (c_cache c).
Definition update (s : sid) (f : sobj -> sobj) : M unit :=
  modify (fun c => match nth_error (c_objs c) s with Some o => put_obj s (f o) c | None => c end).
Definition with_uri (u : option uri) (o : sobj) : sobj := mkObj u (so_meta o) (so_up o) (so_cache o) (so_data o).
Definition with_meta (m : option uri) (o : sobj) : sobj := mkObj (so_uri o) m (so_up o) (so_cache o) (so_data o).
Definition with_data (d : snode) (o : sobj) : sobj := mkObj (so_uri o) (so_meta o) (so_up o) (so_cache o) d.
Definition cache_schema (cacheid : pystr) (u : uri) (s : sid) : M unit :=
  modify (fun c => mkCat (c_objs c) (add_schema cacheid u s (c_cache c))).
Definition uncache_schema (cacheid : pystr) (u : uri) : M unit :=
  modify (fun c => mkCat (c_objs c) (del_schema cacheid u (c_cache c))).

(** ** URIs of schemas. *)

(** Going up from schema to parent schema until [f] has an answer.  Parents
    are made before their children, so [S s] steps suffice. *)
Fixpoint climb {A} (steps : nat) (objs : list sobj) (f : sobj -> option A) (s : sid) : option A :=
  match steps with
  | O => None
  | S n => match nth_error objs s with
           | None => None
           | Some o => match f o with
                       | Some a => Some a
                       | None => match so_up o with Some (p, _) => climb n objs f p | None => None end
                       end
           end
  end.
(** JSONSchema.base_uri, jsonschema.py:287-297. *)
Definition base_uri (objs : list sobj) (s : sid) : option uri := option_map no_fragment (climb (S s) objs so_uri s).
(** JSONSchema.metaschema_uri, jsonschema.py:271-281. *)
Definition metaschema_uri (objs : list sobj) (s : sid) : option uri := climb (S s) objs so_meta s.

(** JSONSchema.uri setter, jsonschema.py:307-316: nothing happens if the schema
    has the URI, possibly written otherwise. *)
Definition set_uri (L : urilib) (s : sid) (u : uri) : M unit :=
  do o <- read (fun c => nth_error (c_objs c) s);
  match o with
  | None => ret tt
  | Some o =>
      if match so_uri o with Some u' => uri_same L u' u | None => false end then ret tt
      else
        do _ <- match so_uri o with Some u' => uncache_schema (so_cache o) u' | None => ret tt end;
        do _ <- update s (with_uri (Some u));
        cache_schema (so_cache o) u s
  end.

(** ** Keyword objects. *)

(** The subschema mixins of a class in the order of its bases
    (vocabulary/__init__.py:142-146). *)
Inductive mixin : Set := MSub | MArr | MObj.
Definition mixins (c : kwclass) : list mixin :=
  match c with
  | Std (KNot | KIf | KThen | KElse | KItems | KUnevaluatedItems | KContains | KAdditionalProperties | KUnevaluatedProperties
        | KPropertyNames | KAdditionalItems | KUnevaluatedItems2019 | KUnevaluatedProperties2019) => [MSub]
  | Std (KAllOf | KAnyOf | KOneOf | KPrefixItems) => [MArr]
  | Std (KDefs | KDependentSchemas | KProperties | KPatternProperties) => [MObj]
  | Std KItems2019 => [MSub; MArr]
  | _ => []
  end.

(** A schema object to be made with given parent schema and keys. *)
Definition builder := (sid * list pystr) -> M sid.
(** A member of a schema document: its value, and what JSONSchema(...) would
    do with that value and with each of its items. *)
Record member : Type := mkMember { mb_value : json; mb_schema : builder; mb_items : list (pystr * builder) }.

(** Subschema.jsonify, ArrayOfSubschemas.jsonify, ObjectOfSubschemas.jsonify,
    vocabulary/__init__.py:174-221; None is Python's None.  A str is a
    Sequence, hence the string case of MArr. *)
Definition jsonify (s : sid) (key : pystr) (x : member) (m : mixin) : option (M kjson) :=
  match m, mb_value x with
  | MSub, (JBool _ | JObj _) => Some (do t <- mb_schema x (s, [key]); ret (KSub t))
  | MArr, JArr _ => Some (do ts <- mapM (fun kb => snd kb (s, [key; fst kb])) (mb_items x); ret (KSubs ts))
  | MArr, JStr t => Some (ret (KJ (JStr t)))
  | MObj, JObj _ =>
      Some (do ts <- mapM (fun kb => do t <- snd kb (s, [key; fst kb]); ret (fst kb, t)) (mb_items x); ret (KSubm ts))
  | _, _ => None
  end.
(** Keyword.__init__, vocabulary/__init__.py:141-150.  The last class of the
    mixin classes is SubschemaMixin itself, whose jsonify raises
    NotImplementedError (lines 169-171). *)
Fixpoint try_mixins (s : sid) (key : pystr) (x : member) (ms : list mixin) : M kjson :=
  match ms with
  | [] => throw EOther
  | m :: r => match jsonify s key x m with Some j => j | None => try_mixins s key x r end
  end.
Definition keyword_json (s : sid) (key : pystr) (c : kwclass) (x : member) : M kjson :=
  match mixins c with [] => ret (KJ (mb_value x)) | ms => try_mixins s key x ms end.

Section Env.
Variable E : env.

(** URI(value); rfc3986 raises TypeError for anything but a string. *)
Definition parse_uri (v : json) : res uri := match v with JStr t => Ok (ul_parse (e_lib E) t) | _ => Exn EType end.

(** IdKeyword and IdKeyword_Next, core.py:69-79 and future.py:15-25. *)
Definition init_id (next : bool) (s : sid) (v : json) : M unit :=
  do u <- lift (parse_uri v);
  do _ <- lift (uri_validate (e_lib E) false false (negb next) next u);
  do c <- read c_objs;
  do u <- (if ul_absolute (e_lib E) u then ret u
           else match base_uri c s with Some b => ret (ul_resolve (e_lib E) u b) | None => throw ESchema end);
  set_uri (e_lib E) s u.

(** AnchorKeyword and DynamicAnchorKeyword, core.py:110-118, 176-184. *)
Definition init_anchor (s : sid) (v : json) : M unit :=
  do c <- read c_objs;
  match v, base_uri c s, nth_error c s with
  | JStr t, Some b, Some o => cache_schema (so_cache o) (ul_parse (e_lib E) (uri_str b ++ 35%N :: t)) s
  | JStr _, _, _ => throw ESchema
  | _, _, _ => throw EOther
  end.

(** SchemaKeyword, core.py:26-34. *)
Definition init_schema (s : sid) (v : json) : M unit :=
  do u <- lift (parse_uri v);
  do _ <- lift (match uri_validate (e_lib E) true true true true u with Exn EURI => Exn ESchema | r => r end);
  update s (with_meta (Some u)).

(** FormatKeyword, format.py:17-22.  Asking whether a list or dict is in the
    set of enabled formats raises TypeError. *)
Definition init_format (v : json) : res (option (list jtype)) :=
  match v with
  | JStr a => if is_format_enabled a (e_formats E)
              then match e_validators E a with Some types => Ok (Some types) | None => Exn EKey end
              else Ok None
  | JArr _ | JObj _ => Exn EType
  | _ => Ok None
  end.

(** kwclass(self, value), jsonschema.py:117 and 136, 149: the json attribute
    first, then the rest of the constructor of the class. *)
Definition make_keyword (s : sid) (key : pystr) (c : kwclass) (x : member) : M keyword :=
  let v := mb_value x in
  do j <- keyword_json s key c x;
  match c with
  | Std KSchema_ => do _ <- init_schema s v; ret (mkKw c j None false [] None)
  | Std KId_ => do _ <- init_id false s v; ret (mkKw c j None false [] None)
  | Std KIdNext => do _ <- init_id true s v; ret (mkKw c j None false [] None)
  | Std (KAnchor | KDynamicAnchor) => do _ <- init_anchor s v; ret (mkKw c j None false [] None)
  | Std KDynamicRef =>
      do u <- lift (parse_uri v);
      ret (mkKw c j None false (match u_frag u with Some f => f | None => [] end) None)
  | Std KRecursiveRef =>
      match v with
      | JStr t => if str_eqb t (lit "#") then ret (mkKw c j None false [] None) else throw ESchema
      | _ => throw ESchema
      end
  | Std KPattern =>
      match v with
      | JStr t => if e_regex E t then ret (mkKw c j None false [] None) else throw ERegex
      | _ => throw EType
      end
  | Std KFormat => do f <- lift (init_format v); ret (mkKw c j None false [] f)
  | _ => ret (mkKw c j None false [] None)
  end.

(** self.keywords[key] = kw; self.data[key] = kw.json. *)
Definition keep_keyword (s : sid) (key : pystr) (k : keyword) : M unit :=
  update s (fun o => with_data (match so_data o with SObj kws => SObj (dset key k kws) | d => d end) o).
Definition add_keyword (s : sid) (members : list (pystr * member)) (key : pystr) (c : kwclass) : M unit :=
  match dget key members with
  | Some x => do k <- make_keyword s key c x; keep_keyword s key k
  | None => ret tt
  end.

(** JSONSchema.metaschema, jsonschema.py:263-269. *)
Definition metaschema (s : sid) : M (list stdclass) :=
  do c <- read c_objs;
  match metaschema_uri c s with
  | None => throw ESchema
  | Some u => match e_dialect E u with Some d => ret d | None => throw ECatalog end
  end.

(** JSONSchema._bootstrap, jsonschema.py:127-151.  Which class $id gets is
    decided there by the URI of the core vocabulary; that vocabulary provides
    the same class under the key $id. *)
Definition bootstrap (s : sid) (members : list (pystr * member)) : M unit :=
  do _ <- add_keyword s members (lit "$schema") (Std KSchema_);
  do _ <- add_keyword s members (lit "$vocabulary") (Std KVocabulary_);
  if dmem (lit "$id") members then
    do d <- metaschema s;
    add_keyword s members (lit "$id") (match find_class d (lit "$id") with Some KId_ => Std KId_ | _ => Std KIdNext end)
  else ret tt.

(** jsonschema.py:110-114: the classes of the keywords not yet made. *)
Definition classes (s : sid) (ks : list pystr) : M (list (pystr * kwclass)) :=
  mapM (fun key => do d <- metaschema s; do c <- lift (get_kwclass d key); ret (key, c)) ks.

(** jsonschema.py:101-119, up to the resolution of references. *)
Definition build_object (s : sid) (members : list (pystr * member)) : M unit :=
  do o <- read (fun c => nth_error (c_objs c) s);
  do _ <- match o with
          | Some (mkObj None _ None _ _) => set_uri (e_lib E) s (e_uuid E s)
          | _ => ret tt
          end;
  do _ <- bootstrap s members;
  do cs <- classes s (filter (fun key => negb (mem_str key bootstrapped)) (keys members));
  do order <- lift (resolve_dependencies kwclass_eqb depends_on (length cs) cs);
  each_ (fun c => add_keyword s members (key_of c) c) order.

(** Making the object: jsonschema.py:55-103. *)
Definition new_schema (cacheid : pystr) (u m : option uri) (up : option (sid * list pystr)) (d : snode) : M sid :=
  do s <- read (fun c => length (c_objs c));
  do _ <- modify (fun c => mkCat (c_objs c ++ [mkObj u m up cacheid d]) (c_cache c));
  do _ <- match u with Some u => cache_schema cacheid u s | None => ret tt end;
  ret s.

(** JSONSchema(value, ...), jsonschema.py:27-125, without lines 121-122. *)
Fixpoint build (cacheid : pystr) (v : json) (u m : option uri) (up : option (sid * list pystr)) {struct v} : M sid :=
  match v with
  | JBool b => new_schema cacheid u m up (SBool b)
  | JObj ms =>
      do s <- new_schema cacheid u m up (SObj []);
      do _ <- build_object s
        (map (fun kv => (fst kv,
                mkMember (snd kv) (fun up => build cacheid (snd kv) None None (Some up))
                  (match snd kv with
                   | JArr l =>
                       (fix number (k : nat) (l : list json) : list (pystr * builder) :=
                          match l with
                          | [] => []
                          | x :: r => (str_of_nat k, fun up => build cacheid x None None (Some up)) :: number (S k) r
                          end) 0 l
                   | JObj m' => map (fun kv' => (fst kv', fun up => build cacheid (snd kv') None None (Some up))) m'
                   | _ => []
                   end))) ms);
      ret s
  | _ => do _ <- new_schema cacheid u m up (SObj []); throw EType
  end.

(** ** References. *)

(** The schemas of the catalog, for JSON pointers and dynamic anchors. *)
Definition objs_world (objs : list sobj) : world :=
  mkWorld (fun s => match nth_error objs s with Some o => so_data o | None => SBool true end)
          (fun s => option_map uri_str (base_uri objs s))
          (fun _ _ => None) (fun _ _ => None) (fun m e => (m, e)) (fun _ _ => true) (fun _ _ => []).

(** except JSONPointerError as e: raise CatalogError. *)
Definition pointer_to_catalog {A} (r : res A) : res A :=
  match r with Exn e => if is_pointer_error e then Exn ECatalog else Exn e | _ => r end.

(** [resolve] stands for _resolve_references on the root of a newly loaded
    document. *)
Section References.
Variable resolve : sid -> M unit.

(** JSONSchema(value, ...) for a document root, jsonschema.py:27-125. *)
Definition construct_with (cacheid : pystr) (v : json) (u m : option uri) : M sid :=
  do s <- build cacheid v u m None;
  match v with
  | JObj _ => do _ <- resolve s; ret s
  | _ => ret s
  end.

(** Catalog.get_schema, catalog/__init__.py:330-368. *)
Definition get_schema_with (cacheid : pystr) (u : uri) (m : option uri) : M sid :=
  do hit <- read (fun c => cached cacheid u (c_cache c));
  match hit with
  | Some s => ret s
  | None =>
      let base := no_fragment u in
      do known <- read (fun c => match u_frag u with Some _ => cached cacheid base (c_cache c) | None => None end);
      do r <- match known with
              | Some s => ret (s, None)
              | None =>
                  do doc <- lift (load_json (e_lib E) (e_sources E) base);
                  do s <- construct_with cacheid doc (Some base) m;
                  do again <- read (fun c => cached cacheid u (c_cache c));
                  ret (s, again)
              end;
      match r with
      | (_, Some s) => ret s
      | (s, None) =>
          match u_frag u with
          | Some ((_ :: _) as f) =>
              do objs <- read c_objs;
              do n <- lift (pointer_to_catalog (let* p := parse_uri_fragment f in sn_walk (objs_world objs) (SNSchema s) p));
              match n with SNSchema t => ret t | SNJson _ => throw ECatalog end
          | _ => ret s
          end
      end
  end.

(** The resolve methods, core.py:89-99, 129-143 and legacy.py:26-34. *)
Definition reference_class (c : kwclass) : bool :=
  match c with Std (KRef | KDynamicRef | KRecursiveRef) => true | _ => false end.
Definition absolute_reference (s : sid) (v : kjson) : M uri :=
  do u <- lift (match v with KJ v => parse_uri v | _ => Exn EType end);
  do objs <- read c_objs;
  if ul_absolute (e_lib E) (no_fragment u) then ret u
  else match base_uri objs s with Some b => ret (ul_resolve (e_lib E) u b) | None => throw ESchema end.
Definition set_ref (s : sid) (key : pystr) (t : sid) (dynamic : bool) : M unit :=
  update s (fun o => with_data (match so_data o with
                                | SObj kws => SObj (map (fun kk => if str_eqb (fst kk) key
                                                                   then (fst kk, mkKw (kw_class (snd kk)) (kw_json (snd kk)) (Some t) (dynamic || kw_dynamic (snd kk))
                                                                                      (kw_fragment (snd kk)) (kw_format (snd kk)))
                                                                   else kk) kws)
                                | d => d
                                end) o).
Definition resolve_keyword (s : sid) (key : pystr) (k : keyword) : M unit :=
  do objs <- read c_objs;
  let cacheid := match nth_error objs s with Some o => so_cache o | None => [] end in
  match kw_class k with
  | Std KDynamicRef =>
      do u <- absolute_reference s (kw_json k);
      do t <- get_schema_with cacheid u (metaschema_uri objs s);
      do _ <- set_ref s key t false;
      do objs <- read c_objs;
      do b <- lift (has_dynamic_anchor (objs_world objs) t (kw_fragment k));
      if b then set_ref s key t true else ret tt
  | Std KRecursiveRef =>
      match base_uri objs s with
      | Some b => do t <- get_schema_with cacheid b (metaschema_uri objs s); set_ref s key t false
      | None => throw ESchema
      end
  | _ =>
      do u <- absolute_reference s (kw_json k);
      do t <- get_schema_with cacheid u (metaschema_uri objs s);
      set_ref s key t false
  end.
End References.

(** JSONSchema._resolve_references, jsonschema.py:153-166.  A nested call uses
    one unit of fuel; running out stands for a recursion that goes on (Python
    raises RecursionError in the end). *)
Fixpoint resolve_references (fuel : nat) (s : sid) : M unit :=
  match fuel with
  | O => fun c => (Fuel, c)
  | S f =>
      do kws <- read (fun c => schema_keywords (objs_world (c_objs c)) s);
      each_ (fun kk =>
               if reference_class (kw_class (snd kk)) then resolve_keyword (resolve_references f) s (fst kk) (snd kk)
               else match kw_json (snd kk) with
                    | KSub t => resolve_references f t
                    | KSubs ts => each_ (resolve_references f) ts
                    | KSubm ts => each_ (fun kt => resolve_references f (snd kt)) ts
                    | KJ _ => ret tt
                    end) kws
  end.

Definition construct (fuel : nat) := construct_with (resolve_references fuel).
Definition get_schema (fuel : nat) := get_schema_with (resolve_references fuel).
End Env.

(** JSONSchema.canonical_uri, jsonschema.py:318-340: the URI of the schema, or
    that of the nearest schema above it that has one, with the keys from there
    as fragment. *)
Fixpoint canonical_base (steps : nat) (objs : list sobj) (s : sid) (ks : list pystr) : option (sid * uri * list pystr) :=
  match steps with
  | O => None
  | S n => match nth_error objs s with
           | None => None
           | Some o => match so_uri o with
                       | Some u => Some (s, u, ks)
                       | None => match so_up o with Some (p, up) => canonical_base n objs p (up ++ ks) | None => None end
                       end
           end
  end.
Definition canonical_uri (objs : list sobj) (s : sid) : res (option uri) :=
  match nth_error objs s with
  | Some (mkObj (Some u) _ _ _ _) => Ok (Some u)
  | _ => match canonical_base (S s) objs s [] with
         | None => Ok None
         | Some (_, u, ks) =>
             let* rel := match u_frag u with
                         | Some ((_ :: _) as f) => let* p := parse_uri_fragment f in Ok (p ++ ks)
                         | _ => Ok ks
                         end in
             let* f := uri_fragment rel in
             Ok (Some (with_fragment u f))
         end
  end.
