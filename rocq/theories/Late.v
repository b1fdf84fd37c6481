(** Construction that loads metaschemas when it comes to need them:
    JSONSchema.metaschema (jsonschema.py:263-269) calls Catalog.get_metaschema,
    which loads and builds a metaschema that is not cached
    (catalog/__init__.py:240-265) in the middle of building another schema.

    In Build.v the metaschemas are a table and in Meta.v a metaschema not loaded
    before is not found.  Here the same steps are written for a catalog with its
    vocabularies and metaschemas ([mcat]), and the lookup of a metaschema may
    change that catalog.  A metaschema document may give itself another URI.

    Simplifications.
    - A metaschema is validated by the metaschema that is found under its URI,
      without loading it again; where there is none the model says nothing.
    - While a metaschema is built its classes are taken to be complete.  Until
      _bootstrap has run they lack those of the core vocabulary, but only the
      core vocabulary itself is asked for until then. *)
From Verif Require Export Meta.
Open Scope nat_scope.

(** ** Computations on a catalog with metaschemas. *)
Definition ML (A : Type) : Type := mcat -> res A * mcat.
Definition retL {A} (a : A) : ML A := fun st => (Ok a, st).
Definition throwL {A} (e : exn) : ML A := fun st => (Exn e, st).
Definition liftL {A} (r : res A) : ML A := fun st => (r, st).
Definition bindL {A B} (x : ML A) (f : A -> ML B) : ML B :=
  fun st => match x st with
            | (Ok a, st') => f a st'
            | (Exn e, st') => (Exn e, st')
            | (Fuel, st') => (Fuel, st')
            end.
Notation "'mdo' x '<-' a ';' b" := (bindL a (fun x => b))
  (at level 200, x pattern, a at level 100, b at level 200, right associativity).
(** A computation of Build.v, which leaves vocabularies and metaschemas alone. *)
Definition with_cat (c : cat) (st : mcat) : mcat := mkMcat c (mc_vocabs st) (mc_metas st).
Definition on_cat {A} (x : M A) : ML A := fun st => let '(r, c) := x (mc_cat st) in (r, with_cat c st).
Fixpoint eachL {A} (f : A -> ML unit) (l : list A) : ML unit :=
  match l with [] => retL tt | x :: r => mdo _ <- f x; eachL f r end.
Fixpoint mapL {A B} (f : A -> ML B) (l : list A) : ML (list B) :=
  match l with [] => retL [] | x :: r => mdo y <- f x; mdo ys <- mapL f r; retL (y :: ys) end.

(** ** Keyword objects, as in Build.v. *)
Definition builderL := (sid * list pystr) -> ML sid.
Record memberL : Type := mkMemberL { ml_value : json; ml_schema : builderL; ml_items : list (pystr * builderL) }.
(** vocabulary/__init__.py:174-221. *)
Definition jsonifyL (s : sid) (key : pystr) (x : memberL) (m : mixin) : option (ML kjson) :=
  match m, ml_value x with
  | MSub, (JBool _ | JObj _) => Some (mdo t <- ml_schema x (s, [key]); retL (KSub t))
  | MArr, JArr _ => Some (mdo ts <- mapL (fun kb => snd kb (s, [key; fst kb])) (ml_items x); retL (KSubs ts))
  | MArr, JStr t => Some (retL (KJ (JStr t)))
  | MObj, JObj _ =>
      Some (mdo ts <- mapL (fun kb => mdo t <- snd kb (s, [key; fst kb]); retL (fst kb, t)) (ml_items x); retL (KSubm ts))
  | _, _ => None
  end.
(** vocabulary/__init__.py:141-150. *)
Fixpoint try_mixinsL (s : sid) (key : pystr) (x : memberL) (ms : list mixin) : ML kjson :=
  match ms with
  | [] => throwL EOther
  | m :: r => match jsonifyL s key x m with Some j => j | None => try_mixinsL s key x r end
  end.
Definition keyword_jsonL (s : sid) (key : pystr) (c : kwclass) (x : memberL) : ML kjson :=
  match mixins c with [] => retL (KJ (ml_value x)) | ms => try_mixinsL s key x ms end.

Section Env.
Variable E : env.

(** The constructors of the keyword classes after the json attribute is there:
    core.py:26-34, 69-79, 110-118, 124-129, 176-184, legacy.py:19-24,
    validation.py:136-138, format.py:17-22, future.py:15-25. *)
Definition rest_of_keyword (s : sid) (c : kwclass) (v : json) (j : kjson) : M keyword :=
  match c with
  | Std KSchema_ => do _ <- init_schema E s v; ret (mkKw c j None false [] None)
  | Std KId_ => do _ <- init_id E false s v; ret (mkKw c j None false [] None)
  | Std KIdNext => do _ <- init_id E true s v; ret (mkKw c j None false [] None)
  | Std (KAnchor | KDynamicAnchor) => do _ <- init_anchor E s v; ret (mkKw c j None false [] None)
  | Std KDynamicRef =>
      do u <- lift (parse_uri E v);
      ret (mkKw c j None false (match u_frag u with Some f => f | None => [] end) None)
  | Std KRecursiveRef =>
      match v with
      | JStr t => if str_eqb t (lit "#") then ret (mkKw c j None false [] None) else throw ESchema
      | _ => throw ESchema
      end
  | Std KPattern =>
      match v with
      | JStr t => if e_regex E t then ret (mkKw c j None false [] None) else throw ERegex
      | _ => throw EType
      end
  | Std KFormat => do f <- lift (init_format E v); ret (mkKw c j None false [] f)
  | _ => ret (mkKw c j None false [] None)
  end.
(** jsonschema.py:117-119, 136, 149. *)
Definition add_keywordL (s : sid) (members : list (pystr * memberL)) (key : pystr) (c : kwclass) : ML unit :=
  match dget key members with
  | Some x => mdo j <- keyword_jsonL s key c x;
              mdo k <- on_cat (rest_of_keyword s c (ml_value x) j);
              on_cat (keep_keyword s key k)
  | None => retL tt
  end.

(** How a metaschema is looked up. *)
Section Consult.
Variable consult : uri -> ML (list stdclass).

(** JSONSchema.metaschema, jsonschema.py:263-269. *)
Definition metaschemaL (s : sid) : ML (list stdclass) :=
  mdo c <- on_cat (read c_objs);
  match metaschema_uri c s with None => throwL ESchema | Some u => consult u end.
(** JSONSchema._bootstrap, jsonschema.py:127-151.  The metaschema is a cached
    property: the classes found here are those used from now on. *)
Definition bootstrapL (s : sid) (members : list (pystr * memberL)) : ML (option (list stdclass)) :=
  mdo _ <- add_keywordL s members (lit "$schema") (Std KSchema_);
  mdo _ <- add_keywordL s members (lit "$vocabulary") (Std KVocabulary_);
  if dmem (lit "$id") members then
    mdo d <- metaschemaL s;
    mdo _ <- add_keywordL s members (lit "$id") (match find_class d (lit "$id") with Some KId_ => Std KId_ | _ => Std KIdNext end);
    retL (Some d)
  else retL None.
(** jsonschema.py:110-114. *)
Fixpoint classesL (s : sid) (found : option (list stdclass)) (ks : list pystr) : ML (list (pystr * kwclass)) :=
  match ks with
  | [] => retL []
  | key :: r =>
      mdo d <- match found with Some d => retL d | None => metaschemaL s end;
      mdo c <- liftL (get_kwclass d key);
      mdo cs <- classesL s (Some d) r;
      retL ((key, c) :: cs)
  end.
(** jsonschema.py:101-119. *)
Definition build_objectL (s : sid) (members : list (pystr * memberL)) : ML unit :=
  mdo o <- on_cat (read (fun c => nth_error (c_objs c) s));
  mdo _ <- match o with
           | Some (mkObj None _ None _ _) => on_cat (set_uri (e_lib E) s (e_uuid E s))
           | _ => retL tt
           end;
  mdo found <- bootstrapL s members;
  mdo cs <- classesL s found (filter (fun key => negb (mem_str key bootstrapped)) (keys members));
  mdo order <- liftL (resolve_dependencies kwclass_eqb depends_on (length cs) cs);
  eachL (fun c => add_keywordL s members (key_of c) c) order.
(** JSONSchema(value, ...), jsonschema.py:27-125, without lines 121-122. *)
Fixpoint buildL (cacheid : pystr) (v : json) (u m : option uri) (up : option (sid * list pystr)) {struct v} : ML sid :=
  match v with
  | JBool b => on_cat (new_schema cacheid u m up (SBool b))
  | JObj ms =>
      mdo s <- on_cat (new_schema cacheid u m up (SObj []));
      mdo _ <- build_objectL s
        (map (fun kv => (fst kv,
                mkMemberL (snd kv) (fun up => buildL cacheid (snd kv) None None (Some up))
                  (match snd kv with
                   | JArr l =>
                       (fix number (k : nat) (l : list json) : list (pystr * builderL) :=
                          match l with
                          | [] => []
                          | x :: r => (str_of_nat k, fun up => buildL cacheid x None None (Some up)) :: number (S k) r
                          end) 0 l
                   | JObj m' => map (fun kv' => (fst kv', fun up => buildL cacheid (snd kv') None None (Some up))) m'
                   | _ => []
                   end))) ms);
      retL s
  | _ => mdo _ <- on_cat (new_schema cacheid u m up (SObj [])); throwL EType
  end.

(** ** References, as in Build.v. *)
Section References.
Variable resolve : sid -> ML unit.
(** jsonschema.py:27-125. *)
Definition construct_withL (cacheid : pystr) (v : json) (u m : option uri) : ML sid :=
  mdo s <- buildL cacheid v u m None;
  match v with
  | JObj _ => mdo _ <- resolve s; retL s
  | _ => retL s
  end.
(** Catalog.get_schema, catalog/__init__.py:330-368. *)
Definition get_schema_withL (cacheid : pystr) (u : uri) (m : option uri) : ML sid :=
  mdo hit <- on_cat (read (fun c => cached cacheid u (c_cache c)));
  match hit with
  | Some s => retL s
  | None =>
      let base := no_fragment u in
      mdo known <- on_cat (read (fun c => match u_frag u with Some _ => cached cacheid base (c_cache c) | None => None end));
      mdo r <- match known with
               | Some s => retL (s, None)
               | None =>
                   mdo doc <- liftL (load_json (e_lib E) (e_sources E) base);
                   mdo s <- construct_withL cacheid doc (Some base) m;
                   mdo again <- on_cat (read (fun c => cached cacheid u (c_cache c)));
                   retL (s, again)
               end;
      match r with
      | (_, Some s) => retL s
      | (s, None) =>
          match u_frag u with
          | Some ((_ :: _) as f) =>
              mdo objs <- on_cat (read c_objs);
              mdo n <- liftL (pointer_to_catalog (let* p := parse_uri_fragment f in sn_walk (objs_world objs) (SNSchema s) p));
              match n with SNSchema t => retL t | SNJson _ => throwL ECatalog end
          | _ => retL s
          end
      end
  end.
(** core.py:89-99, 129-143 and legacy.py:26-34. *)
Definition resolve_keywordL (s : sid) (key : pystr) (k : keyword) : ML unit :=
  mdo objs <- on_cat (read c_objs);
  let cacheid := match nth_error objs s with Some o => so_cache o | None => [] end in
  match kw_class k with
  | Std KDynamicRef =>
      mdo u <- on_cat (absolute_reference E s (kw_json k));
      mdo t <- get_schema_withL cacheid u (metaschema_uri objs s);
      mdo _ <- on_cat (set_ref s key t false);
      mdo objs <- on_cat (read c_objs);
      mdo b <- liftL (has_dynamic_anchor (objs_world objs) t (kw_fragment k));
      if b then on_cat (set_ref s key t true) else retL tt
  | Std KRecursiveRef =>
      match base_uri objs s with
      | Some b => mdo t <- get_schema_withL cacheid b (metaschema_uri objs s); on_cat (set_ref s key t false)
      | None => throwL ESchema
      end
  | _ =>
      mdo u <- on_cat (absolute_reference E s (kw_json k));
      mdo t <- get_schema_withL cacheid u (metaschema_uri objs s);
      on_cat (set_ref s key t false)
  end.
End References.
(** JSONSchema._resolve_references, jsonschema.py:153-166. *)
Fixpoint resolve_referencesL (fuel : nat) (s : sid) : ML unit :=
  match fuel with
  | O => fun st => (Fuel, st)
  | S f =>
      mdo kws <- on_cat (read (fun c => schema_keywords (objs_world (c_objs c)) s));
      eachL (fun kk =>
               if reference_class (kw_class (snd kk)) then resolve_keywordL (resolve_referencesL f) s (fst kk) (snd kk)
               else match kw_json (snd kk) with
                    | KSub t => resolve_referencesL f t
                    | KSubs ts => eachL (resolve_referencesL f) ts
                    | KSubm ts => eachL (fun kt => resolve_referencesL f (snd kt)) ts
                    | KJ _ => retL tt
                    end) kws
  end.

(** ** Making metaschemas. *)
(** [see] gives the evaluator's view of a catalog. *)
Variable see : cat -> world.
(** Metaschema(...), vocabulary/__init__.py:37-91.  If nothing can be built
    because $vocabulary is refused, Meta.new_metaschema says what happens. *)
Definition new_metaschemaL (fuel : nat) (u : uri) (v : json) (core : option vocab) (defaults : list vocab) : ML sid := fun st =>
  match v with
  | JObj ms =>
      let listed := dget (lit "$vocabulary") ms in
      match core_vocabulary E (mc_vocabs st) listed core with
      | Ok vc =>
          match match listed with Some x => vocabulary_keyword E (mc_vocabs st) vc x | None => ([], None) end with
          | (_, Some _) => new_metaschema E 0 u v core defaults st
          | (d, None) =>
              let s := length (c_objs (mc_cat st)) in
              let full := complete_classes (match listed with Some _ => true | None => false end) vc defaults d in
              let '(r, st') := construct_withL (resolve_referencesL fuel) meta_id v (Some u) None
                                 (mkMcat (mc_cat st) (mc_vocabs st) ((s, mkMeta (v_uri vc) full) :: mc_metas st)) in
              let reached := negb (dmem (lit "$id") ms) || has_keyword (mc_cat st') s (lit "$id") in
              (r, if reached then st' else mkMcat (mc_cat st') (mc_vocabs st') ((s, mkMeta (v_uri vc) d) :: mc_metas st'))
          end
      | Exn e => (Exn e, st)
      | Fuel => (Fuel, st)
      end
  | _ => (Exn EAttribute, st)
  end.
(** Catalog.create_metaschema, catalog/__init__.py:191-238. *)
Definition create_metaschemaL (fuel : nat) (u : uri) (core : option uri) (defaults : list uri) : ML sid := fun st =>
  match (let* v := load_json (e_lib E) (e_sources E) u in
         let* vc := default_core (mc_vocabs st) core in
         let* vs := all_vocabularies (mc_vocabs st) defaults in
         Ok (v, vc, vs)) with
  | Ok (v, vc, vs) =>
      match new_metaschemaL fuel u v vc vs st with
      | (Ok s, st') =>
          (match validate (see (mc_cat st')) fuel s st' with
           | Ok true => Ok s
           | Ok false => Exn ECatalog
           | Exn e => Exn e
           | Fuel => Fuel
           end, st')
      | r => r
      end
  | Exn e => (Exn e, st)
  | Fuel => (Fuel, st)
  end.
End Consult.

Variable see : cat -> world.
(** Catalog.get_metaschema, catalog/__init__.py:253-265, and the classes of
    what it returns.  Making a metaschema uses one unit of fuel. *)
Fixpoint find_metaschema (fuel : nat) (u : uri) : ML (sid * meta) := fun st =>
  match cached_metaschema st u with
  | Some r => (r, st)
  | None =>
      match fuel with
      | O => (Fuel, st)
      | S f =>
          (mdo s <- create_metaschemaL (fun w => mdo p <- find_metaschema f w; retL (provided (snd p))) see f u None [];
           fun st => (match meta_at st s with Some m => Ok (s, m) | None => Exn ECatalog end, st)) st
      end
  end.
Definition consult_late (fuel : nat) (u : uri) : ML (list stdclass) := mdo p <- find_metaschema fuel u; retL (provided (snd p)).
(** JSONSchema(...), Catalog.get_schema, create_metaschema and get_metaschema. *)
Definition constructL (fuel : nat) := construct_withL (consult_late fuel) (resolve_referencesL (consult_late fuel) fuel).
Definition get_schemaL (fuel : nat) := get_schema_withL (consult_late fuel) (resolve_referencesL (consult_late fuel) fuel).
Definition make_metaschemaL (fuel : nat) := create_metaschemaL (consult_late fuel) see fuel.
Definition get_metaschemaL (fuel : nat) (u : uri) : ML sid := mdo p <- find_metaschema fuel u; retL (fst p).
End Env.
