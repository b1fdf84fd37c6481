(** The catalog: URI sources, schema caches and enabled formats.  Models
    jschon/catalog/__init__.py and the parts of jschon/uri.py it uses.

    A source is any function here (see Source.v for LocalSource, RemoteSource and the
    registry of catalogs).  Not modelled: vocabularies and metaschemas (see Meta.v). *)
From Verif Require Export Schema.
Open Scope nat_scope.

(** A URI reference, uri.py:15-17: the text up to the fragment, and the
    fragment if there is one.  Two of them are the same dict key if their
    components are the same (uri.py:28-36; rfc3986 compares normalized URIs as
    well, but their hashes differ). *)
Record uri : Set := mkUri { u_base : pystr; u_frag : option pystr }.
(** uri.py:19-20. *)
Definition uri_str (u : uri) : pystr := u_base u ++ match u_frag u with None => [] | Some f => 35%N :: f end.
(** uri.copy(fragment=False) and uri.copy(fragment=f), uri.py:70-92. *)
Definition no_fragment (u : uri) : uri := mkUri (u_base u) None.
Definition with_fragment (u : uri) (f : pystr) : uri := mkUri (u_base u) (Some f).
Definition uri_eqb (a b : uri) : bool :=
  str_eqb (u_base a) (u_base b) &&
  match u_frag a, u_frag b with None, None => true | Some f, Some g => str_eqb f g | _, _ => false end.

(** What rfc3986 is used for, as functions about which nothing is assumed:
    parsing (uri.py:16-17), resolution against a base (64-68), is_absolute
    (58-59), conformance to RFC 3986 and presence of a scheme (105-114),
    normal form (116), the path component (46-48, empty if absent), and whether
    the normal forms of two URIs are the same (33). *)
Record urilib : Type := mkLib {
  ul_parse : pystr -> uri;
  ul_resolve : uri -> uri -> uri;
  ul_absolute : uri -> bool;
  ul_conforms : uri -> bool;
  ul_has_scheme : uri -> bool;
  ul_normal : uri -> bool;
  ul_path : uri -> pystr;
  ul_same : uri -> uri -> bool
}.
(** URI.__eq__, uri.py:31-36: rfc3986 compares the components and, if they
    differ, the normal forms. *)
Definition uri_same (L : urilib) (a b : uri) : bool := uri_eqb a b || ul_same L a b.

(** URI.validate, uri.py:94-123. *)
Definition uri_validate (L : urilib) (require_scheme require_normalized allow_fragment allow_non_empty_fragment : bool) (u : uri) : res unit :=
  if negb (ul_conforms L u) || (require_scheme && negb (ul_has_scheme L u)) then Exn EURI
  else if require_normalized && negb (ul_normal L u) then Exn EURI
  else if negb allow_fragment && match u_frag u with Some _ => true | None => false end then Exn EURI
  else if negb allow_non_empty_fragment && match u_frag u with Some (_ :: _) => true | _ => false end then Exn EURI
  else Ok tt.

(** except URIError as e: raise CatalogError from e. *)
Definition or_catalog_error {A} (e : res A) : res A :=
  match e with Exn EURI => Exn ECatalog | _ => e end.

(** ** Sources. *)

(** A Source object: relative path to JSON, catalog/__init__.py:26-31. *)
Definition source := pystr -> res json.
Definition sources := list (pystr * source).

Definition ends_with_slash (s : pystr) : bool :=
  match rev s with c :: _ => N.eqb c 47 | [] => false end.

(** Catalog.add_uri_source, catalog/__init__.py:102-129. *)
Definition add_uri_source (L : urilib) (base : option uri) (src : source) (t : sources) : res sources :=
  match base with
  | None => Ok (dset [] src t)
  | Some u =>
      let* _ := or_catalog_error (uri_validate L true true false true u) in
      if ends_with_slash (ul_path L u) then Ok (dset (uri_str u) src t) else Exn ECatalog
  end.

(** candidates.sort(key=lambda c: len(c[0]), reverse=True): a stable sort, the
    longest first. *)
Fixpoint insert_longest {A} (x : pystr * A) (l : list (pystr * A)) : list (pystr * A) :=
  match l with
  | [] => [x]
  | y :: r => if length (fst y) <=? length (fst x) then x :: y :: r else y :: insert_longest x r
  end.
Fixpoint sort_longest {A} (l : list (pystr * A)) : list (pystr * A) :=
  match l with [] => [] | x :: r => insert_longest x (sort_longest r) end.

(** Catalog.load_json, catalog/__init__.py:131-164. *)
Definition load_json (L : urilib) (t : sources) (u : uri) : res json :=
  let* _ := or_catalog_error (uri_validate L true true false true u) in
  match sort_longest (filter (fun c => prefixb (fst c) (uri_str u)) t) with
  | (prefix, src) :: _ =>
      match src (skipn (length prefix) (uri_str u)) with
      | Ok v => Ok v
      | Exn _ => Exn ECatalog
      | e => e
      end
  | [] => Exn ECatalog
  end.

(** ** Caches. *)

(** A dict with URI keys. *)
Fixpoint uget (u : uri) (m : list (uri * sid)) : option sid :=
  match m with [] => None | (u', s) :: r => if uri_eqb u u' then Some s else uget u r end.
Fixpoint uset (u : uri) (s : sid) (m : list (uri * sid)) : list (uri * sid) :=
  match m with
  | [] => [(u, s)]
  | (u', s') :: r => if uri_eqb u u' then (u', s) :: r else (u', s') :: uset u s r
  end.
Fixpoint udrop (u : uri) (m : list (uri * sid)) : list (uri * sid) :=
  match m with [] => [] | (u', s) :: r => if uri_eqb u u' then r else (u', s) :: udrop u r end.

(** _schema_cache, catalog/__init__.py:95; cache identifiers are strings here. *)
Definition caches := list (pystr * list (uri * sid)).

(** Catalog.add_schema, catalog/__init__.py:281-297. *)
Definition add_schema (c : pystr) (u : uri) (s : sid) (t : caches) : caches :=
  dset c (uset u s (match dget c t with Some m => m | None => [] end)) t.
(** Catalog.del_schema, catalog/__init__.py:299-311. *)
Definition del_schema (c : pystr) (u : uri) (t : caches) : caches :=
  match dget c t with Some m => dset c (udrop u m) t | None => t end.
(** self._schema_cache[cacheid][uri], None for KeyError. *)
Definition cached (c : pystr) (u : uri) (t : caches) : option sid :=
  match dget c t with Some m => uget u m | None => None end.

(** Entering and leaving a Catalog.cache block, catalog/__init__.py:370-391,
    with the identifier given. *)
Definition enter_cache (c : pystr) (t : caches) : res unit := if dmem c t then Exn ECatalog else Ok tt.
Definition leave_cache (c : pystr) (t : caches) : caches := ddel c t.

(** A program that uses the caches.  A block whose identifier is in use raises
    before its body runs; an exception in the body passes through the finally
    clause (388-391).  The flag tells whether an exception is on its way. *)
Inductive cmd : Set :=
| CAdd (c : pystr) (u : uri) (s : sid)
| CDel (c : pystr) (u : uri)
| CRaise
| CBlock (c : pystr) (body : list cmd).
Fixpoint run_cmd (x : cmd) (t : caches) : caches * bool :=
  match x with
  | CAdd c u s => (add_schema c u s t, false)
  | CDel c u => (del_schema c u t, false)
  | CRaise => (t, true)
  | CBlock c body =>
      match enter_cache c t with
      | Ok _ =>
          let '(t', raised) :=
            (fix go (l : list cmd) (t : caches) : caches * bool :=
               match l with
               | [] => (t, false)
               | x :: r => let '(t', raised) := run_cmd x t in if raised then (t', true) else go r t'
               end) body t in
          (leave_cache c t', raised)
      | _ => (t, true)
      end
  end.
Fixpoint run_cmds (l : list cmd) (t : caches) : caches * bool :=
  match l with
  | [] => (t, false)
  | x :: r => let '(t', raised) := run_cmd x t in if raised then (t', true) else run_cmds r t'
  end.

(** ** Formats. *)

(** Catalog.enable_formats and is_format_enabled, catalog/__init__.py:267-279. *)
Definition enable_formats (attrs : list pystr) (enabled : list pystr) : list pystr := attrs ++ enabled.
Definition is_format_enabled (attr : pystr) (enabled : list pystr) : bool := mem_str attr enabled.
