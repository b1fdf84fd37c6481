(** LocalSource, RemoteSource and the registry of catalogs.  Models
    jschon/catalog/__init__.py:26-95 and the part of Python's pathlib that
    LocalSource uses, on a POSIX system.

    Simplified: a file system is a function from the file name given to
    [open] to its contents or an exception, and a network is one from the URL;
    base_dir is a string (a path object is [str] of it). *)
From Verif Require Export Catalog.
Open Scope nat_scope.

(** ** pathlib.PurePosixPath. *)

(** The number of slashes in front. *)
Fixpoint slashes (s : pystr) : nat :=
  match s with c :: r => if N.eqb c 47 then S (slashes r) else 0 | [] => 0 end.

(** The root of a path: none for a relative one, two slashes for a text that
    begins with exactly two (POSIX leaves their meaning to the system), one
    otherwise.  CPython, pathlib.py, _PosixFlavour.splitroot. *)
Definition posix_root (s : pystr) : pystr :=
  match slashes s with 0 => [] | 2 => [47; 47]%N | _ => [47]%N end.

(** Empty parts and single dots are dropped; two dots are kept. *)
Definition real_part (x : pystr) : bool := negb (str_eqb x []) && negb (str_eqb x (lit ".")).

Record posix_path : Set := mkPath { pp_root : pystr; pp_parts : list pystr }.

(** Path(s): CPython, pathlib.py, _Flavour.parse_parts. *)
Definition path_of (s : pystr) : posix_path :=
  mkPath (posix_root s) (filter real_part (split_char 47 s)).

(** [a / b]: an absolute [b] replaces [a].  CPython, pathlib.py,
    _Flavour.join_parsed_parts. *)
Definition path_join (a b : posix_path) : posix_path :=
  match pp_root b with
  | [] => mkPath (pp_root a) (pp_parts a ++ pp_parts b)
  | _ => b
  end.

(** The parts with a slash between each two. *)
Fixpoint slashed (l : list pystr) : pystr :=
  match l with
  | [] => []
  | [x] => x
  | x :: r => x ++ 47%N :: slashed r
  end.

(** str(path), a single dot for the empty path. *)
Definition path_str (p : posix_path) : pystr :=
  match pp_root p ++ slashed (pp_parts p) with [] => lit "." | s => s end.

(** ** Sources. *)

(** The name of the file that LocalSource.__call__ opens,
    catalog/__init__.py:39-43.  An empty suffix counts as none. *)
Definition local_file (base_dir : pystr) (suffix : option pystr) (relative_path : pystr) : pystr :=
  path_str (path_join (path_of base_dir) (path_of relative_path)) ++ match suffix with Some s => s | None => [] end.

(** LocalSource.__call__, catalog/__init__.py:39-54: an OSError that carries a
    file name becomes a CatalogError, which load_json would make of it in any
    case. *)
Definition local_source (open : pystr -> res json) (base_dir : pystr) (suffix : option pystr) : source :=
  fun relative_path => open (local_file base_dir suffix relative_path).

(** RemoteSource.__call__, catalog/__init__.py:62-67. *)
Definition remote_source (L : urilib) (fetch : pystr -> res json) (base_url : uri) (suffix : option pystr) : source :=
  fun relative_path =>
    fetch (uri_str (ul_resolve L (ul_parse L relative_path) base_url) ++ match suffix with Some s => s | None => [] end).

(** ** The registry of catalogs. *)

(** Catalog._catalog_registry, catalog/__init__.py:74: names to catalogs.  A
    catalog is its identity here. *)
Definition registry := list (pystr * nat).

(** Catalog.__init__, catalog/__init__.py:83-88. *)
Definition register_catalog (name : pystr) (c : nat) (r : registry) : registry := dset name c r.

(** Catalog.get_catalog, catalog/__init__.py:76-81. *)
Definition get_catalog (name : pystr) (r : registry) : res nat :=
  match dget name r with Some c => Ok c | None => Exn ECatalog end.
