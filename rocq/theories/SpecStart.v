(** What a catalog made by create_catalog should offer. *)
From Coq Require Permutation.
From Verif Require Export Start SpecMeta SpecBuild SpecCatalog.
Open Scope nat_scope.

(** The package lies in a directory below the root. *)
Definition installed (package : pystr) : Prop := exists a q, package = 47%N :: a :: q /\ a <> 47%N.
(** The file of a version's directory for the rest of a URI. *)
Definition file_of (package : pystr) (v : version) (rest : pystr) : pystr :=
  local_file (package ++ lit "/json-schema-" ++ version_name v) (Some (lit ".json")) rest.
(** Documents read from files have no key twice in an object. *)
Definition opens_json (open : pystr -> res json) : Prop := forall f doc, open f = Ok doc -> jwf doc = true.
(** The main document of a version lists its vocabularies, or none. *)
Definition lists_standard (v : version) (ms : list (pystr * json)) : Prop :=
  match dget (lit "$vocabulary") ms with
  | None => True
  | Some (JObj l) => Permutation.Permutation (keys l) (map fst (standard_vocabularies v))
  | Some _ => False
  end.
(** rfc3986 splits and joins the URIs used. *)
Definition parses_version (E : env) (v : version) : Prop :=
  parses_standard E v /\ (forall n, In n [draft v ""%string; draft v "schema"%string] -> ul_parse (e_lib E) n = mkUri n None) /\
  loadable (e_lib E) (mkUri (draft v "schema"%string) None).
(** Among the schemas of [st] is the metaschema with the URI of the version,
    and it provides the keywords of the version. *)
Definition has_metaschema (st : mcat) (v : version) : Prop :=
  exists s o m, nth_error (c_objs (mc_cat st)) s = Some o /\ so_uri o = Some (mkUri (draft v "schema"%string) None) /\ so_up o = None /\
    meta_at st s = Some m /\ provided m = dialect_for v.
