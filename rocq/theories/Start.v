(** create_catalog (jschon/__init__.py:27-53) and the three initialize
    functions (catalog/_2019_09.py:13-108, _2020_12.py:12-112, _next.py:13-113).

    Simplified: the directory that holds the files is a string; the documents
    are read through [open], as in Source.v. *)
From Verif Require Export Meta Source.
Open Scope nat_scope.

Section Start.
(** URIs, formats and regular expressions; the sources and metaschemas are
    those of the catalog made here. *)
Variable E : env.
Variable see : cat -> world.
(** The file system, and the directory of the package jschon.catalog. *)
Variable open : pystr -> res json.
Variable package : pystr.

Definition with_sources (t : sources) : env :=
  mkEnv (e_lib E) t (e_formats E) (e_validators E) (e_dialect E) (e_regex E) (e_uuid E).

(** The first argument pair of add_uri_source, e.g. catalog/_2020_12.py:13-16. *)
Definition standard_base (v : version) : uri := ul_parse (e_lib E) (draft v ""%string).
Definition standard_dir (v : version) : pystr :=
  path_str (path_join (path_of package) (path_of (lit "json-schema-" ++ version_name v))).
Definition standard_source (v : version) : source := local_source open (standard_dir v) (Some (lit ".json")).

(** A catalog under construction: its sources and the rest. *)
Definition initialize (fuel : nat) (v : version) (t : sources) (st : mcat) : res unit * (sources * mcat) :=
  match add_uri_source (e_lib E) (Some (standard_base v)) (standard_source v) t with
  | Ok t' =>
      let '(r, st') := create_standard_metaschema (with_sources t') see fuel v (create_standard (ul_parse (e_lib E)) v st) in
      (let* _ := r in Ok tt, (t', st'))
  | Exn e => (Exn e, (t, st))
  | Fuel => (Fuel, (t, st))
  end.

(** version_initializers, __init__.py:41-45. *)
Definition version_called (name : pystr) : option version :=
  find (fun v => str_eqb (version_name v) name) [V2019; V2020; VNext].

(** The loop at __init__.py:47-49. *)
Fixpoint initialize_all (fuel : nat) (names : list pystr) (t : sources) (st : mcat) : res unit * (sources * mcat) :=
  match names with
  | [] => (Ok tt, (t, st))
  | n :: r =>
      match version_called n with
      | None => (Exn EKey, (t, st))
      | Some v =>
          match initialize fuel v t st with
          | (Ok _, (t', st')) => initialize_all fuel r t' st'
          | x => x
          end
      end
  end.

(** create_catalog: the new catalog [c] is registered under its name, then
    filled; a KeyError becomes a ValueError. *)
Definition create_catalog (fuel : nat) (names : list pystr) (name : pystr) (c : nat) (r : registry) : res nat * registry * (sources * mcat) :=
  let '(x, (t, st)) := initialize_all fuel names [] (mkMcat (mkCat [] []) [] []) in
  (match x with Ok _ => Ok c | Exn EKey => Exn EValue | Exn e => Exn e | Fuel => Fuel end, register_catalog name c r, (t, st)).
End Start.
