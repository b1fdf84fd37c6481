(** Result.absolute_uri. *)
From Verif Require Export Build.
Open Scope nat_scope.

(** jsonschema.py:502-513.  The schema objects are those of the catalog. *)
Definition absolute_uri (objs : list sobj) (n : rnode) : res (option uri) :=
  match r_ref n with
  | Some t => canonical_uri objs t
  | None =>
      let* cu := canonical_uri objs (r_schema n) in
      match cu with
      | None => Ok None
      | Some u =>
          let* rel := match u_frag u with
                      | Some ((_ :: _) as f) => let* p := parse_uri_fragment f in Ok (p ++ r_relpath n)
                      | _ => Ok (r_relpath n)
                      end in
          let* f := uri_fragment rel in
          Ok (Some (with_fragment u f))
      end
  end.
