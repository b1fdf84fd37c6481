(** The order in which a schema keeps its keywords: JSONSchema.__init__,
    jsonschema.py:103-118, and _bootstrap, 126-151. *)
From Verif Require Export Deps Schema.
Open Scope nat_scope.

(** Lines 130-151: these are built first, in this order. *)
Definition bootstrapped : list pystr := [lit "$schema"; lit "$vocabulary"; lit "$id"].

(** [written]: the keywords in the order of the keys of the schema document.
    The bootstrapped ones come first; the classes of the others (103-107) are
    put in order by _resolve_dependencies (109), and self.keywords is filled in
    that order (110-112).  Simplified: the keyword values are given, that is,
    the construction of subschemas is not repeated here. *)
Definition kept_order (written : list (pystr * keyword)) : res (list (pystr * keyword)) :=
  let first := flat_map (fun key => match dget key written with Some k => [(key, k)] | None => [] end) bootstrapped in
  let rest := filter (fun kv => negb (mem_str (fst kv) bootstrapped)) written in
  let* order := resolve_dependencies kwclass_eqb depends_on (length rest) (map (fun kv => (fst kv, kw_class (snd kv))) rest) in
  Ok (first ++ flat_map (fun c => match dget (key_of c) rest with Some k => [(key_of c, k)] | None => [] end) order).
