(** The output formats, jschon/output.py.  [JNull] stands for None, so a
    missing annotation or error and one with the value None are the same, as
    in Python.  The table of formatters (output.py:20-38) is in
    Formatters.v. *)
From Verif Require Export Schema Pointer.
Open Scope nat_scope.

Section Output.
(** [uri n]: str(n.absolute_uri), jsonschema.py:502-513.  Any function here: the
    URI is only copied into the output.  The function itself is in Locate.v. *)
Variable uri : rnode -> pystr.

Definition jptr (p : path) : json := JStr (pointer_str p).
Definition vfield (n : rnode) : list (pystr * json) := [(lit "valid", JBool (r_valid n))].
Definition location (n : rnode) : list (pystr * json) :=
  [(lit "instanceLocation", jptr (r_inst n)); (lit "keywordLocation", jptr (r_path n)); (lit "absoluteKeywordLocation", JStr (uri n))].

(** msgkey, childkey and getattr(node, msgkey): output.py:65-66, 94-95,
    118-123. *)
Definition msgkey (valid : bool) : pystr := if valid then lit "annotation" else lit "error".
Definition childkey (valid : bool) : pystr := if valid then lit "annotations" else lit "errors".
Definition msgval (valid : bool) (n : rnode) : json := if valid then r_annot n else r_error n.

(** output.py:41-45. *)
Definition out_flag (n : rnode) : json := JObj (vfield n).

(** [node.key in annotations]; the key of the root is None. *)
Definition key_in (filter : option (list pystr)) (n : rnode) : bool :=
  match filter with
  | None => true
  | Some l => match r_key n with Some k => mem_str k l | None => false end
  end.

(** output.py:50-62. *)
Fixpoint basic_visit (valid : bool) (filter : option (list pystr)) (n : rnode) {struct n} : list json :=
  if Bool.eqb (r_valid n) valid then
    (if key_in filter n && negb (is_null (msgval valid n))
     then [JObj (location n ++ [(msgkey valid, msgval valid n)])] else [])
    ++ (fix go (cs : list ((pystr * path) * rnode)) : list json :=
          match cs with [] => [] | (_, c) :: r => basic_visit valid filter c ++ go r end) (r_children n)
  else [].
(** output.py:48-71. *)
Definition out_basic (filter : option (list pystr)) (n : rnode) : json :=
  JObj (vfield n ++ [(childkey (r_valid n), JArr (basic_visit (r_valid n) filter n))]).

(** output.py:76-91. *)
Fixpoint detailed_visit (valid : bool) (n : rnode) {struct n} : json :=
  let kids :=
    (fix go (cs : list ((pystr * path) * rnode)) : list json :=
       match cs with
       | [] => []
       | (_, c) :: r => if Bool.eqb (r_valid c) valid then detailed_visit valid c :: go r else go r
       end) (r_children n) in
  match kids with
  | [] => JObj (location n ++ (if is_null (msgval valid n) then [] else [(msgkey valid, msgval valid n)]))
  | [o] => o
  | _ => JObj (location n ++ [(childkey valid, JArr kids)])
  end.
(** output.py:74-104. *)
Definition out_detailed (n : rnode) : json :=
  JObj (vfield n ++ location n ++
        [(childkey (r_valid n),
          JArr (map (fun kc => detailed_visit (r_valid n) (snd kc))
                    (filter (fun kc => Bool.eqb (r_valid (snd kc)) (r_valid n)) (r_children n))))]).

(** output.py:107-129. *)
Fixpoint out_verbose (n : rnode) {struct n} : json :=
  let kids :=
    (fix go (cs : list ((pystr * path) * rnode)) : list json :=
       match cs with [] => [] | (_, c) :: r => out_verbose c :: go r end) (r_children n) in
  JObj (vfield n ++ location n
        ++ (if is_null (msgval (r_valid n) n) then [] else [(msgkey (r_valid n), msgval (r_valid n) n)])
        ++ (match kids with [] => [] | _ => [(childkey (r_valid n), JArr kids)] end)).

Variable W : world.

(** output.py:147-150: [d[child.key] = message].  Only the root has no key,
    and it is nobody's child. *)
Definition noted (valid : bool) (c : rnode) (d : list (pystr * json)) : list (pystr * json) :=
  if is_null (msgval valid c) then d else match r_key c with Some k => dset k (msgval valid c) d | None => d end.

(** output.py:134-163.  schema_node raises if the path does not resolve. *)
Fixpoint hier_visit (n : rnode) {struct n} : res (list json) :=
  let kids (f : rnode -> list json -> list json) :=
    (fix go (cs : list ((pystr * path) * rnode)) : res (list json) :=
       match cs with
       | [] => Ok []
       | (_, c) :: r => let* o := hier_visit c in let* os := go r in Ok (f c o ++ os)
       end) (r_children n) in
  let* sn := schema_node W n in
  match sn with
  | SNSchema _ =>
      let valid := r_valid n in
      let* details := kids (fun c o => if Bool.eqb (r_valid c) valid then o else []) in
      let messages := fold_left (fun d kc => noted valid (snd kc) d) (r_children n) [] in
      Ok [JObj (vfield n
                ++ [(lit "evaluationPath", jptr (r_path n)); (lit "schemaLocation", JStr (uri n)); (lit "instanceLocation", jptr (r_inst n))]
                ++ (match details with [] => [] | _ => [(lit "details", JArr details)] end)
                ++ (match messages with [] => [] | _ => [(childkey valid, JObj messages)] end))]
  | SNJson _ => kids (fun _ o => o)
  end.
(** output.py:132-165. *)
Definition out_hierarchical (n : rnode) : res json :=
  let* l := hier_visit n in match l with [] => Exn EIndex | o :: _ => Ok o end.
End Output.
