(** Patch operations whose 'path' or 'from' is not a string: jsonpatch.py:61 and
    65 keep such a value as it is.  Models jschon/jsonpatch.py:39-82 and
    194-331 for them; on pointers it is Patch.v.

    Simplified: the subscription of a non-empty dict by a slice is a TypeError,
    as in CPython before 3.12. *)
From Verif Require Export Patch.
Open Scope nat_scope.

(** self.path and self.from_, jsonpatch.py:61-65. *)
Inductive spot : Set := Ptr (p : pointer) | Raw (v : json).
Definition spot_of (v : json) : res spot :=
  match v with
  | JStr s => let* p := parse_pointer s in Ok (Ptr p)
  | _ => Ok (Raw v)
  end.
Record any_op : Set := mkAny { ao_op : opname; ao_path : spot; ao_value : json; ao_from : spot }.

(** [JSONPatchOperation( **mapping)], jsonpatch.py:39-66. *)
Definition mk_any (mapping : list (pystr * json)) : res any_op :=
  if dmem (lit "cls") mapping then Exn EType else
  match dget (lit "op") mapping, dget (lit "path") mapping with
  | Some op, Some path =>
      let* o := (match op with JStr s => opname_of s | _ => Exn EValue end) in
      let* p := spot_of path in
      let value := match dget (lit "value") mapping with Some v => v | None => JNull end in
      let from_ := match dget (lit "from_") mapping with Some v => v | None => JNull end in
      let from_ := match from_ with
                   | JNull => match dget (lit "from") mapping with Some v => v | None => JNull end
                   | _ => from_
                   end in
      let* f := spot_of from_ in
      Ok (mkAny o p value f)
  | _, _ => Exn EType
  end.

(** [not path], jsonpatch.py:196, of a value that is no pointer. *)
Definition falsy (v : json) : bool :=
  match v with
  | JNull | JBool false | JNum (NInt 0) | JNum (NDyad 0 _) | JArr [] | JObj [] | JStr [] => true
  | _ => false
  end.
(** [path[:-1].evaluate], jsonpatch.py:203: numbers, true and dicts have no
    slices; the slice of a list is a list, which has no [evaluate]. *)
Definition slice_error (v : json) : exn := match v with JArr _ | JStr _ => EAttribute | _ => EType end.

(** add, remove and replace, jsonpatch.py:230-285. *)
Definition any_add (document : json) (path : spot) (value : json) : res json :=
  match path with
  | Ptr p => p_add document p value
  | Raw v => if falsy v then Ok value else Exn (slice_error v)
  end.
Definition any_remove (document : json) (path : spot) : res json :=
  match path with
  | Ptr p => p_remove document p
  | Raw v => if falsy v then Ok JNull else Exn (slice_error v)
  end.
Definition any_replace (document : json) (path : spot) (value : json) : res json :=
  match path with
  | Ptr p => p_replace document p value
  | Raw v => if falsy v then Ok value else Exn (slice_error v)
  end.
(** [from_.evaluate(document)], jsonpatch.py:295 and 310. *)
Definition any_source (document : json) (from : spot) : res json :=
  match from with
  | Ptr f => as_patch_error (eval_plain f document)
  | Raw _ => Exn EAttribute
  end.
(** move and copy, jsonpatch.py:288-314. *)
Definition any_move (document : json) (path from : spot) : res json :=
  let* value := any_source document from in
  let* document := any_remove document from in
  any_add document path value.
Definition any_copy (document : json) (path from : spot) : res json :=
  let* value := any_source document from in any_add document path value.
(** test, jsonpatch.py:317-331: [path.evaluate] again. *)
Definition any_test (document : json) (path : spot) (value : json) : res json :=
  match path with
  | Ptr p => p_test document p value
  | Raw v => if falsy v then Exn EAttribute else Exn (slice_error v)
  end.
(** apply, jsonpatch.py:68-82. *)
Definition any_apply (o : any_op) (document : json) : res json :=
  match ao_op o with
  | ADD => any_add document (ao_path o) (ao_value o)
  | REMOVE => any_remove document (ao_path o)
  | REPLACE => any_replace document (ao_path o) (ao_value o)
  | MOVE => any_move document (ao_path o) (ao_from o)
  | COPY => any_copy document (ao_path o) (ao_from o)
  | TEST => any_test document (ao_path o) (ao_value o)
  end.
