(** The in-place JSON Patch methods add, remove and replace (json.py:327-444) on
    a constructed schema; JSONSchema inherits them from JSON.

    Simplifications.
    - target.parent and target.key (json.py:405-409, 440-444) are the node that
      the last step was taken from and the position or name found there: keys
      of items are their positions (SchemaEdit.v, C102).
    - The value given is a JSON value, as in SchemaEdit.v. *)
From Verif Require Export SchemaEdit Pointer.
From Verif Require JTree.
Open Scope nat_scope.

Inductive patching : Set :=
| PatchAdd (v : json)
| PatchRemove
| PatchReplace (v : json).

(** A node of a schema document: a schema, or the node to which [q] leads from
    the value of keyword [key] of schema [s], with data [j]. *)
Inductive spot : Set :=
| AtSchema (s : sid)
| AtValue (s : sid) (key : pystr) (q : list way) (j : kjson).
Definition spot_of (s : sid) (key : pystr) (j : kjson) : spot :=
  match j with KSub t => AtSchema t | _ => AtValue s key [] j end.

(** del schema[key] of json.py:249-253 deletes from schema.data; the keyword
    object stays in schema.keywords (jsonschema.py:69, 118), which is what
    evaluation uses (lines 200-215).  [gone] lists the keys deleted in this way;
    the nodes then look like [shown gone objs]. *)
Definition is_gone (gone : list (sid * pystr)) (s : sid) (key : pystr) : bool :=
  existsb (fun g => Nat.eqb (fst g) s && str_eqb (snd g) key) gone.
Definition show_one (gone : list (sid * pystr)) (s : sid) (o : sobj) : sobj :=
  match so_data o with
  | SObj kws => with_data (SObj (filter (fun kk => negb (is_gone gone s (fst kk))) kws)) o
  | SBool _ => o
  end.
Fixpoint show_from (gone : list (sid * pystr)) (s : sid) (objs : list sobj) : list sobj :=
  match objs with [] => [] | o :: r => show_one gone s o :: show_from gone (S s) r end.
Definition shown (gone : list (sid * pystr)) (objs : list sobj) : list sobj := show_from gone 0 objs.

(** value[int(key)], jsonpointer.py:210-217. *)
Definition item_index (len : nat) (k : pystr) : res nat :=
  match py_int k with
  | Some z => match norm_index len z with Some i => Ok i | None => Exn EPointerReference end
  | None => Exn EValue
  end.
(** JSONPointer.evaluate, jsonpointer.py:187-221, one key at a time. *)
Definition spot_child (objs : list sobj) (n : spot) (k : pystr) : res spot :=
  match n with
  | AtSchema s =>
      match nth_error objs s with
      | Some o => match so_data o with
                  | SObj kws => match dget k kws with Some kw => Ok (spot_of s k (kw_json kw)) | None => Exn EPointerReference end
                  | SBool _ => Exn EPointerReference
                  end
      | None => Exn EPointerReference
      end
  | AtValue s key q j =>
      match j with
      | KSubs ts => let* i := item_index (length ts) k in
                    match nth_error ts i with Some t => Ok (AtSchema t) | None => Exn EPointerReference end
      | KSubm ts => match dget k ts with Some t => Ok (AtSchema t) | None => Exn EPointerReference end
      | KJ (JArr l) => let* i := item_index (length l) k in
                       match nth_error l i with Some x => Ok (AtValue s key (q ++ [ToItem i]) (KJ x)) | None => Exn EPointerReference end
      | KJ (JObj m) => match dget k m with Some x => Ok (AtValue s key (q ++ [ToMember k]) (KJ x)) | None => Exn EPointerReference end
      | _ => Exn EPointerReference
      end
  end.
Fixpoint spot_walk (objs : list sobj) (n : spot) (p : list pystr) : res spot :=
  match p with
  | [] => Ok n
  | k :: r => let* m := spot_child objs n k in spot_walk objs m r
  end.

(** What the parent node is, json.py:357, 371, 405-409: an array of a length,
    an object that has the key or not, or something else. *)
Inductive parent_form : Set := FArray (n : nat) | FObject (has_key : bool) | FOther.
Definition form_of (k : pystr) (j : kjson) : parent_form :=
  match j with
  | KSubs ts => FArray (length ts)
  | KSubm ts => FObject (dmem k ts)
  | KJ (JArr l) => FArray (length l)
  | KJ (JObj m) => FObject (dmem k m)
  | _ => FOther
  end.
(** The edit of the parent that is carried out: json.py:357-374 for add,
    400-409 for remove, 435-444 for replace. *)
Definition amendment_for (op : patching) (f : parent_form) (k : pystr) : res amendment :=
  match op, f with
  | PatchAdd v, FArray n =>
      if str_eqb k (lit "-") then Ok (InsertItem n v)
      else match py_int k with
           | Some z => if (z =? Z.of_nat n)%Z then Ok (InsertItem n v)
                       else if ((0 <=? z) && (z <? Z.of_nat n))%Z then Ok (InsertItem (Z.to_nat z) v)
                       else Exn EJSON
           | None => Exn EJSON
           end
  | PatchAdd v, FObject _ => Ok (PutMember k v)
  | PatchRemove, FArray n => let* i := JTree.as_json_error (item_index n k) in Ok (DropItem i)
  | PatchRemove, FObject true => Ok (DropMember k)
  | PatchReplace v, FArray n => let* i := JTree.as_json_error (item_index n k) in Ok (PutItem i v)
  | PatchReplace v, FObject true => Ok (PutMember k v)
  | _, _ => Exn EJSON
  end.

Section Patch.
Variable E : env.
(** On the members of a schema.  Assigning needs self.itemclass, which a
    JSONSchema lacks (SchemaEdit.v, [set_keyword]). *)
Definition patch_keyword (op : patching) (gone : list (sid * pystr)) (s : sid) (k : pystr) (o : option sobj) : M (list (sid * pystr)) :=
  match o with
  | None => throw EOther
  | Some o =>
      match so_data o, op with
      | SBool _, _ => throw EJSON
      | SObj _, PatchAdd _ => throw EAttribute
      | SObj kws, PatchReplace _ => if dmem k kws then throw EAttribute else throw EJSON
      | SObj kws, PatchRemove => if dmem k kws then ret ((s, k) :: gone) else throw EJSON
      end
  end.
(** schema.add(path, v), schema.remove(path), schema.replace(path, v).  With an
    empty path self.itemclass is looked up at once (json.py:338-345). *)
Definition schema_patch (r : sid) (op : patching) (path : parg) (gone : list (sid * pystr)) : M (list (sid * pystr)) :=
  if JTree.path_empty path then throw EAttribute
  else
    do p <- lift (mk_pointer [path]);
    do objs <- read (fun c => shown gone (c_objs c));
    do n <- lift (JTree.as_json_error (spot_walk objs (AtSchema r) (removelast p)));
    let k := last p [] in
    match n with
    | AtSchema s => patch_keyword op gone s k (nth_error objs s)
    | AtValue s key q j =>
        do e <- lift (amendment_for op (form_of k j) k);
        do _ <- amend_schema E s key q e;
        ret gone
    end.
End Patch.
