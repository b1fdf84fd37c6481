(** Editing the contents of a schema: JSON.__setitem__, __delitem__ and insert
    (json.py:228-275) on the value of a keyword, schema[key].

    Where the keyword takes an array or an object of subschemas, that value is a
    JSON node with itemclass JSONSchema and the catalog and cacheid of the
    parent schema for itemkwargs (vocabulary/__init__.py:190-221), so a new item
    is a new JSONSchema.  Where it takes no subschemas it is a plain JSON node
    (line 147).  The keyword object and schema.data share the node
    (jsonschema.py:116-119), so evaluation sees the change.

    Simplifications.
    - Indices are not negative, and an insertion is not beyond the end; see
      JTree.v for what happens to labels otherwise.
    - The item given is a JSON value; of a JSON node its value is taken
      (json.py:234, 264).
    - Edits that do not fit the type of the node (an index into an object, a
      name into an array) are outside the model. *)
From Verif Require Export Build.
Open Scope nat_scope.

Inductive amendment : Set :=
| PutItem (i : nat) (v : json)        (* node[i] = v *)
| InsertItem (i : nat) (v : json)     (* node.insert(i, v) *)
| DropItem (i : nat)                  (* del node[i] *)
| PutMember (n : pystr) (v : json)    (* node[n] = v *)
| DropMember (n : pystr).             (* del node[n] *)

(** On plain values. *)
Definition amend_value (e : amendment) (v : json) : res json :=
  match v, e with
  | JArr l, PutItem i x => if i <? length l then Ok (JArr (set_nth i x l)) else Exn EIndex
  | JArr l, InsertItem i x => if length l <? i then Exn EOther else Ok (JArr (insert_nth i x l))
  | JArr l, DropItem i => if i <? length l then Ok (JArr (remove_nth i l)) else Exn EIndex
  | JObj m, PutMember n x => Ok (JObj (dset n x m))
  | JObj m, DropMember n => if dmem n m then Ok (JObj (ddel n m)) else Exn EKey
  | _, _ => Exn EOther
  end.
(** Further inside a plain value: node[i], node[n] one after the other
    (json.py:218-226), and the edit there.  The nodes inside a plain node are
    plain (json.py:133-147, itemclass being JSON). *)
Inductive way : Set := ToItem (i : nat) | ToMember (n : pystr).
Definition way_key (w : way) : pystr := match w with ToItem i => str_of_nat i | ToMember n => n end.
Fixpoint amend_deep (q : list way) (e : amendment) (v : json) : res json :=
  match q with
  | [] => amend_value e v
  | w :: q =>
      match v, w with
      | JArr l, ToItem i =>
          match nth_error l i with
          | Some x => let* x' := amend_deep q e x in Ok (JArr (set_nth i x' l))
          | None => Exn EIndex
          end
      | JObj m, ToMember n =>
          match dget n m with
          | Some x => let* x' := amend_deep q e x in Ok (JObj (dset n x' m))
          | None => Exn EKey
          end
      | _, _ => Exn EOther
      end
  end.

Section Edit.
Variable E : env.

Definition with_up (up : option (sid * list pystr)) (o : sobj) : sobj := mkObj (so_uri o) (so_meta o) up (so_cache o) (so_data o).
Definition with_json (j : kjson) (k : keyword) : keyword :=
  mkKw (kw_class k) j (kw_ref k) (kw_dynamic k) (kw_fragment k) (kw_format k).
(** self.data of the node that keyword [key] of schema [s] holds is now [j]. *)
Definition put_json (s : sid) (key : pystr) (j : kjson) : M unit :=
  update s (fun o => match so_data o with
                     | SObj kws => with_data (SObj (map (fun kk => (fst kk, if str_eqb (fst kk) key then with_json j (snd kk) else snd kk)) kws)) o
                     | SBool _ => o
                     end).
(** item.key = str(int(item.key) -+ 1) for the items from position [j] on,
    json.py:251-252, 273-274; the keys of the items were their positions. *)
Fixpoint relabel (s : sid) (key : pystr) (j : nat) (ts : list sid) : M unit :=
  match ts with
  | [] => ret tt
  | t :: r => do _ <- update t (with_up (Some (s, [key; str_of_nat j]))); relabel s key (S j) r
  end.

(** json.py:233-238 and 263-268: self.itemclass(value, parent=self, key=...,
    **self.itemkwargs); the new schema has a parent, so its references are not
    resolved (jsonschema.py:121-122). *)
Definition new_item (cacheid : pystr) (s : sid) (key n : pystr) (v : json) : M sid :=
  build E cacheid v None None (Some (s, [key; n])).

(** The edit [e] of schema[key], [cacheid] and [j] being the cache of the
    schema and the data of the node. *)
Definition amend_node (s : sid) (key cacheid : pystr) (j : kjson) (e : amendment) : M unit :=
  match j, e with
  | KSubs ts, PutItem i v =>
      do t <- new_item cacheid s key (str_of_nat i) v;
      if i <? length ts then put_json s key (KSubs (set_nth i t ts)) else throw EIndex
  | KSubs ts, InsertItem i v =>
      if length ts <? i then throw EOther
      else do t <- new_item cacheid s key (str_of_nat i) v;
           do _ <- put_json s key (KSubs (insert_nth i t ts));
           relabel s key (S i) (skipn i ts)
  | KSubs ts, DropItem i =>
      if i <? length ts
      then do _ <- put_json s key (KSubs (remove_nth i ts)); relabel s key i (skipn (S i) ts)
      else throw EIndex
  | KSubm ts, PutMember n v =>
      do t <- new_item cacheid s key n v; put_json s key (KSubm (dset n t ts))
  | KSubm ts, DropMember n => if dmem n ts then put_json s key (KSubm (ddel n ts)) else throw EKey
  | KJ v, _ => do v' <- lift (amend_value e v); put_json s key (KJ v')
  | _, _ => throw EOther
  end.
(** The edit [e] of the node to which [q] leads from schema[key]; the node is
    held by the caller, and where the value is made of subschemas only schema[key]
    itself is edited here: what is below it belongs to another schema. *)
Definition amend_schema (s : sid) (key : pystr) (q : list way) (e : amendment) : M unit :=
  do o <- read (fun c => nth_error (c_objs c) s);
  match o with
  | None => throw EOther
  | Some o =>
      match so_data o with
      | SBool _ => throw EType
      | SObj kws =>
          match dget key kws with
          | None => throw EKey
          | Some k =>
              match q, kw_json k with
              | [], j => amend_node s key (so_cache o) j e
              | _, KJ v => do v' <- lift (amend_deep q e v); put_json s key (KJ v')
              | _, _ => throw EOther
              end
          end
      end
  end.

(** schema[key] = v, json.py:228-239: JSONSchema.__init__ does not call
    JSON.__init__ and sets no itemclass (jsonschema.py:70-88), so the look-up of
    self.itemclass raises before anything is changed. *)
Definition set_keyword (s : sid) (key : pystr) (v : json) : M unit := throw EAttribute.
End Edit.
