(** JSON Patch on values: model of jschon/jsonpatch.py.

    Simplification: documents are values, and the in-place changes that the
    code makes to the parent object found by a pointer are functional updates
    of the document at that pointer.  PatchHeap.v models the same functions on
    Python objects with identity; PatchHeapOps.v relates the two. *)
From Verif Require Export Pointer.
Open Scope nat_scope.

(** NodeType, jsonpatch.py:186-191. *)
Inductive node_type : Set :=
| ROOT | ARRAY_ITEM | ARRAY_ITEM_NEW | OBJECT_PROPERTY | OBJECT_PROPERTY_NEW.

(** The attributes of Node, jsonpatch.py:194-227: [index] is a number for the
    array types and a string for the object types. *)
Inductive pindex : Set := PIndex (i : nat) | PKey (k : pystr) | PNone.
Record target : Set := mkTarget { t_type : node_type; t_parent : json; t_index : pindex }.

(** jsonpatch.py:209-219, for a sequence of length [len]; ValueError from
    [int] and from the [raise ValueError] both become JSONPatchError. *)
Definition seq_target (parent : json) (len : nat) (key : pystr) : res target :=
  if str_eqb key (lit "-") then Ok (mkTarget ARRAY_ITEM_NEW parent (PIndex len))
  else match py_int key with
       | None => Exn EPatch
       | Some z =>
           if (z =? Z.of_nat len)%Z then Ok (mkTarget ARRAY_ITEM_NEW parent (PIndex len))
           else if ((0 <=? z) && (z <? Z.of_nat len))%Z then Ok (mkTarget ARRAY_ITEM parent (PIndex (Z.to_nat z)))
           else Exn EPatch
       end.

(** [except JSONPointerError as e: raise JSONPatchError] of jsonpatch.py:205,
    296 and 311. *)
Definition as_patch_error {A} (r : res A) : res A :=
  match r with
  | Exn e => if is_pointer_error e then Exn EPatch else Exn e
  | _ => r
  end.

(** Node.__init__, jsonpatch.py:195-227.  A Python str is a Sequence, so a
    string parent takes the array branch; the other scalars fail the
    assertion. *)
Definition mk_target (document : json) (path : pointer) : res target :=
  match path with
  | [] => Ok (mkTarget ROOT JNull PNone)
  | _ =>
      let* parent := as_patch_error (eval_plain (pointer_slice path None (Some (-1)%Z)) document) in
      let* key := pointer_item path (-1) in
      match parent with
      | JArr l => seq_target parent (length l) key
      | JStr s => seq_target parent (length s) key
      | JObj m => Ok (mkTarget (if dmem key m then OBJECT_PROPERTY else OBJECT_PROPERTY_NEW) parent (PKey key))
      | _ => Exn EAssertion
      end
  end.

(** The document after the object found by [p] has been changed to [w]
    ([p] is followed as [eval_plain] follows it). *)
Fixpoint update_at (p : pointer) (w : json) (d : json) : json :=
  match p with
  | [] => w
  | k :: p' =>
      match d with
      | JObj m => match dget k m with
                  | Some x => JObj (dset k (update_at p' w x) m)
                  | None => d
                  end
      | JArr l => match py_int k with
                  | Some z => match nth_error l (Z.to_nat z) with
                              | Some x => JArr (update_nth (Z.to_nat z) (update_at p' w x) l)
                              | None => d
                              end
                  | None => d
                  end
      | _ => d
      end
  end.
Definition in_parent (document : json) (path : pointer) (parent : json) : json :=
  update_at (pointer_slice path None (Some (-1)%Z)) parent document.

(** [target.parent.insert(index, value)]: lists have [insert], strings do not. *)
Definition parent_insert (t : target) (value : json) : res json :=
  match t_parent t, t_index t with
  | JArr l, PIndex i => Ok (JArr (insert_nth i value l))
  | _, _ => Exn EAttribute
  end.
(** [target.parent[index] = value]; strings do not support assignment. *)
Definition parent_assign (t : target) (value : json) : res json :=
  match t_parent t, t_index t with
  | JArr l, PIndex i => Ok (JArr (update_nth i value l))
  | JObj m, PKey k => Ok (JObj (dset k value m))
  | _, _ => Exn EType
  end.
(** [del target.parent[index]]. *)
Definition parent_delete (t : target) : res json :=
  match t_parent t, t_index t with
  | JArr l, PIndex i => Ok (JArr (remove_nth i l))
  | JObj m, PKey k => Ok (JObj (ddel k m))
  | _, _ => Exn EType
  end.

(** add, jsonpatch.py:230-247. *)
Definition p_add (document : json) (path : pointer) (value : json) : res json :=
  let* t := mk_target document path in
  match t_type t with
  | ROOT => Ok value
  | ARRAY_ITEM | ARRAY_ITEM_NEW => let* w := parent_insert t value in Ok (in_parent document path w)
  | OBJECT_PROPERTY | OBJECT_PROPERTY_NEW => let* w := parent_assign t value in Ok (in_parent document path w)
  end.

(** remove, jsonpatch.py:250-265. *)
Definition p_remove (document : json) (path : pointer) : res json :=
  let* t := mk_target document path in
  match t_type t with
  | ROOT => Ok JNull
  | ARRAY_ITEM | OBJECT_PROPERTY => let* w := parent_delete t in Ok (in_parent document path w)
  | _ => Exn EPatch
  end.

(** replace, jsonpatch.py:268-285. *)
Definition p_replace (document : json) (path : pointer) (value : json) : res json :=
  let* t := mk_target document path in
  match t_type t with
  | ROOT => Ok value
  | ARRAY_ITEM | OBJECT_PROPERTY => let* w := parent_assign t value in Ok (in_parent document path w)
  | _ => Exn EPatch
  end.

(** [from_.evaluate(document)] with [from_] possibly None (AttributeError). *)
Definition eval_from (document : json) (from : option pointer) : res json :=
  match from with
  | None => Exn EAttribute
  | Some f => as_patch_error (eval_plain f document)
  end.

(** move, jsonpatch.py:288-300. *)
Definition p_move (document : json) (path : pointer) (from : option pointer) : res json :=
  let* value := eval_from document from in
  match from with
  | None => Exn EAttribute
  | Some f => let* document := p_remove document f in p_add document path value
  end.

(** copy, jsonpatch.py:303-314. *)
Definition p_copy (document : json) (path : pointer) (from : option pointer) : res json :=
  let* value := eval_from document from in p_add document path value.

(** test, jsonpatch.py:317-331.  [JSON(a) != JSON(b)] is the negation of
    JSON.__eq__; the pointer error of the second evaluation is not caught. *)
Definition p_test (document : json) (path : pointer) (value : json) : res json :=
  let* t := mk_target document path in
  match t_type t with
  | ROOT | ARRAY_ITEM | OBJECT_PROPERTY =>
      let* found := eval_plain path document in
      if json_eqb found value then Ok document else Exn EPatch
  | _ => Exn EPatch
  end.

(** PatchOp, jsonpatch.py:24-33. *)
Inductive opname : Set := ADD | REMOVE | REPLACE | MOVE | COPY | TEST.
Definition opname_eqb (a b : opname) : bool :=
  match a, b with
  | ADD, ADD | REMOVE, REMOVE | REPLACE, REPLACE | MOVE, MOVE | COPY, COPY | TEST, TEST => true
  | _, _ => false
  end.
Definition opname_str (o : opname) : pystr :=
  match o with
  | ADD => lit "add" | REMOVE => lit "remove" | REPLACE => lit "replace"
  | MOVE => lit "move" | COPY => lit "copy" | TEST => lit "test"
  end.
(** [PatchOp(s)]: ValueError for any other string. *)
Definition opname_of (s : pystr) : res opname :=
  if str_eqb s (lit "add") then Ok ADD
  else if str_eqb s (lit "remove") then Ok REMOVE
  else if str_eqb s (lit "replace") then Ok REPLACE
  else if str_eqb s (lit "move") then Ok MOVE
  else if str_eqb s (lit "copy") then Ok COPY
  else if str_eqb s (lit "test") then Ok TEST
  else Exn EValue.

(** JSONPatchOperation, jsonpatch.py:36-66: the attributes. *)
Record patchop : Set := mkOp {
  po_op : opname;
  po_path : pointer;
  po_value : json;
  po_from : option pointer
}.

(** JSONPatchOperation.apply, jsonpatch.py:68-82. *)
Definition op_apply (o : patchop) (document : json) : res json :=
  match po_op o with
  | ADD => p_add document (po_path o) (po_value o)
  | REMOVE => p_remove document (po_path o)
  | REPLACE => p_replace document (po_path o) (po_value o)
  | MOVE => p_move document (po_path o) (po_from o)
  | COPY => p_copy document (po_path o) (po_from o)
  | TEST => p_test document (po_path o) (po_value o)
  end.

(** JSONPatch.evaluate, jsonpatch.py:124-130 (see PatchHeap.v for deepcopy). *)
Fixpoint patch_apply (ops : list patchop) (document : json) : res json :=
  match ops with
  | [] => Ok document
  | o :: r => let* document := op_apply o document in patch_apply r document
  end.

(** A keyword argument that must be a string or None: a pointer text.
    Simplification: a value of another type (kept as it is by
    jsonpatch.py:61,65) is reported as [EOther]; PatchAny.v has these. *)
Definition pointer_arg (v : json) : res (option pointer) :=
  match v with
  | JStr s => let* p := parse_pointer s in Ok (Some p)
  | JNull => Ok None
  | _ => Exn EOther
  end.

(** [JSONPatchOperation( **mapping)], jsonpatch.py:39-66: 'op' and 'path' are
    required keywords (TypeError), 'from_' has priority over 'from', further
    keywords are ignored, except that 'cls' collides with the first parameter
    of [__new__] (TypeError). *)
Definition mk_op (mapping : list (pystr * json)) : res patchop :=
  if dmem (lit "cls") mapping then Exn EType else
  match dget (lit "op") mapping, dget (lit "path") mapping with
  | Some op, Some path =>
      let* o := (match op with JStr s => opname_of s | _ => Exn EValue end) in
      let* p := pointer_arg path in
      match p with
      | None => Exn EOther
      | Some p =>
          let value := match dget (lit "value") mapping with Some v => v | None => JNull end in
          let from_ := match dget (lit "from_") mapping with Some v => v | None => JNull end in
          let from_ := match from_ with
                       | JNull => match dget (lit "from") mapping with Some v => v | None => JNull end
                       | _ => from_
                       end in
          let* f := pointer_arg from_ in
          Ok (mkOp o p value f)
      end
  | _, _ => Exn EType
  end.

(** JSONPatchOperation.asdict, jsonpatch.py:84-95; [str(None)] is 'None'. *)
Definition asdict (o : patchop) : list (pystr * json) :=
  [(lit "op", JStr (opname_str (po_op o))); (lit "path", JStr (pointer_str (po_path o)))] ++
  match po_op o with
  | ADD | REPLACE | TEST => [(lit "value", po_value o)]
  | MOVE | COPY =>
      [(lit "from", JStr (match po_from o with Some f => pointer_str f | None => lit "None" end))]
  | REMOVE => []
  end.

(** JSONPatchOperation.__eq__ between operations, jsonpatch.py:101-104. *)
Definition patchop_eqb (a b : patchop) : bool :=
  opname_eqb (po_op a) (po_op b) && pointer_eqb (po_path a) (po_path b) &&
  match po_from a, po_from b with
  | Some f, Some g => pointer_eqb f g
  | None, None => true
  | _, _ => false
  end && json_eqb (po_value a) (po_value b).

(** JSONPatch( *operations) of dicts, jsonpatch.py:114-122, aslist,
    jsonpatch.py:132-137, and __eq__ of two patches, jsonpatch.py:179.  (List
    comparison in CPython takes identical elements as equal without calling
    [__eq__]; the operations compared here are distinct objects.) *)
Fixpoint mk_patch (operations : list (list (pystr * json))) : res (list patchop) :=
  match operations with
  | [] => Ok []
  | m :: r => let* o := mk_op m in let* os := mk_patch r in Ok (o :: os)
  end.
Definition aslist (ops : list patchop) : list (list (pystr * json)) := map asdict ops.
Fixpoint patch_eqb (a b : list patchop) : bool :=
  match a, b with
  | [], [] => true
  | x :: a', y :: b' => patchop_eqb x y && patch_eqb a' b'
  | _, _ => false
  end.
