(** JSON Patch on Python objects with identity: model of
    jschon/jsonpatch.py:39-130 and 186-331 and of the part of the standard
    library's copy.deepcopy that it uses.

    A list or a dict is an object in a heap; everything else is a plain value.
    Every operation returns the heap as it is when it returns or raises. *)
From Verif Require Export Patch.
Open Scope nat_scope.

(** JSONCompatible, json.py:21, as Python values: [VRef a] is the list or dict
    at address [a]. *)
Inductive pyval : Set :=
| VNull | VBool (b : bool) | VNum (n : num) | VStr (s : pystr) | VRef (a : nat).
Inductive pyobj : Set :=
| OList (l : list pyval)
| ODict (m : list (pystr * pyval)).
Definition heap : Set := list pyobj.

(** The members of an object, and the object with other members. *)
Definition items (o : pyobj) : list pyval := match o with OList l => l | ODict m => map snd m end.
Definition refill (o : pyobj) (l : list pyval) : pyobj :=
  match o with OList _ => OList l | ODict m => ODict (combine (keys m) l) end.

(** Computations that change the heap. *)
Definition hm (A : Type) : Type := heap -> res A * heap.
Definition hret {A} (x : res A) : hm A := fun h => (x, h).
Definition hbind {A B} (c : hm A) (k : A -> hm B) : hm B :=
  fun h => match c h with
           | (Ok x, h) => k x h
           | (Exn e, h) => (Exn e, h)
           | (Fuel, h) => (Fuel, h)
           end.
Notation "'do' x '<-' c 'in' k" := (hbind c (fun x => k)) (at level 200, x pattern, c at level 100, k at level 200, right associativity).
Definition hget (a : nat) : hm pyobj :=
  fun h => match nth_error h a with Some o => (Ok o, h) | None => (Exn EOther, h) end.
Definition hset (a : nat) (o : pyobj) : hm unit := fun h => (Ok tt, update_nth a o h).
Definition hnew (o : pyobj) : hm nat := fun h => (Ok (length h), h ++ [o]).
(** A computation that only looks at the heap. *)
Definition hlook {A} (f : heap -> res A) : hm A := fun h => (f h, h).

(** copy.deepcopy of lists, dicts and atomic values, with its memo (from the
    address of an original to that of its copy).
    Simplification: the copies of the members are put into the new object
    together at the end, not one by one; a member can see the new object only
    as a reference.  A recursion deeper than [fuel] (RecursionError) is [Fuel]. *)
Definition memo : Set := list (nat * nat).
Fixpoint noted (a : nat) (m : memo) : option nat :=
  match m with [] => None | (a', b) :: r => if Nat.eqb a a' then Some b else noted a r end.
Fixpoint copy_all (copy : memo -> pyval -> hm (memo * pyval)) (m : memo) (l : list pyval) : hm (memo * list pyval) :=
  match l with
  | [] => hret (Ok (m, []))
  | v :: l => do (m, v) <- copy m v in do (m, l) <- copy_all copy m l in hret (Ok (m, v :: l))
  end.
Fixpoint deepcopy_memo (fuel : nat) (m : memo) (v : pyval) : hm (memo * pyval) :=
  match fuel with
  | O => hret Fuel
  | S fuel =>
      match v with
      | VRef a =>
          match noted a m with
          | Some b => hret (Ok (m, VRef b))
          | None =>
              do o <- hget a in
              do b <- hnew (refill o []) in
              do (m, l) <- copy_all (deepcopy_memo fuel) ((a, b) :: m) (items o) in
              do _ <- hset b (refill o l) in
              hret (Ok (m, VRef b))
          end
      | _ => hret (Ok (m, v))
      end
  end.
Definition deepcopy (fuel : nat) (v : pyval) : hm pyval :=
  do (_, v) <- deepcopy_memo fuel [] v in hret (Ok v).

(** JSONPointer.evaluate, jsonpointer.py:199-221, as [eval_plain] of
    Pointer.v. *)
Fixpoint heval (p : pointer) (v : pyval) (h : heap) : res pyval :=
  match p with
  | [] => Ok v
  | key :: p =>
      match v with
      | VRef a =>
          match nth_error h a with
          | Some (ODict m) => match dget key m with Some v => heval p v h | None => Exn EPointerReference end
          | Some (OList l) =>
              if fullmatch JSON_INDEX_RE key
              then match py_int key with
                   | Some i => match norm_index (length l) i with
                               | Some n => match nth_error l n with
                                           | Some v => heval p v h
                                           | None => Exn EPointerReference
                                           end
                               | None => Exn EPointerReference
                               end
                   | None => Exn EValue
                   end
              else Exn EPointerReference
          | None => Exn EOther
          end
      | _ => Exn EPointerReference
      end
  end.

(** Node.__init__, jsonpatch.py:195-227. *)
Record htarget : Set := mkHTarget { ht_type : node_type; ht_parent : pyval; ht_index : pindex }.
Definition hseq_target (parent : pyval) (len : nat) (key : pystr) : res htarget :=
  if str_eqb key (lit "-") then Ok (mkHTarget ARRAY_ITEM_NEW parent (PIndex len))
  else match py_int key with
       | None => Exn EPatch
       | Some z =>
           if (z =? Z.of_nat len)%Z then Ok (mkHTarget ARRAY_ITEM_NEW parent (PIndex len))
           else if ((0 <=? z) && (z <? Z.of_nat len))%Z then Ok (mkHTarget ARRAY_ITEM parent (PIndex (Z.to_nat z)))
           else Exn EPatch
       end.
Definition hnode (document : pyval) (path : pointer) (h : heap) : res htarget :=
  match path with
  | [] => Ok (mkHTarget ROOT VNull PNone)
  | _ =>
      let* parent := as_patch_error (heval (pointer_slice path None (Some (-1)%Z)) document h) in
      let* key := pointer_item path (-1) in
      match parent with
      | VStr s => hseq_target parent (length s) key
      | VRef a =>
          match nth_error h a with
          | Some (OList l) => hseq_target parent (length l) key
          | Some (ODict m) => Ok (mkHTarget (if dmem key m then OBJECT_PROPERTY else OBJECT_PROPERTY_NEW) parent (PKey key))
          | None => Exn EOther
          end
      | _ => Exn EAssertion
      end
  end.

(** [target.parent.insert(index, value)], [target.parent[index] = value] and
    [del target.parent[index]], jsonpatch.py:242-245, 260 and 280: the object
    itself is changed. *)
Definition hinsert (t : htarget) (value : pyval) : hm unit :=
  match ht_parent t with
  | VRef a => do o <- hget a in
      match o, ht_index t with
      | OList l, PIndex i => hset a (OList (insert_nth i value l))
      | _, _ => hret (Exn EAttribute)
      end
  | _ => hret (Exn EAttribute)
  end.
Definition hassign (t : htarget) (value : pyval) : hm unit :=
  match ht_parent t with
  | VRef a => do o <- hget a in
      match o, ht_index t with
      | OList l, PIndex i => hset a (OList (update_nth i value l))
      | ODict m, PKey k => hset a (ODict (dset k value m))
      | _, _ => hret (Exn EType)
      end
  | _ => hret (Exn EType)
  end.
Definition hdelete (t : htarget) : hm unit :=
  match ht_parent t with
  | VRef a => do o <- hget a in
      match o, ht_index t with
      | OList l, PIndex i => hset a (OList (remove_nth i l))
      | ODict m, PKey k => hset a (ODict (ddel k m))
      | _, _ => hret (Exn EType)
      end
  | _ => hret (Exn EType)
  end.

Section Operations.
Variable fuel : nat.

(** add, jsonpatch.py:230-247. *)
Definition h_add (document : pyval) (path : pointer) (value : pyval) : hm pyval :=
  do t <- hlook (hnode document path) in
  do value <- deepcopy fuel value in
  match ht_type t with
  | ROOT => hret (Ok value)
  | ARRAY_ITEM | ARRAY_ITEM_NEW => do _ <- hinsert t value in hret (Ok document)
  | OBJECT_PROPERTY | OBJECT_PROPERTY_NEW => do _ <- hassign t value in hret (Ok document)
  end.

(** remove, jsonpatch.py:250-265. *)
Definition h_remove (document : pyval) (path : pointer) : hm pyval :=
  do t <- hlook (hnode document path) in
  match ht_type t with
  | ROOT => hret (Ok VNull)
  | ARRAY_ITEM | OBJECT_PROPERTY => do _ <- hdelete t in hret (Ok document)
  | _ => hret (Exn EPatch)
  end.

(** replace, jsonpatch.py:268-285. *)
Definition h_replace (document : pyval) (path : pointer) (value : pyval) : hm pyval :=
  do t <- hlook (hnode document path) in
  do value <- deepcopy fuel value in
  match ht_type t with
  | ROOT => hret (Ok value)
  | ARRAY_ITEM | OBJECT_PROPERTY => do _ <- hassign t value in hret (Ok document)
  | _ => hret (Exn EPatch)
  end.

(** [from_.evaluate(document)], jsonpatch.py:294-297 and 309-312. *)
Definition heval_from (document : pyval) (from : option pointer) (h : heap) : res pyval :=
  match from with
  | None => Exn EAttribute
  | Some f => as_patch_error (heval f document h)
  end.

(** move, jsonpatch.py:288-300. *)
Definition h_move (document : pyval) (path : pointer) (from : option pointer) : hm pyval :=
  do value <- hlook (heval_from document from) in
  match from with
  | None => hret (Exn EAttribute)
  | Some f => do document <- h_remove document f in h_add document path value
  end.

(** copy, jsonpatch.py:303-314. *)
Definition h_copy (document : pyval) (path : pointer) (from : option pointer) : hm pyval :=
  do value <- hlook (heval_from document from) in h_add document path value.

(** [JSON(value)], json.py:50-95, as far as comparison sees it: the JSON value
    of a Python value.  An object that contains itself is never finished. *)
Fixpoint read_all (read : pyval -> heap -> res json) (l : list pyval) (h : heap) : res (list json) :=
  match l with
  | [] => Ok []
  | v :: l => let* d := read v h in let* ds := read_all read l h in Ok (d :: ds)
  end.
Fixpoint hread (n : nat) (v : pyval) (h : heap) : res json :=
  match n with
  | O => Fuel
  | S n =>
      match v with
      | VNull => Ok JNull
      | VBool b => Ok (JBool b)
      | VNum x => Ok (JNum x)
      | VStr s => Ok (JStr s)
      | VRef a =>
          match nth_error h a with
          | Some (OList l) => let* ds := read_all (hread n) l h in Ok (JArr ds)
          | Some (ODict m) => let* ds := read_all (hread n) (map snd m) h in Ok (JObj (combine (keys m) ds))
          | None => Exn EOther
          end
      end
  end.

(** test, jsonpatch.py:317-331. *)
Definition h_test (document : pyval) (path : pointer) (value : pyval) : hm pyval :=
  do t <- hlook (hnode document path) in
  match ht_type t with
  | ROOT | ARRAY_ITEM | OBJECT_PROPERTY =>
      do found <- hlook (heval path document) in
      do a <- hlook (hread fuel found) in
      do b <- hlook (hread fuel value) in
      if json_eqb a b then hret (Ok document) else hret (Exn EPatch)
  | _ => hret (Exn EPatch)
  end.

(** JSONPatchOperation, jsonpatch.py:36-66: the value is kept as it is given. *)
Record hpatchop : Set := mkHOp { ho_op : opname; ho_path : pointer; ho_value : pyval; ho_from : option pointer }.

(** JSONPatchOperation.apply, jsonpatch.py:68-82. *)
Definition h_apply (o : hpatchop) (document : pyval) : hm pyval :=
  match ho_op o with
  | ADD => h_add document (ho_path o) (ho_value o)
  | REMOVE => h_remove document (ho_path o)
  | REPLACE => h_replace document (ho_path o) (ho_value o)
  | MOVE => h_move document (ho_path o) (ho_from o)
  | COPY => h_copy document (ho_path o) (ho_from o)
  | TEST => h_test document (ho_path o) (ho_value o)
  end.
Fixpoint h_apply_all (ops : list hpatchop) (document : pyval) : hm pyval :=
  match ops with
  | [] => hret (Ok document)
  | o :: ops => do document <- h_apply o document in h_apply_all ops document
  end.

(** JSONPatch.evaluate, jsonpatch.py:124-130. *)
Definition h_evaluate (ops : list hpatchop) (document : pyval) : hm pyval :=
  do result <- deepcopy fuel document in h_apply_all ops result.
End Operations.
