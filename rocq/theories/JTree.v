(** JSON documents as linked nodes: model of jschon/json.py (class JSON) with
    node identity, parent links, keys and the cached [path] and [value]. *)
From Verif Require Export Pointer.
Open Scope nat_scope.

Notation id := nat (only parsing).

(** json.py:93-106, the attribute [data]. *)
Inductive data : Set :=
| DNull | DBool (b : bool) | DNum (n : num) | DStr (s : pystr)
| DArr (ids : list id)
| DObj (m : list (pystr * id)).

(** json.py:89-118, the attributes of a node.  [ncpath] and [ncvalue] are the
    entries that functools.cached_property keeps in the instance dictionary
    (json.py:153,163).  Simplification: [itemclass] is JSON and [itemkwargs] is
    empty (the subclass JSONSchema is modelled in Schema.v). *)
Record node : Set := mkNode {
  ndata : data;
  nparent : option id;
  nkey : option pystr;
  ncpath : option pointer;
  ncvalue : option json
}.

(** A freshly allocated object, before [__init__] has run. *)
Definition blank : node := mkNode DNull None None None None.

(** The heap of JSON objects; an id is a position.  Objects are never freed. *)
Definition heap := list node.

Definition getn (h : heap) (n : id) : node := nth n h blank.
Definition setn (h : heap) (n : id) (x : node) : heap := update_nth n x h.

Definition with_data (x : node) (d : data) : node :=
  mkNode d (nparent x) (nkey x) (ncpath x) (ncvalue x).
Definition with_key (x : node) (k : option pystr) : node :=
  mkNode (ndata x) (nparent x) k (ncpath x) (ncvalue x).
Definition with_cpath (x : node) (p : option pointer) : node :=
  mkNode (ndata x) (nparent x) (nkey x) p (ncvalue x).
Definition with_cvalue (x : node) (v : option json) : node :=
  mkNode (ndata x) (nparent x) (nkey x) (ncpath x) v.

(** The attribute [type], json.py:120-148 (a function of [data]). *)
Definition dtype (d : data) : jtype :=
  match d with
  | DNull => TNull | DBool _ => TBoolean | DNum _ => TNumber | DStr _ => TString
  | DArr _ => TArray | DObj _ => TObject
  end.

(** JSON.__init__, json.py:64-151, on the existing object [self].  Children are
    allocated in order while the list or dict comprehension runs, each with
    [parent=self] and its key; [self.data] is assigned last.  Cached entries of
    [self], if any, are untouched. *)
Fixpoint init (v : json) (h : heap) (self : id) (parent : option id) (key : option pystr)
  {struct v} : heap :=
  let finish (h : heap) (d : data) : heap :=
    setn h self (mkNode d parent key (ncpath (getn h self)) (ncvalue (getn h self))) in
  match v with
  | JNull => finish h DNull
  | JBool b => finish h (DBool b)
  | JNum n => finish h (DNum n)
  | JStr s => finish h (DStr s)
  | JArr l =>
      let '(h', ids) :=
        (fix go (i : nat) (l : list json) (h : heap) {struct l} : heap * list id :=
           match l with
           | [] => (h, [])
           | x :: r =>
               let c := length h in
               let h1 := init x (h ++ [blank]) c (Some self) (Some (str_of_nat i)) in
               let '(h2, ids) := go (S i) r h1 in
               (h2, c :: ids)
           end) 0 l h in
      finish h' (DArr ids)
  | JObj m =>
      let '(h', kids) :=
        (fix go (m : list (pystr * json)) (h : heap) {struct m} : heap * list (pystr * id) :=
           match m with
           | [] => (h, [])
           | (k, x) :: r =>
               let c := length h in
               let h1 := init x (h ++ [blank]) c (Some self) (Some k) in
               let '(h2, kids) := go r h1 in
               (h2, (k, c) :: kids)
           end) m h in
      finish h' (DObj kids)
  end.

(** [itemclass(value, parent=..., key=...)]: allocate, then [__init__]. *)
Definition new_node (v : json) (h : heap) (parent : option id) (key : option pystr) : heap * id :=
  (init v (h ++ [blank]) (length h) parent key, length h).

(** JSON(value). *)
Definition new_doc (v : json) (h : heap) : heap * id := new_node v h None None.

(** JSON.path, json.py:153-161: the cached value, or the keys met while
    climbing to the root, which is then cached.  [fuel] bounds the climb. *)
Fixpoint climb (fuel : nat) (h : heap) (n : id) (acc : pointer) : res pointer :=
  match fuel with
  | O => Fuel
  | S f => match nparent (getn h n) with
           | None => Ok acc
           | Some p => match nkey (getn h n) with
                       | Some k => climb f h p (k :: acc)
                       | None => Exn EOther
                       end
           end
  end.
Definition read_path (h : heap) (n : id) : res pointer * heap :=
  match ncpath (getn h n) with
  | Some p => (Ok p, h)
  | None => match climb (S (length h)) h n [] with
            | Ok p => (Ok p, setn h n (with_cpath (getn h n) (Some p)))
            | Exn e => (Exn e, h)
            | Fuel => (Fuel, h)
            end
  end.

(** JSON.value, json.py:163-170: cached, or recomputed from the children's
    [value] (each of which is cached in turn). *)
Fixpoint read_value_f (fuel : nat) (h : heap) (n : id) : res json * heap :=
  match fuel with
  | O => (Fuel, h)
  | S f =>
      match ncvalue (getn h n) with
      | Some v => (Ok v, h)
      | None =>
          let store (v : json) (h : heap) := (Ok v, setn h n (with_cvalue (getn h n) (Some v))) in
          match ndata (getn h n) with
          | DNull => store JNull h
          | DBool b => store (JBool b) h
          | DNum x => store (JNum x) h
          | DStr s => store (JStr s) h
          | DArr ids =>
              (fix go (ids : list id) (h : heap) (acc : list json) : res json * heap :=
                 match ids with
                 | [] => store (JArr (rev acc)) h
                 | c :: r => match read_value_f f h c with
                             | (Ok v, h') => go r h' (v :: acc)
                             | (Exn e, h') => (Exn e, h')
                             | (Fuel, h') => (Fuel, h')
                             end
                 end) ids h []
          | DObj m =>
              (fix go (m : list (pystr * id)) (h : heap) (acc : list (pystr * json)) : res json * heap :=
                 match m with
                 | [] => store (JObj (rev acc)) h
                 | (k, c) :: r => match read_value_f f h c with
                                  | (Ok v, h') => go r h' ((k, v) :: acc)
                                  | (Exn e, h') => (Exn e, h')
                                  | (Fuel, h') => (Fuel, h')
                                  end
                 end) m h []
          end
      end
  end.
Definition read_value (h : heap) (n : id) : res json * heap := read_value_f (S (length h)) h n.

(** JSON._invalidate_path, json.py:172-182: the node, then its descendants. *)
Fixpoint inval_path_f (fuel : nat) (h : heap) (n : id) : res unit * heap :=
  match fuel with
  | O => (Fuel, h)
  | S f =>
      let h := setn h n (with_cpath (getn h n) None) in
      let go := (fix go (ids : list id) (h : heap) : res unit * heap :=
        match ids with
        | [] => (Ok tt, h)
        | c :: r => match inval_path_f f h c with
                    | (Ok _, h') => go r h'
                    | (Exn e, h') => (Exn e, h')
                    | (Fuel, h') => (Fuel, h')
                    end
        end) in
      match ndata (getn h n) with
      | DArr ids => go ids h
      | DObj m => go (map snd m) h
      | _ => (Ok tt, h)
      end
  end.
Definition inval_path (h : heap) (n : id) : res unit * heap := inval_path_f (S (length h)) h n.

(** JSON._invalidate_value, json.py:184-190: the node, then its ancestors. *)
Fixpoint inval_value_f (fuel : nat) (h : heap) (n : id) : res unit * heap :=
  match fuel with
  | O => (Fuel, h)
  | S f =>
      let h := setn h n (with_cvalue (getn h n) None) in
      match nparent (getn h n) with
      | Some p => inval_value_f f h p
      | None => (Ok tt, h)
      end
  end.
Definition inval_value (h : heap) (n : id) : res unit * heap := inval_value_f (S (length h)) h n.

(** Sequencing of operations that change the heap and may raise: the heap
    changes made before an exception stay. *)
Definition hbind {A B} (x : res A * heap) (f : A -> heap -> res B * heap) : res B * heap :=
  match x with
  | (Ok a, h) => f a h
  | (Exn e, h) => (Exn e, h)
  | (Fuel, h) => (Fuel, h)
  end.

(** An operand: a JSON node or a plain value; json.py:242,267,339,423 take
    [obj.value if isinstance(obj, JSON) else obj]. *)
Inductive operand : Set :=
| OVal (v : json)
| ONode (n : id).
Definition operand_value (h : heap) (o : operand) : res json * heap :=
  match o with OVal v => (Ok v, h) | ONode n => read_value h n end.

(** An index: [int] or [str]. *)
Inductive index : Set :=
| IInt (z : Z)
| IStr (s : pystr).
(** [str(index)]. *)
Definition index_str (i : index) : pystr :=
  match i with IInt z => str_of_Z z | IStr s => s end.

(** JSON.__getitem__, json.py:229-234, with an int or str index. *)
Definition getitem (h : heap) (n : id) (i : index) : res id :=
  match ndata (getn h n), i with
  | DArr ids, IInt z => match norm_index (length ids) z with
                        | Some k => match nth_error ids k with Some c => Ok c | None => Exn EIndex end
                        | None => Exn EIndex
                        end
  | DArr _, IStr _ => Exn EType
  | DObj m, IStr s => match dget s m with Some c => Ok c | None => Exn EKey end
  | DObj _, IInt _ => Exn EKey
  | DStr _, _ => Exn EOther   (* indexes the Python string: see JChars.v *)
  | _, _ => Exn EType
  end.

(** JSON.__setitem__, json.py:236-247.  The new child is built before the
    assignment, so a failed assignment leaves an unreachable node behind.
    Simplification: an int index on an object (which would create a
    non-string key) is reported as [EOther]. *)
Definition setitem (h : heap) (n : id) (i : index) (o : operand) : res unit * heap :=
  hbind (operand_value h o) (fun v h =>
  let '(h, c) := new_node v h (Some n) (Some (index_str i)) in
  let x := getn h n in
  match ndata x, i with
  | DArr ids, IInt z =>
      match norm_index (length ids) z with
      | Some k => inval_value (setn h n (with_data x (DArr (update_nth k c ids)))) n
      | None => (Exn EIndex, h)
      end
  | DObj m, IStr s => inval_value (setn h n (with_data x (DObj (dset s c m)))) n
  | DObj m, IInt _ => (Exn EOther, h)
  | _, _ => (Exn EType, h)
  end).

(** The loops of json.py:257-259 and 273-275: shift the key of each item and
    invalidate its path. *)
Fixpoint renumber (delta : Z) (ids : list id) (h : heap) : res unit * heap :=
  match ids with
  | [] => (Ok tt, h)
  | c :: r =>
      match nkey (getn h c) with
      | None => (Exn EType, h)
      | Some k =>
          match py_int k with
          | None => (Exn EValue, h)
          | Some z =>
              let h := setn h c (with_key (getn h c) (Some (str_of_Z (z + delta)))) in
              hbind (inval_path h c) (fun _ h => renumber delta r h)
          end
      end
  end.

(** JSON.__delitem__, json.py:249-259. *)
Definition delitem (h : heap) (n : id) (i : index) : res unit * heap :=
  let x := getn h n in
  match ndata x, i with
  | DArr ids, IInt z =>
      match norm_index (length ids) z with
      | Some k =>
          let ids' := remove_nth k ids in
          hbind (inval_value (setn h n (with_data x (DArr ids'))) n) (fun _ h =>
          renumber (-1) (slice_from ids' z) h)
      | None => (Exn EIndex, h)
      end
  | DObj m, IStr s =>
      match dget s m with
      | Some _ => inval_value (setn h n (with_data x (DObj (ddel s m)))) n
      | None => (Exn EKey, h)
      end
  | DObj m, IInt _ => (Exn EKey, h)
  | _, _ => (Exn EType, h)
  end.

(** JSON.insert, json.py:261-275.  [self.data.insert] is looked up before the
    argument is evaluated, hence AttributeError first for other types. *)
Definition insert (h : heap) (n : id) (z : Z) (o : operand) : res unit * heap :=
  match ndata (getn h n) with
  | DArr ids =>
      hbind (operand_value h o) (fun v h =>
      let '(h, c) := new_node v h (Some n) (Some (str_of_Z z)) in
      let x := getn h n in
      let ids' := insert_nth (clamp_index (length ids) z) c ids in
      hbind (inval_value (setn h n (with_data x (DArr ids'))) n) (fun _ h =>
      renumber 1 (slice_from ids' (z + 1)) h))
  | _ => (Exn EAttribute, h)
  end.

(** MutableSequence.append and MutableSequence.pop (collections.abc), which
    JSON inherits: insert(len(self), x), and v = self[i]; del self[i]. *)
Definition append (h : heap) (n : id) (o : operand) : res unit * heap :=
  match ndata (getn h n) with
  | DArr ids => insert h n (Z.of_nat (length ids)) o
  | DObj m => insert h n (Z.of_nat (length m)) o
  | DStr s => insert h n (Z.of_nat (length s)) o
  | _ => (Exn EType, h)
  end.
Definition pop (h : heap) (n : id) (z : Z) : res id * heap :=
  match getitem h n (IInt z) with
  | Ok c => hbind (delitem h n (IInt z)) (fun _ h => (Ok c, h))
  | Exn e => (Exn e, h)
  | Fuel => (Fuel, h)
  end.

(** JSONPointer.evaluate on JSON nodes, jsonpointer.py:199-221, returning the
    node found. *)
Fixpoint eval_id (p : pointer) (h : heap) (n : id) : res id :=
  match p with
  | [] => Ok n
  | key :: keys =>
      match ndata (getn h n) with
      | DObj m => match dget key m with
                  | Some c => eval_id keys h c
                  | None => Exn EPointerReference
                  end
      | DArr ids =>
          match py_int key with
          | Some i => match norm_index (length ids) i with
                      | Some k => match nth_error ids k with
                                  | Some c => eval_id keys h c
                                  | None => Exn EPointerReference
                                  end
                      | None => Exn EPointerReference
                      end
          | None => Exn EValue
          end
      | _ => Exn EPointerReference
      end
  end.

(** [except JSONPointerError as e: raise JSONError] of json.py:351-355,
    400-403, 435-438. *)
Definition as_json_error {A} (r : res A) : res A :=
  match r with
  | Exn e => if is_pointer_error e then Exn EJSON else Exn e
  | _ => r
  end.

(** [self.__init__(v, parent=self.parent, key=self.key, ...)] followed by
    [self._invalidate_value()], json.py:338-345. *)
Definition reinit (h : heap) (n : id) (v : json) : res unit * heap :=
  inval_value (init v h n (nparent (getn h n)) (nkey (getn h n))) n.

(** [not path]: an empty string or an empty pointer. *)
Definition path_empty (p : parg) : bool :=
  match p with PStr [] | PKeys [] => true | _ => false end.

(** JSON.add, json.py:327-374. *)
Definition json_add (h : heap) (n : id) (path : parg) (o : operand) : res unit * heap :=
  if path_empty path then hbind (operand_value h o) (fun v h => reinit h n v)
  else
    match mk_pointer [path] with
    | Exn e => (Exn e, h)
    | Fuel => (Fuel, h)
    | Ok p =>
        match as_json_error (eval_id (pointer_slice p None (Some (-1)%Z)) h n) with
        | Exn e => (Exn e, h)
        | Fuel => (Fuel, h)
        | Ok tp =>
            let key := last p [] in
            match ndata (getn h tp) with
            | DArr ids =>
                let len := Z.of_nat (length ids) in
                if str_eqb key (lit "-") then insert h tp len o
                else match py_int key with
                     | Some z => if (z =? len)%Z then insert h tp len o
                                 else if ((0 <=? z) && (z <? len))%Z then insert h tp z o
                                 else (Exn EJSON, h)
                     | None => (Exn EJSON, h)
                     end
            | DObj _ => setitem h tp (IStr key) o
            | _ => (Exn EJSON, h)
            end
        end
    end.

(** [int(target.key)] of json.py:406,441. *)
Definition key_int (h : heap) (t : id) : res Z :=
  match nkey (getn h t) with
  | Some k => match py_int k with Some z => Ok z | None => Exn EValue end
  | None => Exn EType
  end.

(** JSON.remove, json.py:376-409. *)
Definition json_remove (h : heap) (n : id) (path : parg) : res unit * heap :=
  if path_empty path then reinit h n JNull
  else
    match mk_pointer [path] with
    | Exn e => (Exn e, h)
    | Fuel => (Fuel, h)
    | Ok p =>
        match as_json_error (eval_id p h n) with
        | Exn e => (Exn e, h)
        | Fuel => (Fuel, h)
        | Ok t =>
            match nparent (getn h t) with
            | None => (Exn EAttribute, h)
            | Some tp =>
                match ndata (getn h tp) with
                | DArr _ => match key_int h t with
                            | Ok z => delitem h tp (IInt z)
                            | Exn e => (Exn e, h)
                            | Fuel => (Fuel, h)
                            end
                | DObj _ => match nkey (getn h t) with
                            | Some k => delitem h tp (IStr k)
                            | None => (Exn EKey, h)
                            end
                | _ => (Ok tt, h)
                end
            end
        end
    end.

(** JSON.replace, json.py:411-444. *)
Definition json_replace (h : heap) (n : id) (path : parg) (o : operand) : res unit * heap :=
  if path_empty path then hbind (operand_value h o) (fun v h => reinit h n v)
  else
    match mk_pointer [path] with
    | Exn e => (Exn e, h)
    | Fuel => (Fuel, h)
    | Ok p =>
        match as_json_error (eval_id p h n) with
        | Exn e => (Exn e, h)
        | Fuel => (Fuel, h)
        | Ok t =>
            match nparent (getn h t) with
            | None => (Exn EAttribute, h)
            | Some tp =>
                match ndata (getn h tp) with
                | DArr _ => match key_int h t with
                            | Ok z => setitem h tp (IInt z) o
                            | Exn e => (Exn e, h)
                            | Fuel => (Fuel, h)
                            end
                | DObj _ => match nkey (getn h t) with
                            | Some k => setitem h tp (IStr k) o
                            | None => (Exn EOther, h)
                            end
                | _ => (Ok tt, h)
                end
            end
        end
    end.
