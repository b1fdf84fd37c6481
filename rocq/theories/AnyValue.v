(** Constructing a JSON document from Python values among which JSON nodes
    occur: model of JSON.__init__ (jschon/json.py:64-151) for any argument.
    A node is an instance of both Sequence and Mapping (json.py:35); the test
    for Sequence comes first (json.py:136), so a node is taken for a sequence
    and iterated over (json.py:220-225).  JTree.v models [__init__] for values
    without nodes. *)
From Verif Require Export JTree.
Open Scope nat_scope.

(** Python values as [__init__] sorts them, json.py:120-151.  [VSeq] stands
    for any Sequence other than a string or a node (list, tuple), [VMap] for a
    Mapping other than a node, with string keys; [VNode] for an instance of
    JSON or JSONSchema; [VOther] for a value of any other class. *)
Inductive pyval : Set :=
| VNull | VBool (b : bool) | VNum (n : num) | VStr (s : pystr)
| VSeq (l : list pyval)
| VMap (m : list (pystr * pyval))
| VNode (n : id)
| VOther.

(** The assignment to [self.data] that ends [__init__]. *)
Definition finish (h : heap) (self : id) (parent : option id) (key : option pystr) (d : data) : heap :=
  setn h self (mkNode d parent key (ncpath (getn h self)) (ncvalue (getn h self))).

(** [__init__] on the node [n], json.py:136-141: [enumerate(value)] iterates
    over [value.data] (json.py:225), which are nodes for an array, the keys
    for an object, one-character strings for a string; [iter] of None, of a
    bool and of a number raises TypeError.  [fuel] bounds the depth. *)
Fixpoint init_node (fuel : nat) (n : id) (h : heap) (self : id) (parent : option id) (key : option pystr)
  : res heap :=
  match fuel with
  | O => Fuel
  | S f =>
      match ndata (getn h n) with
      | DArr ids =>
          let* (h', new) :=
            (fix go (i : nat) (ids : list id) (h : heap) : res (heap * list id) :=
               match ids with
               | [] => Ok (h, [])
               | x :: r =>
                   let c := length h in
                   let* h1 := init_node f x (h ++ [blank]) c (Some self) (Some (str_of_nat i)) in
                   let* (h2, new) := go (S i) r h1 in
                   Ok (h2, c :: new)
               end) 0 ids h in
          Ok (finish h' self parent key (DArr new))
      | DObj m => Ok (init (JArr (map (fun kc => JStr (fst kc)) m)) h self parent key)
      | DStr s => Ok (init (JArr (map (fun c => JStr [c]) s)) h self parent key)
      | DNull | DBool _ | DNum _ => Exn EType
      end
  end.

(** [__init__] on any value, json.py:120-151.  The nodes allocated before an
    exception are unreachable, so the exception alone is returned. *)
Fixpoint init_any (v : pyval) (h : heap) (self : id) (parent : option id) (key : option pystr)
  {struct v} : res heap :=
  match v with
  | VNull => Ok (finish h self parent key DNull)
  | VBool b => Ok (finish h self parent key (DBool b))
  | VNum n => Ok (finish h self parent key (DNum n))
  | VStr s => Ok (finish h self parent key (DStr s))
  | VSeq l =>
      let* (h', new) :=
        (fix go (i : nat) (l : list pyval) (h : heap) {struct l} : res (heap * list id) :=
           match l with
           | [] => Ok (h, [])
           | x :: r =>
               let c := length h in
               let* h1 := init_any x (h ++ [blank]) c (Some self) (Some (str_of_nat i)) in
               let* (h2, new) := go (S i) r h1 in
               Ok (h2, c :: new)
           end) 0 l h in
      Ok (finish h' self parent key (DArr new))
  | VMap m =>
      let* (h', new) :=
        (fix go (m : list (pystr * pyval)) (h : heap) {struct m} : res (heap * list (pystr * id)) :=
           match m with
           | [] => Ok (h, [])
           | (k, x) :: r =>
               let c := length h in
               let* h1 := init_any x (h ++ [blank]) c (Some self) (Some k) in
               let* (h2, new) := go r h1 in
               Ok (h2, (k, c) :: new)
           end) m h in
      Ok (finish h' self parent key (DObj new))
  | VNode n => init_node (S (length h)) n h self parent key
  | VOther => Exn EType
  end.

(** JSON(value). *)
Definition new_any (v : pyval) (h : heap) : res (heap * id) :=
  let* h' := init_any v (h ++ [blank]) (length h) None None in Ok (h', length h).

(** The value in the node [n] (json.py:163-170), read without the caches. *)
Fixpoint value_of (fuel : nat) (h : heap) (n : id) : json :=
  match fuel with
  | O => JNull
  | S f => match ndata (getn h n) with
           | DNull => JNull | DBool b => JBool b | DNum x => JNum x | DStr s => JStr s
           | DArr ids => JArr (map (value_of f h) ids)
           | DObj m => JObj (map (fun kc => (fst kc, value_of f h (snd kc))) m)
           end
  end.

(** [JSON.__eq__], json.py:274-287, of the node [n] with any Python value: a
    node is compared as it is, anything else is made into a node first.  The
    comparison of two nodes is that of their values ([json_eqb], Json.v). *)
Definition eq_any (h : heap) (n : id) (v : pyval) : res bool :=
  match v with
  | VNode m => Ok (json_eqb (value_of (S (length h)) h n) (value_of (S (length h)) h m))
  | _ => let* (h', r) := new_any v h in
         Ok (json_eqb (value_of (S (length h')) h' n) (value_of (S (length h')) h' r))
  end.
