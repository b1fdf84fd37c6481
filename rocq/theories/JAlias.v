(** Which Python lists and dicts JSON.value hands out: model of the cached
    property [value] of class JSON (jschon/json.py:163-170) with the identity
    of the lists and dicts in the cache.  JTree.v keeps their contents instead.
    Here the cached values are in a table of their own; the field [ncvalue] of
    the nodes is not used. *)
From Verif Require Export JTree.
Open Scope nat_scope.

(** A Python value: None, a bool, a number or a str; or a reference to a list
    or dict. *)
Inductive pyref : Set := PAtom (v : json) | PRef (a : nat).
Inductive pyobj : Set := PList (l : list pyref) | PDict (m : list (pystr * pyref)).
(** The lists and dicts there are; a reference is a position. *)
Definition store := list pyobj.
(** The nodes, the entries [value] of their instance dictionaries, and the
    lists and dicts. *)
Record state : Set := mkState { s_heap : heap; s_cache : list (id * pyref); s_store : store }.

Definition cached_value (t : state) (n : id) : option pyref :=
  match find (fun e => fst e =? n) (s_cache t) with Some e => Some (snd e) | None => None end.
Definition cache_value (n : id) (v : pyref) (t : state) : state := mkState (s_heap t) ((n, v) :: s_cache t) (s_store t).
Definition cache_new (n : id) (o : pyobj) (t : state) : state :=
  cache_value n (PRef (length (s_store t))) (mkState (s_heap t) (s_cache t) (s_store t ++ [o])).

(** JSON.value, json.py:163-170.  [fuel] bounds the depth. *)
Fixpoint read_each (rd : state -> id -> res pyref * state) (t : state) (ids : list id) : res (list pyref) * state :=
  match ids with
  | [] => (Ok [], t)
  | c :: r => match rd t c with
              | (Ok v, t) => match read_each rd t r with
                             | (Ok l, t) => (Ok (v :: l), t)
                             | x => x
                             end
              | (Exn e, t) => (Exn e, t)
              | (Fuel, t) => (Fuel, t)
              end
  end.
Fixpoint value_ref_f (fuel : nat) (t : state) (n : id) : res pyref * state :=
  match fuel with
  | O => (Fuel, t)
  | S f =>
      match cached_value t n with
      | Some v => (Ok v, t)
      | None =>
          let atom (v : json) := (Ok (PAtom v), cache_value n (PAtom v) t) in
          let fresh (x : res (list pyref) * state) (o : list pyref -> pyobj) :=
            match x with
            | (Ok l, t) => (Ok (PRef (length (s_store t))), cache_new n (o l) t)
            | (Exn e, t) => (Exn e, t)
            | (Fuel, t) => (Fuel, t)
            end in
          match ndata (getn (s_heap t) n) with
          | DNull => atom JNull
          | DBool b => atom (JBool b)
          | DNum x => atom (JNum x)
          | DStr s => atom (JStr s)
          | DArr ids => fresh (read_each (value_ref_f f) t ids) PList
          | DObj m => fresh (read_each (value_ref_f f) t (map snd m)) (fun l => PDict (combine (map fst m) l))
          end
      end
  end.
Definition value_ref (t : state) (n : id) : res pyref * state := value_ref_f (S (length (s_heap t))) t n.

(** What the constructor sees when it goes through a Python value
    (json.py:136-148).  [fuel] bounds the depth; a list that contains itself
    uses it up (RecursionError in Python). *)
Fixpoint each_content (f : pyref -> res json) (l : list pyref) : res (list json) :=
  match l with
  | [] => Ok []
  | x :: r => let* v := f x in let* vs := each_content f r in Ok (v :: vs)
  end.
Fixpoint content_f (fuel : nat) (st : store) (v : pyref) : res json :=
  match fuel with
  | O => Fuel
  | S f => match v with
           | PAtom v => Ok v
           | PRef a => match nth_error st a with
                       | Some (PList l) => let* vs := each_content (content_f f st) l in Ok (JArr vs)
                       | Some (PDict m) => let* vs := each_content (content_f f st) (map snd m) in Ok (JObj (combine (map fst m) vs))
                       | None => Exn EOther
                       end
           end
  end.
Definition content (st : store) (v : pyref) : res json := content_f (S (length st)) st v.

(** [obj.value if isinstance(obj, JSON) else obj], json.py:242 and 267, and
    what the constructor makes of it. *)
Definition operand_content (t : state) (o : operand) : res json * state :=
  match o with
  | OVal v => (Ok v, t)
  | ONode n => match value_ref t n with
               | (Ok r, t) => (content (s_store t) r, t)
               | (Exn e, t) => (Exn e, t)
               | (Fuel, t) => (Fuel, t)
               end
  end.

(** JSON._invalidate_value, json.py:184-190: the node and its ancestors lose
    their entries. *)
Fixpoint lineage (fuel : nat) (h : heap) (n : id) : list id :=
  match fuel with
  | O => []
  | S f => n :: match nparent (getn h n) with Some p => lineage f h p | None => [] end
  end.
Definition forget_value (n : id) (t : state) : state :=
  let ns := lineage (S (length (s_heap t))) (s_heap t) n in
  mkState (s_heap t) (filter (fun e => negb (existsb (Nat.eqb (fst e)) ns)) (s_cache t)) (s_store t).
Definition with_heap (t : state) (h : heap) : state := mkState h (s_cache t) (s_store t).

(** JSON(v), n.value, [n[i] = o], [del n[i]] and n.insert(z, o), json.py:64-151,
    163-170 and 236-275.  The heap changes as in JTree.v; the value is
    invalidated once the item has been stored (line 247), deleted (line 255)
    or inserted (line 272); that the entries go before the heap changes makes no
    difference, as no node gets another parent. *)
Inductive action : Set :=
| ANew (v : json)
| ARead (n : id)
| ASet (n : id) (i : index) (o : operand)
| ADel (n : id) (i : index)
| AInsert (n : id) (z : Z) (o : operand).
Definition act (t : state) (x : action) : state :=
  match x with
  | ANew v => with_heap t (fst (new_doc v (s_heap t)))
  | ARead n => snd (value_ref t n)
  | ASet n i o =>
      match operand_content t o with
      | (Ok v, t) => match setitem (s_heap t) n i (OVal v) with
                     | (Ok _, h) => with_heap (forget_value n t) h
                     | (_, h) => with_heap t h
                     end
      | (_, t) => t
      end
  | ADel n i =>
      let h := snd (delitem (s_heap t) n i) in
      match getitem (s_heap t) n i with Ok _ => with_heap (forget_value n t) h | _ => with_heap t h end
  | AInsert n z o =>
      match ndata (getn (s_heap t) n) with
      | DArr _ => match operand_content t o with
                  | (Ok v, t) => with_heap (forget_value n t) (snd (insert (s_heap t) n z (OVal v)))
                  | (_, t) => t
                  end
      | _ => t
      end
  end.

(** The caller changes a list or dict: any assignment to it, or method of it. *)
Definition change (a : nat) (o : pyobj) (t : state) : state := mkState (s_heap t) (s_cache t) (update_nth a o (s_store t)).
