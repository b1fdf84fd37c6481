(** keys(), items() and values(), which class JSON (json.py:35) inherits from
    collections.abc.Mapping: model of KeysView, ItemsView and ValuesView of
    CPython's Lib/_collections_abc.py, and of the comparison that the first two
    inherit from Set.  A view keeps the node and calls its __len__, __iter__
    and __getitem__ (json.py:213-234) each time; JSON.__eq__ uses keys() and
    items() (json.py:285-287). *)
From Verif Require Export JSeq.
Open Scope nat_scope.

(** [mapping[key]] for a [key] that [iter(mapping)] yielded: a member name, or
    an item of an array, which is no list index. *)
Definition index_by (h : heap) (n : id) (key : operand) : res id :=
  match key with
  | OVal (JStr k) => getitem h n (IStr k)
  | _ => Exn EType
  end.
(** ItemsView.__iter__: [for key in self._mapping: yield (key, self._mapping[key])]. *)
Fixpoint pairs_of (h : heap) (n : id) (ks : list operand) : res (list (operand * id)) :=
  match ks with
  | [] => Ok []
  | k :: r => let* c := index_by h n k in let* l := pairs_of h n r in Ok ((k, c) :: l)
  end.
(** list(node.keys()): KeysView.__iter__ is [yield from self._mapping]. *)
Definition keys_list (h : heap) (n : id) : res (list operand) := iter_operands h n.
Definition items_list (h : heap) (n : id) : res (list (operand * id)) :=
  let* ks := iter_operands h n in pairs_of h n ks.
(** ValuesView.__iter__: [for key in self._mapping: yield self._mapping[key]]. *)
Definition values_list (h : heap) (n : id) : res (list id) :=
  let* l := items_list h n in Ok (map snd l).
(** MappingView.__len__. *)
Definition view_len (h : heap) (n : id) : res nat := json_len h n.

(** KeysView.__contains__: [key in self._mapping], which is
    Sequence.__contains__ of the node. *)
Definition keys_contain (h : heap) (n : id) (o : operand) : res bool := json_contains h n o.
(** ItemsView.__contains__: [key, value = item], then [v = self._mapping[key]],
    where a KeyError gives False, then [v is value or v == value]. *)
Definition items_contain (h : heap) (n : id) (key : index) (o : operand) : res bool :=
  match getitem h n key with
  | Ok c => item_matches h c o
  | Exn EKey => Ok false
  | Exn e => Exn e
  | Fuel => Fuel
  end.
(** ValuesView.__contains__: [for key in self._mapping: v = self._mapping[key];
    if v is value or v == value: return True]. *)
Fixpoint values_search (h : heap) (n : id) (ks : list operand) (o : operand) : res bool :=
  match ks with
  | [] => Ok false
  | k :: r => let* c := index_by h n k in let* b := item_matches h c o in if b then Ok true else values_search h n r o
  end.
Definition values_contain (h : heap) (n : id) (o : operand) : res bool :=
  let* ks := iter_operands h n in values_search h n ks o.

(** Set.__eq__ of two views of one kind:
    [len(self) == len(other) and self.__le__(other)]; Set.__le__ stops at the
    first element that is not in the other. *)
Fixpoint all_in {A} (f : A -> res bool) (l : list A) : res bool :=
  match l with
  | [] => Ok true
  | x :: r => let* b := f x in if b then all_in f r else Ok false
  end.
Definition keys_equal (h : heap) (a b : id) : res bool :=
  let* la := view_len h a in let* lb := view_len h b in
  if la =? lb then let* ks := keys_list h a in all_in (keys_contain h b) ks else Ok false.
(** The pairs are made one by one, as they are looked for in the other view. *)
Definition items_equal (h : heap) (a b : id) : res bool :=
  let* la := view_len h a in let* lb := view_len h b in
  if la =? lb then
    let* ks := iter_operands h a in
    all_in (fun k => let* c := index_by h a k in
                     match k with OVal (JStr s) => items_contain h b (IStr s) (ONode c) | _ => Exn EType end) ks
  else Ok false.
