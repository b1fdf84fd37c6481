(** Slices of JSON nodes: [node[a:b:c]] read, deleted and assigned, through
    JSON.__getitem__, __delitem__ and __setitem__ (jschon/json.py:229-259) and
    CPython's list, str and dict. *)
From Verif Require Export JTree PatchSeq.
Open Scope nat_scope.

(** A slice object; its step, 1 if left out. *)
Record slice : Set := mkSlice { sl_start : option Z; sl_stop : option Z; sl_step : option Z }.
Definition step_of (s : slice) : Z := match sl_step s with Some z => z | None => 1%Z end.

(** [str(slice)], the key of json.py:244: the three parts as Python shows them. *)
Definition part_text (x : option Z) : pystr := match x with Some z => str_of_Z z | None => lit "None" end.
Definition slice_str (s : slice) : pystr :=
  lit "slice(" ++ part_text (sl_start s) ++ lit ", " ++ part_text (sl_stop s) ++ lit ", " ++ part_text (sl_step s) ++ lit ")".

(** The positions of the slice in a sequence of [len] elements. *)
Definition slice_of (len : nat) (s : slice) : list nat := slice_positions len (sl_start s) (sl_stop s) (step_of s).

(** JSON.__getitem__ of a slice, json.py:229-234: a list of nodes, or a plain
    string.  A dict looks a slice up as a key, which is a TypeError as slices
    have no hash (CPython before 3.12; later a KeyError). *)
Inductive sliced : Set := SNodes (ids : list id) | SText (s : pystr).
Definition getitem_slice (h : heap) (n : id) (s : slice) : res sliced :=
  match ndata (getn h n) with
  | DArr ids => if (step_of s =? 0)%Z then Exn EValue else Ok (SNodes (picked ids (slice_of (length ids) s)))
  | DStr t => if (step_of s =? 0)%Z then Exn EValue else Ok (SText (picked t (slice_of (length t) s)))
  | _ => Exn EType
  end.

(** JSON.__delitem__ of a slice, json.py:249-259: the items go and the value is
    invalidated (lines 254-255); then [self.data[index:]] (line 257) takes the
    slice object for a bound, a TypeError. *)
Definition delitem_slice (h : heap) (n : id) (s : slice) : res unit * heap :=
  let x := getn h n in
  match ndata x with
  | DArr ids =>
      if (step_of s =? 0)%Z then (Exn EValue, h)
      else hbind (inval_value (setn h n (with_data x (DArr (without (slice_of (length ids) s) 0 ids)))) n)
             (fun _ h => (Exn EType, h))
  | _ => (Exn EType, h)
  end.

(** What iterating over a node gives (json.py:222-227), as far as it is nodes:
    [None] for a node that cannot be iterated over; the names of an object and
    the characters of a string are plain strings, here only counted. *)
Inductive iterated : Set := INodes (ids : list id) | IStrings (len : nat).
Definition iterate (d : data) : option iterated :=
  match d with
  | DArr ids => Some (INodes ids)
  | DObj m => Some (IStrings (length m))
  | DStr t => Some (IStrings (length t))
  | _ => None
  end.

(** Assignment to a slice of a list (CPython, listobject.c,
    list_ass_subscript): with step 1 the part between the bounds is replaced;
    otherwise the elements one by one, as many as there are positions. *)
Definition cut_in {A} (a b : Z) (xs l : list A) : list A :=
  firstn (Z.to_nat a) l ++ xs ++ skipn (Z.to_nat (Z.max a b)) l.
Fixpoint assign {A} (ps : list nat) (xs l : list A) : list A :=
  match ps, xs with
  | p :: ps, x :: xs => assign ps xs (update_nth p x l)
  | _, _ => l
  end.
Definition list_set_slice {A} (s : slice) (xs l : list A) : list A :=
  if (step_of s =? 1)%Z
  then let (a, b) := slice_indices (Z.of_nat (length l)) (sl_start s) (sl_stop s) 1 in cut_in a b xs l
  else assign (slice_of (length l) s) xs l.

(** JSON.__setitem__ of a slice, json.py:236-247: first one node is made of
    the whole operand, with [str(slice)] for its key; the list then takes the
    elements out of that node, as they are.  Nothing is renumbered.
    Not modelled ([EOther]): plain strings among the items of an array, when the
    operand is a string or an object that is not empty. *)
Definition setitem_slice (h : heap) (n : id) (s : slice) (o : operand) : res unit * heap :=
  hbind (operand_value h o) (fun v h =>
  let '(h, c) := new_node v h (Some n) (Some (slice_str s)) in
  let x := getn h n in
  match ndata x with
  | DArr ids =>
      if (step_of s =? 0)%Z then (Exn EValue, h)
      else
        let fits (len : nat) := (step_of s =? 1)%Z || Nat.eqb len (length (slice_of (length ids) s)) in
        let store (kids : list id) := inval_value (setn h n (with_data x (DArr (list_set_slice s kids ids)))) n in
        match iterate (ndata (getn h c)) with
        | None => (Exn EType, h)
        | Some (INodes kids) => if fits (length kids) then store kids else (Exn EValue, h)
        | Some (IStrings len) =>
            if fits len then (if Nat.eqb len 0 then store [] else (Exn EOther, h)) else (Exn EValue, h)
        end
  | _ => (Exn EType, h)
  end).
