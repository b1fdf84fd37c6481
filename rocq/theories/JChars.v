(** Nodes of type string as sequences of characters, reversed() and the bounds
    of index(): JSON.__getitem__, __iter__, __len__ (json.py:213-234) with a str
    as data, and the methods of CPython's Lib/_collections_abc.py that use
    them.  JSeq.v and JTree.v report the characters of a string as [EOther];
    here is what comes instead.  Slices are in JSlice.v. *)
From Verif Require Export JSeq.
Open Scope nat_scope.

(** What indexing or iterating gives: a node, or a plain str (a character of a
    string, or a member name). *)
Inductive got : Set := GNode (c : id) | GText (s : pystr).
Definition as_operand (g : got) : operand := match g with GNode c => ONode c | GText s => OVal (JStr s) end.

(** [s[z]] of a str. *)
Definition char_at (s : pystr) (z : Z) : res pystr :=
  match norm_index (length s) z with
  | Some k => match nth_error s k with Some c => Ok [c] | None => Exn EIndex end
  | None => Exn EIndex
  end.

(** JSON.__getitem__, json.py:229-234, with an int or str index. *)
Definition getitem_any (h : heap) (n : id) (i : index) : res got :=
  match ndata (getn h n), i with
  | DStr s, IInt z => let* t := char_at s z in Ok (GText t)
  | DStr _, IStr _ => Exn EType
  | _, _ => let* c := getitem h n i in Ok (GNode c)
  end.

(** JSON.__iter__, json.py:222-227. *)
Definition iter_any (h : heap) (n : id) : res (list got) :=
  match ndata (getn h n) with
  | DArr ids => Ok (map GNode ids)
  | DObj m => Ok (map (fun kc => GText (fst kc)) m)
  | DStr s => Ok (map (fun c => GText [c]) s)
  | _ => Exn EType
  end.

(** [v is value or v == value]. *)
Definition got_matches (h : heap) (g : got) (o : operand) : res bool :=
  match g with GNode c => item_matches h c o | GText s => Ok (key_matches h s o) end.

(** Sequence.__contains__ and Sequence.count. *)
Fixpoint any_match (h : heap) (l : list got) (o : operand) : res bool :=
  match l with
  | [] => Ok false
  | g :: r => let* b := got_matches h g o in if b then Ok true else any_match h r o
  end.
Definition contains_any (h : heap) (n : id) (o : operand) : res bool :=
  let* l := iter_any h n in any_match h l o.
Fixpoint count_match (h : heap) (l : list got) (o : operand) : res nat :=
  match l with
  | [] => Ok 0
  | g :: r => let* b := got_matches h g o in let* k := count_match h r o in Ok (if b then S k else k)
  end.
Definition count_any (h : heap) (n : id) (o : operand) : res nat :=
  let* l := iter_any h n in count_match h l o.

(** Sequence.__reversed__: [for i in reversed(range(len(self))): yield self[i]]. *)
Fixpoint gets (h : heap) (n : id) (is : list nat) : res (list got) :=
  match is with
  | [] => Ok []
  | i :: r => let* g := getitem_any h n (IInt (Z.of_nat i)) in let* l := gets h n r in Ok (g :: l)
  end.
Definition reversed_any (h : heap) (n : id) : res (list got) :=
  let* len := json_len h n in gets h n (rev (seq 0 len)).

(** Sequence.index(value, start, stop): the length is asked for only if a bound
    is negative; then [self[i]] until [stop] or an IndexError. *)
Fixpoint index_steps (fuel : nat) (h : heap) (n : id) (o : operand) (stop : option Z) (i : Z) : res Z :=
  match fuel with
  | O => Fuel
  | S fuel =>
      if match stop with Some j => (j <=? i)%Z | None => false end then Exn EValue
      else match getitem_any h n (IInt i) with
           | Ok g => let* b := got_matches h g o in if b then Ok i else index_steps fuel h n o stop (i + 1)
           | Exn EIndex => Exn EValue
           | Exn e => Exn e
           | Fuel => Fuel
           end
  end.
Definition index_any (fuel : nat) (h : heap) (n : id) (o : operand) (start : Z) (stop : option Z) : res Z :=
  let* start := if (start <? 0)%Z then let* len := json_len h n in Ok (Z.max (Z.of_nat len + start) 0) else Ok start in
  let* stop := match stop with
               | None => Ok None
               | Some j => if (j <? 0)%Z then let* len := json_len h n in Ok (Some (j + Z.of_nat len)%Z) else Ok (Some j)
               end in
  index_steps fuel h n o stop start.

(** MutableSequence.pop: [v = self[index]; del self[index]; return v]. *)
Definition pop_any (h : heap) (n : id) (z : Z) : res got * heap :=
  match getitem_any h n (IInt z) with
  | Ok g => hbind (delitem h n (IInt z)) (fun _ h => (Ok g, h))
  | Exn e => (Exn e, h)
  | Fuel => (Fuel, h)
  end.
(** MutableSequence.clear: [self.pop()] until an IndexError. *)
Fixpoint clear_any (fuel : nat) (h : heap) (n : id) : res unit * heap :=
  match fuel with
  | O => (Fuel, h)
  | S f => match pop_any h n (-1) with
           | (Ok _, h) => clear_any f h n
           | (Exn EIndex, h) => (Ok tt, h)
           | (Exn e, h) => (Exn e, h)
           | (Fuel, h) => (Fuel, h)
           end
  end.
(** MutableSequence.reverse. *)
Definition swap_any (h : heap) (n : id) (i j : Z) : res unit * heap :=
  match getitem_any h n (IInt j), getitem_any h n (IInt i) with
  | Ok b, Ok a => hbind (setitem h n (IInt i) (as_operand b)) (fun _ h => setitem h n (IInt j) (as_operand a))
  | Ok _, Exn e | Exn e, _ => (Exn e, h)
  | _, _ => (Fuel, h)
  end.
Fixpoint reverse_any_from (h : heap) (n : id) (len i count : nat) : res unit * heap :=
  match count with
  | O => (Ok tt, h)
  | S c => hbind (swap_any h n (Z.of_nat i) (Z.of_nat (len - i - 1))) (fun _ h => reverse_any_from h n len (S i) c)
  end.
Definition reverse_any (h : heap) (n : id) : res unit * heap :=
  match json_len h n with
  | Ok len => reverse_any_from h n len 0 (Nat.div2 len)
  | Exn e => (Exn e, h)
  | Fuel => (Fuel, h)
  end.

(** MutableMapping.popitem, MutableMapping.setdefault and Mapping.get on a
    string: the key is looked up as [self[key]]. *)
Definition popitem_text (h : heap) (n : id) : res (pystr * got) * heap :=
  match iter_any h n with
  | Ok (GText k :: _) => match getitem_any h n (IStr k) with
                         | Ok g => hbind (delitem h n (IStr k)) (fun _ h => (Ok (k, g), h))
                         | Exn e => (Exn e, h)
                         | Fuel => (Fuel, h)
                         end
  | Ok (GNode _ :: _) => (Exn EType, h)
  | Ok [] => (Exn EKey, h)
  | Exn e => (Exn e, h)
  | Fuel => (Fuel, h)
  end.
Definition get_any (h : heap) (n : id) (i : index) (o : operand) : res operand :=
  match getitem_any h n i with
  | Ok g => Ok (as_operand g)
  | Exn EKey => Ok o
  | Exn e => Exn e
  | Fuel => Fuel
  end.
Definition setdefault_any (h : heap) (n : id) (k : pystr) (o : operand) : res operand * heap :=
  match getitem_any h n (IStr k) with
  | Ok g => (Ok (as_operand g), h)
  | Exn EKey => hbind (setitem h n (IStr k) o) (fun _ h => (Ok o, h))
  | Exn e => (Exn e, h)
  | Fuel => (Fuel, h)
  end.

(** MutableSequence.extend with a node of any type: its characters are appended
    one by one if it is a string. *)
Definition extend_any (h : heap) (n m : id) : res unit * heap :=
  match iter_any h m with
  | Ok l => extend h n (map as_operand l)
  | Exn e => (Exn e, h)
  | Fuel => (Fuel, h)
  end.
