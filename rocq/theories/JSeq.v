(** The methods that class JSON inherits from collections.abc (json.py:35,
    class JSON(MutableSequence, MutableMapping)): model of the mixin methods of
    CPython's Lib/_collections_abc.py, which call the methods of JSON modelled
    in JTree.v.  In the method resolution order the classes are JSON,
    MutableSequence, Sequence, Reversible, MutableMapping, Mapping; so [pop],
    [clear], [__contains__] and [__reversed__] are those of sequences, for
    objects too; [remove] is JSON's own (json.py:376). *)
From Verif Require Export JTree.
Open Scope nat_scope.

(** JSON.__len__, json.py:213-218. *)
Definition json_len (h : heap) (n : id) : res nat :=
  match ndata (getn h n) with
  | DArr ids => Ok (length ids)
  | DObj m => Ok (length m)
  | DStr s => Ok (length s)
  | _ => Exn EType
  end.

(** MutableSequence.extend and [+=] with a plain Python list of operands:
    [for v in values: self.append(v)].  Items appended before an exception
    stay. *)
Fixpoint extend (h : heap) (n : id) (os : list operand) : res unit * heap :=
  match os with
  | [] => (Ok tt, h)
  | o :: r => hbind (append h n o) (fun _ h => extend h n r)
  end.

(** What [iter(self)] yields, json.py:220-225: the child nodes of an array,
    the member names of an object (plain strings).  Simplification: the
    characters of a string are reported as [EOther]; they are in JChars.v. *)
Definition iter_operands (h : heap) (n : id) : res (list operand) :=
  match ndata (getn h n) with
  | DArr ids => Ok (map ONode ids)
  | DObj m => Ok (map (fun kc => OVal (JStr (fst kc))) m)
  | DStr _ => Exn EOther
  | _ => Exn EType
  end.

(** [extend] with a JSON node: the list of what it yields ([values is self] is
    copied first; another node's children do not change while [n] grows). *)
Definition extend_node (h : heap) (n m : id) : res unit * heap :=
  match iter_operands h m with
  | Ok os => extend h n os
  | Exn e => (Exn e, h)
  | Fuel => (Fuel, h)
  end.

(** MutableSequence.reverse:
    [for i in range(n // 2): self[i], self[n-i-1] = self[n-i-1], self[i]].
    The two nodes are fetched first; then each assignment copies a value. *)
Definition swap (h : heap) (n : id) (i j : Z) : res unit * heap :=
  match getitem h n (IInt j) with
  | Ok b => match getitem h n (IInt i) with
            | Ok a => hbind (setitem h n (IInt i) (ONode b)) (fun _ h => setitem h n (IInt j) (ONode a))
            | Exn e => (Exn e, h)
            | Fuel => (Fuel, h)
            end
  | Exn e => (Exn e, h)
  | Fuel => (Fuel, h)
  end.
Fixpoint reverse_from (h : heap) (n : id) (len i count : nat) : res unit * heap :=
  match count with
  | O => (Ok tt, h)
  | S c => hbind (swap h n (Z.of_nat i) (Z.of_nat (len - i - 1))) (fun _ h => reverse_from h n len (S i) c)
  end.
Definition json_reverse (h : heap) (n : id) : res unit * heap :=
  match json_len h n with
  | Ok len => reverse_from h n len 0 (Nat.div2 len)
  | Exn e => (Exn e, h)
  | Fuel => (Fuel, h)
  end.

(** MutableSequence.clear: [while True: self.pop()] until IndexError, which is
    caught; [self.pop()] is [self.pop(-1)].  [fuel] bounds the loop. *)
Fixpoint clear_f (fuel : nat) (h : heap) (n : id) : res unit * heap :=
  match fuel with
  | O => (Fuel, h)
  | S f => match pop h n (-1) with
           | (Ok _, h) => clear_f f h n
           | (Exn EIndex, h) => (Ok tt, h)
           | (Exn e, h) => (Exn e, h)
           | (Fuel, h) => (Fuel, h)
           end
  end.
Definition json_clear (h : heap) (n : id) : res unit * heap := clear_f (S (S (length h))) h n.

(** MutableMapping.popitem: the first key of [iter(self)]; KeyError when there
    is none; then [self[key]] and [del self[key]].  On an array the key is a
    child node, which is no list index. *)
Definition popitem (h : heap) (n : id) : res (pystr * id) * heap :=
  match ndata (getn h n) with
  | DObj [] | DArr [] => (Exn EKey, h)
  | DObj ((k, _) :: _) =>
      match getitem h n (IStr k) with
      | Ok c => hbind (delitem h n (IStr k)) (fun _ h => (Ok (k, c), h))
      | Exn e => (Exn e, h)
      | Fuel => (Fuel, h)
      end
  | DStr _ => (Exn EOther, h)
  | _ => (Exn EType, h)
  end.

(** MutableMapping.update with pairs (a plain dict, or a list of pairs):
    [self[key] = value] in order. *)
Fixpoint update (h : heap) (n : id) (kvs : list (pystr * operand)) : res unit * heap :=
  match kvs with
  | [] => (Ok tt, h)
  | (k, o) :: r => hbind (setitem h n (IStr k) o) (fun _ h => update h n r)
  end.

(** MutableMapping.update with a JSON node (an instance of Mapping):
    [for key in other: self[key] = other[key]]. *)
Fixpoint update_keys (h : heap) (n m : id) (ks : list pystr) : res unit * heap :=
  match ks with
  | [] => (Ok tt, h)
  | k :: r => match getitem h m (IStr k) with
              | Ok c => hbind (setitem h n (IStr k) (ONode c)) (fun _ h => update_keys h n m r)
              | Exn e => (Exn e, h)
              | Fuel => (Fuel, h)
              end
  end.
Definition update_node (h : heap) (n m : id) : res unit * heap :=
  match ndata (getn h m) with
  | DObj mem => update_keys h n m (map fst mem)
  | DArr [] => (Ok tt, h)
  | DStr _ => (Exn EOther, h)
  | _ => (Exn EType, h)
  end.

(** MutableMapping.setdefault: the node found, or else the default itself,
    which is stored (as a copy). *)
Inductive found : Set :=
| FNode (c : id)
| FDefault (o : operand).
Definition setdefault (h : heap) (n : id) (k : pystr) (o : operand) : res found * heap :=
  match getitem h n (IStr k) with
  | Ok c => (Ok (FNode c), h)
  | Exn EKey => hbind (setitem h n (IStr k) o) (fun _ h => (Ok (FDefault o), h))
  | Exn e => (Exn e, h)
  | Fuel => (Fuel, h)
  end.

(** Mapping.get: KeyError gives the default; other exceptions pass. *)
Definition json_get (h : heap) (n : id) (i : index) (o : operand) : res found :=
  match getitem h n i with
  | Ok c => Ok (FNode c)
  | Exn EKey => Ok (FDefault o)
  | Exn e => Exn e
  | Fuel => Fuel
  end.

(** JSON.__eq__, json.py:277-289, of two nodes: it compares the nodes'
    children, not their cached values.  [fuel] bounds the depth. *)
Fixpoint node_eqb_f (fuel : nat) (h : heap) (a b : id) : res bool :=
  match fuel with
  | O => Fuel
  | S f =>
      match ndata (getn h a), ndata (getn h b) with
      | DNull, DNull => Ok true
      | DBool x, DBool y => Ok (Bool.eqb x y)
      | DNum x, DNum y => Ok (num_eqb x y)
      | DStr x, DStr y => Ok (str_eqb x y)
      | DArr xs, DArr ys =>
          if Nat.eqb (length xs) (length ys) then
            (fix all (xs ys : list id) : res bool :=
               match xs, ys with
               | x :: xs', y :: ys' => match node_eqb_f f h x y with
                                       | Ok true => all xs' ys'
                                       | r => r
                                       end
               | _, _ => Ok true
               end) xs ys
          else Ok false
      | DObj m, DObj m' =>
          if Nat.eqb (length m) (length m') && forallb (fun k => dmem k m') (keys m) then
            (fix all (m : list (pystr * id)) : res bool :=
               match m with
               | [] => Ok true
               | (k, x) :: r => match dget k m' with
                                | Some y => match node_eqb_f f h x y with
                                            | Ok true => all r
                                            | b => b
                                            end
                                | None => Exn EKey
                                end
               end) m
          else Ok false
      | _, _ => Ok false
      end
  end.
Definition node_eqb (h : heap) (a b : id) : res bool := node_eqb_f (S (length h)) h a b.

(** [c == o]: a plain operand is made into a document first (json.py:279-280);
    that document is not referred to afterwards. *)
Definition node_eq (h : heap) (c : id) (o : operand) : res bool :=
  match o with
  | ONode b => node_eqb h c b
  | OVal v => let '(h', b) := new_doc v h in node_eqb h' c b
  end.

(** [v is value or v == value] for an item [v] of an array. *)
Definition item_matches (h : heap) (c : id) (o : operand) : res bool :=
  match o with
  | ONode b => if Nat.eqb c b then Ok true else node_eq h c o
  | OVal _ => node_eq h c o
  end.
(** The same for a member name, a plain string: equal to an equal string, or
    to a string node. *)
Definition key_matches (h : heap) (k : pystr) (o : operand) : bool :=
  match o with
  | OVal (JStr s) => str_eqb k s
  | OVal _ => false
  | ONode b => match ndata (getn h b) with DStr s => str_eqb k s | _ => false end
  end.

(** Sequence.__contains__ (stops at the first match), Sequence.index with its
    default bounds (ValueError when there is none), Sequence.count. *)
Fixpoint find_item (h : heap) (ids : list id) (o : operand) (i : nat) : res (option nat) :=
  match ids with
  | [] => Ok None
  | c :: r => match item_matches h c o with
              | Ok true => Ok (Some i)
              | Ok false => find_item h r o (S i)
              | Exn e => Exn e
              | Fuel => Fuel
              end
  end.
Fixpoint count_items (h : heap) (ids : list id) (o : operand) (acc : nat) : res nat :=
  match ids with
  | [] => Ok acc
  | c :: r => match item_matches h c o with
              | Ok b => count_items h r o (if b then S acc else acc)
              | Exn e => Exn e
              | Fuel => Fuel
              end
  end.
Definition json_contains (h : heap) (n : id) (o : operand) : res bool :=
  match ndata (getn h n) with
  | DArr ids => match find_item h ids o 0 with
                | Ok r => Ok (match r with Some _ => true | None => false end)
                | Exn e => Exn e
                | Fuel => Fuel
                end
  | DObj m => Ok (existsb (fun kc => key_matches h (fst kc) o) m)
  | DStr _ => Exn EOther
  | _ => Exn EType
  end.
Definition json_index (h : heap) (n : id) (o : operand) : res nat :=
  match ndata (getn h n) with
  | DArr ids => match find_item h ids o 0 with
                | Ok (Some i) => Ok i
                | Ok None => Exn EValue
                | Exn e => Exn e
                | Fuel => Fuel
                end
  | DObj _ => Exn EKey
  | DStr _ => Exn EOther
  | _ => Exn EType
  end.
Definition json_count (h : heap) (n : id) (o : operand) : res nat :=
  match ndata (getn h n) with
  | DArr ids => count_items h ids o 0
  | DObj m => Ok (length (filter (fun kc => key_matches h (fst kc) o) m))
  | DStr _ => Exn EOther
  | _ => Exn EType
  end.
