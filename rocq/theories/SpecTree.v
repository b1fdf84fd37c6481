(** Specification vocabulary for linked JSON documents.  These relations look
    only at the current children of nodes, never at cached paths or values. *)
From Verif Require Import JTree.
Open Scope nat_scope.

(** Node [c] is currently the child of [n] under the key text [k]: the decimal
    position for an array item, the member name for an object member. *)
Inductive child_at (h : heap) (n : id) : pystr -> id -> Prop :=
| ca_item ids i c : ndata (getn h n) = DArr ids -> nth_error ids i = Some c ->
    child_at h n (str_of_nat i) c
| ca_member m k c : ndata (getn h n) = DObj m -> In (k, c) m -> child_at h n k c.

(** Following the keys [p] from [r] leads to the node [n]. *)
Inductive located (h : heap) (r : id) : pointer -> id -> Prop :=
| loc_here : located h r [] r
| loc_step p n k c : located h r p n -> child_at h n k c -> located h r (p ++ [k]) c.

(** The JSON value that the subtree at [n] currently spells out. *)
Inductive denotes (h : heap) : id -> json -> Prop :=
| den_null n : ndata (getn h n) = DNull -> denotes h n JNull
| den_bool n b : ndata (getn h n) = DBool b -> denotes h n (JBool b)
| den_num n x : ndata (getn h n) = DNum x -> denotes h n (JNum x)
| den_str n s : ndata (getn h n) = DStr s -> denotes h n (JStr s)
| den_arr n ids l : ndata (getn h n) = DArr ids -> length ids = length l ->
    (forall i c v, nth_error ids i = Some c -> nth_error l i = Some v -> denotes h c v) ->
    denotes h n (JArr l)
| den_obj n m kvs : ndata (getn h n) = DObj m -> map fst m = map fst kvs ->
    (forall i k c k' v, nth_error m i = Some (k, c) -> nth_error kvs i = Some (k', v) -> denotes h c v) ->
    denotes h n (JObj kvs).

(** A document: a node without a parent. *)
Definition is_root (h : heap) (r : id) : Prop := r < length h /\ nparent (getn h r) = None.

(** The mutating operations of the public interface, and reads (which fill
    the caches). *)
Inductive op : Set :=
| OpNew (v : json)                           (* JSON(v) *)
| OpReadPath (n : id)                        (* n.path *)
| OpReadValue (n : id)                       (* n.value *)
| OpSet (n : id) (i : index) (o : operand)   (* n[i] = o *)
| OpDel (n : id) (i : index)                 (* del n[i] *)
| OpInsert (n : id) (z : Z) (o : operand)    (* n.insert(z, o) *)
| OpAppend (n : id) (o : operand)            (* n.append(o) *)
| OpPop (n : id) (z : Z)                     (* n.pop(z) *)
| OpAdd (n : id) (p : parg) (o : operand)    (* n.add(p, o) *)
| OpRemove (n : id) (p : parg)               (* n.remove(p) *)
| OpReplace (n : id) (p : parg) (o : operand). (* n.replace(p, o) *)

(** The heap after an operation, whether it returned or raised. *)
Definition run (h : heap) (o : op) : heap :=
  match o with
  | OpNew v => fst (new_doc v h)
  | OpReadPath n => snd (read_path h n)
  | OpReadValue n => snd (read_value h n)
  | OpSet n i x => snd (setitem h n i x)
  | OpDel n i => snd (delitem h n i)
  | OpInsert n z x => snd (insert h n z x)
  | OpAppend n x => snd (append h n x)
  | OpPop n z => snd (pop h n z)
  | OpAdd n p x => snd (json_add h n p x)
  | OpRemove n p => snd (json_remove h n p)
  | OpReplace n p x => snd (json_replace h n p x)
  end.

(** Nodes mentioned exist, and plain operands have no duplicate keys. *)
Definition operand_ok (h : heap) (o : operand) : Prop :=
  match o with OVal v => jwf v = true | ONode n => n < length h end.

Definition index_ok (i : index) : Prop :=
  match i with IInt z => (0 <= z)%Z | IStr _ => True end.

(** The restriction of property C15: integer indices are not negative, and
    insertion is not beyond the end. *)
Definition op_ok (h : heap) (o : op) : Prop :=
  match o with
  | OpNew v => jwf v = true
  | OpReadPath n | OpReadValue n => n < length h
  | OpSet n i x => n < length h /\ index_ok i /\ operand_ok h x
  | OpDel n i => n < length h /\ index_ok i
  | OpInsert n z x => n < length h /\ operand_ok h x /\
      (forall ids, ndata (getn h n) = DArr ids -> (0 <= z <= Z.of_nat (length ids))%Z)
  | OpAppend n x => n < length h /\ operand_ok h x
  | OpPop n z => n < length h /\ (0 <= z)%Z
  | OpAdd n _ x | OpReplace n _ x => n < length h /\ operand_ok h x
  | OpRemove n _ => n < length h
  end.

(** Every heap that some history of such operations produces. *)
Inductive history : heap -> Prop :=
| hist_start : history []
| hist_step h o : history h -> op_ok h o -> history (run h o).

(** ** The same operations on plain lists and dicts *)
(** [l[k] = w], [del l[k]] and [l.insert(k, w)] for a position [k] in range. *)
Definition list_put (k : nat) (w : json) (l : list json) : list json := firstn k l ++ w :: skipn (S k) l.
Definition list_del (k : nat) (l : list json) : list json := firstn k l ++ skipn (S k) l.
Definition list_ins (k : nat) (w : json) (l : list json) : list json := firstn k l ++ w :: skipn k l.
(** [d[s] = w] and [del d[s]]. *)
Definition dict_put (s : pystr) (w : json) (m : list (pystr * json)) : list (pystr * json) :=
  if existsb (fun kv => str_eqb (fst kv) s) m
  then map (fun kv => if str_eqb (fst kv) s then (s, w) else kv) m
  else m ++ [(s, w)].
Definition dict_del (s : pystr) (m : list (pystr * json)) : list (pystr * json) :=
  filter (fun kv => negb (str_eqb (fst kv) s)) m.

(** What each operation makes of the plain value; [None] when Python raises. *)
Definition plain_set (v : json) (i : index) (w : json) : option json :=
  match v, i with
  | JArr l, IInt z => if ((0 <=? z) && (z <? Z.of_nat (length l)))%Z
                      then Some (JArr (list_put (Z.to_nat z) w l)) else None
  | JObj m, IStr s => Some (JObj (dict_put s w m))
  | _, _ => None
  end.
Definition plain_del (v : json) (i : index) : option json :=
  match v, i with
  | JArr l, IInt z => if ((0 <=? z) && (z <? Z.of_nat (length l)))%Z
                      then Some (JArr (list_del (Z.to_nat z) l)) else None
  | JObj m, IStr s => if existsb (fun kv => str_eqb (fst kv) s) m
                      then Some (JObj (dict_del s m)) else None
  | _, _ => None
  end.
Definition plain_insert (v : json) (z : Z) (w : json) : option json :=
  match v with
  | JArr l => if ((0 <=? z) && (z <=? Z.of_nat (length l)))%Z
              then Some (JArr (list_ins (Z.to_nat z) w l)) else None
  | _ => None
  end.

(** The value [V] with the part at location [p] replaced by [w]. *)
Fixpoint subst_at (p : pointer) (w : json) (V : json) : json :=
  match p with
  | [] => w
  | k :: p' =>
      match V with
      | JArr l => JArr ((fix go (i : nat) (l : list json) : list json :=
                           match l with
                           | [] => []
                           | x :: r => (if str_eqb (str_of_nat i) k then subst_at p' w x else x) :: go (S i) r
                           end) 0 l)
      | JObj m => JObj (map (fun kv => (fst kv, if str_eqb (fst kv) k then subst_at p' w (snd kv) else snd kv)) m)
      | _ => V
      end
  end.

(** The value of an operand. *)
Definition operand_is (h : heap) (o : operand) (w : json) : Prop :=
  match o with OVal v => w = v | ONode n => denotes h n w end.

(** What an operation on node [n] did: [Some v'] when [n] now spells [v'],
    with every document containing [n] changed exactly there and all other
    nodes unchanged; [None] when the operation raised and nothing changed. *)
Definition keeps (h h' : heap) (m : id) : Prop := forall v, denotes h m v -> denotes h' m v.
Inductive below (h : heap) (m n : id) : Prop := below_intro p : located h m p n -> below h m n.

Definition changes (h h' : heap) (n : id) (r : option json) : Prop :=
  match r with
  | Some v' =>
      denotes h' n v' /\
      (forall m, m < length h -> ~ below h m n -> keeps h h' m) /\
      (forall m p V, m < length h -> located h m p n -> denotes h m V -> denotes h' m (subst_at p v' V))
  | None => forall m, m < length h -> keeps h h' m
  end.

(** The index under which a child sits. *)
Definition edge_index (d : data) (k : pystr) (i : index) : Prop :=
  match d with
  | DArr _ => exists j, k = str_of_nat j /\ i = IInt (Z.of_nat j)
  | DObj _ => i = IStr k
  | _ => False
  end.

(** Where [add] with final token [key] inserts into a value. *)
Definition plain_add (v : json) (key : pystr) (w : json) : option json :=
  match v with
  | JArr l =>
      if str_eqb key (lit "-") then plain_insert v (Z.of_nat (length l)) w
      else match py_int key with
           | Some z => if (0 <=? z)%Z then plain_insert v z w else None
           | None => None
           end
  | JObj m => Some (JObj (dict_put key w m))
  | _ => None
  end.
