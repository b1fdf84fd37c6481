(** Specification vocabulary for operations with arbitrary integer indices:
    what Python's list does with a negative index, and with an insertion
    beyond either end. *)
From Verif Require Export JTree SpecTree.
Open Scope nat_scope.

(** The position that [l[z]] means in a list of [len] items, if any. *)
Definition position (len : nat) (z : Z) : option nat :=
  if ((0 <=? z) && (z <? Z.of_nat len))%Z then Some (Z.to_nat z)
  else if ((- Z.of_nat len <=? z) && (z <? 0))%Z then Some (Z.to_nat (Z.of_nat len + z))
  else None.

(** The position before which [l.insert(z, x)] puts the item. *)
Definition insert_position (len : nat) (z : Z) : nat :=
  if (z <? 0)%Z then Z.to_nat (Z.max 0 (Z.of_nat len + z)) else Nat.min (Z.to_nat z) len.

(** The operations on plain lists and dicts; [None] when Python raises. *)
Definition py_get (v : json) (i : index) : option json :=
  match v, i with
  | JArr l, IInt z => match position (length l) z with Some k => nth_error l k | None => None end
  | JObj m, IStr s => option_map snd (find (fun kv => str_eqb (fst kv) s) m)
  | _, _ => None
  end.
Definition py_set (v : json) (i : index) (w : json) : option json :=
  match v, i with
  | JArr l, IInt z => option_map (fun k => JArr (list_put k w l)) (position (length l) z)
  | JObj m, IStr s => Some (JObj (dict_put s w m))
  | _, _ => None
  end.
Definition py_del (v : json) (i : index) : option json :=
  match v, i with
  | JArr l, IInt z => option_map (fun k => JArr (list_del k l)) (position (length l) z)
  | JObj m, IStr s => if existsb (fun kv => str_eqb (fst kv) s) m
                      then Some (JObj (dict_del s m)) else None
  | _, _ => None
  end.
Definition py_insert (v : json) (z : Z) (w : json) : option json :=
  match v with
  | JArr l => Some (JArr (list_ins (insert_position (length l) z) w l))
  | _ => None
  end.

(** The operations allowed: every integer index and every pointer. ([remove]
    and [replace] by a pointer trust the key of the target and so may act on
    another item, see [C16_removes_another_item_refuted].) *)
Definition any_ok (h : heap) (o : op) : Prop :=
  match o with
  | OpNew v => jwf v = true
  | OpReadPath n | OpReadValue n => n < length h
  | OpSet n _ x | OpInsert n _ x | OpAppend n x => n < length h /\ operand_ok h x
  | OpDel n _ | OpPop n _ => n < length h
  | OpAdd n _ x => n < length h /\ operand_ok h x
  | OpReplace n _ x => n < length h /\ operand_ok h x
  | OpRemove n _ => n < length h
  end.

Inductive any_history : heap -> Prop :=
| any_start : any_history []
| any_step h o : any_history h -> any_ok h o -> any_history (run h o).
