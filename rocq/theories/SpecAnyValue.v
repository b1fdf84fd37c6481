(** Specification vocabulary for documents made from values with JSON nodes
    among them.  Nothing here mentions fuel, caches or allocation. *)
From Verif Require Import AnyValue SpecTree.
Open Scope nat_scope.

(** What becomes of the value [w] when a node holding it is used as a value:
    arrays stay arrays, item by item; an object turns into the array of its
    names, a string into the array of its characters. *)
Inductive respelt : json -> json -> Prop :=
| rs_arr l l' : length l = length l' ->
    (forall i x y, nth_error l i = Some x -> nth_error l' i = Some y -> respelt x y) ->
    respelt (JArr l) (JArr l')
| rs_obj m : respelt (JObj m) (JArr (map (fun kv => JStr (fst kv)) m))
| rs_str s : respelt (JStr s) (JArr (map (fun c => JStr [c]) s)).

(** A null, boolean or number, or an array with such an item at some depth
    (members of objects do not count). *)
Inductive has_scalar : json -> Prop :=
| hs_null : has_scalar JNull
| hs_bool b : has_scalar (JBool b)
| hs_num n : has_scalar (JNum n)
| hs_arr l x : In x l -> has_scalar x -> has_scalar (JArr l).

(** The value that the document made from [v] has. *)
Inductive meant (h : heap) : pyval -> json -> Prop :=
| me_null : meant h VNull JNull
| me_bool b : meant h (VBool b) (JBool b)
| me_num n : meant h (VNum n) (JNum n)
| me_str s : meant h (VStr s) (JStr s)
| me_seq l l' : length l = length l' ->
    (forall i x y, nth_error l i = Some x -> nth_error l' i = Some y -> meant h x y) ->
    meant h (VSeq l) (JArr l')
| me_map m m' : map fst m = map fst m' ->
    (forall i k x k' y, nth_error m i = Some (k, x) -> nth_error m' i = Some (k', y) -> meant h x y) ->
    meant h (VMap m) (JObj m')
| me_node n w w' : denotes h n w -> respelt w w' -> meant h (VNode n) w'.

(** A value from which no document can be made. *)
Inductive unusable (h : heap) : pyval -> Prop :=
| un_other : unusable h VOther
| un_seq l x : In x l -> unusable h x -> unusable h (VSeq l)
| un_map m k x : In (k, x) m -> unusable h x -> unusable h (VMap m)
| un_node n w : denotes h n w -> has_scalar w -> unusable h (VNode n).

(** The nodes that occur exist, and dicts have no duplicate keys. *)
Inductive sound (h : heap) : pyval -> Prop :=
| so_null : sound h VNull
| so_bool b : sound h (VBool b)
| so_num n : sound h (VNum n)
| so_str s : sound h (VStr s)
| so_seq l : (forall x, In x l -> sound h x) -> sound h (VSeq l)
| so_map m : NoDup (map fst m) -> (forall k x, In (k, x) m -> sound h x) -> sound h (VMap m)
| so_node n : n < length h -> sound h (VNode n)
| so_other : sound h VOther.

(** A plain value as a Python value. *)
Fixpoint plain (v : json) : pyval :=
  match v with
  | JNull => VNull | JBool b => VBool b | JNum n => VNum n | JStr s => VStr s
  | JArr l => VSeq (map plain l)
  | JObj m => VMap (map (fun kv => (fst kv, plain (snd kv))) m)
  end.

(** Arrays of arrays of ... of nothing. *)
Inductive hollow : json -> Prop :=
| ho_arr l : (forall x, In x l -> hollow x) -> hollow (JArr l).
