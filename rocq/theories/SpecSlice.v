(** What slices of a list stand for (The Python Standard Library, Sequence
    Types: [s[i:j:k]], [del s[i:j:k]], [s[i:j] = t], [s[i:j:k] = t]), as
    relations; and histories of documents that are edited with slices too. *)
From Verif Require Export JTree SpecTree SpecTreeAny SpecSeq JSlice.
Open Scope nat_scope.

(** The step of a slice is 1 if it is left out. *)
Definition stride (s : slice) : Z := match sl_step s with None => 1%Z | Some z => z end.
(** The position [k] of a list of [len] elements belongs to the slice. *)
Definition within (len : nat) (s : slice) (k : nat) : Prop := selected len (sl_start s) (sl_stop s) (stride s) k.

(** [ks] are the positions that belong to the slice, in its direction. *)
Definition positions (len : nat) (s : slice) (ks : list nat) : Prop :=
  (forall k, In k ks <-> within len s k) /\
  ((0 < stride s)%Z -> StronglySorted lt ks) /\ ((stride s < 0)%Z -> StronglySorted gt ks).
(** [r] are the elements of [l] at the positions [ks]. *)
Definition elements_at {A} (l : list A) (ks : list nat) (r : list A) : Prop :=
  Forall2 (fun k x => nth_error l k = Some x) ks r.

(** [l[s]] *)
Definition slice_read {A} (s : slice) (l r : list A) : Prop :=
  exists ks, positions (length l) s ks /\ elements_at l ks r.
(** [del l[s]]: what is left are the elements at the other positions. *)
Definition slice_deleted {A} (s : slice) (l r : list A) : Prop :=
  exists js, StronglySorted lt js /\ (forall j, In j js <-> j < length l /\ ~ within (length l) s j) /\ elements_at l js r.
(** [l[s] = t]: with step 1 the part from the first bound to the second, or
    nothing at the first if they are the wrong way round, is replaced; with
    another step the elements one by one. *)
Definition slice_assigned {A} (s : slice) (t l r : list A) : Prop :=
  (stride s = 1%Z /\ exists a b, from_place (length l) (sl_start s) a /\ to_place (length l) (sl_stop s) b /\
     r = firstn a l ++ t ++ skipn (Nat.max a b) l) \/
  (stride s <> 1%Z /\ stride s <> 0%Z /\ exists ks, positions (length l) s ks /\ length ks = length t /\ length r = length l /\
     (forall i k x, nth_error ks i = Some k -> nth_error t i = Some x -> nth_error r k = Some x) /\
     (forall k, ~ In k ks -> nth_error r k = nth_error l k)).

(** The items that a value yields when it is iterated over: those of an array;
    none for an empty string or object.  Other values give no items of JSON
    documents. *)
Inductive yields : json -> list json -> Prop :=
| y_array l : yields (JArr l) l
| y_no_chars : yields (JStr []) []
| y_no_members : yields (JObj []) [].
(** A string or an object with something in it, which yields plain strings. *)
Definition yields_strings (w : json) : Prop :=
  (exists c s, w = JStr (c :: s)) \/ (exists kv m, w = JObj (kv :: m)).

(** *** Histories *)
Inductive slice_op : Set :=
| Plain (o : op)
| DelSlice (n : id) (s : slice)               (* del n[s] *)
| SetSlice (n : id) (s : slice) (o : operand) (* n[s] = o *).
Definition run_slice (h : heap) (o : slice_op) : heap :=
  match o with
  | Plain o => run h o
  | DelSlice n s => snd (delitem_slice h n s)
  | SetSlice n s x => snd (setitem_slice h n s x)
  end.
(** Every operation with any arguments: nodes that exist, plain values without
    duplicate keys; and no strings spliced into arrays. *)
Definition slice_op_ok (h : heap) (o : slice_op) : Prop :=
  match o with
  | Plain (OpNew v) => jwf v = true
  | Plain (OpReadPath n) | Plain (OpReadValue n) | Plain (OpDel n _) | Plain (OpPop n _) | Plain (OpRemove n _) => n < length h
  | Plain (OpSet n _ x) | Plain (OpInsert n _ x) | Plain (OpAppend n x)
  | Plain (OpAdd n _ x) | Plain (OpReplace n _ x) => n < length h /\ operand_ok h x
  | DelSlice n _ => n < length h
  | SetSlice n _ x => n < length h /\ operand_ok h x /\ forall w, operand_is h x w -> ~ yields_strings w
  end.
Inductive slice_history : heap -> Prop :=
| slice_start : slice_history []
| slice_step h o : slice_history h -> slice_op_ok h o -> slice_history (run_slice h o).
