(** Documents that differ only in the order of members, and patch operations
    that do not get in each other's way. *)
From Coq Require Import List.
From Verif Require Import Base Json Patch.
Import ListNotations.

(** Objects are unordered; all else is as it is, numbers included. *)
Inductive same_doc : json -> json -> Prop :=
| sd_refl v : same_doc v v
| sd_arr l l' : length l = length l' ->
    (forall n x y, nth_error l n = Some x -> nth_error l' n = Some y -> same_doc x y) -> same_doc (JArr l) (JArr l')
| sd_obj m m' : (forall k, In k (map fst m) <-> In k (map fst m')) ->
    (forall k x y, In (k, x) m -> In (k, y) m' -> same_doc x y) -> same_doc (JObj m) (JObj m').

(** Operations that differ at most so in their values. *)
Definition same_op (o o' : patchop) : Prop :=
  po_op o = po_op o' /\ po_path o = po_path o' /\ po_from o = po_from o' /\ same_doc (po_value o) (po_value o').
(** The same exception, or documents that differ only in the order of members. *)
Definition same_result (r r' : res json) : Prop :=
  match r, r' with
  | Ok d, Ok d' => same_doc d d'
  | Exn e, Exn e' => e = e'
  | _, _ => False
  end.

(** An operation that names one place only. *)
Definition one_place (o : patchop) : Prop := po_op o <> MOVE /\ po_op o <> COPY.
(** A token that is the position of nothing in an array. *)
Definition no_position (k : pystr) : Prop := k <> lit "-" /\ py_int k = None.
(** [r] is the path of the operation from a value on; the value stays where it
    is, whatever becomes of what is in it. *)
Definition stays_put (o : patchop) (r : list pystr) : Prop := r <> [] \/ po_op o = REPLACE \/ po_op o = TEST.
(** The two paths part: with different names, so that they lead to different
    members of an object, and into different items if it is an array, none of
    which is inserted or removed. *)
Definition apart (o1 o2 : patchop) : Prop :=
  one_place o1 /\ one_place o2 /\
  exists q k1 r1 k2 r2, po_path o1 = q ++ k1 :: r1 /\ po_path o2 = q ++ k2 :: r2 /\ k1 <> k2 /\
    (no_position k1 \/ no_position k2 \/ stays_put o1 r1 /\ stays_put o2 r2 /\ py_int k1 <> py_int k2).
