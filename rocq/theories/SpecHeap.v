(** What documents made of Python objects mean.  Nothing here refers to the
    patch operations. *)
From Verif Require Export PatchHeap.
From Coq Require Import Lia.
Open Scope nat_scope.

Definition atom (v : pyval) : option json :=
  match v with
  | VNull => Some JNull | VBool b => Some (JBool b) | VNum n => Some (JNum n) | VStr s => Some (JStr s)
  | VRef _ => None
  end.

(** [reads h v d S]: in heap [h], the Python value [v] stands for the JSON value
    [d], and walking through it visits the objects [S], in this order. *)
Inductive reads (h : heap) : pyval -> json -> list nat -> Prop :=
| reads_atom v d : atom v = Some d -> reads h v d []
| reads_list a l ds S : nth_error h a = Some (OList l) -> reads_all h l ds S -> reads h (VRef a) (JArr ds) (a :: S)
| reads_dict a m dm S : nth_error h a = Some (ODict m) -> map fst m = map fst dm -> reads_all h (map snd m) (map snd dm) S ->
    reads h (VRef a) (JObj dm) (a :: S)
with reads_all (h : heap) : list pyval -> list json -> list nat -> Prop :=
| reads_nil : reads_all h [] [] []
| reads_cons v vs d ds S S' : reads h v d S -> reads_all h vs ds S' -> reads_all h (v :: vs) (d :: ds) (S ++ S').

(** [v] stands for [d], and no object occurs at two places of it. *)
Definition is_tree (h : heap) (v : pyval) (d : json) : Prop := exists S, reads h v d S /\ NoDup S.

(** The objects that can be reached from a value. *)
Inductive reaches (h : heap) : pyval -> nat -> Prop :=
| reaches_self a : reaches h (VRef a) a
| reaches_in a o v b : nth_error h a = Some o -> In v (items o) -> reaches h v b -> reaches h (VRef a) b.

(** References lead to objects. *)
Definition val_ok (n : nat) (v : pyval) : Prop := match v with VRef a => a < n | _ => True end.
Definition heap_ok (h : heap) : Prop := forall a o, nth_error h a = Some o -> Forall (val_ok (length h)) (items o).

(** Two values in two heaps are the same object graph: [R] pairs their
    objects, one to one. *)
Definition one_to_one (R : nat -> nat -> Prop) : Prop := forall a b a' b', R a b -> R a' b' -> (a = a' <-> b = b').
Definition val_same (R : nat -> nat -> Prop) (v w : pyval) : Prop :=
  match v, w with VRef a, VRef b => R a b | VRef _, _ | _, VRef _ => False | _, _ => v = w end.
Definition obj_same (R : nat -> nat -> Prop) (o o' : pyobj) : Prop :=
  match o, o' with
  | OList l, OList l' => Forall2 (val_same R) l l'
  | ODict m, ODict m' => Forall2 (fun kv kv' => fst kv = fst kv' /\ val_same R (snd kv) (snd kv')) m m'
  | _, _ => False
  end.
Definition heap_same (R : nat -> nat -> Prop) (h h' : heap) : Prop :=
  one_to_one R /\
  forall a b, R a b -> exists o o', nth_error h a = Some o /\ nth_error h' b = Some o' /\ obj_same R o o'.
Definition same_graph (h : heap) (v : pyval) (h' : heap) (v' : pyval) : Prop :=
  exists R, heap_same R h h' /\ val_same R v v'.
