(** Independent specification of the JSON Patch operations (RFC 6902), as
    relations between documents.  Nothing here refers to the model. *)
From Verif Require Import Base Json SpecPointer SpecEq.
From Coq Require Import Permutation.
Open Scope nat_scope.

(** [edited R p d d']: [d'] is [d] with exactly the part at location [p]
    changed, as [R] says. *)
Inductive edited (R : json -> json -> Prop) : list pystr -> json -> json -> Prop :=
| ed_here d d' : R d d' -> edited R [] d d'
| ed_member k p m1 x x' m2 : edited R p x x' ->
    edited R (k :: p) (JObj (m1 ++ (k, x) :: m2)) (JObj (m1 ++ (k, x') :: m2))
| ed_item k p l1 x x' l2 : rfc_index_text k -> N.to_nat (digits_value k) = length l1 -> edited R p x x' ->
    edited R (k :: p) (JArr (l1 ++ x :: l2)) (JArr (l1 ++ x' :: l2)).

(** How the last reference token designates a position of an array. *)
Definition token_reading := pystr -> nat -> Prop.
(** RFC 6901 / 6902: an array index. *)
Definition rfc_reading : token_reading := fun k i => rfc_index_text k /\ i = N.to_nat (digits_value k).

Section Local.
Variable reads : token_reading.
(** RFC 6902 section 4.1: insert into an array before the index, at the end
    for '-' or the length; add or set an object member. *)
Inductive adds (k : pystr) (v : json) : json -> json -> Prop :=
| adds_item l1 l2 : reads k (length l1) -> adds k v (JArr (l1 ++ l2)) (JArr (l1 ++ v :: l2))
| adds_end l : k = lit "-" -> adds k v (JArr l) (JArr (l ++ [v]))
| adds_new m : ~ In k (map fst m) -> adds k v (JObj m) (JObj (m ++ [(k, v)]))
| adds_set m1 x m2 : adds k v (JObj (m1 ++ (k, x) :: m2)) (JObj (m1 ++ (k, v) :: m2)).

(** Section 4.2: the target must exist; later items shift left. *)
Inductive removes (k : pystr) : json -> json -> Prop :=
| removes_item l1 x l2 : reads k (length l1) -> removes k (JArr (l1 ++ x :: l2)) (JArr (l1 ++ l2))
| removes_member m1 x m2 : removes k (JObj (m1 ++ (k, x) :: m2)) (JObj (m1 ++ m2)).

(** Section 4.3: the target must exist and is replaced. *)
Inductive replaces (k : pystr) (v : json) : json -> json -> Prop :=
| replaces_item l1 x l2 : reads k (length l1) -> replaces k v (JArr (l1 ++ x :: l2)) (JArr (l1 ++ v :: l2))
| replaces_member m1 x m2 : replaces k v (JObj (m1 ++ (k, x) :: m2)) (JObj (m1 ++ (k, v) :: m2)).

(** The operations on a whole document; the empty path is the document. *)
Definition spec_add (p : list pystr) (v d d' : json) : Prop :=
  (p = [] /\ d' = v) \/ exists q k, p = q ++ [k] /\ edited (adds k v) q d d'.
Definition spec_remove (p : list pystr) (d d' : json) : Prop :=
  (p = [] /\ d' = JNull) \/ exists q k, p = q ++ [k] /\ edited (removes k) q d d'.
Definition spec_replace (p : list pystr) (v d d' : json) : Prop :=
  (p = [] /\ d' = v) \/ exists q k, p = q ++ [k] /\ edited (replaces k v) q d d'.
End Local.

(** RFC 6902 sections 4.4-4.6. *)
Definition rfc_add := spec_add rfc_reading.
Definition rfc_remove := spec_remove rfc_reading.
Definition rfc_replace := spec_replace rfc_reading.
Definition rfc_move (p from : list pystr) (d d' : json) : Prop :=
  ~ is_proper_prefix from p /\
  exists v d1, refers d from v /\ rfc_remove from d d1 /\ rfc_add p v d1 d'.
Definition rfc_copy (p from : list pystr) (d d' : json) : Prop :=
  exists v, refers d from v /\ rfc_add p v d d'.
Definition rfc_test (p : list pystr) (v d d' : json) : Prop :=
  d' = d /\ exists x, refers d p x /\ jeq x v.

(** The last token of [p], where it meets an array of [d], is '-' or an index
    in RFC 6901 syntax. *)
Definition token_ok (d : json) (p : list pystr) : Prop :=
  forall q k l, p = q ++ [k] -> refers d q (JArr l) -> k = lit "-" \/ rfc_index_text k.
(** The last token of [p] does not meet a scalar of [d]. *)
Definition parent_ok (d : json) (p : list pystr) : Prop :=
  forall q k v, p = q ++ [k] -> refers d q v -> (exists l, v = JArr l) \/ (exists m, v = JObj m).

(** Values equal up to the order of object members. *)
Inductive reordered : json -> json -> Prop :=
| re_refl v : reordered v v
| re_arr l l' : Forall2 reordered l l' -> reordered (JArr l) (JArr l')
| re_obj m m1 m' : Permutation m m1 -> Forall2 (fun a b => fst a = fst b /\ reordered (snd a) (snd b)) m1 m' ->
    reordered (JObj m) (JObj m').
