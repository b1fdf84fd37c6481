(** Independent specification of operation objects (RFC 6902 section 4): which
    of their members count, and what a document becomes under them.  Nothing
    here refers to the model. *)
From Verif Require Import Base Json SpecPointer SpecEq SpecPatch.
Open Scope string_scope.
Open Scope list_scope.

(** The member [k] of the object is a string that denotes the location [p]. *)
Definition locates (m : list (pystr * json)) (k : pystr) (p : list pystr) : Prop :=
  exists s, In (k, JStr s) m /\ rfc_denotes s p.
Definition op_is (m : list (pystr * json)) (name : pystr) : Prop := In (lit "op", JStr name) m.

(** Section 4: exactly one "op" and one "path"; section 4.1-4.6: the further
    members of each operation.  Other members are not looked at. *)
Inductive object_changes (m : list (pystr * json)) (d d' : json) : Prop :=
| oc_add p v : op_is m (lit "add") -> locates m (lit "path") p -> In (lit "value", v) m -> rfc_add p v d d' -> object_changes m d d'
| oc_remove p : op_is m (lit "remove") -> locates m (lit "path") p -> rfc_remove p d d' -> object_changes m d d'
| oc_replace p v : op_is m (lit "replace") -> locates m (lit "path") p -> In (lit "value", v) m -> rfc_replace p v d d' -> object_changes m d d'
| oc_move p f : op_is m (lit "move") -> locates m (lit "path") p -> locates m (lit "from") f -> rfc_move p f d d' -> object_changes m d d'
| oc_copy p f : op_is m (lit "copy") -> locates m (lit "path") p -> locates m (lit "from") f -> rfc_copy p f d d' -> object_changes m d d'
| oc_test p v : op_is m (lit "test") -> locates m (lit "path") p -> In (lit "value", v) m -> rfc_test p v d d' -> object_changes m d d'.

(** A whole patch: its operation objects one after the other (section 3). *)
Inductive patch_changes : list (list (pystr * json)) -> json -> json -> Prop :=
| pc_end d : patch_changes [] d d
| pc_next m r d d1 d' : object_changes m d d1 -> patch_changes r d1 d' -> patch_changes (m :: r) d d'.

(** The members that the RFC tells to ignore but Python does not: 'cls',
    'from_', and a "from" that is neither null nor a pointer where no "from"
    belongs. *)
Definition plain_members (m : list (pystr * json)) : Prop :=
  ~ In (lit "cls") (map fst m) /\ ~ In (lit "from_") (map fst m) /\
  forall v, In (lit "from", v) m -> v = JNull \/ exists s p, v = JStr s /\ rfc_denotes s p.

(** The members an operation object must have. *)
Definition complete (m : list (pystr * json)) : Prop :=
  (forall name, In name [lit "add"; lit "replace"; lit "test"] -> op_is m name -> exists v, In (lit "value", v) m).
