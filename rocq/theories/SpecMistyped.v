(** What a keyword says of an instance when its own value is of a type that
    the metaschemas forbid: Python goes on as long as the operations it comes
    to are defined.  Written from the documentation of Python's loops, of the
    comparisons and of decimal.Decimal, not from the model. *)
From Coq Require Import List.
From Verif Require Import Schema SpecSound.
Import ListNotations.

Inductive reaction := Passes | Fails | Raises (e : exn).

(** Null, booleans and numbers cannot be looped over. *)
Inductive unloopable : json -> Prop :=
| unloopable_null : unloopable JNull
| unloopable_bool b : unloopable (JBool b)
| unloopable_num n : unloopable (JNum n).

(** The limits on numbers, lengths and sizes. *)
Definition limiting (c : stdclass) : Prop :=
  In c [KMaximum; KExclusiveMaximum; KMinimum; KExclusiveMinimum; KMaxLength; KMinLength;
        KMaxItems; KMinItems; KMaxProperties; KMinProperties].

(** [mistyped c v x a]: a keyword of class [c] whose value is [v] says [a] of
    the instance [x]. *)
Inductive mistyped : stdclass -> json -> json -> reaction -> Prop :=
(* "abc" stands for the three texts of one character *)
| mt_enum_char t c : In c t -> mistyped KEnum (JStr t) (JStr [c]) Passes
| mt_enum_text t x : (forall c, In c t -> x <> JStr [c]) -> mistyped KEnum (JStr t) x Fails
(* an object stands for its names *)
| mt_enum_name m n v : In (n, v) m -> mistyped KEnum (JObj m) (JStr n) Passes
| mt_enum_names m x : (forall n v, In (n, v) m -> x <> JStr n) -> mistyped KEnum (JObj m) x Fails
| mt_enum_other v x : unloopable v -> mistyped KEnum v x (Raises EType)
(* what is gone through must be nodes, and the characters of a text and the names of an object are not *)
| mt_required_empty v m : v = JStr [] \/ v = JObj [] -> mistyped KRequired v (JObj m) Passes
| mt_required_text c t m : mistyped KRequired (JStr (c :: t)) (JObj m) (Raises EAttribute)
| mt_required_object nv l m : mistyped KRequired (JObj (nv :: l)) (JObj m) (Raises EAttribute)
| mt_required_other v m : unloopable v -> mistyped KRequired v (JObj m) (Raises EType)
| mt_dependent_empty v m : v = JStr [] \/ v = JArr [] -> mistyped KDependentRequired v (JObj m) Passes
| mt_dependent_text c t m : mistyped KDependentRequired (JStr (c :: t)) (JObj m) (Raises EType)
| mt_dependent_array v l m : mistyped KDependentRequired (JArr (v :: l)) (JObj m) (Raises EType)
| mt_dependent_other v m : unloopable v -> mistyped KDependentRequired v (JObj m) (Raises EType)
(* inside, only the entries of the names that the instance has are looked at *)
| mt_dependent_inside before n v after m w e :
    (forall n' v', In (n', v') before -> (exists l, v' = JArr l) \/ forall w', ~ In (n', w') m) ->
    In (n, w) m ->
    unloopable v /\ e = EType \/ (exists c t, v = JStr (c :: t)) /\ e = EAttribute \/ (exists nv l, v = JObj (nv :: l)) /\ e = EAttribute ->
    mistyped KDependentRequired (JObj (before ++ (n, v) :: after)) (JObj m) (Raises e)
(* no Decimal is written None, True, [...] or {...} *)
| mt_multiple v n : match v with JNum _ | JStr _ => False | _ => True end -> finite_numbers v = true -> finite_numbers (JNum n) = true ->
    mistyped KMultipleOf v (JNum n) Fails
(* nothing is less or greater than a number except a number, and True and False are numbers *)
| mt_limit c v x : limiting c -> match v with JNum _ | JBool _ => False | _ => True end -> mistyped c v x (Raises EType)
(* tuplify makes a tuple of one that is no text *)
| mt_type v x : unloopable v -> finite_numbers v = true -> mistyped KType_ v x Fails
(* truth is all that is asked for *)
| mt_unique_false v l : v = JNull \/ v = JNum (NInt 0) \/ v = JStr [] \/ v = JArr [] \/ v = JObj [] -> mistyped KUniqueItems v (JArr l) Passes
(* a text passes as a sequence of subschemas *)
| mt_all_empty x : mistyped KAllOf (JStr []) x Passes
| mt_any_empty x : mistyped KAnyOf (JStr []) x Fails
| mt_one_empty x : mistyped KOneOf (JStr []) x Fails
| mt_many_text k c t x : In k [KAllOf; KAnyOf; KOneOf] -> mistyped k (JStr (c :: t)) x (Raises EAttribute)
| mt_prefix_empty l : mistyped KPrefixItems (JStr []) (JArr l) Passes
| mt_prefix_no_items t : mistyped KPrefixItems (JStr t) (JArr []) Passes
| mt_prefix_text c t v l : mistyped KPrefixItems (JStr (c :: t)) (JArr (v :: l)) (Raises EAttribute).
