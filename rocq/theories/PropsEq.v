(** Property C14: JSON equality. *)
From Verif Require Import JsonFacts.

(** ** C14.  [JSON.__eq__] decides JSON equality. *)
Theorem C14_eq_is_json_equality : forall a b, jwf a = true -> jwf b = true ->
  (json_eqb a b = true <-> jeq a b).
Proof. exact json_eqb_jeq. Qed.
Print Assumptions C14_eq_is_json_equality.

Theorem C14_equivalence :
  (forall a, jwf a = true -> nan_free a = true -> json_eqb a a = true) /\
  (forall a b, jwf a = true -> jwf b = true -> json_eqb a b = json_eqb b a) /\
  (forall a b c, jwf a = true -> jwf b = true -> jwf c = true ->
     json_eqb a b = true -> json_eqb b c = true -> json_eqb a c = true).
Proof. exact (conj json_eqb_refl (conj json_eqb_sym json_eqb_trans)). Qed.
Print Assumptions C14_equivalence.

(** Values of different JSON types are never equal; in particular booleans
    are distinct from numbers. *)
Theorem C14_types_distinct : forall a b, json_eqb a b = true -> type_of a = type_of b.
Proof. intros [] []; simpl; intro H; try reflexivity; discriminate H. Qed.
Print Assumptions C14_types_distinct.

Example C14_case : (* {"a": 1, "b": [true]} = {"b": [true], "a": 1.0}, but 1 <> true *)
  let a := JObj [(lit "a", JNum (NInt 1)); (lit "b", JArr [JBool true])] in
  let b := JObj [(lit "b", JArr [JBool true]); (lit "a", JNum (NDyad 4 (-2)))] in
  jwf a = true /\ jwf b = true /\ nan_free a = true /\ json_eqb a b = true /\
  json_eqb (JNum (NInt 1)) (JBool true) = false /\
  json_eqb (JNum NNan) (JNum NNan) = false.
Proof. repeat split; reflexivity. Qed.
