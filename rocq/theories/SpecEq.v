(** Specification of JSON equality (JSON Schema core, instance equality),
    independent of the model's comparison functions. *)
From Coq Require Import QArith.
From Verif Require Import Base Json.
Open Scope nat_scope.

(** The mathematical value of a finite number, as a rational. *)
Definition num_Q (n : num) : option Q :=
  match n with
  | NInt z => Some (inject_Z z)
  | NDyad m e => Some (inject_Z m * Qpower (inject_Z 2) e)%Q
  | _ => None
  end.

(** Equality of numbers: equal rationals, or the same infinity; a NaN is equal
    to nothing. *)
Definition same_number (a b : num) : Prop :=
  match num_Q a, num_Q b with
  | Some x, Some y => (x == y)%Q
  | None, None => match a, b with NInf s, NInf t => s = t | _, _ => False end
  | _, _ => False
  end.

(** Two JSON values are equal: same type; numbers by value; arrays elementwise;
    objects as unordered maps. *)
Inductive jeq : json -> json -> Prop :=
| jeq_null : jeq JNull JNull
| jeq_bool b : jeq (JBool b) (JBool b)
| jeq_num a b : same_number a b -> jeq (JNum a) (JNum b)
| jeq_str s : jeq (JStr s) (JStr s)
| jeq_arr l l' : length l = length l' ->
    (forall n x y, nth_error l n = Some x -> nth_error l' n = Some y -> jeq x y) ->
    jeq (JArr l) (JArr l')
| jeq_obj m m' : (forall k, In k (map fst m) <-> In k (map fst m')) ->
    (forall k x y, In (k, x) m -> In (k, y) m' -> jeq x y) ->
    jeq (JObj m) (JObj m').
