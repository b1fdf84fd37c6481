(** Instances that should be judged alike: the same type, the same strings and
    booleans, numbers related as wished, arrays item by item, objects member by
    member in whatever order.  With [like_number] this is JSON equality
    (SpecEq.v) except that a NaN is like itself; with [eq] the two differ only
    in the order of members. *)
From Coq Require Import QArith Qpower.
From Verif Require Export SpecEq Schema.
Open Scope nat_scope.

Definition like_number (a b : num) : Prop := a = b \/ same_number a b.
Inductive looks_like (N : num -> num -> Prop) : json -> json -> Prop :=
| like_null : looks_like N JNull JNull
| like_bool b : looks_like N (JBool b) (JBool b)
| like_num a b : N a b -> looks_like N (JNum a) (JNum b)
| like_str s : looks_like N (JStr s) (JStr s)
| like_arr l l' : length l = length l' ->
    (forall n x y, nth_error l n = Some x -> nth_error l' n = Some y -> looks_like N x y) -> looks_like N (JArr l) (JArr l')
| like_obj m m' : (forall k, In k (map fst m) <-> In k (map fst m')) ->
    (forall k x y, In (k, x) m -> In (k, y) m' -> looks_like N x y) -> looks_like N (JObj m) (JObj m').

(** The runtime facilities treat like values alike: the format validators, and
    the decimal notation of numbers as far as multipleOf goes. *)
Definition even_handed (N : num -> num -> Prop) (W : world) : Prop :=
  (forall a x y, looks_like N x y -> w_format W a x = w_format W a y) /\
  (forall a b m, N a b -> is_multiple W a m = is_multiple W b m).

(** A number whose decimal notation (Python repr, which multipleOf reads) is
    exactly its value: every int, and floats such as 2.0 or 0.125. *)
Definition exactly_written (W : world) (n : num) : Prop :=
  match n with
  | NDyad m e => (inject_Z (fst (w_repr W m e)) * Qpower (inject_Z 10) (snd (w_repr W m e)) == inject_Z m * Qpower (inject_Z 2) e)%Q
  | _ => True
  end.
(** The same number, or two equal ones both exactly written. *)
Definition on_par (W : world) (a b : num) : Prop :=
  a = b \/ same_number a b /\ exactly_written W a /\ exactly_written W b.
Definition fair_formats (N : num -> num -> Prop) (W : world) : Prop :=
  forall a x y, looks_like N x y -> w_format W a x = w_format W a y.
