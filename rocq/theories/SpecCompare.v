(** The order of numbers and of texts, and what it means to compare JSON
    values; independent of the model's comparison functions. *)
From Coq Require Import QArith.
From Verif Require Export Compare SpecEq.
Open Scope nat_scope.

(** One number is less than another; a NaN is less than nothing. *)
Definition less (a b : num) : Prop :=
  match a, b with
  | NNan, _ | _, NNan => False
  | NInf s, NInf t => s = true /\ t = false
  | NInf s, _ => s = true
  | _, NInf t => t = false
  | _, _ => exists x y, num_Q a = Some x /\ num_Q b = Some y /\ (x < y)%Q
  end.

(** The number a value counts as: bool is a subclass of int in Python. *)
Inductive counts : json -> num -> Prop :=
| counts_num n : counts (JNum n) n
| counts_true : counts (JBool true) (NInt 1)
| counts_false : counts (JBool false) (NInt 0).

(** One text comes before another in the dictionary. *)
Inductive before : pystr -> pystr -> Prop :=
| b_prefix c r : before [] (c :: r)
| b_first x y a b : (x < y)%N -> before (x :: a) (y :: b)
| b_next x a b : before a b -> before (x :: a) (x :: b).

(** A comparison in terms of less, equal and greater. *)
Definition means_op (o : cmpop) (lt eq gt : Prop) : Prop :=
  match o with OGe => gt \/ eq | OGt => gt | OLe => lt \/ eq | OLt => lt end.

(** Two values that can be compared: numbers or booleans, texts, arrays that
    differ first in two items that can be compared, or in length only. *)
Inductive comparable : json -> json -> Prop :=
| c_num a b x y : counts a x -> counts b y -> comparable a b
| c_str s t : comparable (JStr s) (JStr t)
| c_end l : comparable (JArr []) (JArr l)
| c_end' l : comparable (JArr l) (JArr [])
| c_same x y l l' : jeq x y -> comparable (JArr l) (JArr l') -> comparable (JArr (x :: l)) (JArr (y :: l'))
| c_differ x y l l' : ~ jeq x y -> comparable x y -> comparable (JArr (x :: l)) (JArr (y :: l')).

(** The comparison [o] holds between two values. *)
Inductive holds (o : cmpop) : json -> json -> Prop :=
| h_num a b x y : counts a x -> counts b y -> means_op o (less x y) (same_number x y) (less y x) -> holds o a b
| h_str s t : means_op o (before s t) (s = t) (before t s) -> holds o (JStr s) (JStr t)
| h_both : means_op o False True False -> holds o (JArr []) (JArr [])
| h_short x l : means_op o True False False -> holds o (JArr []) (JArr (x :: l))
| h_long x l : means_op o False False True -> holds o (JArr (x :: l)) (JArr [])
| h_same x y l l' : jeq x y -> holds o (JArr l) (JArr l') -> holds o (JArr (x :: l)) (JArr (y :: l'))
| h_differ x y l l' : ~ jeq x y -> holds o x y -> holds o (JArr (x :: l)) (JArr (y :: l')).

(** Two texts, or two numbers neither of which is a NaN: what the docstrings of
    the methods speak of. *)
Inductive alike : json -> json -> Prop :=
| alike_num x y : x <> NNan -> y <> NNan -> alike (JNum x) (JNum y)
| alike_str s t : alike (JStr s) (JStr t).
