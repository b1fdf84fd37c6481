(** The number that the text of a float stands for: a decimal fraction. *)
From Verif Require Export SpecText.
Open Scope N_scope.

Inductive fraction_of : pystr -> pystr -> Prop :=
| fo_none : fraction_of [] []
| fo_some d : decimal d -> fraction_of (46 :: d) d.
Inductive exponent_of : pystr -> Z -> Prop :=
| eo_none : exponent_of [] 0%Z
| eo_plus d : decimal d -> exponent_of (101 :: 43 :: d) (decimal_value d)
| eo_minus d : decimal d -> exponent_of (101 :: 45 :: d) (- decimal_value d).
Inductive signed : pystr -> Z -> Prop := sg_none : signed [] 1%Z | sg_minus : signed [45] (-1)%Z.
(** [s] is the text of a float and stands for [c * 10 ^ k]. *)
Definition stands_for_decimal (s : pystr) (c k : Z) : Prop :=
  exists g i ft fd et u x, signed g u /\ integer_part i /\ fraction_of ft fd /\ exponent_of et x /\ (ft <> [] \/ et <> []) /\
    s = g ++ i ++ ft ++ et /\ c = (u * decimal_value (i ++ fd))%Z /\ k = (x - Z.of_nat (length fd))%Z.
(** [c * 10 ^ k = c' * 10 ^ k']. *)
Definition same_decimal (c k c' k' : Z) : Prop :=
  exists m, (m <= k /\ m <= k' /\ c * 10 ^ (k - m) = c' * 10 ^ (k' - m))%Z.
