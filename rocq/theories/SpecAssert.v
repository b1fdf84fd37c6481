(** What the assertion keywords demand (JSON Schema Validation 2020-12,
    sections 6 and 7): directly in terms of the value, with exact arithmetic,
    and JSON equality as defined in SpecEq.v. *)
From Coq Require Import QArith.
From Verif Require Export SpecEq SpecSchema.
Open Scope nat_scope.

(** A type name describes a value; a number is an integer when its value is. *)
Definition of_type (t : pystr) (x : json) : Prop :=
  match x with
  | JNull => t = lit "null"
  | JBool _ => t = lit "boolean"
  | JNum n => t = lit "number" \/ t = lit "integer" /\ exists q z, num_Q n = Some q /\ (q == inject_Z z)%Q
  | JStr _ => t = lit "string"
  | JArr _ => t = lit "array"
  | JObj _ => t = lit "object"
  end.

(** [x] stands in relation [rel] to the limit [v]. *)
Definition within (rel : Q -> Q -> Prop) (x : num) (v : kjson) : Prop :=
  exists n p q, v = KJ (JNum n) /\ num_Q x = Some p /\ num_Q n = Some q /\ rel p q.
Definition how_many {A} (l : list A) : num := NInt (Z.of_nat (length l)).

Definition has_name (x : json) (name : pystr) : Prop := exists y, In (name, y) (members x).

(** The assertion keyword of class [c] with value [v] holds of [x], an instance
    of a type that the keyword concerns. *)
Definition holds (c : stdclass) (v : kjson) (x : json) : Prop :=
  match c, x with
  | KType_, _ =>
      (exists t, v = KJ (JStr t) /\ of_type t x)
      \/ (exists l t, v = KJ (JArr l) /\ In (JStr t) l /\ of_type t x)
  | KEnum, _ => exists l u, v = KJ (JArr l) /\ In u l /\ jeq u x
  | KConst, _ => exists u, v = KJ u /\ jeq x u
  | KMaximum, JNum n => within Qle n v
  | KExclusiveMaximum, JNum n => within Qlt n v
  | KMinimum, JNum n => within (fun p q => Qle q p) n v
  | KExclusiveMinimum, JNum n => within (fun p q => Qlt q p) n v
  | KMaxLength, JStr s => within Qle (how_many s) v
  | KMinLength, JStr s => within (fun p q => Qle q p) (how_many s) v
  | KMaxItems, JArr l => within Qle (how_many l) v
  | KMinItems, JArr l => within (fun p q => Qle q p) (how_many l) v
  | KUniqueItems, JArr l =>
      v = KJ (JBool true) ->
      forall i j y z, i < j -> nth_error l i = Some y -> nth_error l j = Some z -> ~ jeq y z
  | KMaxProperties, JObj m => within Qle (how_many m) v
  | KMinProperties, JObj m => within (fun p q => Qle q p) (how_many m) v
  | KRequired, JObj _ => forall l name, v = KJ (JArr l) -> In (JStr name) l -> has_name x name
  | KDependentRequired, JObj _ =>
      forall m name l name', v = KJ (JObj m) -> In (name, JArr l) m -> In (JStr name') l -> has_name x name -> has_name x name'
  | _, _ => False
  end.

(** The assertion keywords covered. *)
Definition asserts (c : stdclass) : bool :=
  match c with
  | KType_ | KEnum | KConst | KMaximum | KExclusiveMaximum | KMinimum | KExclusiveMinimum | KMaxLength | KMinLength
  | KMaxItems | KMinItems | KUniqueItems | KMaxProperties | KMinProperties | KRequired | KDependentRequired => true
  | _ => false
  end.

(** No infinities or NaNs (which JSON texts cannot express), distinct keys. *)
Fixpoint finite (x : json) : bool :=
  match x with
  | JNum (NInf _) | JNum NNan => false
  | JArr l => forallb finite l
  | JObj m => forallb (fun kv => finite (snd kv)) m
  | _ => true
  end.
Definition plain_value (v : kjson) (P : json -> Prop) : Prop := match v with KJ u => P u | _ => True end.
