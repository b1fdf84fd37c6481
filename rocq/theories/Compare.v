(** The ordering methods of JSON: __ge__, __gt__, __le__ and __lt__.  Models
    jschon/json.py:291-329 on values.

    Simplified: list comparison in CPython takes identical items as equal
    without calling [__eq__]; the items compared here are distinct objects.
    The other operand may be a JSON or a plain value, with the same outcome. *)
From Verif Require Export Json.

Inductive cmpop : Set := OGe | OGt | OLe | OLt.

(** The truth of the comparison, given how two things compare. *)
Definition op_true (o : cmpop) (c : comparison) : bool :=
  match o, c with
  | OGe, (Eq | Gt) | OGt, Gt | OLe, (Eq | Lt) | OLt, Lt => true
  | _, _ => false
  end.

(** Python numbers; [bool] is a subclass of [int]. *)
Definition as_number (v : json) : option num :=
  match v with JNum n => Some n | JBool b => Some (NInt (if b then 1 else 0)) | _ => None end.

(** Python string comparison, by code points. *)
Fixpoint str_compare (a b : pystr) : comparison :=
  match a, b with
  | [], [] => Eq
  | [], _ => Lt
  | _, [] => Gt
  | x :: a', y :: b' => match N.compare x y with Eq => str_compare a' b' | c => c end
  end.

(** [self.data >= other.data] and so on.  A NaN makes all of them false.  Lists
    are compared at the first position where the items are not equal, or by
    length if there is none (CPython, listobject.c, list_richcompare). *)
Fixpoint data_compare (o : cmpop) (a b : json) {struct a} : res bool :=
  match as_number a, as_number b with
  | Some x, Some y => Ok match num_compare x y with Some c => op_true o c | None => false end
  | _, _ =>
      match a, b with
      | JStr s, JStr t => Ok (op_true o (str_compare s t))
      | JArr l, JArr l' =>
          (fix go (l l' : list json) : res bool :=
             match l, l' with
             | [], [] => Ok (op_true o Eq)
             | [], _ => Ok (op_true o Lt)
             | _, [] => Ok (op_true o Gt)
             | x :: r, y :: r' => if json_eqb x y then go r r' else data_compare o x y
             end) l l'
      | _, _ => Exn EType
      end
  end.
