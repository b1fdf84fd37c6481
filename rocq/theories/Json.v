(** JSON-compatible Python values and their equality.
    Models the value-level behaviour of jschon/json.py. *)
From Verif Require Export Base.

(** Python numbers.  [NInt] is [int].  A finite [float] is the dyadic rational
    [m * 2^e]; infinities and NaN are separate.  Simplification: the sign of
    a zero float is not kept (no modelled operation observes it), and dyadics
    outside the binary64 range are admitted. *)
Inductive num : Set :=
| NInt (z : Z)
| NDyad (m e : Z)
| NInf (neg : bool)
| NNan.

(** JSONCompatible, json.py:21.  Objects are association lists in insertion
    order; a Python dict never has a duplicate key ([jwf] below). *)
Inductive json : Set :=
| JNull
| JBool (b : bool)
| JNum (n : num)
| JStr (s : pystr)
| JArr (l : list json)
| JObj (m : list (pystr * json)).

(** The JSON type names, json.py:89-91. *)
Inductive jtype : Set := TNull | TBoolean | TNumber | TString | TArray | TObject.

Definition jtype_eqb (a b : jtype) : bool :=
  match a, b with
  | TNull, TNull | TBoolean, TBoolean | TNumber, TNumber
  | TString, TString | TArray, TArray | TObject, TObject => true
  | _, _ => false
  end.

(** json.py:120-151, the order of the isinstance tests: bool is tested before
    int, so booleans are never numbers. *)
Definition type_of (v : json) : jtype :=
  match v with
  | JNull => TNull
  | JBool _ => TBoolean
  | JNum _ => TNumber
  | JStr _ => TString
  | JArr _ => TArray
  | JObj _ => TObject
  end.

Definition type_name (t : jtype) : pystr :=
  match t with
  | TNull => lit "null" | TBoolean => lit "boolean" | TNumber => lit "number"
  | TString => lit "string" | TArray => lit "array" | TObject => lit "object"
  end.

(** Python numeric comparison.  int/int, int/float and float/float comparisons
    are exact in CPython; a dyadic [m * 2^e] is compared by scaling both sides
    to the smaller exponent.  [None]: a NaN is involved (unordered). *)
Definition dyad_compare (m1 e1 m2 e2 : Z) : comparison :=
  let e := Z.min e1 e2 in
  ((m1 * 2 ^ (e1 - e)) ?= (m2 * 2 ^ (e2 - e)))%Z.

Definition num_compare (a b : num) : option comparison :=
  match a, b with
  | NNan, _ | _, NNan => None
  | NInf s, NInf t => Some (match s, t with
                            | true, true | false, false => Eq
                            | true, false => Lt
                            | false, true => Gt
                            end)
  | NInf s, _ => Some (if s then Lt else Gt)
  | _, NInf t => Some (if t then Gt else Lt)
  | NInt x, NInt y => Some (x ?= y)%Z
  | NInt x, NDyad m e => Some (dyad_compare x 0 m e)
  | NDyad m e, NInt y => Some (dyad_compare m e y 0)
  | NDyad m e, NDyad m' e' => Some (dyad_compare m e m' e')
  end.

(** Python [==], [<], [<=], [>], [>=] on numbers. *)
Definition num_eqb (a b : num) : bool :=
  match num_compare a b with Some Eq => true | _ => false end.
Definition num_ltb (a b : num) : bool :=
  match num_compare a b with Some Lt => true | _ => false end.
Definition num_leb (a b : num) : bool :=
  match num_compare a b with Some Lt | Some Eq => true | _ => false end.
Definition num_gtb (a b : num) : bool := num_ltb b a.
Definition num_geb (a b : num) : bool := num_leb b a.

(** JSON.__eq__, json.py:277-289.  Different types give NotImplemented on both
    sides, which Python turns into False.  [self.keys() == other.keys()] is
    set equality of key views (same size, every key of the left in the right);
    then every item of the left is compared with the item of the right under
    the same key. *)
Fixpoint json_eqb (a b : json) {struct a} : bool :=
  match a, b with
  | JNull, JNull => true
  | JBool x, JBool y => Bool.eqb x y
  | JNum x, JNum y => num_eqb x y
  | JStr x, JStr y => str_eqb x y
  | JArr xs, JArr ys =>
      (fix go (xs ys : list json) : bool :=
         match xs, ys with
         | [], [] => true
         | x :: xs', y :: ys' => json_eqb x y && go xs' ys'
         | _, _ => false
         end) xs ys
  | JObj m, JObj m' =>
      Nat.eqb (List.length m) (List.length m')
      && forallb (fun k => dmem k m') (keys m)
      && (fix go (m : list (pystr * json)) : bool :=
            match m with
            | [] => true
            | (k, v) :: r => match dget k m' with
                             | Some v' => json_eqb v v'
                             | None => false
                             end && go r
            end) m
  | _, _ => false
  end.

(** No duplicate keys anywhere: true of every value made of Python dicts. *)
Fixpoint nodup_keysb {A} (m : list (pystr * A)) : bool :=
  match m with
  | [] => true
  | (k, _) :: r => negb (dmem k r) && nodup_keysb r
  end.

Fixpoint jwf (v : json) : bool :=
  match v with
  | JArr l => forallb jwf l
  | JObj m => nodup_keysb m && forallb (fun kv => jwf (snd kv)) m
  | _ => true
  end.

(** No NaN anywhere. *)
Fixpoint nan_free (v : json) : bool :=
  match v with
  | JNum NNan => false
  | JArr l => forallb nan_free l
  | JObj m => forallb (fun kv => nan_free (snd kv)) m
  | _ => true
  end.
