(** Shared vocabulary of the model: results with exceptions, Python strings,
    Python list indexing and slicing, Python dicts, decimal printing and
    parsing.  No property theorem lives here. *)

From Coq Require Export Ascii String NArith ZArith Bool Lia List.
Export ListNotations.
Open Scope list_scope.

(** ** Exceptions as values.

    The exception classes raised or leaked by jschon: the classes of
    jschon/exc.py:1-50 and the built-in Python exceptions that the modelled
    code can let through.  Exception messages are not modelled. *)
Inductive exn : Set :=
| EPointerMalformed      (* exc.py:21 JSONPointerMalformedError *)
| EPointerReference      (* exc.py:26 JSONPointerReferenceError *)
| ERelMalformed          (* exc.py:31 RelativeJSONPointerMalformedError *)
| ERelReference          (* exc.py:36 RelativeJSONPointerReferenceError *)
| EJSON                  (* exc.py:9  JSONError *)
| EPatch                 (* exc.py:13 JSONPatchError *)
| ECatalog               (* exc.py:5  CatalogError *)
| ESchema                (* exc.py:41 JSONSchemaError *)
| EURI                   (* exc.py:49 URIError *)
| EValue                 (* ValueError *)
| EKey                   (* KeyError *)
| EIndex                 (* IndexError *)
| EType                  (* TypeError *)
| EAttribute             (* AttributeError *)
| EAssertion             (* AssertionError *)
| EUnicode               (* UnicodeEncodeError *)
| ERegex                 (* re.error *)
| EOther.                (* any exception outside the model *)

(** exc.py:17-39: the subclasses of JSONPointerError, which is what
    [except JSONPointerError] catches. *)
Definition is_pointer_error (e : exn) : bool :=
  match e with
  | EPointerMalformed | EPointerReference | ERelMalformed | ERelReference => true
  | _ => false
  end.

(** Outcome of a computation: a value, an exception, or fuel exhausted
    (standing for a Python computation that has not returned yet). *)
Inductive res (A : Type) : Type :=
| Ok (a : A)
| Exn (e : exn)
| Fuel.
Arguments Ok {A} a.
Arguments Exn {A} e.
Arguments Fuel {A}.

Definition bind {A B} (x : res A) (f : A -> res B) : res B :=
  match x with Ok a => f a | Exn e => Exn e | Fuel => Fuel end.
Notation "'let*' x ':=' a 'in' b" := (bind a (fun x => b))
  (at level 200, x pattern, a at level 100, b at level 200, right associativity).

(** ** Python strings: sequences of Unicode code points. *)
Definition pystr := list N.

(** ASCII literals. *)
Fixpoint lit (s : string) : pystr :=
  match s with
  | EmptyString => []
  | String c r => N_of_ascii c :: lit r
  end.

Fixpoint str_eqb (a b : pystr) : bool :=
  match a, b with
  | [], [] => true
  | x :: a', y :: b' => N.eqb x y && str_eqb a' b'
  | _, _ => false
  end.

Fixpoint strs_eqb (a b : list pystr) : bool :=
  match a, b with
  | [], [] => true
  | x :: a', y :: b' => str_eqb x y && strs_eqb a' b'
  | _, _ => false
  end.

Definition mem_str (k : pystr) (l : list pystr) : bool := existsb (str_eqb k) l.

Fixpoint prefixb (p s : pystr) : bool :=
  match p, s with
  | [], _ => true
  | x :: p', y :: s' => N.eqb x y && prefixb p' s'
  | _ :: _, [] => false
  end.

(** Python [s.replace(old, new)] for non-empty [old]: left-to-right,
    non-overlapping.  [skip] counts the characters of the current match that
    are still to be dropped. *)
Fixpoint replace_aux (old new : pystr) (skip : nat) (s : pystr) : pystr :=
  match s with
  | [] => []
  | c :: r =>
      match skip with
      | S k => replace_aux old new k r
      | O => if prefixb old s then new ++ replace_aux old new (length old - 1) r
             else c :: replace_aux old new 0 r
      end
  end.
Definition str_replace (old new s : pystr) : pystr := replace_aux old new 0 s.

(** Python [s.split(c)] for a one-character separator. *)
Fixpoint split_char (c : N) (s : pystr) : list pystr :=
  match s with
  | [] => [[]]
  | x :: r =>
      if N.eqb x c then [] :: split_char c r
      else match split_char c r with
           | [] => [[x]]  (* unreachable: split never returns an empty list *)
           | t :: ts => (x :: t) :: ts
           end
  end.

(** ** Python sequence indexing. *)

(** [l[i]]: negative indices count from the end; [None] is IndexError. *)
Definition norm_index (len : nat) (i : Z) : option nat :=
  let j := if (i <? 0)%Z then (i + Z.of_nat len)%Z else i in
  if ((0 <=? j) && (j <? Z.of_nat len))%Z then Some (Z.to_nat j) else None.

(** Slice bounds and [list.insert] positions: clamped to [0, len]. *)
Definition clamp_index (len : nat) (i : Z) : nat :=
  let j := if (i <? 0)%Z then (i + Z.of_nat len)%Z else i in
  Nat.min (Z.to_nat j) len.

Definition slice_to {A} (l : list A) (i : Z) : list A := firstn (clamp_index (length l) i) l.
Definition slice_from {A} (l : list A) (i : Z) : list A := skipn (clamp_index (length l) i) l.

Fixpoint update_nth {A} (n : nat) (x : A) (l : list A) : list A :=
  match l, n with
  | [], _ => []
  | _ :: r, O => x :: r
  | y :: r, S k => y :: update_nth k x r
  end.

Fixpoint remove_nth {A} (n : nat) (l : list A) : list A :=
  match l, n with
  | [], _ => []
  | _ :: r, O => r
  | y :: r, S k => y :: remove_nth k r
  end.

Definition insert_nth {A} (n : nat) (x : A) (l : list A) : list A :=
  firstn n l ++ x :: skipn n l.

(** ** Python dicts with string keys: association lists in insertion order.
    Assigning to an existing key keeps its position. *)
Fixpoint dget {A} (k : pystr) (m : list (pystr * A)) : option A :=
  match m with
  | [] => None
  | (k', v) :: r => if str_eqb k k' then Some v else dget k r
  end.

Fixpoint dset {A} (k : pystr) (v : A) (m : list (pystr * A)) : list (pystr * A) :=
  match m with
  | [] => [(k, v)]
  | (k', v') :: r => if str_eqb k k' then (k', v) :: r else (k', v') :: dset k v r
  end.

Fixpoint ddel {A} (k : pystr) (m : list (pystr * A)) : list (pystr * A) :=
  match m with
  | [] => []
  | (k', v') :: r => if str_eqb k k' then r else (k', v') :: ddel k r
  end.

Definition dmem {A} (k : pystr) (m : list (pystr * A)) : bool :=
  match dget k m with Some _ => true | None => false end.

Definition keys {A} (m : list (pystr * A)) : list pystr := map fst m.

(** ** Decimal integers: Python [str(int)] and [int(str)]. *)

Fixpoint dec_aux (fuel : nat) (n : N) (acc : pystr) : pystr :=
  match fuel with
  | O => acc
  | S f => let acc' := (48 + n mod 10)%N :: acc in
           if (n <? 10)%N then acc' else dec_aux f (n / 10)%N acc'
  end.
Definition str_of_N (n : N) : pystr := dec_aux (S (N.size_nat n)) n [].
Definition str_of_nat (n : nat) : pystr := str_of_N (N.of_nat n).
Definition str_of_Z (z : Z) : pystr :=
  if (z <? 0)%Z then 45%N :: str_of_N (Z.abs_N z) else str_of_N (Z.abs_N z).

(** The code points that [int()] treats as blank (measured on CPython 3.11:
    str.isspace minus U+001C..U+001F). *)
Definition int_space (c : N) : bool :=
  ((9 <=? c) && (c <=? 13) || (c =? 32) || (c =? 133) || (c =? 160) || (c =? 5760)
   || ((8192 <=? c) && (c <=? 8202)) || (c =? 8232) || (c =? 8233) || (c =? 8239)
   || (c =? 8287) || (c =? 12288))%N.

(** The zero digits of the Unicode decimal digit runs (category Nd, Unicode
    14, as in CPython 3.11); each run is ten consecutive code points. *)
Definition nd_zeros : list N :=
  [48; 1632; 1776; 1984; 2406; 2534; 2662; 2790; 2918; 3046; 3174; 3302; 3430;
   3558; 3664; 3792; 3872; 4160; 4240; 6112; 6160; 6470; 6608; 6784; 6800; 6992;
   7088; 7232; 7248; 42528; 43216; 43264; 43472; 43504; 43600; 44016; 65296;
   66720; 68912; 69734; 69872; 69942; 70096; 70384; 70736; 70864; 71248; 71360;
   71472; 71904; 72016; 72784; 73040; 73120; 92768; 92864; 93008; 120782; 120792;
   120802; 120812; 120822; 123200; 123632; 125264; 130032]%N.

Fixpoint digit_in (zs : list N) (c : N) : option Z :=
  match zs with
  | [] => None
  | z :: r => if ((z <=? c) && (c <=? z + 9))%N then Some (Z.of_N (c - z)) else digit_in r c
  end.
Definition digit_val (c : N) : option Z := digit_in nd_zeros c.

(** Digits after the first one: single underscores may separate digits. *)
Fixpoint digits_tail (acc : Z) (s : pystr) : option Z :=
  match s with
  | [] => Some acc
  | c :: r =>
      match digit_val c with
      | Some d => digits_tail (10 * acc + d)%Z r
      | None =>
          if (c =? 95)%N then
            match r with
            | [] => None
            | c2 :: r2 => match digit_val c2 with
                          | Some d => digits_tail (10 * acc + d)%Z r2
                          | None => None
                          end
            end
          else None
      end
  end.

Definition digits_val (s : pystr) : option Z :=
  match s with
  | [] => None
  | c :: r => match digit_val c with Some d => digits_tail d r | None => None end
  end.

Fixpoint drop_space (s : pystr) : pystr :=
  match s with
  | c :: r => if int_space c then drop_space r else s
  | [] => []
  end.
Definition strip_space (s : pystr) : pystr := rev (drop_space (rev (drop_space s))).

(** Python [int(s)] for a string [s]; [None] is ValueError.  Simplification:
    CPython's limit of 4300 digits (which also raises ValueError) is not
    modelled. *)
Definition py_int (s : pystr) : option Z :=
  match strip_space s with
  | c :: r => if (c =? 43)%N then digits_val r
              else if (c =? 45)%N then option_map Z.opp (digits_val r)
              else digits_val (c :: r)
  | [] => None
  end.
