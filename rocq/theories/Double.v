(** Reading and writing of binary64 numbers, for concrete cases (Suite.v).

    The theorems take both as arguments ([floats] in Text.v, [w_repr] in
    Schema.v); no theorem depends on this file.  Here they are as Python has
    them: float(s) is the binary64 number nearest to the decimal, ties to even,
    and repr(x) has the fewest digits that read back as x. *)
From Coq Require Import String List ZArith.
From Verif Require Import Text Repr.
Import ListNotations.
Open Scope Z_scope.

(** a/b rounded to an integer, ties to even; b > 0. *)
Definition round_even (a b : Z) : Z :=
  let q := a / b in let r := a - q * b in
  match 2 * r ?= b with Lt => q | Gt => q + 1 | Eq => if Z.even q then q else q + 1 end.
(** The number c * 10^k, c >= 0, as a quotient. *)
Definition quotient (c k : Z) : Z * Z := if k <? 0 then (c, 10 ^ (- k)) else (c * 10 ^ k, 1).
(** 53 bits, exponents from -1074 to 971. *)
Definition nearest (a b : Z) : num :=
  if a =? 0 then NDyad 0 0 else
  let scaled e := if e <? 0 then (a * 2 ^ (- e), b) else (a, b * 2 ^ e) in
  let e0 := Z.log2 a - Z.log2 b - 52 in
  let e1 := let '(x, y) := scaled e0 in if x / y <? 2 ^ 52 then e0 - 1 else e0 in
  let e := Z.max e1 (-1074) in
  let '(x, y) := scaled e in
  let q := round_even x y in
  if (971 <? e) || ((e =? 971) && (q =? 2 ^ 53)) then NInf false else NDyad q e.
Definition opposite (neg : bool) (x : num) : num :=
  if neg then match x with NInt z => NInt (- z) | NDyad m e => NDyad (- m) e | NInf s => NInf (negb s) | NNan => NNan end else x.
Definition digits (s : pystr) : Z := fold_left (fun a c => 10 * a + (Z.of_N c - 48)) s 0.
(** float(s) of a number in JSON's notation. *)
Definition parse_double (s : pystr) : num :=
  let '(sg, s) := sign_part s in
  let '(i, s) := digit_span s in
  let '(f, s) := match s with 46%N :: r => digit_span r | _ => ([], s) end in
  let x := match s with
           | (101%N | 69%N) :: 45%N :: r => - digits (fst (digit_span r))
           | (101%N | 69%N) :: 43%N :: r => digits (fst (digit_span r))
           | (101%N | 69%N) :: r => digits (fst (digit_span r))
           | _ => 0
           end in
  let '(a, b) := quotient (digits (i ++ f)) (x - Z.of_nat (length f)) in
  opposite (match sg with [] => false | _ => true end) (nearest a b).

(** The position of the first digit of a/b > 0: the n with 10^n <= a/b < 10^(n+1). *)
Fixpoint magnitude (steps : nat) (a b n : Z) : Z :=
  match steps with
  | O => n
  | S k => let le n := if n <? 0 then b <=? a * 10 ^ (- n) else b * 10 ^ n <=? a in
           if le n then if le (n + 1) then magnitude k a b (n + 1) else n else magnitude k a b (n - 1)
  end.
Definition same_num (x y : num) : bool := num_eqb x y.
(** With 1, 2, ... 17 digits. *)
Fixpoint shortest (steps : nat) (p : Z) (a b n : Z) (x : num) : Z * Z :=
  let k := n - p + 1 in
  let c := if k <? 0 then round_even (a * 10 ^ (- k)) b else round_even a (b * 10 ^ k) in
  match steps with
  | O => (c, k)
  | S st => let '(u, v) := quotient c k in if same_num (nearest u v) x then (c, k) else shortest st (p + 1) a b n x
  end.
Fixpoint strip_zeros (steps : nat) (c k : Z) : Z * Z :=
  match steps with
  | O => (c, k)
  | S n => if (c mod 10 =? 0) && negb (c =? 0) then strip_zeros n (c / 10) (k + 1) else (c, k)
  end.
(** Coefficient and exponent of repr(m * 2^e). *)
Definition repr_decimal (m e : Z) : Z * Z :=
  if m =? 0 then (0, -1) else
  let '(a, b) := if e <? 0 then (Z.abs m, 2 ^ (- e)) else (Z.abs m * 2 ^ e, 1) in
  let n := magnitude 700 a b ((Z.log2 a - Z.log2 b) * 3 / 10) in
  let '(c, k) := shortest 17 1 a b n (nearest a b) in
  let '(c, k) := strip_zeros 20 c k in
  (Z.sgn m * c, k).
Definition repr_double (m e : Z) : pystr := decimal_text (repr_decimal m e).
Definition doubles : floats := {| f_repr := repr_double; f_parse := parse_double |}.

(** Checks: texts, and how repr writes the number that they denote. *)
Open Scope string_scope.
Definition rewritten (s : string) : pystr := match parse_double (lit s) with NDyad m e => repr_double m e | _ => [] end.
Example repr_checks :
  map rewritten ["1.0"; "1.1"; "3.1"; "-0.25"; "0.1"; "0.30000000000000004"; "1e16"; "1e15"; "123456789012345678"; "1e100"; "5e-324"; "1.7976931348623157e308"; "0.0001"; "0.00001"; "2.5E-3"; "100e-2"; "9007199254740993.0"; "4.35"; "0.3e1"]
  = map lit ["1.0"; "1.1"; "3.1"; "-0.25"; "0.1"; "0.30000000000000004"; "1e+16"; "1000000000000000.0"; "1.2345678901234568e+17"; "1e+100"; "5e-324"; "1.7976931348623157e+308"; "0.0001"; "1e-05"; "0.0025"; "1.0"; "9007199254740992.0"; "4.35"; "3.0"].
Proof. vm_compute. reflexivity. Qed.
Example parse_checks :
  map (fun s => parse_double (lit s)) ["0.1"; "1.5"; "1e400"; "-1e-400"] =
  [NDyad 7205759403792794 (-56); NDyad 6755399441055744 (-52); NInf false; NDyad 0 (-1074)]%Z.
Proof. vm_compute. reflexivity. Qed.
