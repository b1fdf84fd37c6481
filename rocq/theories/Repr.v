(** What Python writes for values inside the error messages of the keywords:
    str() of a JSON node (json.py:199-209), and repr() of lists of names or
    indices, of dicts and of JSON nodes (json.py:203-205), as used in the f-strings
    of vocabulary/applicator.py and vocabulary/validation.py.

    repr of str, list, dict, int and float are CPython's (3.11).  Simplified:
    every code point from U+00A1 on that is neither U+00AD nor a surrogate is
    taken to be printable (CPython consults the Unicode database). *)
From Verif Require Export Json.
From Verif Require Import Text.
Open Scope Z_scope.

(** float.__repr__ of c * 10^k, where c has the digits that repr writes:
    exponents below -4 and from 16 on are written as such. *)
Definition zeros (n : Z) : pystr := repeat 48%N (Z.to_nat n).
Definition decimal_text (ck : Z * Z) : pystr :=
  let '(c, k) := ck in
  let ds := str_of_Z (Z.abs c) in
  let len := Z.of_nat (length ds) in
  let point := len + k in
  (if c <? 0 then [45%N] else []) ++
  (if c =? 0 then lit "0.0"
   else if (point <=? -4) || (16 <? point) then
     firstn 1 ds ++ (if 1 <? len then 46%N :: skipn 1 ds else []) ++ lit "e" ++
     (let x := point - 1 in (if x <? 0 then [45%N] else [43%N]) ++ (if Z.abs x <? 10 then [48%N] else []) ++ str_of_Z (Z.abs x))
   else if point <=? 0 then lit "0." ++ zeros (- point) ++ ds
   else if 0 <=? k then ds ++ zeros k ++ lit ".0"
   else firstn (Z.to_nat point) ds ++ 46%N :: skipn (Z.to_nat point) ds).

Open Scope N_scope.
(** str.__repr__: single quotes, unless the text has single quotes and no
    double quotes. *)
Definition printable (c : N) : bool :=
  ((32 <=? c) && (c <? 127)) || ((161 <=? c) && negb (c =? 173) && negb ((55296 <=? c) && (c <=? 57343))).
Definition repr_char (quote c : N) : pystr :=
  if (c =? quote) || (c =? 92) then [92; c]
  else if c =? 9 then [92; 116] else if c =? 10 then [92; 110] else if c =? 13 then [92; 114]
  else if printable c then [c]
  else if c <? 256 then [92; 120; hex_digit (c / 16); hex_digit (c mod 16)]
  else if c <? 65536 then 92 :: 117 :: hex4_text c
  else 92 :: 85 :: hex4_text (c / 65536) ++ hex4_text (c mod 65536).
Definition repr_str (s : pystr) : pystr :=
  let has q := existsb (N.eqb q) s in
  let quote := if has 39 && negb (has 34) then 34 else 39 in
  quote :: flat_map (repr_char quote) s ++ [quote].

(** list.__repr__ and dict.__repr__ of elements already written. *)
Definition repr_list (l : list pystr) : pystr := 91 :: commas l ++ [93].
Definition repr_dict (m : list (pystr * pystr)) : pystr :=
  123 :: commas (map (fun kv => fst kv ++ 58 :: 32 :: snd kv) m) ++ [125].

(** repr of a value; [F] writes the floats. *)
Fixpoint repr_value (F : floats) (v : json) : pystr :=
  match v with
  | JNull => lit "None"
  | JBool true => lit "True"
  | JBool false => lit "False"
  | JNum (NInt z) => str_of_Z z
  | JNum (NDyad m e) => f_repr F m e
  | JNum (NInf false) => lit "inf"
  | JNum (NInf true) => lit "-inf"
  | JNum NNan => lit "nan"
  | JStr s => repr_str s
  | JArr l => repr_list (map (repr_value F) l)
  | JObj m => repr_dict (map (fun kv => (repr_str (fst kv), repr_value F (snd kv))) m)
  end.

(** JSON.__repr__, json.py:203-205: the data is dumped and loaded again, which
    raises ValueError for NaN and the infinities. *)
Definition repr_node (F : floats) (v : json) : res pystr :=
  let* _ := json_dumps F v in Ok (lit "JSON(" ++ repr_value F v ++ lit ")").

Example repr_str_checks :
  map repr_str [lit "foo"; lit "it's"; [34; 39]; [10; 92; 0; 233]; [8364; 128512; 55296]]
  = [lit "'foo'"; 34 :: lit "it's" ++ [34]; lit "'" ++ [34; 92; 39] ++ lit "'"; lit "'\n\\\x00" ++ [233; 39];
     39 :: [8364; 128512] ++ lit "\ud800'"].
Proof. vm_compute. reflexivity. Qed.
Example repr_value_checks :
  repr_value {| f_repr := fun m e => decimal_text (m, e); f_parse := fun _ => NNan |}
    (JArr [JNull; JBool true; JNum (NInt (-3)); JNum (NDyad 25 (-1)); JObj [(lit "a", JStr (lit "b"))]; JArr []])
  = lit "[None, True, -3, 2.5, {'a': 'b'}, []]".
Proof. vm_compute. reflexivity. Qed.
