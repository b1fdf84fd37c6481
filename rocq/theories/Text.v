(** JSON text: json_dumps and json_loads, jschon/utils.py:36-69, and with them
    JSON.dumps, __str__ and JSON.loads, json.py:52-62, 199-209.

    They call json.dumps and json.loads of the Python standard library; what
    these do is modelled after the C accelerator of CPython 3.11
    (Modules/_json.c), which is what runs.  Printing and parsing of floats are
    arguments.  Simplified: no limits on nesting or on the number of digits. *)
From Verif Require Export Json.
Open Scope N_scope.

(** [f_repr m e]: float.__repr__ of m * 2^e.  [f_parse s]: float(s) of a number
    with a fraction or an exponent. *)
Record floats := { f_repr : Z -> Z -> pystr; f_parse : pystr -> num }.

(** ** Encoding, with ensure_ascii=False and allow_nan=False. *)

(** [format(n, '04x')] for n < 32. *)
Definition hex_digit (d : N) : N := if d <? 10 then 48 + d else 87 + d.
Definition hex4_text (c : N) : pystr :=
  [hex_digit (c / 4096 mod 16); hex_digit (c / 256 mod 16); hex_digit (c / 16 mod 16); hex_digit (c mod 16)].

(** One character in a string: escape_unichar and escape_size, _json.c. *)
Definition escape_char (c : N) : pystr :=
  if c =? 92 then [92; 92] else if c =? 34 then [92; 34] else if c =? 8 then [92; 98]
  else if c =? 12 then [92; 102] else if c =? 10 then [92; 110] else if c =? 13 then [92; 114]
  else if c =? 9 then [92; 116] else if c <? 32 then 92 :: 117 :: hex4_text c
  else [c].
Definition string_text (s : pystr) : pystr := 34 :: flat_map escape_char s ++ [34].

(** The item and member separators: a comma and a space. *)
Fixpoint commas (l : list pystr) : pystr :=
  match l with
  | [] => []
  | [t] => t
  | t :: r => t ++ 44 :: 32 :: commas r
  end.

Fixpoint all_texts (l : list (res pystr)) : res (list pystr) :=
  match l with
  | [] => Ok []
  | r :: l' => let* t := r in let* ts := all_texts l' in Ok (t :: ts)
  end.

(** utils.py:36-38.  JSON nodes among the values are replaced by their data
    (_serialize_custom_obj, utils.py:72-76), so they print like plain values.
    NaN and the infinities raise ValueError. *)
Fixpoint json_dumps (F : floats) (v : json) : res pystr :=
  match v with
  | JNull => Ok (lit "null")
  | JBool true => Ok (lit "true")
  | JBool false => Ok (lit "false")
  | JNum (NInt z) => Ok (str_of_Z z)
  | JNum (NDyad m e) => Ok (f_repr F m e)
  | JNum (NInf _) | JNum NNan => Exn EValue
  | JStr s => Ok (string_text s)
  | JArr l => let* ts := all_texts (map (json_dumps F) l) in Ok (91 :: commas ts ++ [93])
  | JObj m =>
      let* ts := all_texts (map (fun kv => let* t := json_dumps F (snd kv) in Ok (string_text (fst kv) ++ 58 :: 32 :: t)) m) in
      Ok (123 :: commas ts ++ [125])
  end.

(** ** Decoding. *)

Definition is_ws (c : N) : bool := (c =? 32) || (c =? 9) || (c =? 10) || (c =? 13).
Fixpoint ws (s : pystr) : pystr :=
  match s with
  | c :: r => if is_ws c then ws r else s
  | [] => []
  end.

Definition hex_val (c : N) : option N :=
  if (48 <=? c) && (c <=? 57) then Some (c - 48)
  else if (97 <=? c) && (c <=? 102) then Some (c - 87)
  else if (65 <=? c) && (c <=? 70) then Some (c - 55)
  else None.
Definition hex4 (a b c d : N) : option N :=
  match hex_val a, hex_val b, hex_val c, hex_val d with
  | Some a, Some b, Some c, Some d => Some (((a * 16 + b) * 16 + c) * 16 + d)
  | _, _, _, _ => None
  end.
Definition high_surrogate (c : N) : bool := (55296 <=? c) && (c <=? 56319).
Definition low_surrogate (c : N) : bool := (56320 <=? c) && (c <=? 57343).
Definition join_surrogates (a b : N) : N := 65536 + (a - 55296) * 1024 + (b - 56320).

Definition short_escape (c : N) : option N :=
  if c =? 34 then Some 34 else if c =? 92 then Some 92 else if c =? 47 then Some 47
  else if c =? 98 then Some 8 else if c =? 102 then Some 12 else if c =? 110 then Some 10
  else if c =? 114 then Some 13 else if c =? 116 then Some 9 else None.

Definition emit (c : N) (x : option (pystr * pystr)) : option (pystr * pystr) :=
  match x with Some (s, r) => Some (c :: s, r) | None => None end.

(** scanstring_unicode, after the opening quote; [None] is JSONDecodeError.
    (The C code joins a surrogate pair only if a character follows it; without
    one the string is unterminated and fails in either case.) *)
Fixpoint scan_string (s : pystr) : option (pystr * pystr) :=
  match s with
  | [] => None
  | c :: r =>
      if c =? 34 then Some ([], r)
      else if c =? 92 then
        match r with
        | [] => None
        | e :: r1 =>
            if e =? 117 then
              match r1 with
              | h1 :: h2 :: h3 :: h4 :: r2 =>
                  match hex4 h1 h2 h3 h4 with
                  | None => None
                  | Some u =>
                      if high_surrogate u then
                        match r2 with
                        | b :: v :: k1 :: k2 :: k3 :: k4 :: r3 =>
                            if (b =? 92) && (v =? 117) then
                              match hex4 k1 k2 k3 k4 with
                              | None => None
                              | Some w => if low_surrogate w then emit (join_surrogates u w) (scan_string r3)
                                          else emit u (scan_string r2)
                              end
                            else emit u (scan_string r2)
                        | _ => emit u (scan_string r2)
                        end
                      else emit u (scan_string r2)
                  end
              | _ => None
              end
            else match short_escape e with Some x => emit x (scan_string r1) | None => None end
        end
      else if c <? 32 then None
      else emit c (scan_string r)
  end.

Definition is_digit (c : N) : bool := (48 <=? c) && (c <=? 57).
Fixpoint digit_span (s : pystr) : pystr * pystr :=
  match s with
  | c :: r => if is_digit c then let (d, r') := digit_span r in (c :: d, r') else ([], s)
  | [] => ([], [])
  end.

Definition int_part (s : pystr) : option (pystr * pystr) :=
  match s with
  | c :: r => if c =? 48 then Some ([48], r)
              else if is_digit c then let (d, r') := digit_span r in Some (c :: d, r')
              else None
  | [] => None
  end.
Definition frac_part (s : pystr) : pystr * pystr :=
  match s with
  | c :: r => if c =? 46 then match digit_span r with
                              | ([], _) => ([], s)
                              | (d, r') => (46 :: d, r')
                              end
              else ([], s)
  | [] => ([], s)
  end.
Definition exp_part (s : pystr) : pystr * pystr :=
  match s with
  | c :: r =>
      if (c =? 101) || (c =? 69) then
        let (sign, r1) := match r with
                          | x :: r' => if (x =? 43) || (x =? 45) then ([x], r') else ([], r)
                          | [] => ([], r)
                          end in
        match digit_span r1 with
        | ([], _) => ([], s)
        | (d, r') => (c :: sign ++ d, r')
        end
      else ([], s)
  | [] => ([], s)
  end.

Definition sign_part (s : pystr) : pystr * pystr :=
  match s with
  | c :: r => if c =? 45 then ([45], r) else ([], s)
  | [] => ([], s)
  end.

(** _match_number_unicode. *)
Definition scan_number (F : floats) (s : pystr) : res (json * pystr) :=
  let (sign, r) := sign_part s in
  match int_part r with
  | None => Exn EValue
  | Some (i, r1) =>
      let (f, r2) := frac_part r1 in
      let (e, r3) := exp_part r2 in
      match f, e with
      | [], [] => match py_int (sign ++ i) with Some z => Ok (JNum (NInt z), r3) | None => Exn EValue end
      | _, _ => Ok (JNum (f_parse F (sign ++ i ++ f ++ e)), r3)
      end
  end.

(** _parse_array_unicode, at the first item. *)
Fixpoint scan_items (value : pystr -> res (json * pystr)) (n : nat) (acc : list json) (s : pystr) : res (json * pystr) :=
  match n with
  | O => Fuel
  | S n' =>
      let* (v, r) := value s in
      match ws r with
      | c :: r' => if c =? 93 then Ok (JArr (acc ++ [v]), r')
                   else if c =? 44 then scan_items value n' (acc ++ [v]) (ws r')
                   else Exn EValue
      | [] => Exn EValue
      end
  end.

(** _parse_object_unicode, at the first name.  A repeated name replaces the
    value (PyDict_SetItem). *)
Fixpoint scan_members (value : pystr -> res (json * pystr)) (n : nat) (acc : list (pystr * json)) (s : pystr) : res (json * pystr) :=
  match n with
  | O => Fuel
  | S n' =>
      match s with
      | q :: r =>
          if q =? 34 then
            match scan_string r with
            | None => Exn EValue
            | Some (k, r1) =>
                match ws r1 with
                | c :: r2 =>
                    if c =? 58 then
                      let* (v, r3) := value (ws r2) in
                      match ws r3 with
                      | c :: r4 => if c =? 125 then Ok (JObj (dset k v acc), r4)
                                   else if c =? 44 then scan_members value n' (dset k v acc) (ws r4)
                                   else Exn EValue
                      | [] => Exn EValue
                      end
                    else Exn EValue
                | [] => Exn EValue
                end
            end
          else Exn EValue
      | [] => Exn EValue
      end
  end.

Fixpoint drop_prefix (p s : pystr) : option pystr :=
  match p, s with
  | [], _ => Some s
  | x :: p', y :: s' => if x =? y then drop_prefix p' s' else None
  | _ :: _, [] => None
  end.

(** [_parse_invalid_const], utils.py:62-66, called for NaN, Infinity and
    -Infinity. *)
Definition parse_invalid_const : res (json * pystr) := Exn EValue.

(** scan_once_unicode.  StopIteration becomes JSONDecodeError, a ValueError. *)
Fixpoint scan_once (F : floats) (n : nat) (s : pystr) : res (json * pystr) :=
  match n with
  | O => Fuel
  | S n' =>
      match s with
      | [] => Exn EValue
      | c :: r =>
          if c =? 34 then match scan_string r with Some (t, r') => Ok (JStr t, r') | None => Exn EValue end
          else if c =? 123 then
            match ws r with
            | d :: r' => if d =? 125 then Ok (JObj [], r') else scan_members (scan_once F n') n' [] (d :: r')
            | [] => Exn EValue
            end
          else if c =? 91 then
            match ws r with
            | d :: r' => if d =? 93 then Ok (JArr [], r') else scan_items (scan_once F n') n' [] (d :: r')
            | [] => Exn EValue
            end
          else
            match drop_prefix (lit "null") s, drop_prefix (lit "true") s, drop_prefix (lit "false") s with
            | Some r', _, _ => Ok (JNull, r')
            | _, Some r', _ => Ok (JBool true, r')
            | _, _, Some r' => Ok (JBool false, r')
            | _, _, _ =>
                match drop_prefix (lit "NaN") s, drop_prefix (lit "Infinity") s, drop_prefix (lit "-Infinity") s with
                | None, None, None => scan_number F s
                | _, _, _ => parse_invalid_const
                end
            end
      end
  end.

(** utils.py:57-59 with json.loads and JSONDecoder.decode of the standard
    library: a byte order mark is refused, and so is anything but blanks after
    the value. *)
Definition json_loads (F : floats) (s : pystr) : res json :=
  if match s with c :: _ => c =? 65279 | [] => false end then Exn EValue
  else
    let* (v, r) := scan_once F (S (length s)) (ws s) in
    match ws r with [] => Ok v | _ :: _ => Exn EValue end.
