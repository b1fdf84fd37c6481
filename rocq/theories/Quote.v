(** Percent-encoding: the parts of Python's urllib.parse (quote, unquote with
    the default utf-8 codec) that jschon/jsonpointer.py:223-255 calls. *)
From Verif Require Export Pointer.
Open Scope N_scope.

(** UTF-8 encoding of one code point, [str.encode('utf-8')], strict: [None]
    (UnicodeEncodeError) for surrogates. *)
Definition utf8_encode1 (c : N) : option (list N) :=
  if c <? 128 then Some [c]
  else if c <? 2048 then Some [192 + c / 64; 128 + c mod 64]
  else if (55296 <=? c) && (c <=? 57343) then None
  else if c <? 65536 then Some [224 + c / 4096; 128 + (c / 64) mod 64; 128 + c mod 64]
  else Some [240 + c / 262144; 128 + (c / 4096) mod 64; 128 + (c / 64) mod 64; 128 + c mod 64].

Fixpoint utf8_encode (s : pystr) : option (list N) :=
  match s with
  | [] => Some []
  | c :: r => match utf8_encode1 c, utf8_encode r with
              | Some a, Some b => Some (a ++ b)
              | _, _ => None
              end
  end.

(** UTF-8 decoding with errors='replace': an ill-formed sequence becomes one
    U+FFFD per maximal valid prefix, as in CPython. *)
Definition cont (b : N) : bool := (128 <=? b) && (b <=? 191).
Definition between (lo hi b : N) : bool := (lo <=? b) && (b <=? hi).
Definition repl : N := 65533.

(** Allowed range of the second byte for a three- or four-byte lead. *)
Definition second_ok (b0 b1 : N) : bool :=
  if b0 =? 224 then between 160 191 b1
  else if b0 =? 237 then between 128 159 b1
  else if b0 =? 240 then between 144 191 b1
  else if b0 =? 244 then between 128 143 b1
  else cont b1.

Fixpoint utf8_decode (bs : list N) : pystr :=
  match bs with
  | [] => []
  | b0 :: r0 =>
      if b0 <? 128 then b0 :: utf8_decode r0
      else if between 194 223 b0 then
        match r0 with
        | b1 :: r1 => if cont b1 then ((b0 - 192) * 64 + (b1 - 128)) :: utf8_decode r1
                      else repl :: utf8_decode r0
        | [] => [repl]
        end
      else if between 224 239 b0 then
        match r0 with
        | b1 :: r1 =>
            if second_ok b0 b1 then
              match r1 with
              | b2 :: r2 => if cont b2
                            then ((b0 - 224) * 4096 + (b1 - 128) * 64 + (b2 - 128)) :: utf8_decode r2
                            else repl :: utf8_decode r1
              | [] => [repl]
              end
            else repl :: utf8_decode r0
        | [] => [repl]
        end
      else if between 240 244 b0 then
        match r0 with
        | b1 :: r1 =>
            if second_ok b0 b1 then
              match r1 with
              | b2 :: r2 =>
                  if cont b2 then
                    match r2 with
                    | b3 :: r3 =>
                        if cont b3
                        then ((b0 - 240) * 262144 + (b1 - 128) * 4096 + (b2 - 128) * 64 + (b3 - 128))
                               :: utf8_decode r3
                        else repl :: utf8_decode r2
                    | [] => [repl]
                    end
                  else repl :: utf8_decode r1
              | [] => [repl]
              end
            else repl :: utf8_decode r0
        | [] => [repl]
        end
      else repl :: utf8_decode r0
  end.

(** urllib.parse._ALWAYS_SAFE, plus the [safe] argument of
    jsonpointer.py:255, the ASCII characters [/!$&'()] [*] [+,;=]. *)
Definition always_safe (b : N) : bool :=
  between 65 90 b || between 97 122 b || between 48 57 b
  || (b =? 95) || (b =? 46) || (b =? 45) || (b =? 126).
Definition extra_safe (b : N) : bool :=
  (b =? 47) || (b =? 33) || (b =? 36) || (b =? 38) || (b =? 39) || (b =? 40) || (b =? 41)
  || (b =? 42) || (b =? 43) || (b =? 44) || (b =? 59) || (b =? 61).

Definition hex_upper (d : N) : N := if d <? 10 then 48 + d else 55 + d.

(** urllib.parse._Quoter: '%{:02X}' for unsafe bytes. *)
Definition quote_byte (b : N) : pystr :=
  if always_safe b || extra_safe b then [b]
  else [37; hex_upper (b / 16); hex_upper (b mod 16)].

(** urllib.parse.quote(s, safe=...). *)
Definition quote (s : pystr) : res pystr :=
  match utf8_encode s with
  | Some bs => Ok (flat_map quote_byte bs)
  | None => Exn EUnicode
  end.

Definition hex_val (c : N) : option N :=
  if between 48 57 c then Some (c - 48)
  else if between 65 70 c then Some (c - 55)
  else if between 97 102 c then Some (c - 87)
  else None.

(** urllib.parse.unquote_to_bytes on an ASCII string. *)
Fixpoint unquote_bytes (s : pystr) : list N :=
  match s with
  | [] => []
  | c :: r =>
      if c =? 37 then
        match r with
        | a :: (b :: r2) as r1 =>
            match hex_val a, hex_val b with
            | Some x, Some y => (16 * x + y) :: unquote_bytes r2
            | _, _ => c :: unquote_bytes r
            end
        | _ => c :: unquote_bytes r
        end
      else c :: unquote_bytes r
  end.

(** urllib.parse.unquote: strings without '%' are returned as they are;
    otherwise maximal runs of ASCII characters are unquoted and decoded,
    non-ASCII runs are kept.  [run] is the current ASCII run, reversed. *)
Fixpoint unquote_runs (run s : pystr) : pystr :=
  match s with
  | [] => utf8_decode (unquote_bytes (rev run))
  | c :: r => if c <? 128 then unquote_runs (c :: run) r
              else utf8_decode (unquote_bytes (rev run)) ++ c :: unquote_runs [] r
  end.
Definition unquote (s : pystr) : pystr :=
  if existsb (N.eqb 37) s then unquote_runs [] s else s.

(** JSONPointer.parse_uri_fragment, jsonpointer.py:223-233. *)
Definition parse_uri_fragment (value : pystr) : res pointer :=
  parse_pointer (unquote value).

(** JSONPointer.uri_fragment, jsonpointer.py:235-255. *)
Definition uri_fragment (p : pointer) : res pystr := quote (pointer_str p).
