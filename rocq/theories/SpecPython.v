(** Python expressions for plain values, laid out as repr() lays them out: the
    literals of the language reference (2.4), lists and dicts with one space
    after commas and colons.  Independent of [Repr.v]. *)
From Verif Require Export SpecText.
Open Scope N_scope.

(** Escape sequences of one character in string literals. *)
Inductive py_escapes : N -> N -> Prop :=
| pe_backslash : py_escapes 92 92 | pe_single : py_escapes 39 39 | pe_double : py_escapes 34 34
| pe_n : py_escapes 110 10 | pe_r : py_escapes 114 13 | pe_t : py_escapes 116 9.

(** [py_spells q t s]: the text [t] between two quotes [q] stands for the
    string [s]. *)
Inductive py_spells (q : N) : pystr -> pystr -> Prop :=
| py_end : py_spells q [] []
| py_char c t s : 32 <= c -> c <> q -> c <> 92 -> ~ (55296 <= c <= 57343) -> py_spells q t s -> py_spells q (c :: t) (c :: s)
| py_escape e c t s : py_escapes e c -> py_spells q t s -> py_spells q (92 :: e :: t) (c :: s)
| py_x a b va vb t s : hexadecimal a va -> hexadecimal b vb -> py_spells q t s -> py_spells q (92 :: 120 :: a :: b :: t) (16 * va + vb :: s)
| py_u h u t s : unit_of h u -> py_spells q t s -> py_spells q (92 :: 117 :: h ++ t) (u :: s)
| py_U h u k w t s : unit_of h u -> unit_of k w -> 65536 * u + w <= 1114111 -> py_spells q t s ->
    py_spells q (92 :: 85 :: h ++ k ++ t) (65536 * u + w :: s).

Definition py_quote (q : N) : Prop := q = 39 \/ q = 34.

(** [python F t v]: the expression [t] evaluates to [v].  Of two entries of a
    dict with one key the last value counts. *)
Inductive python (F : floats) : pystr -> json -> Prop :=
| py_none : python F (lit "None") JNull
| py_true : python F (lit "True") (JBool true)
| py_false : python F (lit "False") (JBool false)
| py_int i : integer_part i -> python F i (JNum (NInt (decimal_value i)))
| py_neg i : integer_part i -> python F (45 :: i) (JNum (NInt (- decimal_value i)))
| py_float t : float_text t -> python F t (JNum (f_parse F t))
| py_str q t s : py_quote q -> py_spells q t s -> python F (q :: t ++ [q]) (JStr s)
| py_nil : python F [91; 93] (JArr [])
| py_list t l : py_items F t l -> python F (91 :: t ++ [93]) (JArr l)
| py_empty : python F [123; 125] (JObj [])
| py_dict t m : py_entries F t m -> python F (123 :: t ++ [125]) (JObj (collect m))
with py_items (F : floats) : pystr -> list json -> Prop :=
| pi_last t v : python F t v -> py_items F t [v]
| pi_more t v r l : python F t v -> py_items F r l -> py_items F (t ++ 44 :: 32 :: r) (v :: l)
with py_entries (F : floats) : pystr -> list (pystr * json) -> Prop :=
| pn_last q k s t v : py_quote q -> py_spells q k s -> python F t v -> py_entries F (q :: k ++ q :: 58 :: 32 :: t) [(s, v)]
| pn_more q k s t v r m : py_quote q -> py_spells q k s -> python F t v -> py_entries F r m ->
    py_entries F (q :: k ++ q :: 58 :: 32 :: t ++ 44 :: 32 :: r) ((s, v) :: m).

(** Tables of characters that may be printed: no control characters, no
    surrogates. *)
Definition sensible (pr : N -> bool) : Prop := forall c, pr c = true -> 32 <= c /\ ~ (55296 <= c <= 57343).
