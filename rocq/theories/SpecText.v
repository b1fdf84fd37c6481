(** The texts of RFC 8259 and the values they stand for; independent of the
    scanner. *)
From Coq Require Import QArith.
From Verif Require Export Text SpecEq.
Open Scope N_scope.

(** Insignificant whitespace. *)
Definition blank (s : pystr) : Prop := Forall (fun c => c = 32 \/ c = 9 \/ c = 10 \/ c = 13) s.

(** Hexadecimal digits and units of four of them. *)
Inductive hexadecimal : N -> N -> Prop :=
| hex_09 d : d <= 9 -> hexadecimal (48 + d) d
| hex_af d : 10 <= d <= 15 -> hexadecimal (97 + (d - 10)) d
| hex_AF d : 10 <= d <= 15 -> hexadecimal (65 + (d - 10)) d.
Inductive unit_of : pystr -> N -> Prop :=
| unit_four a b c d va vb vc vd : hexadecimal a va -> hexadecimal b vb -> hexadecimal c vc -> hexadecimal d vd ->
    unit_of [a; b; c; d] (4096 * va + 256 * vb + 16 * vc + vd).

(** The two-character escapes. *)
Inductive escapes : N -> N -> Prop :=
| esc_quote : escapes 34 34 | esc_backslash : escapes 92 92 | esc_slash : escapes 47 47
| esc_b : escapes 98 8 | esc_f : escapes 102 12 | esc_n : escapes 110 10 | esc_r : escapes 114 13 | esc_t : escapes 116 9.

Definition leading (c : N) : Prop := 55296 <= c <= 56319.
Definition trailing (c : N) : Prop := 56320 <= c <= 57343.

(** [t] begins with the escape of a trailing surrogate. *)
Definition goes_on (t : pystr) : Prop := exists h w r, unit_of h w /\ trailing w /\ t = 92 :: 117 :: h ++ r.

(** [spells t s]: the text [t] between two quotes stands for the string [s].
    Two escaped surrogates in a row make one character, a lone one stands for
    itself. *)
Inductive spells : pystr -> pystr -> Prop :=
| sp_end : spells [] []
| sp_char c t s : 32 <= c -> c <> 34 -> c <> 92 -> spells t s -> spells (c :: t) (c :: s)
| sp_escape e c t s : escapes e c -> spells t s -> spells (92 :: e :: t) (c :: s)
| sp_unit h u t s : unit_of h u -> ~ (leading u /\ goes_on t) -> spells t s -> spells (92 :: 117 :: h ++ t) (u :: s)
| sp_pair h u k w t s : unit_of h u -> leading u -> unit_of k w -> trailing w -> spells t s ->
    spells (92 :: 117 :: h ++ 92 :: 117 :: k ++ t) (65536 + 1024 * (u - 55296) + (w - 56320) :: s).

(** Numbers. *)
Definition decimal (s : pystr) : Prop := s <> [] /\ Forall (fun c => 48 <= c <= 57) s.
Definition decimal_value (s : pystr) : Z := fold_left (fun a c => (10 * a + (Z.of_N c - 48))%Z) s 0%Z.
Definition integer_part (s : pystr) : Prop := s = [48] \/ (decimal s /\ exists c r, s = c :: r /\ c <> 48).
Inductive sign : pystr -> Prop := sign_none : sign [] | sign_minus : sign [45].
Inductive fraction : pystr -> Prop := frac_none : fraction [] | frac_some d : decimal d -> fraction (46 :: d).
Inductive exponent : pystr -> Prop :=
| exp_none : exponent []
| exp_some e g d : e = 101 \/ e = 69 -> g = [] \/ g = [43] \/ g = [45] -> decimal d -> exponent (e :: g ++ d).
(** The text of a number that is not an integer. *)
Definition float_text (s : pystr) : Prop :=
  exists g i f e, sign g /\ integer_part i /\ fraction f /\ exponent e /\ (f <> [] \/ e <> []) /\ s = g ++ i ++ f ++ e.

(** The members of an object in the order they are written: the last value of
    a name counts, at the place of the first. *)
Definition collect (m : list (pystr * json)) : list (pystr * json) := fold_left (fun d kv => dset (fst kv) (snd kv) d) m [].

(** [denotes F t v]: the text [t] stands for the value [v]. *)
Inductive denotes (F : floats) : pystr -> json -> Prop :=
| d_null : denotes F (lit "null") JNull
| d_true : denotes F (lit "true") (JBool true)
| d_false : denotes F (lit "false") (JBool false)
| d_int i : integer_part i -> denotes F i (JNum (NInt (decimal_value i)))
| d_neg i : integer_part i -> denotes F (45 :: i) (JNum (NInt (- decimal_value i)))
| d_float t : float_text t -> denotes F t (JNum (f_parse F t))
| d_string t s : spells t s -> denotes F (34 :: t ++ [34]) (JStr s)
| d_empty w : blank w -> denotes F (91 :: w ++ [93]) (JArr [])
| d_array t l : items F t l -> denotes F (91 :: t ++ [93]) (JArr l)
| d_none w : blank w -> denotes F (123 :: w ++ [125]) (JObj [])
| d_object t m : members F t m -> denotes F (123 :: t ++ [125]) (JObj (collect m))
with items (F : floats) : pystr -> list json -> Prop :=
| i_last w t w' v : blank w -> denotes F t v -> blank w' -> items F (w ++ t ++ w') [v]
| i_more w t w' v r l : blank w -> denotes F t v -> blank w' -> items F r l -> items F (w ++ t ++ w' ++ 44 :: r) (v :: l)
with members (F : floats) : pystr -> list (pystr * json) -> Prop :=
| m_last w q k w1 w2 t w3 v : blank w -> spells q k -> blank w1 -> blank w2 -> denotes F t v -> blank w3 ->
    members F (w ++ 34 :: q ++ 34 :: w1 ++ 58 :: w2 ++ t ++ w3) [(k, v)]
| m_more w q k w1 w2 t w3 v r m : blank w -> spells q k -> blank w1 -> blank w2 -> denotes F t v -> blank w3 -> members F r m ->
    members F (w ++ 34 :: q ++ 34 :: w1 ++ 58 :: w2 ++ t ++ w3 ++ 44 :: r) ((k, v) :: m).

(** A JSON document. *)
Definition document (F : floats) (s : pystr) (v : json) : Prop :=
  exists w t w', blank w /\ denotes F t v /\ blank w' /\ s = w ++ t ++ w'.

(** The floats in a value, and the values in which there is no NaN or infinity. *)
Inductive float_in : json -> Z -> Z -> Prop :=
| fl_here m e : float_in (JNum (NDyad m e)) m e
| fl_item l x m e : In x l -> float_in x m e -> float_in (JArr l) m e
| fl_member d k x m e : In (k, x) d -> float_in x m e -> float_in (JObj d) m e.
Inductive non_finite : json -> Prop :=
| nf_nan : non_finite (JNum NNan)
| nf_inf b : non_finite (JNum (NInf b))
| nf_item l x : In x l -> non_finite x -> non_finite (JArr l)
| nf_member d k x : In (k, x) d -> non_finite x -> non_finite (JObj d).

(** repr and float() agree on the floats of [v]: what is printed is the text of
    a float, and it is read as the same number. *)
Definition agree (F : floats) (v : json) : Prop :=
  forall m e, float_in v m e -> float_text (f_repr F m e) /\ exists m' e', f_parse F (f_repr F m e) = NDyad m' e' /\ same_number (NDyad m' e') (NDyad m e).

(** The same value, its floats perhaps in another representation of the same
    number. *)
Inductive again : json -> json -> Prop :=
| a_null : again JNull JNull
| a_bool b : again (JBool b) (JBool b)
| a_int z : again (JNum (NInt z)) (JNum (NInt z))
| a_float m e m' e' : same_number (NDyad m' e') (NDyad m e) -> again (JNum (NDyad m e)) (JNum (NDyad m' e'))
| a_str s : again (JStr s) (JStr s)
| a_arr l l' : Forall2 again l l' -> again (JArr l) (JArr l')
| a_obj d d' : Forall2 (fun a b => fst a = fst b /\ again (snd a) (snd b)) d d' -> again (JObj d) (JObj d').
