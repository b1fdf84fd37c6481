(** RFC 3986 fragment syntax, and Unicode scalar values.  Independent of the
    model. *)
From Verif Require Import Base.
Open Scope N_scope.

(** A Unicode scalar value: a code point that is not a surrogate. *)
Definition scalar (c : N) : Prop := c <= 55295 \/ (57344 <= c /\ c <= 1114111).

Definition alpha (c : N) : Prop := (65 <= c /\ c <= 90) \/ (97 <= c /\ c <= 122).
Definition dec_digit (c : N) : Prop := 48 <= c /\ c <= 57.
Definition hexdig (c : N) : Prop := dec_digit c \/ (65 <= c /\ c <= 70) \/ (97 <= c /\ c <= 102).
(* unreserved = ALPHA / DIGIT / - / . / _ / ~ *)
Definition unreserved (c : N) : Prop := alpha c \/ dec_digit c \/ In c [45; 46; 95; 126].
(* sub-delims: ! $ & ' ( ) star + , ; = *)
Definition sub_delim (c : N) : Prop := In c [33; 36; 38; 39; 40; 41; 42; 43; 44; 59; 61].

(** fragment = zero or more of ( pchar / slash / question mark ),
    pchar = unreserved / pct-encoded / sub-delims / colon / at-sign. *)
Inductive rfc_fragment : pystr -> Prop :=
| rf_nil : rfc_fragment []
| rf_char c s : unreserved c \/ sub_delim c \/ In c [58; 64; 47; 63] ->
    rfc_fragment s -> rfc_fragment (c :: s)
| rf_pct a b s : hexdig a -> hexdig b -> rfc_fragment s -> rfc_fragment (37 :: a :: b :: s).

(** Percent-decoding (RFC 3986, 2.1): the octets that a fragment written in
    ASCII stands for.  Hexadecimal digits of either case are allowed. *)
Definition hex_value (c d : N) : Prop :=
  (48 <= c /\ c <= 57 /\ d = c - 48) \/ (65 <= c /\ c <= 70 /\ d = c - 55) \/ (97 <= c /\ c <= 102 /\ d = c - 87).
Inductive octets : pystr -> list N -> Prop :=
| oct_nil : octets [] []
| oct_char c s bs : c < 128 -> c <> 37 -> octets s bs -> octets (c :: s) (c :: bs)
| oct_pct a b x y s bs : hex_value a x -> hex_value b y -> octets s bs ->
    octets (37 :: a :: b :: s) (16 * x + y :: bs).

(** UTF-8 (RFC 3629, 3). *)
Inductive utf8_char : N -> list N -> Prop :=
| u1 c : c < 128 -> utf8_char c [c]
| u2 a b : b < 64 -> 128 <= 64 * a + b -> 64 * a + b < 2048 -> utf8_char (64 * a + b) [192 + a; 128 + b]
| u3 a b c : b < 64 -> c < 64 -> 2048 <= 4096 * a + 64 * b + c -> 4096 * a + 64 * b + c < 65536 ->
    scalar (4096 * a + 64 * b + c) -> utf8_char (4096 * a + 64 * b + c) [224 + a; 128 + b; 128 + c]
| u4 a b c d : b < 64 -> c < 64 -> d < 64 -> 65536 <= 262144 * a + 4096 * b + 64 * c + d ->
    262144 * a + 4096 * b + 64 * c + d <= 1114111 ->
    utf8_char (262144 * a + 4096 * b + 64 * c + d) [240 + a; 128 + b; 128 + c; 128 + d].
Inductive utf8_text : pystr -> list N -> Prop :=
| ut_nil : utf8_text [] []
| ut_cons c b s bs : utf8_char c b -> utf8_text s bs -> utf8_text (c :: s) (b ++ bs).
