(** Property C06: URI fragments. *)
From Verif Require Import QuoteFacts.
Open Scope N_scope.

(** ** C06.  For keys without lone surrogates the fragment exists and parses
    back to the same keys. *)
Theorem C06_fragment_roundtrip : forall ks, Forall (Forall scalar) ks ->
  exists f, uri_fragment ks = Ok f /\ parse_uri_fragment f = Ok ks.
Proof. exact fragment_roundtrip. Qed.
Print Assumptions C06_fragment_roundtrip.

(** Every fragment produced is in the RFC 3986 fragment production. *)
Theorem C06_fragment_syntax : forall ks f, Forall valid_str ks ->
  uri_fragment ks = Ok f -> rfc_fragment f.
Proof. exact fragment_syntax. Qed.
Print Assumptions C06_fragment_syntax.

(** The only failure is UnicodeEncodeError. *)
Theorem C06_only_unicode_error : forall ks,
  (exists f, uri_fragment ks = Ok f) \/ uri_fragment ks = Exn EUnicode.
Proof. exact fragment_total. Qed.
Print Assumptions C06_only_unicode_error.

(** However the octets of the UTF-8 text of a pointer are written (plain or
    percent-encoded, with hexadecimal digits of either case), the fragment
    parses as that text does. *)
Theorem C06_any_spelling : forall f bs s, octets f bs -> utf8_text s bs ->
  parse_uri_fragment f = parse_pointer s.
Proof. exact parse_fragment_spelling. Qed.
Print Assumptions C06_any_spelling.

Example C06_spelling_case : (* "/%c3%A9%61" is "/" U+00E9 "a" *)
  let f := lit "/%c3%A9%61" in
  octets f [47; 195; 169; 97] /\ utf8_text [47; 233; 97] [47; 195; 169; 97] /\ parse_uri_fragment f = Ok [[233; 97]].
Proof.
  cbv zeta. split; [|split; [|reflexivity]].
  - change (octets (47 :: 37 :: 99 :: 51 :: 37 :: 65 :: 57 :: 37 :: 54 :: 49 :: nil) (47 :: (16 * 12 + 3) :: (16 * 10 + 9) :: (16 * 6 + 1) :: nil)).
    repeat constructor; try lia; unfold hex_value; lia.
  - change (utf8_text (47 :: (64 * 3 + 41) :: 97 :: nil) ((47 :: nil) ++ (192 + 3 :: 128 + 41 :: nil) ++ (97 :: nil) ++ nil)).
    repeat constructor; lia.
Qed.

Example C06_case : (* keys "%e9/" followed by U+00E9, and U+1F600 *)
  let ks := [lit "%e9/" ++ [233]; [128512]] in
  Forall (Forall scalar) ks /\ Forall valid_str ks
  /\ uri_fragment ks = Ok (lit "/%25e9~1%C3%A9/%F0%9F%98%80")
  /\ parse_uri_fragment (lit "/%25e9~1%C3%A9/%F0%9F%98%80") = Ok ks.
Proof.
  intro ks. subst ks. cbn -[parse_uri_fragment uri_fragment].
  repeat split; try reflexivity.
  - repeat (apply Forall_cons || apply Forall_nil); unfold scalar; lia.
  - unfold valid_str. repeat (apply Forall_cons || apply Forall_nil); lia.
Qed.

Example C06_surrogate : uri_fragment [[55296]] = Exn EUnicode.
Proof. reflexivity. Qed.
