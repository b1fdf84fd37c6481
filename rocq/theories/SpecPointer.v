(** Independent specification of JSON Pointer (RFC 6901), against which the
    theorems of PropsPointer.v are stated.  Nothing here refers to the model. *)
From Verif Require Import Base Json.
Open Scope N_scope.

(** A Python string: code points up to U+10FFFF. *)
Definition valid_str (s : pystr) : Prop := Forall (fun c => c <= 1114111) s.

(** RFC 6901 section 3:
<<
   json-pointer    = *( "/" reference-token )
   reference-token = *( unescaped / escaped )
   unescaped       = %x00-2E / %x30-7D / %x7F-10FFFF
   escaped         = "~" ( "0" / "1" )
>> *)
Definition rfc_unescaped (c : N) : Prop :=
  c <= 46 \/ (48 <= c /\ c <= 125) \/ (127 <= c /\ c <= 1114111).

Inductive rfc_token : pystr -> Prop :=
| rt_nil : rfc_token []
| rt_unescaped c s : rfc_unescaped c -> rfc_token s -> rfc_token (c :: s)
| rt_escaped0 s : rfc_token s -> rfc_token (126 :: 48 :: s)
| rt_escaped1 s : rfc_token s -> rfc_token (126 :: 49 :: s).

Inductive rfc_pointer : pystr -> Prop :=
| rp_nil : rfc_pointer []
| rp_cons t s : rfc_token t -> rfc_pointer s -> rfc_pointer (47 :: t ++ s).

(** RFC 6901 section 4, decoding of one token: "~1" stands for "/" and "~0"
    for "~". *)
Inductive rfc_decodes : pystr -> pystr -> Prop :=
| rd_nil : rfc_decodes [] []
| rd_unescaped c s k : rfc_unescaped c -> rfc_decodes s k -> rfc_decodes (c :: s) (c :: k)
| rd_escaped0 s k : rfc_decodes s k -> rfc_decodes (126 :: 48 :: s) (126 :: k)
| rd_escaped1 s k : rfc_decodes s k -> rfc_decodes (126 :: 49 :: s) (47 :: k).

(** The keys denoted by a pointer text. *)
Inductive rfc_denotes : pystr -> list pystr -> Prop :=
| rdp_nil : rfc_denotes [] []
| rdp_cons t k s ks : rfc_decodes t k -> rfc_denotes s ks -> rfc_denotes (47 :: t ++ s) (k :: ks).

(** RFC 6901 section 4, array indices: "0", or digits without leading "0". *)
Definition digit (c : N) : Prop := 48 <= c /\ c <= 57.
Definition rfc_index_text (s : pystr) : Prop :=
  s = [48] \/ exists c r, s = c :: r /\ 49 <= c /\ c <= 57 /\ Forall digit r.

(** Value of a string of ASCII digits, most significant first. *)
Definition digits_value (s : pystr) : N :=
  fold_left (fun acc c => 10 * acc + (c - 48)) s 0.

(** One step down: object member by key, array item by index text. *)
Inductive child : json -> pystr -> json -> Prop :=
| child_member m k v : In (k, v) m -> child (JObj m) k v
| child_item l k v : rfc_index_text k ->
    nth_error l (N.to_nat (digits_value k)) = Some v -> child (JArr l) k v.

(** [refers d ks v]: following the keys [ks] from [d] one reaches [v]. *)
Inductive refers : json -> list pystr -> json -> Prop :=
| refers_here d : refers d [] d
| refers_down d k d' ks v : child d k d' -> refers d' ks v -> refers d (k :: ks) v.

(** [p] is an initial segment of [q]. *)
Definition is_prefix (p q : list pystr) : Prop := exists r, q = p ++ r.
Definition is_proper_prefix (p q : list pystr) : Prop := exists k r, q = p ++ k :: r.
