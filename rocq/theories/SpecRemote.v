(** URLs, after RFC 3986: those that a RemoteSource is given as base, and the
    relative paths that lead to something below it. *)
From Coq Require Import String List NArith.
From Verif Require Import Base Rfc3986.
Import ListNotations.
Open Scope N_scope.
Open Scope list_scope.

(** None of the characters [stop] is in the text. *)
Definition free (stop : list N) (s : pystr) : Prop := forall c, In c s -> ~ In c stop.
(** One segment of a path: no slash, question mark or number sign, and neither
    "." nor "..". *)
Definition segment (s : pystr) : Prop := free [47; 63; 35] s /\ s <> lit "." /\ s <> lit "..".
(** Each segment with a slash after it. *)
Definition folders (l : list pystr) : pystr := flat_map (fun s => s ++ [47]) l.
(** The URL of a folder: "https://example.com/a/b/". *)
Definition folder_url (scheme authority : pystr) (l : list pystr) : pystr :=
  scheme ++ [58; 47; 47] ++ authority ++ [47] ++ folders l.
Definition right_folder (scheme authority : pystr) (l : list pystr) : Prop :=
  is_scheme scheme = true /\ free [47; 63; 35] authority /\ Forall segment l.
(** A path of folders and a name, and a query: "c/d.json?x=1".  The name may be
    empty; the text must not begin with a slash, nor may the first segment have
    a colon in it. *)
Definition rel_text (l : list pystr) (name : pystr) (query : option pystr) : pystr :=
  folders l ++ name ++ match query with Some q => 63 :: q | None => [] end.
Definition right_rel (l : list pystr) (name : pystr) (query : option pystr) : Prop :=
  Forall segment l /\ segment name /\
  match l with s :: _ => s <> [] /\ free [58] s | [] => free [58] name end /\
  match query with Some q => free [35] q | None => True end.
