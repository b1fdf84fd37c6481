(** Which validator is in force after a history. *)
From Verif Require Export Formats SpecPointer.

(** What RFC 6901 makes of a value: text that is not a pointer is refused. *)
Definition pointer_if_text (v : json) : Prop := forall s, v = JStr s -> rfc_pointer s.

(** The event imports the module with the validators of the library, unless
    that has been done before. *)
Definition imports (e : event) : Prop := match e with Registered _ _ _ => False | _ => True end.
(** Event [e], after the events [before], puts validator and types in place
    for [name]. *)
Inductive puts_in_place (before : list event) : event -> pystr -> validator * list jtype -> Prop :=
| put_registered name types f : puts_in_place before (Registered name types f) name (f, types)
| put_imported e : imports e -> (forall e', In e' before -> ~ imports e') ->
    puts_in_place before e (lit "json-pointer") (validate_json_pointer, [TString]).
(** The last such event decides. *)
Definition in_force (h : list event) (name : pystr) (x : validator * list jtype) : Prop :=
  exists h1 e h2, h = h1 ++ e :: h2 /\ puts_in_place h1 e name x /\
    forall h3 e' h4 y, h2 = h3 ++ e' :: h4 -> ~ puts_in_place (h1 ++ e :: h3) e' name y.
Definition enabled_in (h : list event) (c : nat) (name : pystr) : Prop :=
  exists names, In (Enabled c names) h /\ In name names.
