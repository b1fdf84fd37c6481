(** Arrays and strings as sequences, for C106. *)
From Verif Require Export SpecTreeAny SpecSeq JChars.
Open Scope nat_scope.

(** An array consists of its items, a string of its characters, which are
    strings of length one. *)
Inductive consists_of : json -> list json -> Prop :=
| co_array l : consists_of (JArr l) l
| co_string s : consists_of (JStr s) (map (fun c => JStr [c]) s).
(** What was got is this value. *)
Definition got_is (h : heap) (g : got) (x : json) : Prop :=
  match g with GNode c => denotes h c x | GText s => x = JStr s end.
