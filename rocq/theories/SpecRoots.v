(** The root of a document and of a resource, in terms of which schema lies
    within which. *)
From Verif Require Export SpecBuild.

(** The schema has a keyword $id. *)
Definition identified (objs : list sobj) (s : sid) : Prop :=
  exists kws k, keywords_at objs s kws /\ In (lit "$id", k) kws.
(** In the document with root [s]: [r] is the innermost schema around [t] that
    has an $id, or [s] when there is none. *)
Definition resource_of (objs : list sobj) (s t r : sid) : Prop :=
  within objs s r /\ within objs r t /\
  (identified objs r \/ r = s) /\
  forall x, within objs s x -> within objs x t -> identified objs x -> within objs x r.
