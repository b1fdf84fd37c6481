(** When following references comes to an end. *)
From Verif Require Export SpecBuild.

(** The document read from [b] gives itself no URI other than [b] (an $id that
    is another writing of [b] is none). *)
Definition names_itself (E : env) (b : uri) (doc : json) : Prop :=
  match doc with JObj ms => own_uri E (Some b) None ms = Some b | _ => True end.
(** [L] lists the documents that can be read, and each of them names itself. *)
Definition library (E : env) (L : list uri) : Prop :=
  forall b doc, u_frag b = None -> load_json (e_lib E) (e_sources E) b = Ok doc -> In b L /\ names_itself E b doc.
(** Sources answer. *)
Definition answering (E : env) : Prop := forall b, load_json (e_lib E) (e_sources E) b <> Fuel.
