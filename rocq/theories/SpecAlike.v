(** Worlds whose schemas differ only in the order of their keywords, or in
    keywords that are there for information only. *)
From Coq Require Import Permutation.
From Verif Require Export SpecSchema Order.
Open Scope nat_scope.

(** Keywords that assert nothing: annotations, $comment, unknown keywords, and
    format when no validator is enabled. *)
Definition inert_class (c : stdclass) : bool :=
  match c with
  | KComment_ | KTitle | KDescription | KDefault | KDeprecated | KReadOnly | KWriteOnly | KExamples
  | KContentMediaType | KContentEncoding | KContentSchema => true
  | _ => false
  end.
Definition inert (k : keyword) : bool :=
  match kw_class k with
  | Unknown _ => true
  | Std KFormat => match kw_format k with None => true | Some _ => false end
  | Std c => inert_class c
  end.

(** Everything but the keywords of the schemas agrees. *)
Definition same_surroundings (W W' : world) : Prop :=
  (forall s, w_base W s = w_base W' s) /\ (forall b f, w_anchor W b f = w_anchor W' b f) /\
  (forall r x, w_search W r x = w_search W' r x) /\ (forall m e, w_repr W m e = w_repr W' m e) /\
  (forall a x, w_format W a x = w_format W' a x).

(** The same keywords, apart from inert ones and from the order. *)
Definition alike_schema (a b : snode) : Prop :=
  match a, b with
  | SBool x, SBool y => x = y
  | SObj k, SObj k' => forall key kw, inert kw = false -> In (key, kw) k <-> In (key, kw) k'
  | _, _ => False
  end.
Definition alike (W W' : world) : Prop :=
  same_surroundings W W' /\ forall s, alike_schema (w_schema W s) (w_schema W' s).

(** ** Schemas as written. *)

(** Keywords as written in a schema of dialect [d], in any order. *)
Definition good_written (d : list stdclass) (kws : list (pystr * keyword)) : Prop :=
  NoDup (keys kws) /\
  forall key k, In (key, k) kws ->
    value_ok k = true /\ kw_class k = match find_class d key with Some c => Std c | None => Unknown key end.
Definition all_written (d : list stdclass) (R : sid -> snode) : Prop := forall s kws, R s = SObj kws -> good_written d kws.

(** [W] is the world that JSONSchema builds when the schemas are written as in [R]. *)
Definition built (R : sid -> snode) (W : world) : Prop :=
  forall s, match R s, w_schema W s with
            | SBool b, SBool b' => b = b'
            | SObj written, SObj kws => kept_order written = Ok kws
            | _, _ => False
            end.

Definition reordered (a b : snode) : Prop :=
  match a, b with
  | SBool x, SBool y => x = y
  | SObj k, SObj k' => Permutation k k'
  | _, _ => False
  end.
