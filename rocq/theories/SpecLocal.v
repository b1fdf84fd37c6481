(** Which schemas the evaluation of a schema can come to. *)
From Verif Require Export SpecBuild.
Open Scope nat_scope.

(** Schema [s] has a keyword with [t] as subschema or as referenced schema. *)
Definition leads (W : world) (s t : sid) : Prop :=
  exists kws key k, w_schema W s = SObj kws /\ In (key, k) kws /\ (subschema_of k t \/ kw_ref k = Some t).
(** The set [R] is left neither through keywords nor by looking up anchors. *)
Definition closed (W : world) (R : sid -> Prop) : Prop :=
  (forall s t, R s -> leads W s t -> R t) /\
  (forall s b f t, R s -> w_base W s = Some b -> w_anchor W b f = Some t -> R t).
(** The worlds have the same schemas in [R]. *)
Definition same_on (R : sid -> Prop) (W W' : world) : Prop :=
  (forall s, R s -> w_schema W s = w_schema W' s /\ w_base W s = w_base W' s) /\
  (forall s b f, R s -> w_base W s = Some b -> w_anchor W b f = w_anchor W' b f) /\
  (forall r x, w_search W r x = w_search W' r x) /\ (forall m e, w_repr W m e = w_repr W' m e) /\
  (forall a x, w_format W a x = w_format W' a x).
