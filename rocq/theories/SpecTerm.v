(** When evaluation of a schema can come back to a schema on the same
    instance: which schemas a schema refers to in place.  The keywords that
    descend into the instance (properties, items, contains, ...) are left out. *)
From Coq Require Import Relations.
From Verif Require Export SpecSchema.
Open Scope nat_scope.

Inductive in_place (W : world) (s : sid) : sid -> Prop :=
| ip_ref kws key k t :
    w_schema W s = SObj kws -> In (key, k) kws ->
    kw_class k = Std KRef \/ kw_class k = Std KDynamicRef \/ kw_class k = Std KRecursiveRef ->
    kw_ref k = Some t -> in_place W s t
(* a dynamic reference may lead to any schema that carries its anchor *)
| ip_dynamic kws key k b t :
    w_schema W s = SObj kws -> In (key, k) kws -> kw_class k = Std KDynamicRef -> kw_dynamic k = true ->
    w_anchor W b (kw_fragment k) = Some t -> declares_dynamic W t (kw_fragment k) = true -> in_place W s t
| ip_recursive kws key k t :
    w_schema W s = SObj kws -> In (key, k) kws -> kw_class k = Std KRecursiveRef ->
    declares_recursive W t = true -> in_place W s t
| ip_list kws key k c ts t :
    w_schema W s = SObj kws -> In (key, k) kws -> kw_class k = Std c -> c = KAllOf \/ c = KAnyOf \/ c = KOneOf ->
    kw_json k = KSubs ts -> In t ts -> in_place W s t
| ip_single kws key k c t :
    w_schema W s = SObj kws -> In (key, k) kws -> kw_class k = Std c -> c = KNot \/ c = KIf \/ c = KThen \/ c = KElse ->
    kw_json k = KSub t -> in_place W s t
| ip_dependent kws key k m name t :
    w_schema W s = SObj kws -> In (key, k) kws -> kw_class k = Std KDependentSchemas ->
    kw_json k = KSubm m -> In (name, t) m -> in_place W s t.

(** No schema leads back to itself in place. *)
Definition guarded (W : world) : Prop := forall s, ~ clos_trans sid (in_place W) s s.

(** Only finitely many schemas are objects. *)
Definition finite_world (W : world) : Prop := exists n, forall s, n <= s -> exists b, w_schema W s = SBool b.
