(** Which members and items of an instance a schema evaluates, for the
    unevaluated keywords: JSON Schema Core 2020-12, 11.2-11.3, and 2019-09,
    9.3.1.3 and 9.3.2.4 ([legacy]), as a relation.  Only schemas that accept
    the instance count. *)
From Verif Require Export SpecSchema.
Open Scope nat_scope.

Inductive spot : Set :=
| Member (name : pystr)
| Item (n : nat).

(** The names under a keyword whose value is an object of subschemas. *)
Definition names_of (key : pystr) (kws : list (pystr * keyword)) (l : list pystr) : Prop :=
  match dget key kws with
  | Some k => match kw_json k with KSubm m => l = map fst m | _ => l = [] end
  | None => l = []
  end.
(** The number of subschemas under a keyword whose value is an array of them. *)
Definition tuple_size (key : pystr) (kws : list (pystr * keyword)) (n : nat) : Prop :=
  match dget key kws with
  | Some k => match kw_json k with KSubs l => n = length l | _ => n = 0 end
  | None => n = 0
  end.
Definition member (x : json) (name : pystr) : Prop := exists y, In (name, y) (members x).

Section Sees.
Variable W : world.
Variable legacy : bool.

(** [sees scope s x p]: schema [s], met within [scope], accepts [x] and
    evaluates [p]; [kw_sees scope kws k x p]: keyword [k], of a schema object
    with keywords [kws] at the head of [scope], evaluates [p]. *)
Inductive sees : list sid -> sid -> json -> spot -> Prop :=
| sees_by scope s kws key k x p :
    w_schema W s = SObj kws -> accepts W scope s x true ->
    In (key, k) kws -> concerns x k = true -> kw_sees (s :: scope) kws k x p -> sees scope s x p
with kw_sees : list sid -> list (pystr * keyword) -> keyword -> json -> spot -> Prop :=
(* references *)
| see_ref scope kws k t x p :
    kw_class k = Std KRef -> kw_ref k = Some t -> sees scope t x p -> kw_sees scope kws k x p
| see_dynamicRef scope kws k t x p :
    kw_class k = Std KDynamicRef -> kw_ref k = Some t ->
    sees scope (if kw_dynamic k then dynamic_choice W (kw_fragment k) scope t else t) x p -> kw_sees scope kws k x p
| see_recursiveRef scope kws k t x p :
    kw_class k = Std KRecursiveRef -> kw_ref k = Some t -> sees scope (recursive_choice W scope t) x p -> kw_sees scope kws k x p
(* in-place applicators *)
| see_combined scope kws k c ts t x p :
    kw_class k = Std c -> c = KAllOf \/ c = KAnyOf \/ c = KOneOf -> kw_json k = KSubs ts -> In t ts ->
    sees scope t x p -> kw_sees scope kws k x p
| see_if scope kws k t x p :
    kw_class k = Std KIf -> kw_json k = KSub t -> sees scope t x p -> kw_sees scope kws k x p
| see_then scope kws k ki c t x p :
    kw_class k = Std KThen -> kw_json k = KSub t -> dget (lit "if") kws = Some ki -> kw_json ki = KSub c ->
    accepts W scope c x true -> sees scope t x p -> kw_sees scope kws k x p
| see_else scope kws k ki c t x p :
    kw_class k = Std KElse -> kw_json k = KSub t -> dget (lit "if") kws = Some ki -> kw_json ki = KSub c ->
    accepts W scope c x false -> sees scope t x p -> kw_sees scope kws k x p
| see_dependentSchemas scope kws k m name t x p :
    kw_class k = Std KDependentSchemas -> kw_json k = KSubm m -> In (name, t) m -> member x name ->
    sees scope t x p -> kw_sees scope kws k x p
(* members *)
| see_properties scope kws k m name x :
    kw_class k = Std KProperties -> kw_json k = KSubm m -> member x name -> In name (map fst m) ->
    kw_sees scope kws k x (Member name)
| see_patternProperties scope kws k m r t name x :
    kw_class k = Std KPatternProperties -> kw_json k = KSubm m -> member x name -> In (r, t) m -> w_search W r name = Some true ->
    kw_sees scope kws k x (Member name)
| see_additionalProperties scope kws k known patterns name x :
    kw_class k = Std KAdditionalProperties -> member x name ->
    names_of (lit "properties") kws known -> ~ In name known ->
    names_of (lit "patternProperties") kws patterns -> (forall r, In r patterns -> w_search W r name = Some false) ->
    kw_sees scope kws k x (Member name)
| see_unevaluatedProperties scope kws k c name x :
    kw_class k = Std c -> c = KUnevaluatedProperties \/ c = KUnevaluatedProperties2019 -> member x name ->
    kw_sees scope kws k x (Member name)
(* items *)
| see_prefixItems scope kws k c ts n x :
    kw_class k = Std c -> c = KPrefixItems \/ c = KItems2019 -> kw_json k = KSubs ts -> n < length ts -> n < length (items x) ->
    kw_sees scope kws k x (Item n)
| see_items scope kws k t start n x :
    kw_class k = Std KItems -> kw_json k = KSub t -> tuple_size (lit "prefixItems") kws start -> start <= n -> n < length (items x) ->
    kw_sees scope kws k x (Item n)
| see_items_2019 scope kws k t n x :
    kw_class k = Std KItems2019 -> kw_json k = KSub t -> n < length (items x) -> kw_sees scope kws k x (Item n)
| see_additionalItems scope kws k ki ts n x :
    kw_class k = Std KAdditionalItems -> dget (lit "items") kws = Some ki -> kw_json ki = KSubs ts ->
    length ts <= n -> n < length (items x) -> kw_sees scope kws k x (Item n)
| see_contains scope kws k t n y x :
    legacy = false -> kw_class k = Std KContains -> kw_json k = KSub t -> nth_error (items x) n = Some y -> accepts W scope t y true ->
    kw_sees scope kws k x (Item n)
| see_unevaluatedItems scope kws k c n x :
    kw_class k = Std c -> c = KUnevaluatedItems \/ c = KUnevaluatedItems2019 -> n < length (items x) ->
    kw_sees scope kws k x (Item n).
End Sees.

(** A keyword of the object itself, other than the unevaluated ones, evaluates
    [p]; [scope] starts with that object. *)
Definition seen_first (W : world) (legacy : bool) (scope : list sid) (kws : list (pystr * keyword)) (x : json) (p : spot) : Prop :=
  exists key k, In (key, k) kws /\ concerns x k = true /\ late k = None /\ kw_sees W legacy scope kws k x p.
