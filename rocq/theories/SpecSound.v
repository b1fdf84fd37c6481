(** Schemas and instances on which evaluation has no reason to raise: keyword
    values of the form that each keyword is written for, references that are
    resolved, regular expressions that compile, numbers that are finite. *)
From Verif Require Export SpecTerm.
Open Scope nat_scope.

(** Values beyond what [value_ok] asks for: subschemas where subschemas belong,
    plain values where plain values belong, resolved references, and limits that
    are neither infinite nor NaN (such a limit cannot be written into the error
    message: json_dumps raises ValueError, utils.py:36-38). *)
Definition typed (k : keyword) : bool :=
  match kw_class k with
  | Std c =>
      match c, kw_json k with
      | (KRef | KDynamicRef | KRecursiveRef), _ => match kw_ref k with Some _ => true | None => false end
      | (KAllOf | KAnyOf | KOneOf | KPrefixItems), KSubs _ => true
      | (KAllOf | KAnyOf | KOneOf | KPrefixItems), _ => false
      | (KNot | KIf | KThen | KElse | KItems | KUnevaluatedItems | KContains | KAdditionalProperties | KUnevaluatedProperties
        | KPropertyNames | KAdditionalItems | KUnevaluatedItems2019 | KUnevaluatedProperties2019), KSub _ => true
      | (KNot | KIf | KThen | KElse | KItems | KUnevaluatedItems | KContains | KAdditionalProperties | KUnevaluatedProperties
        | KPropertyNames | KAdditionalItems | KUnevaluatedItems2019 | KUnevaluatedProperties2019), _ => false
      | (KDependentSchemas | KProperties | KPatternProperties), KSubm _ => true
      | (KDependentSchemas | KProperties | KPatternProperties), _ => false
      | (KEnum | KRequired), KJ (JArr _) => true
      | (KEnum | KRequired), _ => false
      | KDependentRequired, KJ (JObj _) => true
      | KDependentRequired, _ => false
      | (KMaximum | KMinimum | KExclusiveMaximum | KExclusiveMinimum | KMaxLength | KMinLength | KMaxItems | KMinItems
        | KMaxContains | KMinContains | KMaxProperties | KMinProperties | KMultipleOf), KJ (JNum (NInf _) | JNum NNan) => false
      | KMultipleOf, KJ (JNum _) => true
      | KMultipleOf, _ => false
      | KPattern, KJ (JStr _) => true
      | KPattern, _ => false
      | (KConst | KTitle | KDescription | KDefault | KDeprecated | KReadOnly | KWriteOnly | KExamples
        | KContentMediaType | KContentEncoding | KContentSchema), KJ _ => true
      | (KConst | KTitle | KDescription | KDefault | KDeprecated | KReadOnly | KWriteOnly | KExamples
        | KContentMediaType | KContentEncoding | KContentSchema), _ => false
      | _, _ => true
      end
  | Unknown _ => match kw_json k with KJ _ => true | _ => false end
  end.

(** The regular expressions of the keyword compile. *)
Definition compiles (W : world) (k : keyword) : Prop :=
  (forall r x, kw_class k = Std KPattern -> kw_json k = KJ (JStr r) -> w_search W r x <> None) /\
  (forall m r t x, kw_class k = Std KPatternProperties -> kw_json k = KSubm m -> In (r, t) m -> w_search W r x <> None).

(** The schemas that are asked for a dynamic anchor are objects. *)
Definition is_object (W : world) (s : sid) : Prop := exists kws, w_schema W s = SObj kws.
Definition aimed (W : world) (k : keyword) : Prop :=
  (forall b t, kw_class k = Std KDynamicRef -> kw_dynamic k = true -> w_anchor W b (kw_fragment k) = Some t -> is_object W t) /\
  (forall t, kw_class k = Std KRecursiveRef -> kw_ref k = Some t -> is_object W t).

Definition sound_world (W : world) : Prop :=
  (forall s kws key k, w_schema W s = SObj kws -> In (key, k) kws -> typed k = true /\ compiles W k /\ aimed W k) /\
  forall s, ~ in_place W s s.

(** No number is infinite or NaN. *)
Fixpoint finite_numbers (x : json) : bool :=
  match x with
  | JNum (NInf _) | JNum NNan => false
  | JArr l => forallb finite_numbers l
  | JObj m => forallb (fun kv => finite_numbers (snd kv)) m
  | _ => true
  end.
