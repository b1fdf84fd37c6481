(** C34, C35, C44: what the unevaluated keywords and the array keywords of
    2019-09 see.  [sees] (SpecSees.v) is the specification's account of which
    members and items a schema evaluates. *)
From Coq Require Import String List.
From Verif Require Import SchemaSees SchemaCases.
Import ListNotations.
Open Scope string_scope.
Open Scope list_scope.
Open Scope nat_scope.

(** The outcome of evaluation lists exactly what the relation says. *)
Theorem C34_evaluated : forall W d legacy n sc s x o p,
  dialect legacy d -> good_world d W -> judge W (dynamic_choice W) n sc s x = Some o ->
  (match p with Member name => In name (o_names o) | Item m => In m (evaluated_at legacy o) end <-> sees W legacy sc s x p).
Proof. intros W d legacy n sc s x o p Hd Hg E. exact (judge_sees W d legacy Hd Hg n sc s x o p E). Qed.
Print Assumptions C34_evaluated.

(** Missing from C34: schemas that use [not] (false: C34_refuted), and the
    conditions of C27 on dynamic references. *)
Theorem C34_members_partial : forall W d legacy fuel s kws i m r,
  dialect legacy d -> good_world d W -> no_misjudged W -> plain_dynamics W ->
  i_val i = JObj m -> jwf (JObj m) = true ->
  w_schema W s = SObj kws -> (forall key k c, In (key, k) kws -> late k = Some c -> exists t, kw_json k = KSub t) ->
  evaluate_root W fuel s i = Ok r ->
  (r_valid r = true <->
   (forall key k, In (key, k) kws -> concerns (JObj m) k = true -> late k = None -> kw_accepts W [s] kws k (JObj m) true) /\
   (forall key k t name y, In (key, k) kws -> kw_class k = Std KUnevaluatedProperties \/ kw_class k = Std KUnevaluatedProperties2019 ->
      kw_json k = KSub t -> In (name, y) m -> ~ seen_first W legacy [s] kws (JObj m) (Member name) -> accepts W [s] t y true)).
Proof.
  intros W d legacy fuel s kws i m r Hd Hg Hm Hp Hi Hw Hs Sub E.
  assert (F : fit W) by (exists d, legacy; auto). rewrite <- Hi in Hw.
  rewrite (evaluate_iff W fuel s i r F Hw E), Hi, (law_unevaluated W d legacy Hd Hg [] s kws (JObj m) Hs) by eauto.
  split; intros [H1 H2]; (split; [exact H1|]).
  - intros key k t name y Hk Hc Hj Hy N.
    destruct Hc as [Hc|Hc].
    + refine (H2 key k KUnevaluatedProperties t Hk _ _ Hj name y Hy N); [unfold concerns|unfold late]; now rewrite Hc.
    + refine (H2 key k KUnevaluatedProperties2019 t Hk _ _ Hj name y Hy N); [unfold concerns|unfold late]; now rewrite Hc.
  - intros key k c t Hk C L Hj. assert (Hc : kw_class k = Std c) by (unfold late in L; destruct (kw_class k) as [[]|]; congruence).
    unfold concerns in C. rewrite Hc in C. unfold late in L. rewrite Hc in L.
    destruct c; try discriminate L; try discriminate C; intros name y Hy N; refine (H2 key k t name y Hk _ Hj Hy N); auto.
Qed.
Print Assumptions C34_members_partial.

(** {"allOf": [{"properties": {"a": true}}, true], "anyOf": [{"patternProperties": {"b": true}, "required": ["bb"]}, true],
     "unevaluatedProperties": {"type": "integer"}}: the member "a" is evaluated by [allOf]; "bb" by [anyOf] as long as
     that subschema accepts. *)
Definition merged_schema : list snode :=
  let k := kw_in dialect_2020_12 in
  [ SObj [k "allOf" (KSubs [1; 3]); k "anyOf" (KSubs [2; 3]); k "unevaluatedProperties" (KSub 4)];
    SObj [k "properties" (KSubm [(lit "a", 3)])];
    SObj [k "patternProperties" (KSubm [(lit "b", 3)]); k "required" (KJ (JArr [text "bb"]))];
    SBool true; SObj [k "type" (KJ (text "integer"))] ].
Example C34_case :
  (good_world dialect_2020_12 (small merged_schema) /\ no_misjudged (small merged_schema) /\ plain_dynamics (small merged_schema)
   /\ jwf (obj [("a", JNull); ("bb", JNull); ("c", int 1)]) = true)
  /\ valid_of (evaluate_root (small merged_schema) 9 0 (root (obj [("a", JNull); ("bb", JNull); ("c", int 1)]))) = Some true
  /\ valid_of (evaluate_root (small merged_schema) 9 0 (root (obj [("a", JNull); ("bb", JNull); ("c", JNull)]))) = Some false
  /\ valid_of (evaluate_root (small merged_schema) 9 0 (root (obj [("a", JNull); ("b", JNull)]))) = Some false
  /\ sees (small merged_schema) false [0] 1 (obj [("a", JNull)]) (Member (lit "a")).
Proof.
  split; [|split; [vm_compute; reflexivity|split; [vm_compute; reflexivity|split; [vm_compute; reflexivity|]]]].
  - split; [apply good_small; vm_compute; reflexivity|].
    split; [apply no_misjudged_small; vm_compute; reflexivity|]. split; [apply plain_small|]; vm_compute; reflexivity.
  - eapply (sees_by _ _ _ _ _ (lit "properties")); [reflexivity| |now left|reflexivity|].
    + exists 9. eexists. split; vm_compute; reflexivity.
    + eapply see_properties; [reflexivity|reflexivity|exists JNull; now left|now left].
Qed.

(** Missing from C35: as for C34, and the boolean form of [items] under
    2019-09 (false: C44_refuted). *)
Theorem C35_items_partial : forall W d legacy fuel s kws i l r,
  dialect legacy d -> good_world d W -> no_misjudged W -> plain_dynamics W ->
  i_val i = JArr l -> jwf (JArr l) = true ->
  w_schema W s = SObj kws -> (forall key k c, In (key, k) kws -> late k = Some c -> exists t, kw_json k = KSub t) ->
  evaluate_root W fuel s i = Ok r ->
  (r_valid r = true <->
   (forall key k, In (key, k) kws -> concerns (JArr l) k = true -> late k = None -> kw_accepts W [s] kws k (JArr l) true) /\
   (forall key k t n y, In (key, k) kws -> kw_class k = Std KUnevaluatedItems \/ kw_class k = Std KUnevaluatedItems2019 ->
      kw_json k = KSub t -> nth_error l n = Some y -> ~ seen_first W legacy [s] kws (JArr l) (Item n) -> accepts W [s] t y true)).
Proof.
  intros W d legacy fuel s kws i l r Hd Hg Hm Hp Hi Hw Hs Sub E.
  assert (F : fit W) by (exists d, legacy; auto). rewrite <- Hi in Hw.
  rewrite (evaluate_iff W fuel s i r F Hw E), Hi, (law_unevaluated W d legacy Hd Hg [] s kws (JArr l) Hs) by eauto.
  split; intros [H1 H2]; (split; [exact H1|]).
  - intros key k t n y Hk Hc Hj Hy N.
    destruct Hc as [Hc|Hc].
    + refine (H2 key k KUnevaluatedItems t Hk _ _ Hj n y Hy N); [unfold concerns|unfold late]; now rewrite Hc.
    + refine (H2 key k KUnevaluatedItems2019 t Hk _ _ Hj n y Hy N); [unfold concerns|unfold late]; now rewrite Hc.
  - intros key k c t Hk C L Hj. assert (Hc : kw_class k = Std c) by (unfold late in L; destruct (kw_class k) as [[]|]; congruence).
    unfold concerns in C. rewrite Hc in C. unfold late in L. rewrite Hc in L.
    destruct c; try discriminate L; try discriminate C; intros n y Hy N; refine (H2 key k t n y Hk _ Hj Hy N); auto.
Qed.
Print Assumptions C35_items_partial.

(** {"prefixItems": [true], "contains": {"type": "string"}, "allOf": [{"if": {"prefixItems": [true, {"type": "null"}]}}],
     "unevaluatedItems": {"type": "integer"}} *)
Definition items_schema : list snode :=
  let k := kw_in dialect_2020_12 in
  [ SObj [k "prefixItems" (KSubs [3]); k "contains" (KSub 1); k "allOf" (KSubs [2]); k "unevaluatedItems" (KSub 4)];
    SObj [k "type" (KJ (text "string"))];
    SObj [k "if" (KSub 5)]; SBool true; SObj [k "type" (KJ (text "integer"))];
    SObj [k "prefixItems" (KSubs [3; 6])]; SObj [k "type" (KJ (text "null"))] ].
Example C35_case :
  (good_world dialect_2020_12 (small items_schema) /\ no_misjudged (small items_schema) /\ plain_dynamics (small items_schema)
   /\ jwf (JArr [JNull; JNull; text "s"; int 1]) = true)
  /\ valid_of (evaluate_root (small items_schema) 9 0 (root (JArr [JNull; JNull; text "s"; int 1]))) = Some true
  /\ valid_of (evaluate_root (small items_schema) 9 0 (root (JArr [JNull; JBool true; text "s"; int 1]))) = Some false
  /\ valid_of (evaluate_root (small items_schema) 9 0 (root (JArr [JNull; JNull; text "s"; JNull]))) = Some false
  /\ sees (small items_schema) false [] 5 (JArr [JNull; JNull]) (Item 1).
Proof.
  split; [|split; [vm_compute; reflexivity|split; [vm_compute; reflexivity|split; [vm_compute; reflexivity|]]]].
  - split; [apply good_small; vm_compute; reflexivity|].
    split; [apply no_misjudged_small; vm_compute; reflexivity|]. split; [apply plain_small|]; vm_compute; reflexivity.
  - eapply (sees_by _ _ _ _ _ (lit "prefixItems")); [reflexivity| |now left|reflexivity|].
    + exists 9. eexists. split; vm_compute; reflexivity.
    + eapply see_prefixItems; [reflexivity|now left|reflexivity|cbn; auto|cbn; auto].
Qed.

(** {"not": {"prefixItems": [true], "minItems": 2}, "unevaluatedItems": false}
    accepts [[null]], although the only subschema that looks at the item
    rejects the array. *)
Definition not_items_schema : list snode :=
  let k := kw_in dialect_2020_12 in
  [ SObj [k "not" (KSub 1); k "unevaluatedItems" (KSub 3)];
    SObj [k "prefixItems" (KSubs [2]); k "minItems" (KJ (int 2))];
    SBool true; SBool false ].
Theorem C35_refuted : exists l x r,
  good_world dialect_2020_12 (small l) /\ plain_dynamics (small l) /\ jwf x = true /\
  evaluate_root (small l) 9 0 (root x) = Ok r /\ r_valid r = true /\ verdict (small l) 0 x false.
Proof.
  exists not_items_schema, (JArr [JNull]). eexists.
  split; [apply good_small; vm_compute; reflexivity|]. split; [apply plain_small; vm_compute; reflexivity|].
  split; [vm_compute; reflexivity|]. split; [vm_compute; reflexivity|]. split; [vm_compute; reflexivity|].
  exists 9. eexists. split; vm_compute; reflexivity.
Qed.
Print Assumptions C35_refuted.

(** ** C44.  Missing: the boolean form of [items], false in the code
    (C44_refuted), and its empty array form, which [good_world] excludes. *)
Theorem C44_items_schema : forall W sc kws k t x, is_kw k KItems2019 (KSub t) ->
  (kw_accepts W sc kws k x true <-> forall y, In y (items x) -> accepts W sc t y true).
Proof. exact law_items_2019_sub. Qed.
Print Assumptions C44_items_schema.

Theorem C44_items_array : forall W sc kws k ts x, is_kw k KItems2019 (KSubs ts) ->
  (kw_accepts W sc kws k x true <->
   forall n t y, nth_error ts n = Some t -> nth_error (items x) n = Some y -> accepts W sc t y true).
Proof. exact law_items_2019_subs. Qed.
Print Assumptions C44_items_array.

Theorem C44_additionalItems : forall W sc kws k t x ki ts, is_kw k KAdditionalItems (KSub t) ->
  dget (lit "items") kws = Some ki -> kw_json ki = KSubs ts ->
  (kw_accepts W sc kws k x true <->
   forall n y, length ts <= n -> nth_error (items x) n = Some y -> accepts W sc t y true).
Proof. exact law_additionalItems. Qed.
Print Assumptions C44_additionalItems.

(** Without the array form of [items], [additionalItems] is ignored. *)
Theorem C44_additionalItems_alone : forall W sc kws k x, kw_class k = Std KAdditionalItems ->
  (forall ki ts, dget (lit "items") kws = Some ki -> kw_json ki <> KSubs ts) -> kw_accepts W sc kws k x true.
Proof. exact law_additionalItems_alone. Qed.
Print Assumptions C44_additionalItems_alone.

Theorem C44_valid_partial : forall W fuel s kws i l r,
  good_world dialect_2019_09 W -> no_misjudged W -> plain_dynamics W ->
  i_val i = JArr l -> jwf (JArr l) = true ->
  w_schema W s = SObj kws -> (forall key k c, In (key, k) kws -> late k = Some c -> exists t, kw_json k = KSub t) ->
  evaluate_root W fuel s i = Ok r ->
  (r_valid r = true <->
   (forall key k, In (key, k) kws -> concerns (JArr l) k = true -> late k = None -> kw_accepts W [s] kws k (JArr l) true) /\
   (forall key k t n y, In (key, k) kws -> kw_class k = Std KUnevaluatedItems2019 -> kw_json k = KSub t ->
      nth_error l n = Some y -> ~ seen_first W true [s] kws (JArr l) (Item n) -> accepts W [s] t y true)).
Proof.
  intros W fuel s kws i l r Hg Hm Hp Hi Hw Hs Sub E.
  rewrite (C35_items_partial W dialect_2019_09 true fuel s kws i l r eq_refl Hg Hm Hp Hi Hw Hs Sub E). split; intros [H1 H2]; (split; [exact H1|]).
  - intros key k t n y Hk Hc. exact (H2 key k t n y Hk (or_intror Hc)).
  - intros key k t n y Hk [Hc|Hc]; [|exact (H2 key k t n y Hk Hc)].
    pose proof (class_legacy dialect_2019_09 true eq_refl kws (Hg _ _ Hs) key k _ Hk Hc) as X. discriminate X.
Qed.
Print Assumptions C44_valid_partial.

(** {"items": [{"type": "null"}], "additionalItems": {"type": "string"}} and
    {"items": [{"type": "null"}], "unevaluatedItems": {"type": "string"}} and
    {"items": {"type": "null"}, "additionalItems": false, "unevaluatedItems": false} *)
Definition array_schema_2019 : list snode :=
  let k := kw_in dialect_2019_09 in
  [ SObj [k "items" (KSubs [3]); k "additionalItems" (KSub 4)];
    SObj [k "items" (KSubs [3]); k "unevaluatedItems" (KSub 4)];
    SObj [k "items" (KSub 3); k "additionalItems" (KSub 5); k "unevaluatedItems" (KSub 5)];
    SObj [k "type" (KJ (text "null"))]; SObj [k "type" (KJ (text "string"))]; SBool false ].
Example C44_case :
  (good_world dialect_2019_09 (small array_schema_2019) /\ no_misjudged (small array_schema_2019) /\ plain_dynamics (small array_schema_2019)
   /\ jwf (JArr [JNull; text "a"; text "b"]) = true)
  /\ (let run s l := valid_of (evaluate_root (small array_schema_2019) 9 s (root (JArr l))) in
      run 0 [JNull; text "a"; text "b"] = Some true /\ run 0 [JNull; text "a"; JNull] = Some false /\
      run 1 [JNull; text "a"] = Some true /\ run 1 [JNull; JNull] = Some false /\ run 1 [text "a"] = Some false /\
      run 2 [JNull; JNull] = Some true /\ run 2 [JNull; text "a"] = Some false).
Proof.
  split; [|cbv zeta; repeat split; vm_compute; reflexivity].
  split; [apply good_small; vm_compute; reflexivity|].
  split; [apply no_misjudged_small; vm_compute; reflexivity|]. split; [apply plain_small|]; vm_compute; reflexivity.
Qed.
