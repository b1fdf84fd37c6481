(** Schemas that are the same but for which objects they are. *)
From Coq Require Import String List.
From Verif Require Export SpecLocal SpecEdit.
Import ListNotations.
Open Scope string_scope.
Open Scope list_scope.
Open Scope nat_scope.

(** [R s s']: schema [s] of one world corresponds to schema [s'] of another. *)
Section Twins.
Variable R : sid -> sid -> Prop.
Definition both_or_none (o o' : option sid) : Prop :=
  match o, o' with Some s, Some s' => R s s' | None, None => True | _, _ => False end.
Inductive twin_json : kjson -> kjson -> Prop :=
| tj_plain v : twin_json (KJ v) (KJ v)
| tj_sub s s' : R s s' -> twin_json (KSub s) (KSub s')
| tj_subs l l' : Forall2 R l l' -> twin_json (KSubs l) (KSubs l')
| tj_subm m m' : Forall2 (fun x y => fst x = fst y /\ R (snd x) (snd y)) m m' -> twin_json (KSubm m) (KSubm m').
(** The same key, class, value and format; references lead to corresponding
    schemas, and the same ones are dynamic. *)
Definition twin_keyword (x y : pystr * keyword) : Prop :=
  let k := snd x in let k' := snd y in
  fst x = fst y /\ kw_class k = kw_class k' /\ kw_format k = kw_format k' /\ twin_json (kw_json k) (kw_json k') /\
  (is_reference k -> both_or_none (kw_ref k) (kw_ref k')) /\
  (kw_class k = Std KDynamicRef -> kw_dynamic k = kw_dynamic k' /\ kw_fragment k = kw_fragment k').
(** No reference of the schemas is dynamic; or their base URIs are the same
    where those of the corresponding schemas are, and the same anchors are
    found there. *)
Definition undynamic (W : world) : Prop :=
  forall s s' kws key k, R s s' -> w_schema W s = SObj kws -> In (key, k) kws -> kw_class k = Std KDynamicRef -> kw_dynamic k = false.
Definition same_scopes (W W' : world) : Prop :=
  (forall s s' t t', R s s' -> R t t' -> (w_base W s = w_base W t <-> w_base W' s' = w_base W' t')) /\
  forall s s', R s s' ->
    match w_base W s, w_base W' s' with
    | Some b, Some b' => forall f, both_or_none (w_anchor W b f) (w_anchor W' b' f)
    | None, None => True
    | _, _ => False
    end.
Definition twins (W W' : world) : Prop :=
  (forall s t s' t', R s s' -> R t t' -> (s = t <-> s' = t')) /\
  forall s s', R s s' ->
    match w_schema W s, w_schema W' s' with
    | SBool b, SBool b' => b = b'
    | SObj kws, SObj kws' => Forall2 twin_keyword kws kws'
    | _, _ => False
    end.
(** Results that are the same but for which schemas they name. *)
Inductive same_result : rnode -> rnode -> Prop :=
| same_node k p rp s s' i v a d an er rf rf' cs cs' : R s s' -> both_or_none rf rf' ->
    Forall2 (fun x y => fst x = fst y /\ same_result (snd x) (snd y)) cs cs' ->
    same_result (mkR k p rp s i v a d an er rf cs) (mkR k p rp s' i v a d an er rf' cs').
Definition same_outcome (x y : res rnode) : Prop :=
  match x, y with
  | Ok n, Ok n' => same_result n n'
  | Exn e, Exn e' => e = e'
  | Fuel, Fuel => True
  | _, _ => False
  end.
End Twins.
(** Regular expressions, digits and formats are the same in both worlds. *)
Definition same_tools (W W' : world) : Prop :=
  (forall r x, w_search W r x = w_search W' r x) /\ (forall m e, w_repr W m e = w_repr W' m e) /\ (forall a x, w_format W a x = w_format W' a x).

(** Schemas [r] and [r'], and below them those at the same places. *)
Inductive paired (objs objs' : list sobj) (r r' : sid) : sid -> sid -> Prop :=
| pair_root : paired objs objs' r r' r r'
| pair_below s s' kws kws' key k k' ks t t' : paired objs objs' r r' s s' ->
    keywords_at objs s kws -> keywords_at objs' s' kws' -> In (key, k) kws -> In (key, k') kws' ->
    first_keys k ks t -> first_keys k' ks t' -> paired objs objs' r r' t t'.
(** The world has the schemas of the catalog. *)
Definition shows (W : world) (objs : list sobj) : Prop := forall s o, nth_error objs s = Some o -> w_schema W s = so_data o.
(** References at the same places lead to the same places, or to schemas
    elsewhere that correspond by [Q]; the same ones are dynamic. *)
Definition same_references (Q : sid -> sid -> Prop) (objs objs' : list sobj) (r r' : sid) : Prop :=
  forall s s' kws kws' key k k', paired objs objs' r r' s s' -> keywords_at objs s kws -> keywords_at objs' s' kws' ->
    In (key, k) kws -> In (key, k') kws' -> is_reference k ->
    both_or_none (fun t t' => paired objs objs' r r' t t' \/ Q t t') (kw_ref k) (kw_ref k') /\
    kw_dynamic k = kw_dynamic k'.
(** Schema [r] has no references, at any depth. *)
Definition unreferring (objs : list sobj) (r : sid) : Prop :=
  forall s kws key k, within objs r s -> keywords_at objs s kws -> In (key, k) kws -> ~ is_reference k.
(** [w] is [v] or occurs in it, at any depth. *)
Inductive occurs (w : json) : json -> Prop :=
| occurs_self : occurs w w
| occurs_item l x : In x l -> occurs w x -> occurs w (JArr l)
| occurs_member m k x : In (k, x) m -> occurs w x -> occurs w (JObj m).
Definition reference_free (v : json) : Prop :=
  forall doc key, occurs (JObj doc) v -> In key [lit "$ref"; lit "$dynamicRef"; lit "$recursiveRef"] -> ~ In key (keys doc).
