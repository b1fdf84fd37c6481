(** What it means for an instance to be valid against a schema, following the
    JSON Schema Core and Validation specifications (2020-12 and 2019-09), with
    no result tree, no annotations and no evaluation order.

    A schema judges a value and gives an [outcome]: a verdict, and which
    members and items of the value the schema has evaluated (needed by the
    unevaluated keywords).  References may be circular, so judging is bounded
    by a depth [n]; [None] means that the depth does not suffice, or that a
    keyword value is not of a shape the metaschema allows. *)
From Verif Require Export Schema.
Open Scope nat_scope.

Record outcome : Set := mkO {
  o_ok : bool;               (* the verdict *)
  o_names : list pystr;      (* members evaluated *)
  o_places : list nat;       (* items evaluated, by position *)
  o_found : list nat         (* items matched by contains *)
}.

Definition plain (b : bool) : outcome := mkO b [] [] [].

(** A verdict together with what the accepting ones among [l] evaluated. *)
Definition gather (b : bool) (l : list outcome) : outcome :=
  let l := filter o_ok l in
  mkO b (flat_map o_names l) (flat_map o_places l) (flat_map o_found l).

Fixpoint all_some {A} (l : list (option A)) : option (list A) :=
  match l with
  | [] => Some []
  | None :: _ => None
  | Some x :: r => match all_some r with Some xs => Some (x :: xs) | None => None end
  end.

Definition rejects (o : option outcome) : bool :=
  match o with Some o => negb (o_ok o) | None => false end.

(** A schema object rejects as soon as one keyword rejects, and accepts when
    every keyword accepts. *)
Definition conclude (l : list (option outcome)) : option outcome :=
  if existsb rejects l then Some (plain false)
  else match all_some l with Some os => Some (gather true os) | None => None end.

Definition obind {A B} (x : option A) (f : A -> option B) : option B :=
  match x with Some a => f a | None => None end.

(** ** Assertions on the value alone. *)

(** A limit given as a number. *)
Definition limit_of (v : kjson) : option num := match v with KJ (JNum n) => Some n | _ => None end.
Definition limit_ok (rel : num -> num -> bool) (x : num) (v : kjson) : option bool :=
  obind (limit_of v) (fun y => Some (rel x y)).
Definition size (n : nat) : num := NInt (Z.of_nat n).

Definition integral (n : num) : bool :=
  match n with
  | NInt _ => true
  | NDyad m e => (0 <=? e)%Z || (m mod 2 ^ (- e) =? 0)%Z
  | NInf _ | NNan => false
  end.
(** A type name of the type keyword describes a value. *)
Definition describes (x : json) (t : pystr) : bool :=
  str_eqb (type_name (type_of x)) t
  || match x with JNum n => str_eqb (lit "integer") t && integral n | _ => false end.

Fixpoint strings (l : list json) : option (list pystr) :=
  match l with
  | [] => Some []
  | JStr s :: r => obind (strings r) (fun ss => Some (s :: ss))
  | _ :: _ => None
  end.

(** No two items are equal. *)
Fixpoint distinct (l : list json) : bool :=
  match l with
  | [] => true
  | x :: r => negb (existsb (json_eqb x) r) && distinct r
  end.

Definition members (x : json) : list (pystr * json) := match x with JObj m => m | _ => [] end.
Definition items (x : json) : list json := match x with JArr l => l | _ => [] end.
Definition has (x : json) (name : pystr) : bool := existsb (fun kv => str_eqb name (fst kv)) (members x).

Definition assertion (W : world) (k : keyword) (c : stdclass) (x : json) : option bool :=
  let v := kw_json k in
  match c, x with
  | KType_, _ =>
      match v with
      | KJ (JStr t) => Some (describes x t)
      | KJ (JArr l) => obind (strings l) (fun ts => Some (existsb (describes x) ts))
      | _ => None
      end
  | KEnum, _ => match v with KJ (JArr l) => Some (existsb (fun u => json_eqb u x) l) | _ => None end
  | KConst, _ => match v with KJ u => Some (json_eqb x u) | _ => None end
  | KMultipleOf, JNum n => match limit_of v with Some m => Some (is_multiple W n m) | None => None end
  | KMaximum, JNum n => limit_ok (fun a b => negb (num_gtb a b)) n v
  | KExclusiveMaximum, JNum n => limit_ok (fun a b => negb (num_geb a b)) n v
  | KMinimum, JNum n => limit_ok (fun a b => negb (num_ltb a b)) n v
  | KExclusiveMinimum, JNum n => limit_ok (fun a b => negb (num_leb a b)) n v
  | KMaxLength, JStr s => limit_ok (fun a b => negb (num_gtb a b)) (size (length s)) v
  | KMinLength, JStr s => limit_ok (fun a b => negb (num_ltb a b)) (size (length s)) v
  | KPattern, JStr s => match v with KJ (JStr r) => w_search W r s | _ => None end
  | KMaxItems, JArr l => limit_ok (fun a b => negb (num_gtb a b)) (size (length l)) v
  | KMinItems, JArr l => limit_ok (fun a b => negb (num_ltb a b)) (size (length l)) v
  | KUniqueItems, JArr l => match v with KJ (JBool b) => Some (negb b || distinct l) | _ => None end
  | KMaxProperties, JObj m => limit_ok (fun a b => negb (num_gtb a b)) (size (length m)) v
  | KMinProperties, JObj m => limit_ok (fun a b => negb (num_ltb a b)) (size (length m)) v
  | KRequired, JObj _ =>
      match v with KJ (JArr l) => obind (strings l) (fun ns => Some (forallb (has x) ns)) | _ => None end
  | KDependentRequired, JObj _ =>
      match v with
      | KJ (JObj m) =>
          obind (all_some (map (fun kv => match snd kv with
                                          | JArr l => obind (strings l) (fun ns => Some (negb (has x (fst kv)) || forallb (has x) ns))
                                          | _ => None
                                          end) m))
                (fun bs => Some (forallb id bs))
      | _ => None
      end
  | KFormat, _ =>
      match kw_format k, v with
      | Some types, KJ (JStr a) => Some (negb (existsb (jtype_eqb (type_of x)) types) || w_format W a x)
      | Some _, _ => None
      | None, _ => Some true
      end
  | _, _ => None
  end.

(** ** References. *)

(** The anchors that schema [s] itself declares. *)
Definition declares_dynamic (W : world) (s : sid) (fragment : pystr) : bool :=
  match w_schema W s with
  | SObj kws => match dget (lit "$dynamicAnchor") kws with
                | Some k => match kw_json k with KJ (JStr a) => negb (str_eqb a []) && str_eqb a fragment | _ => false end
                | None => false
                end
  | SBool _ => false
  end.
Definition declares_recursive (W : world) (s : sid) : bool :=
  match w_schema W s with
  | SObj kws => match dget (lit "$recursiveAnchor") kws with
                | Some k => match kw_json k with KJ (JBool b) => b | _ => false end
                | None => false
                end
  | SBool _ => false
  end.

(** The last member of [scope] that [f] maps to something, i.e. the outermost
    when [scope] lists the innermost first. *)
Fixpoint outermost {A} (f : sid -> option A) (scope : list sid) : option A :=
  match scope with
  | [] => None
  | s :: r => match outermost f r with Some a => Some a | None => f s end
  end.

(** The schema with dynamic anchor [fragment] in the resource of schema [s]. *)
Definition anchored (W : world) (fragment : pystr) (s : sid) : option sid :=
  obind (w_base W s) (fun b => obind (w_anchor W b fragment)
    (fun t => if declares_dynamic W t fragment then Some t else None)).

(** $dynamicRef, JSON Schema Core 2020-12, 8.2.3.2: [static] is the schema the
    reference resolves to, [scope] the schemas under evaluation, innermost
    first. *)
Definition dynamic_choice (W : world) (fragment : pystr) (scope : list sid) (static : sid) : sid :=
  match outermost (anchored W fragment) scope with Some t => t | None => static end.

(** $recursiveRef, JSON Schema Core 2019-09, 8.2.4.2.1. *)
Definition recursive_choice (W : world) (scope : list sid) (static : sid) : sid :=
  if declares_recursive W static then
    match outermost (fun s => if declares_recursive W s then Some s else None) scope with
    | Some t => t
    | None => static
    end
  else static.

(** ** Judging. *)
Section Judge.
Variable W : world.
(** How a dynamic reference chooses its target. *)
Variable choose : pystr -> list sid -> sid -> sid.
(** Judging by a schema within a scope. *)
Variable judge : list sid -> sid -> json -> option outcome.

Definition count (l : list outcome) : nat := length (filter o_ok l).

(** Positions of the accepting ones, counted from [k]. *)
Fixpoint accepted (k : nat) (l : list outcome) : list nat :=
  match l with
  | [] => []
  | o :: r => if o_ok o then k :: accepted (S k) r else accepted (S k) r
  end.

Definition all_accept (l : list outcome) : bool := forallb o_ok l.

Definition sub_of (o : option keyword) : option sid :=
  obind o (fun k => match kw_json k with KSub t => Some t | _ => None end).
Definition subs_of (o : option keyword) : option (list sid) :=
  obind o (fun k => match kw_json k with KSubs l => Some l | _ => None end).
Definition subm_of (o : option keyword) : option (list (pystr * sid)) :=
  obind o (fun k => match kw_json k with KSubm m => Some m | _ => None end).
Definition names_under (o : option (list (pystr * sid))) : list pystr :=
  match o with Some m => map fst m | None => [] end.

Fixpoint matches_any (patterns : list pystr) (name : pystr) : option bool :=
  match patterns with
  | [] => Some false
  | r :: rs => match w_search W r name with
               | Some true => Some true
               | Some false => matches_any rs name
               | None => None
               end
  end.

(** All of [l] judged by schema [t]. *)
Definition judge_all (scope : list sid) (t : sid) (l : list json) : option (list outcome) :=
  all_some (map (judge scope t) l).

(** Member by member: the members among [m] that [sel] picks, each judged by
    [t]. *)
Definition judge_members (scope : list sid) (t : sid) (todo : list (pystr * json)) : option outcome :=
  obind (judge_all scope t (map snd todo)) (fun os =>
  Some (mkO (all_accept os) (map fst todo) [] [])).

(** Items from position [start] on. *)
Definition judge_rest (scope : list sid) (start : nat) (t : sid) (l : list json) : option outcome :=
  obind (judge_all scope t (skipn start l)) (fun os =>
  Some (mkO (all_accept os) [] (seq start (length l - start)) [])).

(** Items paired with subschemas, position by position. *)
Definition judge_pairs (scope : list sid) (ts : list sid) (l : list json) : option outcome :=
  obind (all_some (map (fun tx => judge scope (fst tx) (snd tx)) (combine ts l))) (fun os =>
  Some (mkO (all_accept os) [] (seq 0 (min (length ts) (length l))) [])).

(** One keyword [k] of a schema object with keywords [kws]; [scope] starts
    with that schema. *)
Definition judge_std (scope : list sid) (kws : list (pystr * keyword)) (k : keyword) (c : stdclass) (x : json) : option outcome :=
  let v := kw_json k in
  match c with
  | KRef => obind (kw_ref k) (fun t => judge scope t x)
  | KDynamicRef =>
      obind (kw_ref k) (fun t =>
      judge scope (if kw_dynamic k then choose (kw_fragment k) scope t else t) x)
  | KRecursiveRef => obind (kw_ref k) (fun t => judge scope (recursive_choice W scope t) x)
  | KAllOf =>
      obind (subs_of (Some k)) (fun ts =>
      obind (all_some (map (fun t => judge scope t x) ts)) (fun os =>
      Some (gather (all_accept os) os)))
  | KAnyOf =>
      obind (subs_of (Some k)) (fun ts =>
      obind (all_some (map (fun t => judge scope t x) ts)) (fun os =>
      Some (gather (existsb o_ok os) os)))
  | KOneOf =>
      obind (subs_of (Some k)) (fun ts =>
      obind (all_some (map (fun t => judge scope t x) ts)) (fun os =>
      Some (gather (Nat.eqb (count os) 1) os)))
  | KNot =>
      obind (sub_of (Some k)) (fun t => obind (judge scope t x) (fun o => Some (plain (negb (o_ok o)))))
  | KIf =>
      obind (sub_of (Some k)) (fun t => obind (judge scope t x) (fun o => Some (gather true [o])))
  | KThen =>
      match dget (lit "if") kws with
      | None => Some (plain true)
      | Some _ =>
          obind (sub_of (dget (lit "if") kws)) (fun c => obind (judge scope c x) (fun o =>
          if o_ok o then obind (sub_of (Some k)) (fun t => judge scope t x) else Some (plain true)))
      end
  | KElse =>
      match dget (lit "if") kws with
      | None => Some (plain true)
      | Some _ =>
          obind (sub_of (dget (lit "if") kws)) (fun c => obind (judge scope c x) (fun o =>
          if o_ok o then Some (plain true) else obind (sub_of (Some k)) (fun t => judge scope t x)))
      end
  | KDependentSchemas =>
      obind (subm_of (Some k)) (fun m =>
      obind (all_some (map (fun nt => judge scope (snd nt) x) (filter (fun nt => has x (fst nt)) m))) (fun os =>
      Some (gather (all_accept os) os)))
  | KPrefixItems => obind (subs_of (Some k)) (fun ts => judge_pairs scope ts (items x))
  | KItems =>
      obind (sub_of (Some k)) (fun t =>
      judge_rest scope (match subs_of (dget (lit "prefixItems") kws) with Some ts => length ts | None => 0 end) t (items x))
  | KItems2019 =>
      match v with
      | KSub t => judge_rest scope 0 t (items x)
      | KSubs ts => judge_pairs scope ts (items x)
      | _ => None
      end
  | KAdditionalItems =>
      match subs_of (dget (lit "items") kws) with
      | Some ts => obind (sub_of (Some k)) (fun t => judge_rest scope (length ts) t (items x))
      | None => Some (plain true)
      end
  | KContains =>
      obind (sub_of (Some k)) (fun t => obind (judge_all scope t (items x)) (fun os =>
      let n := size (count os) in
      obind (match dget (lit "minContains") kws with
             | Some k' => limit_ok (fun a b => num_leb b a) n (kw_json k')
             | None => Some (negb (Nat.eqb (count os) 0))
             end) (fun low =>
      obind (match dget (lit "maxContains") kws with
             | Some k' => limit_ok (fun a b => negb (num_gtb a b)) n (kw_json k')
             | None => Some true
             end) (fun high =>
      Some (mkO (low && high) [] [] (accepted 0 os))))))
  | KMinContains | KMaxContains => Some (plain true)  (* part of contains *)
  | KProperties =>
      obind (subm_of (Some k)) (fun m =>
      let present := filter (fun kv => dmem (fst kv) m) (members x) in
      obind (all_some (map (fun kv => obind (dget (fst kv) m) (fun t => judge scope t (snd kv))) present)) (fun os =>
      Some (mkO (all_accept os) (map fst present) [] [])))
  | KPatternProperties =>
      obind (subm_of (Some k)) (fun m =>
      obind (all_some (map (fun kv =>
        obind (all_some (map (fun rt => w_search W (fst rt) (fst kv)) m)) (fun bs =>
        let hits := map fst (filter snd (combine (map snd m) bs)) in
        obind (all_some (map (fun t => judge scope t (snd kv)) hits)) (fun os =>
        Some (mkO (all_accept os) (match hits with [] => [] | _ => [fst kv] end) [] [])))) (members x))) (fun os =>
      Some (mkO (all_accept os) (flat_map o_names os) [] [])))
  | KAdditionalProperties =>
      obind (sub_of (Some k)) (fun t =>
      let known := names_under (subm_of (dget (lit "properties") kws)) in
      let patterns := names_under (subm_of (dget (lit "patternProperties") kws)) in
      let rest := filter (fun kv => negb (mem_str (fst kv) known)) (members x) in
      obind (all_some (map (fun kv => matches_any patterns (fst kv)) rest)) (fun bs =>
      judge_members scope t (map fst (filter (fun kb => negb (snd kb)) (combine rest bs)))))
  | KPropertyNames =>
      obind (sub_of (Some k)) (fun t =>
      obind (judge_all scope t (map (fun kv => JStr (fst kv)) (members x))) (fun os =>
      Some (plain (all_accept os))))
  | KTitle | KDescription | KDefault | KDeprecated | KReadOnly | KWriteOnly | KExamples
  | KContentMediaType | KContentEncoding | KContentSchema => Some (plain true)
  | _ => obind (assertion W k c x) (fun b => Some (plain b))
  end.

(** unevaluatedProperties and unevaluatedItems: what the other keywords, all
    accepting and together giving [o], have left. *)
Definition judge_unevaluated (scope : list sid) (o : outcome) (k : keyword) (c : stdclass) (x : json) : option outcome :=
  let leave evaluated :=
    obind (sub_of (Some k)) (fun t =>
    let left := filter (fun n => negb (existsb (Nat.eqb n) evaluated)) (seq 0 (length (items x))) in
    obind (judge_all scope t (map (fun n => nth n (items x) JNull) left)) (fun os =>
    Some (mkO (all_accept os) [] left []))) in
  match c with
  | KUnevaluatedItems => leave (o_places o ++ o_found o)
  | KUnevaluatedItems2019 => leave (o_places o)
  | KUnevaluatedProperties | KUnevaluatedProperties2019 =>
      obind (sub_of (Some k)) (fun t =>
      judge_members scope t (filter (fun kv => negb (mem_str (fst kv) (o_names o))) (members x)))
  | _ => None
  end.

Definition late (k : keyword) : option stdclass :=
  match kw_class k with
  | Std c => match c with
             | KUnevaluatedItems | KUnevaluatedItems2019
             | KUnevaluatedProperties | KUnevaluatedProperties2019 => Some c
             | _ => None
             end
  | Unknown _ => None
  end.

(** A keyword concerns only instances of certain types. *)
Definition concerns (x : json) (k : keyword) : bool :=
  negb (static (kw_class k)) && existsb (jtype_eqb (type_of x)) (instance_types (kw_class k)).

Definition judge_keyword (scope : list sid) (kws : list (pystr * keyword)) (x : json) (k : keyword) : option outcome :=
  match kw_class k with
  | Std c => judge_std scope kws k c x
  | Unknown _ => Some (plain true)
  end.

Definition judge_object (scope : list sid) (kws : list (pystr * keyword)) (x : json) : option outcome :=
  let concerned := filter (concerns x) (map snd kws) in
  let early := filter (fun k => match late k with None => true | Some _ => false end) concerned in
  match conclude (map (judge_keyword scope kws x) early) with
  | Some o =>
      if o_ok o then
        conclude (Some o :: flat_map (fun k => match late k with
                                               | Some c => [judge_unevaluated scope o k c x]
                                               | None => []
                                               end) concerned)
      else Some o
  | None => None
  end.
End Judge.

Fixpoint judge (W : world) (choose : pystr -> list sid -> sid -> sid) (n : nat) (scope : list sid) (s : sid) (x : json) : option outcome :=
  match n with
  | O => None
  | S n =>
      match w_schema W s with
      | SBool b => Some (plain b)
      | SObj kws => judge_object W choose (judge W choose n) (s :: scope) kws x
      end
  end.

(** The value [x] is valid (or not) against schema [s]. *)
Definition verdict (W : world) (s : sid) (x : json) (b : bool) : Prop :=
  exists n o, judge W (dynamic_choice W) n [] s x = Some o /\ o_ok o = b.

(** The same within a scope, and for a single keyword [k] of a schema object
    with keywords [kws]; [scope] starts with that schema. *)
Definition accepts (W : world) (scope : list sid) (s : sid) (x : json) (b : bool) : Prop :=
  exists n o, judge W (dynamic_choice W) n scope s x = Some o /\ o_ok o = b.
Definition kw_accepts (W : world) (scope : list sid) (kws : list (pystr * keyword)) (k : keyword) (x : json) (b : bool) : Prop :=
  exists n o, judge_keyword W (dynamic_choice W) (judge W (dynamic_choice W) n) scope kws x k = Some o /\ o_ok o = b.

(** ** The schemas considered. *)

(** [n] comes somewhere before [k] in the list of keys. *)
Definition earlier (n k : pystr) (l : list pystr) : Prop :=
  exists l1 l2 l3, l = l1 ++ n :: l2 ++ k :: l3.

(** What the metaschema demands of keyword values, where evaluation would
    otherwise go on with a value of another shape. *)
Definition value_ok (k : keyword) : bool :=
  match kw_json k with KSubm m => nodup_keysb m | _ => true end &&
  match kw_class k with
  | Std c =>
      match c, kw_json k with
      | (KRef | KDynamicRef | KRecursiveRef), KJ _ => true
      | (KRef | KDynamicRef | KRecursiveRef), _ => false
      | KType_, KJ (JStr _) => true
      | KType_, KJ (JArr l) => match strings l with Some _ => true | None => false end
      | KType_, _ => false
      | KUniqueItems, KJ (JBool _) => true
      | KUniqueItems, _ => false
      | KRequired, KJ (JArr l) => match strings l with Some _ => true | None => false end
      | KRequired, _ => false
      | KDependentRequired, KJ (JObj m) =>
          forallb (fun kv => match snd kv with JArr l => match strings l with Some _ => true | None => false end | _ => false end) m
      | KDependentRequired, _ => false
      | KEnum, KJ (JArr _) => true
      | KEnum, _ => false
      | KMultipleOf, KJ (JNum _) => true
      | KMultipleOf, _ => false
      | (KAllOf | KAnyOf | KOneOf | KPrefixItems), KJ _ => false
      | (KMaximum | KMinimum | KExclusiveMaximum | KExclusiveMinimum | KMaxLength | KMinLength | KMaxItems | KMinItems
        | KMaxContains | KMinContains | KMaxProperties | KMinProperties), KJ (JNum _) => true
      | (KMaximum | KMinimum | KExclusiveMaximum | KExclusiveMinimum | KMaxLength | KMinLength | KMaxItems | KMinItems
        | KMaxContains | KMinContains | KMaxProperties | KMinProperties), _ => false
      | KFormat, KJ (JStr _) => true
      | KFormat, _ => false
      | KItems2019, KSub _ => true
      | KItems2019, KSubs (_ :: _) => true
      | KItems2019, _ => false
      | _, _ => true
      end
  | Unknown _ => true
  end.

(** A world all of whose schemas are written in dialect [d], as JSONSchema
    builds them: distinct keys, the class of each keyword is the one the
    dialect has for its key, dependencies first. *)
Definition good_schema (d : list stdclass) (kws : list (pystr * keyword)) : Prop :=
  NoDup (keys kws) /\
  forall key k, In (key, k) kws ->
    value_ok k = true /\
    kw_class k = match find_class d key with Some c => Std c | None => Unknown key end /\
    forall n, In n (depends_on (kw_class k)) -> In n (keys kws) -> earlier n key (keys kws).
Definition good_world (d : list stdclass) (W : world) : Prop :=
  forall s kws, w_schema W s = SObj kws -> good_schema d kws.

Definition uses (W : world) (c : stdclass) : Prop :=
  exists s kws key k, w_schema W s = SObj kws /\ In (key, k) kws /\ kw_class k = Std c.

(** No schema uses an unevaluated keyword. *)
Definition no_unevaluated (W : world) : Prop :=
  ~ uses W KUnevaluatedItems /\ ~ uses W KUnevaluatedProperties /\
  ~ uses W KUnevaluatedItems2019 /\ ~ uses W KUnevaluatedProperties2019.

(** No schema uses not, and none uses the boolean form of items of 2019-09:
    the two constructs after which the code misjudges what has been evaluated
    (see C34 and C44). *)
Definition no_misjudged (W : world) : Prop :=
  ~ uses W KNot /\
  forall s kws key k t b, w_schema W s = SObj kws -> In (key, k) kws -> kw_class k = Std KItems2019 ->
    kw_json k = KSub t -> w_schema W t <> SBool b.

(** The dialect built on the vocabularies of 2019-09 ([legacy]), or one of the
    later ones. *)
Definition dialect (legacy : bool) (d : list stdclass) : Prop :=
  if legacy then d = dialect_2019_09 else d = dialect_2020_12 \/ d = dialect_next.

(** Whenever two schema resources declare the dynamic anchor that a dynamic
    reference of [W] asks for, it is the same schema. *)
Definition single_anchor (W : world) (f : pystr) : Prop :=
  forall s s' t t', anchored W f s = Some t -> anchored W f s' = Some t' -> t = t'.
Definition plain_dynamics (W : world) : Prop :=
  forall s kws key k, w_schema W s = SObj kws -> In (key, k) kws -> kw_dynamic k = true -> single_anchor W (kw_fragment k).

(** All the conditions under which evaluation is right (C27). *)
Definition fit (W : world) : Prop :=
  exists d legacy, dialect legacy d /\ good_world d W /\ (no_unevaluated W \/ no_misjudged W) /\ plain_dynamics W.

(** References lead to the same schema whatever the scope. *)
Definition static_world (W : world) : Prop :=
  forall s kws key k, w_schema W s = SObj kws -> In (key, k) kws -> kw_dynamic k = false /\ kw_class k <> Std KRecursiveRef.
