(** C28, C29, C30, C40: the order of keywords, the place of the instance,
    termination, and keywords that are there for information only. *)
From Coq Require Import String List Permutation Relations Lia.
From Verif Require Import SchemaAlike OrderFacts SchemaShift SpecTerm SchemaTerm SchemaCases.
Import ListNotations.
Open Scope string_scope.
Open Scope list_scope.
Open Scope nat_scope.

(** ** C28 *)

(** Whatever the keywords, and whether or not the result is the prescribed one. *)
Theorem C28_order : forall legacy d R R' W W' fuel fuel' s i r r',
  dialect legacy d -> all_written d R -> all_written d R' -> built R W -> built R' W' ->
  same_surroundings W W' -> (forall t, reordered (R t) (R' t)) ->
  jwf (i_val i) = true ->
  evaluate_root W fuel s i = Ok r -> evaluate_root W' fuel' s i = Ok r' -> r_valid r = r_valid r'.
Proof.
  intros legacy d R R' W W' fuel fuel' s i r r' Hd Hw Hw' Hb Hb' Hs Ho Hi E E'.
  refine (alike_valid W W' d legacy Hd (built_good d R W Hw Hb) (built_good d R' W' Hw' Hb') _ fuel fuel' s i r r' Hi E E').
  split; [exact Hs|]. apply (built_alike d R R'); auto. intro t. apply reordered_alike, Ho.
Qed.
Print Assumptions C28_order.

(** Such a world is always built, whatever the order. *)
Theorem C28_kept_order : forall d written, good_written d written ->
  exists kws, kept_order written = Ok kws /\ Permutation kws written /\ good_schema d kws.
Proof. exact kept_order_good. Qed.
Print Assumptions C28_kept_order.

(** {"unevaluatedProperties": false, "then": {"required": ["b"]}, "$id": "x", "properties": {"b": true},
     "if": {"properties": {"a": true}, "required": ["a"]}}, and the same written backwards. *)
Definition shuffled : list (pystr * keyword) :=
  let k := kw_in dialect_2020_12 in
  [k "unevaluatedProperties" (KSub 3); k "then" (KSub 2); k "$id" (KJ (text "x")); k "properties" (KSubm [(lit "b", 4)]); k "if" (KSub 1)].
Definition other_schemas : list snode :=
  let k := kw_in dialect_2020_12 in
  [ SObj [k "properties" (KSubm [(lit "a", 4)]); k "required" (KJ (JArr [text "a"]))];
    SObj [k "required" (KJ (JArr [text "b"]))]; SBool false; SBool true ].
Definition kept (w : list (pystr * keyword)) : list (pystr * keyword) := match kept_order w with Ok l => l | _ => [] end.
Definition as_written (w : list (pystr * keyword)) : list snode := SObj w :: other_schemas.
Definition as_built (w : list (pystr * keyword)) : world := small (SObj (kept w) :: other_schemas).
Lemma built_as w : kept_order w = Ok (kept w) -> built (fun s => nth s (as_written w) (SBool true)) (as_built w).
Proof.
  intros H s. cbn [as_written as_built small w_schema]. destruct s as [|s]; [exact H|]. cbn [nth].
  do 4 (destruct s as [|s]; [vm_compute; reflexivity|]). cbn. destruct s; reflexivity.
Qed.
Definition good_writtenb (d : list stdclass) (s : snode) : bool :=
  match s with
  | SBool _ => true
  | SObj kws => nodup_keysb kws && forallb (fun kv => value_ok (snd kv)
      && kwclass_eqb (kw_class (snd kv)) (match find_class d (fst kv) with Some c => Std c | None => Unknown (fst kv) end)) kws
  end.
Lemma all_written_small d l : forallb (good_writtenb d) l = true -> all_written d (fun s => nth s l (SBool true)).
Proof.
  intros H s kws Hs. rewrite forallb_forall in H. destruct (nth_in_or_default s l (SBool true)) as [I|I]; [|rewrite I in Hs; discriminate].
  rewrite Hs in I. specialize (H _ I). cbn [good_writtenb] in H. apply andb_true_iff in H. destruct H as [H1 H2].
  split; [now apply nodup_keysb_NoDup|]. intros key k Hk. rewrite forallb_forall in H2. specialize (H2 _ Hk). cbn [fst snd] in H2.
  apply andb_true_iff in H2. destruct H2 as [H2 H3]. split; [exact H2|].
  destruct (kwclass_eqb_spec (kw_class k) (match find_class d key with Some c => Std c | None => Unknown key end)); [assumption|discriminate].
Qed.
Example C28_case :
  (all_written dialect_2020_12 (fun s => nth s (as_written shuffled) (SBool true))
   /\ all_written dialect_2020_12 (fun s => nth s (as_written (rev shuffled)) (SBool true))
   /\ built (fun s => nth s (as_written shuffled) (SBool true)) (as_built shuffled)
   /\ built (fun s => nth s (as_written (rev shuffled)) (SBool true)) (as_built (rev shuffled))
   /\ (forall t, reordered (nth t (as_written shuffled) (SBool true)) (nth t (as_written (rev shuffled)) (SBool true)))
   /\ no_misjudged (as_built shuffled))
  /\ map fst (kept shuffled) <> map fst (kept (rev shuffled)) /\ map fst (kept shuffled) <> map fst shuffled
  /\ valid_of (evaluate_root (as_built shuffled) 9 0 (root (obj [("a", JNull); ("b", JNull)]))) = Some true
  /\ valid_of (evaluate_root (as_built (rev shuffled)) 9 0 (root (obj [("a", JNull); ("b", JNull)]))) = Some true
  /\ valid_of (evaluate_root (as_built shuffled) 9 0 (root (obj [("a", JNull)]))) = Some false
  /\ valid_of (evaluate_root (as_built (rev shuffled)) 9 0 (root (obj [("a", JNull)]))) = Some false.
Proof.
  split; [|split; [|split; [|repeat split; vm_compute; reflexivity]]].
  - split; [apply all_written_small; vm_compute; reflexivity|]. split; [apply all_written_small; vm_compute; reflexivity|].
    split; [apply built_as; vm_compute; reflexivity|]. split; [apply built_as; vm_compute; reflexivity|].
    split; [|apply no_misjudged_small; vm_compute; reflexivity].
    intro t. unfold as_written. destruct t as [|t]; [cbn; apply Permutation_rev|]. cbn [nth].
    do 4 (destruct t as [|t]; [cbn; auto|]). cbn. destruct t; reflexivity.
  - vm_compute. discriminate.
  - vm_compute. discriminate.
Qed.

(** ** C29 *)
Theorem C29_relocated : forall W fuel s p v,
  evaluate_root W fuel s (mkInst p v) = rmap (SpecShift.shift p) (evaluate_root W fuel s (mkInst [] v)).
Proof.
  intros W fuel s p v. unfold evaluate_root. pose proof (evaluate_shift p W fuel s (mkInst [] v) [] (new_root s (mkInst [] v))) as H.
  unfold shift_in in H. cbn [i_path i_val] in H. rewrite app_nil_r in H. rewrite <- H. f_equal. cbn. now rewrite app_nil_r.
Qed.
Print Assumptions C29_relocated.
Theorem C29_valid : forall W fuel s p v,
  valid_of (evaluate_root W fuel s (mkInst p v)) = valid_of (evaluate_root W fuel s (mkInst [] v)).
Proof. intros W fuel s p v. rewrite C29_relocated. destruct (evaluate_root W fuel s (mkInst [] v)); cbn; [now rewrite s_valid|reflexivity|reflexivity]. Qed.
Print Assumptions C29_valid.
Theorem C29_annotations : forall W fuel s p v r key q,
  evaluate_root W fuel s (mkInst [] v) = Ok r ->
  exists r', evaluate_root W fuel s (mkInst p v) = Ok r' /\ r_valid r' = r_valid r /\
    collect_annotations None key r' = collect_annotations None key r /\
    collect_annotations (Some (p ++ q)) key r' = collect_annotations (Some q) key r.
Proof.
  intros W fuel s p v r key q E. exists (SpecShift.shift p r). rewrite C29_relocated, E. split; [reflexivity|]. split; [apply s_valid|].
  split; [apply collect_shift_any|apply collect_shift].
Qed.
Print Assumptions C29_annotations.

(** {"properties": {"a": {"title": "t"}}} on {"a": 1}, as a document and as a member of a document. *)
Definition titled : list snode :=
  let k := kw_in dialect_2020_12 in [ SObj [k "properties" (KSubm [(lit "a", 1)])]; SObj [k "title" (KJ (text "t"))] ].
Example C29_case :
  match evaluate_root (small titled) 9 0 (mkInst [] (obj [("a", int 1)])), evaluate_root (small titled) 9 0 (mkInst [lit "x"; lit "0"] (obj [("a", int 1)])) with
  | Ok r, Ok r' => r <> r' /\ r_valid r' = true
      /\ collect_annotations (Some [lit "a"]) (Some (lit "title")) r = [text "t"]
      /\ collect_annotations (Some [lit "x"; lit "0"; lit "a"]) (Some (lit "title")) r' = [text "t"]
      /\ collect_annotations (Some [lit "a"]) (Some (lit "title")) r' = []
  | _, _ => False
  end.
Proof. vm_compute. repeat split. discriminate. Qed.

(** ** C30 *)

(** [Ok] or an exception, the same one for all larger amounts of fuel. *)
Theorem C30_terminates : forall W, finite_world W -> guarded W ->
  forall s i, exists N r, r <> Fuel /\ forall fuel, N <= fuel -> evaluate_root W fuel s i = r.
Proof. intros W Hf Hg s i. exact (evaluate_ends W (guarded_Acc W Hf Hg) s i [] (new_root s i)). Qed.
Print Assumptions C30_terminates.
(** The same for infinitely many schemas, when no in-place path goes on for ever. *)
Theorem C30_terminates_wellfounded : forall W, (forall s, Acc (fun t s => in_place W s t) s) ->
  forall s i, exists N r, r <> Fuel /\ forall fuel, N <= fuel -> evaluate_root W fuel s i = r.
Proof. intros W Hacc s i. exact (evaluate_ends W Hacc s i [] (new_root s i)). Qed.
Print Assumptions C30_terminates_wellfounded.
(** Schemas each of which refers to another of them never return a result. *)
Theorem C30_circular_never : forall W (P : sid -> Prop),
  (forall s, P s -> exists kws key k t, w_schema W s = SObj kws /\ In (key, k) kws /\ kw_class k = Std KRef /\ kw_ref k = Some t /\ P t) ->
  forall fuel s i r, P s -> evaluate_root W fuel s i <> Ok r.
Proof. intros W P H fuel s i r Hs. exact (circular_never W P H fuel s i [] (new_root s i) r Hs). Qed.
Print Assumptions C30_circular_never.
(** If the reference is the first keyword, they do not raise an error either. *)
Theorem C30_circular_forever : forall W (P : sid -> Prop),
  (forall s, P s -> exists kws key k t, w_schema W s = SObj ((key, k) :: kws) /\ kw_class k = Std KRef /\ kw_ref k = Some t /\ P t) ->
  forall fuel s i, P s -> evaluate_root W fuel s i = Fuel.
Proof. intros W P H fuel s i Hs. exact (circular_forever W P H fuel s i [] (new_root s i) Hs). Qed.
Print Assumptions C30_circular_forever.

(** Small worlds are guarded when each step in place makes a rank smaller. *)
Definition targets (kws : list (pystr * keyword)) : list sid :=
  flat_map (fun kv => let k := snd kv in
    match kw_ref k with Some t => [t] | None => [] end
    ++ match kw_class k with
       | Std (KAllOf | KAnyOf | KOneOf) => match kw_json k with KSubs ts => ts | _ => [] end
       | Std (KNot | KIf | KThen | KElse) => match kw_json k with KSub t => [t] | _ => [] end
       | Std KDependentSchemas => match kw_json k with KSubm m => map snd m | _ => [] end
       | _ => []
       end) kws.
Definition ranked (rank : list nat) (l : list snode) : bool :=
  forallb (fun s => match nth s l (SBool true) with
                    | SBool _ => true
                    | SObj kws => forallb (fun t => nth t rank 0 <? nth s rank 0) (targets kws)
                    end) (seq 0 (length l)).
Lemma guarded_small rank l : ranked rank l = true -> uses_none KRecursiveRef l = true -> guarded (small l).
Proof.
  intros H U.
  assert (Step : forall s t, in_place (small l) s t -> nth t rank 0 < nth s rank 0).
  { intros s t E. unfold ranked in H. rewrite forallb_forall in H.
    assert (X : forall kws, w_schema (small l) s = SObj kws -> In t (targets kws) -> nth t rank 0 < nth s rank 0).
    { intros kws Hs Ht. cbn in Hs. destruct (Nat.lt_ge_cases s (length l)) as [L|L]; [|rewrite (nth_overflow l (SBool true) L) in Hs; discriminate].
      specialize (H s). rewrite Hs, forallb_forall in H. apply Nat.ltb_lt, H; [apply in_seq; lia|exact Ht]. }
    destruct E as [kws key k t Hs Hk Hc Hr|kws key k b t Hs Hk Hc Hd Ha|kws key k t Hs Hk Hc Hr|kws key k c ts t Hs Hk Hc Hor Hj Ht|kws key k c t Hs Hk Hc Hor Hj|kws key k m name t Hs Hk Hc Hj Ht].
    - apply (X kws Hs). apply in_flat_map. exists (key, k). split; [exact Hk|]. cbn [snd]. rewrite Hr. now left.
    - discriminate Ha.
    - exfalso. apply (uses_small KRecursiveRef l U). exists s, kws, key, k. auto.
    - apply (X kws Hs). apply in_flat_map. exists (key, k). split; [exact Hk|]. cbn [snd]. apply in_app_iff. right. rewrite Hc. destruct Hor as [->|[->| ->]]; now rewrite Hj.
    - apply (X kws Hs). apply in_flat_map. exists (key, k). split; [exact Hk|]. cbn [snd]. apply in_app_iff. right. rewrite Hc. destruct Hor as [->|[->|[->| ->]]]; rewrite Hj; now left.
    - apply (X kws Hs). apply in_flat_map. exists (key, k). split; [exact Hk|]. cbn [snd]. apply in_app_iff. right. rewrite Hc, Hj. now apply (in_map snd) in Ht. }
  intros s C. assert (Y : forall a b, clos_trans sid (in_place (small l)) a b -> nth b rank 0 < nth a rank 0).
  { intros a b. induction 1; [auto|lia]. }
  specialize (Y s s C). lia.
Qed.
Lemma finite_small l : finite_world (small l).
Proof. exists (length l). intros s Hs. exists true. cbn. now apply nth_overflow. Qed.

(** {"$ref": "#/$defs/node", "$defs": {"node": {"properties": {"next": {"$ref": "#"}}, "allOf": [{"type": "object"}]}}}
    goes round by way of [properties] only; {"$defs": {"a": {"$ref": "#/$defs/b"}, "b": {"$ref": "#/$defs/a"}}} goes
    round in place. *)
Definition linked : list snode :=
  let k := kw_in dialect_2020_12 in
  [ SObj [ref_in dialect_2020_12 "$ref" 1];
    SObj [k "properties" (KSubm [(lit "next", 2)]); k "allOf" (KSubs [3])];
    SObj [ref_in dialect_2020_12 "$ref" 0]; SObj [k "type" (KJ (text "object"))] ].
Definition circle : list snode := [ SObj [ref_in dialect_2020_12 "$ref" 1]; SObj [ref_in dialect_2020_12 "$ref" 0] ].
Example C30_case :
  guarded (small linked) /\ finite_world (small linked)
  /\ valid_of (evaluate_root (small linked) 30 0 (root (obj [("next", obj [("next", obj [])])]))) = Some true
  /\ valid_of (evaluate_root (small linked) 30 0 (root (obj [("next", obj [("next", JNull)])]))) = Some false
  /\ (forall s, s < 2 -> exists kws key k t, w_schema (small circle) s = SObj ((key, k) :: kws) /\ kw_class k = Std KRef /\ kw_ref k = Some t /\ t < 2).
Proof.
  split; [apply (guarded_small [2; 1; 3; 0]); vm_compute; reflexivity|]. split; [apply finite_small|].
  split; [vm_compute; reflexivity|]. split; [vm_compute; reflexivity|].
  intros s Hs. destruct s as [|[|s]]; [| |lia]; do 4 eexists; (split; [reflexivity|]); (split; [reflexivity|]); (split; [reflexivity|]); lia.
Qed.

(** ** C40 *)

Theorem C40_inert : forall legacy d R R' W W' fuel fuel' s i r r',
  dialect legacy d -> all_written d R -> all_written d R' -> built R W -> built R' W' ->
  same_surroundings W W' -> (forall t, alike_schema (R t) (R' t)) ->
  jwf (i_val i) = true ->
  evaluate_root W fuel s i = Ok r -> evaluate_root W' fuel' s i = Ok r' -> r_valid r = r_valid r'.
Proof.
  intros legacy d R R' W W' fuel fuel' s i r r' Hd Hw Hw' Hb Hb' Hs Ho Hi E E'.
  refine (alike_valid W W' d legacy Hd (built_good d R W Hw Hb) (built_good d R' W' Hw' Hb') _ fuel fuel' s i r r' Hi E E').
  split; [exact Hs|]. exact (built_alike d R R' W W' Hw Hw' Hb Hb' Ho).
Qed.
Print Assumptions C40_inert.

(** The schema of C28 with a title, an unknown keyword, a format and a contentSchema added. *)
Definition informed : list (pystr * keyword) :=
  let k := kw_in dialect_2020_12 in
  k "title" (KJ (text "t")) :: k "x-unknown" (KJ (JArr [JNull])) :: k "format" (KJ (text "date")) :: shuffled ++ [k "contentSchema" (KJ (obj []))].
Example C40_case :
  (all_written dialect_2020_12 (fun s => nth s (as_written informed) (SBool true))
   /\ built (fun s => nth s (as_written informed) (SBool true)) (as_built informed)
   /\ (forall t, alike_schema (nth t (as_written informed) (SBool true)) (nth t (as_written shuffled) (SBool true))))
  /\ valid_of (evaluate_root (as_built informed) 9 0 (root (obj [("a", JNull); ("b", JNull)]))) = Some true
  /\ valid_of (evaluate_root (as_built informed) 9 0 (root (obj [("a", JNull)]))) = Some false.
Proof.
  split; [|split; vm_compute; reflexivity].
  split; [apply all_written_small; vm_compute; reflexivity|]. split; [apply built_as; vm_compute; reflexivity|].
  intro t. unfold as_written. destruct t as [|t].
  - cbn [nth alike_schema]. intros key kw Hi. unfold informed. cbv zeta. split.
    + intro H. do 3 (destruct H as [H|H]; [injection H as <- <-; vm_compute in Hi; discriminate|]). apply in_app_iff in H. destruct H as [H|[H|[]]]; [exact H|].
      injection H as <- <-. vm_compute in Hi. discriminate.
    + intro H. right. right. right. apply in_app_iff. now left.
  - cbn [nth]. do 4 (destruct t as [|t]; [cbn; tauto|]). cbn. destruct t; reflexivity.
Qed.
