(** C102: editing a schema that has been constructed. *)
From Coq Require Import String List Bool Lia.
From Verif Require Import SchemaCases ReadBackFacts EditSane PropsBuild.
Import ListNotations.
Open Scope string_scope.
Open Scope list_scope.
Open Scope nat_scope.

(** Schema [s] is part of a document [v] with root [r], at [p]. *)
Definition part_at (E : env) (c : cat) (m u : option uri) (v : json) (r : sid) (p : list pystr) (s : sid) : Prop :=
  made E (c_objs c) m None u v r None /\ reached (c_objs c) r p s.
(** Catalogs that arise from constructing schemas, looking them up, and editing
    parts of them, whether that succeeds or not. *)
Inductive worked (E : env) : cat -> Prop :=
| work_start c : reachable c -> worked E c
| work_construct f id v u m c : worked E c -> worked E (snd (construct E f id v u m c))
| work_get f id u m c : worked E c -> worked E (snd (get_schema E f id u m c))
| work_leave id c : worked E c -> worked E (mkCat (c_objs c) (leave_cache id (c_cache c)))
| work_edit c m u v r p s key q e : worked E c -> part_at E c m u v r p s -> worked E (snd (amend_schema E s key q e c)).

Lemma part_made E c r p s : upward (c_objs c) -> reached (c_objs c) r p s -> forall m b u v up, made E (c_objs c) m b u v r up -> in_place (c_objs c) m b up ->
  exists m' b' u' v' up', made E (c_objs c) m' b' u' v' s up' /\ in_place (c_objs c) m' b' up'.
Proof.
  intros U R. induction R as [r|r kws key k ks t p t' (o & Ho & Hd) Hk F R IH]; intros m b u v up Md P; [exists m, b, u, v, up; auto|].
  destruct (made_member E _ _ _ _ _ _ _ _ _ _ _ U Md P Ho Hd Hk) as (doc & w & _ & _ & H0 & Em & Eb). destruct (first_made E _ _ _ _ _ _ _ _ _ _ H0 F) as [w' Mt].
  apply (IH _ _ _ _ _ Mt). split; symmetry; assumption.
Qed.
Lemma worked_sane E c : worked E c -> sane c.
Proof.
  induction 1 as [c R|f id v u m c _ IH|f id u m c _ IH|id c _ IH|c m u v r p s key q e _ IH (Md & R)].
  - now apply reachable_sane.
  - apply (safe_construct E f 0 id v u m c IH (Nat.le_0_l _)).
  - apply (safe_get_schema E f 0 id u m c IH (Nat.le_0_l _)).
  - now apply sane_leave.
  - destruct (amend_schema E s key q e c) as [x c'] eqn:H. cbn [snd]. exact (proj1 (amend_sane E s key q e c x c' IH (part_made E c r p s (proj1 IH) R _ _ _ _ _ Md eq_refl) H)).
Qed.

(** Setting, inserting or deleting an item of the value of a keyword, or of a
    node further inside it, anywhere in a schema document, leaves the schema that the edited document
    describes: the same keywords of the same classes, subschemas likewise at
    their new places, under the metaschema and base URI in force there. *)
Theorem C102_edited : forall E c m u v r p s key q e x c',
  worked E c -> part_at E c m u v r p s -> (forall w, item_of e = Some w -> jwf w = true) -> amend_schema E s key q e c = (Ok x, c') ->
  exists v', amended e (p ++ key :: map way_key q) v v' /\ made E (c_objs c') m None u v' r None.
Proof.
  intros E c m u v r p s key q e x c' Wk [Md R] J H. pose proof (worked_sane _ _ Wk) as S.
  destruct (amend_done E s key q e c x c' (proj1 S) J (part_made E c r p s (proj1 S) R _ _ _ _ _ Md eq_refl) H) as (c1 & O1 & U1 & Out & Here & _).
  assert (Md1 : made E (c_objs c1) m None u v r None) by (apply (made_agree E (c_objs c)); [exact (proj1 S)|exact Md|now apply old_agrees]).
  assert (R1 : reached (c_objs c1) r p s).
  { clear -R O1. induction R as [r|r kws k0 k ks t p t' (o & Ho & Hd) Hk F R IH]; [constructor|]. apply (reach_below _ _ kws k0 k ks t p t'); auto. exists o. split; [|exact Hd].
    destruct O1 as [_ X]. rewrite X; [exact Ho|]. apply nth_error_Some. congruence. }
  exact (amended_lift E (c_objs c1) (c_objs c') U1 e (key :: map way_key q) s Out Here r p R1 m None u v None Md1 eq_refl).
Qed.
Print Assumptions C102_edited.

(** An edit that raises leaves all schemas as they were. *)
Theorem C102_failed : forall E c m u v r p s key q e c' ex,
  worked E c -> part_at E c m u v r p s -> amend_schema E s key q e c = (Exn ex, c') ->
  (forall i, i < length (c_objs c) -> nth_error (c_objs c') i = nth_error (c_objs c) i) /\
  forall m' b u' v' r' up, made E (c_objs c) m' b u' v' r' up -> made E (c_objs c') m' b u' v' r' up.
Proof.
  intros E c m u v r p s key q e c' ex Wk [Md R] H. pose proof (worked_sane _ _ Wk) as S.
  pose proof (proj2 (amend_sane E s key q e c _ c' S (part_made E c r p s (proj1 S) R _ _ _ _ _ Md eq_refl) H)) as O. specialize (O tt). assert (O' : same_old c c') by (apply O; discriminate).
  split; [exact (proj2 O')|]. intros m' b u' v' r' up Md'. apply (made_agree E (c_objs c)); [exact (proj1 S)|exact Md'|now apply old_agrees].
Qed.
Print Assumptions C102_failed.

(** Other documents in the catalog are not affected. *)
Theorem C102_others : forall E c m u v r p s key q e x c' m' u' v' r',
  worked E c -> part_at E c m u v r p s -> (forall w, item_of e = Some w -> jwf w = true) -> amend_schema E s key q e c = (Ok x, c') ->
  made E (c_objs c) m' None u' v' r' None -> r' <> r -> made E (c_objs c') m' None u' v' r' None.
Proof.
  intros E c m u v r p s key q e x c' m' u' v' r' Wk [Md R] J H Md' Nr. pose proof (worked_sane _ _ Wk) as S.
  destruct (amend_done E s key q e c x c' (proj1 S) J (part_made E c r p s (proj1 S) R _ _ _ _ _ Md eq_refl) H) as (c1 & O1 & U1 & Out & _ & _).
  assert (Md1 : made E (c_objs c1) m None u v r None) by (apply (made_agree E (c_objs c)); [exact (proj1 S)|exact Md|now apply old_agrees]).
  assert (Md1' : made E (c_objs c1) m' None u' v' r' None) by (apply (made_agree E (c_objs c)); [exact (proj1 S)|exact Md'|now apply old_agrees]).
  assert (R1 : reached (c_objs c1) r p s).
  { clear -R O1. induction R as [r|r kws k0 k ks t p t' (o & Ho & Hd) Hk F R IH]; [constructor|]. apply (reach_below _ _ kws k0 k ks t p t'); auto. exists o. split; [|exact Hd].
    destruct O1 as [_ X]. rewrite X; [exact Ho|]. apply nth_error_Some. congruence. }
  assert (Root : forall a b, (exists o, nth_error (c_objs c1) b = Some o /\ so_up o = None) -> beneath (c_objs c1) a b -> a = b).
  { intros a b (o & Ho & Hu) B. inversion B as [|i o' p' ks' Ho' Hu' Hb']; subst; [reflexivity|]. congruence. }
  apply (made_stays E (c_objs c1) (c_objs c')); [exact Md1'|]. intros i oi B Hi. apply Out; [exact Hi|]. intro B'. apply Nr.
  pose proof (beneath_trans _ _ _ _ (reached_beneath E _ _ _ _ R1 _ _ _ _ _ Md1) B') as Br.
  destruct (beneath_linear _ _ _ _ B Br) as [X|X]; [exact (Root _ _ (made_up _ _ _ _ _ _ _ _ Md1) X)|symmetry; exact (Root _ _ (made_up _ _ _ _ _ _ _ _ Md1') X)].
Qed.
Print Assumptions C102_others.

(** The schema then reads back as the edited document. *)
Lemma amended_jwf e p v v' : (forall w, item_of e = Some w -> jwf w = true) -> amended e p v v' -> jwf v = true -> jwf v' = true.
Proof.
  intros J A. induction A as [v v' A|p l1 x x' l2 A IH|k p x x' m1 m2 N A IH]; intro W.
  - destruct A as [l1 x l2 w|l1 l2 w|l1 x l2|n x w m1 m2 N|n w m N|n x m1 m2 N]; cbn [item_of] in J.
    + apply jwf_arr in W. apply jwf_arr. apply Forall_app in W. destruct W as [W1 W2]. apply Forall_app. split; [exact W1|]. inversion W2; subst. constructor; auto.
    + apply jwf_arr in W. apply jwf_arr. apply Forall_app in W. destruct W as [W1 W2]. apply Forall_app. split; [exact W1|]. constructor; auto.
    + apply jwf_arr in W. apply jwf_arr. apply Forall_app in W. destruct W as [W1 W2]. apply Forall_app. split; [exact W1|]. now inversion W2.
    + apply jwf_obj in W. destruct W as [Nd W]. apply jwf_obj. split; [unfold keys in *; now rewrite !map_app in *|]. apply Forall_app in W. destruct W as [W1 W2]. apply Forall_app. split; [exact W1|]. inversion W2; subst. constructor; [now apply J|assumption].
    + apply jwf_obj in W. destruct W as [Nd W]. apply jwf_obj. split; [|apply Forall_app; split; [exact W|constructor; [now apply J|constructor]]].
      unfold keys. rewrite map_app. cbn [map fst]. apply (NoDup_Add (a := n) (l := keys m)); [|auto]. pose proof (Add_app n (keys m) []) as X. now rewrite app_nil_r in X.
    + apply jwf_obj in W. destruct W as [Nd W]. apply jwf_obj. split; [|apply Forall_app in W; destruct W as [W1 W2]; apply Forall_app; split; [exact W1|now inversion W2]].
      unfold keys in *. rewrite map_app in *. cbn [map fst] in Nd. exact (NoDup_remove_1 _ _ _ Nd).
  - apply jwf_arr in W. apply jwf_arr. apply Forall_app in W. destruct W as [W1 W2]. apply Forall_app. split; [exact W1|]. inversion W2; subst. constructor; auto.
  - apply jwf_obj in W. destruct W as [Nd W]. apply jwf_obj. split; [unfold keys in *; now rewrite !map_app in *|]. apply Forall_app in W. destruct W as [W1 W2]. apply Forall_app. split; [exact W1|].
    inversion W2; subst. constructor; [now apply IH|assumption].
Qed.
Theorem C102_value : forall E c m u v r p s key q e x c',
  worked E c -> part_at E c m u v r p s -> jwf v = true -> (forall w, item_of e = Some w -> jwf w = true) -> amend_schema E s key q e c = (Ok x, c') ->
  exists v' y, amended e (p ++ key :: map way_key q) v v' /\ schema_value (length (c_objs c')) (c_objs c') r = Some y /\ looks_like eq y v'.
Proof.
  intros E c m u v r p s key q e x c' Wk Pa Jv J H. destruct (C102_edited E c m u v r p s key q e x c' Wk Pa J H) as (v' & A & Md).
  assert (S : sane c') by (pose proof (worked_sane E _ (work_edit E c m u v r p s key q e Wk Pa)) as S; now rewrite H in S).
  destruct (made_value E (c_objs c') (proj1 S) (length (c_objs c')) m None u v' r None (Nat.le_sub_l _ _) (amended_jwf _ _ _ _ J A Jv) Md) as (y & Y & L & _). exists v', y. auto.
Qed.
Print Assumptions C102_value.

(** The references in what is brought in are not resolved. *)
Lemma relabel_data s key ts : forall j c i, option_map so_data (nth_error (c_objs (snd (relabel s key j ts c))) i) = option_map so_data (nth_error (c_objs c) i).
Proof.
  induction ts as [|t ts IH]; intros j c i; [reflexivity|]. cbn [relabel]. unfold bindM, update, modify. rewrite IH. destruct (nth_error (c_objs c) t) as [o|] eqn:Ho; [|reflexivity].
  cbn [put_obj c_objs]. destruct (Nat.eq_dec i t) as [->|N]; [|now rewrite nth_set_nth_other by congruence]. rewrite nth_set_nth_same by (apply nth_error_Some; congruence). now rewrite Ho.
Qed.
Lemma put_data s key j c i : i <> s -> nth_error (c_objs (snd (put_json s key j c))) i = nth_error (c_objs c) i.
Proof. intro N. unfold put_json, update, modify. cbn [snd]. destruct (nth_error (c_objs c) s); [|reflexivity]. cbn [put_obj c_objs]. apply nth_set_nth_other. congruence. Qed.
Theorem C102_unresolved : forall E c m u v r p s key q e x c' t kws key' k,
  worked E c -> part_at E c m u v r p s -> amend_schema E s key q e c = (Ok x, c') ->
  length (c_objs c) <= t -> keywords_at (c_objs c') t kws -> In (key', k) kws -> kw_ref k = None.
Proof.
  intros E c m u v r p s key q e x c' t kws key' k Wk [Md R] H Lt Ka Hk. unfold amend_schema, bindM at 1, read in H.
  destruct (nth_error (c_objs c) s) as [o|] eqn:Ho; [|discriminate H]. destruct (so_data o) as [|kws0]; [discriminate H|]. destruct (dget key kws0) as [k0|]; [|discriminate H].
  assert (Ns : t <> s) by (intros ->; assert (s < length (c_objs c)) by (apply nth_error_Some; congruence); lia).
  assert (Same : forall c1, (forall i, i <> s -> option_map so_data (nth_error (c_objs c') i) = option_map so_data (nth_error (c_objs c1) i)) -> keywords_at (c_objs c1) t kws).
  { intros c1 D. specialize (D t Ns). destruct Ka as (o' & Ho' & Hd'). rewrite Ho' in D. destruct (nth_error (c_objs c1) t) as [o1|] eqn:H1; [|discriminate D]. exists o1. split; [exact H1|].
    cbn [option_map] in D. apply (f_equal (fun y => match y with Some d => d | None => SBool true end)) in D. congruence. }
  assert (New : forall id n w t0 c1, new_item E id s key n w c = (Ok t0, c1) -> keywords_at (c_objs c1) t kws -> kw_ref k = None).
  { intros id n w t0 c1 B K1. unfold new_item in B. exact (build_unref E _ _ _ _ _ _ _ _ B t Lt kws key' k K1 Hk). }
  assert (Nope : keywords_at (c_objs c) t kws -> kw_ref k = None) by (intros (o' & Ho' & _); assert (t < length (c_objs c)) by (apply nth_error_Some; congruence); lia).
  assert (Put : forall j c1 y c2, put_json s key j c1 = (y, c2) -> forall i, i <> s -> option_map so_data (nth_error (c_objs c2) i) = option_map so_data (nth_error (c_objs c1) i)).
  { intros j c1 y c2 Hp i Hi. pose proof (put_data s key j c1 i Hi) as X. rewrite Hp in X. cbn [snd] in X. now rewrite X. }
  assert (Rel : forall ts j c1 y c2, relabel s key j ts c1 = (y, c2) -> forall i, option_map so_data (nth_error (c_objs c2) i) = option_map so_data (nth_error (c_objs c1) i)).
  { intros ts j c1 y c2 Hr i. pose proof (relabel_data s key ts j c1 i) as X. now rewrite Hr in X. }
  destruct q as [|w0 q].
  2:{ destruct (kw_json k0) as [pv|t0|ts|ts]; try discriminate H. apply bind_ok in H. destruct H as (v' & c1 & H1 & H2). apply lift_ok in H1. destruct H1 as [_ <-]. apply Nope, Same. exact (Put _ _ _ _ H2). }
  unfold amend_node in H. destruct (kw_json k0) as [pv|t0|ts|ts].
  - assert (H' : (do v' <- lift (amend_value e pv); put_json s key (KJ v')) c = (Ok x, c')) by (destruct e; exact H). clear H.
    apply bind_ok in H'. destruct H' as (v' & c1 & H1 & H2). apply lift_ok in H1. destruct H1 as [_ <-]. apply Nope, Same. exact (Put _ _ _ _ H2).
  - destruct e; discriminate H.
  - destruct e as [i w|i w|i|n w|n]; try discriminate H.
    + apply bind_ok in H. destruct H as (t1 & c1 & H1 & H). destruct (i <? length ts); [|discriminate H]. apply (New _ _ _ _ _ H1), Same. exact (Put _ _ _ _ H).
    + destruct (length ts <? i); [discriminate H|]. apply bind_ok in H. destruct H as (t1 & c1 & H1 & H). apply bind_ok in H. destruct H as (y & c2 & H2 & H).
      apply (New _ _ _ _ _ H1), Same. intros i0 Hi. rewrite (Rel _ _ _ _ _ H). exact (Put _ _ _ _ H2 _ Hi).
    + destruct (i <? length ts); [|discriminate H]. apply bind_ok in H. destruct H as (y & c2 & H2 & H). apply Nope, Same. intros i0 Hi. rewrite (Rel _ _ _ _ _ H). exact (Put _ _ _ _ H2 _ Hi).
  - destruct e as [i w|i w|i|n w|n]; try discriminate H.
    + apply bind_ok in H. destruct H as (t1 & c1 & H1 & H). apply (New _ _ _ _ _ H1), Same. exact (Put _ _ _ _ H).
    + destruct (dmem n ts); [|discriminate H]. apply Nope, Same. exact (Put _ _ _ _ H).
Qed.
Print Assumptions C102_unresolved.

(** schema[key] = v raises AttributeError, and nothing happens. *)
Theorem C102_assignment : forall E s key v c, set_keyword s key v c = (Exn EAttribute, c) /\ (worked E c -> worked E (snd (set_keyword s key v c))).
Proof. intros. split; [reflexivity|auto]. Qed.
Print Assumptions C102_assignment.

Definition cabinet : json :=
  obj [("$id", text "http://a/x"); ("$defs", obj [("y", obj [("type", text "string")])]);
       ("properties", obj [("p", obj [("allOf", JArr [JBool true; obj [("minLength", int 2)]])])])].
Definition E102 : env := env_of [] [].
Definition cat102 : cat := snd (construct E102 9 default cabinet None (Some META) empty).
Lemma cabinet_part : worked E102 cat102 /\ part_at E102 cat102 (Some META) (Some (e_uuid E102 0)) cabinet 0 [lit "properties"; lit "p"] 2.
Proof.
  split; [apply work_construct, work_start; constructor|]. split.
  - refine (proj1 (C55_made E102 9 default cabinet None (Some META) empty 0 cat102 _ _ _ _)); [now apply shelf_reads|constructor|reflexivity|].
    unfold cat102. destruct (construct E102 9 default cabinet None (Some META) empty) as [x c'] eqn:H. cbn [snd]. f_equal. apply (f_equal fst) in H. cbn [fst] in H. rewrite <- H. vm_compute. reflexivity.
  - destruct (nth_error (c_objs cat102) 0) as [o|] eqn:Ho; [|vm_compute in Ho; discriminate Ho]. destruct (so_data o) as [|kws] eqn:Hd; [apply (f_equal (option_map so_data)) in Ho; cbn [option_map] in Ho; rewrite Hd in Ho; vm_compute in Ho; discriminate Ho|].
    destruct (dget (lit "properties") kws) as [k|] eqn:Hk.
    + apply (reach_below _ _ kws (lit "properties") k [lit "p"] 2 [] 2); [exists o; auto|now apply dget_In| |constructor].
      assert (Q : option_map (fun o => match so_data o with SObj kws => option_map kw_json (dget (lit "properties") kws) | _ => None end) (nth_error (c_objs cat102) 0) = Some (Some (KSubm [(lit "p", 2)]))) by (vm_compute; reflexivity).
      rewrite Ho in Q. cbn [option_map] in Q. rewrite Hd, Hk in Q. cbn [option_map] in Q. unfold first_keys. assert (Q' : kw_json k = KSubm [(lit "p", 2)]) by congruence. rewrite Q'. exists (lit "p"). split; reflexivity.
    + assert (Q : option_map (fun o => match so_data o with SObj kws => option_map kw_json (dget (lit "properties") kws) | _ => None end) (nth_error (c_objs cat102) 0) = Some (Some (KSubm [(lit "p", 2)]))) by (vm_compute; reflexivity).
      rewrite Ho in Q. cbn [option_map] in Q. rewrite Hd, Hk in Q. cbn [option_map] in Q. congruence.
Qed.
Definition says (c : cat) (v : json) : option bool :=
  match evaluate_root (objs_world (c_objs c)) 30 0 (root v) with Ok r => Some (r_valid r) | _ => None end.
(** Inserting {type: string} in the middle of the allOf of [cabinet]: the item
    after it is moved up, the document reads back edited, and evaluation
    changes accordingly. *)
Example C102_case :
  worked E102 cat102 /\ part_at E102 cat102 (Some META) (Some (e_uuid E102 0)) cabinet 0 [lit "properties"; lit "p"] 2 /\
  let r := amend_schema E102 2 (lit "allOf") [] (InsertItem 1 (obj [("type", text "string")])) cat102 in
  fst r = Ok tt /\
  map so_up (skipn 3 (c_objs (snd r))) = [Some (2, [lit "allOf"; lit "0"]); Some (2, [lit "allOf"; lit "2"]); Some (2, [lit "allOf"; lit "1"])] /\
  schema_value 9 (c_objs (snd r)) 0 =
    Some (obj [("$id", text "http://a/x"); ("$defs", obj [("y", obj [("type", text "string")])]);
               ("properties", obj [("p", obj [("allOf", JArr [JBool true; obj [("type", text "string")]; obj [("minLength", int 2)]])])])]) /\
  (says cat102 (obj [("p", int 1)]) = Some true /\ says (snd r) (obj [("p", int 1)]) = Some false /\ says (snd r) (obj [("p", text "abc")]) = Some true) /\
  fst (amend_schema E102 2 (lit "allOf") [] (DropItem 5) cat102) = Exn EIndex.
Proof.
  destruct cabinet_part as [A B]. split; [exact A|]. split; [exact B|]. cbv zeta. split; [vm_compute; reflexivity|]. split; [vm_compute; reflexivity|]. split; [vm_compute; reflexivity|].
  split; [|vm_compute; reflexivity]. split; [vm_compute; reflexivity|]. split; vm_compute; reflexivity.
Qed.

(** Deep inside a plain value: the second name in dependentRequired of [a]. *)
Example C102_deep_case : let v := obj [("$id", text "http://a/x"); ("dependentRequired", obj [("a", JArr [text "b"; text "c"])])] in
  let c := snd (construct E102 9 default v None (Some META) empty) in
  worked E102 c /\ part_at E102 c (Some META) (Some (e_uuid E102 0)) v 0 [] 0 /\
  let r := amend_schema E102 0 (lit "dependentRequired") [ToMember (lit "a")] (DropItem 1) c in
  fst r = Ok tt /\ schema_value 9 (c_objs (snd r)) 0 = Some (obj [("$id", text "http://a/x"); ("dependentRequired", obj [("a", JArr [text "b"])])]) /\
  says c (obj [("a", int 1); ("b", int 1)]) = Some false /\ says (snd r) (obj [("a", int 1); ("b", int 1)]) = Some true.
Proof.
  cbv zeta. set (v := obj _). set (c := snd (construct E102 9 default v None (Some META) empty)). split; [apply work_construct, work_start; constructor|]. split.
  - split; [|constructor]. refine (proj1 (C55_made E102 9 default v None (Some META) empty 0 c _ _ _ _)); [now apply shelf_reads|constructor|reflexivity|].
    unfold c. destruct (construct E102 9 default v None (Some META) empty) as [x c'] eqn:H. cbn [snd]. f_equal. apply (f_equal fst) in H. cbn [fst] in H. rewrite <- H. vm_compute. reflexivity.
  - split; [vm_compute; reflexivity|]. split; [vm_compute; reflexivity|]. split; vm_compute; reflexivity.
Qed.

(** One would like the edited schema to evaluate as the schema constructed
    from the edited document.  It does not if a reference was brought in: the
    reference is not resolved, and evaluating it raises AttributeError. *)
Theorem C102_as_constructed_refuted : exists E c e c' v' c2 i r,
  worked E c /\ part_at E c (Some META) (Some (e_uuid E 0)) cabinet 0 [lit "properties"; lit "p"] 2 /\
  amend_schema E 2 (lit "allOf") [] e c = (Ok tt, c') /\ amended e [lit "properties"; lit "p"; lit "allOf"] cabinet v' /\
  (construct E 9 default v' None (Some META) empty = (Ok 0, c2) /\ evaluate_root (objs_world (c_objs c2)) 30 0 (root i) = Ok r /\ r_valid r = true) /\
  evaluate_root (objs_world (c_objs c')) 30 0 (root i) = Exn EAttribute.
Proof.
  set (e := InsertItem 1 (obj [("$ref", text "#/$defs/y")])).
  set (v' := obj [("$id", text "http://a/x"); ("$defs", obj [("y", obj [("type", text "string")])]);
       ("properties", obj [("p", obj [("allOf", JArr [JBool true; obj [("$ref", text "#/$defs/y")]; obj [("minLength", int 2)]])])])]).
  destruct (amend_schema E102 2 (lit "allOf") [] e cat102) as [x c'] eqn:H.
  assert (Hx : x = Ok tt) by (apply (f_equal fst) in H; cbn [fst] in H; rewrite <- H; vm_compute; reflexivity).
  destruct (construct E102 9 default v' None (Some META) empty) as [y c2] eqn:H2.
  assert (Hy : y = Ok 0) by (apply (f_equal fst) in H2; cbn [fst] in H2; rewrite <- H2; vm_compute; reflexivity). subst x y.
  set (i := obj [("p", text "abc")]).
  assert (Hs : says c2 i = Some true) by (replace c2 with (snd (construct E102 9 default v' None (Some META) empty)) by (now rewrite H2); vm_compute; reflexivity).
  unfold says in Hs. destruct (evaluate_root (objs_world (c_objs c2)) 30 0 (root i)) as [r| |] eqn:Hr; try discriminate Hs.
  exists E102, cat102, e, c', v', c2, i, r. destruct cabinet_part as [A B]. split; [exact A|]. split; [exact B|]. split; [exact H|]. split.
  - apply (ad_member e (lit "properties") _ _ _ [(lit "$id", text "http://a/x"); (lit "$defs", obj [("y", obj [("type", text "string")])])] []); [intros [X|[X|[]]]; discriminate X|].
    apply (ad_member e (lit "p") _ _ _ [] []); [intros []|]. apply (ad_member e (lit "allOf") _ _ _ [] []); [intros []|]. apply ad_here. exact (am_insert [JBool true] [obj [("minLength", int 2)]] _).
  - split; [split; [exact H2|]; split; [exact Hr|congruence]|]. replace c' with (snd (amend_schema E102 2 (lit "allOf") [] e cat102)) by (now rewrite H). vm_compute. reflexivity.
Qed.
Print Assumptions C102_as_constructed_refuted.
