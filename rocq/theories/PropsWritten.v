(** C59: from the document to the verdict. *)
From Coq Require Import String List Bool Lia.
From Verif Require Import SchemaCases PropsSchema PropsBuild BuildGood.
Import ListNotations.
Open Scope string_scope.
Open Scope list_scope.
Open Scope nat_scope.

Lemma speaks_reads E d avoid : speaks E d avoid -> reads_json E.
Proof. intros [_ H] u doc L. exact (proj1 (H _ _ L)). Qed.
Lemma written_reachable d avoid c : written d avoid c -> reachable c.
Proof. induction 1; [apply reach_empty|now apply reach_construct|now apply reach_get|now apply reach_leave]. Qed.

(** Documents written in one of the three dialects give schemas as evaluation
    expects them: whatever is constructed and looked up, in whatever order,
    and even where it fails. *)
Theorem C59_good_world : forall legacy d avoid c W,
  dialect legacy d -> written d avoid c -> shows c W -> good_world d W.
Proof. exact written_good. Qed.
Print Assumptions C59_good_world.

(** So when a document has been constructed and evaluated, the result is what
    the specification prescribes. *)
Theorem C59_verdict : forall legacy d avoid E f id v u m c s c' W fuel x r,
  dialect legacy d -> written d avoid c -> speaks E d avoid -> jwf v = true -> proper d avoid v = true ->
  construct E f id v u m c = (Ok s, c') -> shows c' W ->
  no_unevaluated W \/ no_misjudged W -> plain_dynamics W ->
  jwf x = true -> evaluate_root W fuel s (root x) = Ok r -> verdict W s x (r_valid r).
Proof.
  intros legacy d avoid E f id v u m c s c' W fuel x r Hd Hc Sp Jv Pv H Hs Hu Hp Jx Ev.
  assert (Hc' : written d avoid c'). { replace c' with (snd (construct E f id v u m c)) by now rewrite H. now apply written_construct. }
  exact (C27_agrees_partial W d legacy fuel s (root x) r Hd (written_good legacy d avoid c' W Hd Hc' Hs) Hu Hp Jx Ev).
Qed.
Print Assumptions C59_verdict.

(** Conditions on the keywords used that are enough. *)
Definition plain_enough (legacy : bool) (avoid : list pystr) : Prop :=
  (In (lit "unevaluatedItems") avoid /\ In (lit "unevaluatedProperties") avoid) \/
  (In (lit "not") avoid /\ if legacy then In (lit "items") avoid else True).
Definition statically_enough (legacy : bool) (avoid : list pystr) : Prop :=
  if legacy then True else In (lit "$dynamicRef") avoid.
Theorem C59_documents : forall legacy d avoid E f id v u m c s c' W fuel x r,
  dialect legacy d -> plain_enough legacy avoid -> statically_enough legacy avoid ->
  written d avoid c -> speaks E d avoid -> jwf v = true -> proper d avoid v = true ->
  construct E f id v u m c = (Ok s, c') -> shows c' W ->
  jwf x = true -> evaluate_root W fuel s (root x) = Ok r ->
  verdict W s x (r_valid r) /\
  made E (c_objs c') m None (match u, v with None, JObj _ => Some (e_uuid E (length (c_objs c))) | _, _ => u end) v s None.
Proof.
  intros legacy d avoid E f id v u m c s c' W fuel x r Hd Hp Hq Hc Sp Jv Pv H Hs Jx Ev.
  assert (Hc' : written d avoid c'). { replace c' with (snd (construct E f id v u m c)) by now rewrite H. now apply written_construct. }
  split; [|exact (proj1 (C55_made E f id v u m c s c' (speaks_reads _ _ _ Sp) (written_reachable _ _ _ Hc) Jv H))].
  apply (C59_verdict legacy d avoid E f id v u m c s c' W fuel x r Hd Hc Sp Jv Pv H Hs); [| |exact Jx|exact Ev].
  - pose proof (fun k => written_unused legacy d avoid c' W k Hd Hc' Hs) as U. destruct Hp as [[H1 H2]|[H1 H2]].
    + left. repeat split; apply U; assumption.
    + right. split; [apply U; exact H1|]. intros t kws key k t' b Hk Hin Kc _ _. assert (X : uses W KItems2019) by (exists t, kws, key, k; auto). revert X. destruct legacy; [apply U; exact H2|].
      apply (written_outside false d avoid c' W KItems2019 Hd Hc' Hs). destruct Hd as [->| ->]; vm_compute; intuition discriminate.
  - intros t kws key k Hk Hin Kd. pose proof (written_dynamic _ _ _ _ _ _ _ _ _ Hd Hc' Hs Hk Hin Kd) as Kc. exfalso.
    assert (X : uses W KDynamicRef) by (exists t, kws, key, k; auto). revert X. destruct legacy.
    + apply (written_outside true d avoid c' W KDynamicRef Hd Hc' Hs). rewrite Hd. vm_compute. intuition discriminate.
    + apply (written_unused false d avoid c' W KDynamicRef Hd Hc' Hs). exact Hq.
Qed.
Print Assumptions C59_documents.

(** Two documents that refer to each other, with a third construction failing
    in between. *)
Definition person : json :=
  obj [("$id", text "http://a/person"); ("type", text "object");
       ("properties", obj [("name", obj [("$ref", text "http://a/common#/$defs/name")]); ("friends", obj [("items", obj [("$ref", text "#")])])]);
       ("required", JArr [text "name"]); ("x-note", text "anything")].
Definition common : json :=
  obj [("$defs", obj [("name", obj [("type", text "string"); ("minLength", int 2); ("not", obj [("const", text "me")])]); ("owner", obj [("$ref", text "http://a/person")])])].
Definition E59 : env := env_of [("http://a/common", common)] [].
Definition avoided : list pystr := [lit "unevaluatedItems"; lit "unevaluatedProperties"; lit "$dynamicRef"].
Lemma shelf_speaks l fs avoid : forallb (fun kv => jwf (snd kv) && proper dialect_2020_12 avoid (snd kv)) l = true -> speaks (env_of l fs) dialect_2020_12 avoid.
Proof.
  intro F. split.
  - intros u d' H. cbn [e_dialect env_of] in H. destruct (uri_eqb u META); [now injection H as <-|discriminate H].
  - intros u doc H. unfold load_json in H. cbn [e_lib env_of] in H. destruct (or_catalog_error _) as [[]| |]; [|discriminate H|discriminate H]. cbn [bind e_sources env_of shelf filter fst prefixb] in H.
    cbn [sort_longest insert_longest length skipn] in H.
    destruct (dget (uri_str u) (map (fun kv => (lit (fst kv), snd kv)) l)) as [v|] eqn:D; [|discriminate H]. injection H as <-.
    apply dget_In in D. apply in_map_iff in D. destruct D as ([k v'] & X & Hin). apply pair_equal_spec in X. destruct X as [_ <-]. rewrite forallb_forall in F. apply andb_true_iff. exact (F _ Hin).
Qed.
Example C59_case :
  let c := snd (construct E59 9 default (obj [("$id", text "http://a/draft"); ("allOf", JArr [obj [("$ref", text "#/nope")]])]) None (Some META) empty) in
  let r := construct E59 9 default person None (Some META) c in
  let W := objs_world (c_objs (snd r)) in
  let accepted x := match evaluate_root W 40 2 (root x) with Ok n => Some (r_valid n) | _ => None end in
  dialect false dialect_2020_12 /\ plain_enough false avoided /\ statically_enough false avoided /\ speaks E59 dialect_2020_12 avoided /\
  written dialect_2020_12 avoided c /\ jwf person = true /\ proper dialect_2020_12 avoided person = true /\ shows (snd r) W /\
  length (c_objs c) = 2 /\ fst r = Ok 2 /\
  accepted (obj [("name", text "Ann"); ("friends", JArr [obj [("name", text "Bo")]])]) = Some true /\
  accepted (obj [("name", text "Ann"); ("friends", JArr [obj [("name", text "B")]])]) = Some false /\
  accepted (obj [("name", text "me")]) = Some false.
Proof.
  cbv zeta. split; [now left|]. split; [left; cbn; tauto|]. split; [cbn; tauto|]. split; [now apply shelf_speaks|].
  split; [apply written_construct; [now apply shelf_speaks|reflexivity|reflexivity|apply written_empty]|].
  split; [reflexivity|]. split; [vm_compute; reflexivity|]. split; [split; intro; reflexivity|]. vm_compute. repeat split.
Qed.
