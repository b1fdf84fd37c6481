(** C78: the annotation of each keyword. *)
From Coq Require Import String List Sorting.Sorted.
From Verif Require Import SchemaAnnot SchemaCases.
Import ListNotations.
Open Scope string_scope.
Open Scope list_scope.
Open Scope nat_scope.

Lemma contains_class legacy d kws : dialect legacy d -> good_schema d kws ->
  forall k, In (lit "contains", k) kws -> kw_class k = Std KContains.
Proof.
  intros D [_ G] k Hk. destruct (G _ _ Hk) as (_ & C & _). rewrite C. destruct legacy; [cbn [dialect] in D; subst d; reflexivity|].
  destruct D as [->| ->]; reflexivity.
Qed.

(** Evaluating schema [s] against the instance into a result node [n] that
    holds nothing for this instance yet (the root result, or a subresult): the
    node found afterwards under the name of a keyword carries the annotation
    that the keyword prescribes, if it is valid. *)
Theorem C78_annotations : forall W legacy d fuel s kws i anc n n' key c, dialect legacy d -> good_world d W ->
  w_schema W s = SObj kws -> (forall key, cget (key, i_path i) (r_children n) = None) ->
  evaluate W fuel s i anc n = Ok n' -> cget (key, i_path i) (r_children n') = Some c ->
  exists k, In (key, k) kws /\ r_discard c = false /\ (r_valid c = true -> notes W k (i_val i) (r_annot c)).
Proof.
  intros W legacy d fuel s kws i anc n n' key c D G Hs New H Hc. pose proof (G _ _ Hs) as Gs.
  destruct (evaluate_noted W fuel s kws i anc n n' Hs (proj1 Gs) (contains_class _ _ _ D Gs) New H _ _ Hc) as (k & Hk & Dk & Nk). eauto 8.
Qed.
Print Assumptions C78_annotations.

(** The root result of any evaluation is such a node. *)
Theorem C78_root : forall W legacy d fuel s kws i r key c, dialect legacy d -> good_world d W ->
  w_schema W s = SObj kws -> evaluate_root W fuel s i = Ok r -> cget (key, i_path i) (r_children r) = Some c ->
  exists k, In (key, k) kws /\ r_discard c = false /\ (r_valid c = true -> notes W k (i_val i) (r_annot c)).
Proof.
  intros W legacy d fuel s kws i r key c D G Hs H. eapply C78_annotations; try eassumption. intro. reflexivity.
Qed.
Print Assumptions C78_root.

(** A keyword that only annotates always leaves its value behind. *)
Theorem C78_announced : forall W legacy d fuel s kws i anc n n' key k, dialect legacy d -> good_world d W ->
  w_schema W s = SObj kws -> evaluate W fuel s i anc n = Ok n' ->
  In (key, k) kws -> announcing k = true -> concerns (i_val i) k = true ->
  exists c, cget (key, i_path i) (r_children n') = Some c /\ r_valid c = true /\ r_discard c = false /\ kw_json k = KJ (r_annot c).
Proof.
  intros W legacy d fuel s kws i anc n n' key k D G Hs H Hk An Co. pose proof (G _ _ Hs) as Gs.
  exact (evaluate_announces W fuel s kws i anc n n' Hs (proj1 Gs) (contains_class _ _ _ D Gs) H key k Hk An Co).
Qed.
Print Assumptions C78_announced.

(** The node that is evaluated into is not annotated itself. *)
Theorem C78_node : forall W fuel s i anc n n', evaluate W fuel s i anc n = Ok n' -> r_annot n' = r_annot n.
Proof. intros W fuel s i anc n n' H. exact (evaluate_keeps W fuel s i anc n n' H). Qed.
Print Assumptions C78_node.

Lemma content_class legacy d kws : dialect legacy d -> good_schema d kws ->
  forall k, (In (lit "contentSchema", k) kws -> kw_class k = Std KContentSchema) /\ (In (lit "contentMediaType", k) kws -> kw_class k = Std KContentMediaType).
Proof.
  intros D [_ G] k. split; intro Hk; destruct (G _ _ Hk) as (_ & C & _); rewrite C; (destruct legacy; [cbn [dialect] in D; subst d; reflexivity|]);
  destruct D as [->| ->]; reflexivity.
Qed.

(** contentSchema annotates a string with its value exactly if the schema says
    contentMediaType as well, wherever the two stand in the document. *)
Theorem C78_content : forall W legacy d fuel s kws i anc n n' k text, dialect legacy d -> good_world d W ->
  w_schema W s = SObj kws -> i_val i = JStr text -> (forall key, cget (key, i_path i) (r_children n) = None) ->
  evaluate W fuel s i anc n = Ok n' -> In (lit "contentSchema", k) kws ->
  (In (lit "contentMediaType") (keys kws) ->
     exists c, cget (lit "contentSchema", i_path i) (r_children n') = Some c /\ r_valid c = true /\ kw_json k = KJ (r_annot c))
  /\ (~ In (lit "contentMediaType") (keys kws) -> cget (lit "contentSchema", i_path i) (r_children n') = None).
Proof.
  intros W legacy d fuel s kws i anc n n' k text D G Hs Hi New H Hk. pose proof (G _ _ Hs) as Gs.
  destruct fuel as [|f]; [discriminate H|]. cbn [evaluate] in H. rewrite Hs in H. runs H. injection H as <-. rewrite finish_children.
  assert (Ks := proj1 (content_class _ _ _ D Gs k) Hk). split.
  - intro Im. apply in_map_iff in Im. destruct Im as ([q km] & Q & Im). cbn in Q. subst q.
    assert (Km := proj2 (content_class _ _ _ D Gs km) Im).
    destruct (content_loop W (evaluate W f) s i anc kws n a k km (proj1 Gs) (contains_class _ _ _ D Gs) Hk Ks) as (c & Hc & V & _ & J); auto.
    + now rewrite Hi.
    + apply (proj2 (proj2 (proj2 Gs _ _ Hk))); [rewrite Ks; cbn; now left|exact (in_map fst _ _ Im)].
    + eauto.
  - intro Nm. apply (content_absent W (evaluate W f) s i anc kws n a); auto. intros k' Hk'. now apply (content_class _ _ _ D Gs k').
Qed.
Print Assumptions C78_content.
Definition media := kw_in dialect_2020_12 "contentMediaType" (KJ (text "application/json")).
Definition content := kw_in dialect_2020_12 "contentSchema" (KJ (JBool true)).
Definition content_note (kws : list (pystr * keyword)) : option json :=
  match evaluate_root (small [SObj kws]) 3 0 (root (text "x")) with
  | Ok r => option_map r_annot (cget (lit "contentSchema", []) (r_children r))
  | _ => None
  end.
Example C78_content_case : good_world dialect_2020_12 (small [SObj [media; content]]) /\ good_world dialect_2020_12 (small [SObj [content]])
  /\ content_note [media; content] = Some (JBool true) /\ content_note [content] = None /\ content_note [content; media] = None.
Proof. split; [apply good_small; vm_compute; reflexivity|]. split; [apply good_small; vm_compute; reflexivity|]. vm_compute. auto. Qed.

(** One schema with many keywords. *)
Definition k20 := kw_in dialect_2020_12.
Definition annotated : list snode := [
  SObj [k20 "title" (KJ (text "t")); k20 "x-mine" (KJ (int 7));
        k20 "dependentSchemas" (KSubm [(lit "b", 1); (lit "z", 1); (lit "a", 1)]);
        k20 "properties" (KSubm [(lit "q", 1); (lit "a", 1)]);
        k20 "patternProperties" (KSubm [(lit "b", 1); (lit "c", 1); (lit "bc", 1)]);
        k20 "additionalProperties" (KSub 2); k20 "required" (KJ (JArr [text "a"]))];
  SBool true;
  SObj [k20 "prefixItems" (KSubs [1; 1]); k20 "items" (KSub 1); k20 "contains" (KSub 3)];
  SObj [k20 "type" (KJ (text "null"))] ].
Definition case78 : json := obj [("c", int 1); ("a", int 2); ("bc", int 3); ("d", JArr [JNull; int 1; JNull]); ("b", JNull)].
Example C78_case : good_world dialect_2020_12 (small annotated) /\
  match evaluate_root (small annotated) 9 0 (root case78) with
  | Ok r => map (fun kc => (fst (fst kc), r_valid (snd kc), r_annot (snd kc))) (r_children r) =
      [(lit "title", true, text "t"); (lit "x-mine", true, int 7);
       (lit "dependentSchemas", true, JArr [text "b"; text "a"]);
       (lit "properties", true, JArr [text "a"]);
       (lit "patternProperties", true, JArr [text "c"; text "bc"; text "b"]);
       (lit "additionalProperties", true, JArr [text "d"]);
       (lit "required", true, JNull)]
      /\ map (fun a => collect_annotations (Some [lit "d"]) (Some (lit a)) r) ["prefixItems"; "items"; "contains"] =
         [[int 1]; [JBool true]; [JArr [int 0; int 2]]]
  | _ => False
  end.
Proof. split; [apply good_small; vm_compute; reflexivity|]. vm_compute. auto. Qed.
