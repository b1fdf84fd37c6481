(** C45, C46, C47: collecting annotations and errors, the output formats, and
    the explanation of failures. *)
From Coq Require Import String List Bool Lia.
From Verif Require Import OutputFacts SchemaCases.
Import ListNotations.
Open Scope string_scope.
Open Scope list_scope.
Open Scope nat_scope.

(** ** C45 *)

(** The annotations collected are those of the asked-for nodes that are linked
    to the queried node by valid nodes, and nothing else. *)
Theorem C45_annotations : forall inst key n x,
  In x (collect_annotations inst key n) <->
  exists m, linked_by (live true) n m /\ asked_for inst key m /\ r_annot m = x /\ x <> JNull.
Proof. intros. rewrite collect_annotations_linked. apply (collected_In true). Qed.
Print Assumptions C45_annotations.

Theorem C45_errors : forall inst key n x,
  In x (collect_errors inst key n) <->
  exists m, linked_by (live false) n m /\ asked_for inst key m /\ r_error m = x /\ x <> JNull.
Proof. intros. rewrite collect_errors_linked. apply (collected_In false). Qed.
Print Assumptions C45_errors.

(** Each such node contributes once, parents before children and children in
    order. *)
Theorem C45_annotations_in_order : forall inst key n, exists keep,
  (forall m, keep m = true <-> asked_for inst key m /\ r_annot m <> JNull) /\
  collect_annotations inst key n = map r_annot (filter keep (linked_nodes (live true) n)).
Proof.
  intros. exists (wanted true inst key). split; [|apply collect_annotations_linked]. intro m. unfold wanted. cbn [message].
  rewrite andb_true_iff, askedb_spec. destruct (r_annot m); cbn; intuition congruence.
Qed.
Print Assumptions C45_annotations_in_order.

Theorem C45_errors_in_order : forall inst key n, exists keep,
  (forall m, keep m = true <-> asked_for inst key m /\ r_error m <> JNull) /\
  collect_errors inst key n = map r_error (filter keep (linked_nodes (live false) n)).
Proof.
  intros. exists (wanted false inst key). split; [|apply collect_errors_linked]. intro m. unfold wanted. cbn [message].
  rewrite andb_true_iff, askedb_spec. destruct (r_error m); cbn; intuition congruence.
Qed.
Print Assumptions C45_errors_in_order.

Theorem C45_nothing : forall inst key n,
  (r_valid n = false -> collect_annotations inst key n = []) /\ (r_valid n = true -> collect_errors inst key n = []).
Proof.
  intros. split; intro V; [rewrite collect_annotations_eq|rewrite collect_errors_eq]; now rewrite V.
Qed.
Print Assumptions C45_nothing.

(** In a tree that evaluation returns no node is discarded. *)
Theorem C45_undiscarded : forall W fuel s i r, evaluate_root W fuel s i = Ok r -> undiscarded r.
Proof. intros W fuel s i r E. exact (fine_undiscarded r (evaluate_root_fine W fuel s i r E)). Qed.
Print Assumptions C45_undiscarded.

(** {"title": "t", "properties": {"a": {"title": "u"}}, "anyOf": [{"title": "v", "type": "string"}, true]} *)
Definition titled : list snode :=
  let k := kw_in dialect_2020_12 in
  [ SObj [k "title" (KJ (text "t")); k "properties" (KSubm [(lit "a", 1)]); k "anyOf" (KSubs [2; 3])];
    SObj [k "title" (KJ (text "u"))]; SObj [k "title" (KJ (text "v")); k "type" (KJ (text "string"))]; SBool true ].
Example C45_case : exists r, evaluate_root (small titled) 10 0 (root (obj [("a", int 1)])) = Ok r
  /\ collect_annotations None (Some (lit "title")) r = [text "t"; text "u"]
  /\ collect_annotations (Some [lit "a"]) None r = [text "u"]
  /\ length (linked_nodes (fun _ => true) r) = 10 /\ length (linked_nodes (live true) r) = 7
  /\ collect_errors None None r = [].
Proof. eexists. split; [vm_compute; reflexivity|]. repeat split; vm_compute; reflexivity. Qed.

(** ** C46 *)

(** Whatever the absolute URIs are. *)
Theorem C46_verdict : forall uri filter n,
  says (r_valid n) (out_flag n) /\ says (r_valid n) (out_basic uri filter n) /\
  says (r_valid n) (out_detailed uri n) /\ says (r_valid n) (out_verbose uri n).
Proof.
  intros. split; [reflexivity|]. split; [reflexivity|]. split; [reflexivity|]. now destruct (verbose_mirrors uri n).
Qed.
Print Assumptions C46_verdict.

Theorem C46_hierarchical : forall uri W fuel s i r o,
  evaluate_root W fuel s i = Ok r -> out_hierarchical uri W r = Ok o -> says (r_valid r) o.
Proof. intros uri W fuel s i r o E. apply hier_root_says. exact (evaluate_root_relpath W fuel s i r E). Qed.
Print Assumptions C46_hierarchical.

Theorem C46_basic_annotations : forall uri n, undiscarded n -> r_valid n = true ->
  exists os, field (lit "annotations") (out_basic uri None n) = Some (JArr os) /\
             map (field (lit "annotation")) os = map Some (collect_annotations None None n).
Proof.
  intros uri n U V. exists (basic_visit uri true None n). split; [unfold out_basic; rewrite V; reflexivity|].
  rewrite collect_annotations_linked. pose proof (basic_visit_lists uri true None n) as H. rewrite linked_nodes_undiscarded in H by exact U.
  replace (filter (wanted true None None) (linked_nodes (live true) n)) with (filter (chosen true None) (linked_nodes (live true) n)).
  - induction H as [|m o l os [_ F] _ IH]; cbn [map]; [reflexivity|]. change (lit "annotation") with (message_name true). rewrite F. f_equal. exact IH.
  - apply filter_ext. intro m. unfold chosen, wanted, askedb. cbn. now rewrite andb_true_r.
Qed.
Print Assumptions C46_basic_annotations.

Theorem C46_basic_errors : forall uri n, undiscarded n -> r_valid n = false ->
  exists os, field (lit "errors") (out_basic uri None n) = Some (JArr os) /\
             map (field (lit "error")) os = map Some (collect_errors None None n).
Proof.
  intros uri n U V. exists (basic_visit uri false None n). split; [unfold out_basic; rewrite V; reflexivity|].
  rewrite collect_errors_linked. pose proof (basic_visit_lists uri false None n) as H. rewrite linked_nodes_undiscarded in H by exact U.
  replace (filter (wanted false None None) (linked_nodes (live false) n)) with (filter (chosen false None) (linked_nodes (live false) n)).
  - induction H as [|m o l os [_ F] _ IH]; cbn [map]; [reflexivity|]. change (lit "error") with (message_name false). rewrite F. f_equal. exact IH.
  - apply filter_ext. intro m. unfold chosen, wanted, askedb. cbn. now rewrite andb_true_r.
Qed.
Print Assumptions C46_basic_errors.

(** With the keywords to report given: one object for each node that has a
    message and one of those keys, with its locations, in order. *)
Theorem C46_basic_filtered : forall uri names n, exists keep,
  (forall m, keep m = true <-> (exists k, r_key m = Some k /\ In k names) /\ message (r_valid n) m <> JNull) /\
  exists os, field (list_name (r_valid n)) (out_basic uri (Some names) n) = Some (JArr os) /\
             lists uri (r_valid n) (filter keep (linked_nodes (fun m => Bool.eqb (r_valid m) (r_valid n)) n)) os.
Proof.
  intros uri names n. exists (chosen (r_valid n) (Some names)). split.
  - intro m. unfold chosen, key_in, mem_str. rewrite andb_true_iff. split.
    + intros [A B]. split; [|intro E; rewrite E in B; discriminate]. destruct (r_key m) as [k|]; [|discriminate]. exists k. split; [reflexivity|].
      apply existsb_exists in A. destruct A as (k' & Hk & E). destruct (str_eqb_spec k k'); [now subst|discriminate].
    + intros [(k & -> & Hk) N]. split; [|now destruct (message (r_valid n) m)]. apply existsb_exists. exists k. split; [exact Hk|apply str_eqb_refl].
  - exists (basic_visit uri (r_valid n) (Some names) n). split; [|apply basic_visit_lists]. unfold out_basic. cbn [field]. now destruct (r_valid n).
Qed.
Print Assumptions C46_basic_filtered.

(** Verbose output leaves nothing out. *)
Theorem C46_verbose : forall uri n, mirrors uri n (out_verbose uri n).
Proof. exact verbose_mirrors. Qed.
Print Assumptions C46_verbose.

(** Hierarchical output of a part of a result can report another verdict than
    that part has: of {"anyOf": [false, true]}, the anyOf result is valid and
    its hierarchical output, that of the first alternative, says it is not. *)
Definition either : list snode := [ SObj [kw_in dialect_2020_12 "anyOf" (KSubs [1; 2])]; SBool false; SBool true ].
Theorem C46_subresult_refuted : forall uri, exists W fuel s i r key c o,
  evaluate_root W fuel s i = Ok r /\ In (key, c) (r_children r) /\ r_valid c = true /\
  out_hierarchical uri W c = Ok o /\ says false o.
Proof.
  intro uri. exists (small either), 5, 0, (root (int 1)). eexists. eexists. eexists. eexists. split; [vm_compute; reflexivity|].
  split; [left; reflexivity|]. split; [reflexivity|]. split; vm_compute; reflexivity.
Qed.
Print Assumptions C46_subresult_refuted.

Example C46_case : forall uri, exists r, evaluate_root (small titled) 10 0 (root (obj [("a", int 1)])) = Ok r
  /\ undiscarded r /\ r_valid r = true
  /\ (exists os, field (lit "annotations") (out_basic uri None r) = Some (JArr os) /\ length os = 3)
  /\ (exists os, field (lit "annotations") (out_basic uri (Some [lit "title"]) r) = Some (JArr os) /\ length os = 2)
  /\ (exists o, out_hierarchical uri (small titled) r = Ok o /\ exists ds, field (lit "details") o = Some (JArr ds) /\ length ds = 3).
Proof.
  intro uri. destruct (evaluate_root (small titled) 10 0 (root (obj [("a", int 1)]))) as [r| |] eqn:E; [|vm_compute in E; discriminate E|vm_compute in E; discriminate E].
  exists r. split; [reflexivity|]. split; [exact (C45_undiscarded _ _ _ _ _ E)|]. vm_compute in E. injection E as <-. split; [reflexivity|].
  split; [eexists; split; [vm_compute; reflexivity|reflexivity]|]. split; [eexists; split; [vm_compute; reflexivity|reflexivity]|].
  eexists. split; [vm_compute; reflexivity|]. eexists. split; [vm_compute; reflexivity|reflexivity].
Qed.

(** ** C47 *)

(** Under every invalid node of the tree there is an error, reached through
    invalid nodes. *)
Theorem C47_explained : forall W fuel s i r, evaluate_root W fuel s i = Ok r -> explained r.
Proof. intros W fuel s i r E. exact (fine_explained r (evaluate_root_fine W fuel s i r E)). Qed.
Print Assumptions C47_explained.

Theorem C47_basic : forall uri W fuel s i r, evaluate_root W fuel s i = Ok r -> r_valid r = false ->
  exists o os, field (lit "errors") (out_basic uri None r) = Some (JArr (o :: os)).
Proof.
  intros uri W fuel s i r E V. destruct (C47_explained W fuel s i r E r (lb_here _ r eq_refl) V) as (e & L & He).
  destruct (C46_basic_errors uri r (C45_undiscarded W fuel s i r E) V) as (os & F & M). rewrite F.
  assert (In (r_error e) (collect_errors None None r)) as H.
  { rewrite collect_errors_linked. apply (collected_In false). exists e. split; [|split; [split; discriminate|split; [reflexivity|exact He]]].
    assert (U := C45_undiscarded W fuel s i r E). apply linked_nodes_In. rewrite <- linked_nodes_undiscarded by exact U. apply linked_nodes_In.
    clear -L. induction L as [n O|n key c m O Hc _ IH]; [constructor|eapply lb_below; [|exact Hc|exact IH]]; now destruct (r_valid n). }
  destruct os as [|o os]; [|now exists o, os]. cbn in M. destruct (collect_errors None None r); [destruct H|discriminate M].
Qed.
Print Assumptions C47_basic.

(** Detailed output too has an error, unless the schema is false. *)
Theorem C47_detailed : forall uri W fuel s i r kws, evaluate_root W fuel s i = Ok r -> w_schema W s = SObj kws -> r_valid r = false ->
  exists o os, field (lit "errors") (out_detailed uri r) = Some (JArr (o :: os)).
Proof.
  intros uri W fuel s i r kws E Hs V. destruct (evaluate_root_child W fuel s i r kws E Hs V) as (key & c & Hc & Vc). unfold out_detailed. rewrite V.
  assert (In (key, c) (filter (fun kc => Bool.eqb (r_valid (snd kc)) false) (r_children r))) as H by (apply filter_In; split; [exact Hc|cbn; now rewrite Vc]).
  destruct (filter _ (r_children r)) as [|kc l] eqn:Fl; [destruct H|]. eexists. eexists. reflexivity.
Qed.
Print Assumptions C47_detailed.

(** There detailed output has none. *)
Theorem C47_detailed_refuted : forall uri, exists W fuel s i r,
  evaluate_root W fuel s i = Ok r /\ r_valid r = false /\ field (lit "errors") (out_detailed uri r) = Some (JArr []).
Proof.
  intro uri. exists (small [SBool false]), 5, 0, (root (int 1)). eexists. split; [vm_compute; reflexivity|]. split; reflexivity.
Qed.
Print Assumptions C47_detailed_refuted.

Example C47_case : exists r, evaluate_root (small titled) 10 2 (root (int 1)) = Ok r /\ r_valid r = false
  /\ w_schema (small titled) 2 = SObj [kw_in dialect_2020_12 "title" (KJ (text "v")); kw_in dialect_2020_12 "type" (KJ (text "string"))].
Proof. eexists. split; [vm_compute; reflexivity|]. split; reflexivity. Qed.
