(** C84: the root schemas of a document and of its resources. *)
From Coq Require Import String List Bool Lia.
From Verif Require Import Roots SpecRoots BuildFacts PropsBuild SchemaCases.
Import ListNotations.
Open Scope string_scope.
Open Scope list_scope.
Open Scope nat_scope.

Section Tree.
Variables (E : env) (objs : list sobj) (m b u : option uri) (v : json) (s : sid).
Hypothesis U : upward objs.
Hypothesis Md : made E objs m b u v s None.

Lemma child_up t t' kws key k : within objs s t -> keywords_at objs t kws -> In (key, k) kws -> subschema_of k t' ->
  exists o ks, nth_error objs t' = Some o /\ so_up o = Some (t, ks).
Proof.
  intros W Kt Hk Sub. destruct (made_within E _ _ _ _ _ _ _ _ Md W) as (m' & b' & u' & v' & up' & Mt & _).
  inversion Mt as [? ? ? x ? ? o Ho D _ _|? ? ? doc ? ? o kws0 Ho D Hup Hu N K C Kp Hh Dep]; subst.
  - destruct Kt as (o' & Ho' & D'). congruence.
  - assert (kws0 = kws) by (apply (keywords_fun objs t); [now exists o|exact Kt]). subst kws0.
    assert (Hin : In key (keys doc)) by (apply K; exact (in_map fst _ _ Hk)). destruct (keys_dget _ _ Hin) as [v2 Dv].
    destruct (holds_sub E _ _ _ _ _ _ _ _ _ _ Kt N Hk (Hh _ _ _ Hk Dv) Sub) as (v3 & ks & Mt' & Wk). apply made_up in Mt'. destruct Mt' as (o' & Ho' & Up). eauto.
Qed.
Lemma within_trans a c d : within objs a c -> within objs c d -> within objs a d.
Proof. intros H K. induction K as [|t t' kws key k K IH Kt Hk Sub]; [exact H|]. exact (within_step _ _ _ _ _ _ _ IH Kt Hk Sub). Qed.

(** A schema of the document is its root, or is a subschema of its parent. *)
Lemma place_of t : within objs s t -> exists o, nth_error objs t = Some o /\
  (t = s /\ so_up o = None \/
   exists p ks op, so_up o = Some (p, ks) /\ p < t /\ within objs s p /\ within objs p t /\ nth_error objs p = Some op /\ so_truthy op = true /\
     forall x, within objs s x -> within objs x t -> x = t \/ within objs x p).
Proof.
  intro W. inversion W as [|p t' kws key k Wp Kt Hk Sub]; subst.
  - apply made_up in Md. destruct Md as (o & Ho & Up). exists o. auto.
  - destruct (child_up _ _ _ _ _ Wp Kt Hk Sub) as (o & ks & Ho & Up). exists o. split; [exact Ho|]. right. destruct Kt as (op & Hop & Dp).
    exists p, ks, op. split; [exact Up|]. split; [exact (U _ _ _ _ Ho Up)|]. split; [exact Wp|].
    assert (Kt : keywords_at objs p kws) by (exists op; auto).
    split; [exact (within_step _ _ _ _ _ _ _ (within_self _ _) Kt Hk Sub)|]. split; [exact Hop|].
    split. { unfold so_truthy. rewrite Dp. destruct kws; [destruct Hk|reflexivity]. }
    intros x Wx Wt. inversion Wt as [|q t' kws1 key1 k1 Wq Kq Hk1 Sub1]; subst; [now left|]. right.
    destruct (child_up _ _ _ _ _ (within_trans _ _ _ Wx Wq) Kq Hk1 Sub1) as (o1 & ks1 & Ho1 & Up1). assert (q = p) by congruence. now subst q.
Qed.
Lemma holds_id_iff t o : nth_error objs t = Some o -> (holds_id o = true <-> identified objs t).
Proof.
  intro Ho. unfold holds_id, identified. split.
  - intro H. destruct (so_data o) as [x|kws] eqn:D; [discriminate H|]. unfold dmem in H. destruct (dget (lit "$id") kws) as [k|] eqn:G; [|discriminate H].
    apply dget_In in G. exists kws, k. split; [exists o; auto|exact G].
  - intros (kws & k & (o' & Ho' & D) & Hk). assert (o' = o) by congruence. subst o'. rewrite D. unfold dmem. apply in_map with (f := fst) in Hk.
    destruct (keys_dget _ _ Hk) as [x G]. cbn [fst] in G. now rewrite G.
Qed.
Lemma document_ascends n : forall t, within objs s t -> t < n -> ascend n objs (fun _ => false) t = s.
Proof.
  induction n as [|n IH]; intros t W L; [lia|]. cbn [ascend]. destruct (place_of t W) as (o & -> & [[-> ->]|(p & ks & op & -> & Lp & Wp & _ & -> & -> & _)]); [reflexivity|].
  apply IH; [exact Wp|lia].
Qed.
Lemma resource_ascends n : forall t, within objs s t -> t < n -> resource_of objs s t (ascend n objs holds_id t).
Proof.
  induction n as [|n IH]; intros t W L; [lia|]. cbn [ascend]. destruct (place_of t W) as (o & Ho & P). rewrite Ho. pose proof (holds_id_iff t o Ho) as Hi.
  destruct (holds_id o).
  { split; [exact W|]. split; [constructor|]. split; [left; now apply Hi|]. auto. }
  destruct P as [[-> ->]|(p & ks & op & -> & Lp & Wp & Wpt & -> & -> & Un)].
  { split; [constructor|]. split; [constructor|]. split; [now right|]. auto. }
  destruct (IH p Wp) as (R1 & R2 & R3 & R4); [lia|]. split; [exact R1|]. split; [exact (within_trans _ _ _ R2 Wpt)|]. split; [exact R3|].
  intros x Wx Wxt Ix. destruct (Un x Wx Wxt) as [->|Wxp]; [apply Hi in Ix; discriminate Ix|]. exact (R4 x Wx Wxp Ix).
Qed.
End Tree.

(** When construction has returned: whichever schema of the document is asked,
    document_rootschema is the schema that was constructed. *)
Theorem C84_document : forall E f id v u m c s c',
  reads_json E -> reachable c -> jwf v = true -> construct E f id v u m c = (Ok s, c') ->
  forall t, within (c_objs c') s t -> document_rootschema (c_objs c') t = s.
Proof.
  intros E f id v u m c s c' D R J H t W. destruct (construct_ok E D f id v u m c s c' (reachable_sane _ R) J H) as ((U & _) & _ & _ & Md & _).
  exact (document_ascends E _ _ _ _ _ _ U Md _ t W (Nat.lt_succ_diag_r t)).
Qed.
Print Assumptions C84_document.

(** ... and resource_rootschema is the innermost schema around it, itself
    included, that has an $id, or else the root of the document. *)
Theorem C84_resource : forall E f id v u m c s c',
  reads_json E -> reachable c -> jwf v = true -> construct E f id v u m c = (Ok s, c') ->
  forall t, within (c_objs c') s t -> resource_of (c_objs c') s t (resource_rootschema (c_objs c') t).
Proof.
  intros E f id v u m c s c' D R J H t W. destruct (construct_ok E D f id v u m c s c' (reachable_sane _ R) J H) as ((U & _) & _ & _ & Md & _).
  exact (resource_ascends E _ _ _ _ _ _ U Md _ t W (Nat.lt_succ_diag_r t)).
Qed.
Print Assumptions C84_resource.

(** There is only one such schema, and the roots of one document are the same
    for all schemas of a resource. *)
Theorem C84_unique : forall E f id v u m c s c',
  reads_json E -> reachable c -> jwf v = true -> construct E f id v u m c = (Ok s, c') ->
  forall t r, within (c_objs c') s t -> resource_of (c_objs c') s t r ->
  resource_rootschema (c_objs c') t = r /\ resource_rootschema (c_objs c') r = r.
Proof.
  intros E f id v u m c s c' D R J H t r W Rr.
  assert (Un : forall t r r', within (c_objs c') s t -> resource_of (c_objs c') s t r -> resource_of (c_objs c') s t r' -> r = r').
  { destruct (construct_ok E D f id v u m c s c' (reachable_sane _ R) J H) as ((U & _) & _ & _ & Md & _). clear t r W Rr.
    assert (Le : forall x y, within (c_objs c') s x -> within (c_objs c') x y -> x <= y).
    { intros x y Wx Wy. destruct (made_within E _ _ _ _ _ _ _ _ Md Wx) as (m' & b' & u' & v' & up' & Mx & _). exact (within_later E _ _ _ _ _ _ _ _ U Mx Wy). }
    intros t r r' W (A1 & A2 & A3 & A4) (B1 & B2 & B3 & B4). destruct A3 as [A3| ->], B3 as [B3| ->]; [| | |reflexivity].
    - pose proof (Le _ _ A1 (B4 r A1 A2 A3)). pose proof (Le _ _ B1 (A4 r' B1 B2 B3)). lia.
    - pose proof (Le _ _ A1 (B4 r A1 A2 A3)). pose proof (Le _ _ B1 A1). lia.
    - pose proof (Le _ _ B1 (A4 r' B1 B2 B3)). pose proof (Le _ _ A1 B1). lia. }
  split; [exact (Un t _ _ W (C84_resource E f id v u m c s c' D R J H t W) Rr)|].
  destruct Rr as (R1 & R2 & R3 & R4). apply (Un r _ _ R1 (C84_resource E f id v u m c s c' D R J H r R1)).
  split; [exact R1|]. split; [constructor|]. split; [exact R3|]. intros x Wx Wr Ix. exact Wr.
Qed.
Print Assumptions C84_unique.

(** The parent is tested for truth, not for being there, and its data is only
    filled while it is being made.  When the construction of a document fails,
    an embedded schema stays in the catalog under its own URI, and takes itself
    for the root of the document although it has a parent schema. *)
Definition half : json :=
  obj [("properties", obj [("a", obj [("$id", text "http://a/inner"); ("not", JBool true)]); ("b", JNull)])].
Definition E84 : env := env_of [] [].
Theorem C84_left_over_refuted : ~ forall E f id v u m c c' e w t p,
  reads_json E -> reachable c -> jwf v = true -> construct E f id v u m c = (Exn e, c') ->
  fst (get_schema E f id w None c') = Ok t -> parentschema (c_objs c') t = Some p -> document_rootschema (c_objs c') t <> t.
Proof.
  intro H. assert (R : reachable empty) by constructor.
  refine (H E84 3 default half None (Some META) empty (snd (construct E84 3 default half None (Some META) empty)) EType (at_ "http://a/inner") 1 0 _ R _ _ _ _ _).
  - apply shelf_reads. reflexivity.
  - reflexivity.
  - vm_compute. reflexivity.
  - vm_compute. reflexivity.
  - vm_compute. reflexivity.
  - vm_compute. reflexivity.
Qed.
Print Assumptions C84_left_over_refuted.

(** Four resources: the document, and three embedded at different depths. *)
Definition rooms : json :=
  obj [("properties", obj [("a", obj [("$id", text "http://a/one"); ("allOf", JArr [JBool false; obj [("$id", text "http://a/two"); ("not", JBool true)]])]);
                           ("b", obj [("items", obj [("$id", text "http://a/three")])])])].
Example C84_case :
  let '(r, c) := construct E84 9 default rooms (Some (at_ "http://a/doc")) (Some META) empty in
  r = Ok 0 /\ length (c_objs c) = 7 /\
  map (document_rootschema (c_objs c)) (seq 0 7) = repeat 0 7 /\
  map (resource_rootschema (c_objs c)) (seq 0 7) = [0; 1; 1; 3; 3; 0; 6] /\
  map (parentschema (c_objs c)) (seq 0 7) = [None; Some 0; Some 1; Some 1; Some 3; Some 0; Some 5].
Proof. vm_compute. repeat (split; [reflexivity|]). reflexivity. Qed.
