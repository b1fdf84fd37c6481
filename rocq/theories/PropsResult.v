(** C60, C61: the result tree that evaluation returns, and what hierarchical
    output makes of it. *)
From Coq Require Import String List Bool Lia.
From Verif Require Import SpecPointer HierFacts SchemaShape SchemaCases.
Import ListNotations.
Open Scope string_scope.
Open Scope list_scope.
Open Scope nat_scope.

(** ** C60 *)

(** A node found valid has no error, anywhere in the tree. *)
Theorem C60_valid_without_error : forall W fuel s i r m,
  evaluate_root W fuel s i = Ok r -> linked_by (fun _ => true) r m -> r_valid m = true -> r_error m = JNull.
Proof. intros W fuel s i r m E. apply quiet_below. exact (evaluate_root_quiet W fuel s i r E). Qed.
Print Assumptions C60_valid_without_error.

(** Hierarchical output of an invalid result: the errors listed are errors of
    keywords that failed, and each keyword that failed with an error is
    listed. *)
Theorem C60_hierarchical_errors : forall uri W fuel s i r o,
  evaluate_root W fuel s i = Ok r -> r_valid r = false -> out_hierarchical uri W r = Ok o ->
  (forall es k x, field (lit "errors") o = Some (JObj es) -> dget k es = Some x ->
     exists key c, In (key, c) (r_children r) /\ r_key c = Some k /\ r_valid c = false /\ r_error c = x) /\
  (forall key c k, In (key, c) (r_children r) -> r_key c = Some k -> r_error c <> JNull ->
     exists es x, field (lit "errors") o = Some (JObj es) /\ dget k es = Some x).
Proof.
  intros uri W fuel s i r o E V O. pose proof (hier_root_messages uri W r o (evaluate_root_relpath W fuel s i r E) O) as H. rewrite V in H.
  change (list_name false) with (lit "errors") in H. set (ms := fold_left _ _ _) in H. split.
  - intros es k x F G. rewrite F in H.
    assert (ms = es) as M by (destruct ms; [discriminate|now injection H as ->]). rewrite <- M in G.
    apply noted_dget in G. destruct G as [G|(key & c & Hc & K & X & N)]; [discriminate|]. exists key, c. cbn [msgval] in X.
    split; [exact Hc|]. split; [exact K|]. split; [|exact X]. destruct (r_valid c) eqn:Vc; [|reflexivity]. exfalso. apply N. rewrite <- X.
    apply (C60_valid_without_error W fuel s i r c E); [|exact Vc]. eapply lb_below; [reflexivity|exact Hc|now constructor].
  - intros key c k Hc K N. pose proof (noted_all false k key c (r_children r) [] Hc K N) as G. fold ms in G.
    destruct (dget k ms) as [x|] eqn:D; [|congruence]. exists ms, x. split; [|exact D]. rewrite H. destruct ms; [discriminate|reflexivity].
Qed.
Print Assumptions C60_hierarchical_errors.

(** Below the root it does not list every error: of {"items": {"type":
    "string"}} and [1, 2, "a"], two nodes have an error of type, and the output
    has one member for both, that of the last. *)
Definition strings_only : list snode :=
  [ SObj [kw_in dialect_2020_12 "items" (KSub 1)]; SObj [kw_in dialect_2020_12 "type" (KJ (text "string"))] ].
Theorem C60_overwritten_refuted : forall uri, exists W fuel s i r o d es,
  evaluate_root W fuel s i = Ok r /\ out_hierarchical uri W r = Ok o /\
  (exists key c key1 c1 key2 c2, In (key, c) (r_children r) /\ In (key1, c1) (r_children c) /\ In (key2, c2) (r_children c) /\
     r_inst c1 <> r_inst c2 /\ r_error c1 <> JNull /\ r_error c2 <> JNull) /\
  field (lit "details") o = Some (JArr [d]) /\ field (lit "details") d = None /\
  field (lit "errors") d = Some (JObj es) /\ length es = 1.
Proof.
  intro uri. exists (small strings_only), 5, 0, (root (JArr [int 1; int 2; text "a"])). do 4 eexists.
  split; [vm_compute; reflexivity|]. split; [vm_compute; reflexivity|]. split.
  - do 6 eexists. split; [left; reflexivity|]. split; [left; reflexivity|]. split; [right; left; reflexivity|].
    split; [vm_compute; discriminate|]. split; discriminate.
  - split; [reflexivity|]. split; [reflexivity|]. split; reflexivity.
Qed.
Print Assumptions C60_overwritten_refuted.

Example C60_case : forall uri, exists r o, evaluate_root (small strings_only) 5 0 (root (JArr [int 1; text "a"])) = Ok r
  /\ r_valid r = false /\ out_hierarchical uri (small strings_only) r = Ok o
  /\ (exists key c, In (key, c) (r_children r) /\ r_key c = Some (lit "items") /\ r_error c <> JNull)
  /\ exists m, linked_by (fun _ => true) r m /\ r_valid m = true /\ r_key m = Some (lit "type").
Proof.
  intro uri. do 2 eexists. split; [vm_compute; reflexivity|]. split; [reflexivity|]. split; [vm_compute; reflexivity|]. split.
  - do 2 eexists. split; [left; reflexivity|]. split; [reflexivity|discriminate].
  - eexists. split; [|split; [|]].
    + eapply lb_below; [reflexivity|left; reflexivity|]. eapply lb_below; [reflexivity|right; left; reflexivity|]. now constructor.
    + reflexivity.
    + reflexivity.
Qed.

(** ** C61 *)

(** Every node of the tree stands for a place in the schema it belongs to. *)
Theorem C61_places : forall d W fuel s i r m,
  good_world d W -> evaluate_root W fuel s i = Ok r -> linked_by (fun _ => true) r m -> exists sn, schema_node W m = Ok sn.
Proof. intros d W fuel s i r m G E. apply placed_below. exact (evaluate_root_placed d W fuel s i r G E). Qed.
Print Assumptions C61_places.

(** Hence hierarchical output can be produced. *)
Theorem C61_hierarchical : forall uri d W fuel s i r,
  good_world d W -> evaluate_root W fuel s i = Ok r -> exists o, out_hierarchical uri W r = Ok o.
Proof.
  intros uri d W fuel s i r G E. destruct (hier_total uri W r (evaluate_root_placed d W fuel s i r G E)) as (l & H). unfold out_hierarchical. rewrite H. cbn [bind].
  destruct l as [|o l]; [|now exists o]. exfalso. pose proof (evaluate_root_relpath W fuel s i r E) as R. destruct r as [k p rp s' ip v a dd an er rf cs]. cbn [r_relpath] in R. subst rp.
  cbn [hier_visit schema_node sn_walk r_relpath r_schema bind r_children r_valid] in H.
  match type of H with bind ?e _ = _ => destruct e as [l'|x|]; cbn [bind] in H; discriminate end.
Qed.
Print Assumptions C61_hierarchical.

(** The nodes below a node: no two for the same key and instance; each has the
    key it is filed under, the evaluation path of its parent extended by that
    key, and an instance at the place of the parent's or one step below. *)
Theorem C61_children : forall W fuel s i r n,
  evaluate_root W fuel s i = Ok r -> linked_by (fun _ => true) r n ->
  NoDup (map fst (r_children n)) /\
  forall k p c, In ((k, p), c) (r_children n) ->
    r_key c = Some k /\ r_path c = (r_path n ++ [k])%list /\ r_inst c = p /\
    (p = r_inst n \/ exists t, p = (r_inst n ++ [t])%list).
Proof.
  intros W fuel s i r n E L. destruct (evaluate_root_shape W fuel s i r E) as [S _].
  assert (H : shaped i n).
  { clear E. induction L as [n _|n key c m _ Hc _ IH]; [exact S|]. apply IH. inversion S as [? _ _ C]; subst. rewrite Forall_forall in C. exact (C _ Hc). }
  inversion H as [? N C _]; subst. split; [exact N|]. intros k p c Hc. rewrite Forall_forall in C. destruct (C _ Hc) as (A & B & D & _ & F). auto.
Qed.
Print Assumptions C61_children.

(** The root is at the top of both; the instance path of every node leads to a
    place in the instance. *)
Theorem C61_root : forall W fuel s i r, evaluate_root W fuel s i = Ok r -> r_key r = None /\ r_path r = [] /\ r_inst r = i_path i /\ r_schema r = s.
Proof. intros W fuel s i r E. destruct (evaluate_root_shape W fuel s i r E) as [_ (A & B & _ & C & D)]. auto. Qed.
Print Assumptions C61_root.

Theorem C61_instances : forall W fuel s i r m,
  evaluate_root W fuel s i = Ok r -> linked_by (fun _ => true) r m ->
  exists q v, r_inst m = (i_path i ++ q)%list /\ refers (i_val i) q v.
Proof.
  intros W fuel s i r m E L. destruct (evaluate_root_shape W fuel s i r E) as [S _].
  assert (K : known i (r_inst r)).
  { destruct (C61_root W fuel s i r E) as (_ & _ & -> & _). exists [], (i_val i). split; [now rewrite app_nil_r|constructor]. }
  clear E. induction L as [n _|n key c m _ Hc _ IH]; [exact K|]. inversion S as [? _ C H]; subst. rewrite Forall_forall in C, H. apply IH; [exact (H _ Hc)|].
  destruct (C _ Hc) as (_ & _ & D & F & _). cbn [snd fst] in *. now rewrite D.
Qed.
Print Assumptions C61_instances.

Example C61_case : good_world dialect_2020_12 (small strings_only) /\
  exists r m, evaluate_root (small strings_only) 5 0 (root (JArr [int 1; text "a"])) = Ok r /\ linked_by (fun _ => true) r m /\
  r_path m = [lit "items"; lit "type"] /\ r_inst m = [lit "1"] /\ schema_node (small strings_only) m = Ok (SNJson (KJ (text "string"))).
Proof.
  split; [apply good_small; vm_compute; reflexivity|]. do 2 eexists. split; [vm_compute; reflexivity|]. split; [|split; [|split]].
  - eapply lb_below; [reflexivity|left; reflexivity|]. eapply lb_below; [reflexivity|right; left; reflexivity|]. now constructor.
  - reflexivity.
  - reflexivity.
  - reflexivity.
Qed.
