(** C65, C66: detailed and hierarchical output. *)
From Coq Require Import String List Bool Lia.
From Verif Require Import SchemaCases OutlineFacts SpecOutput.
Import ListNotations.
Open Scope string_scope.
Open Scope list_scope.
Open Scope nat_scope.

(** ** C65 *)

(** Detailed output of any result is the result tree restricted to the verdict
    of the root and condensed as specified. *)
Theorem C65_detailed : forall uri n, exists os,
  says (r_valid n) (out_detailed uri n) /\ located uri n (out_detailed uri n) /\
  field (list_name (r_valid n)) (out_detailed uri n) = Some (JArr os) /\ Forall2 (condensed uri (r_valid n)) (of_verdict (r_valid n) n) os.
Proof.
  intros uri n. exists (map (detailed_visit uri (r_valid n)) (of_verdict (r_valid n) n)). split; [reflexivity|]. split; [split; [reflexivity|split; reflexivity]|]. split.
  - unfold out_detailed. replace (map (fun kc : pystr * path * rnode => detailed_visit uri (r_valid n) (snd kc)) (filter (fun kc => Bool.eqb (r_valid (snd kc)) (r_valid n)) (r_children n)))
      with (map (detailed_visit uri (r_valid n)) (of_verdict (r_valid n) n)).
    + now destruct (r_valid n).
    + unfold of_verdict. generalize (r_valid n) at 2 4. intro v. induction (r_children n) as [|[k c] cs IH]; [reflexivity|]. cbn [map snd filter]. destruct (Bool.eqb (r_valid c) v); cbn [map snd]; now rewrite IH.
  - apply Forall2_map_all. intros c _. apply detailed_condensed.
Qed.
Print Assumptions C65_detailed.

(** The messages it contains are those of the ends of the tree: the nodes of
    that verdict, below the root, that have no child of that verdict and are
    reached through such nodes. *)
Theorem C65_messages : forall uri n x,
  tells (r_valid n) (out_detailed uri n) x <->
  exists c m, In c (of_verdict (r_valid n) n) /\ linked_by (fun d => Bool.eqb (r_valid d) (r_valid n)) c m /\
    of_verdict (r_valid n) m = [] /\ message (r_valid n) m = x /\ x <> JNull.
Proof.
  intros uri n x. destruct (C65_detailed uri n) as (os & S & L & F & C). set (o := out_detailed uri n) in *.
  assert (No : field (message_name (r_valid n)) o = None) by (unfold o, out_detailed; now destruct (r_valid n)). set (v := r_valid n) in *. split.
  - intro T. destruct T as [o x G|o os' o' x G Hin T]; [congruence|]. rewrite F in G. injection G as <-. destruct (Forall2_right _ _ _ _ C Hin) as (c & Hc & Cc).
    assert (Vc : r_valid c = v) by (apply of_verdict_In in Hc; now destruct Hc as (_ & _ & ->)). apply (condensed_tells uri v c o' Vc Cc x) in T. destruct T as (m & R). exists c, m. auto.
  - intros (c & m & Hc & R). assert (Vc : r_valid c = v) by (apply of_verdict_In in Hc; now destruct Hc as (_ & _ & ->)).
    destruct (Forall2_left _ _ _ _ C Hc) as (o' & Ho & Cc). eapply tells_below; [exact F|exact Ho|]. apply (condensed_tells uri v c o' Vc Cc x). exists m. exact R.
Qed.
Print Assumptions C65_messages.

(** So the error of the root itself is never there: evaluating the schema
    false, which has no other error, gives detailed output without any, while
    basic output has it. *)
Theorem C65_false_refuted : forall uri, exists W fuel s i r x,
  evaluate_root W fuel s i = Ok r /\ r_valid r = false /\ collect_errors None None r = [x] /\
  field (lit "errors") (out_detailed uri r) = Some (JArr []) /\ forall y, ~ tells false (out_detailed uri r) y.
Proof.
  intro uri. exists (small [SBool false]), 5, 0, (root (int 1)). eexists. eexists. split; [vm_compute; reflexivity|]. split; [reflexivity|]. split; [vm_compute; reflexivity|]. split; [reflexivity|].
  intros y T. match type of T with tells _ (out_detailed uri ?n) _ => apply (proj1 (C65_messages uri n y)) in T end. destruct T as (c & m & [] & _).
Qed.
Print Assumptions C65_false_refuted.

Definition deep : list snode :=
  [ SObj [kw_in dialect_2020_12 "properties" (KSubm [(lit "a", 1); (lit "b", 2)]); kw_in dialect_2020_12 "required" (KJ (JArr [text "c"]))];
    SObj [kw_in dialect_2020_12 "type" (KJ (text "string"))]; SBool false ].
Example C65_case : forall uri, exists r o,
  evaluate_root (small deep) 5 0 (root (obj [("a", int 1); ("b", int 2)])) = Ok r /\ out_detailed uri r = o /\ r_valid r = false /\
  length (collect_errors None None r) = 4 /\
  length (of_verdict false r) = 2 /\ exists e1 e2 o1, field (lit "errors") o = Some (JArr [o1; e2]) /\ field (lit "errors") o1 = Some (JArr e1) /\ length e1 = 2 /\ field (lit "error") e2 <> None.
Proof.
  intro uri. do 2 eexists. split; [vm_compute; reflexivity|]. split; [reflexivity|]. split; [reflexivity|]. split; [vm_compute; reflexivity|]. split; [reflexivity|].
  do 3 eexists. split; [reflexivity|]. split; [reflexivity|]. split; [reflexivity|]. discriminate.
Qed.

(** ** C66 *)

(** Hierarchical output of an evaluation is as specified, down to every depth. *)
Theorem C66_hierarchical : forall uri W fuel s i r o,
  evaluate_root W fuel s i = Ok r -> out_hierarchical uri W r = Ok o -> outlined uri W r [o].
Proof.
  intros uri W fuel s i r o E H. unfold out_hierarchical in H. destruct (hier_visit uri W r) as [l| |] eqn:V; [|discriminate|discriminate]. cbn [bind] in H.
  apply hier_outlined in V. inversion V as [n t o' dets ms A|n w oss A]; subst.
  - now injection H as <-.
  - exfalso. unfold schema_node in A. rewrite (evaluate_root_relpath W fuel s i r E) in A. discriminate.
Qed.
Print Assumptions C66_hierarchical.
(** And of any part of a result, the first of the objects specified. *)
Theorem C66_part : forall uri W n o, out_hierarchical uri W n = Ok o -> exists l, outlined uri W n (o :: l).
Proof.
  intros uri W n o H. unfold out_hierarchical in H. destruct (hier_visit uri W n) as [l| |] eqn:V; [|discriminate|discriminate]. cbn [bind] in H.
  destruct l as [|o' l]; [discriminate|]. injection H as <-. exists l. now apply hier_outlined.
Qed.
Print Assumptions C66_part.
Example C66_case : forall uri, exists r o, evaluate_root (small deep) 5 0 (root (obj [("a", int 1); ("b", int 2)])) = Ok r /\
  out_hierarchical uri (small deep) r = Ok o /\ (exists d1 d2, field (lit "details") o = Some (JArr [d1; d2])) /\
  exists es, field (lit "errors") o = Some (JObj es) /\ map fst es = [lit "properties"; lit "required"].
Proof.
  intro uri. do 2 eexists. split; [vm_compute; reflexivity|]. split; [vm_compute; reflexivity|]. split; [do 2 eexists; reflexivity|]. eexists. split; reflexivity.
Qed.
