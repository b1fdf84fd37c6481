(** What the collectors and the output formats do with a result tree. *)
From Coq Require Import List Lia Bool.
From Verif Require Export SchemaFine Output.
Import ListNotations.
Open Scope nat_scope.

(** ** Unfolding. *)
Lemma linked_nodes_eq ok n :
  linked_nodes ok n = if ok n then n :: flat_map (fun kc => linked_nodes ok (snd kc)) (r_children n) else [].
Proof.
  destruct n as [k p rp s ip v a d an er rf cs]. cbn [linked_nodes r_children]. destruct (ok _); [|reflexivity]. f_equal.
  induction cs as [|[ck c] cs IH]; [reflexivity|]. cbn [flat_map snd]. now rewrite <- IH.
Qed.
Definition own_error (inst : option path) (key : option pystr) (n : rnode) : list json :=
  if negb (is_null (r_error n))
     && match key with None => true | Some k => opt_str_eqb k (r_key n) end
     && match inst with None => true | Some p => strs_eqb p (r_inst n) end
  then [r_error n] else [].
Lemma collect_errors_eq inst key n :
  collect_errors inst key n =
  if negb (r_valid n) && negb (r_discard n) then
    own_error inst key n ++ flat_map (fun kc => collect_errors inst key (snd kc)) (r_children n)
  else [].
Proof.
  destruct n as [k p rp s ip v a d an er rf cs]. cbn [r_children r_valid r_discard]. unfold own_error. cbn [collect_errors r_valid r_discard r_error r_key r_inst r_children].
  destruct (negb v && negb d); [|reflexivity]. f_equal.
  induction cs as [|[ck c] cs IH]; [reflexivity|]. cbn [flat_map snd]. now rewrite <- IH.
Qed.
Definition own_unit uri valid fl n : list json :=
  if key_in fl n && negb (is_null (msgval valid n)) then [JObj (location uri n ++ [(msgkey valid, msgval valid n)])] else [].
Lemma basic_visit_eq uri valid fl n :
  basic_visit uri valid fl n =
  if Bool.eqb (r_valid n) valid then own_unit uri valid fl n ++ flat_map (fun kc => basic_visit uri valid fl (snd kc)) (r_children n) else [].
Proof.
  destruct n as [k p rp s ip v a d an er rf cs]. cbn [basic_visit r_children r_valid]. destruct (Bool.eqb v valid); [|reflexivity]. f_equal.
  induction cs as [|[ck c] cs IH]; [reflexivity|]. cbn [flat_map snd]. now rewrite <- IH.
Qed.

(** ** Linked nodes. *)
Lemma linked_nodes_In ok n m : In m (linked_nodes ok n) <-> linked_by ok n m.
Proof.
  revert m. induction n as [n IH] using rnode_induction. intro m. rewrite linked_nodes_eq. rewrite Forall_forall in IH. split.
  - destruct (ok n) eqn:O; [|intros []]. intros [<-|H]; [now constructor|]. apply in_flat_map in H. destruct H as ([key c] & Hc & H).
    eapply lb_below; [exact O|exact Hc|]. apply (IH _ Hc m), H.
  - intro L. inversion L as [? O|? key c ? O Hc Lc]; subst; rewrite O; [now left|]. right. apply in_flat_map. exists (key, c). split; [exact Hc|]. now apply (IH _ Hc m).
Qed.

Definition askedb (inst : option path) (key : option pystr) (m : rnode) : bool :=
  match key with None => true | Some k => opt_str_eqb k (r_key m) end && match inst with None => true | Some p => strs_eqb p (r_inst m) end.
Lemma askedb_spec inst key m : askedb inst key m = true <-> asked_for inst key m.
Proof.
  unfold askedb, asked_for. rewrite andb_true_iff. split.
  - intros [A B]. split.
    + intros p ->. destruct (strs_eqb_spec p (r_inst m)); congruence.
    + intros k ->. unfold opt_str_eqb in A. destruct (r_key m) as [k'|]; [|discriminate]. destruct (str_eqb_spec k k'); congruence.
  - intros [A B]. split.
    + destruct key as [k|]; [|reflexivity]. rewrite (B k eq_refl). cbn. apply str_eqb_refl.
    + destruct inst as [p|]; [|reflexivity]. rewrite (A p eq_refl). destruct (strs_eqb_spec p p); congruence.
Qed.
Definition wanted v inst key m : bool := negb (is_null (message v m)) && askedb inst key m.

Lemma filter_flat_map {A B} (p : B -> bool) (f : A -> list B) l : List.filter p (flat_map f l) = flat_map (fun a => List.filter p (f a)) l.
Proof. induction l; cbn; [reflexivity|]. now rewrite filter_app, IHl. Qed.
Lemma map_flat_map {A B C} (g : B -> C) (f : A -> list B) l : map g (flat_map f l) = flat_map (fun a => map g (f a)) l.
Proof. induction l; cbn; [reflexivity|]. now rewrite map_app, IHl. Qed.
Lemma flat_map_same {A B} (f g : A -> list B) l : Forall (fun a => f a = g a) l -> flat_map f l = flat_map g l.
Proof. induction 1; cbn; congruence. Qed.

Lemma collect_annotations_linked inst key n :
  collect_annotations inst key n = map r_annot (List.filter (wanted true inst key) (linked_nodes (live true) n)).
Proof.
  induction n as [n IH] using rnode_induction. rewrite collect_annotations_eq, linked_nodes_eq. unfold live at 1.
  replace (Bool.eqb (r_valid n) true) with (r_valid n) by (now destruct (r_valid n)). destruct (r_valid n && negb (r_discard n)); [|reflexivity].
  rewrite (flat_map_same _ _ _ IH). cbn [List.filter]. unfold own_annotation, wanted at 2, askedb. cbn [message]. rewrite andb_assoc.
  destruct (negb _ && _ && _); cbn [map app]; now rewrite filter_flat_map, map_flat_map.
Qed.
Lemma collect_errors_linked inst key n :
  collect_errors inst key n = map r_error (List.filter (wanted false inst key) (linked_nodes (live false) n)).
Proof.
  induction n as [n IH] using rnode_induction. rewrite collect_errors_eq, linked_nodes_eq. unfold live at 1.
  replace (Bool.eqb (r_valid n) false) with (negb (r_valid n)) by (now destruct (r_valid n)). destruct (negb (r_valid n) && negb (r_discard n)); [|reflexivity].
  rewrite (flat_map_same _ _ _ IH). cbn [List.filter]. unfold own_error, wanted at 2, askedb. cbn [message]. rewrite andb_assoc.
  destruct (negb _ && _ && _); cbn [map app]; now rewrite filter_flat_map, map_flat_map.
Qed.
Lemma collected_In v inst key n x :
  In x (map (message v) (List.filter (wanted v inst key) (linked_nodes (live v) n))) <->
  exists m, linked_by (live v) n m /\ asked_for inst key m /\ message v m = x /\ x <> JNull.
Proof.
  rewrite in_map_iff. split.
  - intros (m & <- & H). apply filter_In in H. destruct H as [L H]. apply linked_nodes_In in L. apply andb_true_iff in H. destruct H as [N A].
    apply askedb_spec in A. exists m. repeat split; try apply L; try apply A. intro E. rewrite E in N. discriminate.
  - intros (m & L & A & <- & N). exists m. split; [reflexivity|]. apply filter_In. split; [now apply linked_nodes_In|]. unfold wanted.
    rewrite (proj2 (askedb_spec _ _ _) A), andb_true_r. now destruct (message v m).
Qed.

(** ** Fields. *)
Lemma location_fields uri n l : located uri n (JObj (location uri n ++ l)).
Proof. split; [reflexivity|split; reflexivity]. Qed.

Definition chosen v fl (m : rnode) : bool := key_in fl m && negb (is_null (message v m)).
Lemma basic_visit_lists uri v fl n :
  lists uri v (List.filter (chosen v fl) (linked_nodes (fun m => Bool.eqb (r_valid m) v) n)) (basic_visit uri v fl n).
Proof.
  induction n as [n IH] using rnode_induction. rewrite basic_visit_eq, linked_nodes_eq. destruct (Bool.eqb (r_valid n) v); [|constructor].
  assert (Kids : lists uri v (List.filter (chosen v fl) (flat_map (fun kc => linked_nodes (fun m => Bool.eqb (r_valid m) v) (snd kc)) (r_children n)))
    (flat_map (fun kc => basic_visit uri v fl (snd kc)) (r_children n))).
  { rewrite filter_flat_map. induction IH as [|kc cs H _ IHcs]; cbn [flat_map]; [constructor|]. apply Forall2_app; [exact H|exact IHcs]. }
  cbn [List.filter]. unfold own_unit, chosen at 1. change (msgval v n) with (message v n). change (msgkey v) with (message_name v).
  destruct (_ && _); cbn [app]; [|exact Kids]. constructor; [|exact Kids]. split; [apply location_fields|]. now destruct v.
Qed.

Lemma linked_nodes_undiscarded v n : undiscarded n -> linked_nodes (fun m => Bool.eqb (r_valid m) v) n = linked_nodes (live v) n.
Proof.
  induction n as [n IH] using rnode_induction. intro U. rewrite !linked_nodes_eq. unfold live at 1. rewrite (U n (lb_here _ n eq_refl)), andb_true_r.
  destruct (Bool.eqb _ _); [|reflexivity]. f_equal. apply flat_map_same. rewrite Forall_forall in *. intros [key c] Hc. apply IH; [exact Hc|].
  intros m L. apply U. eapply lb_below; [reflexivity|exact Hc|exact L].
Qed.

Lemma verbose_mirrors uri n : mirrors uri n (out_verbose uri n).
Proof.
  induction n as [n IH] using rnode_induction. destruct n as [k p rp s ip v a d an er rf cs].
  set (os := (fix go (cs : list ((pystr * path) * rnode)) : list json := match cs with [] => [] | (_, c) :: r => out_verbose uri c :: go r end) cs).
  assert (O : out_verbose uri (mkR k p rp s ip v a d an er rf cs) =
    let n := mkR k p rp s ip v a d an er rf cs in
    JObj (vfield n ++ location uri n ++ (if is_null (msgval v n) then [] else [(msgkey v, msgval v n)])
          ++ (match os with [] => [] | _ => [(childkey v, JArr os)] end))) by reflexivity.
  rewrite O. cbv zeta. apply mirrors_i with (os := os).
  - reflexivity.
  - split; [reflexivity|split; reflexivity].
  - destruct v; cbn [msgval message r_valid r_annot r_error]; [destruct an|destruct er]; cbn; destruct os; reflexivity.
  - destruct v; cbn [msgval message r_valid r_annot r_error]; [destruct an|destruct er]; cbn; destruct os; reflexivity.
  - cbn [r_children] in *. subst os. clear O. induction IH as [|[ck c] cs H _ IHcs]; constructor; [exact H|exact IHcs].
Qed.

Lemma hier_root_says uri W n o : r_relpath n = [] -> out_hierarchical uri W n = Ok o -> says (r_valid n) o.
Proof.
  destruct n as [k p rp s ip v a d an er rf cs]. cbn [r_relpath r_valid]. intros ->. unfold out_hierarchical.
  set (n := mkR k p [] s ip v a d an er rf cs).
  assert (H : forall l, hier_visit uri W n = Ok l -> exists o', l = [o'] /\ says v o').
  { intro l. unfold n. cbn [hier_visit schema_node sn_walk r_relpath r_schema bind r_children r_valid].
    match goal with |- bind ?e _ = _ -> _ => destruct e as [l'|x|]; cbn [bind]; [|discriminate|discriminate] end.
    intros [= <-]. eexists. split; reflexivity. }
  destruct (hier_visit uri W n) as [l|x|]; cbn [bind]; [|discriminate|discriminate]. destruct (H l eq_refl) as (o' & -> & S). now intros [= <-].
Qed.
