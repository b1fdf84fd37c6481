(** Property C92: slices of JSON nodes.  Reading, deleting and assigning a slice
    do to the values what Python's list does, through every history of edits
    with any indices, slices and pointers; deletion raises TypeError although it
    is done; and what the keys and parents left behind lead to. *)
From Verif Require Import JTreeOps SpecTreeAny JTreeSim JLoose JLooseOps JSlice SpecSlice JSliceFacts JTree PropsTree.
Open Scope nat_scope.

(** ** C92.  Reading a value gives what the subtree spells out. *)
Theorem C92_values : forall h n, slice_history h -> n < length h ->
  exists v, fst (read_value h n) = Ok v /\ denotes h n v /\ forall w, denotes h n w -> w = v.
Proof.
  intros h n H Hn. apply slice_history_loose in H as C.
  destruct (loose_read_value h n C Hn) as (v & h' & -> & D & _). exists v. split; auto. split; auto.
  intros w W. eapply denotes_fun; eauto.
Qed.
Print Assumptions C92_values.

(** Assignment, deletion, insertion and removal at any integer. *)
Theorem C92_setitem : forall h n i o v w, slice_history h -> n < length h -> operand_ok h o ->
  denotes h n v -> operand_is h o w ->
  let '(r, h') := setitem h n i o in
  changes h h' n (py_set v i w) /\
  match py_set v i w with Some _ => r = Ok tt | None => exists e, r = Exn e end.
Proof.
  intros h n i o v w H Hn OK D W. apply slice_history_loose in H as C.
  destruct (loose_setitem h n i o v w C Hn OK D W) as (h' & r & -> & _ & _ & R). exact R.
Qed.
Print Assumptions C92_setitem.

Theorem C92_delitem : forall h n i v, slice_history h -> n < length h -> denotes h n v ->
  let '(r, h') := delitem h n i in
  changes h h' n (py_del v i) /\
  match py_del v i with Some _ => r = Ok tt | None => exists e, r = Exn e end.
Proof.
  intros h n i v H Hn D. apply slice_history_loose in H as C.
  destruct (loose_delitem h n i v C Hn D) as (h' & r & -> & _ & _ & R). exact R.
Qed.
Print Assumptions C92_delitem.

Theorem C92_insert : forall h n z o v w, slice_history h -> n < length h -> operand_ok h o ->
  denotes h n v -> operand_is h o w ->
  let '(r, h') := insert h n z o in
  changes h h' n (py_insert v z w) /\
  match py_insert v z w with Some _ => r = Ok tt | None => exists e, r = Exn e end.
Proof.
  intros h n z o v w H Hn OK D W. apply slice_history_loose in H as C.
  destruct (loose_insert h n z o v w C Hn OK D W) as (h' & r & -> & _ & _ & R). exact R.
Qed.
Print Assumptions C92_insert.

Theorem C92_pop : forall h n z v, slice_history h -> n < length h -> denotes h n v ->
  let '(r, h') := pop h n z in
  changes h h' n (py_del v (IInt z)) /\
  match py_get v (IInt z) with
  | Some x => exists c, r = Ok c /\ denotes h' c x
  | None => exists e, r = Exn e
  end.
Proof.
  intros h n z v H Hn D. apply slice_history_loose in H as C.
  destruct (loose_pop h n z v C Hn D) as (h' & r & -> & _ & _ & R). exact R.
Qed.
Print Assumptions C92_pop.

Theorem C92_append : forall h n o l w, slice_history h -> n < length h -> operand_ok h o ->
  denotes h n (JArr l) -> operand_is h o w ->
  let '(r, h') := JTree.append h n o in r = Ok tt /\ changes h h' n (Some (JArr (l ++ [w]))).
Proof.
  intros h n o l w H Hn OK D W. apply slice_history_loose in H as C.
  destruct (loose_append h n o (JArr l) w C Hn OK D W) as (h' & r & -> & _ & _ & R). exact R.
Qed.
Print Assumptions C92_append.

(** Reading a child by index. *)
Theorem C92_getitem : forall h n i v, slice_history h -> n < length h -> denotes h n v ->
  match py_get v i with
  | Some x => exists c k, getitem h n i = Ok c /\ child_at h n k c /\ denotes h c x
  | None => exists e, getitem h n i = Exn e
  end.
Proof. intros h n i v H Hn D. apply loose_getitem; auto. now apply slice_history_loose. Qed.
Print Assumptions C92_getitem.

(** [add] by pointer, and [add], [replace], [remove] of the node itself. *)
Theorem C92_add_at : forall h n q k tp v o w, slice_history h -> n < length h -> operand_ok h o -> operand_is h o w ->
  located h n q tp -> denotes h tp v ->
  let '(r, h') := json_add h n (PKeys (q ++ [k])) o in
  changes h h' tp (plain_add v k w) /\
  match plain_add v k w with Some _ => r = Ok tt | None => r = Exn EJSON end.
Proof.
  intros h n q k tp v o w H Hn OK W L D. apply slice_history_loose in H as C.
  destruct (loose_add h n q k tp v o w C Hn OK W L D) as (h' & r & -> & _ & _ & R). exact R.
Qed.
Print Assumptions C92_add_at.

Theorem C92_whole : forall h n o w, slice_history h -> n < length h -> operand_ok h o -> operand_is h o w ->
  (let '(r, h') := json_add h n (PKeys []) o in r = Ok tt /\ changes h h' n (Some w)) /\
  (let '(r, h') := json_replace h n (PKeys []) o in r = Ok tt /\ changes h h' n (Some w)) /\
  (let '(r, h') := json_remove h n (PKeys []) in r = Ok tt /\ changes h h' n (Some JNull)).
Proof.
  intros h n o w H Hn OK W. apply slice_history_loose in H as C.
  unfold json_add, json_replace, json_remove. cbn [path_empty].
  destruct (loose_put h n o w C Hn OK W) as (h' & -> & _ & _ & R).
  destruct (loose_reinit h n JNull C Hn eq_refl) as (h2 & -> & _ & _ & R2).
  split; [split; auto|]. split; split; auto.
Qed.
Print Assumptions C92_whole.


(** ** Reading a slice: the nodes at its positions; of a string, a plain string. *)
Theorem C92_getitem_slice : forall h n s v, slice_history h -> n < length h -> denotes h n v ->
  match v with
  | JArr l => if (stride s =? 0)%Z then getitem_slice h n s = Exn EValue
              else exists ids r, getitem_slice h n s = Ok (SNodes ids) /\ slice_read s l r /\ Forall2 (denotes h) ids r /\
                     forall c, In c ids -> exists k, child_at h n k c
  | JStr t => if (stride s =? 0)%Z then getitem_slice h n s = Exn EValue
              else exists r, getitem_slice h n s = Ok (SText r) /\ slice_read s t r
  | _ => getitem_slice h n s = Exn EType
  end.
Proof.
  intros h n s v H Hn D. unfold getitem_slice. change (step_of s) with (stride s).
  destruct (ndata (getn h n)) as [|b|x|t|ids|m] eqn:E.
  1-4: inversion D as [? E'|? ? E'|? ? E'|? ? E'|? ? ? E'|? ? ? E']; subst; rewrite E in E'; try discriminate; auto.
  - injection E' as <-. destruct (Z.eqb_spec (stride s) 0) as [|N]; auto. eexists. split; [reflexivity|]. now apply picked_read.
  - destruct (denotes_arr_inv h n ids v E D) as (l & -> & F2).
    destruct (Z.eqb_spec (stride s) 0) as [|N]; auto. eexists. exists (picked l (slice_of (length l) s)). split; [reflexivity|].
    split; [now apply picked_read|]. rewrite (Forall2_len _ _ _ F2). split; [now apply Forall2_picked|].
    intros c Hc. unfold picked in Hc. apply in_flat_map in Hc as (k & _ & Hc).
    destruct (nth_error ids k) as [c'|] eqn:Ek; [|contradiction]. destruct Hc as [<-|[]].
    exists (str_of_nat k). econstructor; eauto.
  - destruct (denotes_obj_inv h n m v E D) as (kvs & -> & F2). auto.
Qed.
Print Assumptions C92_getitem_slice.

(** Deleting a slice of an array deletes it and then raises TypeError; a step of
    0 is a ValueError, and of other values no slice can be deleted. *)
Theorem C92_delete_slice : forall h n s v, slice_history h -> n < length h -> denotes h n v ->
  let '(r, h') := delitem_slice h n s in
  match v with
  | JArr l => if (stride s =? 0)%Z then r = Exn EValue /\ changes h h' n None
              else r = Exn EType /\ exists l', slice_deleted s l l' /\ changes h h' n (Some (JArr l'))
  | _ => r = Exn EType /\ changes h h' n None
  end.
Proof.
  intros h n s v H Hn D. apply slice_history_loose in H as C.
  destruct (loose_delitem_slice h n s v C Hn D) as (h' & e & -> & _ & _ & Ch & ->). unfold py_del_slice in Ch.
  change (step_of s) with (stride s) in *. destruct v; auto. destruct (Z.eqb_spec (stride s) 0) as [|N]; auto.
  split; auto. eexists. split; [now apply without_deleted|exact Ch].
Qed.
Print Assumptions C92_delete_slice.

(** Assigning to a slice of an array: the items of the operand go in; ValueError
    for a step of 0 and for the wrong number of items, TypeError for a scalar
    and if the target is no array. *)
Theorem C92_assign_slice : forall h n s o v w, slice_history h -> n < length h -> operand_ok h o ->
  denotes h n v -> operand_is h o w -> ~ yields_strings w ->
  let '(r, h') := setitem_slice h n s o in
  match v with
  | JArr l =>
      (r = Ok tt /\ exists xs l', yields w xs /\ slice_assigned s xs l l' /\ changes h h' n (Some (JArr l')))
      \/ (r = Exn EValue /\ changes h h' n None /\ (stride s = 0%Z \/ exists xs, yields w xs /\ forall l', ~ slice_assigned s xs l l'))
      \/ (r = Exn EType /\ changes h h' n None /\ stride s <> 0%Z /\ forall xs, ~ yields w xs)
  | _ => r = Exn EType /\ changes h h' n None
  end.
Proof.
  intros h n s o v w H Hn OK D W NY. apply slice_history_loose in H as C.
  destruct (loose_setitem_slice h n s o v w C Hn OK D W) as (h' & r & -> & _ & _ & R).
  assert (Sp : spliceable w).
  { destruct w as [| | |[|x t]|l|[|kv m]]; simpl; auto.
    - apply NY. left. eauto.
    - apply NY. right. eauto. }
  destruct (R Sp) as (Ch & ->). clear R. unfold py_set_slice in *. change (step_of s) with (stride s) in *. destruct v; auto.
  destruct (Z.eqb_spec (stride s) 0) as [Ez|N]; [right; left; split; [reflexivity|split; [exact Ch|now left]]|].
  destruct (elements w) as [xs|] eqn:Ee.
  - assert (Y : yields w xs).
    { destruct w as [| | |[|x t]|y|[|kv m]]; simpl in Ee; try discriminate; injection Ee as <-; constructor. }
    destruct (fits s (length l) (length xs)) eqn:Ef; cbn [done outcome] in *.
    + left. split; auto. exists xs. eexists. split; auto. split; [now apply set_slice_assigned|exact Ch].
    + right. left. split; auto. split; auto. right. exists xs. split; auto. intros l'. now apply not_assigned.
  - right. right. cbn [done outcome] in *. split; auto. split; auto. split; auto.
    intros xs Y. destruct Y; discriminate.
Qed.
Print Assumptions C92_assign_slice.

(** A history with slices: d = [1, 2, 3, 4, 5]; del d[::2] (which raises);
    d[1:1] = [[7], 8]; d[::-3] = ["x", "y"]; d[0].append(6) raises,
    d[1].append(6) works. *)
Definition sl (a b c : option Z) : slice := mkSlice a b c.
Definition hist92 : list slice_op :=
  [Plain (OpNew (JArr [num 1; num 2; num 3; num 4; num 5])); Plain (OpReadValue 0); DelSlice 0 (sl None None (Some 2%Z));
   Plain (OpReadValue 0); SetSlice 0 (sl (Some 1%Z) (Some 1%Z) None) (OVal (JArr [JArr [num 7]; num 8]));
   Plain (OpReadValue 0); SetSlice 0 (sl None None (Some (-3)%Z)) (OVal (JArr [JStr (lit "x"); JStr (lit "y")]));
   Plain (OpAppend 12 (OVal (num 6))); Plain (OpReadValue 0); Plain (OpAppend 7 (OVal (num 6)))].
Definition heap92 : heap := fold_left run_slice hist92 [].
Definition value92 : json := JArr [JStr (lit "y"); JArr [num 7; num 6]; num 8; JStr (lit "x")].
Ltac slice_history_tac :=
  repeat (apply slice_step); [apply slice_start|..]; cbn [slice_op_ok operand_ok];
  repeat match goal with |- _ /\ _ => split end;
  try (apply Nat.ltb_lt; vm_compute; reflexivity); try (vm_compute; reflexivity);
  try (let w := fresh in let A := fresh in intros w ->; intros [(? & ? & A)|(? & ? & A)]; discriminate A).
Example C92_case : slice_history heap92 /\ denotes heap92 0 value92 /\ fst (read_value heap92 0) = Ok value92.
Proof.
  assert (H : slice_history heap92) by (unfold heap92, hist92; cbn [fold_left]; slice_history_tac).
  split; [exact H|].
  assert (R : fst (read_value heap92 0) = Ok value92) by (vm_compute; reflexivity).
  split; [|exact R].
  destruct (C92_values heap92 0 H) as (v & Rv & D & _); [apply Nat.ltb_lt; vm_compute; reflexivity|].
  rewrite R in Rv. replace value92 with v by congruence. exact D.
Qed.

(** ** What is left behind.  After d = [10, 20, 30] and d[0:1] = [5], the path of
    the first item is /slice(0, 1, None)/0 and its parent is not d;
    d.remove("/0") and d.replace("/0", 99) return without changing d. *)
Definition arr92 (o : slice_op) : heap := run_slice (run [] (OpNew (JArr [num 10; num 20; num 30]))) o.
Definition put92 : heap := arr92 (SetSlice 0 (sl (Some 0%Z) (Some 1%Z) None) (OVal (JArr [num 5]))).
Definition cut92 : heap := arr92 (DelSlice 0 (sl (Some 0%Z) (Some 1%Z) None)).
Lemma put92_history : slice_history put92.
Proof. unfold put92, arr92. change (run [] ?o) with (run_slice [] (Plain o)). slice_history_tac. Qed.
Lemma cut92_history : slice_history cut92.
Proof. unfold cut92, arr92. change (run [] ?o) with (run_slice [] (Plain o)). slice_history_tac. Qed.
Lemma read_denotes h n v : slice_history h -> n < length h -> fst (read_value h n) = Ok v -> denotes h n v.
Proof. intros H Hn R. destruct (C92_values h n H Hn) as (w & Rw & D & _). rewrite R in Rw. injection Rw as ->. exact D. Qed.
Theorem C92_path_after_assignment_refuted : exists h n c, slice_history h /\ child_at h n (lit "0") c /\
  is_root h n /\ fst (read_path h c) = Ok [lit "slice(0, 1, None)"; lit "0"] /\ nparent (getn h c) <> Some n.
Proof.
  exists put92, 0, 5. split; [exact put92_history|]. split; [|split; [split|split]].
  - change (lit "0") with (str_of_nat 0). eapply ca_item; [vm_compute; reflexivity|reflexivity].
  - apply Nat.ltb_lt. vm_compute. reflexivity.
  - vm_compute. reflexivity.
  - vm_compute. reflexivity.
  - vm_compute. discriminate.
Qed.
Print Assumptions C92_path_after_assignment_refuted.
Theorem C92_pointer_edit_lost_refuted : exists h h1 h2, slice_history h /\ denotes h 0 (JArr [num 5; num 20; num 30]) /\
  json_remove h 0 (PStr (lit "/0")) = (Ok tt, h1) /\ denotes h1 0 (JArr [num 5; num 20; num 30]) /\
  json_replace h 0 (PStr (lit "/0")) (OVal (num 99)) = (Ok tt, h2) /\ denotes h2 0 (JArr [num 5; num 20; num 30]).
Proof.
  exists put92, (run_slice put92 (Plain (OpRemove 0 (PStr (lit "/0"))))), (run_slice put92 (Plain (OpReplace 0 (PStr (lit "/0")) (OVal (num 99))))).
  split; [exact put92_history|]. split; [|split; [|split; [|split]]].
  - apply read_denotes; [exact put92_history|apply Nat.ltb_lt; vm_compute; reflexivity|vm_compute; reflexivity].
  - vm_compute. reflexivity.
  - apply read_denotes; [|apply Nat.ltb_lt; vm_compute; reflexivity|vm_compute; reflexivity].
    apply slice_step; [exact put92_history|]. apply Nat.ltb_lt. vm_compute. reflexivity.
  - vm_compute. reflexivity.
  - apply read_denotes; [|apply Nat.ltb_lt; vm_compute; reflexivity|vm_compute; reflexivity].
    apply slice_step; [exact put92_history|]. split; [apply Nat.ltb_lt; vm_compute; reflexivity|reflexivity].
Qed.
Print Assumptions C92_pointer_edit_lost_refuted.
(** After del d[0:1], which raises, the keys are those of before: d.remove("/0")
    removes the second of the two items that are left. *)
Theorem C92_remove_after_deletion_refuted : exists h h', slice_history h /\ denotes h 0 (JArr [num 20; num 30]) /\
  json_remove h 0 (PStr (lit "/0")) = (Ok tt, h') /\ denotes h' 0 (JArr [num 20]).
Proof.
  exists cut92, (run_slice cut92 (Plain (OpRemove 0 (PStr (lit "/0"))))).
  split; [exact cut92_history|]. split; [|split].
  - apply read_denotes; [exact cut92_history|apply Nat.ltb_lt; vm_compute; reflexivity|vm_compute; reflexivity].
  - vm_compute. reflexivity.
  - apply read_denotes; [|apply Nat.ltb_lt; vm_compute; reflexivity|vm_compute; reflexivity].
    apply slice_step; [exact cut92_history|]. apply Nat.ltb_lt. vm_compute. reflexivity.
Qed.
Print Assumptions C92_remove_after_deletion_refuted.
(** Some cases of each operation. *)
Definition ten : list json := map (fun k => num (Z.of_nat k)) (seq 0 10).
Definition ten_heap : heap := fst (new_doc (JArr ten) []).
Definition picked_values (s : slice) : res (list json) :=
  match getitem_slice ten_heap 0 s with
  | Ok (SNodes ids) => Ok (flat_map (fun c => match fst (read_value ten_heap c) with Ok v => [v] | _ => [] end) ids)
  | Ok (SText _) => Fuel | Exn e => Exn e | Fuel => Fuel
  end.
Definition after (x : res unit * heap) : res unit * res json := (fst x, fst (read_value (snd x) 0)).
Example C92_case_slices :
  picked_values (sl (Some 2%Z) (Some (-2)%Z) (Some 3%Z)) = Ok [num 2; num 5]
  /\ picked_values (sl None (Some 6%Z) (Some (-2)%Z)) = Ok [num 9; num 7]
  /\ picked_values (sl (Some 5%Z) (Some 3%Z) None) = Ok [] /\ picked_values (sl None None (Some 0%Z)) = Exn EValue
  /\ after (delitem_slice ten_heap 0 (sl (Some 1%Z) None None)) = (Exn EType, Ok (JArr [num 0]))
  /\ after (delitem_slice ten_heap 0 (sl None None (Some (-2)%Z))) = (Exn EType, Ok (JArr [num 0; num 2; num 4; num 6; num 8]))
  /\ after (setitem_slice ten_heap 0 (sl (Some 1%Z) (Some 9%Z) None) (OVal (JArr []))) = (Ok tt, Ok (JArr [num 0; num 9]))
  /\ after (setitem_slice ten_heap 0 (sl (Some 1%Z) (Some 9%Z) None) (ONode 0)) = (Ok tt, Ok (JArr (num 0 :: ten ++ [num 9])))
  /\ after (setitem_slice ten_heap 0 (sl (Some 8%Z) (Some 2%Z) None) (OVal (JArr [num 70])))
     = (Ok tt, Ok (JArr (firstn 8 ten ++ [num 70; num 8; num 9])))
  /\ after (setitem_slice ten_heap 0 (sl None None (Some (-5)%Z)) (OVal (JArr [num 70; num 80])))
     = (Ok tt, Ok (JArr [num 0; num 1; num 2; num 3; num 80; num 5; num 6; num 7; num 8; num 70]))
  /\ after (setitem_slice ten_heap 0 (sl None None (Some 5%Z)) (OVal (JArr [num 70]))) = (Exn EValue, Ok (JArr ten))
  /\ after (setitem_slice ten_heap 0 (sl None None None) (OVal (num 70))) = (Exn EType, Ok (JArr ten))
  /\ slice_str (sl (Some 1%Z) (Some (-2)%Z) None) = lit "slice(1, -2, None)".
Proof. vm_compute. repeat split; reflexivity. Qed.
