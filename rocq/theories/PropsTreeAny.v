(** Property C89: whatever integer indices are used (negative, or beyond the
    end), the values of the nodes are those of the plain lists and dicts; and
    what the wrong keys left behind by such indices (C16) lead to. *)
From Verif Require Import JTreeOps SpecTreeAny JTreeSim PropsTree.
Open Scope nat_scope.

(** ** C89.  Reading a value gives what the subtree spells out. *)
Theorem C89_values : forall h n, any_history h -> n < length h ->
  exists v, fst (read_value h n) = Ok v /\ denotes h n v /\ forall w, denotes h n w -> w = v.
Proof.
  intros h n H Hn. apply any_history_coherent in H as C.
  destruct (any_read_value h n C Hn) as (v & h' & -> & D & _). exists v. split; auto. split; auto.
  intros w W. eapply denotes_fun; eauto.
Qed.
Print Assumptions C89_values.

(** Assignment, deletion, insertion and removal at any integer. *)
Theorem C89_setitem : forall h n i o v w, any_history h -> n < length h -> operand_ok h o ->
  denotes h n v -> operand_is h o w ->
  let '(r, h') := setitem h n i o in
  changes h h' n (py_set v i w) /\
  match py_set v i w with Some _ => r = Ok tt | None => exists e, r = Exn e end.
Proof.
  intros h n i o v w H Hn OK D W. apply any_history_coherent in H as C.
  destruct (any_setitem h n i o v w C Hn OK D W) as (h' & r & -> & _ & _ & R). exact R.
Qed.
Print Assumptions C89_setitem.

Theorem C89_delitem : forall h n i v, any_history h -> n < length h -> denotes h n v ->
  let '(r, h') := delitem h n i in
  changes h h' n (py_del v i) /\
  match py_del v i with Some _ => r = Ok tt | None => exists e, r = Exn e end.
Proof.
  intros h n i v H Hn D. apply any_history_coherent in H as C.
  destruct (any_delitem h n i v C Hn D) as (h' & r & -> & _ & _ & R). exact R.
Qed.
Print Assumptions C89_delitem.

Theorem C89_insert : forall h n z o v w, any_history h -> n < length h -> operand_ok h o ->
  denotes h n v -> operand_is h o w ->
  let '(r, h') := insert h n z o in
  changes h h' n (py_insert v z w) /\
  match py_insert v z w with Some _ => r = Ok tt | None => exists e, r = Exn e end.
Proof.
  intros h n z o v w H Hn OK D W. apply any_history_coherent in H as C.
  destruct (any_insert h n z o v w C Hn OK D W) as (h' & r & -> & _ & _ & R). exact R.
Qed.
Print Assumptions C89_insert.

Theorem C89_pop : forall h n z v, any_history h -> n < length h -> denotes h n v ->
  let '(r, h') := pop h n z in
  changes h h' n (py_del v (IInt z)) /\
  match py_get v (IInt z) with
  | Some x => exists c, r = Ok c /\ denotes h' c x
  | None => exists e, r = Exn e
  end.
Proof.
  intros h n z v H Hn D. apply any_history_coherent in H as C.
  destruct (any_pop h n z v C Hn D) as (h' & r & -> & _ & _ & R). exact R.
Qed.
Print Assumptions C89_pop.

Theorem C89_append : forall h n o l w, any_history h -> n < length h -> operand_ok h o ->
  denotes h n (JArr l) -> operand_is h o w ->
  let '(r, h') := append h n o in r = Ok tt /\ changes h h' n (Some (JArr (l ++ [w]))).
Proof.
  intros h n o l w H Hn OK D W. apply any_history_coherent in H as C.
  destruct (any_append h n o (JArr l) w C Hn OK D W) as (h' & r & -> & _ & _ & R). exact R.
Qed.
Print Assumptions C89_append.

(** Reading a child by index. *)
Theorem C89_getitem : forall h n i v, any_history h -> n < length h -> denotes h n v ->
  match py_get v i with
  | Some x => exists c k, getitem h n i = Ok c /\ child_at h n k c /\ denotes h c x
  | None => exists e, getitem h n i = Exn e
  end.
Proof. intros h n i v H Hn D. apply any_getitem; auto. now apply any_history_coherent. Qed.
Print Assumptions C89_getitem.

(** [add] by pointer, and [add], [replace], [remove] of the node itself. *)
Theorem C89_add_at : forall h n q k tp v o w, any_history h -> n < length h -> operand_ok h o -> operand_is h o w ->
  located h n q tp -> denotes h tp v ->
  let '(r, h') := json_add h n (PKeys (q ++ [k])) o in
  changes h h' tp (plain_add v k w) /\
  match plain_add v k w with Some _ => r = Ok tt | None => r = Exn EJSON end.
Proof.
  intros h n q k tp v o w H Hn OK W L D. apply any_history_coherent in H as C.
  destruct (any_add h n q k tp v o w C Hn OK W L D) as (h' & r & -> & _ & _ & R). exact R.
Qed.
Print Assumptions C89_add_at.

Theorem C89_whole : forall h n o w, any_history h -> n < length h -> operand_ok h o -> operand_is h o w ->
  (let '(r, h') := json_add h n (PKeys []) o in r = Ok tt /\ changes h h' n (Some w)) /\
  (let '(r, h') := json_replace h n (PKeys []) o in r = Ok tt /\ changes h h' n (Some w)) /\
  (let '(r, h') := json_remove h n (PKeys []) in r = Ok tt /\ changes h h' n (Some JNull)).
Proof.
  intros h n o w H Hn OK W. apply any_history_coherent in H as C.
  unfold json_add, json_replace, json_remove. cbn [path_empty].
  destruct (any_put h n o w C Hn OK W) as (h' & -> & _ & _ & R).
  destruct (any_reinit h n JNull C Hn eq_refl) as (h2 & -> & _ & _ & R2).
  split; [split; auto|]. split; split; auto.
Qed.
Print Assumptions C89_whole.

(** A history that uses negative indices: [10, 20, 30]; del d[-1];
    d.insert(-1, [7]); d[-3] = 5; d.insert(9, "x"), d.pop(-2). *)
Definition hist89 : list op :=
  [OpNew (JArr [num 10; num 20; num 30]); OpReadValue 0; OpDel 0 (IInt (-1)); OpInsert 0 (-1) (OVal (JArr [num 7]));
   OpReadPath 4; OpReadValue 0; OpSet 0 (IInt (-3)) (OVal (num 5)); OpInsert 0 9 (OVal (JStr (lit "x"))); OpPop 0 (-2)].
Definition heap89 : heap := fold_left run hist89 [].
Example C89_case : any_history heap89 /\
  denotes heap89 0 (JArr [num 5; JArr [num 7]; JStr (lit "x")]) /\
  fst (read_value heap89 0) = Ok (JArr [num 5; JArr [num 7]; JStr (lit "x")]).
Proof.
  assert (H : any_history heap89).
  { unfold heap89, hist89. cbn [fold_left]. repeat (apply any_step); [apply any_start|..]; cbn [any_ok operand_ok];
      repeat match goal with |- _ /\ _ => split end;
      try (apply Nat.ltb_lt; vm_compute; reflexivity); try (vm_compute; reflexivity). }
  split; [exact H|].
  assert (R : fst (read_value heap89 0) = Ok (JArr [num 5; JArr [num 7]; JStr (lit "x")])) by (vm_compute; reflexivity).
  split; [|exact R].
  destruct (C89_values heap89 0 H) as (v & Rv & D & _); [apply Nat.ltb_lt; vm_compute; reflexivity|].
  rewrite R in Rv. replace (JArr [num 5; JArr [num 7]; JStr (lit "x")]) with v by congruence. exact D.
Qed.

(** ** C16, continued: [remove] and [replace] by pointer trust the key of the
    target.  After [del d[-1]] on [10, 20, 30], [d.remove("/1")] deletes the
    item at 0, and [d.replace("/1", 99)] overwrites it. *)
Theorem C16_removes_another_item_refuted : exists h h', any_history h /\
  denotes h 0 (JArr [num 10; num 20]) /\
  json_remove h 0 (PStr (lit "/1")) = (Ok tt, h') /\ denotes h' 0 (JArr [num 20]).
Proof.
  assert (H : any_history (run arr3 (OpDel 0 (IInt (-1))))).
  { apply any_step; [apply (any_step [] (OpNew (JArr [num 10; num 20; num 30]))); [apply any_start|reflexivity]|].
    apply Nat.ltb_lt. vm_compute. reflexivity. }
  exists (run arr3 (OpDel 0 (IInt (-1)))). eexists. split; [exact H|]. split; [|split; [vm_compute; reflexivity|]].
  - eapply den_arr; [vm_compute; reflexivity|reflexivity|].
    intros [|[|i]] c v Hc Hv; simpl in Hc, Hv; try (destruct i; discriminate); injection Hc as <-; injection Hv as <-;
      apply den_num; vm_compute; reflexivity.
  - eapply den_arr; [vm_compute; reflexivity|reflexivity|].
    intros [|i] c v Hc Hv; simpl in Hc, Hv; try (destruct i; discriminate); injection Hc as <-; injection Hv as <-;
      apply den_num; vm_compute; reflexivity.
Qed.
Print Assumptions C16_removes_another_item_refuted.

Theorem C16_replaces_another_item_refuted : exists h h', any_history h /\
  denotes h 0 (JArr [num 10; num 20]) /\
  json_replace h 0 (PStr (lit "/1")) (OVal (num 99)) = (Ok tt, h') /\ denotes h' 0 (JArr [num 99; num 20]).
Proof.
  assert (H : any_history (run arr3 (OpDel 0 (IInt (-1))))).
  { apply any_step; [apply (any_step [] (OpNew (JArr [num 10; num 20; num 30]))); [apply any_start|reflexivity]|].
    apply Nat.ltb_lt. vm_compute. reflexivity. }
  exists (run arr3 (OpDel 0 (IInt (-1)))). eexists. split; [exact H|]. split; [|split; [vm_compute; reflexivity|]].
  - eapply den_arr; [vm_compute; reflexivity|reflexivity|].
    intros [|[|i]] c v Hc Hv; simpl in Hc, Hv; try (destruct i; discriminate); injection Hc as <-; injection Hv as <-;
      apply den_num; vm_compute; reflexivity.
  - eapply den_arr; [vm_compute; reflexivity|reflexivity|].
    intros [|[|i]] c v Hc Hv; simpl in Hc, Hv; try (destruct i; discriminate); injection Hc as <-; injection Hv as <-;
      apply den_num; vm_compute; reflexivity.
Qed.
Print Assumptions C16_replaces_another_item_refuted.
