(** Properties C10, C13, C15, C16: linked JSON documents. *)
From Verif Require Import JTreeOps.
Open Scope nat_scope.

(** ** C10.  Every node's path leads back to that node, in every document that
    any history of operations produces; different nodes have different paths. *)
Theorem C10_path_leads_back : forall h r p n, history h -> is_root h r -> located h r p n ->
  fst (read_path h n) = Ok p /\ eval_id p h r = Ok n.
Proof.
  intros h r p n H R L. apply history_inv in H as I. split.
  - assert (B : n < length h) by (eapply located_bound; eauto; [apply shape_ordered, I|apply R]).
    destruct (read_path_spec h n I B) as (q & h' & -> & _ & _ & U). simpl. f_equal. eauto.
  - apply located_eval; auto. apply I.
Qed.
Print Assumptions C10_path_leads_back.

Theorem C10_paths_distinct : forall h r p q n m, history h -> is_root h r ->
  located h r p n -> located h r q m -> (p = q <-> n = m).
Proof.
  intros h r p q n m H R L M. apply history_inv in H as I. pose proof (inv_shape _ I) as Sh. split.
  - intros ->. apply (located_eval q h r n Sh) in L. apply (located_eval q h r m Sh) in M. congruence.
  - intros ->. now destruct (located_unique h r r p q m Sh R R L M).
Qed.
Print Assumptions C10_paths_distinct.

(** ** C13.  Construction. *)
Theorem C13_value_inverse : forall h v, history h -> jwf v = true ->
  let '(h', r) := new_doc v h in
  is_root h' r /\ fst (read_value h' r) = Ok v /\ denotes h' r v /\
  dtype (ndata (getn h' r)) = type_of v.
Proof.
  intros h v H W. apply history_inv in H as I. destruct (new_doc_spec h v I W) as (h' & -> & I' & L & R & D & _).
  split; auto. split; [|split; auto].
  - destruct (read_value_spec h' (length h) I' L) as (w & h2 & -> & D' & _). simpl. f_equal. eapply denotes_fun; eauto.
  - inversion D as [? E|? ? E|? ? E|? ? E|? ? ? E|? ? ? E]; subst; rewrite E; reflexivity.
Qed.
Print Assumptions C13_value_inverse.

(** The type names: booleans are never numbers. *)
Theorem C13_types : forall v, match type_of v with
  | TNull => v = JNull
  | TBoolean => exists b, v = JBool b
  | TNumber => exists n, v = JNum n
  | TString => exists s, v = JStr s
  | TArray => exists l, v = JArr l
  | TObject => exists m, v = JObj m
  end.
Proof. destruct v; simpl; eauto. Qed.
Print Assumptions C13_types.

(** Every descendant knows its parent and its key. *)
Theorem C13_parent_and_key : forall h n k c, history h -> child_at h n k c ->
  nparent (getn h c) = Some n /\ nkey (getn h c) = Some k.
Proof. intros h n k c H C. apply history_inv in H as I. apply (sh_child h (inv_shape _ I)) in C. tauto. Qed.
Print Assumptions C13_parent_and_key.

(** ** C15.  Coherence after any history. *)
Theorem C15_coherent : forall h n, history h -> n < length h ->
  (exists v, fst (read_value h n) = Ok v /\ denotes h n v /\ forall w, denotes h n w -> w = v) /\
  (forall r p, is_root h r -> located h r p n -> fst (read_path h n) = Ok p).
Proof.
  intros h n H B. apply history_inv in H as I. split.
  - destruct (read_value_spec h n I B) as (v & h' & -> & D & _). exists v. split; auto. split; auto.
    intros w W. eapply denotes_fun; eauto.
  - intros r p R L. destruct (read_path_spec h n I B) as (q & h' & -> & _ & _ & U). simpl. f_equal. eauto.
Qed.
Print Assumptions C15_coherent.

(** Each operation does to the node what the plain operation does to its
    value; [changes] says that nothing else changes. *)
Theorem C15_setitem : forall h n i o v w, history h -> op_ok h (OpSet n i o) ->
  denotes h n v -> operand_is h o w ->
  let '(r, h') := setitem h n i o in
  changes h h' n (plain_set v i w) /\
  match plain_set v i w with Some _ => r = Ok tt | None => exists e, r = Exn e end.
Proof.
  intros h n i o v w H (B & IK & OK) D W. apply history_inv in H as I.
  destruct (setitem_spec h n i o v w I B OK IK D W) as (h' & r & -> & _ & _ & C & R). auto.
Qed.
Print Assumptions C15_setitem.

Theorem C15_delitem : forall h n i v, history h -> op_ok h (OpDel n i) -> denotes h n v ->
  let '(r, h') := delitem h n i in
  changes h h' n (plain_del v i) /\
  match plain_del v i with Some _ => r = Ok tt | None => exists e, r = Exn e end.
Proof.
  intros h n i v H (B & IK) D. apply history_inv in H as I.
  destruct (delitem_spec h n i v I B IK D) as (h' & r & -> & _ & _ & C & R). auto.
Qed.
Print Assumptions C15_delitem.

Theorem C15_insert : forall h n z o v w, history h -> op_ok h (OpInsert n z o) ->
  denotes h n v -> operand_is h o w ->
  let '(r, h') := insert h n z o in
  changes h h' n (plain_insert v z w) /\
  match plain_insert v z w with Some _ => r = Ok tt | None => exists e, r = Exn e end.
Proof.
  intros h n z o v w H (B & OK & IK) D W. apply history_inv in H as I.
  destruct (insert_spec h n z o v w I B OK IK D W) as (h' & r & -> & _ & _ & C & R). auto.
Qed.
Print Assumptions C15_insert.

Theorem C15_append : forall h n o l w, history h -> op_ok h (OpAppend n o) ->
  denotes h n (JArr l) -> operand_is h o w ->
  let '(r, h') := append h n o in r = Ok tt /\ changes h h' n (Some (JArr (l ++ [w]))).
Proof.
  intros h n o l w H (B & OK) D W. apply history_inv in H as I.
  destruct (append_spec h n o (JArr l) w I B OK D W) as (h' & r & -> & _ & _ & R). auto.
Qed.
Print Assumptions C15_append.

Theorem C15_pop : forall h n z l, history h -> op_ok h (OpPop n z) -> denotes h n (JArr l) ->
  let '(r, h') := pop h n z in
  changes h h' n (plain_del (JArr l) (IInt z)) /\
  match nth_error l (Z.to_nat z) with
  | Some x => exists c, r = Ok c /\ denotes h' c x
  | None => r = Exn EIndex
  end.
Proof.
  intros h n z l H (B & OK) D. apply history_inv in H as I.
  destruct (pop_spec h n z (JArr l) I B OK D) as (h' & r & -> & _ & _ & R). auto.
Qed.
Print Assumptions C15_pop.

(** In-place remove and replace at an existing location, add under an existing
    parent, by a pointer that spells the location. *)
Lemma nil_app_single {A} (l : list A) x : l ++ [x] <> [].
Proof. destruct l; discriminate. Qed.

Theorem C15_remove_at : forall h n q k tp t i v, history h -> n < length h ->
  located h n q tp -> child_at h tp k t -> edge_index (ndata (getn h tp)) k i -> denotes h tp v ->
  exists v', plain_del v i = Some v' /\
  let '(r, h') := json_remove h n (PKeys (q ++ [k])) in r = Ok tt /\ changes h h' tp (Some v').
Proof.
  intros h n q k tp t i v H B L C Ei D. apply history_inv in H as I. pose proof (inv_shape _ I) as Sh.
  destruct (json_remove_spec h n (PKeys (q ++ [k])) I B) as (h' & r & -> & _ & _ & R).
  assert (PE : path_empty (PKeys (q ++ [k])) = false) by (destruct q; reflexivity). rewrite PE in R.
  change (mk_pointer [PKeys (q ++ [k])]) with (@Ok pointer (q ++ [k])) in R. cbv iota in R.
  assert (Lt : located h n (q ++ [k]) t) by (econstructor; eauto).
  rewrite (located_eval _ _ _ _ Sh Lt) in R. destruct R as (-> & q2 & k2 & tp2 & i2 & v2 & L2 & C2 & _ & D2 & E2 & Ch & NN).
  pose proof (sh_child h Sh _ _ _ C) as (_ & _ & P1 & K1). pose proof (sh_child h Sh _ _ _ C2) as (_ & _ & P2 & K2).
  assert (tp2 = tp) by congruence. assert (k2 = k) by congruence. subst.
  assert (v2 = v) by (eapply denotes_fun; eauto). assert (i2 = i) by (eapply edge_fun; eauto). subst.
  destruct (plain_del v i) as [v'|]; [|congruence]. exists v'. auto.
Qed.
Print Assumptions C15_remove_at.

Theorem C15_replace_at : forall h n q k tp t i v o w, history h -> n < length h -> operand_ok h o -> operand_is h o w ->
  located h n q tp -> child_at h tp k t -> edge_index (ndata (getn h tp)) k i -> denotes h tp v ->
  exists v', plain_set v i w = Some v' /\
  let '(r, h') := json_replace h n (PKeys (q ++ [k])) o in r = Ok tt /\ changes h h' tp (Some v').
Proof.
  intros h n q k tp t i v o w H B OK W L C Ei D. apply history_inv in H as I. pose proof (inv_shape _ I) as Sh.
  destruct (json_replace_spec h n (PKeys (q ++ [k])) o w I B OK W) as (h' & r & -> & _ & _ & R).
  assert (PE : path_empty (PKeys (q ++ [k])) = false) by (destruct q; reflexivity). rewrite PE in R.
  change (mk_pointer [PKeys (q ++ [k])]) with (@Ok pointer (q ++ [k])) in R. cbv iota in R.
  assert (Lt : located h n (q ++ [k]) t) by (econstructor; eauto).
  rewrite (located_eval _ _ _ _ Sh Lt) in R. destruct R as (-> & q2 & k2 & tp2 & i2 & v2 & L2 & C2 & _ & D2 & E2 & Ch & NN).
  pose proof (sh_child h Sh _ _ _ C) as (_ & _ & P1 & K1). pose proof (sh_child h Sh _ _ _ C2) as (_ & _ & P2 & K2).
  assert (tp2 = tp) by congruence. assert (k2 = k) by congruence. subst.
  assert (v2 = v) by (eapply denotes_fun; eauto). assert (i2 = i) by (eapply edge_fun; eauto). subst.
  destruct (plain_set v i w) as [v'|]; [|congruence]. exists v'. auto.
Qed.
Print Assumptions C15_replace_at.

Theorem C15_add_at : forall h n q k tp v o w, history h -> n < length h -> operand_ok h o -> operand_is h o w ->
  located h n q tp -> denotes h tp v ->
  let '(r, h') := json_add h n (PKeys (q ++ [k])) o in
  changes h h' tp (plain_add v k w) /\
  match plain_add v k w with Some _ => r = Ok tt | None => r = Exn EJSON end.
Proof.
  intros h n q k tp v o w H B OK W L D. apply history_inv in H as I. pose proof (inv_shape _ I) as Sh.
  destruct (json_add_spec h n (PKeys (q ++ [k])) o w I B OK W) as (h' & r & -> & _ & _ & R).
  assert (PE : path_empty (PKeys (q ++ [k])) = false) by (destruct q; reflexivity). rewrite PE in R.
  change (mk_pointer [PKeys (q ++ [k])]) with (@Ok pointer (q ++ [k])) in R. cbv iota in R.
  rewrite removelast_last, last_last in R. rewrite (located_eval _ _ _ _ Sh L) in R.
  destruct R as (q2 & v2 & _ & _ & D2 & Ch & R). assert (v2 = v) by (eapply denotes_fun; eauto). subst. auto.
Qed.
Print Assumptions C15_add_at.

(** Add or replace of the whole node, and remove of the whole node. *)
Theorem C15_whole : forall h n o w, history h -> n < length h -> operand_ok h o -> operand_is h o w ->
  (let '(r, h') := json_add h n (PKeys []) o in r = Ok tt /\ changes h h' n (Some w)) /\
  (let '(r, h') := json_replace h n (PKeys []) o in r = Ok tt /\ changes h h' n (Some w)) /\
  (let '(r, h') := json_remove h n (PKeys []) in r = Ok tt /\ changes h h' n (Some JNull)).
Proof.
  intros h n o w H B OK W. apply history_inv in H as I. split; [|split].
  - destruct (json_add_spec h n (PKeys []) o w I B OK W) as (h' & r & -> & _ & _ & R). exact R.
  - destruct (json_replace_spec h n (PKeys []) o w I B OK W) as (h' & r & -> & _ & _ & R). exact R.
  - destruct (json_remove_spec h n (PKeys []) I B) as (h' & r & -> & _ & _ & R). exact R.
Qed.
Print Assumptions C15_whole.

(** A failing operation (raised exception) leaves every value unchanged, for
    every history and every operation within the restriction of [op_ok]: here
    for the operations by pointer; the others are above. *)
Theorem C15_pointer_failure_changes_nothing : forall h n p o e h', history h -> n < length h -> operand_ok h o ->
  (json_add h n p o = (Exn e, h') \/ json_replace h n p o = (Exn e, h') \/ json_remove h n p = (Exn e, h')) ->
  forall m, m < length h -> keeps h h' m.
Proof.
  intros h n p o e h' H B OK F. apply history_inv in H as I.
  destruct (operand_is_total h o I OK) as (w & W).
  assert (Kp : forall m, keeps h h m) by (intros m v; auto).
  destruct F as [F|[F|F]].
  - destruct (json_add_spec h n p o w I B OK W) as (h2 & r & E & _ & _ & R). rewrite F in E. injection E as <- <-.
    destruct (path_empty p); [destruct R; discriminate|]. destruct (mk_pointer [p]); try (now destruct R as [_ ->]).
    destruct (eval_id _ h n); try (now destruct R as [_ ->]).
    destruct R as (q & v & _ & _ & _ & Ch & R). destruct (plain_add v _ w); [discriminate|]. exact Ch.
  - destruct (json_replace_spec h n p o w I B OK W) as (h2 & r & E & _ & _ & R). rewrite F in E. injection E as <- <-.
    destruct (path_empty p); [destruct R; discriminate|]. destruct (mk_pointer [p]); try (now destruct R as [_ ->]).
    destruct (eval_id _ h n); try (now destruct R as [_ ->]). destruct R as (R & _). discriminate.
  - destruct (json_remove_spec h n p I B) as (h2 & r & E & _ & _ & R). rewrite F in E. injection E as <- <-.
    destruct (path_empty p); [destruct R; discriminate|]. destruct (mk_pointer [p]); try (now destruct R as [_ ->]).
    destruct (eval_id _ h n); try (now destruct R as [_ ->]). destruct R as (R & _). discriminate.
Qed.
Print Assumptions C15_pointer_failure_changes_nothing.

(** A non-trivial history: build {"a": [10, 20, 30]}, read a path and a value,
    insert at the front, delete, and add by pointer. *)
Definition num (z : Z) : json := JNum (NInt z).
Definition doc1 : json := JObj [(lit "a", JArr [num 10; num 20; num 30])].
Definition hist1 : list op :=
  [OpNew doc1; OpReadPath 4; OpReadValue 0; OpInsert 1 0 (OVal (JArr [num 5])); OpDel 1 (IInt 1);
   OpAdd 0 (PKeys [lit "a"; lit "0"; lit "-"]) (ONode 1); OpReadValue 0].
Definition heap1 : heap := fold_left run hist1 [].

Example C15_case : history heap1 /\ is_root heap1 0 /\ located heap1 0 [lit "a"; lit "1"] 3 /\
  fst (read_path heap1 3) = Ok [lit "a"; lit "1"] /\
  fst (read_value heap1 0) = Ok (JObj [(lit "a", JArr [JArr [num 5; JArr [JArr [num 5]; num 20; num 30]]; num 20; num 30])]).
Proof.
  split; [|split; [|split; [|split]]].
  - unfold heap1, hist1. cbn [fold_left]. repeat (apply hist_step); [apply hist_start|..]; cbn [op_ok operand_ok index_ok];
      repeat match goal with |- _ /\ _ => split end;
      try (apply Nat.ltb_lt; vm_compute; reflexivity); try (vm_compute; reflexivity); try lia.
  - split; [vm_compute; lia|reflexivity].
  - change [lit "a"; lit "1"] with (([] ++ [lit "a"]) ++ [str_of_nat 1]). econstructor.
    + econstructor; [constructor|]. eapply ca_member; [vm_compute; reflexivity|]. now left.
    + econstructor; [vm_compute; reflexivity|reflexivity].
  - vm_compute. reflexivity.
  - vm_compute. reflexivity.
Qed.

(** ** C16.  Negative indices, and insertion beyond the end.
    The full claim: after [del n[z]], [n.insert(z, x)] or [n[z] = x] for any
    integer [z] that the list accepts, every node's path is its location.
    False of the code in each of the three cases. *)
Definition arr3 : heap := fst (new_doc (JArr [num 10; num 20; num 30]) []).

Theorem C16_del_negative_refuted : exists h n r h', history h /\ is_root h r /\
  delitem h r (IInt (-1)) = (Ok tt, h') /\ located h' r [lit "1"] n /\
  fst (read_path h' n) = Ok [lit "0"].
Proof.
  exists arr3, 2, 0. eexists. split; [|split; [|split; [|split]]].
  - apply (hist_step [] (OpNew (JArr [num 10; num 20; num 30]))); [apply hist_start|reflexivity].
  - split; [vm_compute; lia|reflexivity].
  - vm_compute. reflexivity.
  - change [lit "1"] with ([] ++ [str_of_nat 1]). econstructor; [constructor|].
    econstructor; [vm_compute; reflexivity|reflexivity].
  - vm_compute. reflexivity.
Qed.
Print Assumptions C16_del_negative_refuted.

Theorem C16_insert_negative_refuted : exists h n r h', history h /\ is_root h r /\
  insert h r (-1) (OVal JNull) = (Ok tt, h') /\ located h' r [lit "2"] n /\
  fst (read_path h' n) <> Ok [lit "2"].
Proof.
  exists arr3, 4, 0. eexists. split; [|split; [|split; [|split]]].
  - apply (hist_step [] (OpNew (JArr [num 10; num 20; num 30]))); [apply hist_start|reflexivity].
  - split; [vm_compute; lia|reflexivity].
  - vm_compute. reflexivity.
  - change [lit "2"] with ([] ++ [str_of_nat 2]). econstructor; [constructor|].
    econstructor; [vm_compute; reflexivity|reflexivity].
  - vm_compute. discriminate.
Qed.
Print Assumptions C16_insert_negative_refuted.

Theorem C16_insert_beyond_refuted : exists h n r h', history h /\ is_root h r /\
  insert h r 7 (OVal JNull) = (Ok tt, h') /\ located h' r [lit "3"] n /\
  fst (read_path h' n) = Ok [lit "7"].
Proof.
  exists arr3, 4, 0. eexists. split; [|split; [|split; [|split]]].
  - apply (hist_step [] (OpNew (JArr [num 10; num 20; num 30]))); [apply hist_start|reflexivity].
  - split; [vm_compute; lia|reflexivity].
  - vm_compute. reflexivity.
  - change [lit "3"] with ([] ++ [str_of_nat 3]). econstructor; [constructor|].
    econstructor; [vm_compute; reflexivity|reflexivity].
  - vm_compute. reflexivity.
Qed.
Print Assumptions C16_insert_beyond_refuted.

Theorem C16_set_negative_refuted : exists h n r h', history h /\ is_root h r /\
  setitem h r (IInt (-1)) (OVal JNull) = (Ok tt, h') /\ located h' r [lit "2"] n /\
  fst (read_path h' n) = Ok [lit "-1"].
Proof.
  exists arr3, 4, 0. eexists. split; [|split; [|split; [|split]]].
  - apply (hist_step [] (OpNew (JArr [num 10; num 20; num 30]))); [apply hist_start|reflexivity].
  - split; [vm_compute; lia|reflexivity].
  - vm_compute. reflexivity.
  - change [lit "2"] with ([] ++ [str_of_nat 2]). econstructor; [constructor|].
    econstructor; [vm_compute; reflexivity|reflexivity].
  - vm_compute. reflexivity.
Qed.
Print Assumptions C16_set_negative_refuted.
