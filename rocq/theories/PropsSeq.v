(** C81: JSONPatch is a sequence of its operations. *)
From Coq Require Import String List Bool Lia.
From Verif Require Import BaseFacts PatchFacts PatchSeqFacts SchemaCases.
Import ListNotations.
Open Scope string_scope.
Open Scope list_scope.
Open Scope Z_scope.

(** An index gives the operation at the position it stands for, and an
    IndexError if it stands for none. *)
Theorem C81_get : forall p i,
  (forall k o, means (length p) i k -> nth_error p k = Some o -> seq_get p i = Ok o)
  /\ ((forall k, ~ means (length p) i k) -> seq_get p i = Exn EIndex).
Proof.
  intros p i. split.
  - intros k o M E. unfold seq_get. now rewrite (means_norm _ _ _ M), E.
  - intros N. unfold seq_get. pose proof (norm_means (length p) i) as H. destruct (norm_index (length p) i) as [k|]; [now elim (N k)|reflexivity].
Qed.
Print Assumptions C81_get.

(** A slice consists of the operations at the selected positions, in order; in
    reverse order if the step is negative.  A step of 0 is refused. *)
Theorem C81_slice : forall p start stop step, step <> 0 ->
  exists ks r, seq_slice p start stop (Some step) = Ok r
    /\ Forall2 (fun k o => nth_error p k = Some o) ks r
    /\ StronglySorted (if 0 <? step then lt else gt) ks
    /\ (forall k, In k ks <-> selected (length p) start stop step k).
Proof.
  intros p start stop step S. exists (slice_positions (length p) start stop step), (picked p (slice_positions (length p) start stop step)).
  split; [|split; [|split]].
  - unfold seq_slice. destruct (Z.eqb_spec step 0); [now elim S|reflexivity].
  - apply picked_nth. intros k I. apply positions_selected in I; [|exact S]. apply I.
  - destruct (Z.ltb_spec 0 step); [apply positions_sorted_up|apply positions_sorted_down]; lia.
  - intros k. now apply positions_selected.
Qed.
Print Assumptions C81_slice.
Theorem C81_step : forall p start stop,
  seq_slice p start stop (Some 0) = Exn EValue /\ seq_slice p start stop None = seq_slice p start stop (Some 1).
Proof. intros. split; reflexivity. Qed.
Print Assumptions C81_step.

Lemma apply_app a b d : patch_apply (a ++ b) d = (let* d' := patch_apply a d in patch_apply b d').
Proof. revert d. induction a as [|o a IH]; intros d; [reflexivity|]. cbn. destruct (op_apply o d); cbn; auto. Qed.

(** Cut anywhere, the two parts of a patch applied one after the other do what
    the patch does. *)
Theorem C81_cut : forall p i d, exists front back,
  seq_slice p None (Some i) None = Ok front /\ seq_slice p (Some i) None None = Ok back /\ front ++ back = p /\
  patch_apply p d = (let* d' := patch_apply front d in patch_apply back d').
Proof.
  intros p i d. pose proof (clamp_place (length p) i) as P. set (k := clamp_index (length p) i) in *.
  exists (firstn k p), (skipn k p). repeat apply conj.
  - rewrite (seq_slice_plain p None (Some i) 0 k eq_refl P). now rewrite Nat.sub_0_r.
  - rewrite (seq_slice_plain p (Some i) None k (length p) P eq_refl). f_equal. apply firstn_all2. rewrite skipn_length. lia.
  - apply firstn_skipn.
  - rewrite <- apply_app. now rewrite firstn_skipn.
Qed.
Print Assumptions C81_cut.

(** Assignment, deletion and insertion, for every index. *)
Theorem C81_set : forall p i a,
  match seq_set p i a with
  | (p', Ok _) => exists k o l1 x l2, made a = Ok o /\ means (length p) i k /\ p = l1 ++ x :: l2 /\ length l1 = k /\ p' = l1 ++ o :: l2
  | (p', Exn e) => p' = p /\ (made a = Exn e \/ (exists o, made a = Ok o) /\ e = EIndex /\ forall k, ~ means (length p) i k)
  | (_, Fuel) => made a = Fuel
  end.
Proof.
  intros p i a. unfold seq_set. destruct (made a) as [o|e|]; auto. pose proof (norm_means (length p) i) as H. destruct (norm_index (length p) i) as [k|].
  - destruct (nth_error p k) as [x|] eqn:E; [|apply nth_error_None in E; destruct H; lia].
    destruct (nth_error_split p k E) as (l1 & l2 & -> & <-). exists (length l1), o, l1, x, l2. repeat apply conj; auto; try apply H. apply update_nth_at.
  - split; [reflexivity|]. right. repeat split; eauto.
Qed.
Print Assumptions C81_set.
Theorem C81_delete : forall p i,
  match seq_del p i with
  | (p', Ok _) => exists k l1 x l2, means (length p) i k /\ p = l1 ++ x :: l2 /\ length l1 = k /\ p' = l1 ++ l2
  | (p', Exn e) => p' = p /\ e = EIndex /\ forall k, ~ means (length p) i k
  | (_, Fuel) => False
  end.
Proof.
  intros p i. unfold seq_del. pose proof (norm_means (length p) i) as H. destruct (norm_index (length p) i) as [k|].
  - destruct (nth_error p k) as [x|] eqn:E; [|apply nth_error_None in E; destruct H; lia].
    destruct (nth_error_split p k E) as (l1 & l2 & -> & <-). exists (length l1), l1, x, l2. repeat apply conj; auto; try apply H. apply remove_nth_at.
  - auto.
Qed.
Print Assumptions C81_delete.
Theorem C81_insert : forall p i a,
  match made a with
  | Ok o => exists l1 l2, p = l1 ++ l2 /\ place (length p) i (length l1) /\ seq_insert p i a = (l1 ++ o :: l2, Ok tt)
  | Exn e => seq_insert p i a = (p, Exn e)
  | Fuel => seq_insert p i a = (p, Fuel)
  end.
Proof.
  intros p i a. unfold seq_insert. destruct (made a) as [o|e|]; auto. pose proof (clamp_place (length p) i) as P.
  set (k := clamp_index (length p) i) in *. exists (firstn k p), (skipn k p). split; [now rewrite firstn_skipn|]. split; [|reflexivity].
  rewrite firstn_length. assert (L : (k <= length p)%nat) by (unfold place in P; lia). now rewrite Nat.min_l by exact L.
Qed.
Print Assumptions C81_insert.

(** Deleting a slice leaves the operations at all other positions, in order. *)
Theorem C81_delete_slice : forall p start stop step, step <> 0 ->
  exists js r, seq_del_slice p start stop (Some step) = (r, Ok tt)
    /\ Forall2 (fun j o => nth_error p j = Some o) js r
    /\ StronglySorted lt js
    /\ (forall j, In j js <-> (j < length p)%nat /\ ~ selected (length p) start stop step j).
Proof.
  intros p start stop step S. unfold seq_del_slice. destruct (Z.eqb_spec step 0); [now elim S|].
  destruct (without_kept (slice_positions (length p) start stop step) p 0) as (js & F & So & I).
  exists js. eexists. split; [reflexivity|]. split; [|split; [exact So|]].
  - clear - F. induction F as [|j x js r [E _] F IHF]; constructor; auto. now rewrite Nat.sub_0_r in E.
  - intro j. rewrite I, (positions_selected (length p) start stop step j S). split; intros [B N]; split; auto; lia.
Qed.
Print Assumptions C81_delete_slice.
(** A step of 0 is refused, and so is assignment to a slice; nothing changes. *)
Theorem C81_slice_refused : forall p start stop step a,
  seq_del_slice p start stop (Some 0) = (p, Exn EValue)
  /\ seq_del_slice p start stop None = seq_del_slice p start stop (Some 1)
  /\ fst (seq_set_slice p start stop step a) = p
  /\ match made a with
     | Ok _ => snd (seq_set_slice p start stop step a) = Exn EType \/ step = Some 0 /\ snd (seq_set_slice p start stop step a) = Exn EValue
     | Exn e => snd (seq_set_slice p start stop step a) = Exn e
     | Fuel => True
     end.
Proof.
  intros p start stop step a. split; [reflexivity|]. split; [reflexivity|]. unfold seq_set_slice.
  destruct (made a); cbn [fst snd]; auto. split; [reflexivity|].
  destruct step as [s|]; cbn; auto. destruct (Z.eqb_spec s 0) as [->|]; auto.
Qed.
Print Assumptions C81_slice_refused.

(** The inherited methods.  append adds at the end; pop gives the operation
    back and deletes it; clear ends with an empty patch; reverse reverses, as
    does the slice with step -1. *)
Theorem C81_append : forall p a o, made a = Ok o -> seq_append p a = (p ++ [o], Ok tt).
Proof.
  intros p a o M. unfold seq_append, seq_insert. rewrite M. now rewrite clamp_index_nat, Nat.min_id, insert_nth_end.
Qed.
Print Assumptions C81_append.
Theorem C81_pop : forall p i,
  (forall k o, means (length p) i k -> nth_error p k = Some o -> seq_pop p i = (fst (seq_del p i), Ok o) /\ snd (seq_del p i) = Ok tt)
  /\ ((forall k, ~ means (length p) i k) -> seq_pop p i = (p, Exn EIndex)).
Proof.
  intros p i. split.
  - intros k o M E. unfold seq_pop. rewrite (proj1 (C81_get p i) k o M E). unfold seq_del. now rewrite (means_norm _ _ _ M).
  - intros N. unfold seq_pop. now rewrite (proj2 (C81_get p i) N).
Qed.
Print Assumptions C81_pop.
Theorem C81_clear : forall p fuel, (length p < fuel)%nat -> seq_clear fuel p = ([], Ok tt).
Proof.
  intros p. induction p as [|o p IH] using rev_ind; intros fuel L; (destruct fuel as [|fuel]; [lia|]).
  - reflexivity.
  - rewrite app_length in L. cbn [length] in L. cbn [seq_clear].
    assert (M : means (length (p ++ [o])) (-1) (length p)) by (rewrite app_length; cbn; unfold means; lia).
    assert (E : nth_error (p ++ [o]) (length p) = Some o) by (rewrite nth_error_app2 by lia; now rewrite Nat.sub_diag).
    destruct (proj1 (C81_pop (p ++ [o]) (-1)) _ o M E) as [-> _]. unfold seq_del. rewrite (means_norm _ _ _ M). cbn [fst].
    rewrite remove_nth_at, app_nil_r. apply IH. lia.
Qed.
Print Assumptions C81_clear.
Theorem C81_reverse : forall p, seq_reverse p = (rev p, Ok tt) /\ seq_slice p None None (Some (-1)) = Ok (rev p).
Proof. intros p. split; [apply seq_reverse_rev|apply seq_slice_rev]. Qed.
Print Assumptions C81_reverse.

(** extend adds what comes before the first operation that is refused, and
    keeps it although it raises. *)
Theorem C81_extend : forall l p,
  (forall os, Forall2 (fun a o => made a = Ok o) l os -> seq_extend p l = (p ++ os, Ok tt))
  /\ (forall l1 a l2 os e, l = l1 ++ a :: l2 -> Forall2 (fun a o => made a = Ok o) l1 os -> made a = Exn e -> seq_extend p l = (p ++ os, Exn e)).
Proof.
  induction l as [|b l IH]; intros p; split.
  - intros os F. inversion F. subst. now rewrite app_nil_r.
  - intros l1 a l2 os e E. now destruct l1.
  - intros os F. inversion F as [|? o ? os' M F']. subst. cbn [seq_extend]. rewrite (C81_append p b o M). rewrite (proj1 (IH _) os' F'). now rewrite <- app_assoc.
  - intros l1 a l2 os e E F M. destruct l1 as [|c l1].
    + injection E as -> ->. inversion F. subst. cbn [seq_extend]. unfold seq_append, seq_insert. rewrite M. now rewrite app_nil_r.
    + injection E as -> ->. inversion F as [|? o ? os' M' F']. subst. cbn [seq_extend]. rewrite (C81_append p c o M').
      rewrite (proj2 (IH _) l1 a l2 os' e eq_refl F' M). now rewrite <- app_assoc.
Qed.
Print Assumptions C81_extend.

(** remove deletes the first operation that is equal; a ValueError if there is
    none. *)
Theorem C81_remove : forall p a o, made a = Ok o ->
  (forall l1 x l2, p = l1 ++ x :: l2 -> patchop_eqb x o = true -> (forall y, In y l1 -> patchop_eqb y o = false) -> seq_remove p a = (l1 ++ l2, Ok tt))
  /\ ((forall y, In y p -> patchop_eqb y o = false) -> seq_remove p a = (p, Exn EValue)).
Proof.
  intros p a o M.
  assert (A : forall l1 x l2 n, patchop_eqb x o = true -> (forall y, In y l1 -> patchop_eqb y o = false) -> index_from n (l1 ++ x :: l2) a = Ok (n + length l1)%nat).
  { induction l1 as [|y l1 IH]; intros x l2 n X N; cbn; rewrite M; cbn [bind].
    - rewrite X. now rewrite Nat.add_0_r.
    - rewrite (N y (or_introl eq_refl)). rewrite (IH x l2 (S n) X); [f_equal; lia|]. intros z I. apply N. now right. }
  assert (B : forall q n, (forall y, In y q -> patchop_eqb y o = false) -> index_from n q a = Exn EValue).
  { induction q as [|y q IH]; intros n N; cbn; [reflexivity|]. rewrite M. cbn [bind]. rewrite (N y (or_introl eq_refl)). apply IH. intros z I. apply N. now right. }
  split.
  - intros l1 x l2 -> X N. unfold seq_remove, seq_index. rewrite A by assumption. unfold seq_del. rewrite Nat.add_0_l, norm_index_nat.
    + now rewrite remove_nth_at.
    + rewrite app_length. cbn. lia.
  - intros N. unfold seq_remove, seq_index. now rewrite B.
Qed.
Print Assumptions C81_remove.

(** Five operations, one of them twice. *)
Definition puts (k : string) : patchop := mkOp ADD [lit k] (text k) None.
Definition five : list patchop := [puts "a"; puts "b"; puts "c"; puts "b"; puts "e"].
Definition bad_op : operation := Mapping [(lit "op", text "put"); (lit "path", text "/a")].
Definition good_op : operation := Mapping [(lit "op", text "remove"); (lit "path", text "/a")].
Definition gone_a : patchop := mkOp REMOVE [lit "a"] JNull None.
Example C81_case :
  seq_get five (-2) = Ok (puts "b") /\ seq_get five 5 = Exn EIndex /\ seq_get five (-6) = Exn EIndex
  /\ seq_slice five (Some (-4)) (Some 9) (Some 2) = Ok [puts "b"; puts "b"]
  /\ seq_slice five (Some 9) (Some (-5)) (Some (-3)) = Ok [puts "e"; puts "b"]
  /\ seq_slice five (Some 3) (Some 1) None = Ok []
  /\ seq_set five (-1) good_op = ([puts "a"; puts "b"; puts "c"; puts "b"; gone_a], Ok tt)
  /\ seq_set five 0 bad_op = (five, Exn EValue) /\ seq_set five 7 bad_op = (five, Exn EValue) /\ seq_set five 7 good_op = (five, Exn EIndex)
  /\ seq_insert five (-1) good_op = ([puts "a"; puts "b"; puts "c"; puts "b"; gone_a; puts "e"], Ok tt)
  /\ seq_insert five (-9) good_op = (gone_a :: five, Ok tt)
  /\ seq_extend five [good_op; bad_op; good_op] = (five ++ [gone_a], Exn EValue)
  /\ seq_remove five (Given (puts "b")) = ([puts "a"; puts "c"; puts "b"; puts "e"], Ok tt)
  /\ seq_remove five good_op = (five, Exn EValue) /\ seq_remove five bad_op = (five, Exn EValue) /\ seq_remove [] bad_op = ([], Exn EValue)
  /\ seq_pop five 1 = ([puts "a"; puts "c"; puts "b"; puts "e"], Ok (puts "b"))
  /\ seq_del_slice five None None (Some 2) = ([puts "b"; puts "b"], Ok tt) /\ seq_set_slice five None None None good_op = (five, Exn EType)
  /\ seq_clear 6 five = ([], Ok tt) /\ fst (seq_reverse five) = [puts "e"; puts "b"; puts "c"; puts "b"; puts "a"].
Proof. repeat apply conj; vm_compute; reflexivity. Qed.
