(** Property C16, exactly: which keys and paths nodes have after any sequence
    of edits with any integer indices. *)
From Verif Require Import JTreeOps SpecTreeAny JTreeSim SpecLabels JTreeLabels PropsTree.
Open Scope nat_scope.

(** ** Every node that is reached from a root has as path the keys that the
    nodes on the way to it carry, right or wrong. *)
Theorem C16_paths : forall h r n, any_history h -> is_root h r ->
  (forall q, labelled h r q n -> fst (read_path h n) = Ok q) /\
  (forall p, located h r p n -> exists q, labelled h r q n).
Proof.
  intros h r n H R. destruct (any_history_fit h H) as [C P]. split.
  - intros q L. exact (pathful_read h r q n C P R L).
  - intros p L. exact (labelled_exists h r p n (coherent_bones h C) L).
Qed.
Print Assumptions C16_paths.

(** ** [del a[z]]: the item meant goes, and one is taken off the keys of the
    items from [z] on - where [z] is read as a slice of the shorter array. *)
Theorem C16_del_exact : forall h n ids zs z k, any_history h -> n < length h -> ndata (getn h n) = DArr ids -> labels h ids zs ->
  position (length ids) z = Some k ->
  exists h', delitem h n (IInt z) = (Ok tt, h') /\ ndata (getn h' n) = DArr (drop k ids) /\
    labels h' (drop k ids) (shift_from (insert_position (pred (length ids)) z) (-1) (drop k zs)) /\ only h h' n (drop k ids).
Proof.
  intros h n ids zs z k H Hn D L Pk. rewrite position_norm in Pk.
  destruct (delitem_labels h n ids zs z k (any_history_fit h H) Hn D L Pk) as (h' & E & _ & _ & D' & L' & O). exists h'. rewrite insert_position_clamp. auto.
Qed.
Print Assumptions C16_del_exact.

(** ** [a.insert(z, x)]: the new item carries [z] as key, however large or
    negative, and one is added to the keys of the items from [z + 1] on -
    where that is read as a slice of the longer array. *)
Theorem C16_insert_exact : forall h n ids zs z o w, any_history h -> n < length h -> operand_ok h o -> operand_is h o w ->
  ndata (getn h n) = DArr ids -> labels h ids zs ->
  let k := insert_position (length ids) z in
  exists h', insert h n z o = (Ok tt, h') /\ length h < length h' /\ ndata (getn h' n) = DArr (squeeze k (length h) ids) /\
    labels h' (squeeze k (length h) ids) (shift_from (insert_position (S (length ids)) (z + 1)) 1 (squeeze k z zs)) /\ only h h' n ids.
Proof.
  intros h n ids zs z o w H Hn OK W D L k. unfold k. rewrite !insert_position_clamp.
  destruct (insert_labels h n ids zs z o w (any_history_fit h H) Hn OK W D L) as (h' & E & _ & Lh & R). exists h'. auto.
Qed.
Print Assumptions C16_insert_exact.

(** ** [a[z] = x]: the new item carries [z] as key. *)
Theorem C16_set_exact : forall h n ids zs z k o w, any_history h -> n < length h -> operand_ok h o -> operand_is h o w ->
  ndata (getn h n) = DArr ids -> labels h ids zs -> position (length ids) z = Some k ->
  exists h', setitem h n (IInt z) o = (Ok tt, h') /\ length h < length h' /\ ndata (getn h' n) = DArr (put k (length h) ids) /\
    labels h' (put k (length h) ids) (put k z zs) /\ only h h' n [].
Proof.
  intros h n ids zs z k o w H Hn OK W D L Pk. rewrite position_norm in Pk.
  destruct (setitem_labels h n ids zs z k o w (any_history_fit h H) Hn OK W D L Pk) as (h' & E & _ & Lh & R). exists h'. auto.
Qed.
Print Assumptions C16_set_exact.

(** ** The keys stay right exactly for these indices. *)
Theorem C16_when : forall h n ids, any_history h -> n < length h -> ndata (getn h n) = DArr ids -> labels h ids (right_labels (length ids)) ->
  (forall z k h', position (length ids) z = Some k -> delitem h n (IInt z) = (Ok tt, h') ->
     (labels h' (drop k ids) (right_labels (pred (length ids))) <-> (0 <= z \/ z = - Z.of_nat (length ids))%Z)) /\
  (forall z o w h', operand_ok h o -> operand_is h o w -> insert h n z o = (Ok tt, h') ->
     (labels h' (squeeze (insert_position (length ids) z) (length h) ids) (right_labels (S (length ids))) <->
      (0 <= z <= Z.of_nat (length ids))%Z \/ z = (-1)%Z /\ length ids <= 1)) /\
  (forall z k o w h', operand_ok h o -> operand_is h o w -> position (length ids) z = Some k -> setitem h n (IInt z) o = (Ok tt, h') ->
     (labels h' (put k (length h) ids) (right_labels (length ids)) <-> (0 <= z)%Z)).
Proof.
  intros h n ids H Hn D L.
  assert (Fun : forall g l a b, labels g l a -> (labels g l b <-> a = b)).
  { intros g l a b La. split; [|now intros <-]. revert a b La. induction l as [|c l IH]; intros a b La Lb; inversion La as [|? za ? ta Ka Ta]; inversion Lb as [|? zb ? tb Kb Tb]; [reflexivity|].
    f_equal; [|now apply IH]. rewrite Ka in Kb. injection Kb as Kb. apply (f_equal py_int) in Kb. rewrite !py_int_str_of_Z in Kb. now injection Kb. }
  split; [|split].
  - intros z k h' Pk E. destruct (C16_del_exact h n ids _ z k H Hn D L Pk) as (h2 & E2 & _ & L2 & _). rewrite E in E2. injection E2 as <-. rewrite (Fun _ _ _ _ L2). now apply del_right.
  - intros z o w h' OK W E. destruct (C16_insert_exact h n ids _ z o w H Hn OK W D L) as (h2 & E2 & _ & _ & L2 & _). rewrite E in E2. injection E2 as <-. rewrite (Fun _ _ _ _ L2). apply insert_right.
  - intros z k o w h' OK W Pk E. destruct (C16_set_exact h n ids _ z k o w H Hn OK W D L Pk) as (h2 & E2 & _ & _ & L2 & _). rewrite E in E2. injection E2 as <-. rewrite (Fun _ _ _ _ L2). now apply set_right.
Qed.
Print Assumptions C16_when.

(** ** [remove] and [replace] by a pointer to an array item act on the item
    that its key means, right or wrong. *)
Theorem C16_pointer_exact : forall h r p t tp l z, any_history h -> r < length h -> p <> [] -> located h r p t -> nparent (getn h t) = Some tp -> denotes h tp (JArr l) ->
  nkey (getn h t) = Some (str_of_Z z) ->
  (let '(res, h') := json_remove h r (PKeys p) in changes h h' tp (py_del (JArr l) (IInt z)) /\
     match py_del (JArr l) (IInt z) with Some _ => res = Ok tt | None => exists e, res = Exn e end) /\
  (forall o w, operand_ok h o -> operand_is h o w ->
   let '(res, h') := json_replace h r (PKeys p) o in changes h h' tp (py_set (JArr l) (IInt z) w) /\
     match py_set (JArr l) (IInt z) w with Some _ => res = Ok tt | None => exists e, res = Exn e end).
Proof.
  intros h r p t tp l z H Hr Np Lt Pt Dl Kt. destruct (any_history_fit h H) as [C _]. destruct C as (g & He & I) eqn:Ec. clear Ec. pose proof (any_history_coherent h H) as C'.
  assert (Ev : eval_id p h r = Ok t).
  { rewrite (E_eval_id p h g r He). apply located_eval; [exact (inv_shape _ I)|]. now apply (E_located h g). }
  pose proof (any_eval_bound p h r t C' Hr Ev) as Ht. pose proof (coherent_parent h t tp C' Ht Pt) as Htp.
  assert (Pe : path_empty (PKeys p) = false) by (destruct p; [contradiction|reflexivity]).
  assert (Mk : mk_pointer [PKeys p] = Ok p) by reflexivity.
  assert (Ki : key_int h t = Ok z) by (unfold key_int; rewrite Kt, py_int_str_of_Z; reflexivity).
  inversion Dl as [| | | |? ids ? Ed Len Ch|]; subst.
  split.
  - unfold json_remove. rewrite Pe, Mk, Ev. cbn [as_json_error]. rewrite Pt, Ed, Ki.
    destruct (any_delitem h tp (IInt z) (JArr l) C' Htp Dl) as (h' & rr & -> & _ & _ & R). exact R.
  - intros o w OK W. unfold json_replace. rewrite Pe, Mk, Ev. cbn [as_json_error]. rewrite Pt, Ed, Ki.
    destruct (any_setitem h tp (IInt z) o (JArr l) w C' Htp OK Dl W) as (h' & rr & -> & _ & _ & R). exact R.
Qed.
Print Assumptions C16_pointer_exact.

(** ** Cases: [10, 20, 30] under [del d[-1]] carries the numbers 0 and 0; then
    inserting at 7 and at -1 and assigning at -2 leaves 1, 1, -2 and 8. *)
Definition strange : heap :=
  run (run (run (run arr3 (OpDel 0 (IInt (-1)))) (OpInsert 0 7 (OVal (num 1)))) (OpInsert 0 (-1) (OVal (num 2)))) (OpSet 0 (IInt (-2)) (OVal (num 3))).
Lemma strange_history : any_history strange.
Proof.
  unfold strange. repeat (apply any_step; [|vm_compute; repeat split; try (apply Nat.ltb_lt; vm_compute; reflexivity)]).
  apply (any_step [] (OpNew (JArr [num 10; num 20; num 30]))); [apply any_start|reflexivity].
Qed.
Example C16_case_exact : any_history strange /\ is_root strange 0 /\ ndata (getn strange 0) = DArr [1; 2; 6; 4] /\ labels strange [1; 2; 6; 4] [1; 1; -2; 8]%Z /\
  labelled strange 0 [lit "-2"] 6 /\ fst (read_path strange 6) = Ok [lit "-2"] /\ located strange 0 [lit "2"] 6.
Proof.
  assert (C : child_at strange 0 (lit "2") 6).
  { apply (ca_item strange 0 [1; 2; 6; 4] 2 6); [vm_compute; reflexivity|reflexivity]. }
  assert (L : labelled strange 0 [lit "-2"] 6).
  { apply (lab_step strange 0 [] 0 (lit "2") 6 (lit "-2")); [constructor|exact C|vm_compute; reflexivity]. }
  assert (R : is_root strange 0) by (split; [apply Nat.ltb_lt; vm_compute; reflexivity|vm_compute; reflexivity]).
  split; [exact strange_history|]. split; [exact R|]. split; [vm_compute; reflexivity|]. split.
  { repeat (constructor; [vm_compute; reflexivity|]). constructor. }
  split; [exact L|]. split; [exact (proj1 (C16_paths strange 0 6 strange_history R) _ L)|].
  exact (loc_step strange 0 [] 0 (lit "2") 6 (loc_here strange 0) C).
Qed.
(** The hypotheses of [C16_when] hold of a new document, and both sides of each
    equivalence occur. *)
Example C16_case_when : any_history arr3 /\ ndata (getn arr3 0) = DArr [1; 2; 3] /\ labels arr3 [1; 2; 3] (right_labels 3) /\
  labels (run arr3 (OpDel 0 (IInt (-3)))) [2; 3] (right_labels 2) /\ labels (run arr3 (OpDel 0 (IInt (-1)))) [1; 2] [0; 0]%Z /\
  labels (run arr3 (OpInsert 0 3 (OVal (num 7)))) [1; 2; 3; 4] (right_labels 4) /\ labels (run arr3 (OpInsert 0 4 (OVal (num 7)))) [1; 2; 3; 4] [0; 1; 2; 4]%Z /\
  labels (run arr3 (OpSet 0 (IInt (-1)) (OVal (num 7)))) [1; 2; 4] [0; 1; -1]%Z.
Proof.
  split; [apply (any_step [] (OpNew (JArr [num 10; num 20; num 30]))); [apply any_start|reflexivity]|]. split; [vm_compute; reflexivity|].
  repeat split; repeat (apply Forall2_cons; [vm_compute; reflexivity|]); apply Forall2_nil.
Qed.
(** [remove("/1")] on the document above: the key of that item is 1; on
    [remove("/2")] it is -2, which happens to be right; on [remove("/3")] it is
    8, which is none. *)
Example C16_case_pointer : located strange 0 [lit "3"] 4 /\ nparent (getn strange 4) = Some 0 /\ nkey (getn strange 4) = Some (str_of_Z 8) /\
  fst (json_remove strange 0 (PKeys [lit "3"])) = Exn EIndex /\
  ndata (getn (snd (json_remove strange 0 (PKeys [lit "0"]))) 0) = DArr [1; 6; 4].
Proof.
  split; [|repeat (split; [vm_compute; reflexivity|]); vm_compute; reflexivity].
  apply (loc_step strange 0 [] 0 (lit "3") 4 (loc_here strange 0)). apply (ca_item strange 0 [1; 2; 6; 4] 3 4); [vm_compute; reflexivity|reflexivity].
Qed.
