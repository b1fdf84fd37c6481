(** Properties C22, C23, C58: JSON Patch on Python objects. *)
From Verif Require Import PatchFacts PropsPatch.
From Verif Require Import PatchHeapSame PatchHeapOps.
From Coq Require Import Lia.
Open Scope nat_scope.

(** A heap for the concrete cases: object 0 is [[1, 2]], object 1 is
    [{"a": object 0, "b": 7}], object 2 is [{"x": [object 3]}] with object 3 [[9]]. *)
Definition H : heap :=
  [OList [VNum (NInt 1); VNum (NInt 2)]; ODict [(lit "a", VRef 0); (lit "b", VNum (NInt 7))]; ODict [(lit "x", VRef 3)]; OList [VNum (NInt 9)]].
Definition P : list hpatchop :=
  [mkHOp ADD [lit "a"; lit "0"] (VRef 2) None; mkHOp MOVE [lit "c"] VNull (Some [lit "b"]);
   mkHOp REPLACE [lit "a"; lit "0"; lit "x"; lit "0"] (VNum (NInt 5)) None].

(** ** C22.  Evaluation leaves its inputs alone. *)
(** Whatever comes out, every list and dict that existed before is still there
    as it was: objects are only added. *)
Theorem C22_inputs_unchanged : forall fuel ops doc h r h', h_evaluate fuel ops doc h = (r, h') -> exists h2, h' = h ++ h2.
Proof. intros fuel ops doc h r h' E. exact (proj1 (evaluate_isolated _ _ _ _ _ _ E)). Qed.
Print Assumptions C22_inputs_unchanged.
(** In particular the document and the values in the operations mean what they
    meant, at every place. *)
Theorem C22_values_unchanged : forall fuel ops doc h r h' v d S, h_evaluate fuel ops doc h = (r, h') -> reads h v d S -> reads h' v d S.
Proof. intros fuel ops doc h r h' v d S E R. destruct (C22_inputs_unchanged _ _ _ _ _ _ E) as (h2 & ->). now apply reads_more. Qed.
Print Assumptions C22_values_unchanged.
(** The result consists of new objects only: it shares nothing with the
    document or the operations. *)
Theorem C22_result_is_new : forall fuel ops doc h v h' a, h_evaluate fuel ops doc h = (Ok v, h') -> reaches h' v a -> length h <= a.
Proof. intros fuel ops doc h v h' a E. exact (proj2 (evaluate_isolated _ _ _ _ _ _ E) v a eq_refl). Qed.
Print Assumptions C22_result_is_new.

(** Equal object graphs in any two heaps give equal results: the same
    exception, or equal object graphs. *)
Definition same_ops (R : nat -> nat -> Prop) : list hpatchop -> list hpatchop -> Prop := Forall2 (fun o o' =>
  ho_op o = ho_op o' /\ ho_path o = ho_path o' /\ ho_from o = ho_from o' /\ val_same R (ho_value o) (ho_value o')).
Definition same_result (x y : res pyval * heap) : Prop :=
  match fst x, fst y with
  | Ok v, Ok w => same_graph (snd x) v (snd y) w
  | Exn e, Exn e' => e = e'
  | Fuel, Fuel => True
  | _, _ => False
  end.
Theorem C22_same_graph_same_result : forall fuel R h h' ops ops' doc doc', heap_same R h h' -> same_ops R ops ops' -> val_same R doc doc' ->
  same_result (h_evaluate fuel ops doc h) (h_evaluate fuel ops' doc' h').
Proof.
  intros fuel R h h' ops ops' doc doc' G O D.
  destruct (sim_evaluate fuel R ops ops' doc doc' O D R h h' (sub_refl R) G) as (R2 & S & G2 & Q).
  unfold same_result. destruct (fst (h_evaluate fuel ops doc h)), (fst (h_evaluate fuel ops' doc' h')); try contradiction; auto.
  exists R2. auto.
Qed.
Print Assumptions C22_same_graph_same_result.
(** Equal object graphs stand for the same JSON value. *)
Theorem C22_same_graph_same_value : forall h v h' v' d S, same_graph h v h' v' -> reads h v d S -> exists S', reads h' v' d S'.
Proof. intros h v h' v' d S (R & G & V) X. destruct (reads_same_aux R h h' G v d S X v' V) as (S' & Y & _). eauto. Qed.
Print Assumptions C22_same_graph_same_value.
(** Evaluating again on the same document gives an equal result. *)
Theorem C22_again : forall fuel ops doc h r1 h1 r2 h2, heap_ok h -> val_ok (length h) doc -> Forall (fun o => val_ok (length h) (ho_value o)) ops ->
  h_evaluate fuel ops doc h = (r1, h1) -> h_evaluate fuel ops doc h1 = (r2, h2) -> same_result (r1, h2) (r2, h2).
Proof.
  intros fuel ops doc h r1 h1 r2 h2 W D O E1 E2.
  destruct (C22_inputs_unchanged _ _ _ _ _ _ E1) as (k1 & ->). destruct (C22_inputs_unchanged _ _ _ _ _ _ E2) as (k2 & ->).
  set (R := fun a b => a = b /\ a < length h).
  assert (V : forall v, val_ok (length h) v -> val_same R v v) by (intros [| | | |a] H; cbn in *; unfold R; auto).
  assert (Vs : forall l, Forall (val_ok (length h)) l -> Forall2 (val_same R) l l) by (intros l F; induction F; constructor; auto).
  assert (G : heap_same R h (h ++ k1)).
  { split; [intros a b a' b' [<- _] [<- _]; tauto|]. intros a b [<- La]. destruct (nth_error h a) as [o|] eqn:E; [|apply nth_error_None in E; lia].
    exists o, o. rewrite nth_error_app1 by auto. repeat split; auto. specialize (W a o E). destruct o as [l|m]; cbn in *; auto.
    clear E. induction m as [|[k v] m IH]; constructor; inversion W; subst; [split; cbn; auto|auto]. }
  assert (Q : same_result (h_evaluate fuel ops doc h) (h_evaluate fuel ops doc (h ++ k1))).
  { apply (C22_same_graph_same_result fuel R); [exact G| |auto]. clear E1 E2. induction O; constructor; auto. }
  rewrite E1, E2 in Q. unfold same_result in *. cbn in *. destruct r1 as [v1| |], r2 as [v2| |]; auto.
  destruct Q as (R2 & [I G2] & V2). exists R2. split; auto. split; auto. intros a b X. destruct (G2 a b X) as (o & o' & A & B & C).
  exists o, o'. repeat split; auto. rewrite nth_error_app1; auto. apply nth_error_Some. congruence.
Qed.
Print Assumptions C22_again.
Example C22_case : exists v h1 v' h2, heap_ok H /\ h_evaluate 9 P (VRef 1) H = (Ok v, h1) /\ firstn 4 h1 = H /\
  hread 9 v h1 = Ok (JObj [(lit "a", JArr [JObj [(lit "x", JArr [JNum (NInt 5)])]; JNum (NInt 1); JNum (NInt 2)]); (lit "c", JNum (NInt 7))]) /\
  h_evaluate 9 P (VRef 1) h1 = (Ok v', h2) /\ hread 9 v' h2 = hread 9 v h1 /\ v' <> v.
Proof.
  eexists _, _, _, _. split.
  { intros a o E. do 4 (destruct a as [|a]; [injection E as <-; repeat (constructor; cbn; try lia)|]). destruct a; discriminate. }
  split; [vm_compute; reflexivity|]. split; [vm_compute; reflexivity|]. split; [vm_compute; reflexivity|].
  split; [vm_compute; reflexivity|]. split; [vm_compute; reflexivity|]. discriminate.
Qed.
(** A failure half way: the third operation fails, and what existed is as it was. *)
Example C22_case_failure : exists h1, h_evaluate 9 (P ++ [mkHOp REMOVE [lit "zz"] VNull None]) (VRef 1) H = (Exn EPatch, h1) /\ firstn 4 h1 = H.
Proof. eexists. split; vm_compute; reflexivity. Qed.

(** ** C23.  Value semantics. *)
(** The operations as values. *)
Definition ops_mean (h : heap) : list hpatchop -> list patchop -> Prop := Forall2 (fun o o0 =>
  ho_op o = po_op o0 /\ ho_path o = po_path o0 /\ ho_from o = po_from o0 /\ is_tree h (ho_value o) (po_value o0)).
(** When no list or dict occurs at two places of the document or of one value,
    evaluation does what Patch.v says on values - the functions of which
    C18-C21 are proved - whether it succeeds or fails; and the result is of
    that kind again.  Two operations may share a value, and so may an
    operation and the document. *)
Theorem C23_unshared : forall h doc d ops ops0, is_tree h doc d -> ops_mean h ops ops0 -> exists N, forall fuel, N <= fuel ->
  match patch_apply ops0 d with
  | Ok d' => exists v h', h_evaluate fuel ops doc h = (Ok v, h') /\ is_tree h' v d'
  | Exn e => exists h', h_evaluate fuel ops doc h = (Exn e, h')
  | Fuel => False
  end.
Proof.
  intros h doc d ops ops0 D O. exists (S (vol d + enough ops0 d)). intros fuel L.
  pose proof (evaluate_reads fuel ops ops0 h doc d D O ltac:(lia)) as M. unfold matches in M.
  destruct (h_evaluate fuel ops doc h) as [[v|e|] h'], (patch_apply ops0 d) as [d'|e'|]; cbn in M; try contradiction; eauto. subst. eauto.
Qed.
Print Assumptions C23_unshared.
(** In terms of RFC 6902: a patch of which each operation is possible, one
    after the other, gives the document that the RFC says. *)
Inductive rfc_operation : patchop -> json -> json -> Prop :=
| rfco_add p v f d d' : rfc_add p v d d' -> rfc_operation (mkOp ADD p v f) d d'
| rfco_remove p v f d d' : rfc_remove p d d' -> rfc_operation (mkOp REMOVE p v f) d d'
| rfco_replace p v f d d' : rfc_replace p v d d' -> rfc_operation (mkOp REPLACE p v f) d d'
| rfco_move p v f d d' : rfc_move p f d d' -> rfc_operation (mkOp MOVE p v (Some f)) d d'
| rfco_copy p v f d d' : rfc_copy p f d d' -> rfc_operation (mkOp COPY p v (Some f)) d d'
| rfco_test p v f d d' : rfc_test p v d d' -> rfc_operation (mkOp TEST p v f) d d'.
Inductive rfc_patch : list patchop -> json -> json -> Prop :=
| rfcp_nil d : rfc_patch [] d d
| rfcp_cons o r d d1 d' : rfc_operation o d d1 -> rfc_patch r d1 d' -> rfc_patch (o :: r) d d'.
Lemma rfc_operation_jwf o d d' : rfc_operation o d d' -> jwf d = true -> jwf (po_value o) = true -> op_apply o d = Ok d' /\ jwf d' = true.
Proof.
  intros R Wd Wv. destruct R as [p v f d d' R|p v f d d' R|p v f d d' R|p v f d d' R|p v f d d' R|p v f d d' R]; unfold op_apply; cbn [po_op po_path po_value po_from] in *.
  - split; [now apply C18_add_as_rfc|]. eapply spec_add_jwf; eauto.
  - split; [now apply C19_remove_as_rfc|]. eapply spec_remove_jwf; eauto.
  - split; [now apply C19_replace_as_rfc|]. eapply spec_replace_jwf; eauto.
  - split; [now apply C20_move_as_rfc|]. destruct R as (_ & x & d1 & Fx & Rr & Ra). eapply spec_add_jwf; [exact Ra|eapply spec_remove_jwf; [exact Rr|auto]|eapply refers_jwf; [|exact Fx]; auto].
  - split; [now apply C20_copy_as_rfc|]. destruct R as (x & Fx & Ra). eapply spec_add_jwf; [exact Ra|auto|eapply refers_jwf; [|exact Fx]; auto].
  - split; [now apply C21_test_exact|]. destruct R as [-> _]. auto.
Qed.
Theorem C23_rfc_patch : forall h doc d ops ops0 d', is_tree h doc d -> ops_mean h ops ops0 -> jwf d = true -> Forall (fun o => jwf (po_value o) = true) ops0 ->
  rfc_patch ops0 d d' -> exists N, forall fuel, N <= fuel -> exists v h', h_evaluate fuel ops doc h = (Ok v, h') /\ is_tree h' v d'.
Proof.
  intros h doc d ops ops0 d' D O W Wo R. destruct (C23_unshared _ _ _ _ _ D O) as (N & K). exists N. intros fuel L. specialize (K fuel L).
  enough (E : patch_apply ops0 d = Ok d') by now rewrite E in K.
  clear -R W Wo. induction R as [d|o r d d1 d' Ro R IH]; [reflexivity|]. inversion Wo; subst. cbn [patch_apply].
  destruct (rfc_operation_jwf _ _ _ Ro W ltac:(assumption)) as [-> W1]. cbn [bind]. auto.
Qed.
Print Assumptions C23_rfc_patch.
(** So equal documents and equal operations give equal results. *)
Theorem C23_equal_documents : forall h doc h' doc' d ops ops' ops0, is_tree h doc d -> is_tree h' doc' d -> ops_mean h ops ops0 -> ops_mean h' ops' ops0 ->
  exists N, forall fuel, N <= fuel ->
  match h_evaluate fuel ops doc h, h_evaluate fuel ops' doc' h' with
  | (Ok v, k), (Ok v', k') => exists x, is_tree k v x /\ is_tree k' v' x
  | (Exn e, _), (Exn e', _) => e = e'
  | _, _ => False
  end.
Proof.
  intros h doc h' doc' d ops ops' ops0 D D' O O'. destruct (C23_unshared _ _ _ _ _ D O) as (n & A). destruct (C23_unshared _ _ _ _ _ D' O') as (n' & A').
  exists (n + n'). intros fuel L. specialize (A fuel ltac:(lia)). specialize (A' fuel ltac:(lia)). destruct (patch_apply ops0 d) as [x|e|].
  - destruct A as (v & k & -> & T). destruct A' as (v' & k' & -> & T'). eauto.
  - destruct A as (k & ->). destruct A' as (k' & ->). reflexivity.
  - contradiction.
Qed.
Print Assumptions C23_equal_documents.
Example C23_case : exists d ops0 d', is_tree H (VRef 1) d /\ ops_mean H P ops0 /\ patch_apply ops0 d = Ok d' /\ d' <> d.
Proof.
  exists (JObj [(lit "a", JArr [JNum (NInt 1); JNum (NInt 2)]); (lit "b", JNum (NInt 7))]).
  exists [mkOp ADD [lit "a"; lit "0"] (JObj [(lit "x", JArr [JNum (NInt 9)])]) None; mkOp MOVE [lit "c"] JNull (Some [lit "b"]);
    mkOp REPLACE [lit "a"; lit "0"; lit "x"; lit "0"] (JNum (NInt 5)) None].
  eexists. split.
  { exists [1; 0]. split; [|repeat constructor; cbn; lia]. eapply (reads_dict H 1 _ _ [0]); [reflexivity|reflexivity|].
    change [0] with ([0] ++ [] ++ []). constructor.
    - eapply reads_list; [reflexivity|]. change (@nil nat) with ((@nil nat) ++ [] ++ []). repeat constructor.
    - constructor; [constructor; reflexivity|constructor]. }
  split.
  { constructor; [|constructor; [|constructor; [|constructor]]]; (split; [reflexivity|]; split; [reflexivity|]; split; [reflexivity|]).
    - exists [2; 3]. split; [|repeat constructor; cbn; lia]. eapply (reads_dict H 2 _ _ [3]); [reflexivity|reflexivity|].
      change [3] with ([3] ++ []). constructor; [|constructor]. eapply reads_list; [reflexivity|].
      change (@nil nat) with ((@nil nat) ++ []). repeat constructor.
    - exists []. split; repeat constructor.
    - exists []. split; repeat constructor. }
  split; [vm_compute; reflexivity|discriminate].
Qed.

(** With a list that occurs at two places of the document, one operation
    changes both: deepcopy keeps the sharing. *)
Theorem C23_shared_document_refuted : exists h doc d op op0 d',
  reads h doc d [0; 1; 1] /\ ops_mean h [op] [op0] /\ patch_apply [op0] d = Ok d' /\
  forall fuel, 9 <= fuel -> exists v k x, h_evaluate fuel [op] doc h = (Ok v, k) /\ hread 9 v k = Ok x /\ x <> d'.
Proof.
  exists [ODict [(lit "a", VRef 1); (lit "b", VRef 1)]; OList []], (VRef 0), (JObj [(lit "a", JArr []); (lit "b", JArr [])]),
    (mkHOp ADD [lit "a"; lit "-"] (VNum (NInt 1)) None), (mkOp ADD [lit "a"; lit "-"] (JNum (NInt 1)) None).
  eexists. split.
  { eapply (reads_dict _ 0 _ _ [1; 1]); [reflexivity|reflexivity|]. change [1; 1] with ([1] ++ [1] ++ []).
    constructor; [eapply reads_list; [reflexivity|constructor]|]. constructor; [eapply reads_list; [reflexivity|constructor]|constructor]. }
  split; [constructor; [|constructor]; repeat split; exists []; split; repeat constructor|].
  split; [vm_compute; reflexivity|]. intros fuel L. do 9 (destruct fuel as [|fuel]; [lia|]).
  eexists _, _, _. split; [cbn; reflexivity|]. split; [cbn; reflexivity|]. discriminate.
Qed.
Print Assumptions C23_shared_document_refuted.
(** The same for a list that occurs at two places of the value of an
    operation. *)
Theorem C23_shared_value_refuted : exists h doc d op1 op2 o1 o2 d',
  is_tree h doc d /\ reads h (ho_value op1) (po_value o1) [1; 2; 2] /\ ho_op op1 = po_op o1 /\ ho_path op1 = po_path o1 /\ ops_mean h [op2] [o2] /\
  patch_apply [o1; o2] d = Ok d' /\
  forall fuel, 9 <= fuel -> exists v k x, h_evaluate fuel [op1; op2] doc h = (Ok v, k) /\ hread 9 v k = Ok x /\ x <> d'.
Proof.
  exists [ODict []; OList [VRef 2; VRef 2]; OList []], (VRef 0), (JObj []),
    (mkHOp ADD [lit "a"] (VRef 1) None), (mkHOp ADD [lit "a"; lit "0"; lit "0"] (VNum (NInt 1)) None),
    (mkOp ADD [lit "a"] (JArr [JArr []; JArr []]) None), (mkOp ADD [lit "a"; lit "0"; lit "0"] (JNum (NInt 1)) None).
  eexists. split.
  { exists [0]. split; [|repeat constructor; cbn; tauto]. eapply reads_dict; [reflexivity|reflexivity|constructor]. }
  split.
  { eapply reads_list; [reflexivity|]. change [2; 2] with ([2] ++ [2] ++ []).
    constructor; [eapply reads_list; [reflexivity|constructor]|]. constructor; [eapply reads_list; [reflexivity|constructor]|constructor]. }
  split; [reflexivity|]. split; [reflexivity|].
  split; [constructor; [|constructor]; repeat split; exists []; split; repeat constructor|].
  split; [vm_compute; reflexivity|]. intros fuel L. do 9 (destruct fuel as [|fuel]; [lia|]).
  eexists _, _, _. split; [cbn; reflexivity|]. split; [cbn; reflexivity|]. discriminate.
Qed.
Print Assumptions C23_shared_value_refuted.

(** ** C58.  A single operation that fails, applied directly to a document. *)
(** Every operation but move leaves all lists and dicts as they were when it
    fails... *)
Theorem C58_failing_operation_partial : forall fuel o doc h r h', ho_op o <> MOVE -> h_apply fuel o doc h = (r, h') ->
  (forall v, r <> Ok v) -> exists h2, h' = h ++ h2.
Proof.
  intros fuel o doc h r h' M E F.
  assert (DC : forall v r1 h1, deepcopy fuel v h = (r1, h1) -> exists h2, h1 = h ++ h2).
  { intros v r1 h1 Ed. pose proof (iso_deepcopy (length h) fuel v h (le_n _) (closed_above_length h)) as ([_ B] & _). rewrite Ed in B. cbn in B.
    exists (skipn (length h) h1). now apply prefix_of_nth. }
  assert (Ins : forall t v k, match hinsert t v k with (Ok _, _) => True | (_, k') => k' = k end).
  { intros t v k. unfold hinsert. destruct (ht_parent t); cbn; auto. unfold hbind, hget. destruct (nth_error k a) as [[l|m]|]; cbn; auto. destruct (ht_index t); cbn; auto. }
  assert (Asg : forall t v k, match hassign t v k with (Ok _, _) => True | (_, k') => k' = k end).
  { intros t v k. unfold hassign. destruct (ht_parent t); cbn; auto. unfold hbind, hget. destruct (nth_error k a) as [[l|m]|]; cbn; auto; destruct (ht_index t); cbn; auto. }
  assert (Del : forall t k, match hdelete t k with (Ok _, _) => True | (_, k') => k' = k end).
  { intros t k. unfold hdelete. destruct (ht_parent t); cbn; auto. unfold hbind, hget. destruct (nth_error k a) as [[l|m]|]; cbn; auto; destruct (ht_index t); cbn; auto. }
  assert (Self : exists h2, h = h ++ h2) by (exists []; now rewrite app_nil_r).
  assert (Add : forall p v, h_add fuel doc p v h = (r, h') -> exists h2, h' = h ++ h2).
  { intros p v. unfold h_add, hbind at 1, hlook. destruct (hnode doc p h) as [t|e|]; [|intros [= <- <-]; auto|intros [= <- <-]; auto].
    unfold hbind at 1. destruct (deepcopy fuel v h) as [[w|e|] h1] eqn:Ed; destruct (DC _ _ _ Ed) as (k & ->); [|intros [= <- <-]; eauto|intros [= <- <-]; eauto].
    destruct (ht_type t); [intros [= <- <-]; eauto| | | |]; unfold hbind, hret;
      [specialize (Ins t w (h ++ k)); destruct (hinsert t w (h ++ k)) as [[[]|e|] h2]|specialize (Ins t w (h ++ k)); destruct (hinsert t w (h ++ k)) as [[[]|e|] h2]
      |specialize (Asg t w (h ++ k)); destruct (hassign t w (h ++ k)) as [[[]|e|] h2]|specialize (Asg t w (h ++ k)); destruct (hassign t w (h ++ k)) as [[[]|e|] h2]];
      intros [= <- <-]; subst; eauto; exfalso; eapply F; reflexivity. }
  unfold h_apply in E. destruct (ho_op o).
  - eauto.
  - revert E. unfold h_remove, hbind at 1, hlook. destruct (hnode doc (ho_path o) h) as [t|e|]; [|intros [= <- <-]; auto|intros [= <- <-]; auto].
    destruct (ht_type t); try (intros [= <- <-]; auto; fail); unfold hbind, hret;
      specialize (Del t h); destruct (hdelete t h) as [[[]|e|] h2]; intros [= <- <-]; subst; eauto; exfalso; eapply F; reflexivity.
  - revert E. unfold h_replace, hbind at 1, hlook. destruct (hnode doc (ho_path o) h) as [t|e|]; [|intros [= <- <-]; auto|intros [= <- <-]; auto].
    unfold hbind at 1. destruct (deepcopy fuel (ho_value o) h) as [[w|e|] h1] eqn:Ed; destruct (DC _ _ _ Ed) as (k & ->); [|intros [= <- <-]; eauto|intros [= <- <-]; eauto].
    destruct (ht_type t); try (intros [= <- <-]; eauto; fail); unfold hbind, hret;
      specialize (Asg t w (h ++ k)); destruct (hassign t w (h ++ k)) as [[[]|e|] h2]; intros [= <- <-]; subst; eauto; exfalso; eapply F; reflexivity.
  - congruence.
  - revert E. unfold h_copy, hbind at 1, hlook. destruct (heval_from doc (ho_from o) h); [eauto|intros [= <- <-]; auto|intros [= <- <-]; auto].
  - revert E. unfold h_test, hbind, hlook. destruct (hnode doc (ho_path o) h) as [t|e|]; [|intros [= <- <-]; auto|intros [= <- <-]; auto].
    destruct (ht_type t); try (intros [= <- <-]; auto; fail);
      (destruct (heval (ho_path o) doc h); [|intros [= <- <-]; auto|intros [= <- <-]; auto];
       destruct (hread fuel a h); [|intros [= <- <-]; auto|intros [= <- <-]; auto];
       destruct (hread fuel (ho_value o) h); [|intros [= <- <-]; auto|intros [= <- <-]; auto];
       destruct (json_eqb a0 a1); intros [= <- <-]; auto).
Qed.
Print Assumptions C58_failing_operation_partial.
Example C58_case : forall fuel, h_apply (S fuel) (mkHOp ADD [lit "b"; lit "c"] (VNum (NInt 1)) None) (VRef 1) H = (Exn EAssertion, H).
Proof. reflexivity. Qed.
(** ... but a move to a place that does not exist has already removed the value. *)
Theorem C58_move_refuted : exists o doc h d, is_tree h doc d /\
  forall fuel, 9 <= fuel -> exists h' d', h_apply fuel o doc h = (Exn EPatch, h') /\ is_tree h' doc d' /\ d' <> d.
Proof.
  exists (mkHOp MOVE [lit "x"; lit "y"] VNull (Some [lit "a"])), (VRef 0), [ODict [(lit "a", VNum (NInt 1))]], (JObj [(lit "a", JNum (NInt 1))]).
  split.
  { exists [0]. split; [|repeat constructor; cbn; tauto]. eapply (reads_dict _ 0 _ _ []); [reflexivity|reflexivity|].
    change (@nil nat) with ((@nil nat) ++ []). repeat constructor. }
  intros fuel L. do 9 (destruct fuel as [|fuel]; [lia|]). eexists _, (JObj []). split; [cbn; reflexivity|]. split; [|discriminate].
  exists [0]. split; [|repeat constructor; cbn; tauto]. eapply reads_dict; [reflexivity|reflexivity|constructor].
Qed.
Print Assumptions C58_move_refuted.
(** What a failing move leaves: the document as it was, or the document without
    the value at the source. *)
Theorem C58_move_leaves : forall fuel o doc d h r h', ho_op o = MOVE -> is_tree h doc d -> h_apply fuel o doc h = (r, h') ->
  (forall v, r <> Ok v) ->
  is_tree h' doc d \/ exists f d', ho_from o = Some f /\ f <> [] /\ p_remove d f = Ok d' /\ is_tree h' doc d'.
Proof.
  intros fuel o doc d h r h' M (S & D & N) E F.
  assert (More : forall k v x T k2, reads k v x T -> NoDup T -> is_tree (k ++ k2) v x) by (intros; exists T; split; auto; now apply reads_more).
  assert (Same : is_tree h doc d) by (exists S; auto).
  unfold h_apply in E. rewrite M in E. unfold h_move, hbind at 1, hlook in E.
  destruct (heval_from doc (ho_from o) h) as [w|e|]; [|left; congruence|left; congruence].
  destruct (ho_from o) as [f|]; [|unfold hret in E; left; congruence].
  unfold hbind in E. pose proof (h_remove_reads h doc d S f D N) as R. unfold matches in R.
  destruct (h_remove doc f h) as [[doc1|e|] h1] eqn:Er; cbn [fst snd] in R.
  - destruct (p_remove d f) as [d1|e|] eqn:Ep; try contradiction. destruct R as (S1 & D1 & N1).
    destruct (C58_failing_operation_partial fuel (mkHOp ADD (ho_path o) w None) doc1 h1 r h' ltac:(discriminate) E F) as (h2 & ->).
    destruct f as [|k f0].
    + left. replace h1 with h; [eauto|]. unfold h_remove, hbind, hlook, hnode in Er. cbn in Er. unfold hret in Er. congruence.
    + right. exists (k :: f0), d1. split; auto. split; [discriminate|]. split; auto.
      replace doc with doc1; [eauto|]. clear - Er D. unfold h_remove, hbind at 1, hlook in Er.
      destruct (hnode doc (k :: f0) h) as [t|e|] eqn:Et; [|congruence|congruence].
      assert (Nr : ht_type t <> ROOT).
      { destruct (path_cases (k :: f0)) as [X|(q & l & X)]; [discriminate|]. rewrite X in Et.
        pose proof (hnode_reads h doc d S q l D) as Hn. rewrite Et in Hn.
        destruct (mk_target d (q ++ [l])); try contradiction. destruct Hn as (-> & _ & _ & Nr). exact Nr. }
      destruct (ht_type t); try congruence; unfold hbind, hret in Er; destruct (hdelete t h) as [[[]|e|] k1]; congruence.
  - left. destruct (C58_failing_operation_partial fuel (mkHOp REMOVE f VNull None) doc h (Exn e) h1 ltac:(discriminate) Er ltac:(discriminate)) as (h2 & ->).
    replace h' with (h ++ h2) by congruence. eauto.
  - contradiction.
Qed.
Print Assumptions C58_move_leaves.
