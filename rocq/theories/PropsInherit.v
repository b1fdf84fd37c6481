(** Property C90: the methods that JSON inherits from MutableSequence and
    MutableMapping do what the methods of the same names do on plain lists and
    dicts, with the exceptions shown. *)
From Coq Require Import String List.
From Verif Require Import JsonFacts JTreeOps SpecTreeAny SpecInherit JTreeSim JSeq JSeqFacts PropsTree.
Import ListNotations.
Open Scope string_scope.
Open Scope list_scope.
Open Scope nat_scope.

(** ** C90.  [n.extend(os)] and [n += os]. *)
Theorem C90_extend : forall h n os ws l, any_history h -> n < length h -> denotes h n (JArr l) ->
  Forall2 (ready h n) os ws ->
  exists h', extend h n os = (Ok tt, h') /\ changes h h' n (Some (JArr (l ++ ws))).
Proof.
  intros h n os ws l H Hn D F. apply any_history_coherent in H as C.
  destruct (any_extend n os ws h l C Hn D F) as (h' & E' & _ & L & D'). exists h'. split; auto. now apply local_changes.
Qed.
Print Assumptions C90_extend.

(** With itself: the items double. *)
Theorem C90_extend_self : forall h n l, any_history h -> n < length h -> denotes h n (JArr l) ->
  exists h', extend_node h n n = (Ok tt, h') /\ changes h h' n (Some (JArr (l ++ l))).
Proof.
  intros h n l H Hn D. apply any_history_coherent in H as C. inversion D as [| | | |? ids ? Ed Len F|]; subst.
  unfold extend_node, iter_operands. rewrite Ed.
  destruct (any_extend n (map ONode ids) l h l C Hn D) as (h' & E' & _ & L & D').
  - clear D. assert (G : forall i c, nth_error ids i = Some c -> child_at h n (str_of_nat i) c) by (intros; econstructor; eauto).
    clear Ed. assert (G' : forall c, In c ids -> c < length h /\ stays h n (ONode c)).
    { intros c Hc. apply In_nth_error in Hc as (i & Hi). apply G in Hi. pose proof (coherent_ordered _ C) as O. split.
      - now apply O in Hi.
      - eapply child_stays; eauto. }
    clear G. revert l Len F. induction ids as [|c ids IH]; intros [|x l] Len F; try discriminate; constructor.
    + destruct (G' c (or_introl eq_refl)). split; [auto|]. split; [|auto]. exact (F 0 c x eq_refl eq_refl).
    + apply IH; [intros; apply G'; now right|now injection Len|]. intros i c' v' Hc Hv. exact (F (S i) c' v' Hc Hv).
  - exists h'. split; auto. now apply local_changes.
Qed.
Print Assumptions C90_extend_self.

(** [n.reverse()]. *)
Theorem C90_reverse : forall h n l, any_history h -> n < length h -> denotes h n (JArr l) ->
  exists h', json_reverse h n = (Ok tt, h') /\ changes h h' n (Some (JArr (rev l))).
Proof.
  intros h n l H Hn D. apply any_history_coherent in H as C.
  destruct (any_reverse h n l C Hn D) as (h' & E' & _ & L & D'). exists h'. split; auto. now apply local_changes.
Qed.
Print Assumptions C90_reverse.

(** [n.clear()] empties an array. *)
Theorem C90_clear : forall h n l, any_history h -> n < length h -> denotes h n (JArr l) ->
  exists h', json_clear h n = (Ok tt, h') /\ changes h h' n (Some (JArr [])).
Proof.
  intros h n l H Hn D. apply any_history_coherent in H as C.
  destruct (any_clear n (S (S (length h))) h l C Hn D) as (h' & E' & _ & L & D').
  - pose proof (items_fit h n l C D). lia.
  - exists h'. split; [exact E'|]. now apply local_changes.
Qed.
Print Assumptions C90_clear.

(** But not an object: KeyError, and nothing is removed. *)
Theorem C90_clear_object : forall h n m, denotes h n (JObj m) -> json_clear h n = (Exn EKey, h).
Proof.
  intros h n m D. inversion D as [| | | | |? ms ? Ed Ek _]; subst. unfold json_clear, clear_f, pop, getitem. now rewrite Ed.
Qed.
Print Assumptions C90_clear_object.

(** [n.update(pairs)]. *)
Theorem C90_update : forall h n kos kws m, any_history h -> n < length h -> denotes h n (JObj m) ->
  Forall2 (ready_pair h n) kos kws ->
  exists h', update h n kos = (Ok tt, h') /\ changes h h' n (Some (JObj (put_all kws m))).
Proof.
  intros h n kos kws m H Hn D F. apply any_history_coherent in H as C.
  destruct (any_update n kos kws h m C Hn D F) as (h' & E' & _ & L & D'). exists h'. split; auto. now apply local_changes.
Qed.
Print Assumptions C90_update.

(** [n.update(m)] with another node that [n] is not below; with itself it
    changes no value. *)
Theorem C90_update_node : forall h n m mm kws, any_history h -> n < length h -> m < length h ->
  denotes h n (JObj mm) -> denotes h m (JObj kws) -> ~ below h m n ->
  exists h', update_node h n m = (Ok tt, h') /\ changes h h' n (Some (JObj (put_all kws mm))).
Proof.
  intros h n m mm kws H Hn Hm D Dm B. apply any_history_coherent in H as C.
  destruct (any_update_node h n m mm kws C Hn Hm D Dm B) as (h' & E' & _ & L & D'). exists h'. split; auto. now apply local_changes.
Qed.
Print Assumptions C90_update_node.
Theorem C90_update_self : forall h n m, any_history h -> n < length h -> denotes h n (JObj m) ->
  exists h', update_node h n n = (Ok tt, h') /\ changes h h' n (Some (JObj m)).
Proof.
  intros h n m H Hn D. apply any_history_coherent in H as C.
  destruct (any_update_self h n m C Hn D) as (h' & E' & _ & L & D'). exists h'. split; auto. now apply local_changes.
Qed.
Print Assumptions C90_update_self.

(** [n.popitem()] takes the first member; KeyError when there is none. *)
Theorem C90_popitem : forall h n m, any_history h -> n < length h -> denotes h n (JObj m) ->
  match m with
  | [] => popitem h n = (Exn EKey, h)
  | (k, x) :: m' => exists h' c, popitem h n = (Ok (k, c), h') /\ changes h h' n (Some (JObj m')) /\ denotes h' c x
  end.
Proof.
  intros h n [|[k x] m] H Hn D; apply any_history_coherent in H as C.
  - inversion D as [| | | | |? ms ? Ed Ek _]; subst. unfold popitem. rewrite Ed. destruct ms; [reflexivity|discriminate].
  - destruct (any_popitem h n k x m C Hn D) as (h' & c & E' & _ & L & D' & Dc). exists h', c. split; auto. split; auto.
    now apply local_changes.
Qed.
Print Assumptions C90_popitem.

(** A plain dict gives the last one. *)
Theorem C90_popitem_first : exists h h' c, any_history h /\
  denotes h 0 (JObj [(lit "a", num 1); (lit "b", num 2)]) /\
  popitem h 0 = (Ok (lit "a", c), h') /\ denotes h' 0 (JObj [(lit "b", num 2)]).
Proof.
  set (h := run [] (OpNew (JObj [(lit "a", num 1); (lit "b", num 2)]))).
  assert (H : any_history h) by (apply any_step; [apply any_start|vm_compute; reflexivity]).
  assert (D : denotes h 0 (JObj [(lit "a", num 1); (lit "b", num 2)])).
  { destruct (any_new_doc [] (JObj [(lit "a", num 1); (lit "b", num 2)])) as (h' & E & _ & _ & D & _).
    - apply any_history_coherent. apply any_start.
    - vm_compute; reflexivity.
    - unfold h. cbn [run]. rewrite E. exact D. }
  assert (Hn : 0 < length h) by (apply Nat.ltb_lt; vm_compute; reflexivity).
  pose proof (C90_popitem h 0 _ H Hn D) as P. destruct P as (h' & c & E & Ch & _).
  exists h, h', c. split; auto. split; auto. split; auto. exact (proj1 Ch).
Qed.
Print Assumptions C90_popitem_first.

(** [n.setdefault(k, o)]: the node there; or else the default itself is
    returned, and its value is stored. *)
Theorem C90_setdefault : forall h n k o m w, any_history h -> n < length h -> operand_ok h o -> operand_is h o w ->
  denotes h n (JObj m) ->
  match find (fun kv => str_eqb (fst kv) k) m with
  | Some (_, x) => exists c, setdefault h n k o = (Ok (FNode c), h) /\ child_at h n k c /\ denotes h c x
  | None => exists h', setdefault h n k o = (Ok (FDefault o), h') /\ changes h h' n (Some (JObj (m ++ [(k, w)])))
  end.
Proof.
  intros h n k o m w H Hn OK W D. apply any_history_coherent in H as C. unfold setdefault.
  pose proof (any_getitem h n (IStr k) (JObj m) C D) as G. cbn [py_get] in G.
  destruct (find (fun kv => str_eqb (fst kv) k) m) as [[k' x]|] eqn:Ef.
  - cbn [option_map snd] in G. destruct G as (c & key & G & Cc & Dc). rewrite G. exists c. split; auto.
    split; auto. unfold getitem in G. inversion D as [| | | | |? ms ? Ed Ek _]; subst. rewrite Ed in G.
    destruct (dget k ms) as [c'|] eqn:Eg; [|discriminate]. eapply ca_member; eauto. apply dget_In. congruence.
  - assert (G' : getitem h n (IStr k) = Exn EKey).
    { cbn [option_map] in G. destruct G as (e & G). unfold getitem in *. inversion D as [| | | | |? ms ? Ed Ek _]; subst. rewrite Ed in *.
      destruct (dget k ms); [discriminate|reflexivity]. }
    rewrite G'. destruct (any_setitem h n (IStr k) o (JObj m) w C Hn OK D W) as (h' & r & -> & _ & _ & Ch & R).
    cbn [py_set] in *. subst r. cbn [hbind]. exists h'. split; auto. unfold dict_put in Ch.
    replace (existsb _ m) with false in Ch; [exact Ch|]. symmetry. apply not_true_is_false. intro T.
    apply existsb_exists in T as (kv & Hin & Ek). eapply find_none in Ef; eauto. simpl in Ef. congruence.
Qed.
Print Assumptions C90_setdefault.

(** [n.get(k, o)]. *)
Theorem C90_get : forall h n k o m, any_history h -> denotes h n (JObj m) ->
  match find (fun kv => str_eqb (fst kv) k) m with
  | Some (_, x) => exists c, json_get h n (IStr k) o = Ok (FNode c) /\ denotes h c x
  | None => json_get h n (IStr k) o = Ok (FDefault o)
  end.
Proof.
  intros h n k o m H D. apply any_history_coherent in H as C. unfold json_get.
  pose proof (any_getitem h n (IStr k) (JObj m) C D) as G. cbn [py_get] in G.
  destruct (find (fun kv => str_eqb (fst kv) k) m) as [[k' x]|] eqn:Ef; cbn [option_map snd] in G.
  - destruct G as (c & key & -> & _ & Dc). exists c. auto.
  - destruct G as (e & G). unfold getitem in *. inversion D as [| | | | |? ms ? Ed Ek _]; subst. rewrite Ed in *.
    destruct (dget k ms); [discriminate|reflexivity].
Qed.
Print Assumptions C90_get.

(** [o in n], [n.index(o)] and [n.count(o)] on an array look for equal values.
    The last hypothesis leaves out nodes that hold NaN, which are found by
    identity. *)
Theorem C90_search : forall h n o w l, any_history h -> n < length h -> operand_ok h o -> operand_is h o w ->
  denotes h n (JArr l) -> nan_free w = true /\ jwf w = true \/ o = OVal w ->
  json_contains h n o = Ok (existsb (fun x => json_eqb x w) l) /\
  json_count h n o = Ok (length (filter (fun x => json_eqb x w) l)) /\
  exists r, json_index h n o = match r with Some i => Ok i | None => Exn EValue end /\ first_equal l w r.
Proof.
  intros h n o w l H Hn OK W D R. apply any_history_coherent in H as C.
  assert (R' : json_eqb w w = true \/ o = OVal w) by (destruct R as [[? ?]|?]; auto using json_eqb_refl).
  inversion D as [| | | |? ids ? Ed Len F|]; subst.
  pose proof (items_bound h n ids C Ed) as B.
  assert (F2 : Forall2 (denotes h) ids l).
  { clear - Len F. revert l Len F. induction ids as [|c ids IH]; intros [|x l] Len F; try discriminate; constructor.
    - exact (F 0 c x eq_refl eq_refl).
    - apply IH; auto. intros i c' v' Hc Hv. exact (F (S i) c' v' Hc Hv). }
  destruct (find_item_spec h o w C OK W R' ids l 0 F2 B) as (r & Er & Hr).
  unfold json_contains, json_count, json_index. rewrite Ed, Er. split; [|split].
  - rewrite <- (first_equal_exists l w r Hr). destruct r; reflexivity.
  - now rewrite (count_items_spec h o w C OK W R' ids l 0 F2 B).
  - exists r. split; auto. destruct r; reflexivity.
Qed.
Print Assumptions C90_search.

(** On an object, [in] looks for member names (equal to a string, or to the
    text of a string node), whatever Mapping.__contains__ would do. *)
Theorem C90_contains_key : forall h n k m, denotes h n (JObj m) ->
  json_contains h n (OVal (JStr k)) = Ok (existsb (fun kv => str_eqb (fst kv) k) m) /\
  (forall b, denotes h b (JStr k) -> json_contains h n (ONode b) = Ok (existsb (fun kv => str_eqb (fst kv) k) m)).
Proof.
  intros h n k m D. inversion D as [| | | | |? ms ? Ed Ek _]; subst. unfold json_contains. rewrite Ed.
  assert (G : forall (ms : list (pystr * id)) (m : list (pystr * json)), map fst ms = map fst m ->
    existsb (fun kc => str_eqb (fst kc) k) ms = existsb (fun kv => str_eqb (fst kv) k) m).
  { clear. induction ms as [|a ms IH]; intros [|b m] E; try discriminate; auto. simpl in *. injection E as E1 E2. now rewrite E1, (IH m). }
  split.
  - f_equal. apply G; auto.
  - intros b Db. f_equal. rewrite <- (G ms m Ek). inversion Db as [| | |? ? Eb| |]; subst.
    clear - Eb. induction ms as [|a ms IH]; auto. cbn [existsb]. unfold key_matches at 1. now rewrite Eb, IH.
Qed.
Print Assumptions C90_contains_key.

(** ** Caches, keys and paths: documents edited with any of these methods, and
    with the operations of C15, read back the value and the paths that their
    nodes spell out. *)
Inductive method : Set :=
| MExtend (n : id) (os : list operand)
| MExtendNode (n m : id)
| MReverse (n : id)
| MClear (n : id)
| MPopItem (n : id)
| MUpdate (n : id) (kos : list (pystr * operand))
| MUpdateNode (n m : id)
| MSetDefault (n : id) (k : pystr) (o : operand).
Definition call (h : heap) (c : method) : heap :=
  match c with
  | MExtend n os => snd (extend h n os)
  | MExtendNode n m => snd (extend_node h n m)
  | MReverse n => snd (json_reverse h n)
  | MClear n => snd (json_clear h n)
  | MPopItem n => snd (popitem h n)
  | MUpdate n kos => snd (update h n kos)
  | MUpdateNode n m => snd (update_node h n m)
  | MSetDefault n k o => snd (setdefault h n k o)
  end.
Definition call_ok (h : heap) (c : method) : Prop :=
  match c with
  | MExtend n os => n < length h /\ Forall (operand_ok h) os
  | MUpdate n kos => n < length h /\ Forall (fun ko => operand_ok h (snd ko)) kos
  | MExtendNode n m | MUpdateNode n m => n < length h
  | MReverse n | MClear n | MPopItem n => n < length h
  | MSetDefault n _ o => n < length h /\ operand_ok h o
  end.
Inductive edits : heap -> Prop :=
| ed_start : edits []
| ed_op h o : edits h -> op_ok h o -> edits (run h o)
| ed_call h c : edits h -> call_ok h c -> edits (call h c).

Lemma edits_inv h : edits h -> inv h.
Proof.
  induction 1 as [|h o H IH K|h c H IH K]; [apply inv_nil|now apply run_inv|].
  destruct c; cbn [call call_ok] in *; try destruct K as [K1 K2].
  - now apply extend_keeps_inv.
  - now apply extend_node_keeps_inv.
  - now apply reverse_keeps_inv.
  - now apply clear_keeps_inv.
  - now apply popitem_keeps_inv.
  - now apply update_keeps_inv.
  - now apply update_node_keeps_inv.
  - now apply setdefault_keeps_inv.
Qed.
Theorem C90_edits : forall h n, edits h -> n < length h ->
  (exists v, fst (read_value h n) = Ok v /\ denotes h n v /\ forall w, denotes h n w -> w = v) /\
  (forall r p, is_root h r -> located h r p n -> fst (read_path h n) = Ok p).
Proof.
  intros h n H B. apply edits_inv in H as I. split.
  - destruct (read_value_spec h n I B) as (v & h' & -> & D & _). exists v. split; auto. split; auto.
    intros w W. eapply denotes_fun; eauto.
  - intros r p R L. destruct (read_path_spec h n I B) as (q & h' & -> & _ & _ & U). simpl. f_equal. eauto.
Qed.
Print Assumptions C90_edits.

(** A document [1, {"a": 2}, "x"] extended with itself, reversed; its object
    at 4 updated with a plain dict, and a default set; then another document
    cleared and refilled. *)
Definition edits90 : heap :=
  let h := run [] (OpNew (JArr [num 1; JObj [(lit "a", num 2)]; JStr (lit "x")])) in
  let h := call h (MExtendNode 0 0) in
  let h := call h (MReverse 0) in
  let h := call h (MUpdate 2 [(lit "b", OVal (num 7)); (lit "a", ONode 1)]) in
  let h := call h (MSetDefault 2 (lit "c") (OVal JNull)) in
  let h := run h (OpReadValue 0) in
  call (call h (MClear 0)) (MExtend 0 [OVal (num 5); OVal (num 6)]).
Example C90_case : edits edits90 /\ fst (read_value edits90 0) = Ok (JArr [num 5; num 6]) /\
  fst (read_value edits90 2) = Ok (JObj [(lit "a", num 1); (lit "b", num 7); (lit "c", JNull)]).
Proof.
  split; [|split; vm_compute; reflexivity]. unfold edits90. cbv zeta.
  assert (K : forall n (h : heap), Nat.ltb n (length h) = true -> n < length h) by (intros; now apply Nat.ltb_lt).
  repeat match goal with
  | |- edits (call _ _) => apply ed_call
  | |- edits (run _ _) => apply ed_op
  | |- edits [] => apply ed_start
  end; cbn [op_ok call_ok]; repeat match goal with |- _ /\ _ => split end;
    try (apply K; vm_compute; reflexivity); try (vm_compute; reflexivity);
    repeat apply Forall_cons; try apply Forall_nil; cbn [operand_ok snd];
    try (apply K; vm_compute; reflexivity); vm_compute; reflexivity.
Qed.
Example C90_case_reverse :
  let h := run [] (OpNew (JArr [num 1; JObj [(lit "a", num 2)]; JStr (lit "x")])) in
  let h' := snd (json_reverse h 0) in
  fst (read_value h' 0) = Ok (JArr [JStr (lit "x"); JObj [(lit "a", num 2)]; num 1]) /\
  json_index h 0 (OVal (JStr (lit "x"))) = Ok 2 /\ json_index h 0 (OVal JNull) = Exn EValue /\
  json_contains h 0 (ONode 2) = Ok true /\ json_count h 0 (OVal (num 1)) = Ok 1 /\
  json_contains h 2 (OVal (JStr (lit "a"))) = Ok true /\
  json_clear h 2 = (Exn EKey, h).
Proof. vm_compute. repeat split. Qed.
