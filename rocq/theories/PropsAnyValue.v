(** Property C91: what JSON(value) makes of a value in which JSON nodes occur,
    and what comparing a node with such a value gives. *)
From Verif Require Import JsonFacts JTreeFacts JTreeOps SpecTree SpecAnyValue AnyValue AnyValueFacts.
Open Scope nat_scope.

(** Either the value means something, and the new document has that value
    while every old node is untouched; or it is unusable and TypeError is
    raised.  The two exclude each other, and a value means one thing only. *)
Theorem C91_exact : forall h v, history h -> sound h v ->
  (exists j h' r, meant h v j /\ new_any v h = Ok (h', r) /\ history h' /\ is_root h' r /\
     denotes h' r j /\ fst (read_value h' r) = Ok j /\
     (forall m, m < length h -> getn h' m = getn h m)) \/
  (unusable h v /\ new_any v h = Exn EType).
Proof.
  intros h v H V. apply history_inv in H as I.
  destruct (new_any_spec h v I V) as [(j & M & W & E)|U]; [left|right; auto].
  destruct (new_doc_spec h j I W) as (h' & E' & I' & L & R & D & Old). rewrite E' in E.
  exists j, h', (length h). repeat (split; auto).
  - replace h' with (run h (OpNew j)) by (cbn [run]; now rewrite E'). apply hist_step; auto.
  - destruct (read_value_spec h' (length h) I' L) as (j' & h2 & -> & D' & _). simpl. f_equal. eapply denotes_fun; eauto.
Qed.
Print Assumptions C91_exact.

Theorem C91_definite : forall h v, 
  (forall a b, meant h v a -> meant h v b -> a = b) /\ (forall a, meant h v a -> ~ unusable h v).
Proof. intros h v. split; [apply meant_fun|apply meant_exclusive]. Qed.
Print Assumptions C91_definite.

(** Values without nodes mean themselves. *)
Theorem C91_plain : forall h v j, history h -> jwf v = true -> (meant h (plain v) j <-> j = v) /\
  new_any (plain v) h = Ok (new_doc v h).
Proof.
  intros h v j H W. apply history_inv in H as I. split.
  - split; [|intros ->; apply plain_meant]. intro M. eapply meant_fun; eauto using plain_meant.
  - destruct (new_any_spec h (plain v) I (plain_sound h v W)) as [(j' & M & _ & E)|[U _]].
    + rewrite E. f_equal. f_equal. eapply meant_fun; eauto using plain_meant.
    + destruct (meant_exclusive h _ _ (plain_meant h v) U).
Qed.
Print Assumptions C91_plain.

(** JSON(node) has the value of the node exactly when that value is made of
    arrays alone. *)
Theorem C91_copy : forall h n w, history h -> n < length h -> denotes h n w ->
  (exists h' r, new_any (VNode n) h = Ok (h', r) /\ denotes h' r w) <-> hollow w.
Proof.
  intros h n w H B D. rewrite <- respelt_same. apply history_inv in H as I.
  destruct (C91_exact h (VNode n) H (so_node h n B)) as [(j & h' & r & M & E & _ & _ & Dj & _)|[U E]].
  - inversion M as [| | | | | |? w' ? D' R]; subst. rewrite (denotes_fun _ _ _ _ D' D) in R. split.
    + intros (h2 & r2 & E2 & D2). rewrite E in E2. injection E2 as <- <-. now rewrite (denotes_fun _ _ _ _ D2 Dj) at 2.
    + intro R2. exists h', r. split; auto. now rewrite (respelt_fun _ _ _ R2 R).
  - inversion U as [| | |? w' D' S]; subst. rewrite (denotes_fun _ _ _ _ D' D) in S. split.
    + intros (h2 & r2 & E2 & _). rewrite E in E2. discriminate.
    + intro R. destruct (respelt_exclusive _ _ R S).
Qed.
Print Assumptions C91_copy.

(** So a document is not always its own copy: an object loses its values and
    becomes the list of its names; a string becomes the list of its letters;
    and JSON(JSON(5)) raises. *)
Definition three : heap :=
  run (run (run [] (OpNew (JObj [(lit "a", JNum (NInt 1))]))) (OpNew (JStr (lit "hi")))) (OpNew (JNum (NInt 5))).
Lemma three_history : history three.
Proof. unfold three. repeat (apply hist_step); [apply hist_start|reflexivity..]. Qed.
Theorem C91_refuted : exists h n w h' r j, history h /\ n < length h /\ denotes h n w /\
  new_any (VNode n) h = Ok (h', r) /\ fst (read_value h' r) = Ok j /\ ~ jeq j w.
Proof.
  exists three, 0, (JObj [(lit "a", JNum (NInt 1))]). do 3 eexists. split; [apply three_history|].
  split; [apply Nat.ltb_lt; vm_compute; reflexivity|]. split.
  - apply (den_obj _ _ [(lit "a", 1)]); [vm_compute; reflexivity|reflexivity|].
    intros [|[|i]] k c k' v Hc Hv; simpl in Hc, Hv; try discriminate.
    injection Hc as <- <-. injection Hv as <- <-. apply den_num. vm_compute. reflexivity.
  - split; [vm_compute; reflexivity|]. split; [vm_compute; reflexivity|]. intro J. inversion J.
Qed.
Print Assumptions C91_refuted.

(** ** Comparison *)
(** A node compared with a value: with a node, their values; otherwise with
    what the value means, if anything. *)
Theorem C91_eq : forall h n a v, history h -> n < length h -> denotes h n a -> sound h v ->
  match v with
  | VNode m => forall b, denotes h m b -> exists r, eq_any h n v = Ok r /\ (r = true <-> jeq a b)
  | _ => (exists j r, meant h v j /\ eq_any h n v = Ok r /\ (r = true <-> jeq a j)) \/
         (unusable h v /\ eq_any h n v = Exn EType)
  end.
Proof.
  intros h n a v H B D V. apply history_inv in H as I.
  assert (O := shape_ordered _ (inv_shape _ I)).
  assert (WF : forall h m b, history h -> m < length h -> denotes h m b -> jwf b = true) by
    (intros h0 m b H0 _ D0; apply history_inv in H0; exact (denotes_jwf _ _ _ (inv_shape _ H0) D0)).
  assert (Wa := WF h n a H B D).
  assert (G : (exists j r, meant h v j /\ 
           (let* (h', r) := new_any v h in Ok (json_eqb (value_of (S (length h')) h' n) (value_of (S (length h')) h' r))) = Ok r /\ (r = true <-> jeq a j)) \/
         (unusable h v /\ (let* (h', r) := new_any v h in Ok (json_eqb (value_of (S (length h')) h' n) (value_of (S (length h')) h' r))) = Exn EType)).
  { destruct (C91_exact h v H V) as [(j & h' & r & M & E & H' & R & Dj & _ & Old)|[U E]]; rewrite E; cbn [bind]; [left|right; auto].
    apply history_inv in H' as I'. assert (O' := shape_ordered _ (inv_shape _ I')).
    assert (LL : length h <= length h').
    { destruct (new_any_spec h v I V) as [(j2 & _ & W2 & E2)|[_ E2]]; [|congruence].
      destruct (new_doc_spec h j2 I W2) as (h2 & E3 & _ & L & _). rewrite E, E3 in E2. injection E2 as -> _. lia. }
    assert (Dn : denotes h' n a).
    { apply (denotes_region h h' (fun m => m < length h) n a); auto.
      - intros m Hm. now rewrite Old.
      - intros m k c Hm Hc. now apply O in Hc. }
    rewrite (value_of_denotes (S (length h')) h' n a) by (auto; lia).
    rewrite (value_of_denotes (S (length h')) h' r j) by (auto; destruct R; auto; lia).
    exists j. eexists. split; [exact M|]. split; [reflexivity|]. apply json_eqb_jeq; auto. eapply WF; eauto. apply R. }
  destruct v; try exact G.
  intros b Db. inversion V; subst. eexists. split; [reflexivity|].
  rewrite (value_of_denotes (S (length h)) h n a) by (auto; lia).
  rewrite (value_of_denotes (S (length h)) h n0 b) by (auto; lia).
  apply json_eqb_jeq; auto. eapply WF; eauto.
Qed.
Print Assumptions C91_eq.

(** A list of nodes is not the list of their values: JSON(["hi"]) differs from
    [JSON("hi")], which means [["h", "i"]], and comparing JSON([5]) with
    [JSON(5)] raises. *)
Definition five : heap := run (run three (OpNew (JArr [JStr (lit "hi")]))) (OpNew (JArr [JNum (NInt 5)])).
Lemma five_history : history five.
Proof. unfold five. do 2 (apply hist_step; [|reflexivity]). apply three_history. Qed.
Theorem C91_eq_refuted : exists h n m a, history h /\ n < length h /\ m < length h /\
  denotes h n (JArr [a]) /\ denotes h m a /\
  eq_any h n (VSeq [plain a]) = Ok true /\ eq_any h n (VSeq [VNode m]) = Ok false.
Proof.
  exists five, 4, 2, (JStr (lit "hi")). split; [apply five_history|].
  split; [apply Nat.ltb_lt; vm_compute; reflexivity|]. split; [apply Nat.ltb_lt; vm_compute; reflexivity|].
  split.
  - apply (den_arr _ _ [5]); [vm_compute; reflexivity|reflexivity|].
    intros [|[|i]] c v Hc Hv; simpl in Hc, Hv; try discriminate.
    injection Hc as <-. injection Hv as <-. apply den_str. vm_compute. reflexivity.
  - split; [apply den_str; vm_compute; reflexivity|]. split; vm_compute; reflexivity.
Qed.
Print Assumptions C91_eq_refuted.

Example C91_case : history five /\
  (* JSON([JSON({"a": 1}), {"k": JSON("hi")}, "hi"]) *)
  sound five (VSeq [VNode 0; VMap [(lit "k", VNode 2)]; VStr (lit "hi")]) /\
  (exists h', new_any (VSeq [VNode 0; VMap [(lit "k", VNode 2)]; VStr (lit "hi")]) five = Ok (h', length five) /\
   fst (read_value h' (length five)) =
     Ok (JArr [JArr [JStr (lit "a")]; JObj [(lit "k", JArr [JStr (lit "h"); JStr (lit "i")])]; JStr (lit "hi")])) /\
  new_any (VNode 3) five = Exn EType /\ new_any (VMap [(lit "k", VSeq [VOther])]) five = Exn EType /\
  eq_any five 6 (VSeq [VNode 3]) = Exn EType /\ eq_any five 4 (VNode 4) = Ok true /\
  hollow (JArr [JArr []; JArr [JArr []]]).
Proof.
  split; [apply five_history|]. split; [|split; [|split; [|split; [|split; [|split]]]]]; try (vm_compute; reflexivity).
  - apply so_seq. intros x [<-|[<-|[<-|[]]]].
    + apply so_node, Nat.ltb_lt. vm_compute. reflexivity.
    + apply so_map; [repeat constructor; intros []|]. intros k y [E|[]]. injection E as <- <-.
      apply so_node, Nat.ltb_lt. vm_compute. reflexivity.
    + apply so_str.
  - eexists. split; vm_compute; reflexivity.
  - assert (hollow (JArr [])) by (constructor; intros x []).
    constructor. intros x [<-|[<-|[]]]; auto. constructor. intros x [<-|[]]. auto.
Qed.
