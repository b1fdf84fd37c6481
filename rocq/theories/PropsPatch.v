(** Properties C18-C21, C24, C25: JSON Patch on values. *)
From Verif Require Import PatchFacts.
From Coq Require Import Permutation.
Open Scope nat_scope.

(** A document and some values for the concrete cases. *)
Definition num (z : Z) : json := JNum (NInt z).
Definition doc : json := JObj [(lit "a", JArr [num 10; num 20; JObj [(lit "x", num 1)]]); (lit "b", JStr (lit "hey")); (lit "c", num 5)].

(** ** C18.  add. *)
(** Whatever RFC 6902 allows is done, exactly as it says. *)
Theorem C18_add_as_rfc : forall d p v d', jwf d = true -> rfc_add p v d d' -> p_add d p v = Ok d'.
Proof. intros d p v d' W H. apply p_add_exact; auto. now apply rfc_add_int. Qed.
Print Assumptions C18_add_as_rfc.

(** And nothing else, as long as an array index is in RFC 6901 syntax... *)
Theorem C18_add_only_rfc : forall d p v d', jwf d = true -> token_ok d p -> p_add d p v = Ok d' -> rfc_add p v d d'.
Proof. intros d p v d' W T H. apply p_add_exact in H; auto. now apply int_add_rfc. Qed.
Print Assumptions C18_add_only_rfc.

(** ... and in general with the final array index read by [int()]. *)
Theorem C18_add_exact : forall d p v d', jwf d = true -> (p_add d p v = Ok d' <-> spec_add int_reading p v d d').
Proof. exact p_add_exact. Qed.
Print Assumptions C18_add_exact.

(** Afterwards the value is at the path. *)
Theorem C18_value_at_path : forall d p v d', jwf d = true -> jwf v = true -> rfc_add p v d d' ->
  refers d' p v \/
  exists q l, p = q ++ [lit "-"] /\ refers d q (JArr l) /\ refers d' (q ++ [str_of_nat (length l)]) v.
Proof.
  intros d p v d' W Wv [[-> ->] | (q & k & -> & H)]; [left; constructor|].
  apply edited_inside in H as (P & P' & F & F' & A). destruct A as [l1 l2 [T L]|l Ek|m N|m1 x m2].
  - left. eapply refers_app; eauto. econstructor; [|constructor]. constructor; auto. rewrite <- L. apply nth_error_at.
  - right. exists q, l. rewrite Ek. split; auto. split; auto. eapply refers_app; eauto. apply refers_nat. exists v. split; [apply nth_error_at|constructor].
  - left. eapply refers_app; eauto. econstructor; [|constructor]. constructor. apply in_elt.
  - left. eapply refers_app; eauto. econstructor; [|constructor]. constructor. apply in_elt.
Qed.
Print Assumptions C18_value_at_path.

(** Locations that neither contain nor lie inside the parent keep their value. *)
Theorem C18_frame_outside : forall d q k v d', jwf d = true -> jwf v = true -> p_add d (q ++ [k]) v = Ok d' ->
  forall loc y, ~ is_prefix q loc -> ~ is_prefix loc q -> (refers d loc y <-> refers d' loc y).
Proof. intros d q k v d' W Wv H. apply add_inside in H; auto. apply H. Qed.
Print Assumptions C18_frame_outside.

(** Other members of an object parent keep theirs. *)
Theorem C18_frame_object : forall d q k v d' m, jwf d = true -> jwf v = true -> p_add d (q ++ [k]) v = Ok d' ->
  refers d q (JObj m) -> forall k' r y, k' <> k -> (refers d (q ++ k' :: r) y <-> refers d' (q ++ k' :: r) y).
Proof.
  intros d q k v d' m W Wv H F k' r y N. apply add_inside in H as (W' & _ & P & P' & F1 & F2 & A); auto.
  rewrite (refers_at d q P), (refers_at d' q P') by auto. rewrite (refers_fun _ _ _ _ W F1 F) in A.
  rewrite (refers_fun _ _ _ _ W F1 F). inversion A as [| |m' NI|m1 x m2]; subst; rewrite !refers_member;
    split; intros (c & I & R); exists c; split; auto.
  - apply in_app_iff. auto.
  - apply in_app_iff in I as [I|[I|[]]]; auto. congruence.
  - apply In_mid in I as [I|I]; [congruence|]. apply In_mid. auto.
  - apply In_mid in I as [I|I]; [congruence|]. apply In_mid. auto.
Qed.
Print Assumptions C18_frame_object.

(** Items of an array parent before the position stay, the others shift by
    one. *)
Theorem C18_frame_array : forall d q k v d' l, jwf d = true -> jwf v = true -> p_add d (q ++ [k]) v = Ok d' ->
  refers d q (JArr l) -> exists i, i <= length l /\ (k = lit "-" /\ i = length l \/ int_reading k i) /\
  forall j r y,
    (j < i -> (refers d' (q ++ str_of_nat j :: r) y <-> refers d (q ++ str_of_nat j :: r) y)) /\
    (j = i -> (refers d' (q ++ str_of_nat j :: r) y <-> refers v r y)) /\
    (i <= j -> (refers d' (q ++ str_of_nat (S j) :: r) y <-> refers d (q ++ str_of_nat j :: r) y)).
Proof.
  intros d q k v d' l W Wv H F. apply add_inside in H as (W' & _ & P & P' & F1 & F2 & A); auto.
  rewrite (refers_fun _ _ _ _ W F1 F) in A. clear F1.
  assert (exists l1 l2, l = l1 ++ l2 /\ P' = JArr (l1 ++ v :: l2) /\
    (k = lit "-" /\ length l1 = length l \/ int_reading k (length l1))) as (l1 & l2 & -> & -> & K).
  { inversion A as [l1 l2 R|l' E| |]; subst.
    - exists l1, l2. auto.
    - exists l, []. rewrite app_nil_r. auto. }
  exists (length l1). split; [rewrite app_length; lia|]. split; auto. intros j r y.
  rewrite !(fun r => refers_at d' q _ r y W' F2).
  rewrite !(fun r => refers_at d q _ r y W F).
  rewrite !refers_nat. split; [|split].
  - intro L. now rewrite nth_ins_lt.
  - intros ->. rewrite nth_error_at. split; [intros (c & [= <-] & R); auto|eauto].
  - intro L. now rewrite nth_ins_ge.
Qed.
Print Assumptions C18_frame_array.

Example C18_case : jwf doc = true /\
  rfc_add [lit "a"; lit "1"] (num 15) doc
    (JObj [(lit "a", JArr [num 10; num 15; num 20; JObj [(lit "x", num 1)]]); (lit "b", JStr (lit "hey")); (lit "c", num 5)]) /\
  p_add doc [lit "a"; lit "-"] (num 15) =
    Ok (JObj [(lit "a", JArr [num 10; num 20; JObj [(lit "x", num 1)]; num 15]); (lit "b", JStr (lit "hey")); (lit "c", num 5)]) /\
  p_add doc [lit "a"; lit "3"] (num 15) = p_add doc [lit "a"; lit "-"] (num 15) /\
  p_add doc [lit "a"; lit "2"; lit "y"] (num 2) =
    Ok (JObj [(lit "a", JArr [num 10; num 20; JObj [(lit "x", num 1); (lit "y", num 2)]]); (lit "b", JStr (lit "hey")); (lit "c", num 5)]) /\
  p_add doc [] (num 2) = Ok (num 2) /\ p_add doc [lit "a"; lit "4"] (num 15) = Exn EPatch.
Proof.
  split; [reflexivity|]. split; [|repeat split; vm_compute; reflexivity].
  right. exists [lit "a"], (lit "1"). split; [reflexivity|]. apply (ed_member _ _ _ []). constructor.
  apply (adds_item _ _ _ [num 10]). split; [|reflexivity]. right. exists 49%N, []. repeat split; try constructor; vm_compute; congruence.
Qed.

(** ** C19.  remove and replace. *)
Theorem C19_remove_as_rfc : forall d p d', jwf d = true -> rfc_remove p d d' -> p_remove d p = Ok d'.
Proof. intros d p d' W H. apply p_remove_exact; auto. now apply rfc_remove_int. Qed.
Print Assumptions C19_remove_as_rfc.
Theorem C19_remove_only_rfc : forall d p d', jwf d = true -> token_ok d p -> p_remove d p = Ok d' -> rfc_remove p d d'.
Proof. intros d p d' W T H. apply p_remove_exact in H; auto. now apply int_remove_rfc. Qed.
Print Assumptions C19_remove_only_rfc.
Theorem C19_remove_exact : forall d p d', jwf d = true -> (p_remove d p = Ok d' <-> spec_remove int_reading p d d').
Proof. exact p_remove_exact. Qed.
Print Assumptions C19_remove_exact.
Theorem C19_replace_as_rfc : forall d p v d', jwf d = true -> rfc_replace p v d d' -> p_replace d p v = Ok d'.
Proof. intros d p v d' W H. apply p_replace_exact; auto. now apply rfc_replace_int. Qed.
Print Assumptions C19_replace_as_rfc.
Theorem C19_replace_only_rfc : forall d p v d', jwf d = true -> token_ok d p -> p_replace d p v = Ok d' -> rfc_replace p v d d'.
Proof. intros d p v d' W T H. apply p_replace_exact in H; auto. now apply int_replace_rfc. Qed.
Print Assumptions C19_replace_only_rfc.
Theorem C19_replace_exact : forall d p v d', jwf d = true -> (p_replace d p v = Ok d' <-> spec_replace int_reading p v d d').
Proof. exact p_replace_exact. Qed.
Print Assumptions C19_replace_exact.

(** They succeed on existing locations, and (for RFC paths) only there. *)
Theorem C19_target_must_exist : forall d p v, jwf d = true -> jwf v = true ->
  ((exists x, refers d p x) -> (exists d', p_remove d p = Ok d') /\ exists d', p_replace d p v = Ok d' /\ refers d' p v) /\
  (token_ok d p -> (exists d', p_remove d p = Ok d') \/ (exists d', p_replace d p v = Ok d') -> exists x, refers d p x).
Proof.
  intros d p v W Wv. split.
  - intros (x & F). destruct (path_cases p) as [-> | (q & k & ->)].
    { split; [eexists; reflexivity|]. exists v. split; [reflexivity|constructor]. }
    apply refers_split in F as (P & F & G). apply refers_cons_child in G as (c & C & _).
    rewrite p_remove_snoc, p_replace_snoc. unfold at_parent. apply (eval_plain_refers _ _ _ W) in F as E. rewrite E. cbn [as_patch_error bind].
    assert (WP : jwf P = true) by exact (refers_jwf _ _ _ W F).
    destruct C as [m k c I|l k c T I].
    + apply in_split in I as (m1 & m2 & ->).
      rewrite (proj2 (local_remove_spec _ k _ WP) (removes_member _ _ _ _ _)).
      rewrite (proj2 (local_replace_spec _ k v _ WP) (replaces_member _ _ _ _ _ _)). cbn [bind].
      split; [eexists; reflexivity|]. eexists. split; [reflexivity|].
      eapply refers_app; [|econstructor; [|constructor]; constructor; apply in_elt].
      eapply edited_inside_of; eauto. apply replaces_member with (reads := rfc_reading).
    + destruct (cut_nth l (N.to_nat (digits_value k))) as (l1 & x1 & l2 & -> & L); [apply nth_error_Some; congruence|].
      assert (R : int_reading k (length l1)) by (rewrite L; unfold int_reading; now apply index_digits_val).
      rewrite (proj2 (local_remove_spec _ k _ WP) (removes_item _ _ _ _ _ R)).
      rewrite (proj2 (local_replace_spec _ k v _ WP) (replaces_item _ _ _ _ _ _ R)). cbn [bind].
      split; [eexists; reflexivity|]. eexists. split; [reflexivity|].
      eapply refers_app; [|econstructor; [|constructor]; constructor; auto; rewrite <- L; apply nth_error_at].
      eapply edited_inside_of; eauto. apply replaces_item with (reads := int_reading). exact R.
  - intros T [(d' & H) | (d' & H)].
    + apply p_remove_exact in H; auto. apply int_remove_rfc in H; auto.
      destruct H as [[-> _] | (q & k & -> & H)]; [exists d; constructor|].
      apply edited_inside in H as (P & P' & F & _ & A). inversion A as [l1 x l2 [Tk L]|m1 x m2]; subst; exists x;
        (eapply refers_app; [eauto|]); (econstructor; [|constructor]); [constructor; auto; rewrite <- L; apply nth_error_at|constructor; apply in_elt].
    + apply p_replace_exact in H; auto. apply int_replace_rfc in H; auto.
      destruct H as [[-> _] | (q & k & -> & H)]; [exists d; constructor|].
      apply edited_inside in H as (P & P' & F & _ & A). inversion A as [l1 x l2 [Tk L]|m1 x m2]; subst; exists x;
        (eapply refers_app; [eauto|]); (econstructor; [|constructor]); [constructor; auto; rewrite <- L; apply nth_error_at|constructor; apply in_elt].
Qed.
Print Assumptions C19_target_must_exist.

(** Nothing else changes. *)
Theorem C19_remove_frame : forall d q k d', jwf d = true -> p_remove d (q ++ [k]) = Ok d' ->
  (forall loc y, ~ is_prefix q loc -> ~ is_prefix loc q -> (refers d loc y <-> refers d' loc y)) /\
  (forall m, refers d q (JObj m) -> forall k' r y,
     refers d' (q ++ k' :: r) y <-> k' <> k /\ refers d (q ++ k' :: r) y) /\
  (forall l, refers d q (JArr l) -> exists i, i < length l /\ int_reading k i /\ forall j r y,
     (j < i -> (refers d' (q ++ str_of_nat j :: r) y <-> refers d (q ++ str_of_nat j :: r) y)) /\
     (i <= j -> (refers d' (q ++ str_of_nat j :: r) y <-> refers d (q ++ str_of_nat (S j) :: r) y))).
Proof.
  intros d q k d' W H. apply remove_inside in H as (W' & Off & P & P' & F1 & F2 & A); auto.
  split; [exact Off|]. split.
  - intros m F k' r y. rewrite (refers_fun _ _ _ _ W F1 F) in *.
    rewrite (refers_at d' q P'), (refers_at d q (JObj m)) by auto. inversion A as [|m1 x m2]; subst.
    assert (ND : NoDup (keys (m1 ++ (k, x) :: m2))) by (apply jwf_NoDup; first [exact (refers_jwf _ _ _ W F)|exact (refers_jwf _ _ _ W Fg)]).
    apply NoDup_split in ND as [N1 N2]. rewrite !refers_member. split.
    + intros (c & I & R). split; [|exists c; split; auto; apply In_mid; auto].
      intros ->. apply in_app_iff in I as [I|I]; apply (in_map fst) in I; auto.
    + intros (NK & c & I & R). exists c. split; auto. apply In_mid in I as [I|I]; auto. congruence.
  - intros l F. rewrite (refers_fun _ _ _ _ W F1 F) in *. inversion A as [l1 x l2 R|]; subst.
    exists (length l1). split; [rewrite app_length; simpl; lia|]. split; auto. intros j r y.
    rewrite !(fun r => refers_at d' q _ r y W' F2).
    rewrite !(fun r => refers_at d q _ r y W F). rewrite !refers_nat.
    split; intro L; [now rewrite nth_ins_lt|now rewrite nth_ins_ge].
Qed.
Print Assumptions C19_remove_frame.

Theorem C19_replace_frame : forall d p v d', jwf d = true -> jwf v = true -> token_ok d p -> p_replace d p v = Ok d' ->
  refers d' p v /\ forall loc y, ~ is_prefix p loc -> ~ is_prefix loc p -> (refers d loc y <-> refers d' loc y).
Proof.
  intros d p v d' W Wv T H. apply p_replace_exact in H; auto. assert (W' : jwf d' = true) by (eapply spec_replace_jwf; eauto).
  apply int_replace_rfc in H; auto.
  assert (E : edited (fun _ y => y = v) p d d').
  { destruct H as [[-> ->] | (q & k & -> & H)]; [now constructor|]. clear -H.
    induction H as [d d' H|k' p m1 x x' m2 H IH|k' p l1 x x' l2 T L H IH]; simpl; try (constructor; auto; fail).
    destruct H as [l1 x l2 [T L]|m1 x m2]; simpl; constructor; auto; now constructor. }
  split; [|intros loc y; eapply edited_frame; eauto].
  apply edited_inside in E as (P & P' & _ & F & ->). exact F.
Qed.
Print Assumptions C19_replace_frame.

(** replace is remove followed by add, up to the order of object members. *)
Theorem C19_replace_is_remove_add : forall d p v d1, jwf d = true -> jwf v = true -> p_replace d p v = Ok d1 ->
  exists d2 d3, p_remove d p = Ok d2 /\ p_add d2 p v = Ok d3 /\ reordered d1 d3.
Proof.
  intros d p v d1 W Wv H. apply p_replace_exact in H; auto. destruct H as [[-> ->] | (q & k & -> & H)].
  { exists JNull, v. repeat split; try reflexivity. constructor. }
  destruct (edited_two_steps _ (removes int_reading k) (adds int_reading k v) _ _ _ H W) as (d2 & d3 & A & B & C).
  { intros P P1 WP. now apply replace_two_steps. }
  assert (W2 : jwf d2 = true) by (eapply edited_jwf; eauto; intros; eapply removes_jwf; eauto).
  exists d2, d3. split; [apply p_remove_exact; auto; right; eauto|]. split; auto.
  apply p_add_exact; auto. right. eauto.
Qed.
Print Assumptions C19_replace_is_remove_add.

Example C19_case :
  p_remove doc [lit "a"; lit "0"] = Ok (JObj [(lit "a", JArr [num 20; JObj [(lit "x", num 1)]]); (lit "b", JStr (lit "hey")); (lit "c", num 5)]) /\
  p_replace doc [lit "b"] JNull = Ok (JObj [(lit "a", JArr [num 10; num 20; JObj [(lit "x", num 1)]]); (lit "b", JNull); (lit "c", num 5)]) /\
  p_remove doc [lit "a"; lit "3"] = Exn EPatch /\ p_replace doc [lit "d"] JNull = Exn EPatch /\
  refers doc [lit "a"; lit "0"] (num 10).
Proof.
  repeat split; try (vm_compute; reflexivity). econstructor; [constructor; left; reflexivity|].
  change (lit "0") with (str_of_nat 0). apply refers_nat. exists (num 10). split; [reflexivity|constructor].
Qed.

(** ** C20.  move and copy. *)
Theorem C20_copy_is_add : forall d p f d', jwf d = true ->
  (p_copy d p (Some f) = Ok d' <-> exists v, refers d f v /\ p_add d p v = Ok d').
Proof.
  intros d p f d' W. rewrite p_copy_exact by auto. split.
  - intros (g & v & [= <-] & F & A). exists v. split; auto. now apply p_add_exact.
  - intros (v & F & A). exists f, v. repeat split; auto. now apply p_add_exact in A.
Qed.
Print Assumptions C20_copy_is_add.
Theorem C20_copy_as_rfc : forall d p f d', jwf d = true ->
  (rfc_copy p f d d' -> p_copy d p (Some f) = Ok d') /\
  (token_ok d p -> p_copy d p (Some f) = Ok d' -> rfc_copy p f d d').
Proof.
  intros d p f d' W. split.
  - intros (v & F & A). apply C20_copy_is_add; auto. exists v. split; auto. now apply C18_add_as_rfc.
  - intros T H. apply C20_copy_is_add in H as (v & F & A); auto. exists v. split; auto. now apply C18_add_only_rfc.
Qed.
Print Assumptions C20_copy_as_rfc.

Theorem C20_move_is_remove_add : forall d p f d', jwf d = true ->
  (p_move d p (Some f) = Ok d' <-> exists v d1, refers d f v /\ p_remove d f = Ok d1 /\ p_add d1 p v = Ok d').
Proof.
  intros d p f d' W. rewrite p_move_exact by auto. split.
  - intros (g & v & d1 & [= <-] & F & R & A). exists v, d1. split; auto.
    apply rfc_remove_int in R. assert (W1 : jwf d1 = true) by (eapply spec_remove_jwf; eauto).
    split; [now apply p_remove_exact|now apply p_add_exact].
  - intros (v & d1 & F & R & A). exists f, v, d1. split; auto. split; auto. apply p_remove_exact in R; auto.
    assert (W1 : jwf d1 = true) by (eapply spec_remove_jwf; eauto). apply p_add_exact in A; auto. split; auto.
    apply int_remove_rfc; auto. eapply refers_token_ok; eauto.
Qed.
Print Assumptions C20_move_is_remove_add.
Theorem C20_move_as_rfc : forall d p f d', jwf d = true ->
  rfc_move p f d d' -> p_move d p (Some f) = Ok d'.
Proof.
  intros d p f d' W (_ & v & d1 & F & R & A). apply p_move_exact; auto.
  exists f, v, d1. repeat split; auto. now apply rfc_add_int.
Qed.
Print Assumptions C20_move_as_rfc.

(** Moving a location into itself: rejected when it is the whole document or
    an object member.  Missing from the full claim: array items, for which it
    is false (next theorem). *)
Theorem C20_move_into_child_rejected_partial : forall d (f : pointer) k r, jwf d = true ->
  (f = [] \/ exists g j m, f = g ++ [j] /\ refers d g (JObj m)) ->
  exists e, p_move d (f ++ k :: r) (Some f) = Exn e.
Proof.
  intros d f k r W K. destruct (p_move d (f ++ k :: r) (Some f)) as [d'|e|] eqn:E; [|eauto|].
  - exfalso. apply C20_move_is_remove_add in E as (v & d1 & F & R & A); auto.
    apply p_remove_exact in R; auto. assert (W1 : jwf d1 = true) by (eapply spec_remove_jwf; eauto).
    apply p_add_exact in A; auto. destruct A as [[A _] | (q & j & A & Ed)]; [destruct f; discriminate|].
    apply edited_inside in Ed as (P & P9 & G & _ & AP).
    assert (exists s, q = f ++ s) as (s & ->).
    { destruct (path_cases (k :: r)) as [|(s & j' & Es)]; [discriminate|]. rewrite Es, app_assoc in A.
      apply snoc_inj in A as [E _]. exists s. congruence. }
    destruct K as [-> | (g & j' & m & -> & Fg)].
    + destruct R as [[_ ->] | (q0 & k0 & R & _)]; [|destruct q0; discriminate]. simpl in G.
      inversion G as [|? ? ? ? ? C]; subst; [inversion AP|inversion C].
    + destruct R as [[R _] | (g2 & j2 & R & Ed)]; [destruct g; discriminate|]. apply snoc_inj in R as [<- <-].
      apply edited_inside in Ed as (P1 & P2 & F1 & F2 & RP). rewrite (refers_fun _ _ _ _ W F1 Fg) in RP.
      inversion RP as [|m1 x m2]; subst. rewrite <- app_assoc in G.
      apply (refers_at _ _ _ _ _ W1 F2) in G. apply refers_member in G as (c & I & _).
      assert (ND : NoDup (keys (m1 ++ (j', x) :: m2))) by (apply jwf_NoDup; first [exact (refers_jwf _ _ _ W F)|exact (refers_jwf _ _ _ W Fg)]).
      apply NoDup_split in ND as [N1 N2]. apply in_app_iff in I as [I|I]; apply (in_map fst) in I; auto.
  - exfalso. unfold p_move in E. destruct (eval_from_result d f W) as [(v & Ev & F) | Ev]; rewrite Ev in E; cbn [bind] in E; [|discriminate].
    destruct (proj1 (p_remove_error d f W)) as [(d1 & R) | (e & R & _)]; rewrite R in E; cbn [bind] in E; [|discriminate].
    apply p_remove_exact in R; auto. assert (W1 : jwf d1 = true) by (eapply spec_remove_jwf; eauto).
    destruct (proj1 (p_add_error d1 (f ++ k :: r) v W1)) as [(x & A) | (e & A & _)]; rewrite A in E; discriminate.
Qed.
Print Assumptions C20_move_into_child_rejected_partial.

Theorem C20_move_into_child_refuted : exists d f k d', jwf d = true /\
  p_move d (f ++ [k]) (Some f) = Ok d' /\ ~ rfc_move (f ++ [k]) f d d'.
Proof.
  exists (JArr [num 1; JObj []]), [lit "0"], (lit "x"), (JArr [JObj [(lit "x", num 1)]]).
  split; [reflexivity|]. split; [vm_compute; reflexivity|]. intros [N _]. apply N. exists (lit "x"), []. reflexivity.
Qed.
Print Assumptions C20_move_into_child_refuted.

(** add, then remove of the same array position or new member, restores. *)
Theorem C20_add_remove_restores : forall d q k v d', jwf d = true -> jwf v = true -> p_add d (q ++ [k]) v = Ok d' ->
  (forall l, refers d q (JArr l) -> k <> lit "-") -> (forall m, refers d q (JObj m) -> ~ In k (map fst m)) ->
  p_remove d' (q ++ [k]) = Ok d.
Proof.
  intros d q k v d' W Wv H NA NO. apply p_add_exact in H; auto. assert (W' : jwf d' = true) by (eapply spec_add_jwf; eauto).
  apply p_remove_exact; auto. destruct H as [[E _] | (q2 & k2 & E & H)]; [destruct q; discriminate|].
  apply snoc_inj in E as [<- <-]. right. exists q, k. split; auto.
  refine (edited_flip _ _ _ _ _ W _ H). intros P P' WP F A. destruct A as [l1 l2 R|l E|m N|m1 x m2].
  - now constructor.
  - destruct (NA _ F E).
  - rewrite <- (app_nil_r m) at 2. constructor.
  - destruct (NO _ F). rewrite map_app. apply in_elt.
Qed.
Print Assumptions C20_add_remove_restores.

Example C20_case :
  p_move doc [lit "d"] (Some [lit "a"; lit "0"]) =
    Ok (JObj [(lit "a", JArr [num 20; JObj [(lit "x", num 1)]]); (lit "b", JStr (lit "hey")); (lit "c", num 5); (lit "d", num 10)]) /\
  p_copy doc [lit "a"; lit "0"] (Some [lit "c"]) =
    Ok (JObj [(lit "a", JArr [num 5; num 10; num 20; JObj [(lit "x", num 1)]]); (lit "b", JStr (lit "hey")); (lit "c", num 5)]) /\
  p_move doc [lit "a"; lit "2"; lit "x"; lit "y"] (Some [lit "a"; lit "2"; lit "x"]) = Exn EPatch.
Proof. repeat split; vm_compute; reflexivity. Qed.

(** ** C21.  test. *)
Theorem C21_test_exact : forall d p v d', jwf d = true -> jwf v = true ->
  (p_test d p v = Ok d' <-> d' = d /\ exists x, refers d p x /\ jeq x v).
Proof. exact p_test_exact. Qed.
Print Assumptions C21_test_exact.
Theorem C21_otherwise_raises : forall d p v, jwf d = true -> jwf v = true ->
  ~ (exists x, refers d p x /\ jeq x v) -> exists e, p_test d p v = Exn e.
Proof.
  intros d p v W Wv N. destruct (proj1 (p_test_error d p v W)) as [(x & H) | (e & H & _)]; [|eauto].
  apply p_test_exact in H as [_ H]; auto. contradiction.
Qed.
Print Assumptions C21_otherwise_raises.
Example C21_case : p_test doc [lit "a"; lit "0"] (JNum (NDyad 5 1)) = Ok doc /\
  p_test doc [lit "c"] (JBool true) = Exn EPatch /\ p_test doc [lit "a"; lit "7"] JNull = Exn EPatch.
Proof. repeat split; vm_compute; reflexivity. Qed.

(** ** C24.  Exceptions.
    Under the two hypotheses that no scalar stands where an array or object is
    needed and that final array indices are in RFC syntax, each operation does
    what RFC 6902 says or raises JSONPatchError.  Missing from the full claim:
    the cases excluded by the hypotheses, where it is false (below). *)
Theorem C24_add_partial : forall d p v, jwf d = true -> parent_ok d p -> token_ok d p ->
  (exists d', p_add d p v = Ok d' /\ rfc_add p v d d') \/ (p_add d p v = Exn EPatch /\ forall d', ~ rfc_add p v d d').
Proof.
  intros d p v W Pk Tk. destruct (proj2 (p_add_error d p v W) Pk) as [(d' & H) | (e & H & [<- |[]])].
  - left. exists d'. split; auto. now apply C18_add_only_rfc.
  - right. split; auto. intros d' R. apply C18_add_as_rfc in R; auto. congruence.
Qed.
Print Assumptions C24_add_partial.
Theorem C24_remove_partial : forall d p, jwf d = true -> parent_ok d p -> token_ok d p ->
  (exists d', p_remove d p = Ok d' /\ rfc_remove p d d') \/ (p_remove d p = Exn EPatch /\ forall d', ~ rfc_remove p d d').
Proof.
  intros d p W Pk Tk. destruct (proj2 (p_remove_error d p W) Pk) as [(d' & H) | (e & H & [<- |[]])].
  - left. exists d'. split; auto. now apply C19_remove_only_rfc.
  - right. split; auto. intros d' R. apply C19_remove_as_rfc in R; auto. congruence.
Qed.
Print Assumptions C24_remove_partial.
Theorem C24_replace_partial : forall d p v, jwf d = true -> parent_ok d p -> token_ok d p ->
  (exists d', p_replace d p v = Ok d' /\ rfc_replace p v d d') \/ (p_replace d p v = Exn EPatch /\ forall d', ~ rfc_replace p v d d').
Proof.
  intros d p v W Pk Tk. destruct (proj2 (p_replace_error d p v W) Pk) as [(d' & H) | (e & H & [<- |[]])].
  - left. exists d'. split; auto. now apply C19_replace_only_rfc.
  - right. split; auto. intros d' R. apply C19_replace_as_rfc in R; auto. congruence.
Qed.
Print Assumptions C24_replace_partial.
Theorem C24_test_partial : forall d p v, jwf d = true -> jwf v = true -> parent_ok d p -> token_ok d p ->
  (p_test d p v = Ok d /\ rfc_test p v d d) \/ (p_test d p v = Exn EPatch /\ forall d', ~ rfc_test p v d d').
Proof.
  intros d p v W Wv Pk Tk. destruct (proj2 (p_test_error d p v W) Pk Tk) as [(d' & H) | (e & H & [<- |[]])].
  - left. apply p_test_exact in H as H'; auto. destruct H' as (-> & R). split; auto. split; auto.
  - right. split; auto. intros d' R. apply p_test_exact in R; auto. congruence.
Qed.
Print Assumptions C24_test_partial.
Theorem C24_copy_partial : forall d p (f : pointer), jwf d = true -> parent_ok d p -> token_ok d p ->
  (exists d', p_copy d p (Some f) = Ok d' /\ rfc_copy p f d d') \/ (p_copy d p (Some f) = Exn EPatch /\ forall d', ~ rfc_copy p f d d').
Proof.
  intros d p f W Pk Tk. unfold p_copy. destruct (eval_from_result d f W) as [(v & -> & F) | E]; cbn [bind].
  - destruct (C24_add_partial d p v W Pk Tk) as [(d' & H & R) | [H R]].
    + left. exists d'. split; auto. exists v. auto.
    + right. split; auto. intros d' (v' & F' & R'). rewrite (refers_fun _ _ _ _ W F' F) in R'. eapply R; eauto.
  - rewrite E. right. split; auto. intros d' (v & F & _).
    rewrite (proj2 (eval_from_ok d (Some f) v W)) in E by eauto. discriminate.
Qed.
Print Assumptions C24_copy_partial.
(** For move the hypotheses are also needed of the document without [f]. *)
Theorem C24_move_partial : forall d p (f : pointer), jwf d = true -> ~ is_proper_prefix f p ->
  (forall d1, rfc_remove f d d1 -> parent_ok d1 p /\ token_ok d1 p) ->
  (exists d', p_move d p (Some f) = Ok d' /\ rfc_move p f d d') \/ (p_move d p (Some f) = Exn EPatch /\ forall d', ~ rfc_move p f d d').
Proof.
  intros d p f W NP K. unfold p_move. destruct (eval_from_result d f W) as [(v & -> & F) | E]; cbn [bind].
  - destruct (C24_remove_partial d f W) as [(d1 & -> & R) | [E N]]; [eapply refers_parent_ok; eauto|eapply refers_token_ok; eauto| |].
    + cbn [bind]. destruct (K d1 R) as [Pk Tk]. assert (W1 : jwf d1 = true) by (eapply spec_remove_jwf; eauto).
      destruct (C24_add_partial d1 p v W1 Pk Tk) as [(d' & H & A) | [H A]].
      * left. exists d'. split; auto. split; auto. exists v, d1. auto.
      * right. split; auto. intros d' (_ & v' & d1' & F' & R' & A'). rewrite (refers_fun _ _ _ _ W F' F) in A'.
        apply C19_remove_as_rfc in R'; auto. apply C19_remove_as_rfc in R; auto. replace d1' with d1 in A' by congruence. eapply A; eauto.
    + rewrite E. cbn [bind]. right. split; auto. intros d' (_ & v' & d1 & _ & R & _). eapply N; eauto.
  - rewrite E. right. split; auto. intros d' (_ & v & d1 & F & _).
    rewrite (proj2 (eval_from_ok d (Some f) v W)) in E by eauto. discriminate.
Qed.
Print Assumptions C24_move_partial.

(** In general these are the only exceptions. *)
Theorem C24_exceptions : forall d p v e, jwf d = true ->
  (p_add d p v = Exn e -> e = EPatch \/ e = EAssertion \/ e = EAttribute) /\
  (p_remove d p = Exn e -> e = EPatch \/ e = EAssertion \/ e = EType) /\
  (p_replace d p v = Exn e -> e = EPatch \/ e = EAssertion \/ e = EType) /\
  (p_test d p v = Exn e -> e = EPatch \/ e = EAssertion \/ e = EPointerReference).
Proof.
  intros d p v e W. repeat split; intro H.
  - destruct (proj1 (p_add_error d p v W)) as [(x & E) | (x & E & I)]; rewrite E in H; [discriminate|]. injection H as <-. simpl in I. intuition.
  - destruct (proj1 (p_remove_error d p W)) as [(x & E) | (x & E & I)]; rewrite E in H; [discriminate|]. injection H as <-. simpl in I. intuition.
  - destruct (proj1 (p_replace_error d p v W)) as [(x & E) | (x & E & I)]; rewrite E in H; [discriminate|]. injection H as <-. simpl in I. intuition.
  - destruct (proj1 (p_test_error d p v W)) as [(x & E) | (x & E & I)]; rewrite E in H; [discriminate|]. injection H as <-. simpl in I. intuition.
Qed.
Print Assumptions C24_exceptions.

(** Scalar parents, and indices that RFC 6901 does not allow. *)
Theorem C24_scalar_parent_refuted : exists d p v, jwf d = true /\ (forall d', ~ rfc_add p v d d') /\ p_add d p v = Exn EAssertion.
Proof.
  exists (JObj [(lit "c", num 5)]), [lit "c"; lit "x"], JNull. split; [reflexivity|]. split; [|vm_compute; reflexivity].
  intros d' R. apply C18_add_as_rfc in R; [|reflexivity]. vm_compute in R. discriminate.
Qed.
Print Assumptions C24_scalar_parent_refuted.
Theorem C24_string_parent_refuted : exists d p v, jwf d = true /\ (forall d', ~ rfc_add p v d d') /\
  p_add d p v = Exn EAttribute /\ p_replace d p v = Exn EType /\ p_remove d p = Exn EType.
Proof.
  exists doc, [lit "b"; lit "0"], JNull. split; [reflexivity|]. split; [|repeat split; vm_compute; reflexivity].
  intros d' R. apply C18_add_as_rfc in R; [|reflexivity]. vm_compute in R. discriminate.
Qed.
Print Assumptions C24_string_parent_refuted.
Theorem C24_index_syntax_refuted : exists d v d', jwf d = true /\
  (forall k, k = lit "01" \/ k = lit "+1" \/ k = lit " 1" \/ k = lit "0_1" ->
     p_add d [k] v = Ok d' /\ ~ rfc_add [k] v d d') /\
  p_test d [lit "01"] v = Exn EPointerReference.
Proof.
  exists (JArr [num 1; num 2]), JNull, (JArr [num 1; JNull; num 2]). split; [reflexivity|]. split; [|vm_compute; reflexivity].
  assert (G : forall c k, rfc_add [c :: k] JNull (JArr [num 1; num 2]) (JArr [num 1; JNull; num 2]) ->
     rfc_index_text (c :: k) \/ c :: k = lit "-").
  { intros c k [[E _] | (q & k' & E & H)]; [discriminate|]. destruct q as [|? q]; [|destruct q; discriminate].
    injection E as <-. inversion H as [? ? A| |]; subst. inversion A as [? ? [T _]|? E| |]; auto. }
  intros k K. split; [destruct K as [-> |[-> |[-> | ->]]]; vm_compute; reflexivity|]. intro R.
  destruct K as [-> |[-> |[-> | ->]]]; (apply (G _ (tl (lit _))) in R || apply G in R); destruct R as [R|R]; try discriminate R;
    destruct R as [R | (c & r & R & L & U & _)]; try discriminate R; injection R as <- _; vm_compute in L; congruence.
Qed.
Print Assumptions C24_index_syntax_refuted.
Example C24_case : parent_ok doc [lit "a"; lit "9"] /\ token_ok doc [lit "a"; lit "9"] /\ p_add doc [lit "a"; lit "9"] JNull = Exn EPatch.
Proof.
  assert (T : rfc_index_text (lit "9")) by (right; exists 57%N, []; repeat split; try constructor; vm_compute; congruence).
  split; [|split; [|vm_compute; reflexivity]].
  - intros q k v E F. apply (snoc_inj [lit "a"] q (lit "9") k) in E as [<- <-].
    apply refers_member in F as (c & I & F). inversion F; subst. simpl in I.
    destruct I as [I|[I|[I|[]]]]; try discriminate I. injection I as <-. eauto.
  - intros q k v E F. apply (snoc_inj [lit "a"] q (lit "9") k) in E as [<- <-]. auto.
Qed.

(** ** C25.  Operations as dictionaries. *)
(** An operation made from the fields its kind uses. *)
Definition proper (o : patchop) : Prop :=
  match po_op o with
  | ADD | REPLACE | TEST => po_from o = None /\ jwf (po_value o) = true /\ nan_free (po_value o) = true
  | REMOVE => po_from o = None /\ po_value o = JNull
  | MOVE | COPY => (exists f, po_from o = Some f) /\ po_value o = JNull
  end.

Lemma opname_round o : opname_of (opname_str o) = Ok o.
Proof. destruct o; vm_compute; reflexivity. Qed.
Lemma mk_op_of m op p v f : dmem (lit "cls") m = false -> dget (lit "op") m = Some (JStr (opname_str op)) -> dget (lit "path") m = Some (JStr (pointer_str p)) ->
  dget (lit "value") m = v -> dget (lit "from_") m = None -> dget (lit "from") m = option_map (fun f => JStr (pointer_str f)) f ->
  mk_op m = Ok (mkOp op p match v with Some v => v | None => JNull end f).
Proof.
  intros E0 E1 E2 E3 E4 E5. unfold mk_op. rewrite E0, E1, E2, E3, E4, E5, opname_round. cbn [bind pointer_arg]. rewrite parse_str. cbn [bind].
  destruct f as [f|]; cbn [option_map pointer_arg bind]; [rewrite parse_str|]; reflexivity.
Qed.
Lemma mk_op_pv op p v : mk_op [(lit "op", JStr (opname_str op)); (lit "path", JStr (pointer_str p)); (lit "value", v)] = Ok (mkOp op p v None).
Proof. apply (mk_op_of _ _ _ (Some v)); reflexivity. Qed.
Lemma mk_op_p op p : mk_op [(lit "op", JStr (opname_str op)); (lit "path", JStr (pointer_str p))] = Ok (mkOp op p JNull None).
Proof. apply (mk_op_of _ _ _ None); reflexivity. Qed.
Lemma mk_op_pf op p f : mk_op [(lit "op", JStr (opname_str op)); (lit "path", JStr (pointer_str p)); (lit "from", JStr (pointer_str f))]
  = Ok (mkOp op p JNull (Some f)).
Proof. apply (mk_op_of _ _ _ None); reflexivity. Qed.
Lemma patchop_refl o : jwf (po_value o) = true -> nan_free (po_value o) = true -> patchop_eqb o o = true.
Proof.
  intros W N. unfold patchop_eqb. rewrite json_eqb_refl by auto.
  assert (P : forall p, pointer_eqb p p = true) by (intro p; now apply strs_eqb_eq).
  rewrite P. destruct (po_from o); rewrite ?P; destruct (po_op o); reflexivity.
Qed.

Theorem C25_operation_round_trip : forall o, proper o -> mk_op (asdict o) = Ok o /\ patchop_eqb o o = true.
Proof.
  intros [op p v f] H. unfold proper in H. simpl in H. unfold asdict. cbn [po_op po_path po_value po_from].
  destruct op; repeat match goal with X : _ /\ _ |- _ => destruct X | X : exists _, _ |- _ => destruct X end; subst;
    (split; [first [apply mk_op_pv|apply mk_op_p|apply mk_op_pf]|apply patchop_refl; auto]).
Qed.
Print Assumptions C25_operation_round_trip.

Theorem C25_patch_round_trip : forall ops, Forall proper ops ->
  mk_patch (aslist ops) = Ok ops /\ patch_eqb ops ops = true.
Proof.
  induction 1 as [|o ops H _ IH]; [split; reflexivity|]. destruct (C25_operation_round_trip o H) as [A B]. destruct IH as [C D].
  split.
  - unfold aslist. cbn [map mk_patch]. rewrite A. cbn [bind]. unfold aslist in C. rewrite C. reflexivity.
  - cbn [patch_eqb]. now rewrite B, D.
Qed.
Print Assumptions C25_patch_round_trip.

(** What the equality of operations means. *)
Theorem C25_equality : forall a b, jwf (po_value a) = true -> jwf (po_value b) = true ->
  (patchop_eqb a b = true <->
   po_op a = po_op b /\ po_path a = po_path b /\ po_from a = po_from b /\ jeq (po_value a) (po_value b)).
Proof.
  intros a b Wa Wb. unfold patchop_eqb. rewrite !andb_true_iff, (json_eqb_jeq _ _ Wa Wb).
  assert (P : forall p q, pointer_eqb p q = true <-> p = q) by (intros; apply strs_eqb_eq).
  rewrite P. destruct (po_op a), (po_op b), (po_from a), (po_from b); simpl; rewrite ?P;
    split; intros; repeat match goal with X : _ /\ _ |- _ => destruct X end; subst; repeat split; auto; try congruence; try discriminate.
Qed.
Print Assumptions C25_equality.

(** Outside that class the round trip loses information or fails. *)
Theorem C25_unused_value_refuted : exists o o', mk_op (asdict o) = Ok o' /\ patchop_eqb o' o = false.
Proof. exists (mkOp REMOVE [lit "a"] (num 1) None), (mkOp REMOVE [lit "a"] JNull None). split; vm_compute; reflexivity. Qed.
Print Assumptions C25_unused_value_refuted.
Theorem C25_move_without_from_refuted : exists o, po_op o = MOVE /\ mk_op (asdict o) = Exn EPointerMalformed.
Proof. exists (mkOp MOVE [lit "a"] JNull None). split; vm_compute; reflexivity. Qed.
Print Assumptions C25_move_without_from_refuted.

Example C25_case : let ops := [mkOp TEST [lit "a~/"; lit ""] (JArr [JNum (NDyad 3 (-1)); JNull]) None; mkOp MOVE [] JNull (Some [lit "x"]); mkOp REMOVE [lit "0"] JNull None] in
  Forall proper ops /\ mk_patch (aslist ops) = Ok ops.
Proof. split; [|vm_compute; reflexivity]. repeat constructor; simpl; eauto. Qed.
