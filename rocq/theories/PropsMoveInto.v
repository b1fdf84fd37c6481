(** Property C20, exactly: when a move into the location it takes from succeeds,
    and what it leaves. *)
From Verif Require Import PatchFacts PropsPatch.
Open Scope nat_scope.

(** The value [A] and what takes its place. *)
Definition becomes (A B P P' : json) : Prop := P = A /\ P' = B.

Lemma edited_app (R : json -> json -> Prop) s : forall g d d', edited R (g ++ s) d d' <-> edited (edited R s) g d d'.
Proof.
  induction g as [|k g IH]; intros d d'.
  - split; [intro H; now constructor|intro H; now inversion H].
  - split; intro H; inversion H as [|? ? m1 x x' m2 E|? ? l1 x x' l2 T L E]; subst; constructor; auto; now apply IH.
Qed.
Lemma member_split (k : pystr) (m1 m2 n1 n2 : list (pystr * json)) x y : NoDup (keys (m1 ++ (k, x) :: m2)) ->
  m1 ++ (k, x) :: m2 = n1 ++ (k, y) :: n2 -> m1 = n1 /\ x = y /\ m2 = n2.
Proof.
  revert n1. induction m1 as [|[a v] m1 IH]; intros [|[b w] n1] N H; cbn in H.
  - now injection H as <- <-.
  - injection H as <- <- H. exfalso. inversion N as [|? ? N1 N2]. apply N1. subst m2. unfold keys. rewrite map_app. apply in_elt.
  - injection H as -> -> H. exfalso. inversion N as [|? ? N1 N2]. apply N1. unfold keys. rewrite map_app. apply in_elt.
  - injection H as <- <- H. inversion N as [|? ? N1 N2]; subst. destruct (IH _ N2 H) as (-> & -> & ->). auto.
Qed.
Lemma item_split (l1 l2 n1 n2 : list json) x y : length l1 = length n1 -> l1 ++ x :: l2 = n1 ++ y :: n2 -> l1 = n1 /\ x = y /\ l2 = n2.
Proof.
  revert n1. induction l1 as [|a l1 IH]; intros [|b n1] L H; cbn in H, L; try discriminate.
  - now injection H as <- <-.
  - injection H as <- H. destruct (IH n1) as (-> & -> & ->); auto.
Qed.
(** Two changes of the same part. *)
Lemma edited_then (R : json -> json -> Prop) A B : forall g d d1 d', edited (becomes A B) g d d1 -> jwf d1 = true -> edited R g d1 d' ->
  exists C, R B C /\ edited (becomes A C) g d d'.
Proof.
  induction g as [|k g IH]; intros d d1 d' H W H'.
  - inversion H as [? ? [-> ->]| |]; subst. inversion H' as [? ? HR| |]; subst. exists d'. split; auto. now constructor.
  - inversion H as [|? ? m1 x x' m2 E|? ? l1 x x' l2 T L E]; subst.
    + inversion H' as [|? ? n1 y y' n2 E'|]; subst.
      match goal with Q : _ ++ _ = _ ++ _ |- _ => apply eq_sym in Q; apply member_split in Q; [destruct Q as (<- & <- & <-)|exact (proj1 (proj1 (jwf_obj_app _ _ _ _) W))] end.
      apply jwf_obj_app in W as (_ & _ & W & _). destruct (IH _ _ _ E W E') as (C & HR & HE). exists C. split; auto. now constructor.
    + inversion H' as [| |? ? n1 y y' n2 T' L' E']; subst.
      match goal with Q : _ ++ _ = _ ++ _ |- _ => apply eq_sym in Q; apply item_split in Q; [destruct Q as (<- & <- & <-)|lia] end.
      apply jwf_arr_app in W as (_ & W & _). destruct (IH _ _ _ E W E') as (C & HR & HE). exists C. split; auto. now constructor.
Qed.
Lemma edited_between A B C : forall g d d', edited (becomes A C) g d d' -> exists d1, edited (becomes A B) g d d1 /\ edited (becomes B C) g d1 d'.
Proof.
  induction g as [|k g IH]; intros d d' H.
  - inversion H as [? ? [-> ->]| |]; subst. exists B. split; constructor; split; reflexivity.
  - inversion H as [|? ? m1 x x' m2 E|? ? l1 x x' l2 T L E]; subst; destruct (IH _ _ E) as (x1 & H1 & H2).
    + exists (JObj (m1 ++ (k, x1) :: m2)). split; now constructor.
    + exists (JArr (l1 ++ x1 :: l2)). split; now constructor.
Qed.

(** A move into the location it takes from succeeds exactly when that is an
    array item with another behind it, into which the rest of the path leads:
    the item is then added to the one behind it, and the two become one. *)
Theorem C20_into_child_exact : forall d (f : pointer) k r d', jwf d = true ->
  (p_move d (f ++ k :: r) (Some f) = Ok d' <->
   exists g j l1 x y y' l2, f = g ++ [j] /\ rfc_reading j (length l1) /\ p_add y (k :: r) x = Ok y' /\
     edited (becomes (JArr (l1 ++ x :: y :: l2)) (JArr (l1 ++ y' :: l2))) g d d').
Proof.
  intros d f k r d' W. split.
  - intro H. assert (N : ~ (f = [] \/ exists g j m, f = g ++ [j] /\ refers d g (JObj m))).
    { intro K. destruct (C20_move_into_child_rejected_partial d f k r W K) as (e & E). congruence. }
    apply C20_move_is_remove_add in H as (v & d1 & F & HR & A); auto. pose proof HR as HR0. apply p_remove_exact in HR; auto.
    assert (W1 : jwf d1 = true) by (eapply spec_remove_jwf; eauto). apply int_remove_rfc in HR; [|auto|eapply refers_token_ok; eauto].
    destruct HR as [[-> _]|(g & j & -> & Ed)]; [destruct N; auto|].
    pose proof (edited_inside _ _ _ _ Ed) as (P & P1 & FP & FP1 & RP). destruct RP as [l1 x l2 RJ|m1 x m2]; [|destruct N; right; eauto].
    assert (Vx : v = x).
    { apply (refers_at _ _ _ _ _ W FP) in F. inversion F as [|? ? ? ? ? C Q]; subst. inversion Q; subst. inversion C as [|? ? ? T I]; subst.
      destruct RJ as [_ RJ]. rewrite <- RJ, nth_error_at in I. congruence. }
    subst v. assert (Ed2 : edited (becomes (JArr (l1 ++ x :: l2)) (JArr (l1 ++ l2))) g d d1).
    { refine (edited_mono_at _ _ _ _ _ W _ Ed). intros P P' FQ HQ. pose proof (refers_fun _ _ _ _ W FQ FP) as ->. split; auto.
      inversion HQ as [n1 z n2 Rn EQ|]; subst. apply item_split in EQ as (-> & -> & ->); [reflexivity|]. destruct RJ as [_ ->], Rn as [_ ->]. reflexivity. }
    apply p_add_exact in A; auto. destruct A as [[A _]|(q & k' & A & Ea)]; [destruct g; discriminate|].
    assert (exists s, k :: r = s ++ [k'] /\ q = g ++ j :: s) as (s & Es & ->).
    { destruct (path_cases (k :: r)) as [|(s & j' & Es)]; [discriminate|]. rewrite Es, app_assoc in A. apply snoc_inj in A as [E1 <-].
      exists s. split; auto. rewrite <- E1, <- app_assoc. reflexivity. }
    apply edited_app in Ea. destruct (edited_then _ _ _ _ _ _ _ Ed2 W1 Ea) as (C & HC & HE).
    inversion HC as [| |? ? n1 y y' n2 T L E']; subst. destruct RJ as [T1 RJ].
    assert (exists l3, l2 = y :: l3 /\ n1 = l1 /\ n2 = l3) as (l3 & -> & -> & ->).
    { match goal with Q : _ ++ _ = _ ++ _ |- _ => rename Q into Q0 end. assert (LL : length n1 = length l1) by lia. clear -Q0 LL.
      revert n1 LL Q0. induction l1 as [|a l1 IH]; intros [|b n1] LL Q; cbn in *; try discriminate; [subst l2; eauto|].
      injection Q as -> Q. destruct (IH n1) as (l3 & A & -> & ->); eauto. }
    exists g, j, l1, x, y, y', l3. split; [reflexivity|]. split; [split; auto|]. split; [|exact HE].
    assert (Wy : jwf y = true).
    { assert (WP : jwf (JArr (l1 ++ y :: l3)) = true) by exact (refers_jwf _ _ _ W1 FP1). now apply jwf_arr_app in WP as (_ & WP & _). }
    apply p_add_exact; auto. right. eauto.
  - intros (g & j & l1 & x & y & y' & l2 & -> & [T RJ] & A & HE).
    destruct (edited_between _ (JArr (l1 ++ y :: l2)) _ _ _ _ HE) as (d1 & H1 & H2).
    assert (HR : rfc_remove (g ++ [j]) d d1).
    { right. exists g, j. split; auto. refine (edited_mono _ _ _ _ _ _ H1). intros P P' [-> ->]. constructor. split; auto. }
    assert (W1 : jwf d1 = true) by exact (spec_remove_jwf _ _ _ _ HR W).
    assert (F : refers d (g ++ [j]) x).
    { apply edited_inside in H1 as (P & P' & F & _ & -> & _). eapply refers_app; [exact F|]. econstructor; [|constructor]. constructor; auto. rewrite <- RJ. apply nth_error_at. }
    apply p_move_exact; auto. exists (g ++ [j]), x, d1. repeat split; auto.
    assert (Wy : jwf y = true).
    { apply edited_inside in H1 as (P & P' & _ & F' & _ & ->). pose proof (refers_jwf _ _ _ W1 F') as WP. now apply jwf_arr_app in WP as (_ & WP & _). }
    apply p_add_exact in A; auto. destruct A as [[A _]|(s & k' & Es & Ea)]; [discriminate|]. right. exists (g ++ j :: s), k'. split.
    + rewrite Es, <- !app_assoc. reflexivity.
    + apply edited_app. refine (edited_mono _ _ _ _ _ _ H2). intros P P' [-> ->]. constructor; auto.
Qed.
Print Assumptions C20_into_child_exact.

Example C20_into_child_case :
  p_move (JObj [(lit "a", JArr [num 1; num 2; JObj [(lit "x", JArr [])]; num 4])]) [lit "a"; lit "1"; lit "x"; lit "-"] (Some [lit "a"; lit "1"])
  = Ok (JObj [(lit "a", JArr [num 1; JObj [(lit "x", JArr [num 2])]; num 4])]) /\
  p_move (JArr [num 1]) [lit "0"; lit "x"] (Some [lit "0"]) = Exn EPatch.
Proof. split; vm_compute; reflexivity. Qed.
