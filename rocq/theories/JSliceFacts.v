(** Reading, deleting and assigning slices keep [loose]. *)
From Verif Require PatchSeqFacts.
From Verif Require Import BaseFacts JsonFacts JTreeOps SpecTreeAny JTreeSim JSeqFacts JLoose JLooseOps JSlice SpecSlice.
From Coq Require Import Permutation.
Open Scope nat_scope.

(** *** Lists *)
Lemma nodup_join {A} (l r : list A) : NoDup l -> NoDup r -> (forall x, In x l -> ~ In x r) -> NoDup (l ++ r).
Proof.
  intros Nl Nr D. induction l as [|x l IH]; auto. inversion Nl as [|? ? Nx Nl']; subst. simpl. constructor.
  - intro H. apply in_app_or in H as [H|H]; auto. exact (D x (or_introl eq_refl) H).
  - apply IH; auto. intros y Hy. apply D. now right.
Qed.
Lemma skip_skip {A} i j (l : list A) : skipn i (skipn j l) = skipn (j + i) l.
Proof. revert l. induction j as [|j IH]; intros [|x l]; simpl; auto. now destruct i. Qed.
Lemma nodup_parts {A} i j (l : list A) : i <= j -> NoDup l -> NoDup (firstn i l ++ skipn j l).
Proof.
  intros L N. rewrite <- (firstn_skipn i l) in N. replace (skipn j l) with (skipn (j - i) (skipn i l)) by (rewrite skip_skip; f_equal; lia).
  generalize dependent (skipn i l). intro r. generalize (firstn i l) as u. intros u N.
  induction u as [|x u IH]; simpl in *.
  - revert N. generalize (j - i). induction r as [|x r IHr]; intros [|k] N; simpl; auto. inversion N; subst. now apply IHr.
  - inversion N as [|? ? Nx N']; subst. constructor; auto. intro H. apply Nx. apply in_app_or in H as [H|H]; apply in_or_app; auto.
    right. rewrite <- (firstn_skipn (j - i) r). apply in_or_app. auto.
Qed.
Lemma in_cut {A} a b (xs l : list A) y : In y (cut_in a b xs l) -> In y xs \/ In y l.
Proof.
  unfold cut_in. intro H. apply in_app_or in H as [H|H].
  - right. rewrite <- (firstn_skipn (Z.to_nat a) l). apply in_or_app. auto.
  - apply in_app_or in H as [H|H]; auto. right. rewrite <- (firstn_skipn (Z.to_nat (Z.max a b)) l). apply in_or_app. auto.
Qed.
Lemma cut_nodup {A} a b (xs l : list A) : NoDup xs -> NoDup l -> (forall x, In x xs -> ~ In x l) -> NoDup (cut_in a b xs l).
Proof.
  intros Nx Nl D. unfold cut_in.
  assert (P : NoDup (xs ++ (firstn (Z.to_nat a) l ++ skipn (Z.to_nat (Z.max a b)) l))).
  { apply nodup_join; auto; [apply nodup_parts; auto; lia|]. intros x Hx H. apply (D x Hx). apply in_app_or in H as [H|H].
    - rewrite <- (firstn_skipn (Z.to_nat a) l). apply in_or_app. auto.
    - rewrite <- (firstn_skipn (Z.to_nat (Z.max a b)) l). apply in_or_app. auto. }
  revert P. apply Permutation_NoDup. apply Permutation_app_swap_app.
Qed.
Lemma in_assign {A} ps : forall (xs l : list A) y, In y (assign ps xs l) -> In y xs \/ In y l.
Proof.
  induction ps as [|p ps IH]; intros [|x xs] l y H; simpl in *; auto.
  apply IH in H as [H|H]; auto. apply in_update in H as [->|H]; auto.
Qed.
Lemma assign_nodup {A} ps : forall xs l : list A, NoDup xs -> NoDup l -> (forall x, In x xs -> ~ In x l) -> NoDup (assign ps xs l).
Proof.
  induction ps as [|p ps IH]; intros [|x xs] l Nx Nl D; simpl; auto. inversion Nx as [|? ? N Nx']; subst. apply IH; auto.
  - apply in_update_nodup; auto. apply D. now left.
  - intros y Hy H. apply in_update in H as [->|H]; auto. apply (D y); auto. now right.
Qed.
Lemma in_set_slice {A} s (xs l : list A) y : In y (list_set_slice s xs l) -> In y xs \/ In y l.
Proof.
  unfold list_set_slice. destruct (step_of s =? 1)%Z; [|apply in_assign]. destruct (slice_indices _ _ _ _). apply in_cut.
Qed.
Lemma set_slice_nodup {A} s (xs l : list A) : NoDup xs -> NoDup l -> (forall x, In x xs -> ~ In x l) -> NoDup (list_set_slice s xs l).
Proof.
  unfold list_set_slice. destruct (step_of s =? 1)%Z; [|apply assign_nodup]. destruct (slice_indices _ _ _ _). apply cut_nodup.
Qed.
Lemma Forall2_update {A B} (R : A -> B -> Prop) k x y l r : R x y -> Forall2 R l r -> Forall2 R (update_nth k x l) (update_nth k y r).
Proof. intros H F. revert k. induction F as [|a b l r Rab F IH]; intros [|k]; simpl; constructor; auto. Qed.
Lemma Forall2_assign {A B} (R : A -> B -> Prop) ps : forall xs ys l r, Forall2 R xs ys -> Forall2 R l r ->
  Forall2 R (assign ps xs l) (assign ps ys r).
Proof.
  induction ps as [|p ps IH]; intros xs ys l r Fx F; destruct Fx as [|x y xs ys Rxy Fx]; simpl; auto.
  apply IH; auto. now apply Forall2_update.
Qed.
Lemma Forall2_set_slice {A B} (R : A -> B -> Prop) s xs ys l r : Forall2 R xs ys -> Forall2 R l r ->
  Forall2 R (list_set_slice s xs l) (list_set_slice s ys r).
Proof.
  intros Fx F. unfold list_set_slice. rewrite (Forall2_len _ _ _ F). destruct (step_of s =? 1)%Z; [|now apply Forall2_assign].
  destruct (slice_indices _ _ _ _). unfold cut_in. apply Forall2_app; [now apply Forall2_firstn|].
  apply Forall2_app; auto. now apply Forall2_skipn.
Qed.
Lemma in_without {A} ps : forall (l : list A) k y, In y (without ps k l) -> In y l.
Proof.
  induction l as [|x l IH]; intros k y H; simpl in *; auto. destruct (existsb (Nat.eqb k) ps); [right; eapply IH; exact H|].
  destruct H as [H|H]; auto. right. eapply IH. exact H.
Qed.
Lemma without_nodup {A} ps : forall (l : list A) k, NoDup l -> NoDup (without ps k l).
Proof.
  induction l as [|x l IH]; intros k N; simpl; auto. inversion N as [|? ? Nx N']; subst.
  destruct (existsb (Nat.eqb k) ps); auto. constructor; auto. intro H. apply Nx. now apply in_without in H.
Qed.
Lemma Forall2_without {A B} (R : A -> B -> Prop) ps l r : Forall2 R l r -> forall k, Forall2 R (without ps k l) (without ps k r).
Proof. intro F. induction F as [|a b l r Rab F IH]; intro k; simpl; auto. destruct (existsb (Nat.eqb k) ps); auto. Qed.
Lemma Forall2_picked {A B} (R : A -> B -> Prop) l r ps : Forall2 R l r -> Forall2 R (picked l ps) (picked r ps).
Proof.
  intro F. assert (P : forall k, match nth_error l k, nth_error r k with Some a, Some b => R a b | None, None => True | _, _ => False end).
  { induction F as [|a b l r Rab F IH]; intros [|k]; simpl; auto. apply IH. }
  unfold picked. induction ps as [|k ps IH]; simpl; auto. specialize (P k).
  destruct (nth_error l k), (nth_error r k); try contradiction; simpl; auto.
Qed.

(** *** What the operations make of plain values *)
Definition py_del_slice (v : json) (s : slice) : option json :=
  match v with
  | JArr l => if (step_of s =? 0)%Z then None else Some (JArr (without (slice_of (length l) s) 0 l))
  | _ => None
  end.
Definition fits (s : slice) (len n : nat) : bool := (step_of s =? 1)%Z || Nat.eqb n (length (slice_of len s)).
(** What is put in: an array's items; nothing for an empty string or object. *)
Definition elements (w : json) : option (list json) :=
  match w with JArr xs => Some xs | JStr [] => Some [] | JObj [] => Some [] | _ => None end.
Definition py_set_slice (v : json) (s : slice) (w : json) : res json :=
  match v with
  | JArr l =>
      if (step_of s =? 0)%Z then Exn EValue
      else match elements w with
           | Some xs => if fits s (length l) (length xs) then Ok (JArr (list_set_slice s xs l)) else Exn EValue
           | None => Exn EType
           end
  | _ => Exn EType
  end.
Definition done {A} (r : res A) : option A := match r with Ok x => Some x | _ => None end.
Definition outcome {A} (r : res A) : res unit := match r with Ok _ => Ok tt | Exn e => Exn e | Fuel => Fuel end.
(** The operand is not a string or an object with something in it. *)
Definition spliceable (w : json) : Prop :=
  match w with JStr (_ :: _) | JObj (_ :: _) => False | _ => True end.

Lemma loose_delitem_slice h n s v : loose h -> n < length h -> denotes h n v ->
  exists h' e, delitem_slice h n s = (Exn e, h') /\ loose h' /\ length h <= length h' /\
    changes h h' n (py_del_slice v s) /\ e = match v with JArr _ => if (step_of s =? 0)%Z then EValue else EType | _ => EType end.
Proof.
  intros I Hn D. unfold delitem_slice.
  assert (Bad : forall e, exists h' e', (@Exn unit e, h) = (Exn e', h') /\ loose h' /\ length h <= length h' /\
     changes h h' n None /\ e' = e).
  { intro e. exists h, e. split; auto. split; auto. split; auto. split; [apply loose_none; auto using grows_refl|auto]. }
  destruct (ndata (getn h n)) as [|b|x|t|ids|m] eqn:Ed.
  1-4, 6: inversion D as [? E'|? ? E'|? ? E'|? ? E'|? ? ? E'|? ? ? E']; subst; rewrite Ed in E'; try discriminate;
    cbn [py_del_slice]; apply Bad.
  destruct (denotes_arr_inv h n ids v Ed D) as (l & -> & F2). cbn [py_del_slice].
  destruct (step_of s =? 0)%Z; [apply Bad|]. rewrite <- (Forall2_len _ _ _ F2).
  set (ps := slice_of (length ids) s).
  destruct (loose_store h n ids (without ps 0 ids) (without ps 0 l) I Hn Ed) as (h' & E' & I' & L' & _ & Ch).
  - apply (array_ok h n ids); auto.
    + apply without_nodup. exact (loose_ids_nodup h n ids I Ed).
    + intros c Hc. left. now apply in_without in Hc.
  - now apply Forall2_without.
  - rewrite E'. cbn [hbind]. exists h', EType. split; auto. split; auto. split; [lia|]. split; auto.
Qed.

Lemma loose_setitem_slice h n s o v w : loose h -> n < length h -> operand_ok h o -> denotes h n v -> operand_is h o w ->
  exists h' r, setitem_slice h n s o = (r, h') /\ loose h' /\ length h <= length h' /\
    (spliceable w -> changes h h' n (done (py_set_slice v s w)) /\ r = outcome (py_set_slice v s w)).
Proof.
  intros I Hn OK D W. pose proof (loose_ordered h I) as O.
  destruct (loose_made h n o w (slice_str s) I Hn OK W) as (h0 & h1 & E0 & E1 & I1 & G & F & I0 & L0 & L1 & D1 & S & U & K).
  unfold setitem_slice. rewrite E0. cbn [hbind]. rewrite E1.
  assert (Ed : ndata (getn h1 n) = ndata (getn h n)) by exact (proj2 G n Hn).
  assert (Dn : denotes h1 n v) by (apply (grows_denotes h h1); auto).
  assert (Bad : forall e (r : res json), (spliceable w -> r = Exn e) ->
     exists h' q, (@Exn unit e, h1) = (q, h') /\ loose h' /\ length h <= length h' /\
     (spliceable w -> changes h h' n (done r) /\ q = outcome r)).
  { intros e r Er. exists h1, (Exn e). split; auto. split; auto. split; [apply G|]. intro Sp. rewrite (Er Sp).
    split; auto. now apply loose_none. }
  pose proof (loose_ordered h1 I1) as O1. set (c := length h0) in *.
  rewrite Ed. destruct (ndata (getn h n)) as [|b|x|t|ids|m] eqn:E.
  1-4, 6: inversion D as [? E'|? ? E'|? ? E'|? ? E'|? ? ? E'|? ? ? E']; subst; rewrite E in E'; try discriminate;
    apply Bad; intros _; unfold py_set_slice; reflexivity.
  destruct (denotes_arr_inv h1 n ids v Ed Dn) as (l & -> & F2). pose proof (Forall2_len _ _ _ F2) as Ll.
  unfold py_set_slice, fits. rewrite <- Ll.
  destruct (step_of s =? 0)%Z; [apply Bad; auto|].
  assert (Nc : ~ In c ids).
  { intro Hc. apply In_nth_error in Hc as (j & Hj). apply (proj1 S n (str_of_nat j)). econstructor; eauto. }
  (* storing the items [kids] of the new node *)
  assert (Store : forall kids xs, (forall k, In k kids -> exists i, child_at h1 c (str_of_nat i) k) -> NoDup kids ->
    Forall2 (denotes h1) kids xs ->
    exists h' r, inval_value (setn h1 n (with_data (getn h1 n) (DArr (list_set_slice s kids ids)))) n = (r, h') /\
      loose h' /\ length h <= length h' /\ changes h h' n (Some (JArr (list_set_slice s xs l))) /\ r = Ok tt).
  { intros kids xs Kc Kn Fx.
    assert (Dis : forall k, In k kids -> ~ In k ids).
    { intros k Hk Hi. destruct (Kc k Hk) as (i & Ck). apply In_nth_error in Hi as (j & Hj).
      assert (n = c) by (apply (proj2 S (str_of_nat i) k n (str_of_nat j)); auto; econstructor; eauto). unfold c in *. lia. }
    destruct (loose_store h1 n ids (list_set_slice s kids ids) (list_set_slice s xs l) I1 ltac:(lia) Ed) as (h' & E' & I' & L' & _ & Ch).
    - apply (array_ok h1 n ids); auto.
      + apply set_slice_nodup; auto. exact (loose_ids_nodup h1 n ids I1 Ed).
      + intros k Hk. apply in_set_slice in Hk as [Hk|Hk]; auto. right. destruct (Kc k Hk) as (i & Ck).
        destruct (fr_child _ _ F c (str_of_nat i) k ltac:(unfold c; lia) Ck) as (Lk & Lk' & Pk & Kk).
        split; [unfold c in *; lia|]. split; auto. split; [eapply up_trans; [|exact U]; econstructor; [constructor|exact Pk]|].
        split; [exists (Z.of_nat i); now rewrite str_of_Z_nat|]. left. exists c. split.
        * split; [unfold c; lia|]. split; [exact (proj1 S)|]. split; [eauto|]. intros b' j' Hb. exact (proj2 S _ k b' j' Ck Hb).
        * intro Hc. apply in_set_slice in Hc as [Hc|Hc]; auto. destruct (Kc c Hc) as (i' & Cc). apply O1 in Cc. lia.
    - now apply Forall2_set_slice.
    - exists h', (Ok tt). split; auto. split; auto. split; [destruct G; lia|]. split; auto. apply (changes_grows h h1); auto. }
  assert (Keep : forall (a b : bool), a = b -> forall x y : res unit * heap, (if a then x else y) = (if b then x else y)) by (intros a b ->; auto).
  destruct (ndata (getn h1 c)) as [|b|x|t|kids|m] eqn:Ec; cbn [iterate].
  1-3: inversion D1 as [? E'|? ? E'|? ? E'|? ? E'|? ? ? E'|? ? ? E']; subst; rewrite Ec in E'; try discriminate;
    cbn [elements]; apply Bad; auto.
  - inversion D1 as [? E'|? ? E'|? ? E'|? ? E'|? ? ? E'|? ? ? E']; subst; rewrite Ec in E'; try discriminate.
    injection E' as <-. destruct t as [|q t]; cbn [elements length].
    + destruct (_ || _)%bool; [|apply Bad; auto]. destruct (Store [] []) as (h' & r & Es & I' & L' & Ch & ->); [intros ? []|constructor|constructor|].
      exists h', (Ok tt). cbn [Nat.eqb]. auto.
    + destruct (_ || _)%bool; apply Bad; intros [].
  - destruct (denotes_arr_inv h1 c kids w Ec D1) as (xs & -> & Fx). cbn [elements].
    rewrite <- (Forall2_len _ _ _ Fx). destruct (_ || _)%bool; [|apply Bad; auto].
    destruct (Store kids xs) as (h' & r & Es & I' & L' & Ch & ->); auto.
    + intros k Hk. apply In_nth_error in Hk as (i & Hi). exists i. econstructor; eauto.
    + exact (loose_ids_nodup h1 c kids I1 Ec).
    + exists h', (Ok tt). auto.
  - destruct (denotes_obj_inv h1 c m w Ec D1) as (kvs & -> & Fx). pose proof (Forall2_len _ _ _ Fx) as Lm.
    destruct m as [|q m], kvs as [|q' kvs]; try discriminate; cbn [elements length].
    + destruct (_ || _)%bool; [|apply Bad; auto]. destruct (Store [] []) as (h' & r & Es & I' & L' & Ch & ->); [intros ? []|constructor|constructor|].
      exists h', (Ok tt). cbn [Nat.eqb]. auto.
    + destruct (_ || _)%bool; apply Bad; intros [].
Qed.

(** *** Histories *)
Lemma loose_remove_keeps h n p : loose h -> n < length h ->
  loose (snd (json_remove h n p)) /\ length h <= length (snd (json_remove h n p)).
Proof.
  intros I Hn. unfold json_remove. destruct (path_empty p).
  - destruct (loose_reinit h n JNull I Hn eq_refl) as (h' & -> & I' & L' & _). auto.
  - destruct (mk_pointer [p]) as [q|e|]; auto.
    destruct (as_json_error (eval_id q h n)) as [t|e|] eqn:Ev; auto.
    destruct (nparent (getn h t)) as [tp|] eqn:Ep; auto. apply as_json_error_ok in Ev.
    destruct (eval_id_located _ h n t Ev) as (q' & Lq & _).
    apply (located_bound h n q' t (loose_ordered h I) Hn) in Lq as [_ Bt].
    assert (Btp : tp < length h) by (apply (lo_parent h I) in Ep; lia).
    destruct (loose_total h tp I Btp) as (v & D).
    destruct (ndata (getn h tp)); auto.
    + destruct (key_int h t) as [z|e|]; auto.
      destruct (loose_delitem h tp (IInt z) v I Btp D) as (h' & r & -> & I' & L' & _). auto.
    + destruct (nkey (getn h t)) as [k|]; auto.
      destruct (loose_delitem h tp (IStr k) v I Btp D) as (h' & r & -> & I' & L' & _). auto.
Qed.
Lemma loose_replace_keeps h n p o : loose h -> n < length h -> operand_ok h o ->
  loose (snd (json_replace h n p o)) /\ length h <= length (snd (json_replace h n p o)).
Proof.
  intros I Hn OK. destruct (loose_operand_total h o I OK) as (w & W). unfold json_replace. destruct (path_empty p).
  - destruct (loose_put h n o w I Hn OK W) as (h' & -> & I' & L' & _). auto.
  - destruct (mk_pointer [p]) as [q|e|]; auto.
    destruct (as_json_error (eval_id q h n)) as [t|e|] eqn:Ev; auto.
    destruct (nparent (getn h t)) as [tp|] eqn:Ep; auto. apply as_json_error_ok in Ev.
    destruct (eval_id_located _ h n t Ev) as (q' & Lq & _).
    apply (located_bound h n q' t (loose_ordered h I) Hn) in Lq as [_ Bt].
    assert (Btp : tp < length h) by (apply (lo_parent h I) in Ep; lia).
    destruct (loose_total h tp I Btp) as (v & D).
    destruct (ndata (getn h tp)); auto.
    + destruct (key_int h t) as [z|e|]; auto.
      destruct (loose_setitem h tp (IInt z) o v w I Btp OK D W) as (h' & r & -> & I' & L' & _). auto.
    + destruct (nkey (getn h t)) as [k|]; auto.
      destruct (loose_setitem h tp (IStr k) o v w I Btp OK D W) as (h' & r & -> & I' & L' & _). auto.
Qed.
Lemma loose_run h o : loose h -> slice_op_ok h o -> loose (run_slice h o) /\ length h <= length (run_slice h o).
Proof.
  intros C K. destruct o as [o|n s|n s x]; cbn [run_slice].
  - destruct o as [v|n|n|n i x|n i|n z x|n x|n z|n p x|n p|n p x]; cbn [slice_op_ok] in K; cbn [run].
    + destruct (loose_new_doc h v C K) as (h' & -> & C' & L' & _). split; auto. simpl. lia.
    + destruct (loose_read_path h n C). split; auto. lia.
    + destruct (loose_read_value h n C K) as (v & h' & -> & _ & C' & _ & L'). split; auto. simpl. lia.
    + destruct K as (Hn & OK). destruct (loose_total h n C Hn) as (v & D).
      destruct (loose_operand_total h x C OK) as (w & W).
      destruct (loose_setitem h n i x v w C Hn OK D W) as (h' & r & -> & C' & L' & _). auto.
    + destruct (loose_total h n C K) as (v & D).
      destruct (loose_delitem h n i v C K D) as (h' & r & -> & C' & L' & _). auto.
    + destruct K as (Hn & OK). destruct (loose_total h n C Hn) as (v & D).
      destruct (loose_operand_total h x C OK) as (w & W).
      destruct (loose_insert h n z x v w C Hn OK D W) as (h' & r & -> & C' & L' & _). auto.
    + destruct K as (Hn & OK). destruct (loose_total h n C Hn) as (v & D).
      destruct (loose_operand_total h x C OK) as (w & W).
      destruct (loose_append h n x v w C Hn OK D W) as (h' & r & -> & C' & L' & _). auto.
    + destruct (loose_total h n C K) as (v & D).
      destruct (loose_pop h n z v C K D) as (h' & r & -> & C' & L' & _). auto.
    + destruct K as (Hn & OK). now apply loose_add_keeps.
    + now apply loose_remove_keeps.
    + destruct K as (Hn & OK). now apply loose_replace_keeps.
  - cbn [slice_op_ok] in K. destruct (loose_total h n C K) as (v & D).
    destruct (loose_delitem_slice h n s v C K D) as (h' & e & -> & C' & L' & _). auto.
  - destruct K as (Hn & OK & _). destruct (loose_total h n C Hn) as (v & D).
    destruct (loose_operand_total h x C OK) as (w & W).
    destruct (loose_setitem_slice h n s x v w C Hn OK D W) as (h' & r & -> & C' & L' & _). auto.
Qed.
Lemma loose_nil : loose [].
Proof.
  assert (N : forall n, getn [] n = blank) by (intros [|n]; reflexivity).
  assert (C : forall n k c, ~ child_at [] n k c) by (intros n k c H; destruct H as [? ? ? E|? ? ? E]; rewrite N in E; discriminate).
  constructor.
  - intros n k c H. now apply C in H.
  - intros n ids E. rewrite N in E. discriminate.
  - intros n m E. rewrite N in E. discriminate.
  - intros n p E. rewrite N in E. discriminate.
  - intros a k j x H. now apply C in H.
  - intros a k b j x H. now apply C in H.
  - intros n v E. rewrite N in E. discriminate.
Qed.
Lemma slice_history_loose h : slice_history h -> loose h.
Proof. induction 1 as [|h o H IH K]; [apply loose_nil|]. now apply loose_run. Qed.

(** *** The relations of SpecSlice *)
Lemma slice_of_positions len s : stride s <> 0%Z -> positions len s (slice_of len s).
Proof.
  intro N. unfold positions, within, slice_of. change (step_of s) with (stride s). split; [|split].
  - intro k. now apply PatchSeqFacts.positions_selected.
  - apply PatchSeqFacts.positions_sorted_up.
  - apply PatchSeqFacts.positions_sorted_down.
Qed.
Lemma sorted_nodup (R : nat -> nat -> Prop) l : (forall x, ~ R x x) -> StronglySorted R l -> NoDup l.
Proof.
  intros Ir. induction 1 as [|x l S IH F]; constructor; auto. intro H. rewrite Forall_forall in F. exact (Ir x (F x H)).
Qed.
Lemma positions_nodup len s ks : stride s <> 0%Z -> positions len s ks -> NoDup ks.
Proof.
  intros N (_ & U & V). destruct (Z.lt_trichotomy (stride s) 0) as [L|[L|L]]; [|lia|].
  - apply (sorted_nodup gt); auto. intros x. unfold gt. lia.
  - apply (sorted_nodup lt); auto. lia.
Qed.
Lemma positions_length len s ks js : stride s <> 0%Z -> positions len s ks -> positions len s js -> length ks = length js.
Proof.
  intros N A B. pose proof (positions_nodup _ _ _ N A) as Na. pose proof (positions_nodup _ _ _ N B) as Nb.
  destruct A as (A & _), B as (B & _).
  apply Nat.le_antisymm; apply NoDup_incl_length; auto; intros k Hk; [apply B; now apply A|apply A; now apply B].
Qed.
Lemma picked_read {A} s (l : list A) : stride s <> 0%Z -> slice_read s l (picked l (slice_of (length l) s)).
Proof.
  intro N. exists (slice_of (length l) s). pose proof (slice_of_positions (length l) s N) as P. split; auto.
  apply PatchSeqFacts.picked_nth. intros k Hk. apply (proj1 P) in Hk. apply Hk.
Qed.
Lemma without_deleted {A} s (l : list A) : stride s <> 0%Z -> slice_deleted s l (without (slice_of (length l) s) 0 l).
Proof.
  intro N. pose proof (slice_of_positions (length l) s N) as P.
  destruct (PatchSeqFacts.without_kept (slice_of (length l) s) l 0) as (js & F & So & I).
  exists js. split; auto. split.
  - intro j. rewrite I. rewrite (proj1 P). split; intros [B M]; split; auto; lia.
  - clear - F. induction F as [|j x js r [E _] F IHF]; constructor; auto. now rewrite Nat.sub_0_r in E.
Qed.
Lemma update_length {A} k (x : A) l : length (update_nth k x l) = length l.
Proof. revert k. induction l as [|a l IH]; intros [|k]; simpl; auto. Qed.
Lemma update_same {A} k (x : A) l : k < length l -> nth_error (update_nth k x l) k = Some x.
Proof. revert k. induction l as [|a l IH]; intros [|k] L; simpl in *; try lia; auto. apply IH. lia. Qed.
Lemma update_other {A} k j (x : A) l : k <> j -> nth_error (update_nth k x l) j = nth_error l j.
Proof. revert k j. induction l as [|a l IH]; intros [|k] [|j] N; simpl in *; auto; try congruence. Qed.
Lemma assign_length {A} ps : forall xs l : list A, length (assign ps xs l) = length l.
Proof. induction ps as [|p ps IH]; intros [|x xs] l; simpl; auto. rewrite IH. apply update_length. Qed.
Lemma assign_other {A} ps : forall (xs l : list A) k, ~ In k ps -> nth_error (assign ps xs l) k = nth_error l k.
Proof.
  induction ps as [|p ps IH]; intros [|x xs] l k N; simpl; auto. rewrite IH by (intro H; apply N; now right).
  apply update_other. intros ->. apply N. now left.
Qed.
Lemma assign_at {A} ps : forall (xs l : list A) i k x, NoDup ps -> (forall p, In p ps -> p < length l) ->
  nth_error ps i = Some k -> nth_error xs i = Some x -> nth_error (assign ps xs l) k = Some x.
Proof.
  induction ps as [|p ps IH]; intros [|y xs] l [|i] k x N B P X; simpl in *; try discriminate; inversion N as [|? ? Np N']; subst.
  - injection P as ->. injection X as ->. rewrite assign_other by auto. apply update_same. apply B. auto.
  - apply (IH xs _ i); auto. intros q Hq. rewrite update_length. apply B. auto.
Qed.
Lemma indices_up len start stop : exists a b, from_place len start a /\ to_place len stop b /\
  slice_indices (Z.of_nat len) start stop 1 = (Z.of_nat a, Z.of_nat b).
Proof.
  unfold slice_indices. cbn [Z.ltb Z.compare].
  exists (Z.to_nat (bound (Z.of_nat len) 0 (Z.of_nat len) 0 start)), (Z.to_nat (bound (Z.of_nat len) 0 (Z.of_nat len) (Z.of_nat len) stop)).
  split; [|split].
  - destruct start as [i|]; simpl; auto. unfold place. destruct (Z.ltb_spec i 0); lia.
  - destruct stop as [i|]; simpl; [|lia]. unfold place. destruct (Z.ltb_spec i 0); lia.
  - f_equal; [destruct start as [i|]|destruct stop as [i|]]; simpl; try lia; destruct (Z.ltb_spec i 0); lia.
Qed.
Lemma set_slice_assigned {A} s (xs l : list A) : stride s <> 0%Z -> fits s (length l) (length xs) = true ->
  slice_assigned s xs l (list_set_slice s xs l).
Proof.
  intros N F. unfold fits, list_set_slice, slice_assigned in *. change (step_of s) with (stride s) in *.
  destruct (Z.eqb_spec (stride s) 1) as [E|E].
  - left. split; auto. destruct (indices_up (length l) (sl_start s) (sl_stop s)) as (a & b & Fa & Tb & ->).
    exists a, b. split; auto. split; auto. unfold cut_in. rewrite Nat2Z.id. repeat f_equal. lia.
  - right. split; auto. split; auto. exists (slice_of (length l) s). pose proof (slice_of_positions (length l) s N) as P.
    cbn [orb] in F. apply Nat.eqb_eq in F. split; auto. split; auto. split; [apply assign_length|]. split.
    + intros i k x. apply assign_at; [exact (positions_nodup _ _ _ N P)|]. intros p Hp. apply (proj1 P) in Hp. apply Hp.
    + intros k. apply assign_other.
Qed.
Lemma not_assigned {A} s (xs l : list A) r : fits s (length l) (length xs) = false -> ~ slice_assigned s xs l r.
Proof.
  unfold fits. change (step_of s) with (stride s). intros F [(E & _)|(E1 & E0 & ks & P & L & _)].
  - rewrite E in F. discriminate.
  - apply orb_false_iff in F as [_ F]. apply Nat.eqb_neq in F. apply F. rewrite <- L.
    apply (positions_length (length l) s); auto. now apply slice_of_positions.
Qed.
