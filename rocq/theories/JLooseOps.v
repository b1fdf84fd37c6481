(** The operations on JSON nodes keep [loose], and do to values what they do to
    plain lists and dicts. *)
From Verif Require Import BaseFacts JsonFacts JTreeOps SpecTreeAny JTreeSim JSeqFacts JLoose.
Open Scope nat_scope.

Lemma in_update {A} k (x : A) l y : In y (update_nth k x l) -> y = x \/ In y l.
Proof.
  revert k. induction l as [|a l IH]; intros [|k] H; simpl in *; auto; destruct H as [<-|H]; auto.
  destruct (IH k H); auto.
Qed.
Lemma in_update_nodup {A} k (x : A) l : NoDup l -> ~ In x l -> NoDup (update_nth k x l).
Proof.
  revert k. induction l as [|a l IH]; intros [|k] ND N; simpl; auto; inversion ND as [|? ? Na ND']; subst; constructor.
  - intro H. apply N. now right.
  - exact ND'.
  - intro H. apply in_update in H as [->|H]; [apply N; now left|auto].
  - apply IH; auto. intro H. apply N. now right.
Qed.
Lemma remove_nodup {A} k (l : list A) : NoDup l -> NoDup (remove_nth k l).
Proof.
  revert k. induction l as [|a l IH]; intros [|k] ND; simpl; auto; inversion ND as [|? ? Na ND']; subst; auto.
  constructor; auto. intro H. now apply In_remove_nth in H.
Qed.
Lemma in_insert {A} k (x : A) l y : In y (insert_nth k x l) -> y = x \/ In y l.
Proof.
  unfold insert_nth. intro H. apply in_app_or in H as [H|[H|H]]; auto; right; rewrite <- (firstn_skipn k l); apply in_or_app; auto.
Qed.
Lemma insert_nodup {A} k (x : A) l : NoDup l -> ~ In x l -> NoDup (insert_nth k x l).
Proof.
  intros ND N. unfold insert_nth. pose proof (Add_app x (firstn k l) (skipn k l)) as Ad. rewrite firstn_skipn in Ad.
  now apply (NoDup_Add Ad).
Qed.
Lemma Forall2_keep {A B} (R S : A -> B -> Prop) l l' : (forall a b, R a b -> S a b) -> Forall2 R l l' -> Forall2 S l l'.
Proof. intros H F. induction F; constructor; auto. Qed.

(** Making the new node of an assignment or an insertion. *)
Lemma loose_made h n o w k : loose h -> n < length h -> operand_ok h o -> operand_is h o w ->
  exists h0 h1, operand_value h o = (Ok w, h0) /\ new_node w h0 (Some n) (Some k) = (h1, length h0) /\
    loose h1 /\ grows h h1 /\ fresh h0 h1 /\ loose h0 /\ length h0 = length h /\ length h0 < length h1 /\ denotes h1 (length h0) w /\
    sole h1 (length h0) /\ up h1 (length h0) n /\ nkey (getn h1 (length h0)) = Some k.
Proof.
  intros I Hn OK W. destruct (loose_operand h o w I OK W) as (h0 & E0 & I0 & L0 & G0 & JW).
  destruct (loose_new_node h0 w n k I0 ltac:(lia) JW) as (h1 & E1 & I1 & F & L & P & K & D).
  exists h0, h1. split; auto. split; auto. split; auto. split; [eapply grows_trans; [exact G0|now apply grows_fresh]|].
  split; auto. split; auto. split; auto. split; auto. split; auto.
  split; [apply (fresh_sole h0 h1 _ n); auto; [now apply loose_ordered|lia]|].
  split; [econstructor; eauto; constructor|auto].
Qed.
Lemma loose_none h h' n : loose h -> grows h h' -> changes h h' n None.
Proof. intros I G. apply changes_none; auto. now apply loose_ordered. Qed.

Lemma loose_setitem h n i o v w : loose h -> n < length h -> operand_ok h o -> denotes h n v -> operand_is h o w ->
  exists h' r, setitem h n i o = (r, h') /\ loose h' /\ length h <= length h' /\
    changes h h' n (py_set v i w) /\
    match py_set v i w with Some _ => r = Ok tt | None => exists e, r = Exn e end.
Proof.
  intros I Hn OK D W. pose proof (loose_ordered h I) as O.
  destruct (loose_made h n o w (index_str i) I Hn OK W) as (h0 & h1 & E0 & E1 & I1 & G & F & I0 & L0 & L1 & D1 & S & U & K).
  unfold setitem. rewrite E0. cbn [hbind]. rewrite E1.
  assert (Ed : ndata (getn h1 n) = ndata (getn h n)) by exact (proj2 G n Hn).
  assert (Dn : denotes h1 n v) by (apply (grows_denotes h h1); auto).
  assert (Bad : forall e, exists h' r, (@Exn unit e, h1) = (r, h') /\ loose h' /\ length h <= length h' /\
     changes h h' n None /\ (exists e, r = Exn e)).
  { intro e. exists h1, (Exn e). split; auto. split; auto. split; [apply G|]. split; eauto. now apply loose_none. }
  pose proof (loose_ordered h1 I1) as O1.
  rewrite Ed. destruct (ndata (getn h n)) as [|b|x|s|ids|m] eqn:E.
  1-4: inversion D as [? E'|? ? E'|? ? E'|? ? E'|? ? ? E'|? ? ? E']; subst; rewrite E in E'; try discriminate;
    cbn [py_set]; apply Bad.
  - destruct (denotes_arr_inv h1 n ids v Ed Dn) as (l & -> & F2).
    destruct i as [z|s]; [|cbn [py_set]; apply Bad]. cbn [py_set]. rewrite position_norm, <- (Forall2_len _ _ _ F2).
    destruct (norm_index (length ids) z) as [k|] eqn:Ek; cbn [option_map]; [|apply Bad].
    pose proof (norm_index_bound _ _ _ Ek) as Lk. pose proof (Forall2_len _ _ _ F2) as Ll.
    assert (Nc : ~ In (length h0) ids).
    { intro Hc. apply In_nth_error in Hc as (j & Hj). apply (proj1 S n (str_of_nat j)). econstructor; eauto. }
    destruct (loose_store h1 n ids (update_nth k (length h0) ids) (list_put k w l) I1 ltac:(lia) Ed) as (h' & E' & I' & L' & _ & Ch).
    + apply (array_ok h1 n ids); auto.
      * apply in_update_nodup; [exact (loose_ids_nodup h1 n ids I1 Ed)|exact Nc].
      * intros c Hc. apply in_update in Hc as [->|Hc]; auto. right. split; [lia|]. split; [lia|]. split; auto.
        split; [exists z; exact K|auto].
    + rewrite update_nth_split by auto. unfold list_put.
      apply Forall2_app; [now apply Forall2_firstn|]. constructor; auto. now apply Forall2_skipn.
    + exists h', (Ok tt). split; auto. split; auto. split; [destruct G; lia|]. split; auto.
      apply (changes_grows h h1); auto.
  - destruct (denotes_obj_inv h1 n m v Ed Dn) as (kvs & -> & F2).
    destruct i as [z|s]; [cbn [py_set]; apply Bad|]. cbn [py_set].
    assert (NDm : NoDup (keys m)) by (eapply (lo_nodup h1 I1); eauto).
    assert (InS : forall key c, In (key, c) (dset s (length h0) m) -> (key = s /\ c = length h0) \/ In (key, c) m).
    { intros key c Hin. apply (In_dget _ _ _ (NoDup_dset _ _ _ NDm)) in Hin.
      destruct (str_eq_dec key s) as [->|Ns].
      - rewrite dget_dset_same in Hin. injection Hin as <-. auto.
      - rewrite dget_dset_other in Hin by auto. right. now apply dget_In. }
    destruct (loose_store_obj h1 n m (dset s (length h0) m) (dict_put s w kvs) I1 ltac:(lia) Ed) as (h' & E' & I' & L' & Ch).
    + apply (object_ok h1 n m); auto.
      * now apply NoDup_dset.
      * intros key c Hc. apply InS in Hc as [[-> ->]|Hc]; auto. right. split; [lia|]. split; [lia|]. auto.
      * intros a b c A B [Uc _]. apply InS in A as [[-> ->]|A]; apply InS in B as [[-> E2]|B]; auto; exfalso.
        -- apply (Uc n b). eapply ca_member; eauto.
        -- apply (Uc n a). eapply ca_member; eauto.
        -- apply (Uc n a). eapply ca_member; eauto.
    + rewrite dict_put_dset by (rewrite <- (Forall2_keys _ _ _ F2); auto). now apply Forall2_dset.
    + exists h', (Ok tt). split; auto. split; auto. split; [destruct G; lia|]. split; auto.
      apply (changes_grows h h1); auto.
Qed.

Lemma loose_delitem h n i v : loose h -> n < length h -> denotes h n v ->
  exists h' r, delitem h n i = (r, h') /\ loose h' /\ length h <= length h' /\
    changes h h' n (py_del v i) /\
    match py_del v i with Some _ => r = Ok tt | None => exists e, r = Exn e end.
Proof.
  intros I Hn D. unfold delitem.
  assert (Bad : forall e, exists h' r, (@Exn unit e, h) = (r, h') /\ loose h' /\ length h <= length h' /\
     changes h h' n None /\ (exists e, r = Exn e)).
  { intro e. exists h, (Exn e). split; auto. split; auto. split; auto. split; eauto. apply loose_none; auto using grows_refl. }
  destruct (ndata (getn h n)) as [|b|x|s|ids|m] eqn:Ed.
  1-4: inversion D as [? E'|? ? E'|? ? E'|? ? E'|? ? ? E'|? ? ? E']; subst; rewrite Ed in E'; try discriminate;
    cbn [py_del]; apply Bad.
  - destruct (denotes_arr_inv h n ids v Ed D) as (l & -> & F2).
    destruct i as [z|s]; [|cbn [py_del]; apply Bad]. cbn [py_del]. rewrite position_norm, <- (Forall2_len _ _ _ F2).
    destruct (norm_index (length ids) z) as [k|] eqn:Ek; cbn [option_map]; [|apply Bad].
    pose proof (norm_index_bound _ _ _ Ek) as Lk.
    destruct (loose_store h n ids (remove_nth k ids) (list_del k l) I Hn Ed) as (h1 & E1 & I1 & L1 & K1 & Ch).
    + apply (array_ok h n ids); auto.
      * apply remove_nodup. exact (loose_ids_nodup h n ids I Ed).
      * intros c Hc. left. now apply In_remove_nth in Hc.
    + rewrite remove_nth_split by auto. unfold list_del. apply Forall2_app; [now apply Forall2_firstn|now apply Forall2_skipn].
    + rewrite E1. cbn [hbind].
      destruct (loose_renumber (-1)%Z (slice_from (remove_nth k ids) z) h1 I1) as (h2 & E2 & I2 & L2 & D2).
      { intros c Hc. apply K1. unfold slice_from in Hc. now apply In_skipn' in Hc. }
      exists h2, (Ok tt). split; auto. split; auto. split; [lia|]. split; auto. eapply changes_after; eauto.
  - destruct (denotes_obj_inv h n m v Ed D) as (kvs & -> & F2).
    destruct i as [z|s]; [cbn [py_del]; apply Bad|]. cbn [py_del].
    rewrite existsb_dmem. unfold dmem. pose proof (Forall2_dget h s m kvs F2) as Dg.
    assert (NDm : NoDup (keys m)) by (eapply (lo_nodup h I); eauto).
    destruct (dget s m) as [c|] eqn:Es; [|rewrite Dg; apply Bad]. destruct Dg as (v0 & -> & _).
    destruct (loose_store_obj h n m (ddel s m) (dict_del s kvs) I Hn Ed) as (h' & E' & I' & L' & Ch).
    + assert (Sub : forall k c, In (k, c) (ddel s m) -> In (k, c) m) by
        (clear; intros k x; induction m as [|[k' x'] m IH]; simpl; auto; destruct (str_eqb s k'); simpl; auto; tauto).
      apply (object_ok h n m); auto.
      * now apply NoDup_ddel.
      * intros a b x A B [U _]. exfalso. apply (U n a). eapply ca_member; eauto.
    + rewrite dict_del_ddel by (rewrite <- (Forall2_keys _ _ _ F2); auto). now apply Forall2_ddel.
    + exists h', (Ok tt). split; auto. split; auto. split; [lia|]. split; auto.
Qed.

Lemma loose_insert h n z o v w : loose h -> n < length h -> operand_ok h o -> denotes h n v -> operand_is h o w ->
  exists h' r, insert h n z o = (r, h') /\ loose h' /\ length h <= length h' /\
    changes h h' n (py_insert v z w) /\
    match py_insert v z w with Some _ => r = Ok tt | None => exists e, r = Exn e end.
Proof.
  intros I Hn OK D W. pose proof (loose_ordered h I) as O. unfold insert.
  destruct (ndata (getn h n)) as [|b|x|s|ids|m] eqn:E.
  1-4,6: exists h, (Exn EAttribute); split; auto; split; auto; split; auto;
    inversion D as [? E'|? ? E'|? ? E'|? ? E'|? ? ? E'|? ? ? E']; subst; rewrite E in E'; try discriminate;
    cbn [py_insert]; split; eauto; apply loose_none; auto using grows_refl.
  destruct (loose_made h n o w (str_of_Z z) I Hn OK W) as (h0 & h1 & E0 & E1 & I1 & G & F & I0 & L0 & L1 & D1 & S & U & K).
  rewrite E0. cbn [hbind]. rewrite E1.
  assert (Ed : ndata (getn h1 n) = DArr ids) by (rewrite <- E; exact (proj2 G n Hn)).
  assert (Dn : denotes h1 n v) by (apply (grows_denotes h h1); auto).
  destruct (denotes_arr_inv h1 n ids v Ed Dn) as (l & -> & F2). cbn [py_insert].
  rewrite insert_position_clamp, <- (Forall2_len _ _ _ F2).
  assert (Nc : ~ In (length h0) ids).
  { intro Hc. apply In_nth_error in Hc as (j & Hj). apply (proj1 S n (str_of_nat j)). econstructor; eauto. }
  set (k := clamp_index (length ids) z).
  destruct (loose_store h1 n ids (insert_nth k (length h0) ids) (list_ins k w l) I1 ltac:(lia) Ed) as (h' & E' & I' & L' & K' & Ch).
  - apply (array_ok h1 n ids); auto.
    + apply insert_nodup; [exact (loose_ids_nodup h1 n ids I1 Ed)|exact Nc].
    + intros c Hc. apply in_insert in Hc as [->|Hc]; auto. right. split; [lia|]. split; [lia|]. split; auto.
      split; [exists z; exact K|auto].
  - unfold insert_nth, list_ins. apply Forall2_app; [now apply Forall2_firstn|]. constructor; auto. now apply Forall2_skipn.
  - rewrite E'. cbn [hbind].
    destruct (loose_renumber 1%Z (slice_from (insert_nth k (length h0) ids) (z + 1)) h' I') as (h2 & E2 & I2 & L2 & D2).
    { intros c Hc. apply K'. unfold slice_from in Hc. now apply In_skipn' in Hc. }
    exists h2, (Ok tt). split; auto. split; auto. split; [destruct G; lia|]. split; auto.
    apply (changes_grows h h1); auto. eapply changes_after; eauto.
Qed.

Lemma loose_append h n o v w : loose h -> n < length h -> operand_ok h o -> denotes h n v -> operand_is h o w ->
  exists h' r, append h n o = (r, h') /\ loose h' /\ length h <= length h' /\
    match v with
    | JArr l => r = Ok tt /\ changes h h' n (Some (JArr (l ++ [w])))
    | _ => (exists e, r = Exn e) /\ changes h h' n None
    end.
Proof.
  intros C Hn OK D W. unfold append.
  assert (Bad : forall e, exists h' r, (@Exn unit e, h) = (r, h') /\ loose h' /\ length h <= length h' /\
     (exists e, r = Exn e) /\ changes h h' n None).
  { intro e. exists h, (Exn e). repeat (split; [solve [eauto]|]). apply loose_none; auto using grows_refl. }
  destruct (ndata (getn h n)) as [|b|x|s|ids|m] eqn:Ed.
  1-4: inversion D as [? E'|? ? E'|? ? E'|? ? E'|? ? ? E'|? ? ? E']; subst; rewrite Ed in E'; try discriminate;
    try (unfold insert; rewrite Ed); apply Bad.
  - destruct (denotes_arr_inv h n ids v Ed D) as (l & -> & F2).
    destruct (loose_insert h n (Z.of_nat (length ids)) o (JArr l) w C Hn OK D W) as (h' & r & Ei & C' & L' & Ch & R).
    cbn [py_insert] in *.
    rewrite insert_position_clamp, clamp_index_nat, (Forall2_len _ _ _ F2), Nat.min_id in Ch.
    unfold list_ins in Ch. rewrite firstn_all, skipn_all in Ch.
    exists h', r. split; [exact Ei|]. split; [exact C'|]. split; [exact L'|]. split; [exact R|exact Ch].
  - destruct (denotes_obj_inv h n m v Ed D) as (kvs & -> & F2). unfold insert. rewrite Ed. apply Bad.
Qed.
Lemma loose_getitem h n i v : loose h -> denotes h n v ->
  match py_get v i with
  | Some x => exists c k, getitem h n i = Ok c /\ child_at h n k c /\ denotes h c x
  | None => exists e, getitem h n i = Exn e
  end.
Proof.
  intros C D. unfold getitem. inversion D as [? Ed|? ? Ed|? ? Ed|? ? Ed|? ids l Ed Len Ch|? m kvs Ed Ek Ch]; subst; rewrite Ed;
    cbn [py_get]; try (destruct i; eauto; fail).
  - destruct i as [z|s]; [|eauto]. rewrite position_norm, <- Len. destruct (norm_index (length ids) z) as [k|] eqn:N; [|eauto].
    apply norm_index_bound in N. destruct (nth_error_lt ids k N) as (c & Hc). rewrite Hc.
    destruct (nth_error_lt l k ltac:(lia)) as (x & Hx). rewrite Hx. exists c, (str_of_nat k). split; auto.
    split; [econstructor; eauto|eauto].
  - destruct i as [z|s]; [eauto|]. clear D. revert kvs Ek Ch.
    assert (Sub : forall k c, In (k, c) m -> child_at h n k c) by (intros; eapply ca_member; eauto).
    clear Ed. induction m as [|[k c] m IH]; intros [|[k' x] kvs] Ek Ch; try discriminate; cbn [find dget option_map fst snd]; eauto.
    injection Ek as Ek1 Ek2. simpl in Ek1. subst k'. rewrite (str_eqb_sym s k). destruct (str_eqb k s) eqn:Es.
    + cbn [option_map snd]. exists c, k. split; auto. split; [apply Sub; now left|]. apply (Ch 0 k c k x); auto.
    + apply IH; auto.
      * intros; apply Sub; now right.
      * intros j a b a' b' Ha Hb. apply (Ch (S j) a b a' b'); auto.
Qed.
Lemma loose_child_kept h h' n k c r x : loose h -> n < length h -> changes h h' n r -> child_at h n k c -> denotes h c x -> denotes h' c x.
Proof.
  intros C Hn Ch Ca D. pose proof (loose_ordered _ C) as O. apply O in Ca as [L1 L2].
  destruct r; [|apply (Ch c); auto]. destruct Ch as (_ & K & _). apply (K c); auto.
  intros [p Lp]. apply (located_bound h c p n O) in Lp; auto. lia.
Qed.
Lemma loose_pop h n z v : loose h -> n < length h -> denotes h n v ->
  exists h' r, pop h n z = (r, h') /\ loose h' /\ length h <= length h' /\
    changes h h' n (py_del v (IInt z)) /\
    match py_get v (IInt z) with
    | Some x => exists c, r = Ok c /\ denotes h' c x
    | None => exists e, r = Exn e
    end.
Proof.
  intros C Hn D. unfold pop. pose proof (loose_getitem h n (IInt z) v C D) as G.
  destruct (loose_delitem h n (IInt z) v C Hn D) as (h' & r & Ed & C' & L' & Ch & R).
  destruct (py_get v (IInt z)) as [x|] eqn:Eg.
  - destruct G as (c & k & -> & Ca & Dx). rewrite Ed.
    assert (Some_ : exists v', py_del v (IInt z) = Some v').
    { destruct v; try discriminate. cbn [py_get py_del] in *. destruct (position _ z); [simpl; eauto|discriminate]. }
    destruct Some_ as (v' & Ev). rewrite Ev in *. subst r. cbn [hbind]. exists h', (Ok c).
    split; [reflexivity|]. split; [exact C'|]. split; [exact L'|]. split; [exact Ch|].
    exists c. split; auto. exact (loose_child_kept h h' n k c (Some v') x C Hn Ch Ca Dx).
  - destruct G as (e & ->). exists h, (Exn e). split; auto. split; auto. split; auto.
    assert (Ev : py_del v (IInt z) = None).
    { destruct v as [| | | |l|]; auto. cbn [py_get py_del] in *. destruct (position (length l) z) as [k|] eqn:P; auto.
      rewrite position_norm in P. apply norm_index_bound in P. apply nth_error_None in Eg. lia. }
    rewrite Ev. split; eauto. apply changes_none; auto using grows_refl, loose_ordered.
Qed.

(** *** Replacing the content of a node; new documents *)
Lemma built_children h n d hm : loose h -> n < length h -> fresh h hm -> data_ok d ->
  (forall k c, child_of d k c -> length h <= c /\ c < length hm /\ nparent (getn hm c) = Some n /\ nkey (getn hm c) = Some k) ->
  children_ok hm n d.
Proof.
  intros I Hn F K C. constructor; auto.
  - intros k c Hc. destruct (C k c Hc) as (A & B & P & _). split; [lia|]. split; auto. econstructor; eauto. constructor.
  - intros ids -> c Hc. apply In_nth_error in Hc as (j & Hj). destruct (C (str_of_nat j) c) as (A & B & _ & Q); [econstructor; eauto|].
    split; auto. exists (Z.of_nat j). now rewrite str_of_Z_nat.
  - intros k j x A B. apply C in A as (_ & _ & _ & Ka), B as (_ & _ & _ & Kb). congruence.
  - intros k x Hx. right. right. destruct (C k x Hx) as (A & B & P & _).
    apply (fresh_sole h hm x n); auto. now apply loose_ordered.
Qed.
Lemma loose_reinit h n w : loose h -> n < length h -> jwf w = true ->
  exists h', reinit h n w = (Ok tt, h') /\ loose h' /\ length h <= length h' /\ changes h h' n (Some w).
Proof.
  intros I Hn W. unfold reinit.
  destruct (init_spec w W h n (nparent (getn h n)) (nkey (getn h n)) Hn) as (hm & d & Eq & F & C & K & D).
  assert (Im := fresh_loose _ _ I F). pose proof (fr_len _ _ F) as L.
  assert (En : mkNode d (nparent (getn h n)) (nkey (getn h n)) (ncpath (getn h n)) (ncvalue (getn h n))
             = with_data (getn hm n) d) by (rewrite (fr_old _ _ F) by auto; reflexivity).
  rewrite Eq, En. rewrite Eq, En in D.
  destruct (loose_edit hm n d Im ltac:(lia) (built_children h n d hm I Hn F K C)) as (h' & E' & I' & L' & Lo & Dn & _).
  exists h'. split; auto. split; auto. split; [lia|].
  apply (changes_grows h hm); auto; [now apply loose_ordered|now apply grows_fresh|].
  apply loose_changes; auto. apply (denotes_data (setn hm n (with_data (getn hm n) d))); auto.
  intro m. rewrite getn_setn by lia. destruct (Nat.eqb_spec n m) as [<-|N]; [now rewrite Dn|].
  destruct (Nat.lt_ge_cases m (length hm)) as [Lm|Lm].
  - apply (proj2 Lo); auto.
  - rewrite !getn_out by lia. auto.
Qed.
Lemma loose_blank h : loose h -> loose (h ++ [blank]).
Proof.
  intro I. assert (L : length (h ++ [blank]) = S (length h)) by (rewrite app_length; simpl; lia).
  assert (Dt : same_data h (h ++ [blank])) by (intro m; now rewrite getn_blank).
  assert (Ca : forall a k c, child_at (h ++ [blank]) a k c -> child_at h a k c)
    by (intros a k c; apply child_at_data; now rewrite getn_blank).
  assert (Up : forall a b, up h a b -> up (h ++ [blank]) a b) by (intros a b; apply up_parents; intro x; now rewrite getn_blank).
  constructor.
  - intros n k c C. apply Ca in C. destruct (lo_child h I n k c C) as (A & B & U). rewrite L. auto.
  - intros n ids. rewrite getn_blank. intros Ed c Hc. destruct (lo_int h I n ids Ed c Hc). rewrite L, getn_blank. auto.
  - intros n m. rewrite getn_blank. apply (lo_nodup h I).
  - intros n p. rewrite getn_blank. apply (lo_parent h I).
  - intros a k j x A B. exact (lo_key h I a k j x (Ca _ _ _ A) (Ca _ _ _ B)).
  - intros a k b j x A B Lt. apply (unheld_data h); auto. exact (lo_once h I a k b j x (Ca _ _ _ A) (Ca _ _ _ B) Lt).
  - intros n v. rewrite getn_blank. intro V. apply (denotes_data h); auto. now apply (lo_value h I).
Qed.
Lemma loose_new_doc h v : loose h -> jwf v = true ->
  exists h', new_doc v h = (h', length h) /\ loose h' /\ length h < length h' /\ denotes h' (length h) v /\ grows h h'.
Proof.
  intros I W. unfold new_doc, new_node.
  assert (LA : length (h ++ [blank]) = S (length h)) by (rewrite app_length; simpl; lia).
  assert (IB := loose_blank h I).
  destruct (init_spec v W (h ++ [blank]) (length h) None None ltac:(lia)) as (hm & d & Eq & F & C & K & D).
  assert (Im := fresh_loose _ _ IB F). pose proof (fr_len _ _ F) as L.
  assert (Gs : getn hm (length h) = blank) by (rewrite (fr_old _ _ F) by lia; rewrite getn_blank; now apply getn_out).
  assert (En : mkNode d None None (ncpath (getn (h ++ [blank]) (length h))) (ncvalue (getn (h ++ [blank]) (length h)))
             = with_data (getn hm (length h)) d) by (rewrite getn_blank, Gs, getn_out by auto; reflexivity).
  rewrite Eq, En. rewrite Eq, En in D.
  destruct (loose_edit hm (length h) d Im ltac:(lia) (built_children (h ++ [blank]) (length h) d hm IB ltac:(lia) F K C))
    as (h' & E' & I' & L' & Lo & Dn & _).
  assert (Eh : h' = setn hm (length h) (with_data (getn hm (length h)) d)).
  { rewrite inval_value_root_id in E'; [congruence| | |].
    - rewrite getn_setn_same by lia. rewrite Gs. reflexivity.
    - rewrite getn_setn_same by lia. rewrite Gs. reflexivity.
    - rewrite length_setn. lia. }
  rewrite <- Eh in *. exists h'. split; auto. split; auto. split; [lia|]. split; auto. split; [lia|].
  intros m Hm. rewrite Eh. rewrite getn_setn_other by lia. rewrite (fr_old _ _ F) by lia. now rewrite getn_blank.
Qed.
Lemma loose_put h n o w : loose h -> n < length h -> operand_ok h o -> operand_is h o w ->
  exists h', hbind (operand_value h o) (fun v h => reinit h n v) = (Ok tt, h') /\ loose h' /\
    length h <= length h' /\ changes h h' n (Some w).
Proof.
  intros C Hn OK W. destruct (loose_operand h o w C OK W) as (h0 & -> & C0 & L0 & G & JW). cbn [hbind].
  destruct (loose_reinit h0 n w C0 ltac:(lia) JW) as (h' & -> & C' & L' & Ch). exists h'. split; auto. split; auto.
  split; [lia|]. apply (changes_grows h h0); auto. now apply loose_ordered.
Qed.
Lemma loose_read_path h n : loose h -> loose (snd (read_path h n)) /\ length (snd (read_path h n)) = length h.
Proof.
  intros I. unfold read_path. destruct (ncpath (getn h n)); [split; auto|].
  destruct (climb _ _ _ _); simpl; try (split; auto; fail).
  rewrite length_setn. split; auto. destruct (Nat.lt_ge_cases n (length h)) as [Hn|Hn]; [|now rewrite setn_out].
  apply (E_loose _ h); auto. apply E_intro; [apply length_setn|]. intros m _. rewrite getn_setn by auto.
  destruct (Nat.eqb_spec n m) as [<-|]; [|apply sim_refl]. destruct (sim_refl (getn h n)). now constructor.
Qed.

(** *** Adding by pointer *)
Lemma loose_located_eval p : forall h r n, loose h -> located h r p n -> eval_id p h r = Ok n.
Proof.
  induction p as [|k p IH]; intros h r n Sh L.
  - inversion L; subst; auto. destruct p; discriminate.
  - apply located_uncons in L as (c & C & L). cbn [eval_id].
    destruct (ndata (getn h r)) as [|b|x|s|ids|m] eqn:E;
      try (apply child_at_of in C; rewrite E in C; inversion C; discriminate).
    + destruct (child_at_arr _ _ _ _ _ E C) as (j & -> & Hj).
      rewrite <- str_of_Z_nat, py_int_str_of_Z. apply nth_error_bound in Hj as Lj.
      rewrite norm_index_nat by auto. rewrite Hj. auto.
    + apply (child_at_obj _ _ _ _ _ E) in C. rewrite (In_dget _ _ _ (lo_nodup h Sh r m E) C). auto.
Qed.
(** [add] at the node [tp] with the last key [k]. *)
Definition add_at (h : heap) (tp : id) (key : pystr) (o : operand) : res unit * heap :=
  match ndata (getn h tp) with
  | DArr ids =>
      let len := Z.of_nat (length ids) in
      if str_eqb key (lit "-") then insert h tp len o
      else match py_int key with
           | Some z => if (z =? len)%Z then insert h tp len o
                       else if ((0 <=? z) && (z <? len))%Z then insert h tp z o
                       else (Exn EJSON, h)
           | None => (Exn EJSON, h)
           end
  | DObj _ => setitem h tp (IStr key) o
  | _ => (Exn EJSON, h)
  end.
Lemma loose_add_at h tp key o v w : loose h -> tp < length h -> operand_ok h o -> operand_is h o w -> denotes h tp v ->
  exists h' r, add_at h tp key o = (r, h') /\ loose h' /\ length h <= length h' /\
    changes h h' tp (plain_add v key w) /\
    match plain_add v key w with Some _ => r = Ok tt | None => r = Exn EJSON end.
Proof.
  intros I Btp OK W Dv. unfold add_at.
  assert (Bad : plain_add v key w = None -> exists h' r, (@Exn unit EJSON, h) = (r, h') /\ loose h' /\ length h <= length h' /\
     changes h h' tp (plain_add v key w) /\ match plain_add v key w with Some _ => r = Ok tt | None => r = Exn EJSON end).
  { intros ->. exists h, (Exn EJSON). split; auto. split; auto. split; auto. split; auto. apply loose_none; auto using grows_refl. }
  assert (Ins : forall l z, v = JArr l -> (0 <= z <= Z.of_nat (length l))%Z -> plain_add v key w = plain_insert v z w ->
     exists h' r, insert h tp z o = (r, h') /\ loose h' /\ length h <= length h' /\
     changes h h' tp (plain_add v key w) /\ match plain_add v key w with Some _ => r = Ok tt | None => r = Exn EJSON end).
  { intros l z -> Hz ->. destruct (loose_insert h tp z o (JArr l) w I Btp OK Dv W) as (h' & r & Ei & I' & L' & Ch & R).
    exists h', r. split; auto. split; auto. split; auto. cbn [py_insert plain_insert] in *.
    replace ((0 <=? z) && (z <=? Z.of_nat (length l)))%Z with true by lia.
    assert (Ep : insert_position (length l) z = Z.to_nat z).
    { unfold insert_position. destruct (Z.ltb_spec z 0); lia. }
    rewrite Ep in Ch. split; auto. }
  destruct (ndata (getn h tp)) as [|b|x|s|ids|m] eqn:E.
  1-4: inversion Dv as [? E'|? ? E'|? ? E'|? ? E'|? ? ? E'|? ? ? E']; subst; rewrite E in E'; try discriminate;
    apply Bad; reflexivity.
  - destruct (denotes_arr_inv h tp ids v E Dv) as (l & Ev & F2). assert (Ln := Forall2_len _ _ _ F2).
    destruct (str_eqb key (lit "-")) eqn:Ek.
    + apply (Ins l); auto; [lia|]. subst v. cbn [plain_add]. rewrite Ek, Ln. reflexivity.
    + destruct (py_int key) as [z|] eqn:Ez.
      * destruct (Z.eqb_spec z (Z.of_nat (length ids))) as [->|Nz].
        -- apply (Ins l); auto; [lia|]. subst v. cbn [plain_add]. rewrite Ek, Ez.
           destruct (Z.leb_spec 0 (Z.of_nat (length ids))); [reflexivity|lia].
        -- destruct ((0 <=? z) && (z <? Z.of_nat (length ids)))%Z eqn:Er.
           ++ apply andb_prop in Er as [E1 E2]. apply (Ins l); auto; [lia|]. subst v. cbn [plain_add].
              rewrite Ek, Ez, E1. reflexivity.
           ++ apply Bad. subst v. cbn [plain_add plain_insert]. rewrite Ek, Ez.
              destruct (Z.leb_spec 0 z); auto. cbn [andb] in *. rewrite <- Ln.
              apply Z.ltb_ge in Er. destruct (Z.leb_spec z (Z.of_nat (length ids))); [lia|auto].
      * apply Bad. subst v. cbn [plain_add]. now rewrite Ek, Ez.
  - destruct (denotes_obj_inv h tp m v E Dv) as (kvs & -> & F2).
    destruct (loose_setitem h tp (IStr key) o (JObj kvs) w I Btp OK Dv W) as (h' & r & Es & I' & L' & Ch & R).
    exists h', r. cbn [plain_add py_set] in *. auto.
Qed.
Lemma pointer_parent (q : pointer) k : pointer_slice (q ++ [k]) None (Some (-1)%Z) = q.
Proof.
  unfold pointer_slice. assert (Ec : clamp_index (length (q ++ [k])) (-1) - 0 = length q + 0).
  { unfold clamp_index. rewrite app_length. cbn [length Z.ltb Z.compare]. lia. }
  rewrite Ec. cbn [skipn]. rewrite firstn_app_2. simpl. now rewrite app_nil_r.
Qed.
Lemma loose_add h n q k tp v o w : loose h -> n < length h -> operand_ok h o -> operand_is h o w ->
  located h n q tp -> denotes h tp v ->
  exists h' r, json_add h n (PKeys (q ++ [k])) o = (r, h') /\ loose h' /\ length h <= length h' /\
  changes h h' tp (plain_add v k w) /\
  match plain_add v k w with Some _ => r = Ok tt | None => r = Exn EJSON end.
Proof.
  intros I Hn OK W Lc D. unfold json_add.
  assert (PE : path_empty (PKeys (q ++ [k])) = false) by (destruct q; reflexivity). rewrite PE.
  change (mk_pointer [PKeys (q ++ [k])]) with (@Ok pointer (q ++ [k])). cbv iota.
  rewrite pointer_parent, last_last, (loose_located_eval q h n tp I Lc). cbn [as_json_error].
  apply (loose_add_at h tp k o v w); auto. apply (located_bound h n q tp (loose_ordered h I) Hn) in Lc. lia.
Qed.
Lemma loose_add_keeps h n p o : loose h -> n < length h -> operand_ok h o ->
  loose (snd (json_add h n p o)) /\ length h <= length (snd (json_add h n p o)).
Proof.
  intros I Hn OK. destruct (loose_operand_total h o I OK) as (w & W). unfold json_add.
  destruct (path_empty p).
  - destruct (loose_put h n o w I Hn OK W) as (h' & -> & I' & L' & _). auto.
  - destruct (mk_pointer [p]) as [q|e|]; auto.
    destruct (as_json_error (eval_id (pointer_slice q None (Some (-1)%Z)) h n)) as [tp|e|] eqn:Ev; auto.
    apply as_json_error_ok in Ev. destruct (eval_id_located _ h n tp Ev) as (q' & Lq & _).
    apply (located_bound h n q' tp (loose_ordered h I) Hn) in Lq as [_ Btp].
    destruct (loose_total h tp I Btp) as (v & D).
    destruct (loose_add_at h tp (last q []) o v w I Btp OK W D) as (h' & r & Eq & I' & L' & _). unfold add_at in Eq.
    cbv zeta in *. rewrite Eq. auto.
Qed.
