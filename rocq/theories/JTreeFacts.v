(** Proofs about linked JSON documents. *)
From Verif Require Export PointerFacts JsonFacts JTree SpecTree.
Open Scope nat_scope.

(** ** Heap access *)
Lemma getn_out h n : length h <= n -> getn h n = blank.
Proof. intro. unfold getn. now apply nth_overflow. Qed.

Lemma length_setn h n x : length (setn h n x) = length h.
Proof. apply length_update_nth. Qed.

Lemma getn_setn_same h n x : n < length h -> getn (setn h n x) n = x.
Proof.
  intro H. unfold getn, setn. apply nth_error_nth. now apply nth_error_update_same.
Qed.
Lemma getn_setn_other h n m x : n <> m -> getn (setn h n x) m = getn h m.
Proof.
  intro H. unfold getn, setn.
  destruct (Nat.lt_ge_cases m (length h)).
  - destruct (nth_error h m) eqn:E; [|apply nth_error_None in E; lia].
    rewrite (nth_error_nth _ _ _ E). apply nth_error_nth. now rewrite nth_error_update_other.
  - rewrite !nth_overflow; auto. now rewrite length_update_nth.
Qed.
Lemma getn_setn h n m x : n < length h -> getn (setn h n x) m = if Nat.eqb n m then x else getn h m.
Proof.
  intro H. destruct (Nat.eqb_spec n m); subst; [now apply getn_setn_same|now apply getn_setn_other].
Qed.
Lemma setn_out h n x : length h <= n -> setn h n x = h.
Proof. unfold setn. revert n; induction h; destruct n; simpl; intro H; auto; try lia. now rewrite IHh by lia. Qed.

Lemma getn_app h x n : getn (h ++ [x]) n = if Nat.eqb n (length h) then x else getn h n.
Proof.
  unfold getn. destruct (Nat.eqb_spec n (length h)).
  - subst. rewrite app_nth2 by lia. now rewrite Nat.sub_diag.
  - destruct (Nat.lt_ge_cases n (length h)).
    + now rewrite app_nth1.
    + rewrite !nth_overflow; auto. rewrite app_length; simpl; lia.
Qed.

Lemma str_of_Z_nat n : str_of_Z (Z.of_nat n) = str_of_nat n.
Proof. unfold str_of_Z, str_of_nat. destruct (Z.ltb_spec (Z.of_nat n) 0); [lia|]. f_equal. lia. Qed.

(** ** Relations that depend on [ndata] only *)
Definition same_data (h h' : heap) : Prop := forall n, ndata (getn h' n) = ndata (getn h n).

Lemma child_at_data h h' n k c : ndata (getn h' n) = ndata (getn h n) ->
  child_at h n k c -> child_at h' n k c.
Proof. intros E H. destruct H; econstructor; eauto; congruence. Qed.

Lemma located_data h h' r p n : same_data h h' -> located h r p n -> located h' r p n.
Proof. intros E H. induction H; econstructor; eauto. eapply child_at_data; eauto. Qed.

Lemma denotes_data h h' n v : same_data h h' -> denotes h n v -> denotes h' n v.
Proof. intros E H. induction H; econstructor; eauto; rewrite E; eauto. Qed.

Lemma same_data_sym h h' : same_data h h' -> same_data h' h.
Proof. intros E n. now rewrite E. Qed.
Lemma same_data_trans h1 h2 h3 : same_data h1 h2 -> same_data h2 h3 -> same_data h1 h3.
Proof. intros E F n. now rewrite F, E. Qed.
Lemma same_data_refl h : same_data h h.
Proof. intro; auto. Qed.

(** Frame: [denotes] only reads a closed region containing the node. *)
Lemma denotes_region h h' (R : id -> Prop) n v :
  (forall m, R m -> ndata (getn h' m) = ndata (getn h m)) ->
  (forall m k c, R m -> child_at h m k c -> R c) ->
  R n -> denotes h n v -> denotes h' n v.
Proof.
  intros E C Rn H. revert Rn. induction H; intro Rn;
    try (econstructor; rewrite E; now eauto).
  - econstructor; [rewrite E; eauto|auto|]. intros i c v Hc Hv. eapply H2; eauto.
    eapply C; [exact Rn|]. econstructor; eauto.
  - econstructor; [rewrite E; eauto|auto|]. intros i k c k' v Hc Hv. eapply H2; eauto.
    eapply C; [exact Rn|]. eapply ca_member; eauto. eapply nth_error_In; eauto.
Qed.


Lemma nth_error_ext {A} (l l' : list A) : (forall i, nth_error l i = nth_error l' i) -> l = l'.
Proof.
  revert l'; induction l as [|x l IH]; intros [|y l'] H; auto.
  - specialize (H 0); discriminate.
  - specialize (H 0); discriminate.
  - f_equal; [specialize (H 0); now injection H|]. apply IH. intro i. exact (H (S i)).
Qed.

Lemma nth_error_lt {A} (l : list A) i : i < length l -> exists x, nth_error l i = Some x.
Proof. intro H. destruct (nth_error l i) eqn:E; eauto. apply nth_error_None in E. lia. Qed.
Lemma nth_error_bound {A} (l : list A) i x : nth_error l i = Some x -> i < length l.
Proof. intro H. apply nth_error_Some. congruence. Qed.
Lemma nth_error_same_length {A B} (l : list A) (l' : list B) i x :
  length l = length l' -> nth_error l i = Some x -> exists y, nth_error l' i = Some y.
Proof. intros L H. apply nth_error_bound in H. apply nth_error_lt. lia. Qed.
Lemma nth_error_fst {A B} (m : list (A * B)) i k c : nth_error m i = Some (k, c) -> nth_error (map fst m) i = Some k.
Proof. intro H. apply (map_nth_error fst) in H. exact H. Qed.

Lemma denotes_fun h n v w : denotes h n v -> denotes h n w -> v = w.
Proof.
  intro H. revert w. induction H as [n E|n b E|n x E|n s E|n ids l E L _ IH|n m kvs E K _ IH];
    intros w Hw; inversion Hw as [? E'|? ? E'|? ? E'|? ? E'|? ids' l' E' L' H'|? m' kvs' E' K' H']; subst;
    rewrite E in E'; try discriminate; try (injection E' as <-; reflexivity).
  - reflexivity.
  - injection E' as <-. f_equal. apply nth_error_ext. intro i.
    destruct (nth_error ids i) as [c|] eqn:Ec.
    + destruct (nth_error_same_length _ _ _ _ L Ec) as (a & Ea).
      destruct (nth_error_same_length _ _ _ _ L' Ec) as (b & Eb).
      rewrite Ea, Eb. f_equal. eapply IH; eauto.
    + apply nth_error_None in Ec.
      assert (nth_error l i = None) as -> by (apply nth_error_None; lia).
      symmetry. apply nth_error_None. lia.
  - injection E' as <-. f_equal. apply nth_error_ext. intro i.
    assert (LK : length m = length kvs) by (rewrite <- (map_length fst m), K, map_length; auto).
    assert (LK' : length m = length kvs') by (rewrite <- (map_length fst m), K', map_length; auto).
    destruct (nth_error m i) as [[k c]|] eqn:Ec.
    + destruct (nth_error_same_length _ _ _ _ LK Ec) as ([ka a] & Ea).
      destruct (nth_error_same_length _ _ _ _ LK' Ec) as ([kb b] & Eb).
      rewrite Ea, Eb. f_equal.
      apply nth_error_fst in Ec as Fc. pose proof (nth_error_fst _ _ _ _ Ea) as Fa.
      pose proof (nth_error_fst _ _ _ _ Eb) as Fb. rewrite <- K in Fa. rewrite <- K' in Fb.
      f_equal; [congruence|]. eapply IH; eauto.
    + apply nth_error_None in Ec.
      assert (nth_error kvs i = None) as -> by (apply nth_error_None; lia).
      symmetry. apply nth_error_None. lia.
Qed.

(** ** The invariant *)
Definition ordered (h : heap) : Prop :=
  forall n k c, child_at h n k c -> n < c /\ c < length h.

Record shape (h : heap) : Prop := {
  sh_child : forall n k c, child_at h n k c ->
    n < c /\ c < length h /\ nparent (getn h c) = Some n /\ nkey (getn h c) = Some k;
  sh_nodup : forall n m, ndata (getn h n) = DObj m -> NoDup (keys m);
  sh_parent : forall n p, nparent (getn h n) = Some p -> p < n /\ exists k, nkey (getn h n) = Some k
}.

Record inv (h : heap) : Prop := {
  inv_shape : shape h;
  inv_value : forall n v, ncvalue (getn h n) = Some v -> denotes h n v;
  inv_path : forall r p n q, is_root h r -> located h r p n -> ncpath (getn h n) = Some q -> q = p
}.

Lemma shape_ordered h : shape h -> ordered h.
Proof. intros S n k c H. destruct (sh_child h S n k c H) as (? & ? & _). auto. Qed.

Lemma located_bound h r p n : ordered h -> r < length h -> located h r p n -> r <= n /\ n < length h.
Proof. intros O R H. induction H; [lia|]. apply O in H0. lia. Qed.

(** Existence of the denoted value. *)
Lemma denotes_total h n : ordered h -> n < length h -> exists v, denotes h n v.
Proof.
  intro O. remember (length h - n) as d eqn:Ed. revert n Ed.
  induction d as [d IH] using (well_founded_induction lt_wf). intros n Ed Hn.
  assert (C : forall k c, child_at h n k c -> exists v, denotes h c v).
  { intros k c Hc. apply O in Hc. eapply (IH (length h - c)); lia. }
  destruct (ndata (getn h n)) as [|b|x|s|ids|m] eqn:E; try (eexists; econstructor; eauto; fail).
  - assert (A : exists l, length ids = length l /\
      forall i c v, nth_error ids i = Some c -> nth_error l i = Some v -> denotes h c v).
    { assert (C' : forall i c, nth_error ids i = Some c -> exists v, denotes h c v)
        by (intros i c Hc; eapply C; econstructor; eauto).
      clear - C'. induction ids as [|c ids IHi].
      - exists []. split; auto. intros [|i] c v H; discriminate.
      - destruct (C' 0 c eq_refl) as (v & Hv).
        destruct IHi as (l & L & Hl); [intros i c' Hc'; apply (C' (S i) c' Hc')|].
        exists (v :: l). split; [simpl; congruence|].
        intros [|i] c' v' Hc' Hv'; simpl in *; [congruence|eauto]. }
    destruct A as (l & L & Hl). exists (JArr l). econstructor; eauto.
  - assert (A : exists kvs, map fst m = map fst kvs /\
      forall i k c k' v, nth_error m i = Some (k, c) -> nth_error kvs i = Some (k', v) -> denotes h c v).
    { assert (C' : forall i k c, nth_error m i = Some (k, c) -> exists v, denotes h c v)
        by (intros i k c Hc; eapply C; eapply ca_member; eauto; eapply nth_error_In; eauto).
      clear - C'. induction m as [|[k c] m IHm].
      - exists []. split; auto. intros [|i] * H; discriminate.
      - destruct (C' 0 k c eq_refl) as (v & Hv).
        destruct IHm as (l & L & Hl); [intros i k' c' Hc'; apply (C' (S i) k' c' Hc')|].
        exists ((k, v) :: l). split; [simpl; congruence|].
        intros [|i] k1 c' k' v' Hc' Hv'; simpl in *; [congruence|eauto]. }
    destruct A as (l & L & Hl). exists (JObj l). econstructor; eauto.
Qed.

(** Paths are unique. *)
Lemma located_unique h r r' p p' n : shape h -> is_root h r -> is_root h r' ->
  located h r p n -> located h r' p' n -> r = r' /\ p = p'.
Proof.
  intros S [R R0] [R' R0'] H. revert p'. induction H as [|p n k c H IH C]; intros p' H'.
  - inversion H' as [|p2 n2 k2 c2 H2 C2]; subst; auto.
    apply (sh_child h S) in C2 as (_ & _ & P & _). congruence.
  - apply (sh_child h S) in C as (_ & _ & P & K).
    inversion H' as [|p2 n2 k2 c2 H2 C2]; subst; [congruence|].
    apply (sh_child h S) in C2 as (_ & _ & P2 & K2).
    assert (n2 = n) by congruence. assert (k2 = k) by congruence. subst.
    destruct (IH _ H2) as [-> ->]. auto.
Qed.

(** Climbing computes the location. *)
Lemma climb_located h r p n : shape h -> is_root h r -> located h r p n ->
  forall f acc, n < f -> climb f h n acc = Ok (p ++ acc).
Proof.
  intros S [R R0] H. induction H as [|p n k c H IH C]; intros f acc Hf.
  - destruct f; [lia|]. simpl. now rewrite R0.
  - apply (sh_child h S) in C as (L & _ & P & K).
    destruct f; [lia|]. simpl. rewrite P, K. rewrite IH by lia. now rewrite <- app_assoc.
Qed.

Lemma climb_total h n : shape h -> forall f acc, n < f -> exists p, climb f h n acc = Ok p.
Proof.
  intro S. induction n as [n IH] using (well_founded_induction lt_wf). intros f acc Hf.
  destruct f; [lia|]. simpl. destruct (nparent (getn h n)) as [p|] eqn:P; eauto.
  apply (sh_parent h S) in P as (L & k & ->). apply IH; lia.
Qed.

(** ** Heaps that differ in caches only *)
Definition same_tree (h h' : heap) : Prop :=
  length h' = length h /\
  forall n, ndata (getn h' n) = ndata (getn h n) /\ nparent (getn h' n) = nparent (getn h n)
            /\ nkey (getn h' n) = nkey (getn h n).

Lemma same_tree_data h h' : same_tree h h' -> same_data h h'.
Proof. intros [_ E] n. apply E. Qed.
Lemma same_tree_sym h h' : same_tree h h' -> same_tree h' h.
Proof. intros [L E]. split; auto. intro n. destruct (E n) as (? & ? & ?). auto. Qed.
Lemma same_tree_refl h : same_tree h h.
Proof. split; auto. Qed.
Lemma same_tree_trans h1 h2 h3 : same_tree h1 h2 -> same_tree h2 h3 -> same_tree h1 h3.
Proof.
  intros [L E] [L' E']. split; [congruence|]. intro n. destruct (E n) as (? & ? & ?), (E' n) as (? & ? & ?).
  repeat split; congruence.
Qed.

Lemma shape_same_tree h h' : same_tree h h' -> shape h -> shape h'.
Proof.
  intros T S. pose proof (same_tree_sym _ _ T) as T'. destruct T as [L E]. constructor.
  - intros n k c H. apply (child_at_data h' h) in H; [|apply T'].
    apply (sh_child h S) in H as (? & ? & P & K). destruct (E c) as (_ & -> & ->). rewrite L. auto.
  - intros n m H. destruct (E n) as (D & _). rewrite D in H. eapply sh_nodup; eauto.
  - intros n p H. destruct (E n) as (_ & P & K). rewrite P in H. rewrite K. eapply sh_parent; eauto.
Qed.

Lemma is_root_same_tree h h' r : same_tree h h' -> is_root h r -> is_root h' r.
Proof. intros [L E] [R P]. split; [lia|]. destruct (E r) as (_ & -> & _). auto. Qed.

(** Dropping or keeping cache entries preserves the invariant. *)
Definition caches_le (h h' : heap) : Prop :=
  forall n, (ncpath (getn h' n) = None \/ ncpath (getn h' n) = ncpath (getn h n)) /\
            (ncvalue (getn h' n) = None \/ ncvalue (getn h' n) = ncvalue (getn h n)).

Lemma inv_drop h h' : same_tree h h' -> caches_le h h' -> inv h -> inv h'.
Proof.
  intros T C I. pose proof (same_tree_data _ _ T) as D. constructor.
  - eapply shape_same_tree; eauto. apply I.
  - intros n v H. destruct (C n) as [_ [E|E]]; rewrite E in H; [discriminate|].
    eapply denotes_data; eauto. now apply (inv_value h I).
  - intros r p n q R L H. destruct (C n) as [[E|E] _]; rewrite E in H; [discriminate|].
    apply (inv_path h I r p n q); auto.
    + eapply is_root_same_tree; eauto. now apply same_tree_sym.
    + eapply located_data; eauto. now apply same_data_sym.
Qed.

(** *** Reading a path *)
Lemma setn_tree h n x : ndata x = ndata (getn h n) -> nparent x = nparent (getn h n) ->
  nkey x = nkey (getn h n) -> same_tree h (setn h n x).
Proof.
  intros D P K. split; [apply length_setn|]. intro m.
  destruct (Nat.lt_ge_cases n (length h)).
  - rewrite getn_setn by auto. destruct (Nat.eqb_spec n m); subst; auto.
  - rewrite setn_out by auto. auto.
Qed.

Lemma read_path_spec h n : inv h -> n < length h ->
  exists p h', read_path h n = (Ok p, h') /\ same_tree h h' /\ inv h' /\
    (forall r q, is_root h r -> located h r q n -> p = q).
Proof.
  intros I Hn. unfold read_path. destruct (ncpath (getn h n)) as [p|] eqn:E.
  - exists p, h. split; auto. split; [apply same_tree_refl|]. split; auto.
    intros r q R L. eapply inv_path; eauto.
  - destruct (climb_total h n (inv_shape h I) (S (length h)) [] ltac:(lia)) as (p & Ep).
    rewrite Ep. exists p, (setn h n (with_cpath (getn h n) (Some p))).
    assert (T : same_tree h (setn h n (with_cpath (getn h n) (Some p)))) by (apply setn_tree; reflexivity).
    assert (U : forall r q, is_root h r -> located h r q n -> p = q).
    { intros r q R L. rewrite (climb_located h r q n (inv_shape h I) R L) in Ep by lia.
      injection Ep as <-. now rewrite app_nil_r. }
    split; auto. split; auto. split; auto. constructor.
    + eapply shape_same_tree; eauto. apply I.
    + intros m v H. eapply denotes_data; [apply same_tree_data; eauto|].
      apply (inv_value h I). rewrite getn_setn in H by auto.
      destruct (Nat.eqb_spec n m); subst; auto.
    + intros r q m q' R L H. rewrite getn_setn in H by auto.
      apply (is_root_same_tree _ _ _ (same_tree_sym _ _ T)) in R.
      apply (located_data _ h) in L; [|apply same_data_sym, same_tree_data; auto].
      destruct (Nat.eqb_spec n m); subst.
      * simpl in H. injection H as <-. eauto.
      * eapply inv_path; eauto.
Qed.

(** *** Reading a value *)
Lemma store_value_spec h n v : inv h -> n < length h -> denotes h n v ->
  same_tree h (setn h n (with_cvalue (getn h n) (Some v))) /\ inv (setn h n (with_cvalue (getn h n) (Some v))).
Proof.
  intros I Hn D.
  assert (T : same_tree h (setn h n (with_cvalue (getn h n) (Some v)))) by (apply setn_tree; reflexivity).
  split; auto. constructor.
  - eapply shape_same_tree; eauto. apply I.
  - intros m w H. eapply denotes_data; [apply same_tree_data; eauto|].
    rewrite getn_setn in H by auto. destruct (Nat.eqb_spec n m); subst.
    + simpl in H. now injection H as <-.
    + now apply (inv_value h I).
  - intros r p m q R L H. rewrite getn_setn in H by auto.
    apply (is_root_same_tree _ _ _ (same_tree_sym _ _ T)) in R.
    apply (located_data _ h) in L; [|apply same_data_sym, same_tree_data; auto].
    apply (inv_path h I r p m q); auto. destruct (Nat.eqb_spec n m); subst; auto.
Qed.

Lemma read_value_f_spec f : forall h n, inv h -> n < length h -> length h - n < f ->
  exists v h', read_value_f f h n = (Ok v, h') /\ denotes h n v /\ same_tree h h' /\ inv h'.
Proof.
  induction f as [|f IH]; intros h n I Hn Hf; [lia|].
  cbn [read_value_f]. destruct (ncvalue (getn h n)) as [v|] eqn:EV.
  { exists v, h. split; auto. split; [now apply (inv_value h I)|]. split; auto. apply same_tree_refl. }
  destruct (ndata (getn h n)) as [|b|x|s|ids|m] eqn:E.
  1-4: match goal with |- context [with_cvalue _ (Some ?v)] =>
      destruct (store_value_spec h n v I Hn) as [T I']; [econstructor; eauto|]; do 2 eexists;
      split; [reflexivity|]; split; [econstructor; eauto|]; auto end.
  - set (store := fun (v : json) (h0 : heap) => (Ok v, setn h0 n (with_cvalue (getn h0 n) (Some v)))).
    assert (G : forall rest done acc h1, ids = done ++ rest -> same_tree h h1 -> inv h1 ->
      length acc = length done ->
      (forall i c v, nth_error done i = Some c -> nth_error (rev acc) i = Some v -> denotes h c v) ->
      exists v h', (fix go (ids : list id) (h : heap) (acc : list json) : res json * heap :=
                 match ids with
                 | [] => store (JArr (rev acc)) h
                 | c :: r => match read_value_f f h c with
                             | (Ok v, h') => go r h' (v :: acc)
                             | (Exn e, h') => (Exn e, h')
                             | (Fuel, h') => (Fuel, h')
                             end
                 end) rest h1 acc = (Ok v, h') /\ denotes h n v /\ same_tree h h' /\ inv h').
    { induction rest as [|c rest IHr]; intros done acc h1 Eids T I1 La Hd.
      - rewrite app_nil_r in Eids. subst done.
        assert (D : denotes h n (JArr (rev acc))).
        { econstructor; eauto. rewrite rev_length. lia. }
        unfold store. exists (JArr (rev acc)). eexists. split; [reflexivity|]. split; auto.
        destruct (store_value_spec h1 n (JArr (rev acc)) I1) as [T' I'].
        + destruct T as [-> _]. auto.
        + eapply denotes_data; eauto. now apply same_tree_data.
        + split; auto. eapply same_tree_trans; eauto.
      - assert (C : child_at h n (str_of_nat (length done)) c).
        { econstructor; eauto. rewrite Eids, nth_error_app2 by lia. now rewrite Nat.sub_diag. }
        apply (shape_ordered h (inv_shape h I)) in C.
        assert (L1 : length h1 = length h) by apply T.
        destruct (IH h1 c I1 ltac:(lia) ltac:(lia)) as (v & h2 & -> & D & T2 & I2).
        apply (denotes_data h1 h) in D; [|apply same_data_sym, same_tree_data; auto].
        apply (IHr (done ++ [c]) (v :: acc) h2).
        + now rewrite <- app_assoc.
        + eapply same_tree_trans; eauto.
        + auto.
        + rewrite app_length. simpl. lia.
        + intros i c' v' Hc' Hv'. cbn [rev] in Hv'.
          destruct (Nat.lt_ge_cases i (length done)).
          * rewrite nth_error_app1 in Hc' by auto. rewrite nth_error_app1 in Hv' by (rewrite rev_length; lia). eauto.
          * rewrite nth_error_app2 in Hc' by auto. rewrite nth_error_app2 in Hv' by (rewrite rev_length; lia).
            rewrite rev_length, La in Hv'. destruct (i - length done) as [|[|]]; simpl in *; try discriminate. congruence. }
    apply (G ids [] [] h); auto. { apply same_tree_refl. } intros [|i] c v H; discriminate.
  - set (store := fun (v : json) (h0 : heap) => (Ok v, setn h0 n (with_cvalue (getn h0 n) (Some v)))).
    assert (G : forall rest done acc h1, m = done ++ rest -> same_tree h h1 -> inv h1 ->
      map fst (rev acc) = map fst done ->
      (forall i k c k' v, nth_error done i = Some (k, c) -> nth_error (rev acc) i = Some (k', v) -> denotes h c v) ->
      exists v h', (fix go (m : list (pystr * id)) (h : heap) (acc : list (pystr * json)) : res json * heap :=
                 match m with
                 | [] => store (JObj (rev acc)) h
                 | (k, c) :: r => match read_value_f f h c with
                                  | (Ok v, h') => go r h' ((k, v) :: acc)
                                  | (Exn e, h') => (Exn e, h')
                                  | (Fuel, h') => (Fuel, h')
                                  end
                 end) rest h1 acc = (Ok v, h') /\ denotes h n v /\ same_tree h h' /\ inv h').
    { induction rest as [|[k c] rest IHr]; intros done acc h1 Eids T I1 La Hd.
      - rewrite app_nil_r in Eids. subst done.
        assert (D : denotes h n (JObj (rev acc))) by (econstructor; eauto).
        unfold store. exists (JObj (rev acc)). eexists. split; [reflexivity|]. split; auto.
        destruct (store_value_spec h1 n (JObj (rev acc)) I1) as [T' I'].
        + destruct T as [-> _]. auto.
        + eapply denotes_data; eauto. now apply same_tree_data.
        + split; auto. eapply same_tree_trans; eauto.
      - assert (C : child_at h n k c).
        { eapply ca_member; eauto. rewrite Eids. apply in_or_app. right. now left. }
        apply (shape_ordered h (inv_shape h I)) in C.
        assert (L1 : length h1 = length h) by apply T.
        destruct (IH h1 c I1 ltac:(lia) ltac:(lia)) as (v & h2 & -> & D & T2 & I2).
        apply (denotes_data h1 h) in D; [|apply same_data_sym, same_tree_data; auto].
        assert (LA : length (rev acc) = length done)
          by (rewrite <- (map_length fst (rev acc)), La, map_length; auto).
        apply (IHr (done ++ [(k, c)]) ((k, v) :: acc) h2).
        + now rewrite <- app_assoc.
        + eapply same_tree_trans; eauto.
        + auto.
        + cbn [rev]. rewrite !map_app, La. reflexivity.
        + intros i k1 c' k2 v' Hc' Hv'. cbn [rev] in Hv'.
          destruct (Nat.lt_ge_cases i (length done)).
          * rewrite nth_error_app1 in Hc' by auto. rewrite nth_error_app1 in Hv' by lia. eauto.
          * rewrite nth_error_app2 in Hc' by auto. rewrite nth_error_app2 in Hv' by lia.
            rewrite LA in Hv'. destruct (i - length done) as [|[|]]; simpl in *; try discriminate. congruence. }
    apply (G m [] [] h); auto. { apply same_tree_refl. } intros [|i] * H; discriminate.
Qed.

Lemma read_value_spec h n : inv h -> n < length h ->
  exists v h', read_value h n = (Ok v, h') /\ denotes h n v /\ same_tree h h' /\ inv h'.
Proof. intros. apply read_value_f_spec; auto. lia. Qed.

Lemma operand_value_spec h o : inv h -> operand_ok h o ->
  exists v h', operand_value h o = (Ok v, h') /\ same_tree h h' /\ inv h' /\
    match o with OVal w => v = w | ONode n => denotes h n v end.
Proof.
  intros I H. destruct o as [w|n]; simpl in *.
  - exists w, h. split; auto. split; [apply same_tree_refl|auto].
  - destruct (read_value_spec h n I H) as (v & h' & E & D & T & I'). eauto 10.
Qed.

(** *** Invalidation upwards *)
Inductive up (h : heap) (n : id) : id -> Prop :=
| up_self : up h n n
| up_step m p : up h n m -> nparent (getn h m) = Some p -> up h n p.

Lemma up_trans_parent h n p m : nparent (getn h n) = Some p -> up h p m -> up h n m.
Proof.
  intros P H. induction H; [econstructor; eauto; constructor|econstructor; eauto].
Qed.

Lemma up_cases h n m : up h n m -> m = n \/ exists p, nparent (getn h n) = Some p /\ up h p m.
Proof.
  induction 1 as [|m p H [->|(q & Q & U)] P]; auto.
  - right. exists p. split; auto. constructor.
  - right. exists q. split; auto. econstructor; eauto.
Qed.

Definition parents_lt (h : heap) : Prop := forall n p, nparent (getn h n) = Some p -> p < n.

Lemma shape_parents h : shape h -> parents_lt h.
Proof. intros S n p H. now apply (sh_parent h S) in H. Qed.

Lemma inval_value_f_spec f : forall h n, parents_lt h -> n < f -> n < length h ->
  exists h', inval_value_f f h n = (Ok tt, h') /\ same_tree h h' /\
    (forall m, ncpath (getn h' m) = ncpath (getn h m)) /\
    (forall m, up h n m -> ncvalue (getn h' m) = None) /\
    (forall m, ncvalue (getn h' m) = None \/ ncvalue (getn h' m) = ncvalue (getn h m)).
Proof.
  induction f as [|f IH]; intros h n S Hf Hn; [lia|]. cbn [inval_value_f].
  set (h1 := setn h n (with_cvalue (getn h n) None)).
  assert (T : same_tree h h1) by (apply setn_tree; reflexivity).
  assert (P1 : forall m, ncpath (getn h1 m) = ncpath (getn h m)).
  { intro m. unfold h1. rewrite getn_setn by auto. destruct (Nat.eqb_spec n m); subst; auto. }
  assert (V1 : forall m, ncvalue (getn h1 m) = None \/ ncvalue (getn h1 m) = ncvalue (getn h m)).
  { intro m. unfold h1. rewrite getn_setn by auto. destruct (Nat.eqb_spec n m); subst; auto. }
  assert (VN : ncvalue (getn h1 n) = None) by (unfold h1; now rewrite getn_setn_same).
  destruct T as [L E]. destruct (E n) as (_ & EP & _). fold h1. rewrite EP.
  destruct (nparent (getn h n)) as [p|] eqn:P.
  - pose proof (S n p P) as Lp.
    destruct (IH h1 p) as (h' & E' & T' & CP & CU & CV).
    + intros a b Hab. destruct (E a) as (_ & EA & _). rewrite EA in Hab. now apply S.
    + lia.
    + lia.
    + exists h'. split; auto. split; [eapply same_tree_trans; eauto; split; auto|].
      split; [intro m; now rewrite CP, P1|]. split.
      * intros m U. apply up_cases in U as [->|(q & Q & U)].
        -- destruct (CV n) as [A|A]; auto. now rewrite A.
        -- assert (q = p) by congruence. subst q. apply CU.
           clear - U E. induction U; [constructor|]. econstructor; eauto.
           destruct (E m) as (_ & -> & _). auto.
      * intro m. destruct (CV m) as [A|A]; auto. rewrite A. apply V1.
  - exists h1. split; auto. split; [split; auto|]. split; auto. split; auto.
    intros m U. apply up_cases in U as [->|(q & Q & U)]; auto. congruence.
Qed.

Lemma inval_value_spec h n : parents_lt h -> n < length h ->
  exists h', inval_value h n = (Ok tt, h') /\ same_tree h h' /\
    (forall m, ncpath (getn h' m) = ncpath (getn h m)) /\
    (forall m, up h n m -> ncvalue (getn h' m) = None) /\
    (forall m, ncvalue (getn h' m) = None \/ ncvalue (getn h' m) = ncvalue (getn h m)).
Proof. intros S Hn. apply inval_value_f_spec; auto. Qed.
