(** Building nodes, invalidating paths, renumbering, and the effect of one edit
    on the invariant of JTreeFacts.v. *)
From Verif Require Export JTreeFacts.
Open Scope nat_scope.

(** ** Children of a piece of data *)
Inductive child_of (d : data) : pystr -> id -> Prop :=
| co_item ids i c : d = DArr ids -> nth_error ids i = Some c -> child_of d (str_of_nat i) c
| co_member m k c : d = DObj m -> In (k, c) m -> child_of d k c.

Lemma child_at_of h n k c : child_at h n k c <-> child_of (ndata (getn h n)) k c.
Proof. split; intros []; econstructor; eauto. Qed.

Definition data_ok (d : data) : Prop := forall m, d = DObj m -> NoDup (keys m).

(** ** Growth of the heap by complete new subtrees *)
Record fresh (h h' : heap) : Prop := {
  fr_len : length h <= length h';
  fr_old : forall m, m < length h -> getn h' m = getn h m;
  fr_child : forall m k c, length h <= m -> child_at h' m k c ->
    m < c /\ c < length h' /\ nparent (getn h' c) = Some m /\ nkey (getn h' c) = Some k;
  fr_nodup : forall m, length h <= m -> data_ok (ndata (getn h' m));
  fr_parent : forall m, length h <= m -> m < length h' ->
    exists p k, nparent (getn h' m) = Some p /\ p < m /\ nkey (getn h' m) = Some k;
  fr_caches : forall m, length h <= m -> ncpath (getn h' m) = None /\ ncvalue (getn h' m) = None
}.

Lemma child_at_blank h n k c : getn h n = blank -> child_at h n k c -> False.
Proof. intros E H. destruct H as [? ? ? D|? ? ? D]; rewrite E in D; discriminate. Qed.

Lemma fresh_refl h : fresh h h.
Proof.
  constructor; auto.
  - intros m k c H C. exfalso. eapply child_at_blank; eauto. now apply getn_out.
  - intros m H mm E. rewrite getn_out in E by auto. discriminate.
  - intros; lia.
  - intros m H. rewrite getn_out by auto. auto.
Qed.

Lemma fresh_trans h1 h2 h3 : fresh h1 h2 -> fresh h2 h3 -> fresh h1 h3.
Proof.
  intros F G. pose proof (fr_len _ _ F) as L1. pose proof (fr_len _ _ G) as L2. constructor.
  - lia.
  - intros m Hm. rewrite (fr_old _ _ G) by lia. now apply (fr_old _ _ F).
  - intros m k c Hm C. destruct (Nat.lt_ge_cases m (length h2)) as [Lm|Lm].
    + apply (child_at_data _ h2) in C; [|now rewrite (fr_old _ _ G)].
      apply (fr_child _ _ F) in C as (? & ? & ? & ?); auto. rewrite (fr_old _ _ G) by lia. repeat split; auto; lia.
    + now apply (fr_child _ _ G) in C.
  - intros m Hm. destruct (Nat.lt_ge_cases m (length h2)) as [Lm|Lm].
    + rewrite (fr_old _ _ G) by lia. now apply (fr_nodup _ _ F).
    + now apply (fr_nodup _ _ G).
  - intros m Hm Hm'. destruct (Nat.lt_ge_cases m (length h2)) as [Lm|Lm].
    + rewrite (fr_old _ _ G) by lia. now apply (fr_parent _ _ F).
    + now apply (fr_parent _ _ G).
  - intros m Hm. destruct (Nat.lt_ge_cases m (length h2)) as [Lm|Lm].
    + rewrite (fr_old _ _ G) by lia. now apply (fr_caches _ _ F).
    + now apply (fr_caches _ _ G).
Qed.

(** A value below the old heap, or in the new region, is not disturbed by
    further growth. *)
Lemma denotes_fresh h1 h2 h3 n v : fresh h1 h2 -> (forall m, length h1 <= m -> m < length h2 ->
  ndata (getn h3 m) = ndata (getn h2 m)) -> length h1 <= n -> n < length h2 ->
  denotes h2 n v -> denotes h3 n v.
Proof.
  intros F E L1 L2. apply (denotes_region h2 h3 (fun m => length h1 <= m /\ m < length h2)); auto.
  - intros m [? ?]; auto.
  - intros m k c [? ?] C. apply (fr_child _ _ F) in C as (? & ? & _); auto. lia.
Qed.

(** *** What [init] does *)
Definition built (h : heap) (self : id) (parent : option id) (key : option pystr) (v : json) (h' : heap) : Prop :=
  exists hm d,
    h' = setn hm self (mkNode d parent key (ncpath (getn h self)) (ncvalue (getn h self))) /\
    fresh h hm /\
    (forall k c, child_of d k c -> length h <= c /\ c < length hm /\
                 nparent (getn hm c) = Some self /\ nkey (getn hm c) = Some k) /\
    data_ok d /\ denotes h' self v.

Lemma built_fresh h parent key v h' :
  parent < length h -> built (h ++ [blank]) (length h) (Some parent) (Some key) v h' ->
  fresh h h' /\ length h < length h' /\ nparent (getn h' (length h)) = Some parent /\
  nkey (getn h' (length h)) = Some key /\ denotes h' (length h) v.
Proof.
  intros Hp (hm & d & -> & F & C & K & D).
  assert (LA : length (h ++ [blank]) = S (length h)) by (rewrite app_length; simpl; lia).
  pose proof (fr_len _ _ F) as Lm. rewrite LA in Lm.
  assert (G : forall m, getn (setn hm (length h) (mkNode d (Some parent) (Some key)
             (ncpath (getn (h ++ [blank]) (length h))) (ncvalue (getn (h ++ [blank]) (length h))))) m
           = if Nat.eqb (length h) m then mkNode d (Some parent) (Some key) None None else getn hm m).
  { intro m. rewrite getn_setn by lia. rewrite getn_app, Nat.eqb_refl. reflexivity. }
  split; [|rewrite length_setn, G, Nat.eqb_refl; repeat split; auto; lia].
  constructor; rewrite ?length_setn.
  - lia.
  - intros m Hm. rewrite G. destruct (Nat.eqb_spec (length h) m); [lia|].
    rewrite (fr_old _ _ F) by lia. rewrite getn_app. destruct (Nat.eqb_spec m (length h)); [lia|auto].
  - intros m k c Hm H. apply child_at_of in H. rewrite G in H. rewrite G.
    destruct (Nat.eqb_spec (length h) m) as [<-|N].
    + simpl in H. apply C in H as (A & B & P & Q). rewrite LA in A.
      destruct (Nat.eqb_spec (length h) c); [lia|]. repeat split; auto; lia.
    + apply child_at_of in H. apply (fr_child _ _ F) in H as (A & B & P & Q); [|lia].
      destruct (Nat.eqb_spec (length h) c); [lia|]. repeat split; auto.
  - intros m Hm. rewrite G. destruct (Nat.eqb_spec (length h) m) as [<-|N]; auto.
    apply (fr_nodup _ _ F). lia.
  - intros m Hm Hm'. rewrite G. destruct (Nat.eqb_spec (length h) m) as [<-|N].
    + exists parent, key. auto.
    + apply (fr_parent _ _ F); lia.
  - intros m Hm. rewrite G. destruct (Nat.eqb_spec (length h) m) as [<-|N]; auto.
    apply (fr_caches _ _ F). lia.
Qed.

(** The loops of [init], named. *)
Fixpoint init_items (self : id) (i : nat) (l : list json) (h : heap) : heap * list id :=
  match l with
  | [] => (h, [])
  | x :: r =>
      let '(h2, ids) := init_items self (S i) r (init x (h ++ [blank]) (length h) (Some self) (Some (str_of_nat i))) in
      (h2, length h :: ids)
  end.
Fixpoint init_members (self : id) (m : list (pystr * json)) (h : heap) : heap * list (pystr * id) :=
  match m with
  | [] => (h, [])
  | (k, x) :: r =>
      let '(h2, kids) := init_members self r (init x (h ++ [blank]) (length h) (Some self) (Some k)) in
      (h2, (k, length h) :: kids)
  end.

Lemma init_arr l h self parent key : init (JArr l) h self parent key =
  let '(h', ids) := init_items self 0 l h in
  setn h' self (mkNode (DArr ids) parent key (ncpath (getn h' self)) (ncvalue (getn h' self))).
Proof.
  cbn [init].
  assert (E : forall l i h, (fix go (i : nat) (l : list json) (h : heap) {struct l} : heap * list id :=
           match l with
           | [] => (h, [])
           | x :: r =>
               let c := length h in
               let h1 := init x (h ++ [blank]) c (Some self) (Some (str_of_nat i)) in
               let '(h2, ids) := go (S i) r h1 in
               (h2, c :: ids)
           end) i l h = init_items self i l h).
  { clear. induction l as [|x l IH]; intros i h; auto. cbn. now rewrite IH. }
  now rewrite E.
Qed.
Lemma init_obj m h self parent key : init (JObj m) h self parent key =
  let '(h', kids) := init_members self m h in
  setn h' self (mkNode (DObj kids) parent key (ncpath (getn h' self)) (ncvalue (getn h' self))).
Proof.
  cbn [init].
  assert (E : forall m h, (fix go (m : list (pystr * json)) (h : heap) {struct m} : heap * list (pystr * id) :=
           match m with
           | [] => (h, [])
           | (k, x) :: r =>
               let c := length h in
               let h1 := init x (h ++ [blank]) c (Some self) (Some k) in
               let '(h2, kids) := go r h1 in
               (h2, (k, c) :: kids)
           end) m h = init_members self m h).
  { clear. induction m as [|[k x] m IH]; intros h; auto. cbn. now rewrite IH. }
  now rewrite E.
Qed.

Definition init_good (v : json) : Prop := jwf v = true -> forall h self parent key, self < length h ->
  built h self parent key v (init v h self parent key).

Lemma init_items_spec self l : Forall init_good l -> Forall (fun v => jwf v = true) l -> forall i h, self < length h ->
  let '(h', ids) := init_items self i l h in
  fresh h h' /\ length ids = length l /\
  (forall j c, nth_error ids j = Some c -> length h <= c /\ c < length h' /\
     nparent (getn h' c) = Some self /\ nkey (getn h' c) = Some (str_of_nat (i + j))) /\
  (forall j c v, nth_error ids j = Some c -> nth_error l j = Some v -> denotes h' c v).
Proof.
  induction 1 as [|x l Hx Hl IH]; intros W i h Hs.
  - simpl. split; [apply fresh_refl|]. split; auto. split; intros [|j] *; discriminate.
  - inversion W as [|? ? Wx Wl]; subst. cbn [init_items].
    assert (LA : length (h ++ [blank]) = S (length h)) by (rewrite app_length; simpl; lia).
    match goal with |- context [init x ?a ?b ?c ?d] => set (h1 := init x a b c d) end.
    assert (B : built (h ++ [blank]) (length h) (Some self) (Some (str_of_nat i)) x h1)
      by (apply Hx; auto; lia).
    apply built_fresh in B as (F & L & P & K & D); auto.
    specialize (IH Wl (S i) h1 ltac:(lia)). destruct (init_items self (S i) l h1) as [h2 ids].
    destruct IH as (F2 & Ll & C & V). pose proof (fr_len _ _ F2) as L2.
    assert (O : getn h2 (length h) = getn h1 (length h)) by (apply (fr_old _ _ F2); auto).
    cbv beta iota. split; [eapply fresh_trans; eauto|]. split; [simpl; congruence|]. split.
    + intros [|j] c Hj; simpl in Hj.
      * injection Hj as <-. rewrite O, Nat.add_0_r. repeat split; auto; lia.
      * apply C in Hj as (A1 & A2 & A3 & A4). replace (i + S j) with (S i + j) by lia. repeat split; auto; lia.
    + intros [|j] c v Hj Hv; simpl in Hj, Hv.
      * injection Hj as <-. injection Hv as <-. eapply (denotes_fresh h h1); eauto.
        intros m ? ?. now rewrite (fr_old _ _ F2).
      * eauto.
Qed.

Lemma init_members_spec self m : Forall (fun kv => init_good (snd kv)) m -> Forall (fun kv => jwf (snd kv) = true) m ->
  forall h, self < length h ->
  let '(h', kids) := init_members self m h in
  fresh h h' /\ map fst m = map fst kids /\
  (forall j k c, nth_error kids j = Some (k, c) -> length h <= c /\ c < length h' /\
     nparent (getn h' c) = Some self /\ nkey (getn h' c) = Some k) /\
  (forall j k c k' v, nth_error kids j = Some (k, c) -> nth_error m j = Some (k', v) -> denotes h' c v).
Proof.
  induction 1 as [|[k x] l Hx Hl IH]; intros W h Hs.
  - simpl. split; [apply fresh_refl|]. split; auto. split; intros [|j] *; discriminate.
  - inversion W as [|? ? Wx Wl]; subst. cbn [init_members].
    assert (LA : length (h ++ [blank]) = S (length h)) by (rewrite app_length; simpl; lia).
    match goal with |- context [init x ?a ?b ?c ?d] => set (h1 := init x a b c d) end.
    assert (B : built (h ++ [blank]) (length h) (Some self) (Some k) x h1)
      by (apply Hx; auto; lia).
    apply built_fresh in B as (F & L & P & K & D); auto.
    specialize (IH Wl h1 ltac:(lia)). destruct (init_members self l h1) as [h2 kids].
    destruct IH as (F2 & Ll & C & V). pose proof (fr_len _ _ F2) as L2.
    assert (O : getn h2 (length h) = getn h1 (length h)) by (apply (fr_old _ _ F2); auto).
    cbv beta iota. split; [eapply fresh_trans; eauto|]. split; [simpl; congruence|]. split.
    + intros [|j] k' c Hj; simpl in Hj.
      * injection Hj as <- <-. rewrite O. repeat split; auto; lia.
      * apply C in Hj as (A1 & A2 & A3 & A4). repeat split; auto; lia.
    + intros [|j] k1 c k2 v Hj Hv; simpl in Hj, Hv.
      * injection Hj as <- <-. injection Hv as <- <-. eapply (denotes_fresh h h1); eauto.
        intros m ? ?. now rewrite (fr_old _ _ F2).
      * eauto.
Qed.

Lemma built_scalar h self parent key v d : self < length h ->
  (forall k c, child_of d k c -> False) -> data_ok d ->
  (forall h', ndata (getn h' self) = d -> denotes h' self v) ->
  built h self parent key v (setn h self (mkNode d parent key (ncpath (getn h self)) (ncvalue (getn h self)))).
Proof.
  intros Hs C K D. exists h, d. split; auto. split; [apply fresh_refl|]. split; [|split; auto].
  - intros k c H. exfalso; eauto.
  - apply D. now rewrite getn_setn_same.
Qed.

Lemma init_spec v : init_good v.
Proof.
  induction v as [|b|x|s|l IH|m IH] using json_induction; intros W h self parent key Hs.
  1-4: cbn [init]; apply built_scalar; auto;
    [intros k c H; inversion H; discriminate|intros mm; discriminate|intros h' E; econstructor; eauto].
  - rewrite init_arr. pose proof (init_items_spec self l IH) as G.
    apply jwf_arr in W. specialize (G W 0 h Hs). destruct (init_items self 0 l h) as [h' ids].
    destruct G as (F & L & C & V). pose proof (fr_len _ _ F) as Lh.
    exists h', (DArr ids). rewrite (fr_old _ _ F) by auto. split; auto. split; auto. split; [|split].
    + intros k c H. inversion H as [ids' i c' E Hi|]; [|discriminate]. injection E as <-. subst.
      apply C in Hi. rewrite Nat.add_0_l in Hi. auto.
    + intros mm; discriminate.
    + econstructor; [rewrite getn_setn_same by lia; reflexivity|auto|].
      intros i c v Hc Hv. apply (denotes_fresh h h'); auto.
      * intros m ? ?. rewrite getn_setn_other by lia. auto.
      * eapply C; eauto.
      * eapply C; eauto.
      * eapply V; eauto.
  - rewrite init_obj. apply jwf_obj in W as [ND W].
    pose proof (init_members_spec self m IH W h Hs) as G. destruct (init_members self m h) as [h' kids].
    destruct G as (F & L & C & V). pose proof (fr_len _ _ F) as Lh.
    exists h', (DObj kids). rewrite (fr_old _ _ F) by auto. split; auto. split; auto. split; [|split].
    + intros k c H. inversion H as [|mm k' c' E Hi]; [discriminate|]. injection E as <-. subst.
      apply In_nth_error in Hi as (j & Hj). eapply C; eauto.
    + intros mm E. injection E as <-. unfold keys. rewrite <- L. auto.
    + econstructor; [rewrite getn_setn_same by lia; reflexivity|auto|].
      intros i k c k' v Hc Hv. apply (denotes_fresh h h'); auto.
      * intros mm ? ?. rewrite getn_setn_other by lia. auto.
      * eapply C; eauto.
      * eapply C; eauto.
      * eapply V; eauto.
Qed.

(** ** Invalidation of paths *)
Lemma located_cons h a k c p m : child_at h a k c -> located h c p m -> located h a (k :: p) m.
Proof.
  intros C H. induction H.
  - apply (loc_step h a [] a k c); auto. constructor.
  - rewrite app_comm_cons. econstructor; eauto.
Qed.
Lemma located_uncons h a k p m : located h a (k :: p) m -> exists c, child_at h a k c /\ located h c p m.
Proof.
  intro H. remember (k :: p) as q eqn:E. revert p E. induction H as [|p' n k' c H IH C]; intros p E; [discriminate|].
  destruct p' as [|x p'].
  - simpl in E. injection E as -> <-. inversion H; subst.
    + exists c. split; auto. constructor.
    + destruct p; discriminate.
  - simpl in E. injection E as -> <-. destruct (IH p' eq_refl) as (b & B & L). exists b. split; auto.
    econstructor; eauto.
Qed.

Definition drops_paths (h h' : heap) : Prop :=
  same_tree h h' /\ (forall m, ncvalue (getn h' m) = ncvalue (getn h m)) /\
  (forall m, ncpath (getn h' m) = None \/ ncpath (getn h' m) = ncpath (getn h m)).

Lemma drops_trans h1 h2 h3 : drops_paths h1 h2 -> drops_paths h2 h3 -> drops_paths h1 h3.
Proof.
  intros (T & V & P) (T' & V' & P'). split; [eapply same_tree_trans; eauto|]. split.
  - intro m. now rewrite V', V.
  - intro m. destruct (P' m) as [-> | ->]; auto.
Qed.

Lemma inval_path_f_spec f : forall h n, ordered h -> n < length h -> length h - n < f ->
  exists h', inval_path_f f h n = (Ok tt, h') /\ drops_paths h h' /\
    (forall p m, located h n p m -> ncpath (getn h' m) = None).
Proof.
  induction f as [|f IH]; intros h n O Hn Hf; [lia|]. cbn [inval_path_f].
  set (h1 := setn h n (with_cpath (getn h n) None)).
  assert (T : same_tree h h1) by (apply setn_tree; reflexivity).
  assert (D1 : drops_paths h h1).
  { split; auto. split; intro m; unfold h1; rewrite getn_setn by auto;
      destruct (Nat.eqb_spec n m); subst; auto. }
  assert (PN : ncpath (getn h1 n) = None) by (unfold h1; now rewrite getn_setn_same).
  assert (O1 : forall h2, same_tree h h2 -> ordered h2).
  { intros h2 T2 a k c C. apply (child_at_data _ h) in C; [|apply (same_tree_sym _ _ T2)].
    apply O in C. destruct T2 as [-> _]. auto. }
  set (go := fix go (ids : list id) (h : heap) : res unit * heap :=
        match ids with
        | [] => (Ok tt, h)
        | c :: r => match inval_path_f f h c with
                    | (Ok _, h') => go r h'
                    | (Exn e, h') => (Exn e, h')
                    | (Fuel, h') => (Fuel, h')
                    end
        end).
  assert (G : forall ids h2, (forall c, In c ids -> n < c /\ c < length h) -> drops_paths h h2 ->
     exists h', go ids h2 = (Ok tt, h') /\ drops_paths h2 h' /\
       (forall c p m, In c ids -> located h c p m -> ncpath (getn h' m) = None)).
  { induction ids as [|c ids IHi]; intros h2 B D2.
    - exists h2. split; auto. split; [split; [apply same_tree_refl|auto]|]. intros c p m [].
    - destruct (B c (or_introl eq_refl)) as [B1 B2]. pose proof D2 as (T2 & _ & _).
      assert (L2 : length h2 = length h) by apply T2.
      destruct (IH h2 c (O1 _ T2) ltac:(lia) ltac:(lia)) as (h3 & E3 & D3 & N3).
      cbn [go]. fold go. rewrite E3.
      destruct (IHi h3) as (h4 & E4 & D4 & N4).
      + intros; apply B; now right.
      + eapply drops_trans; eauto.
      + exists h4. split; auto. split; [eapply drops_trans; eauto|].
        intros c' p m [<-|Hin] L; eauto.
        apply (located_data h h2) in L; [|now apply same_tree_data]. apply N3 in L.
        destruct D4 as (_ & _ & P4). destruct (P4 m) as [-> | ->]; auto. }
  assert (Fin : forall ids h', (forall k c, child_at h n k c -> In c ids) -> drops_paths h1 h' ->
     (forall c p m, In c ids -> located h c p m -> ncpath (getn h' m) = None) ->
     drops_paths h h' /\ (forall p m, located h n p m -> ncpath (getn h' m) = None)).
  { intros ids h' All D' N'. split; [eapply drops_trans; eauto|].
    intros [|k p] m L.
    - inversion L; subst; [|destruct p; discriminate].
      destruct D' as (_ & _ & P'). destruct (P' m) as [-> | ->]; auto.
    - apply located_uncons in L as (c & C & L). eapply N'; eauto. }
  assert (E1 : ndata (getn h1 n) = ndata (getn h n)) by apply T. rewrite E1.
  assert (Leaf : forall d, ndata (getn h n) = d -> (forall k c, child_of d k c -> False) ->
     exists h', (Ok tt, h1) = (Ok tt, h') /\ drops_paths h h' /\
       (forall p m, located h n p m -> ncpath (getn h' m) = None)).
  { intros d Ed Nc. exists h1. split; auto. apply (Fin []).
    - intros k c C. apply child_at_of in C. rewrite Ed in C. exfalso; eauto.
    - split; [apply same_tree_refl|auto].
    - intros c p m []. }
  destruct (ndata (getn h n)) as [|b|x|s|ids|mm] eqn:E;
    try (eapply Leaf; [reflexivity|intros k c H; inversion H; discriminate]).
  - destruct (G ids h1) as (h' & -> & D' & N'); auto.
    + intros c Hc. apply In_nth_error in Hc as (i & Hi). eapply O. econstructor; eauto.
    + exists h'. split; auto. apply (Fin ids); auto.
      intros k c C. apply child_at_of in C. rewrite E in C. inversion C as [ids' i c' E' Hi|]; [|discriminate].
      injection E' as <-. eapply nth_error_In; eauto.
  - destruct (G (map snd mm) h1) as (h' & -> & D' & N'); auto.
    + intros c Hc. apply in_map_iff in Hc as ([k c'] & <- & Hi). eapply O. eapply ca_member; eauto.
    + exists h'. split; auto. apply (Fin (map snd mm)); auto.
      intros k c C. apply child_at_of in C. rewrite E in C. inversion C as [|m' k' c' E' Hi]; [discriminate|].
      injection E' as <-. apply in_map_iff. exists (k, c). auto.
Qed.

Lemma inval_path_spec h n : ordered h -> n < length h ->
  exists h', inval_path h n = (Ok tt, h') /\ drops_paths h h' /\
    (forall p m, located h n p m -> ncpath (getn h' m) = None).
Proof. intros. apply inval_path_f_spec; auto. lia. Qed.

(** *** Renumbering *)
Lemma ordered_data h h' : length h' = length h -> same_data h h' -> ordered h -> ordered h'.
Proof.
  intros L D O a k c C. apply (child_at_data _ h) in C; [|symmetry; apply D]. apply O in C. lia.
Qed.

Lemma renumber_spec delta ids : forall h base, ordered h -> NoDup ids ->
  (forall c, In c ids -> c < length h) ->
  (forall i c, nth_error ids i = Some c -> nkey (getn h c) = Some (str_of_Z (base + Z.of_nat i))) ->
  exists h', renumber delta ids h = (Ok tt, h') /\ length h' = length h /\
    (forall m, ndata (getn h' m) = ndata (getn h m) /\ nparent (getn h' m) = nparent (getn h m) /\
               ncvalue (getn h' m) = ncvalue (getn h m)) /\
    (forall i c, nth_error ids i = Some c -> nkey (getn h' c) = Some (str_of_Z (base + Z.of_nat i + delta))) /\
    (forall m, ~ In m ids -> nkey (getn h' m) = nkey (getn h m)) /\
    (forall m, ncpath (getn h' m) = None \/ ncpath (getn h' m) = ncpath (getn h m)) /\
    (forall c p m, In c ids -> located h c p m -> ncpath (getn h' m) = None).
Proof.
  induction ids as [|c ids IH]; intros h base O ND B K.
  - exists h. cbn [renumber]. split; auto. split; auto. split; auto.
    split; [intros [|i] c; discriminate|]. split; auto. split; auto. intros c p m [].
  - cbn [renumber]. pose proof (K 0 c eq_refl) as Kc. rewrite Z.add_0_r in Kc. rewrite Kc.
    rewrite py_int_str_of_Z. inversion ND as [|? ? Nin ND']; subst.
    assert (Lc : c < length h) by (apply B; now left).
    set (h1 := setn h c (with_key (getn h c) (Some (str_of_Z (base + delta))))).
    assert (G1 : forall m, getn h1 m = if Nat.eqb c m then with_key (getn h c) (Some (str_of_Z (base + delta))) else getn h m)
      by (intro m; unfold h1; now rewrite getn_setn).
    assert (L1 : length h1 = length h) by apply length_setn.
    assert (D1 : same_data h h1).
    { intro m. rewrite G1. destruct (Nat.eqb_spec c m); subst; auto. }
    destruct (inval_path_spec h1 c (ordered_data _ _ L1 D1 O) ltac:(lia)) as (h2 & E2 & (T2 & V2 & P2) & N2).
    rewrite E2. cbn [hbind].
    assert (L2 : length h2 = length h) by (destruct T2; congruence).
    assert (D2 : same_data h h2) by (eapply same_data_trans; [exact D1|now apply same_tree_data]).
    assert (K2 : forall m, nkey (getn h2 m) = if Nat.eqb c m then Some (str_of_Z (base + delta)) else nkey (getn h m)).
    { intro m. destruct T2 as [_ T2]. destruct (T2 m) as (_ & _ & ->). rewrite G1.
      destruct (Nat.eqb_spec c m); auto. }
    destruct (IH h2 (base + 1)%Z) as (h3 & E3 & L3 & S3 & K3 & O3 & P3 & N3).
    + eapply ordered_data; eauto.
    + auto.
    + intros c' Hc'. rewrite L2. apply B. now right.
    + intros i c' Hi. rewrite K2. destruct (Nat.eqb_spec c c') as [<-|N].
      { exfalso. apply Nin. eapply nth_error_In; eauto. }
      rewrite (K (S i) c' Hi). do 2 f_equal. lia.
    + exists h3. split; auto. split; [lia|]. split; [|split; [|split; [|split]]].
      * intro m. destruct (S3 m) as (A1 & A2 & A3). rewrite A1, A2, A3.
        destruct T2 as [_ T2]. destruct (T2 m) as (B1 & B2 & _). rewrite B1, B2, V2, G1.
        destruct (Nat.eqb_spec c m); subst; auto.
      * intros [|i] c' Hi; simpl in Hi.
        -- injection Hi as <-. rewrite O3 by auto. rewrite K2, Nat.eqb_refl. do 2 f_equal. lia.
        -- rewrite (K3 i c' Hi). do 2 f_equal. lia.
      * intros m Hm. rewrite O3 by (intro; apply Hm; now right). rewrite K2.
        destruct (Nat.eqb_spec c m); auto. subst. exfalso. apply Hm. now left.
      * intro m. destruct (P3 m) as [-> | ->]; auto. destruct (P2 m) as [-> | ->]; auto. rewrite G1.
        destruct (Nat.eqb_spec c m); subst; auto.
      * intros c' p m [<-|Hin] L.
        -- apply (located_data h h1) in L; auto. apply N2 in L. destruct (P3 m) as [-> | ->]; auto.
        -- eapply N3; eauto. eapply located_data; eauto.
Qed.

(** ** The effect of one edit *)
Record edit (h h' : heap) (n : id) : Prop := {
  ed_bound : n < length h;
  ed_len : length h <= length h';
  ed_data : forall m, m < length h -> m <> n -> ndata (getn h' m) = ndata (getn h m);
  ed_parent : forall m, m < length h -> nparent (getn h' m) = nparent (getn h m);
  ed_value : forall m v, ncvalue (getn h' m) = Some v ->
    m < length h /\ ncvalue (getn h m) = Some v /\ ~ up h n m;
  ed_path : forall m q, ncpath (getn h' m) = Some q -> m < length h /\ ncpath (getn h m) = Some q;
  ed_edge : forall k c, child_at h' n k c -> child_at h n k c \/
    (forall p m, located h' c p m -> ncpath (getn h' m) = None)
}.

(** A node that does not have [n] below it keeps its value. *)
Lemma edit_denotes h h' n m v : shape h -> edit h h' n -> m < length h -> ~ up h n m ->
  denotes h m v -> denotes h' m v.
Proof.
  intros S E Hm U. apply (denotes_region h h' (fun m => m < length h /\ ~ up h n m)); auto.
  - intros a [La Ua]. apply (ed_data _ _ _ E); auto. intros ->. apply Ua. constructor.
  - intros a k c [La Ua] C. apply (sh_child h S) in C as (A & B & P & _). split; auto.
    intro Uc. apply Ua. econstructor; eauto.
Qed.

Lemma edit_inv h h' n : inv h -> edit h h' n -> shape h' -> inv h'.
Proof.
  intros I E S'. constructor; auto.
  - intros m v H. apply (ed_value _ _ _ E) in H as (L & C & U).
    apply (edit_denotes h h' n); auto; [apply I|]. now apply (inv_value h I).
  - intros r p m q [R Rp] L H. apply (ed_path _ _ _ E) in H as H2. destruct H2 as [Lm Hm].
    assert (Rr : r < length h).
    { apply (located_bound h') in L; auto; [lia|]. now apply shape_ordered. }
    assert (G : located h r p m \/ (forall p' m', located h' m p' m' -> ncpath (getn h' m') = None)).
    { clear - L E Rr I. induction L as [|p a k c L IH C].
      - left. constructor.
      - destruct IH as [IH|IH].
        + assert (La : a < length h) by (eapply located_bound; eauto; apply shape_ordered, I).
          destruct (Nat.eq_dec a n) as [->|N].
          * destruct (ed_edge _ _ _ E k c C) as [C'|C']; auto. left. econstructor; eauto.
          * left. econstructor; eauto. apply (child_at_data h'); auto. symmetry. now apply (ed_data _ _ _ E).
        + right. intros p' m' L'. eapply IH. eapply located_cons; eauto. }
    destruct G as [G|G].
    + apply (inv_path h I r p m q); auto. split; auto. now rewrite <- (ed_parent _ _ _ E).
    + rewrite (G [] m) in H by constructor. discriminate.
Qed.
