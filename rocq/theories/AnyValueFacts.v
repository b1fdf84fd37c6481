(** Facts about documents made from values with JSON nodes among them. *)
From Verif Require Import JsonFacts JTreeFacts JTreeEdit JTreeOps SpecTree SpecAnyValue AnyValue.
Open Scope nat_scope.

Lemma pyval_induction (P : pyval -> Prop) :
  P VNull -> (forall b, P (VBool b)) -> (forall n, P (VNum n)) -> (forall s, P (VStr s)) ->
  (forall l, Forall P l -> P (VSeq l)) ->
  (forall m, Forall (fun kv => P (snd kv)) m -> P (VMap m)) ->
  (forall n, P (VNode n)) -> P VOther -> forall v, P v.
Proof.
  intros H1 H2 H3 H4 H5 H6 H7 H8.
  fix IH 1. intros [|b|n|s|l|m|n|].
  - exact H1.
  - apply H2.
  - apply H3.
  - apply H4.
  - apply H5. induction l as [|v l IHl]; constructor; [apply IH|exact IHl].
  - apply H6. induction m as [|[k v] m IHm]; constructor; [apply IH|exact IHm].
  - apply H7.
  - exact H8.
Qed.

(** ** Lists given by position *)
Lemma pointwise_iff {A B} (R : A -> B -> Prop) l l' :
  Forall2 R l l' <-> (length l = length l' /\ forall i x y, nth_error l i = Some x -> nth_error l' i = Some y -> R x y).
Proof.
  split.
  - intro F. split; [induction F; simpl; congruence|].
    induction F; intros [|i] a b Ha Hb; simpl in *; try discriminate; [congruence|eauto].
  - revert l'. induction l as [|a l IH]; intros [|b l'] [L H]; try discriminate; constructor.
    + apply (H 0); reflexivity.
    + apply IH. split; [simpl in L; congruence|]. intros i. apply (H (S i)).
Qed.

Lemma respelt_arr l l' : respelt (JArr l) (JArr l') <-> Forall2 respelt l l'.
Proof.
  rewrite pointwise_iff. split.
  - intro H. inversion H; subst; auto.
  - intros [L H]. now constructor.
Qed.
Lemma respelt_arr_inv l j : respelt (JArr l) j -> exists l', j = JArr l' /\ Forall2 respelt l l'.
Proof. intro H. inversion H; subst. eexists. split; eauto. now apply pointwise_iff. Qed.

Lemma meant_seq h l l' : meant h (VSeq l) (JArr l') <-> Forall2 (meant h) l l'.
Proof.
  rewrite pointwise_iff. split.
  - intro H. inversion H; subst; auto.
  - intros [L H]. now constructor.
Qed.
Lemma meant_seq_inv h l j : meant h (VSeq l) j -> exists l', j = JArr l' /\ Forall2 (meant h) l l'.
Proof. intro H. inversion H; subst. eexists. split; eauto. now apply pointwise_iff. Qed.

Definition member_meant (h : heap) (a : pystr * pyval) (b : pystr * json) : Prop :=
  fst a = fst b /\ meant h (snd a) (snd b).
Lemma meant_map h m m' : meant h (VMap m) (JObj m') <-> Forall2 (member_meant h) m m'.
Proof.
  rewrite pointwise_iff. split.
  - intro H. inversion H as [| | | | |a b Hk Hv| ]; subst. split; [now rewrite <- (map_length fst m), Hk, map_length|].
    intros i [k x] [k' y] Hx Hy. split; [|simpl; eauto].
    apply (f_equal (fun l => nth_error l i)) in Hk.
    rewrite (nth_error_fst _ _ _ _ Hx), (nth_error_fst _ _ _ _ Hy) in Hk. simpl. congruence.
  - intros [L H]. constructor.
    + apply nth_error_ext. intro i. destruct (nth_error m i) as [[k x]|] eqn:Ex.
      * destruct (nth_error_same_length _ _ _ _ L Ex) as ([k' y] & Ey).
        rewrite (nth_error_fst _ _ _ _ Ex), (nth_error_fst _ _ _ _ Ey). destruct (H i _ _ Ex Ey) as [Q _]; simpl in Q; congruence.
      * apply nth_error_None in Ex. transitivity (@None pystr); [|symmetry]; apply nth_error_None; rewrite map_length; lia.
    + intros i k x k' y Hx Hy. now destruct (H i _ _ Hx Hy).
Qed.
Lemma meant_map_inv h m j : meant h (VMap m) j -> exists m', j = JObj m' /\ Forall2 (member_meant h) m m'.
Proof. intro H. inversion H; subst. eexists. split; eauto. now apply meant_map. Qed.

(** ** The relations are functions, and exclude failure *)
Lemma forall2_fun {A B} (R : A -> B -> Prop) l : Forall (fun x => forall y z, R x y -> R x z -> y = z) l ->
  forall l1 l2, Forall2 R l l1 -> Forall2 R l l2 -> l1 = l2.
Proof.
  induction 1; intros l1 l2 F1 F2; inversion F1; subst; inversion F2; subst; auto. f_equal; eauto.
Qed.

Lemma respelt_fun w : forall a b, respelt w a -> respelt w b -> a = b.
Proof.
  induction w as [| | | |l IH|m IH] using json_induction; intros ja jb Ha Hb; try (inversion Ha; fail).
  - inversion Ha; subst; inversion Hb; subst; auto.
  - apply respelt_arr_inv in Ha as (la & -> & Fa). apply respelt_arr_inv in Hb as (lb & -> & Fb).
    f_equal. eapply forall2_fun; eauto.
  - inversion Ha; subst; inversion Hb; subst; auto.
Qed.

Lemma respelt_exclusive w j : respelt w j -> ~ has_scalar w.
Proof.
  revert j. induction w as [| | | |l IH|m IH] using json_induction; intros j H S; try (inversion H; fail); try (inversion S; fail).
  apply respelt_arr_inv in H as (l' & -> & F). inversion S as [| | |? x I Sx]; subst.
  rewrite Forall_forall in IH. clear S. induction F as [|a b l l' Hab F IHF]; [inversion I|]. destruct I as [->|I].
  - exact (IH _ (in_eq _ _) _ Hab Sx).
  - apply IHF; auto. intros z Hz. apply IH. now right.
Qed.

Lemma respelt_total w : (exists j, respelt w j) \/ has_scalar w.
Proof.
  induction w as [| | | |l IH|m IH] using json_induction; try (right; constructor; fail); try (left; eexists; constructor; fail).
  assert (H : (exists l', Forall2 respelt l l') \/ exists x, In x l /\ has_scalar x).
  { induction IH as [|x l [[j Hj]|S] _ [[l' F]|(y & I & S')]]; eauto 6 using in_eq, in_cons. }
  destruct H as [[l' F]|(x & I & S)].
  - left. exists (JArr l'). now apply respelt_arr.
  - right. econstructor; eauto.
Qed.

Lemma meant_fun h v : forall a b, meant h v a -> meant h v b -> a = b.
Proof.
  induction v as [| | | |l IH|m IH|n|] using pyval_induction; intros ja jb Ha Hb;
    try (inversion Ha; subst; inversion Hb; subst; reflexivity).
  - apply meant_seq_inv in Ha as (la & -> & Fa). apply meant_seq_inv in Hb as (lb & -> & Fb).
    f_equal. eapply forall2_fun; eauto.
  - apply meant_map_inv in Ha as (la & -> & Fa). apply meant_map_inv in Hb as (lb & -> & Fb).
    f_equal. refine (forall2_fun (member_meant h) m _ _ _ Fa Fb).
    eapply Forall_impl; [|exact IH]. intros [k x] F [k1 y1] [k2 y2] [A1 A2] [B1 B2]. simpl in *. f_equal; [congruence|eauto].
  - inversion Ha as [| | | | | |? w ? Dw Rw]; subst. inversion Hb as [| | | | | |? w2 ? Dw2 Rw2]; subst.
    rewrite (denotes_fun _ _ _ _ Dw2 Dw) in Rw2. eapply respelt_fun; eauto.
Qed.

Lemma meant_exclusive h v j : meant h v j -> ~ unusable h v.
Proof.
  revert j. induction v as [| | | |l IH|m IH|n|] using pyval_induction; intros j H S; try (inversion S; fail); try (inversion H; fail).
  - apply meant_seq_inv in H as (l' & -> & F). inversion S as [|? x I Sx| |]; subst. clear S.
    rewrite Forall_forall in IH. induction F as [|a b l l' Hab F IHF]; [inversion I|]. destruct I as [->|I].
    + exact (IH _ (in_eq _ _) _ Hab Sx).
    + apply IHF; auto. intros z Hz. apply IH. now right.
  - apply meant_map_inv in H as (l' & -> & F). inversion S as [| |? k x I Sx|]; subst. clear S.
    rewrite Forall_forall in IH. induction F as [|[k1 x1] [k2 y] m m' [_ Hx] F IHF]; [inversion I|]. destruct I as [E|I].
    + injection E as -> ->. exact (IH _ (in_eq _ _) _ Hx Sx).
    + apply IHF; auto. intros z Hz. apply IH. now right.
  - inversion H as [| | | | | |? w ? Dw Rw]; subst. inversion S as [| | |? w2 Dw2 Sw]; subst.
    rewrite (denotes_fun _ _ _ _ Dw2 Dw) in Sw. eapply respelt_exclusive; eauto.
Qed.

(** ** What construction leaves alone *)
Definition beyond (h h' : heap) (self : id) : Prop :=
  length h <= length h' /\ forall m, m < length h -> m <> self -> getn h' m = getn h m.

Lemma beyond_refl h s : beyond h h s.
Proof. split; auto. Qed.
Lemma beyond_setn h s x : beyond h (setn h s x) s.
Proof. split; [now rewrite length_setn|]. intros. apply getn_setn_other. auto. Qed.
Lemma beyond_trans h1 h2 h3 s : beyond h1 h2 s -> beyond h2 h3 s -> beyond h1 h3 s.
Proof. intros [L E] [L' E']. split; [lia|]. intros m Hm N. rewrite E' by lia. auto. Qed.
Lemma beyond_child h h' s : beyond (h ++ [blank]) h' (length h) -> beyond h h' s.
Proof.
  intros [L E]. rewrite app_length in *. simpl in *. split; [lia|].
  intros m Hm N. rewrite E by lia. rewrite getn_app. destruct (Nat.eqb_spec m (length h)); [lia|auto].
Qed.

Lemma init_beyond v : forall h self p k, beyond h (init v h self p k) self.
Proof.
  induction v as [| | | |l IH|m IH] using json_induction; intros h self p k; try (apply beyond_setn).
  - rewrite init_arr. assert (H : forall i h, beyond h (fst (init_items self i l h)) self).
    { clear h p k. induction IH as [|x l Hx _ IHl]; intros i h; [apply beyond_refl|]. cbn [init_items].
      specialize (IHl (S i) (init x (h ++ [blank]) (length h) (Some self) (Some (str_of_nat i)))).
      destruct (init_items self (S i) l _) as [h2 ids]. simpl in *.
      eapply beyond_trans; [|exact IHl]. apply beyond_child, Hx. }
    specialize (H 0 h). destruct (init_items self 0 l h) as [h' ids]. simpl in H.
    eapply beyond_trans; [exact H|apply beyond_setn].
  - rewrite init_obj. assert (H : forall h, beyond h (fst (init_members self m h)) self).
    { clear h p k. induction IH as [|[key x] m Hx _ IHm]; intros h; [apply beyond_refl|]. cbn [init_members].
      specialize (IHm (init x (h ++ [blank]) (length h) (Some self) (Some key))).
      destruct (init_members self m _) as [h2 ids]. simpl in *.
      eapply beyond_trans; [|exact IHm]. apply beyond_child, Hx. }
    specialize (H h). destruct (init_members self m h) as [h' ids]. simpl in H.
    eapply beyond_trans; [exact H|apply beyond_setn].
Qed.

(** [h] has grown from [h0], with the old nodes as they were. *)
Definition extends (h0 h : heap) : Prop :=
  length h0 <= length h /\ forall m, m < length h0 -> ndata (getn h m) = ndata (getn h0 m).
Lemma extends_refl h : extends h h.
Proof. split; auto. Qed.
Lemma extends_blank h0 h : extends h0 h -> extends h0 (h ++ [blank]).
Proof.
  intros [L E]. rewrite <- (app_nil_r h0) in *. split; [rewrite !app_length in *; simpl in *; lia|].
  intros m Hm. rewrite getn_app. destruct (Nat.eqb_spec m (length h)); [lia|auto].
Qed.
Lemma extends_beyond h0 h h' s : extends h0 h -> beyond h h' s -> length h0 <= s -> extends h0 h'.
Proof. intros [L E] [L' E'] N. split; [lia|]. intros m Hm. rewrite E' by lia. auto. Qed.

(** ** The loops, named *)
Fixpoint node_items (f : nat) (self : id) (i : nat) (ids : list id) (h : heap) : res (heap * list id) :=
  match ids with
  | [] => Ok (h, [])
  | x :: r =>
      let* h1 := init_node f x (h ++ [blank]) (length h) (Some self) (Some (str_of_nat i)) in
      let* (h2, new) := node_items f self (S i) r h1 in
      Ok (h2, length h :: new)
  end.
Fixpoint any_items (self : id) (i : nat) (l : list pyval) (h : heap) : res (heap * list id) :=
  match l with
  | [] => Ok (h, [])
  | x :: r =>
      let* h1 := init_any x (h ++ [blank]) (length h) (Some self) (Some (str_of_nat i)) in
      let* (h2, new) := any_items self (S i) r h1 in
      Ok (h2, length h :: new)
  end.
Fixpoint any_members (self : id) (m : list (pystr * pyval)) (h : heap) : res (heap * list (pystr * id)) :=
  match m with
  | [] => Ok (h, [])
  | (k, x) :: r =>
      let* h1 := init_any x (h ++ [blank]) (length h) (Some self) (Some k) in
      let* (h2, new) := any_members self r h1 in
      Ok (h2, (k, length h) :: new)
  end.

Lemma init_node_arr f n h self p k ids : ndata (getn h n) = DArr ids -> init_node (S f) n h self p k =
  let* (h', new) := node_items f self 0 ids h in Ok (finish h' self p k (DArr new)).
Proof.
  intro E. cbn [init_node]. rewrite E.
  match goal with |- bind (?g 0 ids h) _ = _ => assert (G : forall l i h, g i l h = node_items f self i l h) end.
  { clear. induction l as [|x l IH]; intros i h; [reflexivity|]. cbn beta iota zeta delta [node_items].
    destruct (init_node f x (h ++ [blank]) (length h) (Some self) (Some (str_of_nat i))); cbn beta iota delta [bind]; auto. now rewrite IH. }
  now rewrite G.
Qed.
Lemma init_any_seq l h self p k : init_any (VSeq l) h self p k =
  let* (h', new) := any_items self 0 l h in Ok (finish h' self p k (DArr new)).
Proof.
  cbn [init_any].
  match goal with |- bind (?g 0 l h) _ = _ => assert (G : forall l i h, g i l h = any_items self i l h) end.
  { clear. induction l as [|x l IH]; intros i h; [reflexivity|]. cbn beta iota zeta delta [any_items].
    destruct (init_any x (h ++ [blank]) (length h) (Some self) (Some (str_of_nat i))); cbn beta iota delta [bind]; auto. now rewrite IH. }
  now rewrite G.
Qed.
Lemma init_any_map m h self p k : init_any (VMap m) h self p k =
  let* (h', new) := any_members self m h in Ok (finish h' self p k (DObj new)).
Proof.
  cbn [init_any].
  match goal with |- bind (?g m h) _ = _ => assert (G : forall m h, g m h = any_members self m h) end.
  { clear. induction m as [|[key x] m IH]; intros h; [reflexivity|]. cbn beta iota zeta delta [any_members].
    destruct (init_any x (h ++ [blank]) (length h) (Some self) (Some key)); cbn beta iota delta [bind]; auto. now rewrite IH. }
  now rewrite G.
Qed.

(** ** A node taken for a sequence *)
Lemma init_node_spec h0 : ordered h0 -> forall f n w, n < length h0 -> length h0 - n <= f -> denotes h0 n w ->
  forall h self p k, extends h0 h -> length h0 <= self ->
  (exists j, respelt w j /\ init_node f n h self p k = Ok (init j h self p k)) \/
  (has_scalar w /\ init_node f n h self p k = Exn EType).
Proof.
  intros O f. induction f as [|f IH]; intros n w B F D h self p k X S; [lia|].
  assert (En : ndata (getn h n) = ndata (getn h0 n)) by (apply X; lia).
  destruct D as [n E|n b E|n x E|n s E|n ids l E L C|n m kvs E K C];
    try (right; split; [constructor|]; cbn [init_node]; rewrite En, E; reflexivity).
  - left. eexists. split; [constructor|]. cbn [init_node]. rewrite En, E. reflexivity.
  - rewrite E in En. rewrite (init_node_arr _ _ _ _ _ _ _ En).
    assert (A : Forall2 (fun c v => c < length h0 /\ length h0 - c <= f /\ denotes h0 c v) ids l).
    { apply pointwise_iff. split; auto. intros i c v Hc Hv.
      destruct (O n (str_of_nat i) c) as [? ?]; [econstructor; eauto|]. repeat split; try lia. eauto. }
    assert (G : forall i h, extends h0 h ->
      (exists l', Forall2 respelt l l' /\ node_items f self i ids h = Ok (init_items self i l' h)) \/
      ((exists x, In x l /\ has_scalar x) /\ node_items f self i ids h = Exn EType)).
    { clear - A IH S. induction A as [|c v ids l (B & F & D) _ IHA]; intros i h X.
      - left. exists []. split; auto.
      - cbn [node_items].
        destruct (IH c v B F D (h ++ [blank]) (length h) (Some self) (Some (str_of_nat i)) (extends_blank _ _ X) (proj1 X))
          as [(j & Rj & ->)|[Sv ->]]; cbn [bind].
        + assert (X1 : extends h0 (init j (h ++ [blank]) (length h) (Some self) (Some (str_of_nat i))))
            by (eapply extends_beyond; [apply extends_blank, X|apply init_beyond|apply X]).
          destruct (IHA (Datatypes.S i) _ X1) as [(l' & Fl & ->)|[(x & I & Sx) ->]]; cbn [bind].
          * left. exists (j :: l'). split; [now constructor|]. cbn [init_items].
            destruct (init_items self (Datatypes.S i) l' _) as [h2 new]. reflexivity.
          * right. split; [|reflexivity]. exists x. split; auto. now right.
        + right. split; [|reflexivity]. exists v. split; auto. now left. }
    destruct (G 0 h X) as [(l' & Fl & ->)|[(x & I & Sx) ->]]; cbn [bind].
    + left. exists (JArr l'). split; [now apply respelt_arr|]. rewrite init_arr.
      destruct (init_items self 0 l' h) as [h' new]. reflexivity.
    + right. split; [|reflexivity]. econstructor; eauto.
  - left. exists (JArr (map (fun kv => JStr (fst kv)) kvs)). split; [constructor|].
    cbn [init_node]. rewrite En, E.
    assert (map (fun kc : pystr * id => JStr (fst kc)) m = map (fun kv : pystr * json => JStr (fst kv)) kvs) as ->; auto.
    rewrite <- (map_map fst JStr m), K, map_map. reflexivity.
Qed.

(** ** Any value *)
Lemma init_any_spec h0 : ordered h0 -> forall v, sound h0 v ->
  forall h self p k, extends h0 h -> length h0 <= self ->
  (exists j, meant h0 v j /\ init_any v h self p k = Ok (init j h self p k)) \/
  (unusable h0 v /\ init_any v h self p k = Exn EType).
Proof.
  intros O v. induction v as [| | | |l IH|m IH|n|] using pyval_induction; intros V h self p k X S;
    try (left; eexists; split; [constructor|reflexivity]).
  - rewrite init_any_seq.
    assert (G : forall i h, extends h0 h ->
      (exists l', Forall2 (meant h0) l l' /\ any_items self i l h = Ok (init_items self i l' h)) \/
      ((exists x, In x l /\ unusable h0 x) /\ any_items self i l h = Exn EType)).
    { inversion V as [| | | |? Vl| | |]; subst. clear - IH Vl S. induction IH as [|v l IH _ IHl]; intros i h X.
      - left. exists []. split; auto.
      - cbn [any_items].
        destruct (IH (Vl v (in_eq _ _)) (h ++ [blank]) (length h) (Some self) (Some (str_of_nat i)) (extends_blank _ _ X) (proj1 X))
          as [(j & Rj & ->)|[Sv ->]]; cbn [bind].
        + assert (X1 : extends h0 (init j (h ++ [blank]) (length h) (Some self) (Some (str_of_nat i))))
            by (eapply extends_beyond; [apply extends_blank, X|apply init_beyond|apply X]).
          destruct (IHl (fun x I => Vl x (in_cons _ _ _ I)) (Datatypes.S i) _ X1) as [(l' & Fl & ->)|[(x & I & Sx) ->]]; cbn [bind].
          * left. exists (j :: l'). split; [now constructor|]. cbn [init_items].
            destruct (init_items self (Datatypes.S i) l' _) as [h2 new]. reflexivity.
          * right. split; [|reflexivity]. exists x. split; auto. now right.
        + right. split; [|reflexivity]. exists v. split; auto. now left. }
    destruct (G 0 h X) as [(l' & Fl & ->)|[(x & I & Sx) ->]]; cbn [bind].
    + left. exists (JArr l'). split; [now apply meant_seq|]. rewrite init_arr.
      destruct (init_items self 0 l' h) as [h' new]. reflexivity.
    + right. split; [|reflexivity]. econstructor; eauto.
  - rewrite init_any_map.
    assert (G : forall h, extends h0 h ->
      (exists l', Forall2 (member_meant h0) m l' /\ any_members self m h = Ok (init_members self l' h)) \/
      ((exists k x, In (k, x) m /\ unusable h0 x) /\ any_members self m h = Exn EType)).
    { inversion V as [| | | | |? _ Vl| |]; subst. clear - IH Vl S. induction IH as [|[key v] l IH _ IHl]; intros h X.
      - left. exists []. split; auto.
      - cbn [any_members]. cbn [snd] in IH.
        destruct (IH (Vl key v (in_eq _ _)) (h ++ [blank]) (length h) (Some self) (Some key) (extends_blank _ _ X) (proj1 X))
          as [(j & Rj & ->)|[Sv ->]]; cbn [bind].
        + assert (X1 : extends h0 (init j (h ++ [blank]) (length h) (Some self) (Some key)))
            by (eapply extends_beyond; [apply extends_blank, X|apply init_beyond|apply X]).
          destruct (IHl (fun k x I => Vl k x (in_cons _ _ _ I)) _ X1) as [(l' & Fl & ->)|[(k' & x & I & Sx) ->]]; cbn [bind].
          * left. exists ((key, j) :: l'). split; [constructor; [split; auto|auto]|]. cbn [init_members].
            destruct (init_members self l' _) as [h2 new]. reflexivity.
          * right. split; [|reflexivity]. exists k', x. split; auto. now right.
        + right. split; [|reflexivity]. exists key, v. split; auto. now left. }
    destruct (G h X) as [(l' & Fl & ->)|[(k' & x & I & Sx) ->]]; cbn [bind].
    + left. exists (JObj l'). split; [now apply meant_map|]. rewrite init_obj.
      destruct (init_members self l' h) as [h' new]. reflexivity.
    + right. split; [|reflexivity]. econstructor; eauto.
  - inversion V as [| | | | | |? B|]; subst. destruct (denotes_total h0 n O B) as (w & D).
    cbn [init_any]. destruct (init_node_spec h0 O (Datatypes.S (length h)) n w B ltac:(destruct X; lia) D h self p k X S)
      as [(j & R & E)|[R E]]; [left; exists j|right]; (split; [econstructor; eauto|exact E]).
  - right. split; [constructor|reflexivity].
Qed.

(** The value made has no duplicate keys. *)
Lemma respelt_jwf w j : respelt w j -> jwf j = true.
Proof.
  revert j. induction w as [| | | |l IH|m IH] using json_induction; intros j H; try (inversion H; fail).
  - inversion H; subst. apply jwf_arr. rewrite Forall_forall. intros x I. apply in_map_iff in I as (c & <- & _). reflexivity.
  - apply respelt_arr_inv in H as (l' & -> & F). apply jwf_arr. induction F; constructor; inversion IH; subst; auto.
  - inversion H; subst. apply jwf_arr. rewrite Forall_forall. intros x I. apply in_map_iff in I as (c & <- & _). reflexivity.
Qed.
Lemma meant_jwf h v : sound h v -> forall j, meant h v j -> jwf j = true.
Proof.
  induction v as [| | | |l IH|m IH|n|] using pyval_induction; intros V j H; try (inversion H; reflexivity).
  - apply meant_seq_inv in H as (l' & -> & F). apply jwf_arr. inversion V as [| | | |? Vl| | |]; subst. clear V.
    induction F; constructor; inversion IH; subst; auto using in_eq. apply IHF; auto. intros. apply Vl. now right.
  - apply meant_map_inv in H as (m' & -> & F). inversion V as [| | | | |? N Vl| |]; subst. clear V. apply jwf_obj. split.
    + assert (E : map fst m' = map fst m) by (clear - F; induction F as [|? ? ? ? [] ]; simpl; congruence). unfold keys; rewrite E; exact N.
    + clear N. induction F as [|[k x] [k' y] m m' [_ Hx] F IHF]; constructor; inversion IH; subst; cbn [snd] in *.
      * apply H1; auto. eapply Vl, in_eq.
      * apply IHF; auto. intros. eapply Vl. right. eauto.
  - inversion H as [| | | | | |? w ? Dw Rw]; subst. eapply respelt_jwf; eauto.
Qed.

Lemma new_any_spec h v : inv h -> sound h v ->
  (exists j, meant h v j /\ jwf j = true /\ new_any v h = Ok (new_doc j h)) \/
  (unusable h v /\ new_any v h = Exn EType).
Proof.
  intros I V. unfold new_any.
  destruct (init_any_spec h (shape_ordered _ (inv_shape _ I)) v V (h ++ [blank]) (length h) None None) as [(j & M & ->)|[U ->]].
  - apply extends_blank, extends_refl.
  - lia.
  - left. exists j. split; [auto|split; [eapply meant_jwf; eauto|reflexivity]].
  - right. auto.
Qed.

Lemma value_of_denotes f : forall h n w, ordered h -> n < length h -> length h - n <= f -> denotes h n w -> value_of f h n = w.
Proof.
  induction f as [|f IH]; intros h n w O B F D; [lia|]. cbn [value_of].
  destruct D as [n E|n b E|n x E|n s E|n ids l E L C|n m kvs E K C]; rewrite E; auto; f_equal.
  - assert (A : Forall2 (fun c v => value_of f h c = v) ids l).
    { apply pointwise_iff. split; auto. intros i c v Hc Hv.
      destruct (O n (str_of_nat i) c) as [? ?]; [econstructor; eauto|]. apply IH; auto; try lia. eauto. }
    clear - A. induction A; simpl; congruence.
  - assert (LK : length m = length kvs) by (rewrite <- (map_length fst m), K, map_length; auto).
    assert (A : Forall2 (fun (kc : pystr * id) kv => (fst kc, value_of f h (snd kc)) = kv) m kvs).
    { apply pointwise_iff. split; auto. intros i [k c] [k' v] Hc Hv. simpl.
      destruct (O n k c) as [? ?]; [eapply ca_member; eauto; eapply nth_error_In; eauto|].
      apply (f_equal (fun l => nth_error l i)) in K.
      rewrite (nth_error_fst _ _ _ _ Hc), (nth_error_fst _ _ _ _ Hv) in K. injection K as ->.
      f_equal. apply IH; auto; try lia. eauto. }
    clear - A. induction A; simpl; congruence.
Qed.

Lemma plain_sound h v : jwf v = true -> sound h (plain v).
Proof.
  induction v as [| | | |l IH|m IH] using json_induction; intro W; cbn [plain]; try (constructor; fail).
  - apply jwf_arr in W. constructor. intros x I. apply in_map_iff in I as (y & <- & I).
    rewrite Forall_forall in *. auto.
  - apply jwf_obj in W as [N W]. constructor.
    + rewrite map_map. exact N.
    + intros k x I. apply in_map_iff in I as ([k' y] & E & I). injection E as <- <-.
      rewrite Forall_forall in *. apply (IH _ I). apply (W _ I).
Qed.
Lemma plain_meant h v : meant h (plain v) v.
Proof.
  induction v as [| | | |l IH|m IH] using json_induction; cbn [plain]; try (constructor; fail).
  - apply meant_seq. induction IH; simpl; constructor; auto.
  - apply meant_map. induction IH as [|[k x] m]; simpl; constructor; auto. split; auto.
Qed.

Lemma respelt_same w : respelt w w <-> hollow w.
Proof.
  induction w as [| | | |l IH|m IH] using json_induction; try (split; intro H; inversion H; fail).
  rewrite respelt_arr. split; intro H.
  - constructor. intros x I. rewrite Forall_forall in IH. apply IH; auto.
    apply In_nth_error in I as (i & I). apply pointwise_iff in H as [_ H]. eapply H; eauto.
  - inversion H as [? Hl]; subst. rewrite Forall_forall in IH. clear H. induction l; constructor.
    + apply IH; [now left|]. apply Hl. now left.
    + apply IHl; intros; [apply IH|apply Hl]; simpl; auto.
Qed.
