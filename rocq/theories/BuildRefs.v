(** Resolution of references. *)
From Coq Require Import List Lia Bool.
From Verif Require Export BuildInv.
Import ListNotations.
Open Scope nat_scope.

(** ** Objects stay, up to resolution. *)
Lemma Forall2_refl {A} (R : A -> A -> Prop) l : (forall a, R a a) -> Forall2 R l l.
Proof. intro H. induction l; constructor; auto. Qed.
Lemma Forall2_trans {A} (R : A -> A -> Prop) l1 l2 l3 : (forall a b c, R a b -> R b c -> R a c) -> Forall2 R l1 l2 -> Forall2 R l2 l3 -> Forall2 R l1 l3.
Proof. intros T H. revert l3. induction H; intros l3 H3; inversion H3; subst; constructor; eauto. Qed.
Lemma Forall2_imp {A B} (R R' : A -> B -> Prop) l l' : (forall a b, R a b -> R' a b) -> Forall2 R l l' -> Forall2 R' l l'.
Proof. intros H F. induction F; constructor; auto. Qed.
Lemma kw_later_refl a : kw_later a a. Proof. repeat split; auto. Qed.
Lemma kw_later_trans a b c : kw_later a b -> kw_later b c -> kw_later a c.
Proof. intros (A1 & A2 & A3) (B1 & B2 & B3). split; [congruence|]. split; [congruence|auto]. Qed.
Lemma obj_later_refl o : obj_later o o.
Proof. repeat split. unfold node_later. destruct (so_data o); [reflexivity|]. apply Forall2_refl, kw_later_refl. Qed.
Lemma obj_later_trans a b c : obj_later a b -> obj_later b c -> obj_later a c.
Proof.
  intros (A1 & A2 & A3 & A4 & A5) (B1 & B2 & B3 & B4 & B5). repeat split; try congruence. unfold node_later in *.
  destruct (so_data a), (so_data b), (so_data c); try contradiction; try congruence. exact (Forall2_trans _ _ _ _ kw_later_trans A5 B5).
Qed.
Lemma pre_kept : preorder kept.
Proof.
  split; [intros c i o Ho; exists o; split; [exact Ho|apply obj_later_refl]|]. intros a b c H H' i o Ho. destruct (H _ _ Ho) as (o1 & H1 & L1).
  destruct (H' _ _ H1) as (o2 & H2 & L2). exists o2. split; [exact H2|exact (obj_later_trans _ _ _ L1 L2)].
Qed.
Lemma kept_refl c : kept c c. Proof. apply pre_kept. Qed.
Lemma kept_trans a b c : kept a b -> kept b c -> kept a c. Proof. apply pre_kept. Qed.
Lemma old_kept c c' : same_old c c' -> kept c c'.
Proof. intros [L H] i o Ho. exists o. split; [rewrite H; [exact Ho|apply nth_error_Some; congruence]|apply obj_later_refl]. Qed.
Lemma kept_size c c' : kept c c' -> size c <= size c'.
Proof.
  intro H. unfold size. destruct (length (c_objs c)) as [|n] eqn:L; [lia|]. destruct (nth_error (c_objs c) n) as [o|] eqn:Ho.
  - destruct (H _ _ Ho) as (o' & Ho' & _). assert (n < length (c_objs c')) by (apply nth_error_Some; congruence). lia.
  - apply nth_error_None in Ho. lia.
Qed.
Lemma later_shape o o' : obj_later o o' -> shape o' = shape o.
Proof.
  intros (A1 & A2 & A3 & A4 & A5). unfold shape, with_data. rewrite A1, A2, A3, A4. f_equal. unfold node_later in A5. destruct (so_data o), (so_data o'); try contradiction; [congruence|].
  f_equal. clear -A5. induction A5 as [|[k v] [k' v'] l l' (B1 & B2 & _) F IH]; [reflexivity|]. cbn in *. now rewrite B1, B2, IH.
Qed.
Lemma kept_shape c c' : kept c c' -> same_shape c c'.
Proof. intro H. split; [exact (kept_size _ _ H)|]. intros i o Ho. destruct (H _ _ Ho) as (o' & Ho' & L). exists o'. split; [exact Ho'|exact (later_shape _ _ L)]. Qed.
Lemma kept_agrees c c' s : kept c c' -> agrees (c_objs c) (c_objs c') s.
Proof. intros H i o _ Ho. destruct (H _ _ Ho) as (o' & Ho' & L). exists o'. split; [exact Ho'|exact (later_shape _ _ L)]. Qed.

Lemma kept_keywords c c' s kws : kept c c' -> keywords_at (c_objs c) s kws -> exists kws', keywords_at (c_objs c') s kws' /\ Forall2 kw_later kws kws'.
Proof.
  intros H (o & Ho & D). destruct (H _ _ Ho) as (o' & Ho' & L). destruct L as (_ & _ & _ & _ & L). rewrite D in L. unfold node_later in L. destruct (so_data o') as [|kws'] eqn:D'; [contradiction|].
  exists kws'. split; [now exists o'|exact L].
Qed.
Lemma keywords_fun objs s a b : keywords_at objs s a -> keywords_at objs s b -> a = b.
Proof. intros (o & Ho & D) (o' & Ho' & D'). congruence. Qed.
Lemma kept_keywords_back c c' s kws' : kept c c' -> s < size c -> keywords_at (c_objs c') s kws' -> exists kws, keywords_at (c_objs c) s kws /\ Forall2 kw_later kws kws'.
Proof.
  intros H Hs (o' & Ho' & D'). destruct (nth_error (c_objs c) s) as [o|] eqn:Ho; [|apply nth_error_None in Ho; unfold size in Hs; lia].
  destruct (H _ _ Ho) as (o2 & Ho2 & L). assert (o2 = o') by congruence. subst o2. destruct L as (_ & _ & _ & _ & L). rewrite D' in L. unfold node_later in L.
  destruct (so_data o) as [|kws] eqn:D; [contradiction|]. exists kws. split; [now exists o|exact L].
Qed.
Lemma Forall2_In_r {A B} (R : A -> B -> Prop) l l' b : Forall2 R l l' -> In b l' -> exists a, In a l /\ R a b.
Proof. intros H. induction H as [|x y l l' Hxy H IH]; [intros []|]. intros [<-|Hb]; [exists x; split; [now left|exact Hxy]|]. destruct (IH Hb) as (a & Ha & Hr). exists a. split; [now right|exact Hr]. Qed.
Lemma later_sub k k' t : strip k' = strip k -> subschema_of k' t <-> subschema_of k t.
Proof. intro H. apply strip_fields in H. destruct H as (_ & J & _). unfold subschema_of. now rewrite J. Qed.
Lemma later_reference k k' : strip k' = strip k -> is_reference k' <-> is_reference k.
Proof. intro H. apply strip_fields in H. destruct H as (C & _). unfold is_reference. now rewrite C. Qed.

Lemma within_back c c' s t : kept c c' -> sane c -> s < size c -> within (c_objs c') s t -> t < size c /\ within (c_objs c) s t.
Proof.
  intros K S Hs W. induction W as [|t t' kws key k W [Ht IH] Kt Hk Sub]; [split; [exact Hs|constructor]|].
  destruct (kept_keywords_back _ _ _ _ K Ht Kt) as (kws0 & Kt0 & F). destruct (Forall2_In_r _ _ _ _ F Hk) as ([key0 k0] & Hk0 & (_ & St & _)). cbn [snd] in St.
  apply (later_sub _ _ t' St) in Sub. split; [|exact (within_step _ _ _ _ _ _ _ IH Kt0 Hk0 Sub)]. destruct S as (_ & S & _). destruct (proj2 (S _ _ Kt0) _ _ Hk0) as (A & _). exact (A _ Sub).
Qed.
Lemma within_first objs s t : within objs s t -> t = s \/ exists kws key k t1, keywords_at objs s kws /\ In (key, k) kws /\ subschema_of k t1 /\ within objs t1 t.
Proof.
  intro W. induction W as [|t t' kws key k W IH Kt Hk Sub]; [now left|]. right. destruct IH as [->|(kws1 & key1 & k1 & t1 & A & B & C & D)].
  - exists kws, key, k, t'. repeat split; auto. constructor.
  - exists kws1, key1, k1, t1. repeat split; auto. eapply within_step; eauto.
Qed.

(** ** Framing. *)
Lemma kept_set_ref s key t d : framed kept (set_ref s key t d).
Proof.
  intros c i o Ho. unfold set_ref, update, modify. cbn [snd]. destruct (nth_error (c_objs c) s) as [x|] eqn:Hx; [|exists o; split; [exact Ho|apply obj_later_refl]].
  unfold put_obj. cbn [c_objs]. assert (Hs : s < length (c_objs c)) by (apply nth_error_Some; congruence). destruct (Nat.eq_dec s i) as [<-|N].
  - rewrite nth_set_nth_same by exact Hs. assert (x = o) by congruence. subst x. eexists. split; [reflexivity|]. split; [reflexivity|]. split; [reflexivity|]. split; [reflexivity|]. split; [reflexivity|].
    cbn [with_data so_data]. unfold node_later. destruct (so_data o) as [|kws]; [reflexivity|]. induction kws as [|[k v] kws IH]; cbn [map]; constructor; [|exact IH].
    cbn [fst snd]. destruct (str_eqb k key); [|apply kw_later_refl]. split; [reflexivity|]. split; [reflexivity|]. cbn. discriminate.
  - rewrite nth_set_nth_other by exact N. exists o. split; [exact Ho|apply obj_later_refl].
Qed.
Section Kept.
Variable E : env.
Lemma kept_absolute s j : framed kept (absolute_reference E s j).
Proof. unfold absolute_reference. framing pre_kept. destruct (ul_absolute (e_lib E) (no_fragment a)); [framing pre_kept|]. destruct (base_uri a0 s); framing pre_kept. Qed.
Section Refs.
Variable resolve : sid -> M unit.
Hypothesis Hres : forall s, framed kept (resolve s).
Lemma kept_construct_with id v u m : framed kept (construct_with E resolve id v u m).
Proof.
  unfold construct_with. apply (framed_bind _ pre_kept); [apply (framed_weaken same_old); [apply old_kept|apply framed_build]|]. intro s.
  destruct v; framing pre_kept. apply Hres.
Qed.
Lemma kept_get_schema_with id u m : framed kept (get_schema_with E resolve id u m).
Proof.
  unfold get_schema_with. framing pre_kept. destruct a as [s|]; framing pre_kept.
  - destruct a as [s|]; framing pre_kept. apply kept_construct_with.
  - destruct a0 as [s [s'|]]; framing pre_kept. destruct (u_frag u) as [[|ch f]|]; framing pre_kept. destruct a1; framing pre_kept.
Qed.
Lemma kept_resolve_keyword s key k : framed kept (resolve_keyword E resolve s key k).
Proof.
  unfold resolve_keyword. framing pre_kept. cbv zeta. set (id := match nth_error a s with Some o => so_cache o | None => [] end).
  assert (Std : framed kept (do u <- absolute_reference E s (kw_json k); do t <- get_schema_with E resolve id u (metaschema_uri a s); set_ref s key t false)).
  { framing pre_kept; [apply kept_absolute|apply kept_get_schema_with|apply kept_set_ref]. }
  destruct (kw_class k) as [c|]; [|exact Std]. destruct c; try exact Std.
  - framing pre_kept; [apply kept_absolute|apply kept_get_schema_with|apply kept_set_ref|]. destruct a4; [apply kept_set_ref|framing pre_kept].
  - destruct (base_uri a s) as [b|]; framing pre_kept; [apply kept_get_schema_with|apply kept_set_ref].
Qed.
End Refs.
Lemma kept_resolve f : forall s, framed kept (resolve_references E f s).
Proof.
  induction f as [|f IH]; intro s; [intro c; apply pre_kept|]. cbn [resolve_references]. framing pre_kept. apply (framed_each _ pre_kept). intros kk _.
  destruct (reference_class (kw_class (snd kk))); [now apply kept_resolve_keyword|]. destruct (kw_json (snd kk)); framing pre_kept; auto; apply (framed_each _ pre_kept); auto.
Qed.

(** ** Every reference gets resolved. *)
Definition kw_resolved (objs : list sobj) (s : sid) : Prop :=
  forall kws key k, keywords_at objs s kws -> In (key, k) kws -> is_reference k -> kw_ref k <> None.
Definition settles (c : cat) (s : sid) : Prop := forall t, within (c_objs c) s t -> kw_resolved (c_objs c) t.
Lemma settles_kept c c' s : kept c c' -> sane c -> s < size c -> settles c s -> settles c' s.
Proof.
  intros K S Hs H t W kws key k Ha Hk R. destruct (within_back _ _ _ _ K S Hs W) as [Ht W0]. destruct (kept_keywords_back _ _ _ _ K Ht Ha) as (kws0 & Ha0 & F).
  destruct (Forall2_In_r _ _ _ _ F Hk) as ([key0 k0] & Hk0 & (_ & St & Rf)). cbn [snd] in *. apply Rf. apply (H t W0 _ _ _ Ha0 Hk0). now apply (later_reference _ _ St).
Qed.

Lemma each_run {A} (f : A -> M unit) l : forall c r c', (forall a, framed kept (f a)) -> (forall a n, In a l -> size c <= n -> safe n (f a) any) -> sane c ->
  each_ f l c = (Ok r, c') -> forall a, In a l -> exists c1 c2 r', kept c c1 /\ sane c1 /\ f a c1 = (Ok r', c2) /\ sane c2 /\ kept c2 c'.
Proof.
  induction l as [|b l IH]; intros c r c' Hf Hs S H a Ha; [destruct Ha|]. cbn [each_] in H. apply bind_ok in H. destruct H as (x & c1 & H1 & H).
  assert (K1 : kept c c1) by (pose proof (Hf b c) as X; rewrite H1 in X; exact X).
  assert (S1 : sane c1) by (destruct (Hs b (size c) (or_introl eq_refl) (Nat.le_refl _) c S (Nat.le_refl _)) as (X & _); rewrite H1 in X; exact X).
  destruct Ha as [<-|Ha].
  - exists c, c1, x. split; [apply kept_refl|]. split; [exact S|]. split; [exact H1|]. split; [exact S1|]. pose proof (framed_each _ pre_kept f l (fun a _ => Hf a) c1) as X. rewrite H in X. exact X.
  - assert (Hs1 : forall a n, In a l -> size c1 <= n -> safe n (f a) any) by (intros a' n Ha' Hn; apply Hs; [now right|]; pose proof (kept_size _ _ K1); lia).
    destruct (IH c1 r c' Hf Hs1 S1 H a Ha) as (c2 & c3 & r' & A1 & A2 & A3 & A4 & A5). exists c2, c3, r'. split; [exact (kept_trans _ _ _ K1 A1)|]. auto.
Qed.

Lemma set_ref_sets s key t d c r c' : set_ref s key t d c = (Ok r, c') -> forall kws k, keywords_at (c_objs c') s kws -> In (key, k) kws -> kw_ref k = Some t.
Proof.
  unfold set_ref, update, modify. intros [= _ <-] kws k (o' & Ho' & D') Hk. destruct (nth_error (c_objs c) s) as [o|] eqn:Ho; [|congruence].
  unfold put_obj in Ho'. cbn [c_objs] in Ho'. rewrite nth_set_nth_same in Ho' by (apply nth_error_Some; congruence). injection Ho' as <-. cbn [with_data so_data] in D'.
  destruct (so_data o) as [|kws0]; [discriminate D'|]. injection D' as <-. apply in_map_iff in Hk. destruct Hk as ([k1 v1] & Q & _). cbn [fst snd] in Q.
  destruct (str_eqb_spec k1 key) as [->|N]; apply pair_equal_spec in Q; destruct Q as [Q1 Q2]; [subst k; reflexivity|congruence].
Qed.
Lemma resolve_keyword_sets resolve s key k c r c' : resolve_keyword E resolve s key k c = (Ok r, c') ->
  forall kws k', keywords_at (c_objs c') s kws -> In (key, k') kws -> kw_ref k' <> None.
Proof.
  intro H. unfold resolve_keyword in H. apply bind_ok in H. destruct H as (objs & c1 & H1 & H). cbv zeta in H.
  assert (Last : forall t d c2 r c3, set_ref s key t d c2 = (Ok r, c3) -> forall kws k', keywords_at (c_objs c3) s kws -> In (key, k') kws -> kw_ref k' <> None).
  { intros t d c2 r' c3 X kws k' A B. rewrite (set_ref_sets _ _ _ _ _ _ _ X _ _ A B). discriminate. }
  assert (Std : forall id m, (do u <- absolute_reference E s (kw_json k); do t <- get_schema_with E resolve id u m; set_ref s key t false) c1 = (Ok r, c') ->
     forall kws k', keywords_at (c_objs c') s kws -> In (key, k') kws -> kw_ref k' <> None).
  { intros id m X. apply bind_ok in X. destruct X as (u & c2 & X1 & X). apply bind_ok in X. destruct X as (t & c3 & X2 & X). exact (Last _ _ _ _ _ X). }
  destruct (kw_class k) as [c0|]; [|exact (Std _ _ H)]. destruct c0; try exact (Std _ _ H).
  - apply bind_ok in H. destruct H as (u & c2 & X1 & X). apply bind_ok in X. destruct X as (t & c3 & X2 & X). apply bind_ok in X. destruct X as (y & c4 & X3 & X).
    apply bind_ok in X. destruct X as (objs' & c5 & X4 & X). apply read_ok in X4. destruct X4 as [_ <-]. apply bind_ok in X. destruct X as (b & c6 & X5 & X). apply lift_ok in X5. destruct X5 as [_ <-].
    destruct b; [exact (Last _ _ _ _ _ X)|]. apply ret_ok in X. destruct X as [_ <-]. exact (Last _ _ _ _ _ X3).
  - destruct (base_uri objs s) as [b|]; [|discriminate H]. apply bind_ok in H. destruct H as (t & c3 & X2 & X). exact (Last _ _ _ _ _ X).
Qed.

Lemma resolve_settles f : forall s c r c', sane c -> s < size c -> resolve_references E f s c = (Ok r, c') -> settles c' s.
Proof.
  induction f as [|f IH]; intros s c r c' S Hs H; [discriminate H|]. cbn [resolve_references] in H. apply bind_ok in H. destruct H as (kws & c0 & H0 & H).
  apply read_ok in H0. destruct H0 as [-> <-].
  set (step := fun kk : pystr * keyword => if reference_class (kw_class (snd kk)) then resolve_keyword E (resolve_references E f) s (fst kk) (snd kk)
               else match kw_json (snd kk) with KSub t => resolve_references E f t | KSubs ts => each_ (resolve_references E f) ts
                    | KSubm ts => each_ (fun kt => resolve_references E f (snd kt)) ts | KJ _ => ret tt end) in *.
  assert (Hf : forall kk, framed kept (step kk)).
  { intro kk. unfold step. destruct (reference_class (kw_class (snd kk))); [apply kept_resolve_keyword, kept_resolve|]. pose proof (kept_resolve f) as X.
    destruct (kw_json (snd kk)); framing pre_kept; auto; apply (framed_each _ pre_kept); auto. }
  assert (Ok0 : forall kk, In kk (schema_keywords (objs_world (c_objs c)) s) -> kw_ok (size c) (snd kk)).
  { intros [key k] Hk. apply keywords_in in Hk. destruct Hk as (kws & Ha & Hk). destruct S as (_ & K & _). exact (proj2 (K _ _ Ha) _ _ Hk). }
  assert (Hsafe : forall kk n, In kk (schema_keywords (objs_world (c_objs c)) s) -> size c <= n -> safe n (step kk) any).
  { intros kk n Hkk Hn. unfold step. destruct (reference_class (kw_class (snd kk))); [apply safe_resolve_keyword, safe_resolve|]. destruct (Ok0 _ Hkk) as (A & _).
    unfold subschema_of in A. destruct (kw_json (snd kk)) as [v|t|l|m].
    - safety.
    - apply safe_resolve. specialize (A t eq_refl). lia.
    - apply safe_each. intros t n3 Ht L3. apply safe_resolve. specialize (A t Ht). lia.
    - apply safe_each. intros kt n3 Ht L3. apply safe_resolve. specialize (A _ (in_map snd _ _ Ht)). lia. }
  pose proof (each_run step _ c r c' Hf Hsafe S H) as Run.
  assert (K : kept c c') by (pose proof (framed_each _ pre_kept step (schema_keywords (objs_world (c_objs c)) s) (fun a _ => Hf a) c) as X; rewrite H in X; exact X).
  assert (At : forall kws, keywords_at (c_objs c) s kws -> schema_keywords (objs_world (c_objs c)) s = kws).
  { intros kws (o & Ho & D). unfold schema_keywords, objs_world. cbn. now rewrite Ho, D. }
  intros t W. apply within_first in W. destruct W as [->|(kws & key & k & t1 & Ha & Hk & Sub & W)].
  - intros kws key k Ha Hk R. destruct (kept_keywords_back _ _ _ _ K Hs Ha) as (kws0 & Ha0 & F). destruct (Forall2_In_r _ _ _ _ F Hk) as ([key0 k0] & Hk0 & (Q & St & _)). cbn [fst snd] in *.
    subst key0. rewrite <- (At _ Ha0) in Hk0. destruct (Run _ Hk0) as (c1 & c2 & r' & K1 & S1 & X & S2 & K2). unfold step in X. cbn [fst snd] in X.
    assert (Rc : reference_class (kw_class k0) = true) by (apply (later_reference _ _ St) in R; destruct R as [->|[->| ->]]; reflexivity). rewrite Rc in X.
    assert (Hs2 : s < size c2). { pose proof (Hf (key, k0) c1) as Y. unfold step in Y. cbn [fst snd] in Y. rewrite Rc, X in Y. apply kept_size in Y. apply kept_size in K1. cbn [snd] in *. lia. }
    destruct (kept_keywords_back _ _ _ _ K2 Hs2 Ha) as (kws2 & Ha2 & F2). destruct (Forall2_In_r _ _ _ _ F2 Hk) as ([key2 k2] & Hk2 & (Q2 & St2 & Rf2)). cbn [fst snd] in *. subst key2.
    apply Rf2. exact (resolve_keyword_sets _ _ _ _ _ _ _ X _ _ Ha2 Hk2).
  - destruct (kept_keywords_back _ _ _ _ K Hs Ha) as (kws0 & Ha0 & F). destruct (Forall2_In_r _ _ _ _ F Hk) as ([key0 k0] & Hk0 & (Q & St & _)). cbn [fst snd] in *. subst key0.
    apply (later_sub _ _ t1 St) in Sub. rewrite <- (At _ Ha0) in Hk0. destruct (Ok0 _ Hk0) as (A & _ & B). cbn [snd] in *.
    assert (Rc : reference_class (kw_class k0) = false).
    { destruct (reference_class (kw_class k0)) eqn:Rc; [|reflexivity]. exfalso. apply (B ltac:(unfold is_reference; destruct (kw_class k0) as [[]|]; try discriminate Rc; auto) t1 Sub). }
    destruct (Run _ Hk0) as (c1 & c2 & r' & K1 & S1 & X & S2 & K2). unfold step in X. cbn [fst snd] in X. rewrite Rc in X.
    assert (Ht1 : t1 < size c1) by (specialize (A t1 Sub); apply kept_size in K1; lia).
    assert (St1 : settles c2 t1 /\ t1 < size c2).
    { assert (L2 : size c1 <= size c2). { apply kept_size. pose proof (Hf (key, k0) c1) as Y. unfold step in Y. cbn [fst snd] in Y. rewrite Rc, X in Y. exact Y. }
      split; [|lia]. unfold subschema_of in Sub, A. destruct (kw_json k0) as [v|t0|l|m].
      - destruct Sub.
      - subst t0. exact (IH _ _ _ _ S1 Ht1 X).
      - destruct (each_run (resolve_references E f) l c1 r' c2 (kept_resolve f)) with (a := t1) as (c3 & c4 & r3 & K3 & S3 & X3 & S4 & K4); auto.
        { intros t' n Ht' Hn. apply safe_resolve. specialize (A t' Ht'). apply kept_size in K1. lia. }
        assert (Ht3 : t1 < size c3) by (apply kept_size in K3; lia). pose proof (kept_resolve f t1 c3) as K34. rewrite X3 in K34. apply kept_size in K34. cbn [snd] in K34.
        apply (settles_kept c4); [exact K4|exact S4|lia|exact (IH _ _ _ _ S3 Ht3 X3)].
      - apply in_map_iff in Sub. destruct Sub as ([n0 t0] & Q & Hin). cbn [snd] in Q. subst t0.
        destruct (each_run (fun kt : pystr * sid => resolve_references E f (snd kt)) m c1 r' c2 (fun a => kept_resolve f (snd a))) with (a := (n0, t1)) as (c3 & c4 & r3 & K3 & S3 & X3 & S4 & K4); auto.
        { intros [n1 t'] n Ht' Hn. apply safe_resolve. specialize (A t' (in_map snd _ _ Ht')). apply kept_size in K1. cbn [snd]. lia. }
        cbn [snd] in X3. assert (Ht3 : t1 < size c3) by (apply kept_size in K3; lia). pose proof (kept_resolve f t1 c3) as K34. rewrite X3 in K34. apply kept_size in K34. cbn [snd] in K34.
        apply (settles_kept c4); [exact K4|exact S4|lia|exact (IH _ _ _ _ S3 Ht3 X3)]. }
    destruct St1 as [St1 L1]. exact (settles_kept _ _ _ K2 S2 L1 St1 t W).
Qed.

(** ** Newly made references are unresolved. *)
Definition unref (c : cat) (i : sid) : Prop := forall kws key k, keywords_at (c_objs c) i kws -> In (key, k) kws -> kw_ref k = None.
Definition unref_from (n : nat) (c c' : cat) : Prop := (forall i, n <= i -> unref c i) -> forall i, n <= i -> unref c' i.
Lemma pre_unref n : preorder (unref_from n).
Proof. split; unfold unref_from; auto. Qed.
Lemma unref_cache n c k : unref_from n c (mkCat (c_objs c) k). Proof. intros H i Hi. exact (H i Hi). Qed.
Lemma unref_update n s f : (forall o, (forall kws, so_data o = SObj kws -> forall key k, In (key, k) kws -> kw_ref k = None) ->
    forall kws, so_data (f o) = SObj kws -> forall key k, In (key, k) kws -> kw_ref k = None) -> framed (unref_from n) (update s f).
Proof.
  intros Hf c H i Hi. unfold update, modify. cbn [snd]. destruct (nth_error (c_objs c) s) as [o|] eqn:Ho; [|exact (H i Hi)].
  intros kws key k (x & Hx & D) Hk. unfold put_obj in Hx. cbn [c_objs] in Hx. destruct (Nat.eq_dec s i) as [<-|N].
  - rewrite nth_set_nth_same in Hx by (apply nth_error_Some; congruence). injection Hx as <-. apply (Hf o) with (kws := kws) (key := key); auto.
    intros kws0 D0 key0 k0 Hk0. apply (H s Hi kws0 key0 k0); [now exists o|exact Hk0].
  - rewrite nth_set_nth_other in Hx by exact N. apply (H i Hi kws key k); [now exists x|exact Hk].
Qed.
Lemma unref_head n s f : (forall o, so_data (f o) = so_data o) -> framed (unref_from n) (update s f).
Proof. intro Hf. apply unref_update. intros o H kws. rewrite Hf. apply H. Qed.
Lemma unref_caching n s id u : framed (unref_from n) (cache_schema id u s). Proof. intro c. apply unref_cache. Qed.
Lemma unref_uncaching n id u : framed (unref_from n) (uncache_schema id u). Proof. intro c. apply unref_cache. Qed.
Ltac unrefs n :=
  repeat lazymatch goal with
    | |- framed _ (bindM _ _) => apply (framed_bind _ (pre_unref n)); [|intro]
    | |- framed _ (ret _) => apply (framed_ret _ (pre_unref n))
    | |- framed _ (throw _) => apply (framed_throw _ (pre_unref n))
    | |- framed _ (lift _) => apply (framed_lift _ (pre_unref n))
    | |- framed _ (read _) => apply (framed_read _ (pre_unref n))
    | |- framed _ (cache_schema _ _ _) => apply unref_caching
    | |- framed _ (uncache_schema _ _) => apply unref_uncaching
    | |- framed _ (update _ (with_uri _)) => apply unref_head; reflexivity
    | |- framed _ (update _ (with_meta _)) => apply unref_head; reflexivity
    end.
Section Unref.
Variable n : nat.
Lemma unref_set_uri L s u : framed (unref_from n) (set_uri L s u).
Proof.
  unfold set_uri. unrefs n. destruct a as [o|]; [|unrefs n]. destruct (match so_uri o with Some u' => uri_same L u' u | None => false end); unrefs n. destruct (so_uri o); unrefs n.
Qed.
Lemma unref_init_id next s v : framed (unref_from n) (init_id E next s v).
Proof. unfold init_id. unrefs n; [|apply unref_set_uri]. destruct (ul_absolute (e_lib E) a); [unrefs n|]. destruct (base_uri a1 s); unrefs n. Qed.
Lemma unref_init_anchor s v : framed (unref_from n) (init_anchor E s v).
Proof. unfold init_anchor. unrefs n. destruct v, (base_uri a s), (nth_error a s); unrefs n. Qed.
Lemma unref_init_schema s v : framed (unref_from n) (init_schema E s v).
Proof. unfold init_schema. unrefs n. Qed.
Definition mild (x : member) : Prop :=
  (forall up, framed (unref_from n) (mb_schema x up)) /\ (forall k b up, In (k, b) (mb_items x) -> framed (unref_from n) (b up)).
Lemma unref_keyword_json s key c x : mild x -> framed (unref_from n) (keyword_json s key c x).
Proof.
  intros [H1 H2]. pose proof (pre_unref n) as P. unfold keyword_json.
  assert (T : forall ms, framed (unref_from n) (try_mixins s key x ms)).
  { induction ms as [|m ms IH]; [apply (framed_throw _ P)|]. cbn [try_mixins]. destruct (jsonify s key x m) as [j|] eqn:J; [|exact IH].
    unfold jsonify in J. destruct m, (mb_value x); try discriminate J; injection J as <-; try apply (framed_ret _ P);
      (apply (framed_bind _ P); [|intro; apply (framed_ret _ P)]); try apply H1; apply (framed_mapM _ P); intros [k b] Hb; cbn [fst snd].
    - exact (H2 _ _ _ Hb).
    - apply (framed_bind _ P); [exact (H2 _ _ _ Hb)|intro; apply (framed_ret _ P)]. }
  destruct (mixins c) as [|m ms]; [apply (framed_ret _ P)|apply T].
Qed.
Lemma unref_make_keyword s key c x : mild x -> framed (unref_from n) (make_keyword E s key c x).
Proof.
  intro H. pose proof (pre_unref n) as P. unfold make_keyword. apply (framed_bind _ P); [now apply unref_keyword_json|].
  intro j. destruct c as [c|k]; [|unrefs n].
  destruct c; try solve [unrefs n]; try solve [apply (framed_bind _ P); [first [apply unref_init_schema|apply unref_init_id|apply unref_init_anchor]|intro; apply (framed_ret _ P)]].
  - destruct (mb_value x); try solve [unrefs n]. destruct (str_eqb s0 (lit "#")); unrefs n.
  - destruct (mb_value x); try solve [unrefs n]. destruct (e_regex E s0); unrefs n.
Qed.
Lemma make_keyword_unref s key c x st k st' : make_keyword E s key c x st = (Ok k, st') -> kw_ref k = None.
Proof.
  intro H. unfold make_keyword in H. apply bind_ok in H. destruct H as (j & c1 & _ & H).
  assert (R : forall fr fo c2, ret (mkKw c j None false fr fo) c2 = (Ok k, st') -> kw_ref k = None) by (intros fr fo c2 X; apply ret_ok in X; destruct X as [<- _]; reflexivity).
  destruct c as [c|k0]; [|exact (R _ _ _ H)].
  destruct c; try exact (R _ _ _ H); try solve [apply bind_ok in H; destruct H as (y & c2 & _ & H); exact (R _ _ _ H)].
  - destruct (mb_value x); try discriminate H. destruct (str_eqb s0 (lit "#")); [exact (R _ _ _ H)|discriminate H].
  - destruct (mb_value x); try discriminate H. destruct (e_regex E s0); [exact (R _ _ _ H)|discriminate H].
Qed.
Lemma unref_add_keyword s members key c : (forall k x, In (k, x) members -> mild x) -> framed (unref_from n) (add_keyword E s members key c).
Proof.
  intros H c0. unfold add_keyword. destruct (dget key members) as [x|] eqn:D; [|apply pre_unref]. apply dget_In in D.
  pose proof (unref_make_keyword s key c x (H _ _ D) c0) as X. unfold bindM. destruct (make_keyword E s key c x c0) as [[k| |] c1] eqn:Mk; cbn [snd] in *; try exact X.
  apply make_keyword_unref in Mk. apply (proj2 (pre_unref n) _ c1); [exact X|]. unfold keep_keyword. apply unref_update. intros o Ho kws. cbn [with_data so_data].
  destruct (so_data o) as [|kws0]; [discriminate|]. intros [= <-] key' k' Hk. apply In_dset_inv in Hk. destruct Hk as [Hk|Hk]; [exact (Ho _ eq_refl _ _ Hk)|].
  apply pair_equal_spec in Hk. destruct Hk as [_ ->]. exact Mk.
Qed.
Lemma unref_build_object s members : (forall k x, In (k, x) members -> mild x) -> framed (unref_from n) (build_object E s members).
Proof.
  intro H. pose proof (pre_unref n) as P. unfold build_object. unrefs n.
  - destruct a as [[[u|] m [up|] ch d]|]; try solve [unrefs n]. apply unref_set_uri.
  - unfold bootstrap. apply (framed_bind _ P); [now apply unref_add_keyword|]. intros _. apply (framed_bind _ P); [now apply unref_add_keyword|]. intros _.
    destruct (dmem (lit "$id") members); [|unrefs n]. apply (framed_bind _ P); [now apply framed_metaschema|]. intro d. now apply unref_add_keyword.
  - now apply framed_classes.
  - apply (framed_each _ P). intros c _. now apply unref_add_keyword.
Qed.
Lemma unref_new id u m up d : (forall kws, d = SObj kws -> kws = []) -> framed (unref_from n) (new_schema id u m up d).
Proof.
  intros Hd c H i Hi kws key k (o & Ho & D) Hk. rewrite new_schema_eq in Ho. cbn [snd c_objs] in Ho. destruct (Nat.lt_ge_cases i (length (c_objs c))) as [X|X].
  - rewrite nth_error_app1 in Ho by exact X. apply (H i Hi kws key k); [now exists o|exact Hk].
  - rewrite nth_error_app2 in Ho by exact X. destruct (i - length (c_objs c)) as [|j]; [|destruct j; discriminate Ho]. injection Ho as <-. cbn in D. rewrite (Hd _ D) in Hk. destruct Hk.
Qed.
Lemma unref_build id v : forall u m up, framed (unref_from n) (build E id v u m up).
Proof.
  assert (G : forall k v, jsize v < k -> forall u m up, framed (unref_from n) (build E id v u m up)).
  { induction k as [|k IH]; intros w Hk u m up; [lia|]. pose proof (pre_unref n) as P.
    assert (New : forall u m up, framed (unref_from n) (new_schema id u m up (SObj []))) by (intros; apply unref_new; congruence).
    destruct w as [|b|x|x|l|ms]; try solve [cbn [build]; apply (framed_bind _ P); [apply New|intro; apply (framed_throw _ P)]].
    - apply unref_new. discriminate.
    - rewrite build_object_eq. apply (framed_bind _ P); [apply New|]. intro s. apply (framed_bind _ P); [|intro; apply (framed_ret _ P)].
      apply unref_build_object. intros key x Hx. apply in_map_iff in Hx. destruct Hx as ([k' v'] & [= <- <-] & Hv). cbn [snd].
      apply jsize_members in Hv. cbn [snd] in Hv. split.
      + intro up'. apply IH. lia.
      + intros key b up' Hb. cbn [mb_items member_of] in Hb. destruct v' as [|?|?|?|l|m']; try destruct Hb.
        * apply in_numbered in Hb. destruct Hb as (i & w & Hi & [= _ ->]). apply nth_error_In, jsize_items in Hi. apply IH. lia.
        * apply in_map_iff in Hb. destruct Hb as ([k1 v1] & [= <- <-] & Hv1). apply jsize_members in Hv1. cbn [snd] in *. apply IH. lia. }
  exact (G (S (jsize v)) v (Nat.lt_succ_diag_r _)).
Qed.
End Unref.
Lemma build_unref id v u m up c s c' : build E id v u m up c = (Ok s, c') -> forall i, size c <= i -> unref c' i.
Proof.
  intros H. pose proof (unref_build (size c) id v u m up c) as X. rewrite H in X. cbn [snd] in X. apply X. intros i Hi kws key k (o & Ho & _).
  assert (i < length (c_objs c)) by (apply nth_error_Some; congruence). unfold size in Hi. lia.
Qed.

(** ** Where references lead. *)
Hypothesis Docs : forall u doc, load_json (e_lib E) (e_sources E) u = Ok doc -> jwf doc = true.

Lemma build_made id v u m c s c' : sane c -> jwf v = true -> build E id v u m None c = (Ok s, c') ->
  s = size c /\ s < size c' /\ (forall i, s <= i < size c' -> within (c_objs c') s i) /\
  made E (c_objs c') m None (given_uri E c u None v) v s None.
Proof.
  intros S J H. destruct (build_ok E id v J u m None c s c' (proj1 S) (fun p ks F => False_ind _ (eq_ind None (fun x => match x with None => True | Some _ => False end) I _ F)) H) as (A & B & C & D & F).
  unfold size. split; [exact A|]. split; [exact B|]. split; [exact D|]. unfold outer_meta, outer_base in F. destruct m; exact F.
Qed.

Lemma kept_climb {A} (f : sobj -> option A) c c' s : (forall o o', obj_later o o' -> f o' = f o) -> kept c c' -> sane c -> s < size c ->
  climb (S s) (c_objs c') f s = climb (S s) (c_objs c) f s.
Proof.
  intros Hf K S Hs. apply (climb_agree f); [exact (proj1 S)|]. intros i Hi. destruct (nth_error (c_objs c) i) as [o|] eqn:Ho; [|apply nth_error_None in Ho; unfold size in Hs; lia].
  destruct (K _ _ Ho) as (o' & -> & L). cbn [option_map]. unfold heading. rewrite (Hf _ _ L). destruct L as (_ & _ & -> & _). reflexivity.
Qed.
Lemma kept_base c c' s : kept c c' -> sane c -> s < size c -> base_uri (c_objs c') s = base_uri (c_objs c) s.
Proof. intros K S Hs. unfold base_uri. f_equal. apply kept_climb; auto. intros o o' L. apply L. Qed.
Lemma kept_meta c c' s : kept c c' -> sane c -> s < size c -> metaschema_uri (c_objs c') s = metaschema_uri (c_objs c) s.
Proof. intros K S Hs. unfold metaschema_uri. apply kept_climb; auto. intros o o' L. apply L. Qed.
Lemma kept_cache c c' s : kept c c' -> s < size c -> cache_of (c_objs c') s = cache_of (c_objs c) s.
Proof.
  intros K Hs. unfold cache_of. destruct (nth_error (c_objs c) s) as [o|] eqn:Ho; [|apply nth_error_None in Ho; unfold size in Hs; lia].
  destruct (K _ _ Ho) as (o' & -> & L). apply L.
Qed.
Lemma kept_made c c' m b u v s up : kept c c' -> sane c -> made E (c_objs c) m b u v s up -> made E (c_objs c') m b u v s up.
Proof. intros K S H. apply (made_agree E (c_objs c)); [exact (proj1 S)|exact H|now apply kept_agrees]. Qed.

Lemma get_designates resolve id u m c t c' : (forall s, framed kept (resolve s)) -> (forall n s, s < n -> safe n (resolve s) any) -> sane c ->
  get_schema_with E resolve id u m c = (Ok t, c') -> designates E c' id m u t.
Proof.
  intros Hk Hs S H. unfold get_schema_with in H. apply bind_ok in H. destruct H as (hit & c1 & H1 & H). apply read_ok in H1. destruct H1 as [-> <-].
  destruct (cached id u (c_cache c)) as [s|] eqn:Hit; [apply ret_ok in H; destruct H as [<- <-]; now left|]. cbv zeta in H.
  apply bind_ok in H. destruct H as (known & c1 & H1 & H). apply read_ok in H1. destruct H1 as [-> <-].
  apply bind_ok in H. destruct H as ((s & again) & c1 & H1 & H).
  assert (D : document E c1 id m (no_fragment u) s /\ (forall s', again = Some s' -> cached id u (c_cache c1) = Some s')).
  { destruct (match u_frag u with Some _ => cached id (no_fragment u) (c_cache c) | None => None end) as [s0|] eqn:Kn.
    - apply ret_ok in H1. destruct H1 as [Q <-]. apply pair_equal_spec in Q. destruct Q as [<- <-]. split; [|discriminate]. left. destruct (u_frag u); [exact Kn|discriminate].
    - apply bind_ok in H1. destruct H1 as (doc & c2 & H1 & H2). apply lift_ok in H1. destruct H1 as [Ld <-]. apply bind_ok in H2. destruct H2 as (s1 & c2 & H2 & H3).
      apply bind_ok in H3. destruct H3 as (ag & c3 & H3 & H4). apply read_ok in H3. destruct H3 as [-> <-]. apply ret_ok in H4. destruct H4 as [Q <-]. apply pair_equal_spec in Q. destruct Q as [<- <-].
      split; [|auto]. right. exists doc. split; [exact Ld|]. unfold construct_with in H2. apply bind_ok in H2. destruct H2 as (s2 & c3 & H2 & H5).
      destruct (build_made _ _ _ _ _ _ _ S (Docs _ _ Ld) H2) as (_ & Hs3 & _ & Md).
      assert (S3 : sane c3). { assert (Sb : safe 0 (build E id doc (Some (no_fragment u)) m None) (fun s k => s < k)) by (apply safe_build; discriminate). destruct (Sb c S (Nat.le_0_l _)) as (X & _). rewrite H2 in X. exact X. }
      assert (K3 : kept c3 c2 /\ s1 = s2).
      { destruct doc; try solve [apply ret_ok in H5; destruct H5 as [<- <-]; split; [apply kept_refl|reflexivity]].
        apply bind_ok in H5. destruct H5 as (y & c4 & H5 & H6). apply ret_ok in H6. destruct H6 as [<- <-]. pose proof (Hk s2 c3) as X. rewrite H5 in X. split; [exact X|reflexivity]. }
      destruct K3 as [K3 ->]. exact (kept_made _ _ _ _ _ _ _ _ K3 S3 Md). }
  destruct D as [D Ag]. destruct again as [s'|]; [apply ret_ok in H; destruct H as [<- <-]; left; now apply Ag|].
  destruct (u_frag u) as [[|ch f]|] eqn:Fr; try (apply ret_ok in H; destruct H as [<- <-]; right; exists s; rewrite Fr; auto).
  apply bind_ok in H. destruct H as (objs & c2 & H2 & H). apply read_ok in H2. destruct H2 as [-> <-]. apply bind_ok in H. destruct H as (x & c2 & H2 & H). apply lift_ok in H2. destruct H2 as [W <-].
  destruct x as [t'|]; [|discriminate H]. apply ret_ok in H. destruct H as [<- <-]. right. exists s. split; [exact D|]. rewrite Fr. unfold pointer_to_catalog in W.
  destruct (parse_uri_fragment (ch :: f)) as [p| |] eqn:Pf; cbn [bind] in W; [|destruct (is_pointer_error e); discriminate W|discriminate W]. exists p. split; [reflexivity|].
  destruct (sn_walk (objs_world (c_objs c1)) (SNSchema s) p) as [y|e|]; [congruence|destruct (is_pointer_error e); discriminate W|discriminate W].
Qed.

(** *** How each reference came to be. *)
Definition traced (c c' : cat) : Prop :=
  kept c c' /\ forall i kws', i < size c -> keywords_at (c_objs c') i kws' -> exists kws, keywords_at (c_objs c) i kws /\
    Forall2 (fun a b => kw_later a b /\ (kw_ref (snd b) = kw_ref (snd a) \/ resolved_between E c c' i (snd b))) kws kws'.
Lemma reference_uri_strip objs s k k' u : strip k' = strip k -> reference_uri E objs s k u -> reference_uri E objs s k' u.
Proof. intro H. apply strip_fields in H. destruct H as (C & J & _). unfold reference_uri. now rewrite C, J. Qed.
Lemma between_more c0 c c' c'' s k : kept c0 c -> kept c' c'' -> resolved_between E c c' s k -> resolved_between E c0 c'' s k.
Proof. intros K0 K (c1 & u & t & A & B & C). exists c1, u, t. split; [exact (kept_trans _ _ _ K0 A)|]. split; [exact (kept_trans _ _ _ B K)|exact C]. Qed.
Lemma between_strip c c' s k k' : strip k' = strip k -> kw_ref k' = kw_ref k -> resolved_between E c c' s k -> resolved_between E c c' s k'.
Proof. intros St Rf (c1 & u & t & A & B & C & D & F). exists c1, u, t. split; [exact A|]. split; [exact B|]. split; [exact (reference_uri_strip _ _ _ _ _ St C)|]. split; [exact D|congruence]. Qed.
Lemma traced_old c c' : same_old c c' -> traced c c'.
Proof.
  intros O. split; [now apply old_kept|]. destruct O as [L O]. intros i kws' Hi (o & Ho & D). rewrite O in Ho by exact Hi. exists kws'. split; [now exists o|].
  apply Forall2_refl. intro a. split; [apply kw_later_refl|now left].
Qed.
Lemma traced_refl c : traced c c. Proof. apply traced_old, pre_old. Qed.
Lemma Forall2_compose {A B C} (R : A -> B -> Prop) (R' : B -> C -> Prop) (R'' : A -> C -> Prop) l1 l2 l3 : (forall a b c, R a b -> R' b c -> R'' a c) ->
  Forall2 R l1 l2 -> Forall2 R' l2 l3 -> Forall2 R'' l1 l3.
Proof. intros T H. revert l3. induction H; intros l3 H3; inversion H3; subst; constructor; eauto. Qed.
Lemma traced_trans a b c : traced a b -> traced b c -> traced a c.
Proof.
  intros [K1 T1] [K2 T2]. split; [exact (kept_trans _ _ _ K1 K2)|]. intros i kws'' Hi H. assert (Hi' : i < size b) by (apply kept_size in K1; lia).
  destruct (T2 i kws'' Hi' H) as (kws' & H' & F2). destruct (T1 i kws' Hi H') as (kws & H0 & F1). exists kws. split; [exact H0|].
  refine (Forall2_compose _ _ _ _ _ _ _ F1 F2). intros x y z [L1 J1] [L2 J2]. split; [exact (kw_later_trans _ _ _ L1 L2)|]. destruct J2 as [J2|J2].
  - destruct J1 as [J1|J1]; [left; congruence|]. right. apply (between_more a a b c); [apply kept_refl|exact K2|]. apply (between_strip _ _ _ (snd y)); [apply L2|exact J2|exact J1].
  - right. exact (between_more _ _ _ _ _ _ K1 (kept_refl c) J2).
Qed.

Definition traces {A} (n : nat) (x : M A) : Prop := forall c, sane c -> n <= size c -> traced c (snd (x c)).
Lemma traces_still {A} n (x : M A) : framed same_old x -> traces n x.
Proof. intros H c _ _. apply traced_old, H. Qed.
Lemma traces_bind {A B} n (x : M A) (f : A -> M B) Q : safe n x Q -> traces n x -> (forall a n', n <= n' -> Q a n' -> traces n' (f a)) -> traces n (bindM x f).
Proof.
  intros Sx Tx Tf c S L. destruct (Sx c S L) as (S1 & L1 & Q1). specialize (Tx c S L). unfold bindM. destruct (x c) as [[a| |] c1]; cbn [fst snd] in *; try exact Tx.
  apply (traced_trans _ c1); [exact Tx|]. exact (Tf a (size c1) ltac:(lia) (Q1 a eq_refl) c1 S1 (Nat.le_refl _)).
Qed.
Lemma traces_each {A} n (f : A -> M unit) (P : A -> cat -> Prop) l : (forall a c c', P a c -> sane c -> n <= size c -> kept c c' -> P a c') ->
  (forall a n', In a l -> n <= n' -> safe n' (f a) any) -> (forall a c, In a l -> sane c -> n <= size c -> P a c -> traced c (snd (f a c))) ->
  forall c, sane c -> n <= size c -> (forall a, In a l -> P a c) -> traced c (snd (each_ f l c)).
Proof.
  intros Stable Sf. induction l as [|a l IH]; intros Tf c S L HP; [apply traced_refl|]. cbn [each_]. unfold bindM.
  pose proof (Tf a c (or_introl eq_refl) S L (HP a (or_introl eq_refl))) as T1. destruct (Sf a n (or_introl eq_refl) (Nat.le_refl n) c S L) as (S1 & L1 & _).
  destruct (f a c) as [[r| |] c1]; cbn [fst snd] in *; try exact T1. apply (traced_trans _ c1); [exact T1|]. apply IH; auto.
  - intros a' n' Ha' Hn'. apply Sf; [now right|exact Hn'].
  - intros a' c2 Ha' S2 L2. apply Tf; [now right|exact S2|exact L2].
  - lia.
  - intros a' Ha'. apply (Stable a' c); [apply HP; now right|exact S|exact L|exact (proj1 T1)].
Qed.

Section Trace.
Variable resolve : sid -> M unit.
Hypothesis Hkept : forall s, framed kept (resolve s).
Hypothesis Hsafe : forall n s, s < n -> safe n (resolve s) any.
Hypothesis Htrace : forall n s, s < n -> traces n (resolve s).

Ltac still := apply traces_still; framing pre_old.
Lemma traces_construct_with n id v u m : traces n (construct_with E resolve id v u m).
Proof.
  unfold construct_with. apply (traces_bind _ _ _ (fun s k => s < k)); [apply safe_build; discriminate|apply traces_still, framed_build|]. intros s n1 L1 Hs.
  destruct v; try solve [still]. apply (traces_bind _ _ _ any); [now apply Hsafe|now apply Htrace|]. intros _ n2 L2 _. still.
Qed.
Lemma traces_get_schema_with n id u m : traces n (get_schema_with E resolve id u m).
Proof.
  unfold get_schema_with. apply (traces_bind _ _ _ hit_ok); [apply safe_hit; eauto|still|]. intros hit n1 L1 Hh. destruct hit as [s|]; [still|].
  cbv zeta. apply (traces_bind _ _ _ hit_ok); [apply safe_hit; intros c s; destruct (u_frag u); [eauto|discriminate]|still|]. intros known n2 L2 Hk.
  apply (traces_bind _ _ _ any).
  - destruct known as [s|]; [safety|]. safety. eapply safe_any. now apply safe_construct_with.
  - destruct known as [s|]; [still|]. apply (traces_bind _ _ _ any); [safety|still|]. intros doc n3 L3 _.
    apply (traces_bind _ _ _ any); [eapply safe_any; now apply safe_construct_with|apply traces_construct_with|]. intros s n4 L4 _. still.
  - intros [s [s'|]] n3 L3 _; [still|]. apply traces_still. destruct (u_frag u) as [[|ch f]|]; framing pre_old. destruct a0; framing pre_old.
Qed.

Lemma set_ref_traced s key t d k u c1 c2 : traced c1 c2 -> s < size c1 -> (forall kws k', keywords_at (c_objs c1) s kws -> In (key, k') kws -> strip k' = strip k) ->
  reference_uri E (c_objs c1) s k u -> designates E c1 (cache_of (c_objs c1) s) (metaschema_uri (c_objs c1) s) u t -> traced c1 (snd (set_ref s key t d c2)).
Proof.
  intros [K T] Hs Hk Ru De. pose proof (kept_set_ref s key t d c2) as K3. set (c3 := snd (set_ref s key t d c2)) in *.
  assert (K13 : kept c1 c3) by exact (kept_trans _ _ _ K K3). split; [exact K13|]. intros i kws3 Hi H3.
  assert (Hi2 : i < size c2) by (apply kept_size in K; lia). destruct (kept_keywords_back _ _ _ _ K3 Hi2 H3) as (kws2 & H2 & F23).
  destruct (T i kws2 Hi H2) as (kws1 & H1 & F12). exists kws1. split; [exact H1|].
  assert (F23' : Forall2 (fun b d => kw_later b d /\ (kw_ref (snd d) = kw_ref (snd b) \/ (i = s /\ fst d = key /\ kw_ref (snd d) = Some t))) kws2 kws3).
  { destruct H2 as (o & Ho & D). destruct H3 as (o3 & Ho3 & D3). unfold c3, set_ref, update, modify in Ho3. cbn [snd] in Ho3.
    destruct (nth_error (c_objs c2) s) as [x|] eqn:Hx.
    2:{ assert (o3 = o) by congruence. subst o3. assert (kws3 = kws2) by congruence. subst kws3. apply Forall2_refl. intro a. split; [apply kw_later_refl|now left]. }
    unfold put_obj in Ho3. cbn [c_objs] in Ho3. destruct (Nat.eq_dec s i) as [<-|N].
    - rewrite nth_set_nth_same in Ho3 by (apply nth_error_Some; congruence). injection Ho3 as <-. assert (x = o) by congruence. subst x. cbn [with_data so_data] in D3. rewrite D in D3. injection D3 as <-.
      clear. induction kws2 as [|[k v] kws IH]; cbn [map]; constructor; [|exact IH].
      cbn [fst snd]. destruct (str_eqb_spec k key) as [->|N]; [|split; [apply kw_later_refl|now left]]. split; [split; [reflexivity|split; [reflexivity|cbn; discriminate]]|]. right. auto.
    - rewrite nth_set_nth_other in Ho3 by exact N. assert (o3 = o) by congruence. subst o3. assert (kws3 = kws2) by congruence. subst kws3. apply Forall2_refl. intro a. split; [apply kw_later_refl|now left]. }
  assert (F12' : Forall2 (fun a b => In a kws1 /\ kw_later a b /\ (kw_ref (snd b) = kw_ref (snd a) \/ resolved_between E c1 c2 i (snd b))) kws1 kws2).
  { clear -F12. induction F12 as [|x y l l' Hxy F IH]; constructor; [split; [now left|exact Hxy]|]. eapply Forall2_imp; [|exact IH]. cbn. intros a b (A & B). split; [now right|exact B]. }
  refine (Forall2_compose _ _ _ _ _ _ _ F12' F23'). intros x y z (Hin & L1 & J1) [L2 J2]. split; [exact (kw_later_trans _ _ _ L1 L2)|]. destruct J2 as [J2|(-> & Kz & Rz)].
  - destruct J1 as [J1|J1]; [left; congruence|]. right. apply (between_more c1 c1 c2 c3); [apply kept_refl|exact K3|]. apply (between_strip _ _ _ (snd y)); [apply L2|exact J2|exact J1].
  - right. exists c1, u, t. split; [apply kept_refl|]. split; [exact K13|]. split; [|split; [exact De|exact Rz]].
    assert (St : strip (snd z) = strip k).
    { destruct L1 as (Q1 & St1 & _), L2 as (Q2 & St2 & _). rewrite St2, St1. apply (Hk kws1); [exact H1|]. rewrite <- Kz, Q2, Q1. destruct x; exact Hin. }
    exact (reference_uri_strip _ _ _ _ _ St Ru).
Qed.

Lemma absolute_ok s k c u c' : (kw_class k = Std KRef \/ kw_class k = Std KDynamicRef) -> absolute_reference E s (kw_json k) c = (Ok u, c') -> c' = c /\ reference_uri E (c_objs c) s k u.
Proof.
  intros Hc H. unfold absolute_reference in H. apply bind_ok in H. destruct H as (u0 & c1 & H1 & H). apply lift_ok in H1. destruct H1 as [P <-].
  apply bind_ok in H. destruct H as (objs & c1 & H1 & H). apply read_ok in H1. destruct H1 as [-> <-].
  assert (J : exists t, kw_json k = KJ (JStr t) /\ u0 = ul_parse (e_lib E) t).
  { destruct (kw_json k) as [v|?|?|?]; try discriminate P. unfold parse_uri in P. destruct v; try discriminate P. injection P as <-. eauto. }
  destruct J as (t & J & ->).
  assert (G : c' = c /\ let r := ul_parse (e_lib E) t in
           (ul_absolute (e_lib E) (no_fragment r) = true /\ u = r \/ ul_absolute (e_lib E) (no_fragment r) = false /\ exists b, base_uri (c_objs c) s = Some b /\ u = ul_resolve (e_lib E) r b)).
  { cbv zeta. destruct (ul_absolute (e_lib E) (no_fragment (ul_parse (e_lib E) t))); [apply ret_ok in H; destruct H as [<- <-]; auto|].
    destruct (base_uri (c_objs c) s) as [b|]; [|discriminate H]. apply ret_ok in H. destruct H as [<- <-]. eauto 6. }
  destruct G as [-> G]. split; [reflexivity|]. unfold reference_uri. destruct Hc as [-> | ->]; eauto.
Qed.
Lemma absolute_still s j c : snd (absolute_reference E s j c) = c.
Proof.
  unfold absolute_reference, bindM, lift, read. destruct (match j with KJ v => parse_uri E v | _ => Exn EType end) as [u| |]; [|reflexivity|reflexivity].
  destruct (ul_absolute (e_lib E) (no_fragment u)); [reflexivity|]. now destruct (base_uri (c_objs c) s).
Qed.

Lemma resolve_keyword_traced s key k c : sane c -> s < size c -> is_reference k -> (forall kws k', keywords_at (c_objs c) s kws -> In (key, k') kws -> strip k' = strip k) ->
  traced c (snd (resolve_keyword E resolve s key k c)).
Proof.
  intros S Hs R Hk. unfold resolve_keyword, bindM at 1, read at 1. cbv zeta. fold (cache_of (c_objs c) s).
  assert (Get : forall u, reference_uri E (c_objs c) s k u -> forall t c1, get_schema_with E resolve (cache_of (c_objs c) s) u (metaschema_uri (c_objs c) s) c = (Ok t, c1) ->
     traced c c1 /\ sane c1 /\ reference_uri E (c_objs c1) s k u /\ designates E c1 (cache_of (c_objs c1) s) (metaschema_uri (c_objs c1) s) u t /\ s < size c1 /\
     (forall kws k', keywords_at (c_objs c1) s kws -> In (key, k') kws -> strip k' = strip k)).
  { intros u Ru t c1 H. pose proof (traces_get_schema_with 0 (cache_of (c_objs c) s) u (metaschema_uri (c_objs c) s) c S (Nat.le_0_l _)) as T. rewrite H in T. cbn [snd] in T.
    destruct (safe_get_schema_with E resolve Hsafe 0 (cache_of (c_objs c) s) u (metaschema_uri (c_objs c) s) c S (Nat.le_0_l _)) as (S1 & _). rewrite H in S1. cbn [snd] in S1.
    pose proof (get_designates _ _ _ _ _ _ _ Hkept Hsafe S H) as De. pose proof (proj1 T) as K.
    split; [exact T|]. split; [exact S1|]. split; [|split; [|split]].
    - unfold reference_uri in *. rewrite (kept_base _ _ _ K S Hs). exact Ru.
    - rewrite (kept_cache _ _ _ K Hs), (kept_meta _ _ _ K S Hs). exact De.
    - apply kept_size in K. lia.
    - intros kws k' Ha Hin. destruct (kept_keywords_back _ _ _ _ K Hs Ha) as (kws0 & Ha0 & F). destruct (Forall2_In_r _ _ _ _ F Hin) as ([key0 k0] & Hk0 & (Q & St & _)). cbn [fst snd] in *. subst key0.
      rewrite St. exact (Hk _ _ Ha0 Hk0). }
  assert (GetT : forall u, traced c (snd (get_schema_with E resolve (cache_of (c_objs c) s) u (metaschema_uri (c_objs c) s) c))) by (intro u; exact (traces_get_schema_with 0 _ _ _ c S (Nat.le_0_l _))).
  destruct R as [R|[R|R]]; rewrite R.
  - unfold bindM at 1. pose proof (absolute_still s (kw_json k) c) as St. destruct (absolute_reference E s (kw_json k) c) as [[u| |] c0] eqn:Ab; cbn [snd] in *; subst c0; try apply traced_refl.
    apply absolute_ok in Ab; [|now left]. destruct Ab as [_ Ru]. unfold bindM. pose proof (GetT u) as T0. destruct (get_schema_with E resolve _ u _ c) as [[t| |] c1] eqn:G; cbn [snd] in *; try exact T0.
    destruct (Get u Ru t c1 G) as (T & S1 & Ru1 & De & Hs1 & Hk1). apply (traced_trans _ c1); [exact T|]. exact (set_ref_traced s key t false k u c1 c1 (traced_refl _) Hs1 Hk1 Ru1 De).
  - unfold bindM at 1. pose proof (absolute_still s (kw_json k) c) as St. destruct (absolute_reference E s (kw_json k) c) as [[u| |] c0] eqn:Ab; cbn [snd] in *; subst c0; try apply traced_refl.
    apply absolute_ok in Ab; [|now right]. destruct Ab as [_ Ru]. unfold bindM at 1. pose proof (GetT u) as T0. destruct (get_schema_with E resolve _ u _ c) as [[t| |] c1] eqn:G; cbn [snd] in *; try exact T0.
    destruct (Get u Ru t c1 G) as (T & S1 & Ru1 & De & Hs1 & Hk1). apply (traced_trans _ c1); [exact T|].
    pose proof (set_ref_traced s key t false k u c1 c1 (traced_refl _) Hs1 Hk1 Ru1 De) as T1. unfold bindM. destruct (set_ref s key t false c1) as [[y| |] c2]; cbn [snd] in *; try exact T1.
    unfold read, lift. destruct (has_dynamic_anchor (objs_world (c_objs c2)) t (kw_fragment k)) as [[]| |]; cbn [snd]; try exact T1.
    exact (set_ref_traced s key t true k u c1 c2 T1 Hs1 Hk1 Ru1 De).
  - destruct (base_uri (c_objs c) s) as [b|] eqn:Bu; [|apply traced_refl]. assert (Ru : reference_uri E (c_objs c) s k b) by (unfold reference_uri; rewrite R; exact Bu).
    unfold bindM. pose proof (GetT b) as T0. destruct (get_schema_with E resolve _ b _ c) as [[t| |] c1] eqn:G; cbn [snd] in *; try exact T0.
    destruct (Get b Ru t c1 G) as (T & S1 & Ru1 & De & Hs1 & Hk1). apply (traced_trans _ c1); [exact T|]. exact (set_ref_traced s key t false k b c1 c1 (traced_refl _) Hs1 Hk1 Ru1 De).
Qed.
End Trace.

Lemma NoDup_keys_eq {A} key (a b : A) l : NoDup (keys l) -> In (key, a) l -> In (key, b) l -> a = b.
Proof. intros N Ha Hb. apply In_dget in Ha; [|exact N]. apply In_dget in Hb; [|exact N]. congruence. Qed.
Lemma traces_resolve f : forall n s, s < n -> traces n (resolve_references E f s).
Proof.
  induction f as [|f IH]; intros n s Hs; [intros c S L; apply traced_refl|]. intros c S L. cbn [resolve_references]. unfold bindM, read.
  set (step := fun kk : pystr * keyword => if reference_class (kw_class (snd kk)) then resolve_keyword E (resolve_references E f) s (fst kk) (snd kk)
               else match kw_json (snd kk) with KSub t => resolve_references E f t | KSubs ts => each_ (resolve_references E f) ts
                    | KSubm ts => each_ (fun kt => resolve_references E f (snd kt)) ts | KJ _ => ret tt end).
  assert (Ok0 : forall kk, In kk (schema_keywords (objs_world (c_objs c)) s) -> kw_ok (size c) (snd kk)).
  { intros [key k] Hk. apply keywords_in in Hk. destruct Hk as (kws & Ha & Hk). destruct S as (_ & K & _). exact (proj2 (K _ _ Ha) _ _ Hk). }
  assert (Triv : forall (l : list sid), (forall t, In t l -> t < size c) -> forall c1, sane c1 -> size c <= size c1 -> traced c1 (snd (each_ (resolve_references E f) l c1))).
  { intros l Hl c1 S1 L1. apply (traces_each (size c) _ (fun _ _ => True)); auto.
    - intros t n' Ht Hn'. apply safe_resolve. specialize (Hl t Ht). lia.
    - intros t c2 Ht S2 L2 _. apply (IH (size c2) t); auto. specialize (Hl t Ht). lia. }
  apply (traces_each (size c) step (fun kk c' => forall kws k', keywords_at (c_objs c') s kws -> In (fst kk, k') kws -> strip k' = strip (snd kk))); auto.
  - intros kk c1 c2 H1 S1 L1 K kws k' Ha Hk. assert (Hs1 : s < size c1) by lia. destruct (kept_keywords_back _ _ _ _ K Hs1 Ha) as (kws0 & Ha0 & F).
    destruct (Forall2_In_r _ _ _ _ F Hk) as ([key0 k0] & Hk0 & (Q & St & _)). cbn [fst snd] in *. rewrite St. apply (H1 _ _ Ha0). now rewrite Q.
  - intros kk n' Hkk Hn'. unfold step. destruct (reference_class (kw_class (snd kk))); [apply safe_resolve_keyword, safe_resolve|]. destruct (Ok0 _ Hkk) as (A & _).
    unfold subschema_of in A. destruct (kw_json (snd kk)) as [v|t|l|m].
    + safety.
    + apply safe_resolve. specialize (A t eq_refl). lia.
    + apply safe_each. intros t n3 Ht L3. apply safe_resolve. specialize (A t Ht). lia.
    + apply safe_each. intros kt n3 Ht L3. apply safe_resolve. specialize (A _ (in_map snd _ _ Ht)). lia.
  - intros kk c1 Hkk S1 L1 H1. unfold step. destruct (reference_class (kw_class (snd kk))) eqn:Rc.
    + apply resolve_keyword_traced; auto; [apply kept_resolve|apply safe_resolve|lia|]. unfold is_reference. destruct (kw_class (snd kk)) as [[]|]; try discriminate Rc; auto.
    + destruct (Ok0 _ Hkk) as (A & _). unfold subschema_of in A. destruct (kw_json (snd kk)) as [v|t|l|m].
      * apply traced_refl.
      * apply (IH (size c1) t); auto. specialize (A t eq_refl). lia.
      * apply Triv; auto.
      * assert (Em : forall c2, each_ (fun kt : pystr * sid => resolve_references E f (snd kt)) m c2 = each_ (resolve_references E f) (map snd m) c2).
        { clear. induction m as [|x m IHm]; intro c2; [reflexivity|]. cbn [each_ map]. unfold bindM. destruct (resolve_references E f (snd x) c2) as [[]]; auto. }
        rewrite Em. apply Triv; auto.
  - intros [key k] Hkk kws k' Ha Hin. cbn [fst snd] in *. apply keywords_in in Hkk. destruct Hkk as (kws1 & Ha1 & Hk1). rewrite (keywords_fun _ _ _ _ Ha1 Ha) in Hk1.
    destruct S as (_ & K & _). f_equal. exact (NoDup_keys_eq _ _ _ _ (proj1 (K _ _ Ha)) Hin Hk1).
Qed.
End Kept.
