(** The schema objects that constructing a document makes. *)
From Coq Require Import List Lia Bool Permutation.
From Verif Require Export BuildFrame OrderFacts JsonFacts.
Import ListNotations.
Open Scope nat_scope.

(** ** Climbing. *)
Section Climb.
Context {A : Type} (f : sobj -> option A).
Lemma climb_steps objs : upward objs -> forall s n, s < n -> climb n objs f s = climb (S s) objs f s.
Proof.
  intros U s. induction s as [s IH] using lt_wf_ind. intros [|n] H; [lia|]. cbn [climb]. destruct (nth_error objs s) as [o|] eqn:D; [|reflexivity].
  destruct (f o); [reflexivity|]. destruct (so_up o) as [[p ks]|] eqn:Up; [|reflexivity]. pose proof (U _ _ _ _ D Up). rewrite (IH p) by lia. symmetry. apply IH; lia.
Qed.
Lemma climb_eq objs s : upward objs -> climb (S s) objs f s =
  match nth_error objs s with
  | None => None
  | Some o => match f o with Some a => Some a | None => match so_up o with Some (p, _) => climb (S p) objs f p | None => None end end
  end.
Proof.
  intro U. cbn [climb]. destruct (nth_error objs s) as [o|] eqn:D; [|reflexivity]. destruct (f o); [reflexivity|].
  destruct (so_up o) as [[p ks]|] eqn:Up; [|reflexivity]. pose proof (U _ _ _ _ D Up). now apply climb_steps.
Qed.
Definition heading (o : sobj) : option A * option (sid * list pystr) := (f o, so_up o).
Lemma climb_agree objs objs' : upward objs -> forall n s,
  (forall i, i <= s -> option_map heading (nth_error objs' i) = option_map heading (nth_error objs i)) ->
  climb n objs' f s = climb n objs f s.
Proof.
  intro U. induction n as [|n IH]; intros s H; [reflexivity|]. cbn [climb]. pose proof (H s (Nat.le_refl s)) as Hs.
  destruct (nth_error objs' s) as [o'|] eqn:D', (nth_error objs s) as [o|] eqn:D; cbn in Hs; try discriminate Hs; [|reflexivity].
  injection Hs as Hf Hu. rewrite Hf, Hu. destruct (f o); [reflexivity|]. destruct (so_up o) as [[p ks]|] eqn:Up; [|reflexivity].
  apply IH. intros i Hi. apply H. pose proof (U _ _ _ _ D Up). lia.
Qed.
End Climb.

(** ** Agreement of objects. *)
Definition agrees (objs objs' : list sobj) (s : sid) : Prop :=
  forall i o, s <= i -> nth_error objs i = Some o -> exists o', nth_error objs' i = Some o' /\ shape o' = shape o.
Lemma shape_bool o o' b : shape o' = shape o -> so_data o = SBool b -> so_data o' = SBool b.
Proof. unfold shape, with_data. intros [= _ _ _ _ H] D. rewrite D in H. destruct (so_data o'); congruence. Qed.
Lemma shape_obj o o' kws : shape o' = shape o -> so_data o = SObj kws ->
  exists kws', so_data o' = SObj kws' /\ map (fun kk => (fst kk, strip (snd kk))) kws' = map (fun kk => (fst kk, strip (snd kk))) kws.
Proof. unfold shape, with_data. intros [= _ _ _ _ H] D. rewrite D in H. destruct (so_data o') as [|kws']; [discriminate|]. exists kws'. split; [reflexivity|]. now injection H as H. Qed.
Lemma shape_head o o' : shape o' = shape o -> so_uri o' = so_uri o /\ so_meta o' = so_meta o /\ so_up o' = so_up o /\ so_cache o' = so_cache o.
Proof. unfold shape, with_data. intros [= -> -> -> -> _]. auto. Qed.
Lemma strip_keys kws kws' : map (fun kk : pystr * keyword => (fst kk, strip (snd kk))) kws' = map (fun kk => (fst kk, strip (snd kk))) kws -> keys kws' = keys kws.
Proof. intro H. apply (f_equal (map fst)) in H. rewrite !map_map in H. exact H. Qed.
Lemma strip_In kws kws' key k : map (fun kk : pystr * keyword => (fst kk, strip (snd kk))) kws' = map (fun kk => (fst kk, strip (snd kk))) kws ->
  In (key, k) kws -> exists k', In (key, k') kws' /\ strip k' = strip k.
Proof.
  intros H Hk. assert (X : In (key, strip k) (map (fun kk => (fst kk, strip (snd kk))) kws')).
  { rewrite H. apply in_map_iff. now exists (key, k). }
  apply in_map_iff in X. destruct X as ([key' k'] & Q & X). apply pair_equal_spec in Q. destruct Q as [Q1 Q2]. cbn [fst snd] in *. subst key'. now exists k'.
Qed.
Lemma strip_fields k k' : strip k' = strip k ->
  kw_class k' = kw_class k /\ kw_json k' = kw_json k /\ kw_fragment k' = kw_fragment k /\ kw_format k' = kw_format k.
Proof. unfold strip. intros [= -> -> -> ->]. auto. Qed.

Scheme made_ind2 := Minimality for made Sort Prop
  with holds_ind2 := Minimality for holds Sort Prop.
Combined Scheme made_holds_ind from made_ind2, holds_ind2.

Lemma made_up E objs m b u v s up : made E objs m b u v s up -> exists o, nth_error objs s = Some o /\ so_up o = up.
Proof. destruct 1; eauto. Qed.

Lemma made_later E objs m b u v t s ks : upward objs -> made E objs m b u v t (Some (s, ks)) -> s < t.
Proof. intros U H. apply made_up in H. destruct H as (o & Ho & Hu). exact (U _ _ _ _ Ho Hu). Qed.
Lemma agrees_later objs objs' s t : s < t -> agrees objs objs' (S s) -> agrees objs objs' t.
Proof. intros L H i o Hi. apply H. lia. Qed.

Lemma made_holds_agree E objs objs' : upward objs ->
  (forall m b u v s up, made E objs m b u v s up -> agrees objs objs' s -> made E objs' m b u v s up) /\
  (forall m b s key c v j, holds E objs m b s key c v j -> agrees objs objs' (S s) -> holds E objs' m b s key c v j).
Proof.
  intro U. apply made_holds_ind.
  - intros m b u x s up o Ho Hd Hup Hu A. destruct (A _ _ (Nat.le_refl s) Ho) as (o' & Ho' & S). destruct (shape_head _ _ S) as (S1 & S2 & S3 & S4).
    apply (made_bool _ _ _ _ _ _ _ _ o'); [exact Ho'|exact (shape_bool _ _ _ S Hd)|congruence|congruence].
  - intros m b u doc s up o kws Ho Hd Hup Hu N K C Kp _ IH Dep Ord Fo A. destruct (A _ _ (Nat.le_refl s) Ho) as (o' & Ho' & S).
    destruct (shape_head _ _ S) as (S1 & S2 & S3 & S4). destruct (shape_obj _ _ _ S Hd) as (kws' & Hd' & Hk).
    assert (Ek := strip_keys _ _ Hk).
    assert (B : forall key k', In (key, k') kws' -> exists k, In (key, k) kws /\ strip k = strip k') by (intros; now apply (strip_In kws' kws)).
    apply (made_object _ _ _ _ _ _ _ _ o' kws' Ho' Hd'); try congruence.
    + intro key. rewrite Ek. apply K.
    + intros key k' Hk'. destruct (B _ _ Hk') as (k & Hk0 & F). apply strip_fields in F. destruct F as (F1 & F2 & F3 & F4). rewrite <- F1. now apply C.
    + intros key k' v Hk' Hv. destruct (B _ _ Hk') as (k & Hk0 & F). apply strip_fields in F. destruct F as (F1 & F2 & F3 & F4). rewrite <- F1, <- F3, <- F4. exact (Kp _ _ _ Hk0 Hv).
    + intros key k' v Hk' Hv. destruct (B _ _ Hk') as (k & Hk0 & F). apply strip_fields in F. destruct F as (F1 & F2 & F3 & F4). rewrite <- F1, <- F2, S1. apply (IH _ _ _ Hk0 Hv).
      intros i oi Hi. apply A. lia.
    + intros key k' n Hk'. destruct (B _ _ Hk') as (k & Hk0 & F). apply strip_fields in F. destruct F as (F1 & F2 & F3 & F4). rewrite <- F1, Ek. exact (Dep _ _ _ Hk0).
    + rewrite S2. exact Fo.
  - intros. now apply holds_plain.
  - intros m b s key c v t Hc Ht IH A. apply holds_one; [exact Hc|]. apply IH. exact (agrees_later _ _ _ _ (made_later _ _ _ _ _ _ _ _ _ U Ht) A).
  - intros m b s key c l ts Hc L Ht IH A. apply holds_many; [exact Hc|exact L|]. intros i v t Hv Hi. apply (IH _ _ _ Hv Hi).
    exact (agrees_later _ _ _ _ (made_later _ _ _ _ _ _ _ _ _ U (Ht _ _ _ Hv Hi)) A).
  - intros. now apply holds_text.
  - intros m b s key c doc ts Hc N L Ht IH A. apply holds_named; [exact Hc|exact N|exact L|]. intros n v t Hv Hi. apply (IH _ _ _ Hv Hi).
    exact (agrees_later _ _ _ _ (made_later _ _ _ _ _ _ _ _ _ U (Ht _ _ _ Hv Hi)) A).
Qed.
Lemma made_agree E objs objs' m b u v s up : upward objs -> made E objs m b u v s up -> agrees objs objs' s -> made E objs' m b u v s up.
Proof. intro U. apply (proj1 (made_holds_agree E objs objs' U)). Qed.
Lemma holds_agree E objs objs' m b s key c v j : upward objs -> holds E objs m b s key c v j -> agrees objs objs' (S s) -> holds E objs' m b s key c v j.
Proof. intro U. apply (proj2 (made_holds_agree E objs objs' U)). Qed.

Lemma old_agrees c c' s : same_old c c' -> agrees (c_objs c) (c_objs c') s.
Proof. intros [L H] i o _ Ho. exists o. split; [|reflexivity]. rewrite H; [exact Ho|]. apply nth_error_Some. congruence. Qed.
Lemma but_agrees c c' s : same_but s c c' -> agrees (c_objs c) (c_objs c') (S s).
Proof. intros [L H] i o Hi Ho. exists o. split; [|reflexivity]. rewrite H; [exact Ho| |lia]. apply nth_error_Some. congruence. Qed.

(** ** Reachability grows. *)
Definition more (objs objs' : list sobj) : Prop :=
  forall s kws, keywords_at objs s kws -> exists kws', keywords_at objs' s kws' /\
    forall key k, In (key, k) kws -> exists k', In (key, k') kws' /\ kw_json k' = kw_json k.
Lemma within_more objs objs' s t : more objs objs' -> within objs s t -> within objs' s t.
Proof.
  intros H W. induction W as [|t t' kws key k W IH Kt Hk Sub]; [constructor|]. destruct (H _ _ Kt) as (kws' & Kt' & Hin). destruct (Hin _ _ Hk) as (k' & Hk' & J).
  apply (within_step _ _ t t' kws' key k' IH Kt' Hk'). unfold subschema_of in *. now rewrite J.
Qed.
Lemma within_trans objs s t r : within objs s t -> within objs t r -> within objs s r.
Proof. intros H W. induction W; [exact H|]. eapply within_step; eauto. Qed.
Lemma old_more c c' : same_old c c' -> more (c_objs c) (c_objs c').
Proof.
  intros [L H] s kws (o & Ho & Hd). exists kws. split; [|eauto]. exists o. split; [|exact Hd]. rewrite H; [exact Ho|]. apply nth_error_Some. congruence.
Qed.
Lemma shape_more c c' : same_shape c c' -> more (c_objs c) (c_objs c').
Proof.
  intros [L H] s kws (o & Ho & Hd). destruct (H _ _ Ho) as (o' & Ho' & S). destruct (shape_obj _ _ _ S Hd) as (kws' & Hd' & Hk). exists kws'. split; [now exists o'|].
  intros key k Hin. destruct (strip_In _ _ _ _ Hk Hin) as (k' & Hk' & F). apply strip_fields in F. exists k'. tauto.
Qed.
