(** Two schemas made from one document correspond. *)
From Coq Require Import List Lia Bool.
From Verif Require Export SchemaTwin.
From Verif Require Import OrderFacts BuildOk BuildMade BuildFacts EditFacts ReadBackExact.
Import ListNotations.
Open Scope nat_scope.

Lemma keywords_same objs s kws kws' : keywords_at objs s kws -> keywords_at objs s kws' -> kws = kws'.
Proof. intros (o & H & D) (o' & H' & D'). congruence. Qed.
Lemma nodup_same {A} key (x y : A) l : NoDup (keys l) -> In (key, x) l -> In (key, y) l -> x = y.
Proof.
  induction l as [|[k z] l IH]; [intros _ []|]. cbn [keys map fst]. intros N A1 A2. inversion N as [|? ? N1 N2]; subst.
  destruct A1 as [A1|A1], A2 as [A2|A2]; try congruence; [apply (f_equal fst) in A1|apply (f_equal fst) in A2|now apply IH]; cbn [fst] in *; subst; exfalso; apply N1.
  - exact (in_map fst _ _ A2).
  - exact (in_map fst _ _ A1).
Qed.
Lemma first_same k ks t t' : first_keys k ks t -> first_keys k ks t' -> t = t'.
Proof.
  unfold first_keys. destruct (kw_json k) as [v|x|l|m]; [intros []|intros [_ <-] [_ <-]; reflexivity| |].
  - intros (i & E & H) (j & E' & H'). rewrite E in E'. apply (f_equal (hd [])) in E'. cbn [hd] in E'. apply str_of_nat_inj in E'. congruence.
  - intros (n & E & H) (n' & E' & H'). rewrite E in E'. apply (f_equal (hd [])) in E'. cbn [hd] in E'. congruence.
Qed.
Lemma dget_keyed {A} (l : list (pystr * A)) key x : NoDup (keys l) -> In (key, x) l -> dget key l = Some x.
Proof.
  induction l as [|[k z] l IH]; [intros _ []|]. cbn [keys map fst]. intros N A1. inversion N as [|? ? N1 N2]; subst. cbn [dget]. destruct (str_eqb_spec key k) as [->|Ne].
  - destruct A1 as [A1|A1]; [now apply (f_equal snd) in A1; cbn [snd] in A1; subst|]. exfalso. apply N1. exact (in_map fst _ _ A1).
  - destruct A1 as [A1|A1]; [apply (f_equal fst) in A1; cbn [fst] in A1; congruence|now apply IH].
Qed.

Lemma forall2_nth {A B} (Q : A -> B -> Prop) l : forall l', length l = length l' -> (forall i x y, nth_error l i = Some x -> nth_error l' i = Some y -> Q x y) -> Forall2 Q l l'.
Proof.
  induction l as [|x l IH]; intros [|y l'] L H; try discriminate L; constructor; [now apply (H 0)|]. apply IH; [now injection L|]. intros i. exact (H (Datatypes.S i)).
Qed.
Lemma forall2_keyed {A} (Q : A -> A -> Prop) (l : list (pystr * A)) : forall l', keys l = keys l' -> NoDup (keys l) -> (forall n x y, dget n l = Some x -> dget n l' = Some y -> Q x y) ->
  Forall2 (fun x y => fst x = fst y /\ Q (snd x) (snd y)) l l'.
Proof.
  intros l' K N H. assert (N' : NoDup (keys l')) by now rewrite <- K.
  assert (G : forall n x y, In (n, x) l -> In (n, y) l' -> Q x y) by (intros n x y A1 A2; apply (H n); now apply dget_keyed). clear H N N'.
  revert l' K G. induction l as [|[n x] l IH]; intros [|[n' y] l'] K G; try discriminate K; constructor.
  - cbn [fst snd]. cbn [keys map fst] in K. assert (n = n') by (exact (f_equal (hd []) K)). subst n'. split; [reflexivity|]. apply (G n); now left.
  - apply IH; [exact (f_equal (@tl _) K)|]. intros n0 x0 y0 A1 A2. apply (G n0); now right.
Qed.
Lemma one_named c : takes_one c -> takes_named c -> False.
Proof.
  unfold takes_one, takes_named. cbn [map In]. intros H H'. repeat (destruct H as [H|H]; [subst c; repeat (destruct H' as [H'|H']; [discriminate H'|]); exact H'|]). exact H.
Qed.

Section Pair.
Variable E : env.
Variables objs objs' : list sobj.
Variables r r' : sid.
Hypothesis U : upward objs.
Hypothesis U' : upward objs'.
Variables (m b u b' u' : option uri) (v : json) (up up' : option (sid * list pystr)).
Hypothesis Md : made E objs m b u v r up.
Hypothesis Md' : made E objs' m b' u' v r' up'.
Notation P := (paired objs objs' r r').

Definition matched (s s' : sid) (up up' : option (sid * list pystr)) : Prop :=
  exists m b u b' u' v, made E objs m b u v s up /\ made E objs' m b' u' v s' up'.
(** Keywords of the same class and document value hold subschemas made of the same documents. *)
Lemma held m0 b0 b0' s s' key c w j j' : holds E objs m0 b0 s key c w j -> holds E objs' m0 b0' s' key c w j' ->
  forall k k' ks t t', kw_json k = j -> kw_json k' = j' -> first_keys k ks t -> first_keys k' ks t' -> matched t t' (Some (s, key :: ks)) (Some (s', key :: ks)).
Proof.
  intros H H' k k' ks t t' Ek Ek' F F'. unfold first_keys in F, F'. rewrite Ek in F. rewrite Ek' in F'. clear Ek Ek' k k'. unfold matched.
  inversion H as [? ? ? ? ? ? N1 N2 N3|? ? ? ? ? ? t1 O1 M1|? ? ? ? ? l ts O1 L1 M1|? ? ? ? ? x O1|? ? ? ? ? doc ts O1 Nd K1 M1]; subst; try contradiction;
  inversion H' as [? ? ? ? ? ? N1' N2' N3'|? ? ? ? ? ? t1' O1' M1'|? ? ? ? ? l' ts' O1' L1' M1'|? ? ? ? ? x' O1'|? ? ? ? ? doc' ts' O1' Nd' K1' M1']; subst; try contradiction.
  - destruct F as [-> <-], F' as [_ <-]. exists m0, b0, None, b0', None, w. split; assumption.
  - destruct F as [-> _], F' as (i & X & _). discriminate X.
  - destruct F as [-> _], F' as (i & X & _). discriminate X.
  - destruct F' as [-> _], F as (i & X & _). discriminate X.
  - destruct F as (i & -> & Hi), F' as (i' & X & Hi'). apply (f_equal (hd [])) in X. cbn [hd] in X. apply str_of_nat_inj in X. subst i'.
    destruct (nth_error l i) as [w|] eqn:Hw; [|apply nth_error_None in Hw; assert (i < length ts) by (apply nth_error_Some; congruence); lia].
    exists m0, b0, None, b0', None, w. split; [now apply (M1 i)|now apply (M1' i)].
  - destruct F' as [-> _], F as (i & X & _). discriminate X.
  - destruct F as (n & -> & Hn), F' as (n' & X & Hn'). apply (f_equal (hd [])) in X. cbn [hd] in X. subst n'.
    destruct (dget n doc) as [w|] eqn:Hw.
    + exists m0, b0, None, b0', None, w. split; [now apply (M1 n)|now apply (M1' n)].
    + exfalso. pose proof (dget_keys _ _ _ Hn) as X. rewrite K1 in X. apply in_map_iff in X as ([n1 w] & X & Hin). cbn [fst] in X. subst n1. rewrite (dget_keyed doc n w Nd Hin) in Hw. discriminate Hw.
Qed.
Lemma held_twin (Q : sid -> sid -> Prop) m0 b0 b0' s s' key c w j j' : holds E objs m0 b0 s key c w j -> holds E objs' m0 b0' s' key c w j' ->
  (forall k k' ks t t', kw_json k = j -> kw_json k' = j' -> first_keys k ks t -> first_keys k' ks t' -> Q t t') -> twin_json Q j j'.
Proof.
  intros H H' Hq. assert (G : forall ks t t', first_keys (mkKw c j None false [] None) ks t -> first_keys (mkKw c j' None false [] None) ks t' -> Q t t') by (intros ks t t'; apply Hq; reflexivity). clear Hq. unfold first_keys in G. cbn [kw_json] in G.
  inversion H as [? ? ? ? ? ? N1 N2 N3|? ? ? ? ? ? t1 O1 M1|? ? ? ? ? l ts O1 L1 M1|? ? ? ? ? x O1|? ? ? ? ? doc ts O1 Nd K1 M1]; subst;
  inversion H' as [? ? ? ? ? ? N1' N2' N3'|? ? ? ? ? ? t1' O1' M1'|? ? ? ? ? l' ts' O1' L1' M1'|? ? ? ? ? x' O1'|? ? ? ? ? doc' ts' O1' Nd' K1' M1']; subst; try contradiction; try (exfalso; match goal with X : made _ _ _ _ _ (JArr _) _ _ |- _ => inversion X | X : made _ _ _ _ _ (JStr _) _ _ |- _ => inversion X end; fail).
  - constructor.
  - constructor. apply (G []); auto.
  - exfalso. exact (one_named c O1 O1').
  - constructor. apply forall2_nth; [congruence|]. intros i t t' Ht Ht'. apply (G [str_of_nat i]); exists i; auto.
  - constructor.
  - exfalso. exact (one_named c O1' O1).
  - constructor. apply forall2_keyed; [congruence|rewrite K1; exact Nd|]. intros n t t' Ht Ht'. apply (G [n]); exists n; auto.
Qed.

Lemma below s s' up1 up1' kws kws' key k k' ks t t' : matched s s' up1 up1' -> keywords_at objs s kws -> keywords_at objs' s' kws' -> In (key, k) kws -> In (key, k') kws' ->
  first_keys k ks t -> first_keys k' ks t' -> matched t t' (Some (s, key :: ks)) (Some (s', key :: ks)).
Proof.
  intros (m1 & b1 & u1 & b1' & u1' & v1 & M & M') K K' Hk Hk' F F'. destruct K as (o & Ho & Hd), K' as (o' & Ho' & Hd').
  inversion M as [? ? ? ? ? ? o1 X1 X2|? ? ? doc ? ? o1 kws1 X1 X2 X3 X4 N1 S1 C1 Kp1 H1 _ _ _]; subst; [congruence|].
  inversion M' as [? ? ? ? ? ? o2 Y1 Y2|? ? ? doc2 ? ? o2 kws2 Y1 Y2 Y3 Y4 N2 S2 C2 Kp2 H2 _ _ _]; subst.
  assert (Eo : o1 = o) by congruence. assert (Eo' : o2 = o') by congruence. subst o1 o2. assert (Ek : kws1 = kws) by congruence. assert (Ek' : kws2 = kws') by congruence. subst kws1 kws2.
  assert (Dk : exists w, dget key doc = Some w) by (apply keys_dget, S1, (in_map fst _ _ Hk)). destruct Dk as [w Hw].
  pose proof (H1 _ _ _ Hk Hw) as A. pose proof (H2 _ _ _ Hk' Hw) as A'.
  assert (Ec : kw_class k' = kw_class k) by (pose proof (C1 _ _ Hk); pose proof (C2 _ _ Hk'); congruence). rewrite Ec in A'.
  exact (held _ _ _ _ _ _ _ _ _ _ A A' k k' ks t t' eq_refl eq_refl F F').
Qed.
Lemma paired_made s s' : P s s' -> exists x x', matched s s' x x'.
Proof.
  induction 1 as [|s s' kws kws' key k k' ks t t' Hp (x & x' & IH) K K' Hk Hk' F F']; [exists up, up', m, b, u, b', u', v; auto|].
  exists (Some (s, key :: ks)), (Some (s', key :: ks)). exact (below _ _ _ _ _ _ _ _ _ _ _ _ IH K K' Hk Hk' F F').
Qed.
Lemma matched_up s s' x x' : matched s s' x x' -> (exists o, nth_error objs s = Some o /\ so_up o = x) /\ exists o', nth_error objs' s' = Some o' /\ so_up o' = x'.
Proof. intros (m1 & b1 & u1 & b1' & u1' & v1 & M & M'). split; [exact (made_up _ _ _ _ _ _ _ _ M)|exact (made_up _ _ _ _ _ _ _ _ M')]. Qed.
Lemma paired_from s s' : P s s' -> r <= s /\ r' <= s'.
Proof.
  induction 1 as [|s s' kws kws' key k k' ks t t' Hp [L L'] K K' Hk Hk' F F']; [lia|]. destruct (paired_made _ _ Hp) as (x & x' & M).
  destruct (matched_up _ _ _ _ (below _ _ _ _ _ _ _ _ _ _ _ _ M K K' Hk Hk' F F')) as [(o & Ho & Hu) (o' & Ho' & Hu')]. pose proof (U _ _ _ _ Ho Hu). pose proof (U' _ _ _ _ Ho' Hu'). lia.
Qed.
Lemma matched_nodup s s' x x' kws kws' : matched s s' x x' -> keywords_at objs s kws -> keywords_at objs' s' kws' -> NoDup (keys kws) /\ NoDup (keys kws').
Proof.
  intros (m1 & b1 & u1 & b1' & u1' & v1 & M & M') (o & Ho & Hd) (o' & Ho' & Hd').
  inversion M as [? ? ? ? ? ? o1 X1 X2|? ? ? doc ? ? o1 kws1 X1 X2 X3 X4 N1 S1 C1 Kp1 H1 _ _ _]; subst; [congruence|].
  inversion M' as [? ? ? ? ? ? o2 Y1 Y2|? ? ? doc2 ? ? o2 kws2 Y1 Y2 Y3 Y4 N2 S2 C2 Kp2 H2 _ _ _]; subst.
  split; congruence.
Qed.
Lemma paired_one n : forall s s' t t', s <= n -> P s s' -> P t t' -> s = t -> s' = t'.
Proof.
  induction n as [n IH] using Wf_nat.lt_wf_ind. intros s s' t t' Ln Hs Ht Est.
  destruct Hs as [|s s' kws kws' key k k' ks a a' Hs K K' Hk Hk' F F'], Ht as [|t t' lws lws' key2 l l' ls c c' Ht L L' Hl Hl' G G']; [reflexivity| | |].
  - exfalso. destruct (paired_made _ _ Ht) as (x & x' & M). destruct (matched_up _ _ _ _ (below _ _ _ _ _ _ _ _ _ _ _ _ M L L' Hl Hl' G G')) as [(o & Ho & Hu) _]. pose proof (U _ _ _ _ Ho Hu). pose proof (paired_from _ _ Ht). lia.
  - exfalso. destruct (paired_made _ _ Hs) as (x & x' & M). destruct (matched_up _ _ _ _ (below _ _ _ _ _ _ _ _ _ _ _ _ M K K' Hk Hk' F F')) as [(o & Ho & Hu) _]. pose proof (U _ _ _ _ Ho Hu). pose proof (paired_from _ _ Hs). lia.
  - subst c. destruct (paired_made _ _ Hs) as (x & x' & M). destruct (matched_up _ _ _ _ (below _ _ _ _ _ _ _ _ _ _ _ _ M K K' Hk Hk' F F')) as [(o & Ho & Hu) _].
    destruct (paired_made _ _ Ht) as (y & y' & M2). destruct (matched_up _ _ _ _ (below _ _ _ _ _ _ _ _ _ _ _ _ M2 L L' Hl Hl' G G')) as [(o2 & Ho2 & Hu2) _].
    assert (o2 = o) by congruence. subst o2. rewrite Hu in Hu2. injection Hu2 as -> -> ->. pose proof (U _ _ _ _ Ho Hu) as Lt.
    assert (s' = t') by exact (IH t ltac:(lia) t s' t t' (Nat.le_refl _) Hs Ht eq_refl). subst t'.
    assert (kws' = lws') by exact (keywords_same _ _ _ _ K' L'). subst lws'. destruct (matched_nodup _ _ _ _ _ _ M K K') as [_ N]. assert (k' = l') by exact (nodup_same _ _ _ _ N Hk' Hl'). subst l'. exact (first_same _ _ _ _ F' G').
Qed.
End Pair.
Lemma paired_flip objs objs' r r' s s' : paired objs objs' r r' s s' -> paired objs' objs r' r s' s.
Proof. induction 1 as [|s s' kws kws' key k k' ks t t' Hp IH K K' Hk Hk' F F']; [constructor|]. exact (pair_below _ _ _ _ _ _ _ _ _ _ _ _ _ _ IH K' K Hk' Hk F' F). Qed.
Lemma format_same E c v f f' t t' : keeps E c v f t -> keeps E c v f' t' -> t = t'.
Proof.
  unfold keeps. intros [_ H] [_ H']. destruct c as [c|x]; [|congruence]. destruct c; try congruence. unfold is_enabled_type in *. destruct v as [| | |a| |]; try congruence. destruct H as [A B], H' as [A' B'].
  destruct (mem_str a (e_formats E)) eqn:X.
  - apply mem_str_In in X. destruct (A X) as (l & Hl & ->), (A' X) as (l' & Hl' & ->). congruence.
  - assert (N : ~ In a (e_formats E)) by (intro Y; apply mem_str_In in Y; congruence). now rewrite (B N), (B' N).
Qed.
Theorem twins_made E objs objs' r r' m b u b' u' v up up' (Q : sid -> sid -> Prop) W W' :
  upward objs -> upward objs' -> made E objs m b u v r up -> made E objs' m b' u' v r' up' -> shows W objs -> shows W' objs' ->
  twins Q W W' -> (forall s s' t t', Q s s' -> paired objs objs' r r' t t' -> s <> t /\ s' <> t') ->
  same_references Q objs objs' r r' -> twins (fun s s' => paired objs objs' r r' s s' \/ Q s s') W W'.
Proof.
  intros U U' Md Md' Sw Sw' [Qi Qs] Ap Sr. split.
  - intros s t s' t' [Hs|Hs] [Ht|Ht].
    + split; intro X; [exact (paired_one E objs objs' r r' U U' _ _ _ _ _ _ _ _ Md Md' s _ _ _ _ (Nat.le_refl _) Hs Ht X)|].
      exact (paired_one E objs' objs r' r U' U _ _ _ _ _ _ _ _ Md' Md s' _ _ _ _ (Nat.le_refl _) (paired_flip _ _ _ _ _ _ Hs) (paired_flip _ _ _ _ _ _ Ht) X).
    + destruct (Ap _ _ _ _ Ht Hs). split; intro; exfalso; auto.
    + destruct (Ap _ _ _ _ Hs Ht). split; intro; exfalso; auto.
    + now apply Qi.
  - intros s s' [Hs|Hs].
    2:{ specialize (Qs _ _ Hs). destruct (w_schema W s) as [x|kws], (w_schema W' s') as [x'|kws']; try assumption. revert Qs. clear. induction 1 as [|x y kws kws' (A1 & A2 & A3 & A4 & A5 & A6) _ IH]; constructor; [|exact IH].
        unfold twin_keyword. cbv zeta. repeat split; auto; try (now apply A6).
        - destruct A4 as [w|t t' A|l l' A|n n' A]; constructor; auto; induction A; constructor; auto. cbn in *. tauto.
        - intro A. specialize (A5 A). unfold both_or_none in *. destruct (kw_ref (snd x)), (kw_ref (snd y)); auto. }
    destruct (paired_made E objs objs' r r' _ _ _ _ _ _ _ _ Md Md' _ _ Hs) as (x & x' & m1 & b1 & u1 & b1' & u1' & v1 & M & M').
    inversion M as [? ? ? bb ? ? o1 X1 X2|? ? ? doc ? ? o1 kws1 X1 X2 X3 X4 N1 S1 C1 Kp1 H1 D1 O1 _]; subst; inversion M' as [? ? ? bb' ? ? o2 Y1 Y2|? ? ? doc2 ? ? o2 kws2 Y1 Y2 Y3 Y4 N2 S2 C2 Kp2 H2 D2 O2 _]; subst.
    { rewrite (Sw _ _ X1), (Sw' _ _ Y1), X2, Y2. reflexivity. }
    rewrite (Sw _ _ X1), (Sw' _ _ Y1), X2, Y2.
    assert (K1 : keywords_at objs s kws1) by (exists o1; auto). assert (K2 : keywords_at objs' s' kws2) by (exists o2; auto).
    assert (G : Forall2 (fun x y => fst x = fst y /\ twin_keyword (fun s s' => paired objs objs' r r' s s' \/ Q s s') (fst x, snd x) (fst x, snd y)) kws1 kws2).
    2:{ revert G. clear. induction 1 as [|[n a] [n' a'] l l' [E1 T] _ IH]; constructor; [|exact IH]. cbn [fst snd] in *. now subst n'. }
    pose proof (order_unique _ _ _ _ _ O1 O2) as Ek.
    assert (G : forall key k k', In (key, k) kws1 -> In (key, k') kws2 -> twin_keyword (fun s s' => paired objs objs' r r' s s' \/ Q s s') (key, k) (key, k')).
    { intros key k k' Hk Hk'. assert (Dk : exists w, dget key doc = Some w) by (apply keys_dget, S1, (in_map fst _ _ Hk)). destruct Dk as [w Hw].
      assert (Ec : kw_class k' = kw_class k) by (pose proof (C1 _ _ Hk); pose proof (C2 _ _ Hk'); congruence).
      pose proof (Kp1 _ _ _ Hk Hw) as Q1. pose proof (Kp2 _ _ _ Hk' Hw) as Q2. pose proof (H1 _ _ _ Hk Hw) as A. pose proof (H2 _ _ _ Hk' Hw) as A'. rewrite Ec in Q2, A'.
      unfold twin_keyword. cbn [fst snd]. split; [reflexivity|]. split; [now symmetry|]. split; [exact (format_same _ _ _ _ _ _ _ Q1 Q2)|]. split.
      - apply (held_twin E objs objs' _ _ _ _ _ _ _ _ _ _ _ A A'). intros k1 k1' ks t t' Ek1 Ek1' F F'. left. apply (pair_below _ _ _ _ _ _ _ _ key k k' ks t t' Hs K1 K2 Hk Hk').
        + unfold first_keys in *. now rewrite Ek1 in F.
        + unfold first_keys in *. now rewrite Ek1' in F'.
      - split; [intro Rf; exact (proj1 (Sr _ _ _ _ _ _ _ Hs K1 K2 Hk Hk' Rf))|]. intro Dy. assert (Rf : is_reference k) by (unfold is_reference; auto). split; [exact (proj2 (Sr _ _ _ _ _ _ _ Hs K1 K2 Hk Hk' Rf))|].
        rewrite Dy in Q1, Q2. destruct Q1 as [(x1 & E1 & ->) _], Q2 as [(x2 & E2 & ->) _]. assert (x2 = x1) by congruence. now subst x2. }
    clear -Ek G. revert kws2 Ek G. induction kws1 as [|[n a] l IH]; intros [|[n' a'] l'] Ek G; try discriminate Ek; constructor.
    + assert (n = n') by exact (f_equal (hd []) Ek). subst n'. split; [reflexivity|]. apply G; now left.
    + apply IH; [exact (f_equal (@tl _) Ek)|]. intros key k k' Hk Hk'. apply G; now right.
Qed.
Lemma paired_within objs objs' r r' s s' : paired objs objs' r r' s s' -> within objs r s.
Proof.
  induction 1 as [|s s' kws kws' key k k' ks t t' Hp IH K K' Hk Hk' F F']; [constructor|]. apply (within_step _ _ s t kws key k IH K Hk). unfold first_keys, subschema_of in *. destruct (kw_json k) as [w|x|l|n]; [exact F|now destruct F| |].
  - destruct F as (i & _ & X). exact (nth_error_In _ _ X).
  - destruct F as (i & _ & X). apply dget_In in X. exact (in_map snd _ _ X).
Qed.
Theorem twins_plain E objs objs' r r' m b u b' u' v up up' W W' :
  upward objs -> upward objs' -> made E objs m b u v r up -> made E objs' m b' u' v r' up' -> shows W objs -> shows W' objs' ->
  unreferring objs r -> twins (paired objs objs' r r') W W'.
Proof.
  intros U U' Md Md' Sw Sw' Un.
  assert (T : twins (fun s s' => paired objs objs' r r' s s' \/ False) W W').
  { apply (twins_made E objs objs' r r' m b u b' u' v up up' (fun _ _ => False)); auto; [split; [intros ? ? ? ? []|intros ? ? []]|].
    intros s s' kws kws' key k k' Hp K K' Hk Hk' Rf. exfalso. exact (Un _ _ _ _ (paired_within _ _ _ _ _ _ Hp) K Hk Rf). }
  destruct T as [Ti Ts]. split; [intros s t s' t' A B; apply Ti; auto|]. intros s s' Hs. specialize (Ts s s' (or_introl Hs)). destruct (w_schema W s), (w_schema W' s'); try assumption.
  revert Ts. clear. induction 1 as [|x y kws kws' (A1 & A2 & A3 & A4 & A5 & A6) _ IH]; constructor; [|exact IH]. unfold twin_keyword. cbv zeta. repeat split; auto; try (now apply A6).
  - destruct A4 as [w|t t' A|l l' A|n n' A]; constructor; auto; try (destruct A; tauto); induction A; constructor; auto; cbn in *; tauto.
  - intro A. specialize (A5 A). unfold both_or_none in *. destruct (kw_ref (snd x)), (kw_ref (snd y)); auto. tauto.
Qed.
Lemma occurs_trans w x v : occurs w x -> occurs x v -> occurs w v.
Proof. intros H H'. induction H' as [|l y Hy _ IH|n k y Hy _ IH]; [exact H|exact (occurs_item _ _ _ Hy IH)|exact (occurs_member _ _ _ _ Hy IH)]. Qed.
Lemma held_occurs E objs m b s key c w k t : holds E objs m b s key c w (kw_json k) -> subschema_of k t -> exists m' b' u' w' up', made E objs m' b' u' w' t up' /\ occurs w' w.
Proof.
  unfold subschema_of. remember (kw_json k) as j eqn:Ej. clear Ej. intros H F.
  inversion H as [? ? ? ? ? ? N1 N2 N3|? ? ? ? ? ? t1 O1 M1|? ? ? ? ? l ts O1 L1 M1|? ? ? ? ? x O1|? ? ? ? ? doc ts O1 Nd K1 M1]; subst; try contradiction.
  - subst t1. repeat eexists; [exact M1|constructor].
  - apply In_nth_error in F. destruct F as [i Hi]. destruct (nth_error l i) as [w|] eqn:Hw; [|apply nth_error_None in Hw; assert (i < length ts) by (apply nth_error_Some; congruence); lia].
    repeat eexists; [exact (M1 i w t Hw Hi)|]. exact (occurs_item _ _ _ (nth_error_In _ _ Hw) (occurs_self _)).
  - apply in_map_iff in F. destruct F as ([n t1] & X & Hin). cbn [snd] in X. subst t1. assert (Hn : dget n ts = Some t) by (apply dget_keyed; [now rewrite K1|exact Hin]).
    destruct (dget n doc) as [w|] eqn:Hw; [|apply dget_None in Hw; exfalso; apply Hw; rewrite <- K1; exact (dget_keys _ _ _ Hn)].
    repeat eexists; [exact (M1 n w t Hw Hn)|]. apply dget_In in Hw. exact (occurs_member _ _ _ _ Hw (occurs_self _)).
Qed.
Lemma made_occurs E objs r s : within objs r s -> forall m b u v up, made E objs m b u v r up -> exists m' b' u' v' up', made E objs m' b' u' v' s up' /\ occurs v' v.
Proof.
  intro Wn. induction Wn as [|t t' kws key k Hw IH (o & Ho & Hd) Hk Hs]; intros m b u v up Md; [exists m, b, u, v, up; split; [exact Md|constructor]|].
  destruct (IH _ _ _ _ _ Md) as (m1 & b1 & u1 & v1 & up1 & M & Oc).
  inversion M as [? ? ? ? ? ? o1 X1 X2|? ? ? doc ? ? o1 kws1 X1 X2 X3 X4 N1 S1 C1 Kp1 H1 _ _ _]; subst; [congruence|]. assert (o1 = o) by congruence. subst o1. assert (kws1 = kws) by congruence. subst kws1.
  assert (Dk : exists w, dget key doc = Some w) by (apply keys_dget, S1, (in_map fst _ _ Hk)). destruct Dk as [w Hw'].
  destruct (held_occurs _ _ _ _ _ _ _ _ _ _ (H1 _ _ _ Hk Hw') Hs) as (m2 & b2 & u2 & w2 & up2 & M2 & O2). exists m2, b2, u2, w2, up2. split; [exact M2|].
  apply (occurs_trans _ _ _ O2). apply dget_In in Hw'. apply (occurs_trans _ (JObj doc)); [|exact Oc]. exact (occurs_member _ _ _ _ Hw' (occurs_self _)).
Qed.
Lemma class_for_std E m key c : class_for E m key = Some (Std c) -> c = KRef \/ c = KDynamicRef \/ c = KRecursiveRef -> std_key c = key.
Proof.
  unfold class_for. destruct (str_eqb key (lit "$schema")); [intros H [X|[X|X]]; subst; discriminate H|]. destruct (str_eqb key (lit "$vocabulary")); [intros H [X|[X|X]]; subst; discriminate H|].
  destruct m as [x|]; [|intro H; discriminate H]. destruct (e_dialect E x) as [d|]; [|intro H; discriminate H]. destruct (str_eqb key (lit "$id")).
  - destruct (find_class d (lit "$id")) as [[]|]; intros H [X|[X|X]]; subst; discriminate H.
  - destruct (find_class d key) as [c0|] eqn:F; intro H; [|discriminate H]. injection H as <-. intros _. exact (find_class_key _ _ _ F).
Qed.
Lemma made_unreferring E objs m b u v r up : made E objs m b u v r up -> reference_free v -> unreferring objs r.
Proof.
  intros Md Wr s kws key k Hw (o & Ho & Hd) Hk Rf. destruct (made_occurs E objs r s Hw _ _ _ _ _ Md) as (m1 & b1 & u1 & v1 & up1 & M & Oc).
  inversion M as [? ? ? ? ? ? o1 X1 X2|? ? ? doc ? ? o1 kws1 X1 X2 X3 X4 N1 S1 C1 Kp1 H1 _ _ _]; subst; [congruence|]. assert (o1 = o) by congruence. subst o1. assert (kws1 = kws) by congruence. subst kws1.
  apply (Wr doc key Oc); [|apply S1, (in_map fst _ _ Hk)]. pose proof (C1 _ _ Hk) as C.
  destruct Rf as [R|[R|R]]; rewrite R in C; apply class_for_std in C; auto; rewrite <- C; cbn [In]; auto.
Qed.
Lemma paired_undynamic E objs objs' r r' m b u b' u' v up up' W :
  made E objs m b u v r up -> made E objs' m b' u' v r' up' -> shows W objs -> unreferring objs r -> undynamic (paired objs objs' r r') W.
Proof.
  intros Md Md' Sw Un s s' kws key k Hp Hw Hk Dy. exfalso. destruct (paired_made E objs objs' r r' _ _ _ _ _ _ _ _ Md Md' _ _ Hp) as (x & x' & M). destruct (matched_up _ _ _ _ _ _ _ M) as [(o & Ho & _) _].
  apply (Un s kws key k (paired_within _ _ _ _ _ _ Hp)); [|exact Hk|unfold is_reference; auto]. exists o. split; [exact Ho|]. now rewrite <- (Sw _ _ Ho).
Qed.
