(** Which annotations evaluation leaves behind. *)
From Coq Require Import List Lia Sorting.Sorted.
From Verif Require Export SpecAnnot SchemaFacts.
Import ListNotations.
Open Scope nat_scope.

Definition keeps (ev : sid -> inst -> list sid -> rnode -> res rnode) : Prop :=
  forall s i anc n n', ev s i anc n = Ok n' -> r_annot n' = r_annot n.

Lemma close_keeps n key i c : r_annot (close_child n key i c) = r_annot n.
Proof. unfold close_child. now destruct (r_discard c). Qed.

Lemma bind_inv {A B} (e : res A) (g : A -> res B) b : bind e g = Ok b -> exists a, e = Ok a /\ g a = Ok b.
Proof. destruct e; cbn; intro H; try discriminate H. eauto. Qed.

Ltac runs H :=
  match type of H with bind ?e _ = Ok _ =>
    let a := fresh "a" in let E := fresh "E" in
    apply bind_inv in H; destruct H as (a & E & H)
  end.

Lemma own_names_inst i : map fst (members_of i) = own_names (i_val i).
Proof. unfold members_of, own_names, members. destruct (i_val i); cbn; try reflexivity. rewrite map_map. reflexivity. Qed.

Lemma items_length i : length (items_of i) = length (items (i_val i)).
Proof.
  unfold items_of, items. destruct (i_val i); cbn; try reflexivity. generalize 0. induction l; intro n; cbn; [reflexivity|]. now rewrite IHl.
Qed.

Lemma has_inst i name : has_member i name = has (i_val i) name.
Proof.
  unfold has_member, has, members. destruct (i_val i) as [| | | | |m]; try reflexivity.
  induction m as [|[k v] m IH]; [reflexivity|]. cbn [dmem dget existsb fst]. unfold dmem in *. cbn [dget]. destruct (str_eqb name k); [reflexivity|]. exact IH.
Qed.

Section Eval.
Variable W : world.
Variable ev : sid -> inst -> list sid -> rnode -> res rnode.
Hypothesis Hev : keeps ev.

Lemma child_keeps result anc i key s r' c : in_child ev result anc i key s = Ok (r', c) -> r_annot r' = r_annot result.
Proof. unfold in_child. intro H. runs H. injection H as <- _. apply close_keeps. Qed.

Lemma branches_keeps i anc l : forall k result r' bs, branches ev i anc k l result = Ok (r', bs) -> r_annot r' = r_annot result.
Proof.
  induction l as [|s l IH]; intros k result r' bs H; cbn [branches] in H; [now injection H as <- _|].
  runs H. destruct a as [r1 c]. runs H. destruct a as [r2 b2]. injection H as <- _. rewrite (IH _ _ _ _ E0). eapply child_keeps; eassumption.
Qed.

Lemma dependents_keeps i anc m : forall result r' good bad, dependents ev i anc m result = Ok (r', (good, bad)) ->
  r_annot r' = r_annot result /\ (bad = [] -> good = filter (has (i_val i)) (map fst m)).
Proof.
  induction m as [|[name s] m IH]; intros result r' good bad H; cbn [dependents] in H; [injection H as <- <- <-; auto|].
  rewrite has_inst in H. cbn [map fst filter]. destruct (has (i_val i) name); [|now apply IH].
  runs H. destruct a as [r1 c]. runs H. destruct a as [r2 [g2 b2]].
  assert (R : r' = r2 /\ (if passed c then good = name :: g2 /\ bad = b2 else good = g2 /\ bad = name :: b2)).
  { destruct (passed c); apply (f_equal (fun x => match x with Ok p => p | _ => (r', (good, bad)) end)) in H; cbn in H;
      apply pair_equal_spec in H; destruct H as [H1 H2]; apply pair_equal_spec in H2; destruct H2; auto. }
  destruct R as [-> R]. destruct (IH _ _ _ _ E0) as [K G]. split; [rewrite K; eapply child_keeps; eassumption|].
  intro B. destruct (passed c); destruct R as [-> ->]; [|discriminate B]. now rewrite (G B).
Qed.

Lemma pairwise_keeps anc l : forall is k result r' bs, pairwise ev anc k is l result = Ok (r', bs) ->
  r_annot r' = r_annot result /\ length bs = min (length l) (length is).
Proof.
  induction l as [|s l IH]; intros is k result r' bs H; destruct is as [|i is]; cbn [pairwise] in H; try (injection H as <- <-; auto; fail).
  runs H. destruct a as [r1 c]. runs H. destruct a as [r2 b2]. injection H as <- <-. destruct (IH _ _ _ _ _ E0) as [K L].
  split; [rewrite K; eapply child_keeps; eassumption|]. cbn [length Nat.min]. now rewrite L.
Qed.

Lemma each_keeps s anc l : forall result r' bs, each ev s anc l result = Ok (r', bs) -> r_annot r' = r_annot result /\ length bs = length l.
Proof.
  induction l as [|i l IH]; intros result r' bs H; cbn [each] in H; [injection H as <- <-; auto|].
  runs H. runs H. destruct a0 as [r2 b2]. injection H as <- <-. destruct (IH _ _ _ E0) as [K L]. split; [|cbn; now rewrite L].
  rewrite K. apply Hev in E. now destruct (passed a).
Qed.

Lemma each_noreset_keeps s anc l : forall result r', each_noreset ev s anc l result = Ok r' -> r_annot r' = r_annot result.
Proof.
  induction l as [|i l IH]; intros result r' H; cbn [each_noreset] in H; [now injection H as <-|].
  runs H. rewrite (IH _ _ H). now apply Hev in E.
Qed.

Lemma positions_spec b : forall bs k, exists l, positions b k bs = map number l /\ StronglySorted lt l /\ Forall (fun n => k <= n < k + length bs) l.
Proof.
  induction bs as [|x bs IH]; intro k; cbn [positions]; [exists []; repeat constructor|].
  destruct (IH (S k)) as (l & E & S & F). assert (F' : Forall (fun n => k <= n < k + length (x :: bs)) l).
  { eapply Forall_impl; [|exact F]. cbn. intros n. lia. }
  destruct (Bool.eqb x b); [exists (k :: l)|exists l; now rewrite E].
  split; [cbn; now rewrite E|]. split; [constructor; [exact S|]|constructor; [cbn; lia|exact F']].
  eapply Forall_impl; [|exact F]. cbn. intros n. lia.
Qed.

Lemma items_from_notes start s i anc result r' : e_items_from ev start s i anc result = Ok r' -> r_valid r' = true ->
  r_annot r' = JNull \/ (r_annot r' = JBool true /\ items (i_val i) <> []).
Proof.
  unfold e_items_from. intros H V. runs H. destruct a as [r1 bs]. destruct (each_keeps _ _ _ _ _ _ E) as [K L].
  destruct (positions false start bs); injection H as <-; [|discriminate V]. cbn [annotate r_annot].
  destruct bs; [now left|right; split; [reflexivity|]]. intro Z. rewrite skipn_length, items_length, Z in L. discriminate L.
Qed.

Lemma unskipped_nil skip : forall k l, l = [] -> unskipped skip k l = [].
Proof. now intros k l ->. Qed.

Lemma unevaluated_from_notes last skip s i anc result r' : e_unevaluated_from ev last skip s i anc result = Ok r' -> r_valid r' = true ->
  r_annot r' = JNull \/ (r_annot r' = JBool true /\ items (i_val i) <> []).
Proof.
  unfold e_unevaluated_from. intros H V. runs H. destruct a as [r1 bs]. destruct (each_keeps _ _ _ _ _ _ E) as [K L].
  destruct (failing _ _ bs); injection H as <-; [|discriminate V]. cbn [annotate r_annot].
  destruct bs; [now left|right; split; [reflexivity|]]. intro Z. assert (N : items_of i = []) by (apply length_zero_iff_nil; now rewrite items_length, Z).
  rewrite N, skipn_nil in L. discriminate L.
Qed.

Lemma named_keeps subs anc l : forall result r' good bad, named ev subs anc l result = Ok (r', (good, bad)) ->
  r_annot r' = r_annot result /\ (bad = [] -> good = filter (fun n => listed n (map fst subs)) (map fst l)).
Proof.
  assert (D : forall name, (exists s, dget name subs = Some s /\ listed name (map fst subs) = true) \/ (dget name subs = None /\ listed name (map fst subs) = false)).
  { intro name. induction subs as [|[k v] m IH]; [right; auto|]. cbn. destruct (str_eqb name k); [left; eauto|]. exact IH. }
  induction l as [|[name item] l IH]; intros result r' good bad H; cbn [named] in H; [injection H as <- <- <-; auto|].
  cbn [map fst filter]. destruct (D name) as [(s & -> & L)|[-> L]] in H |- *; rewrite L; [|now apply IH].
  runs H. destruct a as [r1 c]. runs H. destruct a as [r2 [g2 b2]].
  assert (R : r' = r2 /\ (if passed c then good = name :: g2 /\ bad = b2 else good = g2 /\ bad = name :: b2)).
  { destruct (passed c); apply (f_equal (fun x => match x with Ok p => p | _ => (r', (good, bad)) end)) in H; cbn in H;
      apply pair_equal_spec in H; destruct H as [H1 H2]; apply pair_equal_spec in H2; destruct H2; auto. }
  destruct R as [-> R]. destruct (IH _ _ _ _ E0) as [K G]. split; [rewrite K; eapply child_keeps; eassumption|].
  intro B. destruct (passed c); destruct R as [-> ->]; [|discriminate B]. now rewrite (G B).
Qed.

Lemma matching_keeps anc name item subs : forall result r' good bad, matching W ev subs anc name item result = Ok (r', (good, bad)) ->
  r_annot r' = r_annot result /\ (bad = [] -> forall n, In n good <-> n = name /\ exists p, In p (map fst subs) /\ w_search W p n = Some true).
Proof.
  induction subs as [|[regex s] subs IH]; intros result r' good bad H; cbn [matching] in H.
  { injection H as <- <- <-. split; [reflexivity|]. intros _ n. split; [intros []|]. intros (_ & p & [] & _). }
  destruct (w_search W regex name) as [[|]|] eqn:Se; [| |discriminate H].
  - runs H. destruct a as [r1 c]. runs H. destruct a as [r2 [g2 b2]].
    assert (R : r' = r2 /\ (if passed c then good = name :: g2 /\ bad = b2 else good = g2 /\ bad = name :: b2)).
    { destruct (passed c); apply (f_equal (fun x => match x with Ok p => p | _ => (r', (good, bad)) end)) in H; cbn in H;
        apply pair_equal_spec in H; destruct H as [H1 H2]; apply pair_equal_spec in H2; destruct H2; auto. }
    destruct R as [-> R]. destruct (IH _ _ _ _ E0) as [K G]. split; [rewrite K; eapply child_keeps; eassumption|].
    intro B. destruct (passed c); destruct R as [-> ->]; [|discriminate B]. intro n. cbn [In map fst]. rewrite (G B). split.
    + intros [<-|[-> (p & Hp & Sp)]]; split; eauto.
    + intros [-> (p & [<-|Hp] & Sp)]; [now left|right]; eauto.
  - destruct (IH _ _ _ _ H) as [K G]. split; [exact K|]. intros B n. rewrite (G B). cbn [In map fst]. split.
    + intros [-> (p & Hp & Sp)]; eauto.
    + intros [-> (p & [<-|Hp] & Sp)]; [congruence|eauto].
Qed.

Lemma patterned_keeps subs anc l : forall result r' good bad, patterned W ev subs anc l result = Ok (r', (good, bad)) ->
  r_annot r' = r_annot result /\ (bad = [] -> forall n, In n good <-> In n (map fst l) /\ exists p, In p (map fst subs) /\ w_search W p n = Some true).
Proof.
  induction l as [|[name item] l IH]; intros result r' good bad H; cbn [patterned] in H.
  { injection H as <- <- <-. split; [reflexivity|]. intros _ n. cbn. tauto. }
  runs H. destruct a as [r1 [g1 b1]]. runs H. destruct a as [r2 [g2 b2]]. injection H as <- <- <-.
  destruct (matching_keeps _ _ _ _ _ _ _ _ E) as [K1 G1]. destruct (IH _ _ _ _ E0) as [K2 G2]. split; [congruence|].
  intro B. apply app_eq_nil in B. destruct B as [B1 B2]. intro n. rewrite in_app_iff, (G1 B1), (G2 B2). cbn [map fst In]. intuition auto.
Qed.

Lemma dedup_spec l : forall seen, NoDup (dedup seen l) /\ forall n, In n (dedup seen l) <-> In n l /\ ~ In n seen.
Proof.
  induction l as [|k l IH]; intro seen; cbn [dedup]; [split; [constructor|cbn; tauto]|].
  destruct (mem_str k seen) eqn:M.
  - destruct (IH seen) as [N S]. split; [exact N|]. intro n. rewrite S. cbn [In]. apply mem_str_In in M. split; [tauto|]. intros [[<-|H] H']; tauto.
  - assert (M' : ~ In k seen) by (intro X; apply mem_str_In in X; congruence).
    destruct (IH (k :: seen)) as [N S]. split.
    + constructor; [|exact N]. rewrite S. cbn. tauto.
    + intro n. cbn [In]. rewrite S. cbn [In]. split; [intros [<-|[H H']]; tauto|]. intros [[<-|H] H']; [now left|].
      destruct (list_eq_dec N.eq_dec k n) as [<-|D]; [now left|right]. tauto.
Qed.

Lemma members_notes (todo : list (pystr * inst)) s anc result r' : e_members ev todo s anc result = Ok r' -> r_valid r' = true ->
  r_annot r' = names (map fst todo).
Proof.
  unfold e_members. intros H V. runs H. destruct a as [r1 bs]. destruct (failing _ _ bs); injection H as <-; [|discriminate V].
  cbn [annotate r_annot]. unfold names. now rewrite map_map.
Qed.

Lemma filter_fst {B} (f : pystr * B -> bool) (g : pystr -> bool) l : (forall x, In x l -> f x = g (fst x)) -> map fst (filter f l) = filter g (map fst l).
Proof.
  induction l as [|x l IH]; intro H; [reflexivity|]. cbn [filter map]. rewrite <- (H x) by now left.
  rewrite <- IH by (intros y Hy; apply H; now right). now destruct (f x).
Qed.

Lemma additional_spec known patterns l : forall todo, additional W known patterns l = Ok todo ->
  map fst todo = filter (fun n => negb (mem_str n known) && match any_search W patterns n with Ok b => negb b | _ => false end) (map fst l).
Proof.
  induction l as [|[name item] l IH]; intros todo H; cbn [additional] in H; [now injection H as <-|].
  cbn [map fst filter]. destruct (mem_str name known); cbn [negb andb]; [now apply IH|].
  runs H. runs H. rewrite E. injection H as <-. destruct a; cbn [negb]; [now apply IH|]. cbn [map fst]. now rewrite (IH _ E0).
Qed.

Lemma check_annot b msg n : r_annot (check b msg n) = r_annot n.
Proof. unfold check. now destruct b. Qed.
Lemma tell_annot b msg n n' : tell b msg n = Ok n' -> r_annot n' = r_annot n.
Proof. intro H. apply tell_ok in H. destruct H as [t ->]. apply check_annot. Qed.
Lemma limit_annot bad x v before after n n' : limit W bad x v before after n = Ok n' -> r_annot n' = r_annot n.
Proof. intro H. apply limit_tells in H. destruct H as (y & t & _ & ->). apply check_annot. Qed.
Lemma annotation_notes v n n' : e_annotation v n = Ok n' -> v = KJ (r_annot n').
Proof. unfold e_annotation. destruct v; intro H; try discriminate H. injection H as <-. reflexivity. Qed.

Lemma some_subs v (f : list sid -> res rnode) r' : with_subs v f = Ok r' -> exists l, f l = Ok r'.
Proof. destruct v as [[| | |[|]| |]| | |]; try discriminate; cbn [with_subs]; eauto. Qed.
Lemma some_prefix v i (f : list sid -> res rnode) r' : with_prefix v i f = Ok r' ->
  exists l, f l = Ok r' /\ (v = KSubs l \/ l = [] /\ exists w, v = KJ w).
Proof. destruct v as [[| | |t| |]| | |]; try discriminate; cbn [with_prefix]; [destruct t, (items_of i); try discriminate|]; eauto 8. Qed.
(** The annotation after a keyword was evaluated into a new node. *)
Lemma std_notes k c i anc parent result r' : kw_class k = Std c -> r_annot result = JNull -> eval_std W ev k c i anc parent result = Ok r' ->
  r_discard r' = false -> r_valid r' = true \/ c = KContains -> notes W k (i_val i) (r_annot r').
Proof.
  intros Kc N H D V. unfold notes. rewrite Kc. unfold eval_std in H.
  assert (V' : c <> KContains -> r_valid r' = true) by (destruct V; [auto|intro; contradiction]). clear V.
  assert (Ann : forall v, e_annotation v result = Ok r' -> v = KJ (r_annot r')) by (intros v Hv; now apply annotation_notes in Hv).
  assert (Lim : forall bad x v before after, limit W bad x v before after result = Ok r' -> r_annot r' = JNull) by (intros bad x v before after Hl; apply limit_annot in Hl; congruence).
  assert (Tel : forall b msg, tell b msg result = Ok r' -> r_annot r' = JNull) by (intros b msg Hl; apply tell_annot in Hl; congruence).
  remember (kw_json k) as v eqn:Kv.
  assert (Nul : forall n : rnode, r_annot n = r_annot result -> Ok n = Ok r' -> r_annot r' = JNull) by (intros n En X; injection X as <-; congruence).
  destruct c; try specialize (V' ltac:(discriminate)); cbn match in H |- *;
    try (apply Lim in H; destruct v; exact H); try (injection H as <-; destruct v; exact N); try (apply Ann in H; rewrite H; reflexivity).
  - unfold e_ref in H. destruct (kw_ref k); [|discriminate H]. runs H. injection H as <-. apply Hev in E. cbn [refschema r_annot]. congruence.
  - unfold e_dynamicRef in H. destruct (kw_ref k); [|discriminate H]. runs H. runs H. injection H as <-. apply Hev in E0. cbn [refschema r_annot]. congruence.
  - unfold e_recursiveRef in H. destruct (kw_ref k); [|discriminate H]. runs H. runs H. runs H. injection H as <-. apply Hev in E1. cbn [refschema r_annot]. congruence.
  - apply some_subs in H. destruct H as [l0 H]. unfold e_allOf in H. runs H. destruct a as [r1 bs]. apply branches_keeps in E.
    eapply Nul; [|exact H]. destruct (forallb id bs); exact E.
  - apply some_subs in H. destruct H as [l0 H]. unfold e_anyOf in H. runs H. destruct a as [r1 bs]. apply branches_keeps in E.
    eapply Nul; [|exact H]. destruct (existsb id bs); exact E.
  - apply some_subs in H. destruct H as [l0 H]. unfold e_oneOf in H. runs H. destruct a as [r1 bs]. apply branches_keeps in E.
    eapply Nul; [|exact H]. destruct (length _ =? 1); exact E.
  - destruct v; try discriminate H. cbn [with_sub] in H. unfold e_not in H. runs H. apply Hev in E.
    eapply Nul; [|exact H]. destruct (passed a); exact E.
  - destruct v; try discriminate H. cbn [with_sub] in H. unfold e_if in H. runs H. apply Hev in E.
    eapply Nul; [|exact H]. exact E.
  - destruct v; try discriminate H. cbn [with_sub] in H. unfold e_branch in H. destruct (sibling _ _ _) as [f|]; [|eapply Nul; [|exact H]; reflexivity].
    destruct (Bool.eqb _ _); [|eapply Nul; [|exact H]; reflexivity]. apply Hev in H. congruence.
  - destruct v; try discriminate H. cbn [with_sub] in H. unfold e_branch in H. destruct (sibling _ _ _) as [f|]; [|eapply Nul; [|exact H]; reflexivity].
    destruct (Bool.eqb _ _); [|eapply Nul; [|exact H]; reflexivity]. apply Hev in H. congruence.
  - destruct v; try discriminate H. cbn [with_subm] in H. unfold e_dependentSchemas in H. runs H. destruct a as [r1 [good bad]].
    destruct (dependents_keeps _ _ _ _ _ _ _ E) as [_ G]. destruct bad; injection H as <-; [|discriminate V']. cbn [annotate r_annot]. unfold names. now rewrite <- (G eq_refl).
  - apply some_prefix in H. destruct H as (l & H & Hv). unfold e_prefixItems in H. runs H. destruct a as [r1 bs].
    destruct (pairwise_keeps _ _ _ _ _ _ _ E) as [K L]. rewrite items_length in *.
    destruct Hv as [->|(-> & w & ->)]; [|destruct bs; [|discriminate L]; injection H as <-; congruence]. rewrite <- L.
    destruct (positions false 0 bs); injection H as <-; [|discriminate V']. destruct bs as [|b bs]; cbn [length]; [congruence|]. reflexivity.
  - destruct v; try discriminate H. cbn [with_sub] in H. unfold e_items in H. destruct (sibling _ _ _).
    + runs H. destruct a as [|[]]; try discriminate H. now apply items_from_notes in H.
    + now apply items_from_notes in H.
  - destruct v; try discriminate H. cbn [with_sub] in H. unfold e_unevaluatedItems in H. runs H. destruct a as [last|]; [|injection H as <-; discriminate D].
    destruct (any_true _ || any_true _); [injection H as <-; discriminate D|]. runs H. now apply unevaluated_from_notes in H.
  - destruct v; try discriminate H. cbn [with_sub] in H. unfold e_contains in H. runs H. destruct a as [r1 bs].
    destruct (each_keeps _ _ _ _ _ _ E) as [K L]. rewrite items_length in L. destruct (positions_spec true bs 0) as (l & Pl & Sl & Fl).
    exists l. split; [|split; [exact Sl|rewrite <- L; eapply Forall_impl; [|exact Fl]; cbn; lia]].
    rewrite Pl in H. destruct (map number l) as [|x y]; injection H as <-; reflexivity.
  - destruct v; try discriminate H. cbn [with_subm] in H. unfold e_properties in H. runs H. destruct a as [r1 [good bad]].
    destruct (named_keeps _ _ _ _ _ _ _ E) as [_ G]. rewrite own_names_inst in G. destruct bad; injection H as <-; [|discriminate V']. cbn [annotate r_annot]. unfold names. now rewrite <- (G eq_refl).
  - destruct v; try discriminate H. cbn [with_subm] in H. unfold e_patternProperties in H. runs H. destruct a as [r1 [good bad]].
    destruct (patterned_keeps _ _ _ _ _ _ _ E) as [_ G]. rewrite own_names_inst in G. destruct bad; injection H as <-; [|discriminate V'].
    exists (dedup [] good). destruct (dedup_spec good []) as [Nd Ds]. split; [reflexivity|]. split; [exact Nd|].
    intro n. rewrite Ds, (G eq_refl). cbn. tauto.
  - destruct v; try discriminate H. cbn [with_sub] in H. unfold e_additionalProperties in H. runs H. runs H. runs H.
    apply members_notes in H; [|exact V']. apply additional_spec in E1. rewrite own_names_inst in E1. rewrite E1 in H. eauto.
  - destruct v; try discriminate H. cbn [with_sub] in H. unfold e_unevaluatedProperties in H. runs H. runs H. runs H. runs H.
    apply members_notes in H; [|exact V']. rewrite (filter_fst _ (fun n => negb (mem_json (JStr n) (a ++ a0 ++ a1 ++ a2)))) in H by reflexivity.
    rewrite own_names_inst in H. eauto.
  - destruct v; try discriminate H. cbn [with_sub] in H. unfold e_propertyNames in H. runs H. destruct a as [r1 bs].
    destruct (each_keeps _ _ _ _ _ _ E) as [K L]. eapply Nul; [|exact H]. destruct (failing _ _ bs); exact K.
  - unfold e_items_2019 in H. pose proof (items_length i) as Len. destruct (items_of i) as [|i0 is0] eqn:Is.
    { injection H as <-. symmetry in Len. cbn in Len. apply length_zero_iff_nil in Len. rewrite Len. destruct v; try exact N; [destruct (w_schema W s); exact N|].
      cbn [length]. now rewrite Nat.min_0_r. }
    destruct v as [| s| l|]; try (injection H as <-; exact N).
    + destruct (w_schema W s).
      * apply Hev in H. congruence.
      * destruct (items (i_val i)); [discriminate Len|]. runs H. apply each_noreset_keeps in E. injection H as <-.
        destruct (passed a) eqn:Pa; [reflexivity|]. unfold passed in Pa. rewrite V' in Pa. discriminate Pa.
    + runs H. destruct a as [r1 bs]. destruct (pairwise_keeps _ _ _ _ _ _ _ E) as [K L]. rewrite Len in L. rewrite <- L.
      destruct (positions false 0 bs); injection H as <-; [|discriminate V']. now destruct bs.
  - destruct v; try discriminate H. cbn [with_sub] in H. unfold e_additionalItems in H. destruct (sibling _ _ _) as [n|]; [|injection H as <-; discriminate D].
    destruct (r_annot n) as [| |[]| | |]; try (injection H as <-; discriminate D). now apply items_from_notes in H.
  - destruct v; try discriminate H. cbn [with_sub] in H. unfold e_unevaluatedItems_2019 in H. destruct (last_evaluated_2019 _ _); [|injection H as <-; discriminate D].
    destruct (any_true _ || any_true _); [injection H as <-; discriminate D|]. now apply unevaluated_from_notes in H.
  - destruct v; try discriminate H. cbn [with_sub] in H. unfold e_unevaluatedProperties in H. runs H. runs H. runs H. runs H.
    apply members_notes in H; [|exact V']. rewrite (filter_fst _ (fun n => negb (mem_json (JStr n) (a ++ a0 ++ a1 ++ a2)))) in H by reflexivity.
    rewrite own_names_inst in H. eauto.
  - unfold e_type in H. runs H. exact (Tel _ _ H).
  - unfold e_enum in H. runs H. eapply Nul; [|exact H]. apply check_annot.
  - unfold e_const in H. destruct v; try discriminate H. eapply Nul; [|exact H]. apply check_annot.
  - unfold e_multipleOf in H. destruct v as [[]| | |]; try discriminate H; exact (Tel _ _ H).
  - unfold e_pattern in H. destruct v as [[]| | |]; try discriminate H. destruct (i_val i); try discriminate H. destruct (w_search W _ _); [|discriminate H]. exact (Tel _ _ H).
  - unfold e_uniqueItems in H. destruct (i_val i); try discriminate H. destruct (truthy v); (eapply Nul; [|exact H]); [apply check_annot|reflexivity].
  - unfold e_maxContains in H. destruct (sibling _ _ _) as [n|]; [|eapply Nul; [|exact H]; reflexivity].
    destruct (is_null (r_annot n)); [eapply Nul; [|exact H]; reflexivity|]. runs H. now apply Lim in H.
  - unfold e_required in H. destruct v as [v| | |]; try discriminate H. runs H. eapply Nul; [|exact H]. apply check_annot.
  - unfold e_dependentRequired in H. destruct v as [v| | |]; try discriminate H. runs H. runs H. exact (Tel _ _ H).
  - unfold e_format in H. rewrite <- Kv in H. destruct v as [v| | |]; try discriminate H.
    assert (X : exists n, Ok n = Ok r' /\ r_annot n = v).
    { destruct (kw_format k); [destruct v; try (eexists; split; [exact H|reflexivity]); destruct (mem_type _ _)|]; (eexists; split; [exact H|]); rewrite ?check_annot; reflexivity. }
    destruct X as (n & Hn & An). now injection Hn as <-.
  - unfold e_contentSchema in H. destruct (sibling _ _ _); [|injection H as <-; discriminate D]. apply Ann in H. rewrite H. reflexivity.
Qed.
End Eval.

(** Evaluation does not annotate the node it is given. *)
Lemma put_keeps n key i c : r_annot (put_child n key i c) = r_annot n.
Proof. reflexivity. Qed.
Lemma ok_fst {A B} (a a' : A) (b b' : B) : Ok (a, b) = Ok (a', b') -> a = a'.
Proof. congruence. Qed.
Lemma ok_snd {A B} (a a' : A) (b b' : B) : Ok (a, b) = Ok (a', b') -> b = b'.
Proof. congruence. Qed.
Lemma keyword_parent W ev k i anc parent result p' r' : eval_keyword W ev k i anc parent result = Ok (p', r') ->
  p' = parent \/ (kw_class k = Std KMinContains /\ exists c, sibling parent i (lit "contains") = Some c /\ p' = put_child parent (lit "contains") i (pass_ c)).
Proof.
  unfold eval_keyword. intro H. destruct (kw_class k) as [c|x] eqn:Kc; [|runs H; injection H as <- _; now left].
  destruct c; try (runs H; injection H as <- _; now left). unfold e_minContains in H.
  destruct (sibling parent i (lit "contains")) as [n|] eqn:Sc; [|injection H as <- _; now left].
  runs H. destruct (num_of (kw_json k)); [|discriminate H]. cbv zeta in H. runs H. apply ok_fst in H. subst p'.
  destruct (_ && negb (r_valid n)); [|now left]. destruct (sibling parent i (lit "maxContains")) as [m|]; [destruct (r_valid m); [|now left]|]; right; eauto.
Qed.
Lemma keywords_keep W ev s i anc kws : forall node n', eval_keywords W ev s kws i anc node = Ok n' -> r_annot n' = r_annot node.
Proof.
  induction kws as [|[key k] kws IH]; intros node n' H; cbn [eval_keywords] in H; [now injection H as <-|].
  destruct (applicable k i); [|now apply IH]. runs H. destruct a as [p c]. rewrite (IH _ _ H), close_keeps.
  destruct (keyword_parent _ _ _ _ _ _ _ _ _ E) as [->|(_ & x & _ & ->)]; reflexivity.
Qed.
Lemma finish_annot i n : r_annot (finish i n) = r_annot n.
Proof. unfold finish. now destruct (existsb _ _). Qed.
Lemma finish_children i n : r_children (finish i n) = r_children n.
Proof. unfold finish. now destruct (existsb _ _). Qed.
Lemma evaluate_keeps W fuel : keeps (evaluate W fuel).
Proof.
  destruct fuel as [|f]; intros s i anc n n' H; cbn [evaluate] in H; [discriminate H|].
  destruct (w_schema W s) as [[|]|kws]; [now injection H as <-|injection H as <-; reflexivity|].
  runs H. injection H as <-. rewrite finish_annot. eapply keywords_keep; eassumption.
Qed.

Section Loop.
Variable W : world.
Variable ev : sid -> inst -> list sid -> rnode -> res rnode.
Hypothesis Hev : keeps ev.
Variable s : sid.
Variable i : inst.
Variable anc : list sid.
Variable all : list (pystr * keyword).
Hypothesis Contains : forall k, In (lit "contains", k) all -> kw_class k = Std KContains.

Definition noted_in (n : rnode) : Prop := forall key c, cget (key, i_path i) (r_children n) = Some c ->
  exists k, In (key, k) all /\ r_discard c = false /\ (r_valid c = true \/ kw_class k = Std KContains -> notes W k (i_val i) (r_annot c)).

Lemma cget_drop_other k k' m : k <> k' -> cget k (cdrop k' m) = cget k m.
Proof.
  intro D. induction m as [|[k1 v] m IH]; [reflexivity|]. cbn [cdrop cget]. destruct (ckey_eqb_spec k' k1) as [<-|E'].
  - destruct (ckey_eqb_spec k k'); [contradiction|reflexivity].
  - cbn [cget]. now rewrite IH.
Qed.

Lemma cdrop_put_other k k' v m : k <> k' -> cdrop k (cput k' v m) = cput k' v (cdrop k m).
Proof.
  intro D. induction m as [|[k1 w] m IH]; cbn [cput cdrop].
  - destruct (ckey_eqb_spec k k'); [contradiction|reflexivity].
  - destruct (ckey_eqb_spec k' k1) as [<-|E'].
    + destruct (ckey_eqb_spec k k') as [|_]; [contradiction|]. cbn [cdrop]. destruct (ckey_eqb_spec k k'); [contradiction|]. cbn [cput]. destruct (ckey_eqb_spec k' k'); [reflexivity|contradiction].
    + cbn [cdrop]. destruct (ckey_eqb_spec k k1); [reflexivity|]. cbn [cput]. destruct (ckey_eqb_spec k' k1); [contradiction|]. now rewrite IH.
Qed.

Lemma keyword_notes k ank parent result p' r' : eval_keyword W ev k i ank parent result = Ok (p', r') -> r_annot result = JNull -> r_discard r' = false ->
  r_valid r' = true \/ kw_class k = Std KContains -> notes W k (i_val i) (r_annot r').
Proof.
  unfold eval_keyword. intros H N D V. destruct (kw_class k) as [c|x] eqn:Kc.
  2:{ runs H. injection H as _ <-. apply annotation_notes in E. unfold notes. now rewrite Kc, E. }
  assert (Dc : {c = KMinContains} + {c <> KMinContains}) by decide equality. destruct Dc as [->|Nc].
  - unfold notes. rewrite Kc. cut (r_annot r' = JNull); [destruct (kw_json k); auto|].
    unfold e_minContains in H. destruct (sibling _ _ _) as [n|]; [|injection H as _ <-; exact N].
    runs H. destruct (num_of (kw_json k)); [|discriminate H]. cbv zeta in H. runs H. apply ok_snd in H. subst r'. erewrite tell_annot by eassumption. exact N.
  - assert (H' : (let* r := eval_std W ev k c i ank parent result in Ok (parent, r)) = Ok (p', r')) by (destruct c; try exact H; contradiction).
    runs H'. injection H' as _ <-. eapply std_notes; try eassumption. destruct V as [V|V]; [now left|right; congruence].
Qed.

Lemma keywords_noted kws : (forall kk, In kk kws -> In kk all) -> NoDup (map fst kws) ->
  forall node n', eval_keywords W ev s kws i anc node = Ok n' -> noted_in node ->
  (forall key, In key (map fst kws) -> cget (key, i_path i) (r_children node) = None) -> noted_in n'.
Proof.
  induction kws as [|[key k] kws IH]; intros Sub Nd node n' H Hn New; cbn [eval_keywords] in H; [injection H as <-; exact Hn|].
  cbn [map fst] in Nd. inversion Nd as [|? ? Nk Nd']; subst. assert (Sub' : forall kk, In kk kws -> In kk all) by (intros; apply Sub; now right).
  destruct (applicable k i); [|apply (IH Sub' Nd' _ _ H Hn); intros; apply New; now right].
  runs H. destruct a as [p c]. set (child := new_child node key i s) in *.
  (* the parent after the keyword was evaluated *)
  assert (P : r_children p = cput (key, i_path i) child (r_children node) \/
     (exists x, cget (lit "contains", i_path i) (cput (key, i_path i) child (r_children node)) = Some x /\ kw_class k = Std KMinContains /\
        r_children p = cput (lit "contains", i_path i) (pass_ x) (cput (key, i_path i) child (r_children node)))).
  { destruct (keyword_parent _ _ _ _ _ _ _ _ _ E) as [->|(Km & x & Sx & ->)]; [now left|right; exists x; auto]. }
  assert (Kd : key <> lit "contains" \/ kw_class k = Std KContains).
  { destruct (list_eq_dec N.eq_dec key (lit "contains")) as [->|D]; [right; apply Contains, Sub; now left|now left]. }
  (* what is found under other keys *)
  assert (Others : forall key' c', key' <> key -> cget (key', i_path i) (r_children p) = Some c' ->
     exists k', In (key', k') all /\ r_discard c' = false /\ (r_valid c' = true \/ kw_class k' = Std KContains -> notes W k' (i_val i) (r_annot c'))).
  { intros key' c' D Hc. destruct P as [->|(x & Sx & Km & ->)] in Hc.
    - rewrite cget_put_other in Hc by congruence. now apply Hn.
    - assert (Dk : key <> lit "contains") by (destruct Kd as [Kd|Kd]; congruence).
      destruct (list_eq_dec N.eq_dec key' (lit "contains")) as [->|D'].
      + rewrite cget_put_same in Hc. injection Hc as <-. rewrite cget_put_other in Sx by congruence.
        destruct (Hn _ _ Sx) as (k' & Hk' & Dc & Nc). exists k'. split; [exact Hk'|]. split; [exact Dc|]. intros _. apply Nc. right. now apply Contains.
      + rewrite !cget_put_other in Hc by congruence. now apply Hn. }
  apply (IH Sub' Nd' _ _ H).
  - intros key' c' Hc. unfold close_child in Hc. destruct (r_discard c) eqn:Dc; cbn [put_child with_children r_children] in Hc.
    + destruct (list_eq_dec N.eq_dec key' key) as [->|D]; [exfalso|rewrite cget_drop_other in Hc by congruence; eauto].
      assert (Z : cget (key, i_path i) (cdrop (key, i_path i) (r_children p)) = None); [|congruence].
      assert (Nw : cget (key, i_path i) (r_children node) = None) by (apply New; now left).
      destruct P as [->|(x & Sx & Km & ->)]; [rewrite cdrop_put_new; assumption|].
      assert (Dk : (lit "contains", i_path i) <> (key, i_path i)) by (destruct Kd as [Kd|Kd]; congruence).
      rewrite cdrop_put_other by congruence. rewrite cdrop_put_new by exact Nw. rewrite cget_put_other; congruence.
    + destruct (list_eq_dec N.eq_dec key' key) as [->|D].
      * rewrite cget_put_same in Hc. injection Hc as <-. exists k. split; [apply Sub; now left|]. split; [exact Dc|].
        intro V. apply (keyword_notes _ _ _ _ _ _ E); auto.
      * rewrite cget_put_other in Hc by congruence. eauto.
  - intros key' Hk'. assert (D : key' <> key) by (intros ->; contradiction).
    assert (Nw : cget (key', i_path i) (r_children node) = None) by (apply New; now right).
    assert (Z : cget (key', i_path i) (r_children p) = None).
    { destruct P as [->|(x & Sx & Km & ->)]; rewrite !cget_put_other; try congruence.
      intro X. assert (X' : key' = lit "contains") by congruence. subst key'. rewrite cget_put_other in Sx by congruence. congruence. }
    unfold close_child. destruct (r_discard c); cbn [put_child with_children r_children]; [rewrite cget_drop_other|rewrite cget_put_other]; congruence.
Qed.

(** A keyword that does nothing but annotate is never left out. *)
Lemma announced k ank parent result p' r' : announcing k = true -> eval_keyword W ev k i ank parent result = Ok (p', r') ->
  p' = parent /\ kw_json k = KJ (r_annot r') /\ r_valid r' = r_valid result /\ r_discard r' = r_discard result.
Proof.
  intros A H. assert (H' : (let* r := e_annotation (kw_json k) result in Ok (parent, r)) = Ok (p', r')).
  { unfold announcing in A. unfold eval_keyword in H. destruct (kw_class k) as [[]|]; try discriminate A; exact H. }
  runs H'. injection H' as <- <-. split; [reflexivity|]. unfold e_annotation in E. destruct (kw_json k); try discriminate E. injection E as <-. auto.
Qed.

Lemma keywords_stay kws : forall node n', eval_keywords W ev s kws i anc node = Ok n' ->
  forall key, ~ In key (map fst kws) -> key <> lit "contains" -> cget (key, i_path i) (r_children n') = cget (key, i_path i) (r_children node).
Proof.
  induction kws as [|[key k] kws IH]; intros node n' H key' Nk Nc; cbn [eval_keywords] in H; [now injection H as <-|].
  cbn [map fst In] in Nk. destruct (applicable k i); [|apply (IH _ _ H); tauto].
  runs H. destruct a as [p c]. rewrite (IH _ _ H) by tauto. assert (D : key' <> key) by (intros ->; tauto).
  transitivity (cget (key', i_path i) (r_children p)).
  { unfold close_child. destruct (r_discard c); cbn [put_child with_children r_children]; [rewrite cget_drop_other|rewrite cget_put_other]; congruence. }
  destruct (keyword_parent _ _ _ _ _ _ _ _ _ E) as [->|(Km & x & Sx & ->)]; cbn [put_child with_children r_children]; rewrite !cget_put_other; congruence.
Qed.

Lemma keywords_announce kws : (forall kk, In kk kws -> In kk all) -> NoDup (map fst kws) ->
  forall node n', eval_keywords W ev s kws i anc node = Ok n' ->
  forall key k, In (key, k) kws -> announcing k = true -> applicable k i = true ->
  exists c, cget (key, i_path i) (r_children n') = Some c /\ r_valid c = true /\ r_discard c = false /\ kw_json k = KJ (r_annot c).
Proof.
  induction kws as [|[key k] kws IH]; intros Sub Nd node n' H key' k' Hk An Ap; [destruct Hk|]. cbn [eval_keywords] in H.
  cbn [map fst] in Nd. inversion Nd as [|? ? Nk Nd']; subst. assert (Sub' : forall kk, In kk kws -> In kk all) by (intros; apply Sub; now right).
  destruct Hk as [[= <- <-]|Hk].
  - rewrite Ap in H. runs H. destruct a as [p c]. destruct (announced _ _ _ _ _ _ An E) as (-> & J & V & D). cbn [new_child r_valid r_discard] in V, D.
    exists c. split; [|auto]. rewrite (keywords_stay _ _ _ H); [|exact Nk|].
    + unfold close_child. rewrite D. cbn [put_child with_children r_children]. apply cget_put_same.
    + intros ->. specialize (Contains k (Sub _ (or_introl eq_refl))). unfold announcing in An. rewrite Contains in An. discriminate An.
  - destruct (applicable k i); [|now apply (IH Sub' Nd' _ _ H)]. runs H. destruct a as [p c]. now apply (IH Sub' Nd' _ _ H).
Qed.
End Loop.

Theorem evaluate_noted W fuel s kws i anc n n' : w_schema W s = SObj kws -> NoDup (map fst kws) ->
  (forall k, In (lit "contains", k) kws -> kw_class k = Std KContains) ->
  (forall key, cget (key, i_path i) (r_children n) = None) -> evaluate W fuel s i anc n = Ok n' -> noted_in W i kws n'.
Proof.
  intros Hs Nd Hc New H. destruct fuel as [|f]; [discriminate H|]. cbn [evaluate] in H. rewrite Hs in H. runs H. injection H as <-.
  intros key c. rewrite finish_children. revert key c. change (noted_in W i kws a).
  refine (keywords_noted W (evaluate W f) (evaluate_keeps W f) s i anc kws Hc kws (fun _ h => h) Nd n a E _ _).
  - intros key c X. rewrite New in X. discriminate X.
  - intros key _. apply New.
Qed.

Theorem evaluate_announces W fuel s kws i anc n n' : w_schema W s = SObj kws -> NoDup (map fst kws) ->
  (forall k, In (lit "contains", k) kws -> kw_class k = Std KContains) ->
  evaluate W fuel s i anc n = Ok n' -> forall key k, In (key, k) kws -> announcing k = true -> applicable k i = true ->
  exists c, cget (key, i_path i) (r_children n') = Some c /\ r_valid c = true /\ r_discard c = false /\ kw_json k = KJ (r_annot c).
Proof.
  intros Hs Nd Hc H. destruct fuel as [|f]; [discriminate H|]. cbn [evaluate] in H. rewrite Hs in H. runs H. injection H as <-.
  intros key k Hk An Ap. rewrite finish_children. exact (keywords_announce W (evaluate W f) s i anc kws Hc kws (fun _ h => h) Nd n a E key k Hk An Ap).
Qed.

(** ** contentSchema. *)
Lemma ok_inj {A} (a b : A) : Ok a = Ok b -> a = b.
Proof. congruence. Qed.
Lemma eval_keywords_app W ev s i anc a b : forall node,
  eval_keywords W ev s (a ++ b) i anc node = (let* n := eval_keywords W ev s a i anc node in eval_keywords W ev s b i anc n).
Proof.
  induction a as [|[key k] a IH]; intros node; [reflexivity|]. cbn [app eval_keywords]. destruct (applicable k i); [|apply IH].
  destruct (eval_keyword _ _ _ _ _ _ _) as [[p c]| |]; cbn [bind]; auto.
Qed.

Lemma In_keys_split (key : pystr) (kws : list (pystr * keyword)) l1 l2 : keys kws = l1 ++ key :: l2 ->
  exists a k b, kws = a ++ (key, k) :: b /\ keys a = l1 /\ keys b = l2.
Proof.
  revert l1. induction kws as [|[q k] kws IH]; intros l1 H; [destruct l1; discriminate H|]. destruct l1 as [|x l1]; cbn in H; injection H as -> H.
  - exists [], k, kws. auto.
  - destruct (IH l1 H) as (a & k' & b & -> & <- & <-). exists ((x, k) :: a), k', b. auto.
Qed.

Lemma content_loop W ev s i anc kws node n' ks km :
  NoDup (keys kws) -> (forall k, In (lit "contains", k) kws -> kw_class k = Std KContains) ->
  In (lit "contentSchema", ks) kws -> kw_class ks = Std KContentSchema -> type_of (i_val i) = TString ->
  In (lit "contentMediaType", km) kws -> kw_class km = Std KContentMediaType -> earlier (lit "contentMediaType") (lit "contentSchema") (keys kws) ->
  eval_keywords W ev s kws i anc node = Ok n' ->
  exists c, cget (lit "contentSchema", i_path i) (r_children n') = Some c /\ r_valid c = true /\ r_discard c = false /\ kw_json ks = KJ (r_annot c).
Proof.
  intros Nd Hc Is Ks Ts Im Km (l1 & l2 & l3 & Ek) H.
  rewrite app_comm_cons, app_assoc in Ek. destruct (In_keys_split _ _ _ _ Ek) as (a & k & b & E & Ka & Kb).
  assert (k = ks). { rewrite E in Nd, Is. unfold keys in Nd. rewrite map_app in Nd. cbn [map fst] in Nd. apply NoDup_remove_2 in Nd.
    rewrite in_app_iff in Is. destruct Is as [Is|[Is|Is]].
    - elim Nd. apply in_app_iff. left. exact (in_map fst _ _ Is).
    - now injection Is.
    - elim Nd. apply in_app_iff. right. exact (in_map fst _ _ Is). }
  subst k. rewrite E in H. rewrite eval_keywords_app in H. runs H. cbn [eval_keywords] in H.
  assert (Ap : applicable ks i = true) by (unfold applicable; rewrite Ks, Ts; reflexivity). rewrite Ap in H. runs H. destruct a1 as [p c].
  assert (Nd' := Nd). rewrite E in Nd'. unfold keys in Nd'. rewrite map_app in Nd'. cbn [map fst] in Nd'.
  assert (Ima : In (lit "contentMediaType", km) a).
  { assert (Q : In (lit "contentMediaType") (keys a)) by (rewrite Ka; apply in_app_iff; right; now left).
    rewrite E in Im. rewrite in_app_iff in Im. destruct Im as [Im|[Im|Im]]; [exact Im|exfalso|exfalso].
    - assert (X : lit "contentSchema" = lit "contentMediaType") by exact (f_equal fst Im). vm_compute in X. discriminate X.
    - unfold keys in Q. apply in_split in Q. destruct Q as (u & v & Q). rewrite Q in Nd'. rewrite <- app_assoc in Nd'. cbn [app] in Nd'. apply NoDup_remove_2 in Nd'. apply Nd'.
      apply in_app_iff. right. apply in_app_iff. right. right. exact (in_map fst _ _ Im). }
  assert (Nda : NoDup (map fst a)). { clear -Nd'. induction (map fst a) as [|x l IH]; [constructor|]. cbn in Nd'. inversion Nd'. subst. constructor; [|auto]. intro X. apply H1. apply in_app_iff. now left. }
  destruct (keywords_announce W ev s i anc kws Hc a) with (node := node) (n' := a0) (key := lit "contentMediaType") (k := km) as (cm & Gm & _ & _ & _); auto.
  { intros kk I. rewrite E. apply in_app_iff. now left. }
  { unfold announcing. now rewrite Km. }
  { unfold applicable. rewrite Km, Ts. reflexivity. }
  unfold eval_keyword in E1. rewrite Ks in E1. cbn [eval_std] in E1. runs E1. pose proof (ok_fst _ _ _ _ E1) as Ep. pose proof (ok_snd _ _ _ _ E1) as Ec. clear E1. subst p c.
  unfold e_contentSchema in E2. unfold sibling in E2. cbn [put_child with_children r_children] in E2. rewrite cget_put_other in E2.
  2:{ intro X. assert (Y : lit "contentSchema" = lit "contentMediaType") by (congruence). vm_compute in Y. discriminate Y. }
  rewrite Gm in E2. unfold e_annotation in E2. destruct (kw_json ks) as [v| | |] eqn:Jv; try discriminate E2. apply ok_inj in E2. subst a1.
  exists (noassert (annotate (new_child a0 (lit "contentSchema") i s) v)). split; [|split; [|split]]; [|reflexivity|reflexivity|reflexivity].
  rewrite (keywords_stay _ _ _ _ _ _ _ _ H).
  - unfold close_child. cbn [noassert annotate new_child r_discard put_child with_children r_children]. rewrite cget_put_same. reflexivity.
  - apply NoDup_remove_2 in Nd'. intro X. apply Nd'. apply in_app_iff. now right.
  - intro X. vm_compute in X. discriminate X.
Qed.

Lemma content_absent W ev s i anc kws : forall node n',
  (forall k, In (lit "contentSchema", k) kws -> kw_class k = Std KContentSchema) ->
  ~ In (lit "contentMediaType") (keys kws) ->
  (forall key, In key [lit "contentMediaType"; lit "contentSchema"] -> cget (key, i_path i) (r_children node) = None) ->
  eval_keywords W ev s kws i anc node = Ok n' -> cget (lit "contentSchema", i_path i) (r_children n') = None.
Proof.
  assert (Na : lit "contains" <> lit "contentSchema") by (intro X; vm_compute in X; discriminate X).
  assert (Nb : lit "contains" <> lit "contentMediaType") by (intro X; vm_compute in X; discriminate X).
  induction kws as [|[key k] kws IH]; intros node n' Cl Nm New H; cbn [eval_keywords] in H; [injection H as <-; apply New; right; now left|].
  assert (Cl' : forall k, In (lit "contentSchema", k) kws -> kw_class k = Std KContentSchema) by (intros; apply Cl; now right).
  assert (Nm' : ~ In (lit "contentMediaType") (keys kws)) by (intro X; apply Nm; now right).
  destruct (applicable k i); [|exact (IH _ _ Cl' Nm' New H)]. runs H. destruct a as [p c]. apply (IH (close_child p key i c) n' Cl' Nm'); [|exact H]. clear IH H.
  destruct (list_eq_dec N.eq_dec key (lit "contentSchema")) as [->|Dk].
  - specialize (Cl k (or_introl eq_refl)). unfold eval_keyword in E. rewrite Cl in E. cbn [eval_std] in E. runs E. rename E0 into E2.
    pose proof (ok_fst _ _ _ _ E) as Ep. pose proof (ok_snd _ _ _ _ E) as Ec. clear E. subst p c.
    unfold e_contentSchema, sibling in E2. cbn [put_child with_children r_children] in E2. rewrite cget_put_other in E2.
    2:{ intro X. assert (Y : lit "contentSchema" = lit "contentMediaType") by congruence. vm_compute in Y. discriminate Y. }
    rewrite New in E2 by now left. apply ok_inj in E2. subst a. unfold close_child. cbn [discard new_child r_discard put_child with_children r_children].
    intros q Hq. rewrite cdrop_put_new by (apply New; right; now left). now apply New.
  - assert (Dm : key <> lit "contentMediaType") by (intros ->; apply Nm; now left). intros q Hq.
    assert (Dq : q <> key) by (destruct Hq as [<-|[<-|[]]]; congruence). assert (Dc : q <> lit "contains") by (destruct Hq as [<-|[<-|[]]]; congruence).
    transitivity (cget (q, i_path i) (r_children p)).
    { unfold close_child. destruct (r_discard c); cbn [put_child with_children r_children]; [rewrite cget_drop_other|rewrite cget_put_other]; congruence. }
    destruct (keyword_parent _ _ _ _ _ _ _ _ _ E) as [->|(Km & x & Sx & ->)]; cbn [put_child with_children r_children]; rewrite !cget_put_other; try congruence; now apply New.
Qed.
