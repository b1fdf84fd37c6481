(** The outcomes of judging list exactly what SpecSees.v says is evaluated. *)
From Coq Require Import List.
From Verif Require Export SpecSees SchemaLaws.
Import ListNotations.
Open Scope nat_scope.

Lemma all_some_nth {A} (l : list (option A)) xs : all_some l = Some xs -> forall j x, nth_error xs j = Some x <-> nth_error l j = Some (Some x).
Proof.
  revert xs. induction l as [|[a|] l IH]; intros xs E j x; cbn [all_some] in E; try discriminate.
  - injection E as <-. destruct j; split; discriminate.
  - destruct (all_some l) as [ys|]; [|discriminate]. injection E as <-. destruct j as [|j]; cbn [nth_error]; [split; congruence|]. apply IH. reflexivity.
Qed.
Lemma accepted_In os : forall k m, In m (accepted k os) <-> exists j o, m = k + j /\ nth_error os j = Some o /\ o_ok o = true.
Proof.
  induction os as [|o os IH]; intros k m; cbn [accepted].
  - split; [intros []|]. intros (j & o & _ & H & _). destruct j; discriminate.
  - assert (X : In m (accepted (S k) os) <-> exists j o', m = k + S j /\ nth_error os j = Some o' /\ o_ok o' = true).
    { rewrite IH. split; intros (j & o' & E & H); exists j, o'; (split; [lia|exact H]). }
    destruct (o_ok o) eqn:O; cbn [In]; rewrite X; split.
    + intros [<-|(j & o' & E & H)]; [exists 0, o; split; [lia|auto]|exists (S j), o'; auto].
    + intros ([|j] & o' & E & H & V); [left; lia|right; exists j, o'; auto].
    + intros (j & o' & E & H). exists (S j), o'. auto.
    + intros ([|j] & o' & E & H & V); [cbn in H; congruence|exists j, o'; auto].
Qed.

Section Seen.
Variable W : world.
Variable d : list stdclass.
Variable legacy : bool.
Hypothesis Hd : dialect legacy d.
Hypothesis Hgood : good_world d W.
Notation choose := (dynamic_choice W).
Notation jd := (judge W choose).
Notation Sees := (sees W legacy).
Notation KwSees := (kw_sees W legacy).

Definition spots (o : outcome) (p : spot) : Prop :=
  match p with Member name => In name (o_names o) | Item n => In n (evaluated_at legacy o) end.

Lemma spots_plain b p : ~ spots (plain b) p.
Proof. destruct p; cbn [spots]; [intros []|]. rewrite evaluated_plain. intros []. Qed.
Lemma spots_gather b l p : spots (gather b l) p <-> exists o, In o l /\ o_ok o = true /\ spots o p.
Proof.
  destruct p as [name|n]; cbn [spots gather o_names].
  - rewrite in_flat_map. split; intros (o & H); exists o; rewrite filter_In in *; tauto.
  - unfold evaluated_at, gather. cbn [o_places o_found]. destruct legacy.
    + rewrite in_flat_map. split; intros (o & H); exists o; rewrite filter_In in *; tauto.
    + rewrite in_app_iff, !in_flat_map. split.
      * intros [(o & H & P)|(o & H & P)]; rewrite filter_In in H; exists o; rewrite in_app_iff; tauto.
      * intros (o & H & V & P). rewrite in_app_iff in P. destruct P as [P|P]; [left|right]; exists o; rewrite filter_In; tauto.
Qed.

Lemma sees_accepts sc s x p : Sees sc s x p -> accepts W sc s x true.
Proof. intro H. now inversion H. Qed.

Lemma evaluated_only_places b names pl m : In m (evaluated_at legacy (mkO b names pl [])) <-> In m pl.
Proof. unfold evaluated_at. cbn [o_places o_found]. destruct legacy; [reflexivity|now rewrite app_nil_r]. Qed.

Section Kw.
Variable n : nat.
Hypothesis IH : forall sc t x o p, jd n sc t x = Some o -> spots o p <-> Sees sc t x p.

Lemma gather_sees {A} (f : A -> sid) sc x l os b p : all_some (map (fun a => jd n sc (f a) x) l) = Some os ->
  spots (gather b os) p <-> exists a, In a l /\ Sees sc (f a) x p.
Proof.
  intro E. rewrite spots_gather. split.
  - intros (o & Ho & V & P). apply (all_some_In _ _ E) in Ho. apply in_map_iff in Ho. destruct Ho as (a & J & Ha).
    exists a. split; [exact Ha|]. now apply (IH _ _ _ o).
  - intros (a & Ha & P). assert (Hin : In (jd n sc (f a) x) (map (fun a => jd n sc (f a) x) l)) by (apply in_map_iff; eauto).
    destruct (jd n sc (f a) x) as [o|] eqn:J.
    + exists o. split; [now apply (all_some_In _ _ E)|]. split; [|now apply (IH _ _ _ o _ J)].
      destruct (sees_accepts _ _ _ _ P) as (m & o' & J' & V). now rewrite (judge_unique _ _ _ _ _ _ _ _ _ J J').
    + exfalso. clear - E Hin. revert os E. induction (map _ l) as [|[b|] l' IHl]; intros os E; [destruct Hin| |discriminate].
      cbn [all_some] in E. destruct Hin as [Hin|Hin]; [discriminate|]. destruct (all_some l') as [ys|]; [|discriminate]. exact (IHl Hin ys eq_refl).
Qed.

Lemma members_member x name : In name (map fst (members x)) <-> member x name.
Proof.
  unfold member. rewrite in_map_iff. split; [intros ([k y] & <- & H); eauto|intros (y & H); exists (name, y); auto].
Qed.
Lemma has_member_iff x name : has x name = true <-> member x name.
Proof.
  unfold has, member. rewrite existsb_exists. split.
  - intros ([k y] & H & E). cbn [fst] in E. apply str_eqb_eq in E. subst k. eauto.
  - intros (y & H). exists (name, y). split; [exact H|]. apply str_eqb_refl.
Qed.

Ltac sees_inv H :=
  let H' := fresh in pose proof H as H'; inversion H'; clear H'; subst;
  repeat match goal with X : _ \/ _ |- _ => destruct X; subst end; try congruence.

Lemma names_of_sub key kws l : names_of key kws l <-> l = names_under (subm_of (dget key kws)).
Proof.
  unfold names_of, subm_of, names_under. destruct (dget key kws) as [k|]; cbn [obind]; [|reflexivity]. destruct (kw_json k); reflexivity.
Qed.
Lemma tuple_size_sub key kws m : tuple_size key kws m <-> m = match subs_of (dget key kws) with Some ts => length ts | None => 0 end.
Proof.
  unfold tuple_size, subs_of. destruct (dget key kws) as [k|]; cbn [obind]; [|reflexivity]. destruct (kw_json k); reflexivity.
Qed.
Lemma matches_any_false patterns name : matches_any W patterns name = Some false <-> forall r, In r patterns -> w_search W r name = Some false.
Proof.
  induction patterns as [|r rs IHr]; cbn [matches_any]; [split; [intros _ r []|reflexivity]|].
  destruct (w_search W r name) as [[]|] eqn:E.
  - split; [discriminate|]. intro H. specialize (H r (or_introl eq_refl)). congruence.
  - rewrite IHr. split; [intros H r' [<-|Hr]; auto|intros H r' Hr; apply H; now right].
  - split; [discriminate|]. intro H. specialize (H r (or_introl eq_refl)). congruence.
Qed.

Lemma kw_spots sc kws k x o p : judge_keyword W choose (jd n) sc kws x k = Some o -> late k = None ->
  spots o p <-> KwSees sc kws k x p.
Proof.
  intros E L. unfold judge_keyword in E. destruct (kw_class k) as [c|u] eqn:Hc.
  2:{ injection E as <-. split; [intro H; destruct (spots_plain _ _ H)|]. intro H. exfalso. sees_inv H. }
  unfold late in L. rewrite Hc in L.
  assert (Nothing : forall b, o = plain b -> (forall p', KwSees sc kws k x p' -> False) -> spots o p <-> KwSees sc kws k x p).
  { intros b -> N. split; [intro H; destruct (spots_plain _ _ H)|intro H; destruct (N p H)]. }
  destruct c; try discriminate L; cbn [judge_std] in E;
    try (apply (Nothing true); [congruence|]; intros p' H; sees_inv H; fail);
    try (match type of E with obind ?a _ = _ => destruct a as [b|]; [|discriminate E] end;
         cbn [obind] in E; apply (Nothing b); [congruence|]; intros p' H; sees_inv H; fail).
  - (* $ref *)
    destruct (kw_ref k) as [t|] eqn:Hr; [|discriminate]. cbn [obind] in E. rewrite (IH _ _ _ _ p E). split.
    + intro H. eapply see_ref; eauto.
    + intro H. sees_inv H.
  - (* $dynamicRef *)
    destruct (kw_ref k) as [t|] eqn:Hr; [|discriminate]. cbn [obind] in E. rewrite (IH _ _ _ _ p E). split.
    + intro H. eapply see_dynamicRef; eauto.
    + intro H. sees_inv H. replace t0 with t in * by congruence. assumption.
  - (* $recursiveRef *)
    destruct (kw_ref k) as [t|] eqn:Hr; [|discriminate]. cbn [obind] in E. rewrite (IH _ _ _ _ p E). split.
    + intro H. eapply see_recursiveRef; eauto.
    + intro H. sees_inv H.
  - (* allOf *)
    destruct (kw_json k) as [| |ts|] eqn:Hj; cbn [subs_of obind] in E; rewrite Hj in E; cbn [obind] in E; try discriminate.
    destruct (all_some _) as [os|] eqn:A; [|discriminate]. injection E as <-. rewrite (gather_sees (fun t => t) sc x ts os _ p A). split.
    + intros (t & Ht & S). eapply see_combined; eauto.
    + intro H. sees_inv H. replace ts0 with ts in * by congruence. eauto.
  - (* anyOf *)
    destruct (kw_json k) as [| |ts|] eqn:Hj; cbn [subs_of obind] in E; rewrite Hj in E; cbn [obind] in E; try discriminate.
    destruct (all_some _) as [os|] eqn:A; [|discriminate]. injection E as <-. rewrite (gather_sees (fun t => t) sc x ts os _ p A). split.
    + intros (t & Ht & S). eapply see_combined; eauto.
    + intro H. sees_inv H. replace ts0 with ts in * by congruence. eauto.
  - (* oneOf *)
    destruct (kw_json k) as [| |ts|] eqn:Hj; cbn [subs_of obind] in E; rewrite Hj in E; cbn [obind] in E; try discriminate.
    destruct (all_some _) as [os|] eqn:A; [|discriminate]. injection E as <-. rewrite (gather_sees (fun t => t) sc x ts os _ p A). split.
    + intros (t & Ht & S). eapply see_combined; eauto.
    + intro H. sees_inv H. replace ts0 with ts in * by congruence. eauto.
  - (* not *)
    destruct (sub_of _) as [t|]; [|discriminate]. cbn [obind] in E. destruct (jd n sc t x) as [o'|]; [|discriminate]. cbn [obind] in E.
    apply (Nothing (negb (o_ok o'))); [congruence|]. intros p' H. sees_inv H.
  - (* if *)
    destruct (kw_json k) as [|t| |] eqn:Hj; cbn [sub_of obind] in E; rewrite Hj in E; cbn [obind] in E; try discriminate.
    destruct (jd n sc t x) as [o'|] eqn:J; [|discriminate]. cbn [obind] in E. injection E as <-.
    assert (A : all_some (map (fun u => jd n sc u x) [t]) = Some [o']) by (cbn; now rewrite J).
    rewrite (gather_sees (fun t => t) sc x [t] [o'] _ p A). split.
    + intros (u & [<-|[]] & S). eapply see_if; eauto.
    + intro H. sees_inv H. replace t0 with t in * by congruence. exists t. split; [now left|assumption].
  - (* then *)
    destruct (dget (lit "if") kws) as [ki|] eqn:Hi.
    2:{ apply (Nothing true); [congruence|]. intros p' H. sees_inv H. }
    destruct (kw_json ki) as [|cd| |] eqn:Hki; cbn [sub_of obind] in E; rewrite Hki in E; cbn [obind] in E; try discriminate.
    destruct (jd n sc cd x) as [oc|] eqn:Jc; [|discriminate]. cbn [obind] in E. destruct (o_ok oc) eqn:Oc.
    + destruct (kw_json k) as [|t| |] eqn:Hj; cbn [obind] in E; try discriminate. rewrite (IH _ _ _ _ p E). split.
      * intro S. eapply see_then; eauto. now exists n, oc.
      * intro H. sees_inv H.
    + apply (Nothing true); [congruence|]. intros p' H. sees_inv H.
      match goal with X : accepts _ _ _ _ true |- _ => destruct X as (m & o2 & J2 & V2) end.
      replace c with cd in J2 by congruence. rewrite (judge_unique _ _ _ _ _ _ _ _ _ J2 Jc) in V2. congruence.
  - (* else *)
    destruct (dget (lit "if") kws) as [ki|] eqn:Hi.
    2:{ apply (Nothing true); [congruence|]. intros p' H. sees_inv H. }
    destruct (kw_json ki) as [|cd| |] eqn:Hki; cbn [sub_of obind] in E; rewrite Hki in E; cbn [obind] in E; try discriminate.
    destruct (jd n sc cd x) as [oc|] eqn:Jc; [|discriminate]. cbn [obind] in E. destruct (o_ok oc) eqn:Oc.
    + apply (Nothing true); [congruence|]. intros p' H. sees_inv H.
      match goal with X : accepts _ _ _ _ false |- _ => destruct X as (m & o2 & J2 & V2) end.
      replace c with cd in J2 by congruence. rewrite (judge_unique _ _ _ _ _ _ _ _ _ J2 Jc) in V2. congruence.
    + destruct (kw_json k) as [|t| |] eqn:Hj; cbn [obind] in E; try discriminate. rewrite (IH _ _ _ _ p E). split.
      * intro S. eapply see_else; eauto. now exists n, oc.
      * intro H. sees_inv H.
  - (* dependentSchemas *)
    destruct (kw_json k) as [| | |m] eqn:Hj; cbn [subm_of obind] in E; rewrite Hj in E; cbn [obind] in E; try discriminate.
    destruct (all_some _) as [os|] eqn:A; [|discriminate]. injection E as <-. rewrite (gather_sees snd sc x _ os _ p A). split.
    + intros ([name t] & Ht & S). apply filter_In in Ht. destruct Ht as [Ht Hm]. apply has_member_iff in Hm. eapply see_dependentSchemas; eauto.
    + intro H. sees_inv H. replace m0 with m in * by congruence. exists (name, t). split; [|assumption]. apply filter_In. split; [assumption|now apply has_member_iff].
  - (* prefixItems *)
    destruct (kw_json k) as [| |ts|] eqn:Hj; cbn [subs_of obind] in E; rewrite Hj in E; cbn [obind] in E; try discriminate.
    unfold judge_pairs in E. destruct (all_some _) as [os|]; [|discriminate]. injection E as <-. destruct p as [name|m]; cbn [spots o_names].
    + split; [intros []|]. intro H. sees_inv H.
    + rewrite evaluated_only_places, in_seq. split.
      * intros [_ H]. eapply see_prefixItems; eauto; lia.
      * intro H. sees_inv H. replace ts0 with ts in * by congruence. lia.
  - (* items *)
    destruct (kw_json k) as [|t| |] eqn:Hj; cbn [sub_of obind] in E; rewrite Hj in E; cbn [obind] in E; try discriminate.
    remember (match subs_of (dget (lit "prefixItems") kws) with Some ts => length ts | None => 0 end) as start eqn:St.
    unfold judge_rest in E. destruct (judge_all _ _ _ _) as [os|]; [|discriminate]. injection E as <-. destruct p as [name|m]; cbn [spots o_names].
    + split; [intros []|]. intro H. sees_inv H.
    + rewrite evaluated_only_places, in_seq. split.
      * intros H. refine (see_items W legacy sc kws k t start m x Hc Hj (proj2 (tuple_size_sub _ _ _) St) _ _); lia.
      * intro H. sees_inv H. match goal with X : tuple_size _ _ _ |- _ => apply tuple_size_sub in X; subst end. lia.
  - (* contains *)
    destruct (kw_json k) as [|t| |] eqn:Hj; cbn [sub_of obind] in E; rewrite Hj in E; cbn [obind] in E; try discriminate.
    destruct (judge_all _ _ _ _) as [os|] eqn:A; [|discriminate]. cbn [obind] in E.
    match type of E with obind ?a _ = _ => destruct a as [lo|]; [|discriminate E] end. cbn [obind] in E.
    match type of E with obind ?a _ = _ => destruct a as [hi|]; [|discriminate E] end. cbn [obind] in E. injection E as <-.
    destruct p as [name|m]; cbn [spots o_names].
    + split; [intros []|]. intro H. sees_inv H.
    + unfold evaluated_at. cbn [o_places o_found app]. destruct (bool_dec legacy true) as [Lg|Lg].
      * rewrite Lg. split; [intros []|]. intro H. exfalso. sees_inv H.
      * apply not_true_is_false in Lg. replace (if legacy then [] else accepted 0 os) with (accepted 0 os) by now rewrite Lg. rewrite accepted_In. unfold judge_all in A. split.
        -- intros (j & o & -> & Hn & V). apply (all_some_nth _ _ A) in Hn. rewrite nth_error_map in Hn.
           destruct (nth_error (items x) j) as [y|] eqn:Y; cbn [option_map] in Hn; [|discriminate]. injection Hn as Hn.
           refine (see_contains W legacy sc kws k t _ y x _ Hc Hj Y _); [exact Lg|now exists n, o].
        -- intro H. sees_inv H. replace t0 with t in * by congruence.
           assert (Hn : nth_error (map (jd n sc t) (items x)) m = Some (jd n sc t y)) by (rewrite nth_error_map; now rewrite H5).
           destruct (jd n sc t y) as [oy|] eqn:Jy.
           ++ exists m, oy. split; [reflexivity|]. split; [now apply (all_some_nth _ _ A)|].
              match goal with X : accepts _ _ _ _ true |- _ => destruct X as (m' & o2 & J2 & V2) end. now rewrite (judge_unique _ _ _ _ _ _ _ _ _ Jy J2).
           ++ exfalso. apply nth_error_In in Hn. clear - A Hn. revert os A. induction (map _ _) as [|[b|] l' IHl]; intros os A; [destruct Hn| |discriminate].
              cbn [all_some] in A. destruct Hn as [Hn|Hn]; [discriminate|]. destruct (all_some l') as [ys|]; [|discriminate]. exact (IHl Hn ys eq_refl).
  - (* properties *)
    destruct (kw_json k) as [| | |m] eqn:Hj; cbn [subm_of obind] in E; rewrite Hj in E; cbn [obind] in E; try discriminate.
    destruct (all_some _) as [os|] eqn:A; [|discriminate]. injection E as <-. destruct p as [name|q]; cbn [spots o_names].
    + rewrite in_map_iff. split.
      * intros ([name' y] & <- & H). apply filter_In in H. destruct H as [H1 H2]. cbn [fst] in *. eapply see_properties; eauto; [now exists y|].
        now apply dmem_In.
      * intro H. sees_inv H. replace m0 with m in * by congruence. match goal with X : member _ _ |- _ => destruct X as (y & Hy) end.
        exists (name, y). split; [reflexivity|]. apply filter_In. split; [exact Hy|]. now apply dmem_In.
    + rewrite evaluated_only_places. split; [intros []|]. intro H. sees_inv H.
  - (* patternProperties *)
    destruct (kw_json k) as [| | |m] eqn:Hj; cbn [subm_of obind] in E; rewrite Hj in E; cbn [obind] in E; try discriminate.
    destruct (all_some _) as [os|] eqn:A; [|discriminate]. injection E as <-. destruct p as [name|q]; cbn [spots o_names].
    2:{ rewrite evaluated_only_places. split; [intros []|]. intro H. sees_inv H. }
    rewrite in_flat_map.
    assert (Hit : forall kv o, obind (all_some (map (fun rt => w_search W (fst rt) (fst kv)) m)) (fun bs =>
               let hits := map fst (filter snd (combine (map snd m) bs)) in
               obind (all_some (map (fun t => jd n sc t (snd kv)) hits)) (fun os =>
               Some (mkO (all_accept os) (match hits with [] => [] | _ => [fst kv] end) [] []))) = Some o ->
             forall nm : pystr, In nm (o_names o) <-> nm = fst kv /\ exists r t, In (r, t) m /\ w_search W r (fst kv) = Some true).
    { intros kv o H nm. destruct (all_some (map _ m)) as [bs|] eqn:B; [|discriminate]. cbn [obind] in H. cbv zeta in H.
      destruct (all_some (map _ (map fst _))) as [os'|]; [|discriminate]. cbn [obind] in H. injection H as <-. cbn [o_names].
      assert (X : (exists t, In t (map fst (filter snd (combine (map snd m) bs)))) <-> exists r t, In (r, t) m /\ w_search W r (fst kv) = Some true).
      { clear - B. revert bs B. induction m as [|[r t] m IHm]; intros bs B; cbn [map all_some] in B.
        - injection B as <-. split; [intros (t & [])|intros (r & t & [] & _)].
        - cbn [fst] in B. destruct (w_search W r (fst kv)) as [b|] eqn:Sr; [|discriminate]. destruct (all_some _) as [bs'|] eqn:B'; [|discriminate]. injection B as <-.
          cbn [map snd combine filter]. specialize (IHm _ eq_refl). destruct b; cbn [map fst].
          + split; [intros _; exists r, t; split; [now left|exact Sr]|intros _; exists t; now left].
          + rewrite IHm. split; [intros (r' & t' & H & S'); exists r', t'; split; [now right|exact S']|].
            intros (r' & t' & [H|H] & S'); [congruence|eauto]. }
      rewrite <- X. destruct (map fst (filter _ _)) as [|h hs].
      - split; [intros []|]. intros [_ (t & [])].
      - split; [intros [<-|[]]; split; [reflexivity|exists h; now left]|]. intros [-> _]. now left. }
    split.
    + intros (o & Ho & Hn). apply (all_some_In _ _ A) in Ho. apply in_map_iff in Ho. destruct Ho as (kv & Ho & Hkv).
      apply (Hit _ _ Ho) in Hn. destruct Hn as [-> (r & t & Hr & Sr)]. eapply see_patternProperties; eauto. destruct kv as [nm y]. now exists y.
    + intro H. sees_inv H. replace m0 with m in * by congruence. match goal with X : member _ _ |- _ => destruct X as (y & Hy) end.
      assert (Hin : In (obind (all_some (map (fun rt => w_search W (fst rt) name) m)) (fun bs =>
               let hits := map fst (filter snd (combine (map snd m) bs)) in
               obind (all_some (map (fun t => jd n sc t y) hits)) (fun os =>
               Some (mkO (all_accept os) (match hits with [] => [] | _ => [name] end) [] [])))) (map (fun kv : pystr * json =>
        obind (all_some (map (fun rt => w_search W (fst rt) (fst kv)) m)) (fun bs =>
        let hits := map fst (filter snd (combine (map snd m) bs)) in
        obind (all_some (map (fun t => jd n sc t (snd kv)) hits)) (fun os =>
        Some (mkO (all_accept os) (match hits with [] => [] | _ => [fst kv] end) [] [])))) (members x))) by (apply in_map_iff; exists (name, y); auto).
      destruct (obind _ _) as [o|] eqn:Eo in Hin.
      * exists o. split; [now apply (all_some_In _ _ A)|]. apply (Hit (name, y) o Eo). cbn [fst]. eauto.
      * exfalso. clear - A Hin. revert os A. induction (map _ _) as [|[b|] l' IHl]; intros os A; [destruct Hin| |discriminate].
        cbn [all_some] in A. destruct Hin as [Hn|Hn]; [discriminate|]. destruct (all_some l') as [ys|]; [|discriminate]. exact (IHl Hn ys eq_refl).
  - (* additionalProperties *)
    destruct (kw_json k) as [|t| |] eqn:Hj; cbn [sub_of obind] in E; rewrite Hj in E; cbn [obind] in E; try discriminate. cbv zeta in E.
    set (known := names_under (subm_of (dget (lit "properties") kws))) in E. set (patterns := names_under (subm_of (dget (lit "patternProperties") kws))) in E.
    destruct (all_some _) as [bs|] eqn:A in E; [|discriminate]. cbn [obind] in E. unfold judge_members in E.
    destruct (judge_all _ _ _ _) as [os|] eqn:A2; [|discriminate]. cbn [obind] in E. injection E as <-. destruct p as [name|q]; cbn [spots o_names].
    2:{ rewrite evaluated_only_places. split; [intros []|]. intro H. sees_inv H. }
    assert (X : In name (map fst (map fst (filter (fun kb => negb (snd kb)) (combine (filter (fun kv => negb (mem_str (fst kv) known)) (members x)) bs))))
                <-> member x name /\ ~ In name known /\ matches_any W patterns name = Some false).
    { clear - A. unfold member. revert bs A. induction (members x) as [|[nm y] l IHl]; intros bs A; cbn [filter map all_some] in A.
      - split; [intros []|]. intros [(y & []) _].
      - cbn [filter fst] in *. destruct (mem_str nm known) eqn:M; cbn [negb] in *.
        + rewrite (IHl bs A). split.
          * intros [(y' & Hy) R]. split; [exists y'; now right|exact R].
          * intros [(y' & [Hy|Hy]) [R1 R2]]; [|split; [eauto|auto]]. injection Hy as <- <-. apply mem_str_In in M. contradiction.
        + cbn [map all_some fst] in A. destruct (matches_any W patterns nm) as [b|] eqn:Mb; [|discriminate].
          destruct (all_some _) as [bs'|] eqn:B'; [|discriminate]. injection A as <-. cbn [combine filter snd].
          specialize (IHl bs' eq_refl). destruct b; cbn [negb].
          * rewrite IHl. split.
            -- intros [(y' & Hy) R]. split; [exists y'; now right|exact R].
            -- intros [(y' & [Hy|Hy]) [R1 R2]]; [|split; [eauto|auto]]. injection Hy as <- <-. congruence.
          * cbn [map fst In]. rewrite IHl. split.
            -- intros [<-|[(y' & Hy) R]]; [split; [exists y; now left|split; [|exact Mb]]|split; [exists y'; now right|exact R]].
               intro X. apply mem_str_In in X. congruence.
            -- intros [(y' & [Hy|Hy]) R]; [injection Hy as <- <-; now left|right; split; [eauto|exact R]]. }
    rewrite X. rewrite matches_any_false. split.
    + intros (M1 & M2 & M3). eapply see_additionalProperties; eauto; now apply names_of_sub.
    + intro H. sees_inv H. repeat match goal with X : names_of _ _ _ |- _ => apply names_of_sub in X; subst end. auto.
  - (* propertyNames *)
    destruct (sub_of _) as [t|]; [|discriminate]. cbn [obind] in E. destruct (judge_all _ _ _ _) as [os|]; [|discriminate]. cbn [obind] in E.
    apply (Nothing (all_accept os)); [congruence|]. intros p' H. sees_inv H.
  - (* items of 2019-09 *)
    destruct (kw_json k) as [|t|ts|] eqn:Hj; try discriminate.
    + unfold judge_rest in E. destruct (judge_all _ _ _ _) as [os|]; [|discriminate]. injection E as <-. destruct p as [name|m]; cbn [spots o_names].
      * split; [intros []|]. intro H. sees_inv H.
      * rewrite evaluated_only_places, in_seq. split.
        -- intros H. eapply see_items_2019; eauto; lia.
        -- intro H. sees_inv H. lia.
    + unfold judge_pairs in E. destruct (all_some _) as [os|]; [|discriminate]. injection E as <-. destruct p as [name|m]; cbn [spots o_names].
      * split; [intros []|]. intro H. sees_inv H.
      * rewrite evaluated_only_places, in_seq. split.
        -- intros [_ H]. eapply see_prefixItems; eauto; lia.
        -- intro H. sees_inv H. replace ts0 with ts in * by congruence. lia.
  - (* additionalItems *)
    destruct (subs_of (dget (lit "items") kws)) as [ts|] eqn:Hs.
    + destruct (dget (lit "items") kws) as [ki|] eqn:Hi; [|discriminate]. cbn [subs_of obind] in Hs. destruct (kw_json ki) as [| |ts'|] eqn:Hki; try discriminate. injection Hs as ->.
      destruct (sub_of (Some k)) as [t|]; [|discriminate]. cbn [obind] in E.
      unfold judge_rest in E. destruct (judge_all _ _ _ _) as [os|]; [|discriminate]. injection E as <-. destruct p as [name|m]; cbn [spots o_names].
      * split; [intros []|]. intro H. sees_inv H.
      * rewrite evaluated_only_places, in_seq. split.
        -- intros H. eapply see_additionalItems; eauto; lia.
        -- intro H. sees_inv H. replace ki0 with ki in * by congruence. replace ts0 with ts in * by congruence. lia.
    + apply (Nothing true); [congruence|]. intros p' H. sees_inv H.
      match goal with X : dget _ _ = Some ?ki, Y : kw_json ?ki = KSubs _ |- _ => rewrite X in Hs; cbn [subs_of obind] in Hs; rewrite Y in Hs end. discriminate.
Qed.
End Kw.

Lemma late_kw_sees sc kws k c x p : late k = Some c -> KwSees sc kws k x p <->
  match p with
  | Member name => (c = KUnevaluatedProperties \/ c = KUnevaluatedProperties2019) /\ member x name
  | Item n => (c = KUnevaluatedItems \/ c = KUnevaluatedItems2019) /\ n < length (items x)
  end.
Proof.
  unfold late. destruct (kw_class k) as [c'|] eqn:Hc; [|discriminate]. intro L.
  assert (Q : c' = c) by (destruct c'; congruence). subst c'. split.
  - intro H. destruct c; try discriminate L; inversion H; subst; repeat match goal with X : _ \/ _ |- _ => destruct X; subst end; try congruence; auto.
  - destruct p as [name|m]; intros [H1 H2]; [eapply see_unevaluatedProperties|eapply see_unevaluatedItems]; eauto.
Qed.

Lemma late_spots n sc kws s oe k c x lo p : w_schema W s = SObj kws -> (exists key, In (key, k) kws) -> late k = Some c ->
  judge_unevaluated (jd n) sc oe k c x = Some lo ->
  spots oe p \/ spots lo p <-> spots oe p \/ KwSees sc kws k x p.
Proof.
  intros Hs [key Hin] L E. rewrite (late_kw_sees _ _ _ _ _ _ L).
  assert (Hk : kw_class k = Std c) by (unfold late in L; destruct (kw_class k) as [[]|]; congruence).
  pose proof (class_legacy d legacy Hd kws (Hgood _ _ Hs) key k c Hin Hk) as Cl.
  assert (Hn : forall name, c = KUnevaluatedProperties \/ c = KUnevaluatedProperties2019 -> In name (o_names lo) <-> member x name /\ ~ In name (o_names oe)).
  { intros name Hc. assert (E' : obind (sub_of (Some k)) (fun t => judge_members (jd n) sc t (filter (fun kv => negb (mem_str (fst kv) (o_names oe))) (members x))) = Some lo)
      by (destruct Hc as [-> | ->]; exact E). destruct (sub_of (Some k)) as [t|]; [|discriminate]. cbn [obind] in E'. unfold judge_members in E'.
    destruct (judge_all _ _ _ _) as [os|]; [|discriminate]. injection E' as <-. cbn [o_names]. rewrite in_map_iff. split.
    - intros ([nm y] & <- & H). apply filter_In in H. destruct H as [H1 H2]. cbn [fst] in *. split; [now exists y|].
      intro X. apply mem_str_In in X. rewrite X in H2. discriminate.
    - intros [(y & Hy) N]. exists (name, y). split; [reflexivity|]. apply filter_In. split; [exact Hy|]. cbn [fst].
      destruct (mem_str name (o_names oe)) eqn:M; [|reflexivity]. apply mem_str_In in M. contradiction. }
  assert (Hi : forall m, c = KUnevaluatedItems \/ c = KUnevaluatedItems2019 ->
                 In m (evaluated_at legacy lo) <-> m < length (items x) /\ ~ In m (evaluated_at legacy oe)).
  { intros m Hc. assert (E' : obind (sub_of (Some k)) (fun t =>
        let left := filter (fun n => negb (existsb (Nat.eqb n) (evaluated_at legacy oe))) (seq 0 (length (items x))) in
        obind (judge_all (jd n) sc t (map (fun n => nth n (items x) JNull) left)) (fun os => Some (mkO (all_accept os) [] left []))) = Some lo).
    { unfold evaluated_at. destruct Hc as [-> | ->]; cbn [modern older] in Cl; destruct (bool_dec legacy true) as [Lg|Lg];
        try (rewrite Lg in Cl; discriminate Cl); try (apply not_true_is_false in Lg; rewrite Lg in Cl; discriminate Cl);
        try (apply not_true_is_false in Lg); rewrite Lg; exact E. }
    destruct (sub_of (Some k)) as [t|]; [|discriminate]. cbn [obind] in E'. cbv zeta in E'.
    destruct (judge_all _ _ _ _) as [os|]; [|discriminate]. cbn [obind] in E'. injection E' as <-. rewrite evaluated_only_places, filter_In, in_seq, negb_true_iff, <- not_true_iff_false, existsb_exists.
    split.
    - intros [H1 H2]. split; [lia|]. intro X. apply H2. exists m. split; [exact X|apply Nat.eqb_refl].
    - intros [H1 H2]. split; [lia|]. intros (m' & X & Q). apply Nat.eqb_eq in Q. subst m'. contradiction. }
  assert (Ni : c = KUnevaluatedProperties \/ c = KUnevaluatedProperties2019 -> forall m, ~ In m (evaluated_at legacy lo)).
  { intros Hc m. assert (E' : obind (sub_of (Some k)) (fun t => judge_members (jd n) sc t (filter (fun kv => negb (mem_str (fst kv) (o_names oe))) (members x))) = Some lo)
      by (destruct Hc as [-> | ->]; exact E). destruct (sub_of (Some k)) as [t|]; [|discriminate]. cbn [obind] in E'. unfold judge_members in E'.
    destruct (judge_all _ _ _ _) as [os|]; [|discriminate]. injection E' as <-. rewrite evaluated_only_places. intros []. }
  assert (Nn : c = KUnevaluatedItems \/ c = KUnevaluatedItems2019 -> forall name, ~ In name (o_names lo)).
  { intros Hc name X. destruct Hc as [-> | ->]; cbn [judge_unevaluated] in E; (destruct (sub_of (Some k)) as [t|]; [|discriminate]); cbn [obind] in E;
      (destruct (judge_all _ _ _ _) as [os|]; [|discriminate]); cbn [obind] in E; injection E as <-; exact X. }
  assert (Cs : (c = KUnevaluatedProperties \/ c = KUnevaluatedProperties2019) \/ (c = KUnevaluatedItems \/ c = KUnevaluatedItems2019)).
  { unfold late in L. rewrite Hk in L. destruct c; try discriminate L; auto. }
  destruct p as [name|m]; cbn [spots].
  - destruct Cs as [Cs|Cs].
    + rewrite (Hn name Cs). destruct (In_dec (list_eq_dec N.eq_dec) name (o_names oe)); tauto.
    + pose proof (Nn Cs name). assert (~ (c = KUnevaluatedProperties \/ c = KUnevaluatedProperties2019)) by (destruct Cs as [-> | ->]; intros [X|X]; discriminate). tauto.
  - destruct Cs as [Cs|Cs].
    + pose proof (Ni Cs m). assert (~ (c = KUnevaluatedItems \/ c = KUnevaluatedItems2019)) by (destruct Cs as [-> | ->]; intros [X|X]; discriminate). tauto.
    + rewrite (Hi m Cs). destruct (In_dec Nat.eq_dec m (evaluated_at legacy oe)); tauto.
Qed.

Lemma all_some_map {A B} (f : A -> option B) l os : all_some (map f l) = Some os -> forall a, In a l -> exists b, f a = Some b /\ In b os.
Proof.
  revert os. induction l as [|c l IHl]; intros os E a Ha; [destruct Ha|]. cbn [map all_some] in E. destruct (f c) as [b|] eqn:F; [|discriminate].
  destruct (all_some (map f l)) as [bs|]; [|discriminate]. injection E as <-. destruct Ha as [<-|Ha]; [exists b; split; [exact F|now left]|].
  destruct (IHl _ eq_refl a Ha) as (b' & F' & H'). exists b'. split; [exact F'|now right].
Qed.

Theorem judge_sees n : forall sc s x o p, jd n sc s x = Some o -> spots o p <-> Sees sc s x p.
Proof.
  induction n as [|n IH]; intros sc s x o p E; [discriminate|].
  assert (Acc : forall b, o_ok o = b -> Sees sc s x p -> b = true).
  { intros b <- S. destruct (sees_accepts _ _ _ _ S) as (m & o' & J & V). now rewrite (judge_unique _ _ _ _ _ _ _ _ _ E J). }
  assert (Ok1 : accepts W sc s x (o_ok o)) by (exists (S n), o; auto).
  cbn [judge] in E. destruct (w_schema W s) as [b|kws] eqn:Hs.
  - injection E as <-. split; [intro H; destruct (spots_plain _ _ H)|]. intro H. inversion H; subst. congruence.
  - unfold judge_object in E. cbv zeta in E. fold (early_part x kws) in E. destruct (conclude (map _ (early_part x kws))) as [oe|] eqn:Ce; [|discriminate].
    assert (PlainFalse : o_ok o = false -> o = plain false -> spots o p <-> Sees sc s x p).
    { intros O ->. split; [intro H; destruct (spots_plain _ _ H)|]. intro H. specialize (Acc _ eq_refl H). discriminate. }
    assert (Con : forall l oo, conclude l = Some oo -> o_ok oo = false -> oo = plain false).
    { intros l oo H H0. unfold conclude in H. destruct (existsb rejects l); [congruence|]. destruct (all_some l); [|discriminate]. injection H as <-. discriminate. }
    destruct (o_ok oe) eqn:Oe; [|injection E as ->; apply (PlainFalse Oe), (Con _ _ Ce Oe)].
    destruct (o_ok o) eqn:O; [|apply (PlainFalse eq_refl), (Con _ _ E O)].
    destruct (conclude_inv _ _ Ce Oe) as (os & A & Aok & ->). destruct (conclude_inv _ _ E O) as (los & B & Bok & ->).
    cbn [all_some] in B. destruct (all_some (flat_map _ _)) as [los'|] eqn:B'; [|discriminate]. injection B as <-.
    set (oe := gather true os) in *. set (lates := filter (concerns x) (map snd kws)) in *.
    assert (InK : forall k, In k lates <-> exists key, In (key, k) kws /\ concerns x k = true).
    { intro k. unfold lates. rewrite filter_In, in_map_iff. split.
      - intros [([key k'] & <- & H) C]. eauto.
      - intros (key & H & C). split; [exists (key, k); auto|exact C]. }
    assert (Early : spots oe p <-> exists k, In k (early_part x kws) /\ KwSees (s :: sc) kws k x p).
    { unfold oe. rewrite spots_gather. split.
      - intros (ko & Hko & _ & P). apply (all_some_In _ _ A) in Hko. apply in_map_iff in Hko. destruct Hko as (k & J & Hk). exists k. split; [exact Hk|].
        apply (kw_spots n IH _ _ _ _ ko p J); [|exact P]. unfold early_part in Hk. apply filter_In in Hk. destruct Hk as [_ Hk]. now destruct (late k).
      - intros (k & Hk & P). destruct (all_some_map _ _ _ A k Hk) as (ko & J & Hko). exists ko. split; [exact Hko|]. split; [now apply Aok|].
        apply (kw_spots n IH _ _ _ _ ko p J); [|exact P]. unfold early_part in Hk. apply filter_In in Hk. destruct Hk as [_ Hk]. now destruct (late k). }
    rewrite spots_gather. split.
    + intros (ko & Hko & _ & P). destruct Hko as [<-|Hko].
      * apply Early in P. destruct P as (k & Hk & P). unfold early_part in Hk. apply filter_In in Hk. destruct Hk as [Hk _].
        apply InK in Hk. destruct Hk as (key & Hk & C). econstructor; eauto.
      * apply (all_some_In _ _ B') in Hko. apply in_flat_map in Hko. destruct Hko as (k & Hk & Hko). destruct (late k) as [c|] eqn:L; [|destruct Hko].
        destruct Hko as [J|[]]. apply InK in Hk. destruct Hk as (key & Hk & C).
        destruct (proj1 (late_spots n (s :: sc) kws s oe k c x ko p Hs (ex_intro _ key Hk) L J) (or_intror P)) as [Q|Q].
        -- apply Early in Q. destruct Q as (k' & Hk' & Q). unfold early_part in Hk'. apply filter_In in Hk'. destruct Hk' as [Hk' _].
           apply InK in Hk'. destruct Hk' as (key' & Hk' & C'). econstructor; eauto.
        -- econstructor; eauto.
    + intro S. inversion S; subst. replace kws0 with kws in * by congruence. destruct (late k) as [c|] eqn:L.
      * assert (Hk : In k lates) by (apply InK; eauto).
        assert (X : exists lo, judge_unevaluated (jd n) (s :: sc) oe k c x = Some lo /\ In lo los').
        { assert (Hin : In (judge_unevaluated (jd n) (s :: sc) oe k c x) (flat_map (fun k => match late k with
              Some c => [judge_unevaluated (jd n) (s :: sc) oe k c x] | None => [] end) lates)).
          { apply in_flat_map. exists k. split; [exact Hk|]. rewrite L. now left. }
          destruct (judge_unevaluated (jd n) (s :: sc) oe k c x) as [lo|] eqn:J.
          - exists lo. split; [reflexivity|]. now apply (all_some_In _ _ B').
          - exfalso. clear - B' Hin. revert los' B'. induction (flat_map _ lates) as [|[b|] l' IHl]; intros los' B'; [destruct Hin| |discriminate].
            cbn [all_some] in B'. destruct Hin as [Hn|Hn]; [discriminate|]. destruct (all_some l') as [ys|]; [|discriminate]. exact (IHl Hn ys eq_refl). }
        destruct X as (lo & J & Hlo).
        destruct (proj2 (late_spots n (s :: sc) kws s oe k c x lo p Hs (ex_intro _ key H1) L J) (or_intror H3)) as [Q|Q].
        -- exists oe. split; [now left|]. split; [reflexivity|exact Q].
        -- exists lo. split; [now right|]. split; [apply Bok; now right|exact Q].
      * exists oe. split; [now left|]. split; [reflexivity|]. apply Early. exists k. split; [|assumption].
        unfold early_part. apply filter_In. split; [apply InK; eauto|now rewrite L].
Qed.

(** What an object with unevaluated keywords accepts. *)
Theorem law_unevaluated sc s kws x : w_schema W s = SObj kws ->
  (forall key k c, In (key, k) kws -> concerns x k = true -> late k = Some c -> exists t, kw_json k = KSub t) ->
  accepts W sc s x true <->
  (forall key k, In (key, k) kws -> concerns x k = true -> late k = None -> kw_accepts W (s :: sc) kws k x true) /\
  (forall key k c t, In (key, k) kws -> concerns x k = true -> late k = Some c -> kw_json k = KSub t ->
     match c with
     | KUnevaluatedProperties | KUnevaluatedProperties2019 =>
         forall name y, In (name, y) (members x) -> ~ seen_first W legacy (s :: sc) kws x (Member name) -> accepts W (s :: sc) t y true
     | _ =>
         forall n y, nth_error (items x) n = Some y -> ~ seen_first W legacy (s :: sc) kws x (Item n) -> accepts W (s :: sc) t y true
     end).
Proof.
  intros Hs Sub. rewrite (law_object_late W sc s kws x Hs).
  assert (InK : forall k, In k (early_part x kws) <-> exists key, In (key, k) kws /\ concerns x k = true /\ late k = None).
  { intro k. unfold early_part. rewrite !filter_In, in_map_iff. split.
    - intros [[([key k'] & <- & H) C] L]. exists key. cbn [snd] in *. destruct (late k'); [discriminate|]. auto.
    - intros (key & H & C & L). rewrite L. split; [split; [exists (key, k); auto|exact C]|reflexivity]. }
  assert (Sp : forall os, Forall2 (fun k o => kw_gives W (s :: sc) kws x k o) (early_part x kws) os -> all_accept os = true ->
            forall p, spots (gather true os) p <-> seen_first W legacy (s :: sc) kws x p).
  { intros os F V p. rewrite spots_gather. unfold all_accept in V. rewrite forallb_forall in V. split.
    - intros (o & Ho & _ & P). assert (X : exists k, In k (early_part x kws) /\ kw_gives W (s :: sc) kws x k o).
      { clear - F Ho. induction F; [destruct Ho|]. destruct Ho as [<-|Ho]; [eexists; split; [now left|eassumption]|].
        destruct (IHF Ho) as (k & Hk & G). exists k. split; [now right|exact G]. }
      destruct X as (k & Hk & n & J). apply InK in Hk. destruct Hk as (key & Hk & C & L). exists key, k. repeat (split; [assumption|]).
      apply (kw_spots n (judge_sees n) _ _ _ _ _ _ J L). exact P.
    - intros (key & k & Hk & C & L & P). assert (Hk' : In k (early_part x kws)) by (apply InK; eauto).
      assert (X : exists o, In o os /\ kw_gives W (s :: sc) kws x k o).
      { clear - F Hk'. induction F; [destruct Hk'|]. destruct Hk' as [<-|Hk']; [eexists; split; [now left|eassumption]|].
        destruct (IHF Hk') as (o & Ho & G). exists o. split; [now right|exact G]. }
      destruct X as (o & Ho & n & J). exists o. split; [exact Ho|]. split; [now apply V|].
      apply (kw_spots n (judge_sees n) _ _ _ _ _ _ J L). exact P. }
  assert (Ea : (exists os, Forall2 (fun k o => kw_gives W (s :: sc) kws x k o) (early_part x kws) os /\ all_accept os = true) <->
     (forall key k, In (key, k) kws -> concerns x k = true -> late k = None -> kw_accepts W (s :: sc) kws k x true)).
  { rewrite (Forall2_accepts _ (fun k b => kw_accepts W (s :: sc) kws k x b)).
    - split; [intros H key k Hk C L; apply H, InK; eauto|]. intros H k Hk. apply InK in Hk. destruct Hk as (key & Hk & C & L). eauto.
    - intros k b. split; [intros (n & o & H & V); exists o; split; [now exists n|exact V]|intros (o & [n H] & V); now exists n, o]. }
  assert (La : forall os, Forall2 (fun k o => kw_gives W (s :: sc) kws x k o) (early_part x kws) os -> all_accept os = true ->
     forall key k c t, In (key, k) kws -> late k = Some c -> kw_json k = KSub t ->
     late_accepts W (s :: sc) (gather true os) k c x <->
     match c with
     | KUnevaluatedProperties | KUnevaluatedProperties2019 =>
         forall name y, In (name, y) (members x) -> ~ seen_first W legacy (s :: sc) kws x (Member name) -> accepts W (s :: sc) t y true
     | _ =>
         forall n y, nth_error (items x) n = Some y -> ~ seen_first W legacy (s :: sc) kws x (Item n) -> accepts W (s :: sc) t y true
     end).
  { intros os F V key k c t Hk L Hj. pose proof (Sp os F V) as P. clear Sp.
    assert (Hc : kw_class k = Std c) by (unfold late in L; destruct (kw_class k) as [[]|]; congruence).
    pose proof (class_legacy d legacy Hd kws (Hgood _ _ Hs) key k c Hk Hc) as Cl.
    assert (Pr : c = KUnevaluatedProperties \/ c = KUnevaluatedProperties2019 -> late_accepts W (s :: sc) (gather true os) k c x <->
      (forall name y, In (name, y) (members x) -> ~ seen_first W legacy (s :: sc) kws x (Member name) -> accepts W (s :: sc) t y true)).
    { intro Q. rewrite (law_unevaluatedProperties W _ _ _ _ _ _ Hj Q). split; intros H name y Hy N; apply (H name y Hy); intro S; apply N; now apply (P (Member name)). }
    assert (It : c = KUnevaluatedItems \/ c = KUnevaluatedItems2019 -> late_accepts W (s :: sc) (gather true os) k c x <->
      (forall n y, nth_error (items x) n = Some y -> ~ seen_first W legacy (s :: sc) kws x (Item n) -> accepts W (s :: sc) t y true)).
    { intro Q. rewrite (law_unevaluatedItems W _ _ _ _ _ _ Hj Q).
      assert (Ev : forall n, In n (evaluated_at legacy (gather true os)) <-> In n (o_places (gather true os)) \/ (c = KUnevaluatedItems /\ In n (o_found (gather true os)))).
      { intro n. unfold evaluated_at. destruct Q as [-> | ->]; cbn [modern older] in Cl; destruct legacy; try discriminate Cl.
        - rewrite in_app_iff. tauto.
        - intuition congruence. }
      split; intros H n y Hy.
      - intro N. apply (H n y Hy); [intro S|intros Qc S]; apply N, (P (Item n)), Ev; [now left|right; auto].
      - intros N1 N2. apply (H n y Hy). intro S. apply (P (Item n)) in S. apply Ev in S. destruct S as [S|[Qc S]]; [exact (N1 S)|exact (N2 Qc S)]. }
    assert (Cs : (c = KUnevaluatedProperties \/ c = KUnevaluatedProperties2019) \/ (c = KUnevaluatedItems \/ c = KUnevaluatedItems2019)).
    { unfold late in L. rewrite Hc in L. destruct c; try discriminate L; auto. }
    destruct Cs as [Cs|Cs]; [specialize (Pr Cs)|specialize (It Cs)]; destruct Cs as [-> | ->]; assumption. }
  rewrite <- Ea. split.
  - intros (os & F & V & H). split; [eauto|]. intros key k c t Hk C L Hj. apply (La os F V key k c t Hk L Hj). exact (H key k c Hk C L).
  - intros ((os & F & V) & H). exists os. split; [exact F|]. split; [exact V|]. intros key k c Hk C L. destruct (Sub key k c Hk C L) as [t Hj].
    apply (La os F V key k c t Hk L Hj). exact (H key k c t Hk C L Hj).
Qed.
End Seen.
