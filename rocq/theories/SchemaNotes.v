(** The annotations that depend on the siblings of a keyword. *)
From Coq Require Import List Lia Sorting.Sorted.
From Verif Require Export SpecNotes SchemaErrors.
Import ListNotations.
Open Scope nat_scope.

Lemma min_sibling W v i parent c parent' c' : e_minContains W v i parent c = Ok (parent', c') ->
  parent' = parent \/ exists cc, sibling parent i (lit "contains") = Some cc /\ parent' = put_child parent (lit "contains") i (pass_ cc).
Proof.
  unfold e_minContains. generalize (lit "contains"). intro ck. generalize (lit "maxContains"). intro mk.
  destruct (sibling parent i ck) as [kc|] eqn:S0.
  2: { intro E. apply ok_inj in E. pose proof (f_equal fst E) as E1. cbn [fst] in E1. auto. }
  destruct (if is_null (r_annot kc) then Ok 0 else annot_len (r_annot kc)) as [n| |]; cbn [bind]; try discriminate.
  destruct (num_of v) as [y|]; [|discriminate]. cbv zeta.
  destruct (tell _ _ _) as [r| |] eqn:T; cbn [bind]; try discriminate. intro E. apply ok_inj in E. pose proof (f_equal fst E) as E1. cbn [fst] in E1. subst parent'.
  destruct (num_leb y (len_num n) && negb (r_valid kc)); [|now left].
  destruct (sibling parent i mk) as [m|]; [destruct (r_valid m)|]; eauto.
Qed.

Section Notes.
Variable W : world.
Variable d : list stdclass.
Variable legacy : bool.
Variable ev : sid -> inst -> list sid -> rnode -> res rnode.
Variable jd : list sid -> sid -> json -> option outcome.
Hypothesis Hsim : sim W legacy ev jd.
Hypothesis Hd : dialect legacy d.
Variable s : sid.
Variable kws : list (pystr * keyword).
Hypothesis Hkws : w_schema W s = SObj kws.
Hypothesis Hgood : good_schema d kws.
Variable anck sc : list sid.
Hypothesis Hst : stutter (s :: anck) sc.
Variable i : inst.
Hypothesis Hw : jwf (i_val i) = true.
Notation p := (i_path i).
Notation x := (i_val i).
Notation fresh := (fresh W s i).
Notation says := (says jd sc).
Notation jots := (jots W says kws).
Notation siblings_ok := (siblings_ok W legacy jd s kws sc i).

Lemma items_jots start t c0 c : e_items_from ev start t i anck c0 = Ok c -> r_valid c = true -> r_annot c = items_beyond start x.
Proof using.
  unfold e_items_from. intros H V. runs H. destruct a as [r bs].
  assert (L : length bs = length (items x) - start).
  { assert (G : forall l c1 r1 bs1, each ev t anck l c1 = Ok (r1, bs1) -> length bs1 = length l).
    { induction l as [|j l IH]; intros c1 r1 bs1 X; cbn [each] in X; [apply ok_inj in X; now inversion X|]. runs X. runs X. destruct a0 as [r2 bs2]. apply ok_inj in X.
      pose proof (f_equal snd X) as Q. cbn [snd] in Q. subst bs1. cbn [length]. f_equal. exact (IH _ _ _ E1). }
    rewrite (G _ _ _ _ E), skipn_length, items_of_length. reflexivity. }
  apply ok_inj in H. unfold items_beyond. destruct (positions false start bs); subst c; [|discriminate V]. cbn [annotate r_annot].
  destruct bs as [|b bs]; cbn [length] in L; destruct (Nat.ltb_spec start (length (items x))); try reflexivity; lia.
Qed.

Lemma properties_jots v0 mn k t parent c0 c : siblings_ok v0 mn k parent -> kw_class k = Std KAdditionalProperties ->
  existsb (jtype_eqb (type_of x)) (std_types KProperties) = true ->
  e_additionalProperties W ev t i anck parent c0 = Ok c -> r_valid c = true -> r_annot c = names (map fst (left_over W kws x)).
Proof.
  intros HS C T H V. unfold e_additionalProperties in H. runs H. runs H. runs H.
  assert (H1 : a = names_under (subm_of (dget (lit "properties") kws))).
  { apply (sibling_names_spec W s i parent (lit "properties") a); [|exact E].
    apply (known_names W d legacy jd s kws Hgood sc i v0 mn k parent _ KProperties HS); [rewrite C; now left|exact (find_properties W d legacy ev jd Hsim Hd kws Hgood)|exact I|exact T]. }
  assert (H2 : a0 = names_under (subm_of (dget (lit "patternProperties") kws))).
  { apply (sibling_names_spec W s i parent (lit "patternProperties") a0); [|exact E0].
    apply (known_names W d legacy jd s kws Hgood sc i v0 mn k parent _ KPatternProperties HS); [rewrite C; right; now left|exact (find_patterns W d legacy ev jd Hsim Hd kws Hgood)|exact I|exact T]. }
  pose proof (SchemaKw.additional_spec W _ _ _ _ E1) as AS. cbn zeta in AS. destruct AS as (bs & A1 & A2). rewrite (unmatched W _ _ _ A1), filter_filter in A2.
  set (f := fun n => negb (mem_str n a) && negb (existsb (fun r => match w_search W r n with Some b => b | None => false end) a0)).
  change (a1 = filter (fun ni => f (fst ni)) (members_of i)) in A2.
  rewrite (members_notes ev _ _ _ _ _ H V), A2. f_equal.
  pose proof (members_filter f (members_of i)) as MF. rewrite members_of_vals in MF.
  unfold left_over. cbn zeta. rewrite <- H1, <- H2. 
  transitivity (map fst (filter (fun kv : pystr * json => f (fst kv)) (members x))); [|f_equal; apply filter_ext; intro kv; reflexivity].
  rewrite <- MF, map_map. reflexivity.
Qed.

Lemma additionalItems_jots v0 mn key k t parent c0 c : In (key, k) kws -> kw_class k = Std KAdditionalItems -> concerns x k = true ->
  siblings_ok v0 mn k parent -> 
  e_additionalItems ev t i anck parent c0 = Ok c -> r_valid c = true -> r_discard c = false ->
  exists ts, subs_of (dget (lit "items") kws) = Some ts /\ r_annot c = items_beyond (length ts) x.
Proof.
  intros HIn C A HS E V Dc.
  assert (Hl : legacy = true) by (pose proof (class_legacy d legacy Hd kws Hgood _ _ _ HIn C) as X; destruct legacy; [reflexivity|discriminate X]).
  assert (T : existsb (jtype_eqb (type_of x)) (std_types KItems2019) = true).
  { unfold concerns in A. rewrite C in A. exact A. }
  assert (Hdp : In (lit "items") (depends_on (kw_class k))) by (rewrite C; now left).
  pose proof (find_items W d legacy ev jd Hsim Hd kws Hgood Hl) as FI.
  pose proof (present_sibling W d legacy jd s kws Hgood sc i v0 mn k parent _ KItems2019 HS Hdp FI eq_refl eq_refl eq_refl T) as HP.
  destruct (dget (lit "items") kws) as [k'|] eqn:G.
  2: { unfold e_additionalItems in E. rewrite HP in E. apply ok_inj in E. subst c. discriminate Dc. }
  destruct HP as (n & ko & Hs & J' & K & Ex). apply (dget_kws d kws Hgood) in G. pose proof (class_found d kws Hgood _ _ _ G FI) as C'.
  unfold extra in Ex. rewrite C' in Ex. destruct Ex as [X1 X2]. cbn [subs_of obind]. unfold e_additionalItems in E. rewrite Hs in E.
  unfold code_keyword in J'. rewrite C' in J'. cbn [code_std] in J'.
  destruct (kw_json k') as [v|t'|ts|m] eqn:Kj'; try discriminate J'.
  { destruct X1 as [X1|X1]; rewrite X1 in E; apply ok_inj in E; subst c; discriminate Dc. }
  exists ts. split; [reflexivity|]. destruct (o_ok ko) eqn:Ok0.
  2: { rewrite (X2 eq_refl) in E. apply ok_inj in E. subst c. discriminate Dc. }
  destruct (X1 eq_refl) as [[W0 An]|[W0 An]]; rewrite An in E.
  { apply ok_inj in E. subst c. discriminate Dc. }
  assert (Ht : ts <> []).
  { pose proof (kws_value d kws Hgood _ _ G) as Vo. unfold value_ok in Vo. rewrite C', Kj' in Vo. destruct ts; [|discriminate]. now rewrite andb_false_r in Vo. }
  assert (L : 0 < length ts) by (destruct ts; [congruence|cbn; lia]). unfold jint in E.
  replace (Z.to_nat (Z.of_nat (Nat.pred (Nat.min (length ts) (width i))) + 1)) with (Nat.min (length ts) (length (items x))) in E by (unfold width in *; lia).
  rewrite (items_jots _ _ _ _ E V). unfold items_beyond.
  destruct (Nat.ltb_spec (Nat.min (length ts) (length (items x))) (length (items x))), (Nat.ltb_spec (length ts) (length (items x))); try reflexivity; lia.
Qed.

Lemma std_jots v0 mn key k cl parent c0 c : In (key, k) kws -> kw_class k = Std cl -> fresh key (kw_json k) c0 -> concerns x k = true ->
  siblings_ok v0 mn k parent ->
  eval_std W ev k cl i anck parent c0 = Ok c -> r_discard c = false -> jots k x (r_valid c) (r_annot c).
Proof.
  intros HIn C F A HS H Dc. unfold SpecNotes.jots. rewrite C.
  destruct cl; try exact I; cbn [eval_std] in H; apply with_sub_inv in H; destruct H as (t & Kj & H); rewrite Kj in *.
  - intro V.
    assert (Hl : legacy = false) by (pose proof (class_legacy d legacy Hd kws Hgood _ _ _ HIn C) as X; destruct legacy; [discriminate X|reflexivity]).
    assert (T : existsb (jtype_eqb (type_of x)) (std_types KPrefixItems) = true) by (unfold concerns in A; rewrite C in A; exact A).
    pose proof (prefix_start W d legacy ev jd Hsim Hd s kws Hgood sc i v0 mn k parent HS C Hl T) as HP. unfold e_items in H.
    destruct (subs_of (dget (lit "prefixItems") kws)) as [l|].
    + destruct HP as (n & Hs & _ & Hn). rewrite Hs in H. runs H. destruct (Hn a E) as [->|(w & ->)]; [|discriminate]. cbn [sn_of] in H.
      exact (items_jots _ _ _ _ H V).
    + rewrite HP in H. exact (items_jots _ _ _ _ H V).
  - unfold e_contains in H. runs H. destruct a as [r bs].
    destruct (each_error W legacy ev jd Hsim s anck sc Hst i key (KSub t) t c0 (items_of i) r bs F (or_introl eq_refl) (items_below i Hw) (items_of_distinct i) E) as [Vr S].
    rewrite items_of_vals in S. exists bs. split; [exact S|]. apply ok_inj in H. rewrite <- positions_numbered. subst c.
    destruct (positions true 0 bs); reflexivity.
  - intro V. assert (T : existsb (jtype_eqb (type_of x)) (std_types KProperties) = true) by (unfold concerns in A; rewrite C in A; exact A).
    exact (properties_jots v0 mn k t parent c0 c HS C T H V).
  - intro V. exact (additionalItems_jots v0 mn key k t parent c0 c HIn C A HS H V Dc).
Qed.

Lemma each_deeper key t c0 l r bs : fresh key (KSub t) c0 ->
  Forall (fun j => (exists y, i_path j = p ++ [y]) /\ jwf (i_val j) = true) l -> NoDup (map i_path l) ->
  each ev t anck l c0 = Ok (r, bs) -> Forall (deeper p) (r_children r).
Proof.
  intros F Hl Hn E. destruct (kw_each W legacy ev jd Hsim s anck sc Hst i key (KSub t) t c0 l r bs F (or_introl eq_refl) Hl Hn E) as (os & _ & _ & _ & _ & D). exact D.
Qed.

Lemma late_deeper key k cl parent c0 c : kw_class k = Std cl -> late k <> None -> fresh key (kw_json k) c0 ->
  eval_std W ev k cl i anck parent c0 = Ok c -> r_discard c = false -> Forall (deeper p) (r_children c).
Proof.
  intros C La F H Dc. unfold late in La. rewrite C in La.
  assert (It : forall t last skip, fresh key (KSub t) c0 -> e_unevaluated_from ev last skip t i anck c0 = Ok c -> Forall (deeper p) (r_children c)).
  { intros t last skip Ft X. unfold e_unevaluated_from in X. runs X. destruct a as [r bs]. apply ok_inj in X.
    assert (D : Forall (deeper p) (r_children r)).
    { refine (each_deeper key t c0 _ r bs Ft _ _ E).
      - pose proof (Forall_skipn _ (Z.to_nat (last + 1)) _ (items_below i Hw)) as FS. rewrite Forall_forall in FS |- *. intros j Hj. apply FS.
        exact (unskipped_snd skip _ _ j Hj).
      - apply unskipped_NoDup. rewrite <- skipn_map. apply NoDup_skipn, items_of_distinct. }
    destruct (failing _ _ bs); subst c; exact D. }
  assert (Mb : forall t, fresh key (KSub t) c0 -> e_unevaluatedProperties ev t i anck parent c0 = Ok c -> Forall (deeper p) (r_children c)).
  { intros t Ft X. unfold e_unevaluatedProperties in X. runs X. runs X. runs X. runs X.
    set (f := fun n => negb (mem_json (JStr n) (a ++ a0 ++ a1 ++ a2))). change (e_members ev (filter (fun ni => f (fst ni)) (members_of i)) t anck c0 = Ok c) in X.
    destruct (todo_filter i Hw f) as [T1 T2]. unfold e_members in X. runs X. destruct a3 as [r bs]. apply ok_inj in X.
    set (todo := filter (fun ni : pystr * inst => f (fst ni)) (members_of i)) in *.
    assert (D : Forall (deeper p) (r_children r)).
    { refine (each_deeper key t c0 _ r bs Ft _ _ E3).
      - apply Forall_map. revert T1. apply Forall_impl. intros ni [H1 H2]. split; [eexists; exact H1|exact H2].
      - assert (Hp : map i_path (map snd todo) = map (fun n => p ++ [n]) (map fst todo)).
        { rewrite !map_map. apply map_ext_in. intros ni Hn. rewrite Forall_forall in T1. apply (T1 ni Hn). }
        rewrite Hp. apply FinFun.Injective_map_NoDup; [|exact T2]. intros u v Q. apply app_inv_head in Q. congruence. }
    destruct (failing _ _ bs); subst c; exact D. }
  destruct cl; try congruence; cbn [eval_std] in H; apply with_sub_inv in H; destruct H as (t & Kj & H); rewrite Kj in F.
  - unfold e_unevaluatedItems in H. runs H. destruct a as [last|]; [|apply ok_inj in H; subst c; discriminate Dc].
    destruct (_ || _); [apply ok_inj in H; subst c; discriminate Dc|]. runs H. exact (It t last a F H).
  - exact (Mb t F H).
  - unfold e_unevaluatedItems_2019 in H. destruct (last_evaluated_2019 _ _) as [last|]; [|apply ok_inj in H; subst c; discriminate Dc].
    destruct (_ || _); [apply ok_inj in H; subst c; discriminate Dc|]. exact (It t last [] F H).
  - exact (Mb t F H).
Qed.

(** What the unevaluated keywords look at, in terms of what the nodes beside them say. *)
Lemma unevaluated_names t parent c0 c : r_annot parent = JNull -> r_discard parent = false -> r_valid parent = true ->
  e_unevaluatedProperties ev t i anck parent c0 = Ok c ->
  forall evl, (forall n, In n evl <-> some (CName p n) (r_children parent)) ->
  e_members ev (filter (fun ni => negb (mem_str (fst ni) evl)) (members_of i)) t anck c0 = Ok c.
Proof using legacy.
  intros N D V E evl He. unfold e_unevaluatedProperties in E.
  destruct (union_annots (collect_annotations _ (Some (lit "properties")) _)) as [la| |] eqn:Ea; cbn [bind] in E; try discriminate.
  destruct (union_annots (collect_annotations _ (Some (lit "patternProperties")) _)) as [lb| |] eqn:Eb; cbn [bind] in E; try discriminate.
  destruct (union_annots (collect_annotations _ (Some (lit "additionalProperties")) _)) as [lc| |] eqn:Ec; cbn [bind] in E; try discriminate.
  destruct (union_annots (collect_annotations _ (Some (lit "unevaluatedProperties")) _)) as [ld| |] eqn:Ed; cbn [bind] in E; try discriminate.
  set (ev' := la ++ lb ++ lc ++ ld) in *.
  assert (Ha : In (lit "properties") name_keys) by (cbn [name_keys In]; tauto).
  assert (Hb : In (lit "patternProperties") name_keys) by (cbn [name_keys In]; tauto).
  assert (Hc : In (lit "additionalProperties") name_keys) by (cbn [name_keys In]; tauto).
  assert (Hd' : In (lit "unevaluatedProperties") name_keys) by (cbn [name_keys In]; tauto).
  destruct (collect_parent legacy i parent _ N D (read_name legacy _ Ha)) as [_ Ca2].
  destruct (collect_parent legacy i parent _ N D (read_name legacy _ Hb)) as [_ Cb2].
  destruct (collect_parent legacy i parent _ N D (read_name legacy _ Hc)) as [_ Cc2].
  destruct (collect_parent legacy i parent _ N D (read_name legacy _ Hd')) as [_ Cd2].
  assert (Q : forall n, mem_json (JStr n) ev' = mem_str n evl).
  { intro n. apply eq_true_iff_eq. rewrite mem_str_In, He. unfold ev'. rewrite !mem_json_app, !orb_true_iff.
    rewrite (union_annots_mem _ _ _ Ea), (union_annots_mem _ _ _ Eb), (union_annots_mem _ _ _ Ec), (union_annots_mem _ _ _ Ed). split.
    - intros [(b & H1 & H2)|[(b & H1 & H2)|[(b & H1 & H2)|(b & H1 & H2)]]];
        [apply (Ca2 V) in H1|apply (Cb2 V) in H1|apply (Cc2 V) in H1|apply (Cd2 V) in H1];
        destruct H1 as (kc & Hin & H1); exists kc; (split; [exact Hin|]); eexists _, b; (split; [|split; [exact H1|exact H2]]); assumption.
    - intros (kc & Hin & key' & b & Hk' & H1 & H2). unfold name_keys in Hk'. cbn [In] in Hk'. destruct Hk' as [<-|[<-|[<-|[<-|[]]]]].
      + left. exists b. split; [|exact H2]. apply (Ca2 V). exists kc. now split.
      + right. left. exists b. split; [|exact H2]. apply (Cb2 V). exists kc. now split.
      + right. right. left. exists b. split; [|exact H2]. apply (Cc2 V). exists kc. now split.
      + right. right. right. exists b. split; [|exact H2]. apply (Cd2 V). exists kc. now split. }
  rewrite <- E. f_equal. apply filter_ext. intro ni. now rewrite Q.
Qed.

Definition covers (last : Z) (skip : list json) (evl : list nat) : Prop :=
  forall k, k < width i -> (In k evl <-> ((Z.of_nat k <=? last)%Z || mem_json (jint k) skip) = true).

Lemma covers_from parent last skip evl : r_annot parent = JNull -> r_discard parent = false -> r_valid parent = true ->
  ~ In (JBool true) (collect_annotations (Some p) (Some (tuple_key legacy)) parent) ->
  ~ In (JBool true) (collect_annotations (Some p) (Some (rest_key legacy)) parent) ->
  ~ In (JBool true) (collect_annotations (Some p) (Some (lit "unevaluatedItems")) parent) ->
  (forall y, In (JNum (NInt y)) (collect_annotations (Some p) (Some (tuple_key legacy)) parent) -> (y <= last)%Z) ->
  last = (-1)%Z \/ In (JNum (NInt last)) (collect_annotations (Some p) (Some (tuple_key legacy)) parent) ->
  (forall k, mem_json (jint k) skip = true <->
     legacy = false /\ exists b, In (JArr b) (collect_annotations (Some p) (Some (lit "contains")) parent) /\ mem_json (jint k) b = true) ->
  (forall k, k < width i -> (In k evl <-> some (CEval legacy p k) (r_children parent))) -> covers last skip evl.
Proof using legacy.
  intros N D V N1 N2 N3 Hle Hlast Hskip He k Hlt. rewrite (He k Hlt), orb_true_iff, Z.leb_le, Hskip.
  destruct (collect_parent legacy i parent _ N D (read_tuple legacy)) as [_ C1]. specialize (C1 V).
  destruct (collect_parent legacy i parent _ N D (read_rest legacy)) as [_ C2]. specialize (C2 V).
  destruct (collect_parent legacy i parent _ N D (read_uneval legacy)) as [_ C3]. specialize (C3 V).
  destruct (collect_parent legacy i parent _ N D (read_contains legacy)) as [_ C4]. specialize (C4 V).
  split.
  - intros (kc & Hc & [[Ha|[Ha|[Ha|(z & Ha & Hz)]]]|(Lg & l & Ha & Hl)]).
    + exfalso. apply N1, C1. exists kc. now split.
    + exfalso. apply N2, C2. exists kc. now split.
    + exfalso. apply N3, C3. exists kc. now split.
    + left. assert (Ho : (z <= last)%Z) by (apply Hle, C1; exists kc; now split). lia.
    + right. split; [exact Lg|]. exists l. split; [|exact Hl]. apply C4. exists kc. now split.
  - intros [Hl|(Lg & b & Hb & Hm)].
    + destruct Hlast as [->|Hlast]; [lia|]. apply C1 in Hlast. destruct Hlast as (kc & Hc & Ha).
      exists kc. split; [exact Hc|]. left. right. right. right. exists last. now split.
    + apply C4 in Hb. destruct Hb as (kc & Hc & Ha). exists kc. split; [exact Hc|]. right. split; [exact Lg|]. exists b. now split.
Qed.

Lemma unevaluated_places t parent c0 c evl : legacy = false -> r_annot parent = JNull -> r_discard parent = false -> r_valid parent = true ->
  e_unevaluatedItems ev t i anck parent c0 = Ok c ->
  (forall k, k < width i -> (In k evl <-> some (CEval legacy p k) (r_children parent))) ->
  c = discard c0 \/ exists last skip, e_unevaluated_from ev last skip t i anck c0 = Ok c /\ (-1 <= last)%Z /\ covers last skip evl.
Proof using legacy.
  intros Lg N D V E He. unfold e_unevaluatedItems in E.
  assert (TK : tuple_key legacy = lit "prefixItems") by now rewrite Lg. assert (RK : rest_key legacy = lit "items") by now rewrite Lg.
  destruct (last_evaluated (-1) _) as [[last|]| |] eqn:La; cbn [bind] in E; try discriminate.
  2: { left. now apply ok_inj in E. }
  destruct (any_true _ || any_true _) eqn:At; [left; now apply ok_inj in E|].
  destruct (union_annots _) as [skip| |] eqn:Un; cbn [bind] in E; try discriminate.
  apply orb_false_iff in At. destruct At as [At1 At2]. destruct (last_evaluated_Some _ _ _ La) as (L1 & L2 & L3 & L4).
  right. exists last, skip. split; [exact E|]. split; [exact L2|]. apply (covers_from parent); auto; rewrite ?TK, ?RK; auto.
  - intro H. apply any_true_In in H. congruence.
  - intro H. apply any_true_In in H. congruence.
  - intro k. rewrite (union_annots_mem _ _ _ Un). tauto.
Qed.

Lemma unevaluated_places_2019 t parent c0 c evl : legacy = true -> r_annot parent = JNull -> r_discard parent = false -> r_valid parent = true ->
  e_unevaluatedItems_2019 ev t i anck parent c0 = Ok c ->
  (forall k, k < width i -> (In k evl <-> some (CEval legacy p k) (r_children parent))) ->
  c = discard c0 \/ exists last skip, e_unevaluated_from ev last skip t i anck c0 = Ok c /\ (-1 <= last)%Z /\ covers last skip evl.
Proof using legacy.
  intros Lg N D V E He. unfold e_unevaluatedItems_2019 in E.
  assert (TK : tuple_key legacy = lit "items") by now rewrite Lg. assert (RK : rest_key legacy = lit "additionalItems") by now rewrite Lg.
  destruct (last_evaluated_2019 (-1) _) as [last|] eqn:La; [|left; now apply ok_inj in E].
  destruct (any_true _ || any_true _) eqn:At; [left; now apply ok_inj in E|].
  apply orb_false_iff in At. destruct At as [At1 At2]. destruct (last_evaluated_2019_Some _ _ _ La) as (L1 & L2 & L3 & L4).
  right. exists last, []. split; [exact E|]. split; [exact L2|]. apply (covers_from parent); auto; rewrite ?TK, ?RK; auto.
  - intro H. apply any_true_In in H. congruence.
  - intro H. apply any_true_In in H. congruence.
  - intro k. rewrite Lg. split; [discriminate|intros [? _]; discriminate].
Qed.

Lemma filter_seq_from (f g : nat -> bool) start n : (forall k, k < n -> f k = (start <=? k) && g k) ->
  filter g (seq start (n - start)) = filter f (seq 0 n).
Proof using.
  intro H. destruct (Nat.le_gt_cases start n) as [L|L].
  - replace (seq 0 n) with (seq 0 start ++ seq start (n - start)) by (refine (eq_trans (eq_sym (seq_app start (n - start) 0)) _); replace (start + (n - start)) with n by lia; reflexivity).
    rewrite filter_app. replace (filter f (seq 0 start)) with (@nil nat).
    + cbn [app]. apply filter_ext_in. intros k Hk. apply in_seq in Hk. rewrite H by lia. destruct (Nat.leb_spec start k); [reflexivity|lia].
    + symmetry. apply filter_none. intros k Hk. apply in_seq in Hk. rewrite H by lia. destruct (Nat.leb_spec start k); [lia|reflexivity].
  - replace (n - start) with 0 by lia. cbn [seq filter]. symmetry. apply filter_none. intros k Hk. apply in_seq in Hk. rewrite H by lia.
    destruct (Nat.leb_spec start k); [lia|reflexivity].
Qed.

Lemma places_error key t last skip evl c0 c : fresh key (KSub t) c0 -> (-1 <= last)%Z -> covers last skip evl ->
  e_unevaluated_from ev last skip t i anck c0 = Ok c -> r_valid c = false -> places_refused says t x evl (r_error c).
Proof.
  intros F Hl Cv H V. unfold e_unevaluated_from in H. set (start := Z.to_nat (last + 1)) in *. set (todo := unskipped skip start _) in *.
  runs H. destruct a as [r bs].
  destruct (each_error W legacy ev jd Hsim s anck sc Hst i key (KSub t) t c0 (map snd todo) r bs F (or_introl eq_refl)) as [Vr S]; [| |exact E|].
  { pose proof (Forall_skipn _ start _ (items_below i Hw)) as FS. rewrite Forall_forall in FS |- *. intros j Hj. apply FS.
    exact (unskipped_snd skip _ start j Hj). }
  { apply unskipped_NoDup. rewrite <- skipn_map. apply NoDup_skipn, items_of_distinct. }
  assert (E1 : map fst todo = filter (fun n => negb (existsb (Nat.eqb n) evl)) (seq 0 (length (items x)))).
  { unfold todo. rewrite unskipped_fst, skipn_length, items_of_length. apply filter_seq_from. intros k Hk.
    assert (X : existsb (Nat.eqb k) evl = (Z.of_nat k <=? last)%Z || mem_json (jint k) skip).
    { apply eq_true_iff_eq. rewrite existsb_nat. apply Cv. exact Hk. }
    rewrite X. assert (Y : (start <=? k) = negb (Z.of_nat k <=? last)%Z).
    { unfold start. clear -Hl. destruct (Z.leb_spec (Z.of_nat k) last), (Nat.leb_spec (Z.to_nat (last + 1)) k); try reflexivity; lia. }
    rewrite Y. now destruct (Z.of_nat k <=? last)%Z. }
  unfold places_refused. cbn zeta. rewrite <- E1. exists bs. split.
  - assert (E2 : map i_val (map snd todo) = map (fun n => nth n (items x) JNull) (map fst todo)).
    { unfold todo. rewrite unskipped_vals. apply map_ext_in. intros n Hn.
      rewrite unskipped_fst in Hn. apply filter_In in Hn. destruct Hn as [Hn _]. apply in_seq in Hn.
      rewrite <- skipn_map, items_of_vals, nth_skipn. f_equal. lia. }
    rewrite E2 in S. clear -S. revert bs S. induction (map fst todo) as [|n l IH]; intros bs S; inversion S; subst; constructor; auto.
  - apply ok_inj in H. rewrite failing_refused in H. rewrite refused_map, map_map.
    change (fun ki : nat * inst => jint (fst ki)) with (fun ki : nat * inst => number (fst ki)) in H.
    destruct (map (fun ki : nat * inst => number (fst ki)) (refused todo bs)) as [|a l]; subst c; [cbn [annotate r_valid] in V; congruence|reflexivity].
Qed.

(** ** The keywords of a schema object. *)
Variable n0 : rnode.
Variable anc : list sid.
Hypothesis Hanck : anck = r_schema n0 :: anc.
Hypothesis Hclean : clean p n0.
Hypothesis Hloc : located W s n0.
Hypothesis Hann : r_annot n0 = JNull.
Hypothesis Hdis : r_discard n0 = false.
Notation inv := (inv W legacy jd s kws sc i n0).

(** The nodes of the unevaluated keywords have only children for the members and
    items of the instance. *)
Definition fine (k : keyword) (c : rnode) : Prop :=
  jots k x (r_valid c) (r_annot c) /\ (late k <> None -> Forall (deeper p) (r_children c)) /\
  (late k <> None -> r_valid n0 = true -> r_valid c = false ->
   forall os, all_some (map (code_keyword W (code_choice W) jd sc kws x) (others kws x)) = Some os -> grumbles says os k x (r_error c)).
Definition jotted (dn : list (pystr * keyword)) (n : rnode) : Prop :=
  forall key k c, In (key, k) dn -> cget (key, p) (r_children n) = Some c -> fine k c.

Lemma jots_passed k c : kw_class k = Std KContains -> fine k c -> fine k (pass_ c).
Proof using. unfold fine, SpecNotes.jots, late. intros ->. intros (H & _). split; [exact H|split; congruence]. Qed.

Lemma late_grumbles dn n cs key k cl rest c0 c os : kws = dn ++ (key, k) :: rest -> inv (minned dn) dn n cs -> concerns x k = true ->
  kw_class k = Std cl -> late k <> None -> fresh key (kw_json k) c0 -> r_valid n0 = true ->
  eval_std W ev k cl i anck (put_child n key i c0) c0 = Ok c -> r_valid c = false ->
  all_some (map (code_keyword W (code_choice W) jd sc kws x) (others kws x)) = Some os -> grumbles says os k x (r_error c).
Proof.
  intros E Iv Co C La F V0 H V A. destruct (split_fresh d kws Hgood _ _ _ _ E) as (Hn & HIn & Hi). set (par := put_child n key i c0) in *.
  assert (Pn : r_annot par = JNull /\ r_discard par = false /\ r_valid par = true).
  { destruct (inv_frame _ _ _ _ _ _ _ _ _ _ _ _ Iv) as (_ & _ & _ & _ & _ & F6 & F7). pose proof (inv_valid _ _ _ _ _ _ _ _ _ _ _ _ Iv) as F8.
    unfold par. cbn [put_child with_children r_annot r_discard r_valid]. rewrite F6, F7, F8. auto. }
  destruct Pn as (Pa & Pd & Pv). destruct (late k) as [lc|] eqn:Lk; [|congruence].
  assert (Cl : kw_class k = Std lc).
  { unfold late in Lk. destruct (kw_class k) as [a|]; [|discriminate]. destruct a; try discriminate Lk; injection Lk as <-; reflexivity. }
  assert (cl = lc) by congruence. subst lc.
  pose proof (class_legacy d legacy Hd kws Hgood _ _ _ HIn C) as Lg.
  assert (Mb : forall t, fresh key (KSub t) c0 -> (legacy = false /\ cl = KUnevaluatedProperties) \/ (legacy = true /\ cl = KUnevaluatedProperties2019) ->
    e_unevaluatedProperties ev t i anck par c0 = Ok c ->
    members_refused says t (filter (fun kv => negb (listed (fst kv) (flat_map o_names (filter o_ok os)))) (members x)) (r_error c)).
  { intros t Ft Hlc X. assert (Ty : type_of x = TObject).
    { unfold concerns in Co. rewrite C in Co. destruct Hlc as [[_ ->]|[_ ->]]; destruct (type_of x); vm_compute in Co; congruence. }
    assert (Q : forall m, In m (o_names (gather true os)) <-> some (CName p m) (r_children par)).
    { intros m. unfold par. rewrite (late_children W d legacy ev jd Hsim Hd s kws Hgood sc i n0 Hclean (CName p m) _ dn n cs key k cl rest c0 E Iv Co Lk F (silent_name i m)).
      symmetry. apply (early_names W d legacy ev jd Hsim Hd s kws Hgood sc i n0 _ dn n cs os Iv Hi A).
      intros key' k' ko H1 H2 H3 H4 H5. apply (rest_names W d legacy jd Hd kws Hgood sc i key' k' ko cl H1 H3 H4 Ty Hlc); [|exact H5].
      pose proof (depends_done d s kws Hgood anck sc Hst n0 anc Hanck dn key k rest key' k' E H1 H2) as Dp. now rewrite C in Dp. }
    pose proof (unevaluated_names t par c0 c Pa Pd Pv X _ Q) as Y.
    set (f := fun m => negb (mem_str m (o_names (gather true os)))). change (e_members ev (filter (fun ni => f (fst ni)) (members_of i)) t anck c0 = Ok c) in Y.
    destruct (todo_filter i Hw f) as [T1 T2].
    pose proof (e_members_error W legacy ev jd Hsim s anck sc Hst i key (KSub t) t _ c0 c Ft (or_introl eq_refl) T1 T2 Y V) as M.
    pose proof (members_filter f (members_of i)) as MF. rewrite members_of_vals in MF. rewrite MF in M. exact M. }
  assert (It : (legacy = false /\ cl = KUnevaluatedItems) \/ (legacy = true /\ cl = KUnevaluatedItems2019) ->
    forall m, m < width i -> (In m (evaluated_at legacy (gather true os)) <-> some (CEval legacy p m) (r_children par))).
  { intros Hlc m Hm. assert (Ty : type_of x = TArray).
    { unfold concerns in Co. rewrite C in Co. destruct Hlc as [[_ ->]|[_ ->]]; destruct (type_of x); vm_compute in Co; congruence. }
    unfold par. rewrite (late_children W d legacy ev jd Hsim Hd s kws Hgood sc i n0 Hclean (CEval legacy p m) _ dn n cs key k cl rest c0 E Iv Co Lk F (silent_eval legacy i m)).
    symmetry. apply (early_places W d legacy ev jd Hsim Hd s kws Hgood sc i n0 _ dn n cs os Iv Hi A); [|exact Hm].
    intros key' k' ko H1 H2 H3 H4 H5. apply (rest_places W d legacy jd Hd kws Hgood sc i key' k' ko cl H1 H3 H4 Ty Hlc); [|exact H5].
    pose proof (depends_done d s kws Hgood anck sc Hst n0 anc Hanck dn key k rest key' k' E H1 H2) as Dp. now rewrite C in Dp. }
  assert (Vd : forall c1, c = discard c1 -> r_valid c1 = true -> False) by (intros c1 -> V1; cbn [discard r_valid] in V; congruence).
  assert (V1 : r_valid c0 = true) by apply F.
  unfold grumbles. rewrite C. cbn zeta. unfold late in Lk. rewrite C in Lk.
  destruct cl; try discriminate Lk; cbn [eval_std] in H; apply with_sub_inv in H; destruct H as (t & Kj & H); rewrite Kj in *.
  - assert (Hl : legacy = false) by (destruct legacy; [discriminate Lg|reflexivity]). specialize (It (or_introl (conj Hl eq_refl))).
    destruct (unevaluated_places t par c0 c _ Hl Pa Pd Pv H It) as [X|(last & skip & X & L & Cv)]; [destruct (Vd _ X V1)|].
    pose proof (places_error key t last skip _ c0 c F L Cv X V) as R. unfold evaluated_at in R. rewrite Hl in R. exact R.
  - assert (Hl : legacy = false) by (destruct legacy; [discriminate Lg|reflexivity]). exact (Mb t F (or_introl (conj Hl eq_refl)) H).
  - assert (Hl : legacy = true) by (destruct legacy; [reflexivity|discriminate Lg]). specialize (It (or_intror (conj Hl eq_refl))).
    destruct (unevaluated_places_2019 t par c0 c _ Hl Pa Pd Pv H It) as [X|(last & skip & X & L & Cv)]; [destruct (Vd _ X V1)|].
    pose proof (places_error key t last skip _ c0 c F L Cv X V) as R. unfold evaluated_at in R. rewrite Hl in R. exact R.
  - assert (Hl : legacy = true) by (destruct legacy; [reflexivity|discriminate Lg]). exact (Mb t F (or_intror (conj Hl eq_refl)) H).
Qed.

Lemma jots_step dn n cs key k rest parent' c : kws = dn ++ (key, k) :: rest -> inv (minned dn) dn n cs -> concerns x k = true ->
  eval_keyword W ev k i anck (put_child n key i (new_child n key i s)) (new_child n key i s) = Ok (parent', c) ->
  jotted dn n -> jotted (dn ++ [(key, k)]) (close_child parent' key i c).
Proof.
  intros E Iv Co Ev Ex. destruct (split_fresh d kws Hgood _ _ _ _ E) as (H & HIn & Hi).
  pose proof (fresh_child W d s kws Hkws Hgood i n0 Hloc n key k (inv_frame _ _ _ _ _ _ _ _ _ _ _ _ Iv) HIn) as F.
  pose proof (inv_siblings W d legacy jd s kws Hgood anck sc Hst i n0 anc Hanck Hclean _ _ _ _ _ _ _ (new_child n key i s) E Iv) as Sb.
  set (c0 := new_child n key i s) in *. set (par := put_child n key i c0) in *.
  assert (Own : r_discard c = false -> fine k c).
  { intro V. unfold fine. unfold eval_keyword in Ev. destruct (kw_class k) as [cl|u] eqn:C.
    2: { unfold SpecNotes.jots, late. rewrite C. split; [exact I|split; congruence]. }
    assert (D : cl = KMinContains \/ eval_std W ev k cl i anck par c0 = Ok c).
    { destruct cl; try (now left); right; (destruct (eval_std W ev k _ i anck par c0) as [r| |]; cbn [bind] in Ev; try discriminate; apply ok_inj in Ev;
        pose proof (f_equal snd Ev) as Q; cbn [snd] in Q; now subst r). }
    destruct D as [->|D]; [unfold SpecNotes.jots, late; rewrite C; split; [exact I|split; congruence]|].
    split; [exact (std_jots _ _ key k cl par c0 c HIn C F Co Sb D V)|]. split; [intro La; exact (late_deeper key k cl par c0 c C La F D V)|].
    intros La V0 Vc os A. exact (late_grumbles dn n cs key k cl rest c0 c os E Iv Co C La F V0 D Vc A). }
  assert (Pa : parent' = par \/ kw_class k = Std KMinContains /\ exists cc, sibling par i (lit "contains") = Some cc /\ parent' = put_child par (lit "contains") i (pass_ cc)).
  { unfold eval_keyword in Ev. destruct (kw_class k) as [cl|u].
    - assert (D : parent' = par \/ cl = KMinContains /\ e_minContains W (kw_json k) i par c0 = Ok (parent', c)).
      { destruct cl; try (right; split; [reflexivity|exact Ev]); left;
        (destruct (eval_std W ev k _ i anck par c0) as [r| |]; cbn [bind] in Ev; try discriminate; apply ok_inj in Ev; exact (eq_sym (f_equal fst Ev))). }
      destruct D as [->|[-> D]]; [now left|]. apply min_sibling in D. destruct D as [->|(cc & D1 & D2)]; [now left|right; eauto].
    - destruct (e_annotation (kw_json k) c0); cbn [bind] in Ev; try discriminate. apply ok_inj in Ev. left. exact (eq_sym (f_equal fst Ev)). }
  clear Ev. pose proof (find_contains W d legacy ev jd Hsim Hd kws Hgood) as FC.
  revert Pa FC. generalize (lit "contains"). intros ck Pa FC.
  assert (Ne : kw_class k = Std KMinContains -> ck <> key).
  { intros Ck ->. pose proof (class_found d kws Hgood _ _ _ HIn FC) as Y. rewrite Ck in Y. discriminate Y. }
  intros key' k' c' X G. apply in_app_or in X. destruct X as [X|[[= <- <-]|[]]].
  - assert (N : (key, p) <> (key', p)).
    { intros [= ->]. apply H. change key' with (fst (key', k')). now apply in_map. }
    assert (G' : cget (key', p) (r_children parent') = Some c').
    { revert G. unfold close_child. destruct (r_discard c); [|unfold put_child]; cbn [with_children r_children].
      - rewrite cget_drop_other by congruence. auto.
      - rewrite cget_put_other by congruence. auto. }
    destruct Pa as [->|(Ck & cc & Sc & ->)].
    + apply (Ex key' k' c' X). revert G'. unfold par, put_child. cbn [with_children r_children]. rewrite cget_put_other by congruence. auto.
    + unfold put_child at 1 in G'. cbn [with_children r_children] in G'.
      destruct (ckey_eqb_spec (ck, p) (key', p)) as [Q|Q].
      * injection Q as Q. subst key'. rewrite cget_put_same in G'. injection G' as <-.
        assert (HIn' : In (ck, k') kws) by (rewrite E; apply in_or_app; now left).
        apply jots_passed; [exact (class_found d kws Hgood _ _ _ HIn' FC)|]. apply (Ex ck k' cc X).
        unfold sibling in Sc. revert Sc. unfold par, put_child. cbn [with_children r_children]. rewrite cget_put_other by congruence. auto.
      * rewrite cget_put_other in G' by congruence. apply (Ex key' k' c' X). revert G'. unfold par, put_child. cbn [with_children r_children]. rewrite cget_put_other by congruence. auto.
  - revert G. unfold close_child. destruct (r_discard c) eqn:Dc; [|unfold put_child]; cbn [with_children r_children].
    + assert (N : cget (key, p) (r_children n) = None).
      { rewrite (inv_children _ _ _ _ _ _ _ _ _ _ _ _ Iv), cget_app, (old_none i n0 Hclean). exact (inv_none W legacy jd s kws sc i n0 _ _ _ _ _ Iv H). }
      destruct Pa as [->|(Ck & cc & Sc & ->)]; unfold par, put_child; cbn [with_children r_children]; [rewrite (cget_drop_new _ _ _ N); discriminate|].
      assert (Q : (ck, p) <> (key, p)) by (intros [= Q]; exact (Ne Ck Q)).
      rewrite cdrop_put_other, cget_put_other, (cget_drop_new _ _ _ N) by congruence. discriminate.
    + rewrite cget_put_same. intros [= <-]. auto.
Qed.

Lemma jots_skip dn n cs key k mn : inv mn dn n cs -> ~ In key (keys dn) -> jotted dn n -> jotted (dn ++ [(key, k)]) n.
Proof.
  intros Iv H Ex key' k' c' X G. apply in_app_or in X. destruct X as [X|[[= <- <-]|[]]]; [exact (Ex _ _ _ X G)|]. exfalso.
  rewrite (inv_children _ _ _ _ _ _ _ _ _ _ _ _ Iv), cget_app, (old_none i n0 Hclean) in G.
  rewrite (inv_none W legacy jd s kws sc i n0 _ _ _ _ _ Iv H) in G. discriminate.
Qed.

Lemma jots_loop : forall rest dn n cs n', kws = dn ++ rest -> inv (minned dn) dn n cs -> jotted dn n ->
  eval_keywords W ev s rest i anc n = Ok n' -> jotted kws n'.
Proof.
  induction rest as [|[key k] rest IH]; intros dn n cs n' E Iv Ex Ev; cbn [eval_keywords] in Ev.
  - rewrite app_nil_r in E. apply ok_inj in Ev. subst n'. rewrite E. exact Ex.
  - destruct (split_fresh d kws Hgood _ _ _ _ E) as (H & HIn & Hi).
    assert (E' : kws = (dn ++ [(key, k)]) ++ rest) by (rewrite <- app_assoc; exact E).
    rewrite applicable_concerns in Ev. destruct (concerns x k) eqn:Co.
    + assert (Rs : r_schema n = r_schema n0) by (destruct (inv_frame _ _ _ _ _ _ _ _ _ _ _ _ Iv) as (_ & _ & F & _); exact F).
      rewrite Rs, <- Hanck in Ev. destruct (eval_keyword _ _ _ _ _ _ _) as [[parent' c]| |] eqn:E1; cbn [bind] in Ev; try discriminate.
      destruct (step W d legacy ev jd Hsim Hd s kws Hkws Hgood anck sc Hst i Hw n0 anc Hanck Hclean Hloc Hann Hdis dn n cs key k rest parent' c E Iv Co E1) as (cs' & I').
      exact (IH _ _ _ _ E' I' (jots_step dn n cs key k rest parent' c E Iv Co E1 Ex) Ev).
    + refine (IH (dn ++ [(key, k)]) n cs n' E' _ (jots_skip dn n cs key k _ Iv H Ex) Ev).
      pose proof (inv_skip W legacy jd s kws sc i n0 _ _ _ _ _ k Iv H Co) as I'. destruct (str_eq_dec key (lit "minContains")) as [Hk|N]; [|now rewrite minned_snoc].
      destruct I' as [I1 I2 I3 I4 I5 I6]. constructor; auto. intros key' k' X. pose proof (I6 _ _ X) as En. revert En. apply entry_minned.
      intros C Co'. exfalso. pose proof (class_found d kws Hgood key k KMinContains HIn) as Cm. rewrite Hk, (find_min W d legacy ev jd Hsim Hd kws Hgood) in Cm. specialize (Cm eq_refl).
      unfold concerns in Co, Co'. rewrite Cm in Co. rewrite C in Co'. change (std_types KMinContains) with (std_types KContains) in Co. cbn [static instance_types negb andb std_types] in Co, Co'. congruence.
Qed.

Lemma jots_object n1 : eval_keywords W ev s kws i anc n0 = Ok n1 -> jotted kws n1.
Proof.
  intro E. refine (jots_loop kws [] n0 [] n1 eq_refl _ _ E); [|intros key k c []].
  constructor; auto; [apply frame_refl|now rewrite app_nil_r|constructor|intros key k []].
Qed.

Lemma late_remarks n1 : eval_keywords W ev s kws i anc n0 = Ok n1 -> r_valid n0 = true ->
  forall key k c, In (key, k) kws -> late k <> None -> cget (key, p) (r_children n1) = Some c -> r_valid c = true -> notes W k x (r_annot c) ->
  exists os, all_some (map (code_keyword W (code_choice W) jd sc kws x) (others kws x)) = Some os /\ remarks os k x (r_annot c).
Proof.
  intros E V0 key k c HIn La G V No. pose proof (jots_object n1 E key k c HIn G) as (_ & Dp & _). specialize (Dp La).
  destruct (loop W d legacy ev jd Hsim Hd s kws Hkws Hgood anck sc Hst i Hw n0 anc Hanck Hclean Hloc Hann Hdis kws [] n0 [] n1 eq_refl) as (cs & Iv); [|exact E|].
  { constructor; auto; [apply frame_refl|now rewrite app_nil_r|constructor|intros key' k' []]. }
  rewrite (inv_children _ _ _ _ _ _ _ _ _ _ _ _ Iv), cget_app, (old_none i n0 Hclean) in G.
  pose proof (inv_entry _ _ _ _ _ _ _ _ _ _ _ _ Iv key k HIn) as En. rewrite G in En. unfold entry in En.
  destruct (concerns x k) eqn:Co; [|discriminate]. destruct (late k) as [lc|] eqn:Lk; [|congruence]. destruct En as [_ En].
  destruct (fin_some W d legacy jd s kws Hgood sc i n0 n1 cs Iv) as (os & A). exists os. split; [exact A|].
  destruct (En os A) as (ko & J & K). specialize (K V0). destruct K as [B _ P Cn].
  assert (Ok1 : o_ok ko = true) by (rewrite <- P; unfold passed; now rewrite V). specialize (Cn Ok1). pose proof B as (B1 & B2 & B3 & B4).
  assert (Cl : kw_class k = Std lc).
  { unfold late in Lk. destruct (kw_class k) as [a|]; [|discriminate]. destruct a; try discriminate Lk; injection Lk as <-; reflexivity. }
  destruct (class_key d kws Hgood _ _ _ HIn Cl) as [Hk _].
  assert (Mb : In key name_keys -> (exists keep, r_annot c = names (filter keep (own_names x))) ->
    o_names ko = map fst (filter (fun kv => negb (mem_str (fst kv) (o_names (gather true os)))) (members x)) ->
    r_annot c = names (filter (fun n => negb (listed n (flat_map o_names (filter o_ok os)))) (own_names x))).
  { intros Nk (keep & An) On. rewrite An. f_equal. apply filter_ext_in. intros n Hn.
    pose proof (con_names _ _ _ _ _ (names_contribute W legacy ev jd Hsim s i key (kw_json k) c (width i) true _ _ B Dp Nk V An (fun n => iff_refl _)) n) as Q1.
    cbn [o_names] in Q1. pose proof (con_names _ _ _ _ _ Cn n) as Q2. rewrite On in Q2. rewrite Q1, filter_In in Q2.
    change (flat_map o_names (filter o_ok os)) with (o_names (gather true os)).
    apply eq_true_iff_eq. split; intro T.
    - apply proj1 in Q2. specialize (Q2 (conj Hn T)). apply in_map_iff in Q2. destruct Q2 as (kv & <- & Q2). apply filter_In in Q2. exact (proj2 Q2).
    - apply proj2 in Q2. apply Q2. unfold own_names in Hn. apply in_map_iff in Hn. destruct Hn as (kv & <- & Hn).
      apply in_map_iff. exists kv. split; [reflexivity|]. apply filter_In. split; [exact Hn|exact T]. }
  assert (It : forall t evl, key = lit "unevaluatedItems" -> r_annot c = JNull \/ (r_annot c = JBool true /\ items x <> []) ->
    obind (judge_all jd sc t (map (fun n => nth n (items x) JNull) (filter (fun n => negb (existsb (Nat.eqb n) evl)) (seq 0 (length (items x))))))
      (fun os => Some (mkO (all_accept os) [] (all_or_none os (length (items x))) [])) = Some ko ->
    r_annot c = if existsb (fun n => negb (existsb (Nat.eqb n) evl)) (seq 0 (length (items x))) then JBool true else JNull).
  { intros t evl Hk' An Jo. set (f := fun n => negb (existsb (Nat.eqb n) evl)) in *.
    destruct (judge_all jd sc t _) as [us|] eqn:Ju; cbn [obind] in Jo; [|discriminate]. injection Jo as <-.
    assert (Lu : length us = length (filter f (seq 0 (length (items x))))).
    { unfold judge_all in Ju. apply all_some_Forall2 in Ju. clear -Ju. 
      assert (X : forall A B (R : A -> B -> Prop) l l', Forall2 R l l' -> length l' = length l) by (intros A B R l l' F; induction F; cbn; congruence).
      apply X in Ju. rewrite map_length in Ju. exact Ju. }
    assert (Ef : existsb f (seq 0 (length (items x))) = true <-> us <> []).
    { rewrite existsb_exists. split.
      - intros (n & H1 & H2) ->. assert (X : In n (filter f (seq 0 (length (items x))))) by (apply filter_In; now split). destruct (filter f _); [destruct X|discriminate Lu].
      - intro Nu. destruct (filter f (seq 0 (length (items x)))) as [|n l] eqn:Ff; [destruct us; [congruence|discriminate Lu]|].
        exists n. apply filter_In. rewrite Ff. now left. }
    assert (Ev : forall m, In m (evaluated_at legacy (mkO (all_accept us) [] (all_or_none us (length (items x))) [])) <-> In m (all_or_none us (length (items x)))).
    { intro m. unfold evaluated_at. cbn [o_places o_found]. destruct legacy; [tauto|]. rewrite app_nil_r. tauto. }
    destruct An as [An|[An Ni]].
    - destruct (existsb f _) eqn:Ex; [|exact An]. exfalso. apply proj1 in Ef. specialize (Ef eq_refl).
      assert (Len : 0 < width i).
      { unfold width. destruct (length (items x)); [discriminate Ex|lia]. }
      assert (X : CEval legacy p 0 c).
      { apply (con_places _ _ _ _ _ Cn 0 Len), Ev. unfold all_or_none. destruct us; [congruence|]. apply in_seq. unfold width in Len. lia. }
      assert (Nn : forall k' a, ~ ann p k' c a).
      { intros k' a Ha. apply (ann_inv i) in Ha; auto. destruct Ha as (Ha & Hb & _). congruence. }
      destruct X as [[X|[X|[X|(z & X & _)]]]|(_ & l & X & _)]; exact (Nn _ _ X).
    - replace (existsb f (seq 0 (length (items x)))) with true; [exact An|]. symmetry. apply Ef.
      assert (Len : 0 < width i) by (unfold width; destruct (items x); [congruence|cbn; lia]).
      assert (X : CEval legacy p 0 c).
      { left. right. right. left. apply ann_own; auto. rewrite <- Hk'. repeat split; auto. congruence. }
      apply (con_places _ _ _ _ _ Cn 0 Len), Ev in X. unfold all_or_none in X. destruct us; [destruct X|discriminate]. }
  unfold remarks, notes in *. rewrite Cl in *.
  assert (Kj : exists t, kw_json k = KSub t).
  { unfold code_unevaluated, judge_unevaluated, sub_of in J. cbn [obind] in J. destruct (kw_json k); eauto;
    destruct lc; cbn [obind] in J; try discriminate J; discriminate Lk || (unfold late in Lk; rewrite Cl in Lk; discriminate Lk). }
  destruct Kj as (t & Kj). unfold code_unevaluated, judge_unevaluated, sub_of in J. cbn [obind] in J. rewrite Kj in *.
  destruct lc; try exact I; cbn [obind] in J.
  - exact (It t _ Hk No J).
  - apply Mb; [rewrite Hk; cbn [name_keys In std_key]; tauto|exact No|]. unfold judge_members in J. destruct (judge_all _ _ _ _); [|discriminate]. cbn [obind] in J. injection J as <-. reflexivity.
  - exact (It t _ Hk No J).
  - apply Mb; [rewrite Hk; cbn [name_keys In std_key]; tauto|exact No|]. unfold judge_members in J. destruct (judge_all _ _ _ _); [|discriminate]. cbn [obind] in J. injection J as <-. reflexivity.
Qed.

Lemma late_errors n1 : eval_keywords W ev s kws i anc n0 = Ok n1 -> r_valid n0 = true ->
  forall key k c, In (key, k) kws -> late k <> None -> cget (key, p) (r_children n1) = Some c -> r_valid c = false ->
  exists os, all_some (map (code_keyword W (code_choice W) jd sc kws x) (others kws x)) = Some os /\ grumbles says os k x (r_error c).
Proof.
  intros E V0 key k c HIn La G V. pose proof (jots_object n1 E key k c HIn G) as (_ & _ & Gr).
  destruct (loop W d legacy ev jd Hsim Hd s kws Hkws Hgood anck sc Hst i Hw n0 anc Hanck Hclean Hloc Hann Hdis kws [] n0 [] n1 eq_refl) as (cs & Iv); [|exact E|].
  { constructor; auto; [apply frame_refl|now rewrite app_nil_r|constructor|intros key' k' []]. }
  destruct (fin_some W d legacy jd s kws Hgood sc i n0 n1 cs Iv) as (os & A). exists os. split; [exact A|]. exact (Gr La V0 V os A).
Qed.
End Notes.

Theorem evaluate_jotted W d legacy f s i anc n scope n' kws : dialect legacy d -> good_world d W -> pre W s i anc n scope ->
  evaluate W (S f) s i anc n = Ok n' -> w_schema W s = SObj kws ->
  forall key k c, In (key, k) kws -> cget (key, i_path i) (r_children n') = Some c ->
    jots W (says (code_judge W (code_choice W) f) (s :: scope)) kws k (i_val i) (r_valid c) (r_annot c).
Proof.
  intros Hd Hg (Hw & Hc & Hst & Hl & Ha & Hdi) E Hs key k c HIn G. cbn [evaluate] in E. rewrite Hs in E.
  destruct (eval_keywords W (evaluate W f) s kws i anc n) as [n1| |] eqn:E1; cbn [bind] in E; try discriminate. apply ok_inj in E.
  assert (G1 : cget (key, i_path i) (r_children n1) = Some c).
  { rewrite <- G, <- E. unfold finish. now destruct (existsb _ _). }
  apply (jots_object W d legacy _ _ (evaluate_code W d legacy Hd Hg f) Hd s kws Hs (Hg _ _ Hs) (r_schema n :: anc) (s :: scope) Hst i Hw n anc
    eq_refl Hc Hl Ha Hdi n1 E1 key k c HIn G1).
Qed.

Theorem evaluate_remarked W d legacy f s i anc n scope n' kws : dialect legacy d -> good_world d W -> pre W s i anc n scope -> r_valid n = true ->
  evaluate W (S f) s i anc n = Ok n' -> w_schema W s = SObj kws ->
  forall key k c, In (key, k) kws -> late k <> None -> cget (key, i_path i) (r_children n') = Some c -> r_valid c = true -> notes W k (i_val i) (r_annot c) ->
  exists os, all_some (map (code_keyword W (code_choice W) (code_judge W (code_choice W) f) (s :: scope) kws (i_val i)) (others kws (i_val i))) = Some os /\
    remarks os k (i_val i) (r_annot c).
Proof.
  intros Hd Hg (Hw & Hc & Hst & Hl & Ha & Hdi) V0 E Hs key k c HIn La G. cbn [evaluate] in E. rewrite Hs in E.
  destruct (eval_keywords W (evaluate W f) s kws i anc n) as [n1| |] eqn:E1; cbn [bind] in E; try discriminate. apply ok_inj in E.
  assert (G1 : cget (key, i_path i) (r_children n1) = Some c).
  { rewrite <- G, <- E. unfold finish. now destruct (existsb _ _). }
  exact (late_remarks W d legacy _ _ (evaluate_code W d legacy Hd Hg f) Hd s kws Hs (Hg _ _ Hs) (r_schema n :: anc) (s :: scope) Hst i Hw n anc
    eq_refl Hc Hl Ha Hdi n1 E1 V0 key k c HIn La G1).
Qed.

Theorem evaluate_grumbled W d legacy f s i anc n scope n' kws : dialect legacy d -> good_world d W -> pre W s i anc n scope -> r_valid n = true ->
  evaluate W (S f) s i anc n = Ok n' -> w_schema W s = SObj kws ->
  forall key k c, In (key, k) kws -> late k <> None -> cget (key, i_path i) (r_children n') = Some c -> r_valid c = false ->
  exists os, all_some (map (code_keyword W (code_choice W) (code_judge W (code_choice W) f) (s :: scope) kws (i_val i)) (others kws (i_val i))) = Some os /\
    grumbles (says (code_judge W (code_choice W) f) (s :: scope)) os k (i_val i) (r_error c).
Proof.
  intros Hd Hg (Hw & Hc & Hst & Hl & Ha & Hdi) V0 E Hs key k c HIn La G. cbn [evaluate] in E. rewrite Hs in E.
  destruct (eval_keywords W (evaluate W f) s kws i anc n) as [n1| |] eqn:E1; cbn [bind] in E; try discriminate. apply ok_inj in E.
  assert (G1 : cget (key, i_path i) (r_children n1) = Some c).
  { rewrite <- G, <- E. unfold finish. now destruct (existsb _ _). }
  exact (late_errors W d legacy _ _ (evaluate_code W d legacy Hd Hg f) Hd s kws Hs (Hg _ _ Hs) (r_schema n :: anc) (s :: scope) Hst i Hw n anc
    eq_refl Hc Hl Ha Hdi n1 E1 V0 key k c HIn La G1).
Qed.
