(** Keyword by keyword: what evaluating a keyword does to its result node, and
    that this is what the code judgement says. *)
From Coq Require Import Permutation.
From Verif Require Export SpecCode SchemaSim.
Open Scope nat_scope.

(** ** Lists of verdicts. *)
Lemma all_some_In {A} (l : list (option A)) xs : all_some l = Some xs -> forall x, In x xs <-> In (Some x) l.
Proof.
  revert xs. induction l as [|[a|] l IH]; cbn [all_some]; intros xs E x.
  - injection E as <-. cbn. tauto.
  - destruct (all_some l) as [ys|]; [|discriminate]. injection E as <-. cbn [In]. rewrite (IH ys eq_refl).
    split; (intros [H|H]; [left; congruence|now right]).
  - discriminate.
Qed.
Lemma all_some_length {A} (l : list (option A)) xs : all_some l = Some xs -> length xs = length l.
Proof.
  revert xs. induction l as [|[a|] l IH]; cbn [all_some]; intros xs E; try discriminate.
  - now injection E as <-.
  - destruct (all_some l) as [ys|]; [|discriminate]. injection E as <-. cbn [length]. now rewrite (IH ys).
Qed.
Lemma all_some_ex {A} (l : list (option A)) : (forall o, In o l -> o <> None) -> exists xs, all_some l = Some xs.
Proof.
  induction l as [|[a|] l IH]; intro H; cbn [all_some]; [eauto| |].
  - destruct IH as (xs & ->); [intros; apply H; now right|eauto].
  - destruct (H None); [now left|reflexivity].
Qed.
Lemma all_some_sub {A} (l l' : list (option A)) xs : all_some l = Some xs -> (forall o, In o l' -> In o l) -> exists ys, all_some l' = Some ys.
Proof.
  intros E H. apply all_some_ex. intros o Ho ->. apply H in Ho. clear H l'. revert xs E.
  induction l as [|[a|] l IH]; cbn [all_some]; intros xs E; [destruct Ho| |discriminate].
  destruct (all_some l) as [ys|]; [|discriminate]. destruct Ho as [Ho|Ho]; [discriminate|]. exact (IH Ho ys eq_refl).
Qed.

Lemma positions_false k bs : positions false k bs = [] <-> forallb id bs = true.
Proof.
  revert k. induction bs as [|[|] bs IH]; intro k; cbn [positions forallb id Bool.eqb andb]; [tauto|apply IH|].
  split; discriminate.
Qed.
Lemma forallb_ok os : forallb id (map o_ok os) = all_accept os.
Proof. unfold all_accept. induction os as [|o os IH]; cbn [map forallb id]; [reflexivity|]. now rewrite IH. Qed.
Lemma existsb_ok os : existsb id (map o_ok os) = existsb o_ok os.
Proof. induction os as [|o os IH]; cbn [map existsb id]; [reflexivity|]. now rewrite IH. Qed.
Lemma positions_true k os : positions true k (map o_ok os) = map jint (accepted k os).
Proof.
  revert k. induction os as [|o os IH]; intro k; cbn [map positions accepted]; [reflexivity|].
  destruct (o_ok o); cbn [Bool.eqb map]; now rewrite IH.
Qed.
Lemma accepted_length k os : length (accepted k os) = count os.
Proof.
  unfold count. revert k. induction os as [|o os IH]; intro k; cbn [accepted filter]; [reflexivity|].
  destruct (o_ok o); cbn [length]; now rewrite IH.
Qed.
Lemma failing_nil {A} (f : A -> json) l bs : length l = length bs -> (failing f l bs = [] <-> forallb id bs = true).
Proof.
  revert bs. induction l as [|a l IH]; intros [|[|] bs] E; cbn [failing forallb id andb] in *; try discriminate; [tauto| |].
  - apply IH. now injection E.
  - split; discriminate.
Qed.
Lemma dedup_In seen l : forall n, In n (dedup seen l) <-> In n l /\ ~ In n seen.
Proof.
  revert seen. induction l as [|k l IH]; intros seen n; cbn [dedup]; [cbn; tauto|].
  destruct (mem_str k seen) eqn:E.
  - apply mem_str_In in E. rewrite IH. cbn [In]. split; [tauto|]. intros [[->|H] N]; [contradiction|auto].
  - assert (N : ~ In k seen) by (rewrite <- mem_str_In; congruence). cbn [In]. rewrite IH. cbn [In].
    destruct (str_eq_dec k n) as [->|D]; tauto.
Qed.

Lemma mem_json_str name l : mem_json (JStr name) (map JStr l) = true <-> In name l.
Proof.
  unfold mem_json. induction l as [|n l IH]; cbn [map existsb In]; [split; [discriminate|tauto]|].
  rewrite orb_true_iff, IH. cbn [json_eqb]. rewrite str_eqb_eq. intuition congruence.
Qed.
Lemma num_eqb_int a b : num_eqb (NInt a) (NInt b) = Z.eqb a b.
Proof.
  unfold num_eqb. destruct (num_compare (NInt a) (NInt b)) as [c|] eqn:E.
  2: { cbn in E. discriminate. }
  pose proof (num_compare_Q (NInt a) (NInt b) _ _ eq_refl eq_refl) as Q. rewrite E in Q. injection Q as ->.
  rewrite Qcompare_inject. destruct (Z.compare_spec a b) as [->|H|H]; symmetry; [apply Z.eqb_refl| |]; apply Z.eqb_neq; lia.
Qed.
Lemma mem_json_int k l : mem_json (jint k) (map jint l) = true <-> In k l.
Proof.
  unfold mem_json. induction l as [|n l IH]; cbn [map existsb In]; [split; [discriminate|tauto]|].
  rewrite orb_true_iff, IH. unfold jint at 1 2. cbn [json_eqb]. rewrite num_eqb_int, Z.eqb_eq. intuition lia.
Qed.

Lemma forallb_map_ok {A} (f : A -> outcome) l : forallb o_ok (map f l) = forallb (fun a => o_ok (f a)) l.
Proof. induction l as [|a l IH]; cbn [map forallb]; [reflexivity|]. now rewrite IH. Qed.

(** ** Assertions. *)
Lemma strings_flat l ts : strings l = Some ts -> flat_map (fun x => match x with JStr s => [s] | _ => [] end) l = ts.
Proof.
  revert ts. induction l as [|[| | |s0| |] l IH]; cbn [strings flat_map]; intros ts E; try discriminate; [congruence|].
  destruct (strings l) as [ss|]; cbn [obind] in E; [|discriminate]. injection E as <-. cbn [app]. now rewrite (IH ss).
Qed.

Lemma describes_any x ts : existsb (describes x) ts =
  mem_str (type_name (type_of x)) ts || match x with JNum n => mem_str (lit "integer") ts && integral n | _ => false end.
Proof.
  assert (E : existsb (describes x) ts = existsb (str_eqb (type_name (type_of x))) ts ||
    existsb (fun t => match x with JNum n => str_eqb (lit "integer") t && integral n | _ => false end) ts).
  { induction ts as [|t ts IH]; cbn [existsb]; [reflexivity|]. rewrite IH. unfold describes.
    rewrite <- !orb_assoc. f_equal. rewrite !orb_assoc. f_equal. apply orb_comm. }
  rewrite E. unfold mem_str. f_equal. destruct x as [| |n| | |]; try (clear; induction ts; auto; fail).
  clear E. induction ts as [|t ts IH]; cbn [existsb]; [reflexivity|]. rewrite IH. now rewrite andb_orb_distrib_l.
Qed.

Lemma num_integral_spec n b : num_integral n = Ok b -> b = integral n.
Proof. destruct n; cbn [num_integral integral]; congruence. Qed.

Lemma uniquified_bound seen l : length (uniquified seen l) <= length seen + length l.
Proof.
  revert seen. induction l as [|v l IH]; intro seen; cbn [uniquified length]; [lia|].
  destruct (existsb _ seen); [specialize (IH seen); lia|]. specialize (IH (seen ++ [v])). rewrite app_length in IH. cbn [length] in IH. lia.
Qed.
Lemma forallb_andb {A} (f g : A -> bool) l : forallb (fun a => f a && g a) l = forallb f l && forallb g l.
Proof. induction l as [|a l IH]; cbn [forallb]; [reflexivity|]. rewrite IH. now destruct (f a), (g a), (forallb f l), (forallb g l). Qed.
Lemma forallb_negb {A} (f : A -> bool) l : forallb (fun a => negb (f a)) l = negb (existsb f l).
Proof. induction l as [|a l IH]; cbn [forallb existsb]; [reflexivity|]. now rewrite IH, negb_orb. Qed.
Lemma forallb_same {A} (f g : A -> bool) l : (forall a, f a = g a) -> forallb f l = forallb g l.
Proof. intro H. induction l as [|a l IH]; cbn [forallb]; [reflexivity|]. now rewrite H, IH. Qed.
Lemma uniquified_distinct seen l : negb (length (uniquified seen l) <? length seen + length l) =
  forallb (fun v => negb (existsb (fun u => json_eqb u v) seen)) l && distinct l.
Proof.
  revert seen. induction l as [|v l IH]; intro seen; cbn [uniquified forallb distinct length].
  - destruct (Nat.ltb_spec (length seen) (length seen + 0)); [lia|reflexivity].
  - destruct (existsb (fun u => json_eqb u v) seen) eqn:E; cbn [negb andb].
    + pose proof (uniquified_bound seen l). destruct (Nat.ltb_spec (length (uniquified seen l)) (length seen + S (length l))); [reflexivity|lia].
    + specialize (IH (seen ++ [v])). rewrite app_length in IH. cbn [length] in IH.
      replace (length seen + 1 + length l) with (length seen + S (length l)) in IH by lia. rewrite IH.
      rewrite (forallb_same _ (fun w => negb (existsb (fun u => json_eqb u w) seen) && negb (json_eqb v w))).
      2: { intro w. rewrite existsb_app. cbn [existsb]. now rewrite orb_false_r, negb_orb. }
      rewrite forallb_andb, (forallb_negb (json_eqb v)). now rewrite andb_assoc.
Qed.

Lemma missing_names_spec (i : inst) l ns : strings l = Some ns ->
  (match missing_names i l with [] => true | _ => false end) = forallb (has_member i) ns.
Proof.
  revert ns. induction l as [|[| | |s0| |] l IH]; cbn [strings]; intros ns E; try discriminate; [now injection E as <-|].
  destruct (strings l) as [ss|]; cbn [obind] in E; [|discriminate]. injection E as <-.
  unfold missing_names in *. cbn [filter forallb]. destruct (has_member i s0); cbn [negb andb]; [now apply IH|reflexivity].
Qed.

Definition assertive (c : stdclass) : bool :=
  match c with
  | KType_ | KEnum | KConst | KMultipleOf | KMaximum | KExclusiveMaximum | KMinimum | KExclusiveMinimum | KMaxLength | KMinLength
  | KPattern | KMaxItems | KMinItems | KUniqueItems | KMaxProperties | KMinProperties | KRequired | KDependentRequired | KFormat => true
  | _ => false
  end.
Definition silent (c : stdclass) : bool :=
  match c with
  | KTitle | KDescription | KDefault | KDeprecated | KReadOnly | KWriteOnly | KExamples
  | KContentMediaType | KContentEncoding => true
  | _ => false
  end.

Lemma any_search_matches W rs name b : any_search W rs name = Ok b -> matches_any W rs name = Some b.
Proof.
  induction rs as [|r rs IH]; cbn [any_search matches_any]; [congruence|].
  destruct (w_search W r name) as [[|]|]; try discriminate; [congruence|exact IH].
Qed.

Lemma additional_spec W known patterns : forall (l : list (pystr * inst)) todo, additional W known patterns l = Ok todo ->
  let rest := filter (fun ni => negb (mem_str (fst ni) known)) l in
  exists bs, all_some (map (fun ni => matches_any W patterns (fst ni)) rest) = Some bs /\
    todo = map fst (filter (fun kb => negb (snd kb)) (combine rest bs)).
Proof.
  induction l as [|[name j] l IH]; intros todo; cbn [additional filter fst].
  { intros [= <-]. exists []. now split. }
  destruct (mem_str name known); cbn [negb]; [apply IH|].
  destruct (any_search W patterns name) as [m| |] eqn:A; cbn [bind]; try discriminate. apply any_search_matches in A.
  destruct (additional W known patterns l) as [rest| |] eqn:R; cbn [bind]; try discriminate. intros [= <-].
  destruct (IH rest eq_refl) as (bs & H1 & H2). exists (m :: bs). cbn [map all_some fst]. rewrite A. cbn zeta in *. rewrite H1.
  split; [reflexivity|]. cbn [combine filter snd]. rewrite H2. now destruct m.
Qed.

Lemma filter_combine_map {A B C} (f : A -> C) (g : B -> bool) : forall (l : list A) (bs : list B),
  map f (map fst (filter (fun ab => g (snd ab)) (combine l bs))) =
  map fst (filter (fun cb => g (snd cb)) (combine (map f l) bs)).
Proof.
  induction l as [|a l IH]; intros [|b bs]; cbn [combine map filter snd]; try reflexivity.
  destruct (g b); cbn [map fst]; now rewrite IH.
Qed.

Lemma combine_sub {A B} (g : B -> bool) : forall (l : list A) (bs : list B),
  incl (map fst (filter (fun ab => g (snd ab)) (combine l bs))) l.
Proof.
  induction l as [|a l IH]; intros [|b bs]; cbn [combine map filter snd]; try apply incl_nil_l.
  destruct (g b); cbn [map fst]; [|apply incl_tl, IH]. intros y [<-|H]; [now left|]. right. exact (IH bs y H).
Qed.
Lemma combine_NoDup {A B C} (f : A -> C) (g : B -> bool) : forall (l : list A) (bs : list B),
  NoDup (map f l) -> NoDup (map f (map fst (filter (fun ab => g (snd ab)) (combine l bs)))).
Proof.
  induction l as [|a l IH]; intros [|b bs]; cbn [combine map filter snd]; intro H; try constructor.
  inversion H as [|? ? H1 H2]; subst. destruct (g b); cbn [map fst]; [|now apply IH]. constructor; [|now apply IH].
  intro Q. apply H1. apply in_map_iff in Q. destruct Q as (y & Hy & Q). rewrite <- Hy. apply in_map. exact (combine_sub g l bs y Q).
Qed.
Lemma NoDup_map_filter {A C} (f : A -> C) (g : A -> bool) l : NoDup (map f l) -> NoDup (map f (filter g l)).
Proof.
  induction l as [|a l IH]; cbn [map filter]; intro H; [constructor|]. inversion H as [|? ? H1 H2]; subst.
  destruct (g a); cbn [map]; [|now apply IH]. constructor; [|now apply IH]. intro Q. apply H1.
  apply in_map_iff in Q. destruct Q as (y & Hy & Q). apply filter_In in Q. rewrite <- Hy. now apply in_map.
Qed.

(** ** Reading collected annotations. *)
Lemma last_evaluated_None last l : last_evaluated last l = Ok None -> In (JBool true) l.
Proof.
  revert last. induction l as [|a l IH]; intro last; cbn [last_evaluated]; [discriminate|].
  destruct a as [|[|]|[z| | |]| | |]; try discriminate; [now left|]. intro H. right. exact (IH _ H).
Qed.
Lemma last_evaluated_Some last l z : last_evaluated last l = Ok (Some z) ->
  ~ In (JBool true) l /\ (last <= z)%Z /\ (forall y, In (JNum (NInt y)) l -> (y <= z)%Z) /\ (z = last \/ In (JNum (NInt z)) l).
Proof.
  revert last. induction l as [|a l IH]; intro last; cbn [last_evaluated].
  { intros [= <-]. cbn [In]. repeat split; try tauto; lia. }
  destruct a as [|[|]|[y| | |]| | |]; try discriminate. intro H. destruct (IH _ H) as (H1 & H2 & H3 & H4).
  destruct (Z.gtb_spec y last); cbn [In]; (split; [intros [?|?]; [discriminate|auto]|]); (split; [lia|]); (split; [intros y' [[= <-]|?]; [lia|auto]|]).
  - destruct H4 as [->|?]; auto.
  - destruct H4; auto.
Qed.
Lemma last_evaluated_2019_None last l : last_evaluated_2019 last l = None -> In (JBool true) l.
Proof.
  revert last. induction l as [|a l IH]; intro last; cbn [last_evaluated_2019]; [discriminate|].
  destruct a as [|[|]|[z| | |]| | |]; intro H; try (right; exact (IH _ H)). now left.
Qed.
Lemma last_evaluated_2019_Some last l z : last_evaluated_2019 last l = Some z ->
  ~ In (JBool true) l /\ (last <= z)%Z /\ (forall y, In (JNum (NInt y)) l -> (y <= z)%Z) /\ (z = last \/ In (JNum (NInt z)) l).
Proof.
  revert last. induction l as [|a l IH]; intro last; cbn [last_evaluated_2019].
  { intros [= <-]. cbn [In]. repeat split; try tauto; lia. }
  destruct a as [|[|]|[y| | |]| | |]; try discriminate; intro H; destruct (IH _ H) as (H1 & H2 & H3 & H4); cbn [In];
    try (split; [intros [?|?]; [discriminate|auto]|]; split; [lia|]; split; [intros y' [?|?]; [discriminate|auto]|]; tauto).
  destruct (Z.gtb_spec y last); (split; [intros [?|?]; [discriminate|auto]|]); (split; [lia|]); (split; [intros y' [[= <-]|?]; [lia|auto]|]).
  - destruct H4 as [->|?]; auto.
  - destruct H4; auto.
Qed.
Lemma any_true_In l : any_true l = true <-> In (JBool true) l.
Proof.
  unfold any_true. rewrite existsb_exists. split.
  - intros (a & H & Ha). destruct a as [|[|]| | | |]; try discriminate. exact H.
  - intro H. exists (JBool true). now split.
Qed.
Lemma union_annots_mem l a v : union_annots l = Ok a -> (mem_json v a = true <-> exists b, In (JArr b) l /\ mem_json v b = true).
Proof.
  revert a. induction l as [|u l IH]; intro a; cbn [union_annots].
  { intros [= <-]. split; [discriminate|]. intros (b & [] & _). }
  destruct u as [| | | |b|]; try discriminate. destruct (union_annots l) as [r| |]; cbn [bind]; try discriminate. intros [= <-].
  unfold mem_json. rewrite existsb_app, orb_true_iff. fold (mem_json v b) (mem_json v r). rewrite (IH r eq_refl). split.
  - intros [H|(b' & H & H')]; [exists b|exists b']; cbn [In]; auto.
  - intros (b' & [[= ->]|H] & H'); [now left|right; eauto].
Qed.
Lemma mem_json_app v a b : mem_json v (a ++ b) = mem_json v a || mem_json v b.
Proof. apply existsb_app. Qed.

Lemma unskipped_fst skip : forall (l : list inst) k,
  map fst (unskipped skip k l) = filter (fun n => negb (mem_json (jint n) skip)) (seq k (length l)).
Proof.
  induction l as [|j l IH]; intro k; cbn [unskipped length seq filter]; [reflexivity|].
  destruct (mem_json (jint k) skip); cbn [negb map fst]; now rewrite IH.
Qed.
Lemma unskipped_snd skip : forall (l : list inst) k, incl (map snd (unskipped skip k l)) l.
Proof.
  induction l as [|j l IH]; intro k; cbn [unskipped]; [apply incl_nil_l|].
  destruct (mem_json (jint k) skip); cbn [map snd]; [apply incl_tl, IH|]. intros y [<-|H]; [now left|right; exact (IH _ y H)].
Qed.
Lemma unskipped_NoDup skip : forall (l : list inst) k, NoDup (map i_path l) -> NoDup (map i_path (map snd (unskipped skip k l))).
Proof.
  induction l as [|j l IH]; intro k; cbn [unskipped map]; intro H; [constructor|]. inversion H as [|? ? H1 H2]; subst.
  destruct (mem_json (jint k) skip); cbn [map snd]; [now apply IH|]. constructor; [|now apply IH].
  intro Q. apply H1. apply in_map_iff in Q. destruct Q as (y & <- & Q). apply in_map. exact (unskipped_snd skip l (S k) y Q).
Qed.
Lemma unskipped_vals skip : forall (l : list inst) k,
  map i_val (map snd (unskipped skip k l)) = map (fun n => nth (n - k) (map i_val l) JNull) (map fst (unskipped skip k l)).
Proof.
  induction l as [|j l IH]; intro k; cbn [unskipped map]; [reflexivity|].
  assert (S1 : map i_val (map snd (unskipped skip (S k) l)) =
    map (fun n => nth (n - k) (i_val j :: map i_val l) JNull) (map fst (unskipped skip (S k) l))).
  { rewrite IH. apply map_ext_in. intros n Hn. rewrite unskipped_fst in Hn. apply filter_In in Hn. destruct Hn as [Hn _]. apply in_seq in Hn.
    replace (n - k) with (S (n - S k)) by lia. reflexivity. }
  destruct (mem_json (jint k) skip); [exact S1|]. cbn [map snd fst]. rewrite S1. replace (k - k) with 0 by lia. reflexivity.
Qed.
Lemma filter_none {A} (f : A -> bool) l : (forall a, In a l -> f a = false) -> filter f l = [].
Proof.
  induction l as [|a l IH]; intro H; cbn [filter]; [reflexivity|]. rewrite (H a (or_introl eq_refl)). apply IH. intros; apply H; now right.
Qed.
Lemma filter_from g start len : filter (fun n => negb (n <? start) && g n) (seq 0 len) = filter g (seq start (len - start)).
Proof.
  destruct (Nat.le_gt_cases start len) as [H|H].
  - replace len with (start + (len - start)) at 1 by lia. rewrite seq_app, filter_app. cbn [Nat.add].
    rewrite filter_none; cbn [app].
    + apply filter_ext_in. intros n Hn. apply in_seq in Hn. destruct (Nat.ltb_spec n start); [lia|reflexivity].
    + intros n Hn. apply in_seq in Hn. destruct (Nat.ltb_spec n start); [reflexivity|lia].
  - replace (len - start) with 0 by lia. cbn [seq filter]. apply filter_none. intros n Hn. apply in_seq in Hn.
    destruct (Nat.ltb_spec n start); [reflexivity|lia].
Qed.
Lemma nth_skipn {A} (d : A) start : forall l n, nth n (skipn start l) d = nth (start + n) l d.
Proof. induction start as [|m IH]; intros [|a l] n; cbn [skipn Nat.add nth]; auto. now destruct n. Qed.

Section Kw.
Variable W : world.
Variable legacy : bool.
Variable ev : sid -> inst -> list sid -> rnode -> res rnode.
Variable jd : list sid -> sid -> json -> option outcome.
Hypothesis Hsim : sim W legacy ev jd.
Variable s : sid.
Variable anck sc : list sid.
Hypothesis Hst : stutter (s :: anck) sc.
Variable i : inst.
Hypothesis Hw : jwf (i_val i) = true.

Notation p := (i_path i).
Notation x := (i_val i).
Notation read := (read_keys legacy).

(** ** Result nodes of keywords. *)
Definition kbase (key : pystr) (v : kjson) (c : rnode) : Prop :=
  r_key c = Some key /\ r_inst c = p /\ stands W s v c /\ r_discard c = false.

(** A node as [Result.__call__] creates it. *)
Definition fresh (key : pystr) (v : kjson) (c : rnode) : Prop :=
  kbase key v c /\ r_children c = [] /\ r_valid c = true /\ r_assert c = true /\ r_annot c = JNull.

(** What the node of a keyword with value [v] looks like when the
    code judgement says [ko]. *)
Record kout (key : pystr) (v : kjson) (c : rnode) (ko : outcome) : Prop := {
  ko_base : kbase key v c;
  ko_under : under p c;
  ko_passed : passed c = o_ok ko;
  ko_con : o_ok ko = true -> contributes legacy p (width i) c ko
}.

Lemma kbase_under key v c : kbase key v c -> Forall (fun kc => under p (snd kc)) (r_children c) -> under p c.
Proof. intros (_ & E & _) H. apply under_eq. split; [exists []; now rewrite app_nil_r|exact H]. Qed.

Lemma kbase_frame key v c c' : frame c c' -> kbase key v c -> kbase key v c'.
Proof.
  intros F (A & B & C & D). pose proof (stands_frame W s v _ _ F C) as C'.
  destruct F as (F1 & F2 & F3 & F4 & F5 & F6 & F7). repeat split; try congruence; apply C'.
Qed.

Lemma kbase_with key v c cs : kbase key v c -> kbase key v (with_children c cs).
Proof. intro H. exact H. Qed.

(** Nodes that differ only in what collecting does not look at. *)
Definition like (a b : rnode) : Prop :=
  r_key b = r_key a /\ r_relpath b = r_relpath a /\ r_schema b = r_schema a /\ r_inst b = r_inst a /\
  r_valid b = r_valid a /\ r_discard b = r_discard a /\ r_annot b = r_annot a /\ r_children b = r_children a.

Lemma like_collect a b q key : like a b -> collect_annotations q key b = collect_annotations q key a.
Proof.
  intros (A & B & C & D & E & F & G & H). rewrite !collect_annotations_eq. unfold own_annotation.
  now rewrite A, D, E, F, G, H.
Qed.

Lemma like_contributes a b len o : like a b -> contributes legacy p len a o -> contributes legacy p len b o.
Proof.
  intros L [A B]. assert (E : forall key u, ann p key b u <-> ann p key a u).
  { intros key u. unfold ann. now rewrite (like_collect a b _ _ L). }
  assert (EN : forall name, CName p name b <-> CName p name a).
  { intro name. unfold CName. split; intros (key & l & H1 & H2 & H3); exists key, l; (split; [exact H1|]); (split; [now apply E|exact H3]). }
  assert (EP : forall k, CEval legacy p k b <-> CEval legacy p k a).
  { intro k. unfold CEval, CPlace, CFound. split.
    - intros [[H|[H|[H|(z & H & Hz)]]]|(Lg & l & H & Hl)]; apply E in H;
        [left; now left|left; right; now left|left; right; right; now left|left; right; right; right; now exists z|right; split; [exact Lg|now exists l]].
    - intros [[H|[H|[H|(z & H & Hz)]]]|(Lg & l & H & Hl)]; apply E in H;
        [left; now left|left; right; now left|left; right; right; now left|left; right; right; right; now exists z|right; split; [exact Lg|now exists l]]. }
  constructor; intros; rewrite ?EN, ?EP; auto.
Qed.

(** A keyword whose subschema was evaluated straight into its node. *)
Lemma inplace_kout key v c0 c1 o : fresh key v c0 -> post legacy i c0 c1 o -> kout key v c1 o.
Proof.
  intros (B & C0 & V & A & N) (cs & F & C & U & V1 & R). rewrite C0 in C. cbn [app] in C. rewrite V in V1. cbn [andb] in V1.
  pose proof (kbase_frame _ _ _ _ F B) as B1.
  constructor; [exact B1| | |].
  - apply (kbase_under _ _ _ B1). rewrite C. revert U. apply Forall_impl. now intros kc (_ & _ & H).
  - unfold passed. destruct F as (_ & _ & _ & _ & F5 & _). rewrite V1, F5, A. cbn. now rewrite orb_false_r.
  - intros O. apply contributes_rel.
    + now rewrite V1.
    + apply B1.
    + left. destruct F as (_ & _ & _ & _ & _ & _ & F7). now rewrite F7.
    + rewrite C. now apply R.
Qed.

Lemma kout_like key v a b o : like a b -> r_assert b = r_assert a -> kout key v a o -> kout key v b o.
Proof.
  intros L A [H1 H2 H3 H4]. pose proof L as (L1 & L2 & L3 & L4 & L5 & L6 & L7 & L8). destruct H1 as (B1 & B2 & B3 & B4).
  constructor.
  - repeat split; try congruence; [destruct B3; congruence|]. destruct B3 as [_ B3]. unfold schema_node in *. now rewrite L2, L3.
  - rewrite under_eq in *. now rewrite L4, L8.
  - unfold passed. now rewrite L5, A.
  - intros O. apply (like_contributes a); auto.
Qed.

(** A node with deeper children only and nothing to say. *)
Lemma silent_kout key v c b : kbase key v c -> Forall (deeper p) (r_children c) -> transparent legacy c ->
  passed c = b -> kout key v c (plain b).
Proof.
  intros B D T P. constructor; [exact B| |exact P|].
  - apply (kbase_under _ _ _ B). now apply deeper_under.
  - intros _. destruct B as (_ & B2 & _ & B4). now apply contributes_nothing.
Qed.

(** The subschemas of a keyword on the same instance. *)
Lemma branches_kout key v c0 cs os b c : fresh key v c0 -> Forall2 (sub_ok legacy i) cs os ->
  (b = true -> frame (with_children c0 (r_children c0 ++ cs)) c \/ (exists a, c = annotate (with_children c0 (r_children c0 ++ cs)) a /\ ~ In key read)) ->
  (b = true -> r_children c = r_children c0 ++ cs /\ r_valid c = true) ->
  (b = false -> exists e, c = fail (with_children c0 (r_children c0 ++ cs)) e) ->
  kout key v c (gather b os).
Proof.
  intros (B & C0 & V & A & N) H Hb Hv Hf. rewrite C0 in *. cbn [app] in *.
  assert (U : Forall (fun kc => under p (snd kc)) cs).
  { clear - H. induction H as [|kc o cs os Hc H IH]; constructor; [apply Hc|exact IH]. }
  destruct b.
  - destruct (Hv eq_refl) as [C1 V1]. destruct (Hb eq_refl) as [F|(a & -> & Nr)].
    + pose proof (kbase_frame _ _ _ _ F B) as B1. constructor; [exact B1| | |].
      * apply (kbase_under _ _ _ B1). now rewrite C1.
      * unfold passed. now rewrite V1.
      * intros _. apply contributes_rel; [exact V1|apply B1| |].
        { left. destruct F as (_ & _ & _ & _ & _ & _ & F7). rewrite F7. exact N. }
        rewrite C1. now apply (branches_rel legacy).
    + constructor; [exact B|apply (kbase_under key v); [exact B|exact U]|unfold passed; now rewrite V1|].
      intros _. apply contributes_rel; [exact V1|apply B| |rewrite C1; now apply (branches_rel legacy)].
      right. destruct B as (B1 & _). cbn [annotate with_children r_key]. now rewrite B1.
  - destruct (Hf eq_refl) as (e & ->). constructor; [exact B|apply (kbase_under key v); [exact B|exact U]| |].
    + unfold passed. cbn [fail with_children r_valid r_assert]. now rewrite A.
    + discriminate.
Qed.

Lemma kw_branches key l c0 r1 bs (b : bool) msg : fresh key (KSubs l) c0 ->
  branches ev i anck 0 l c0 = Ok (r1, bs) ->
  exists os, all_some (map (fun t => jd sc t x) l) = Some os /\ bs = map o_ok os /\
    kout key (KSubs l) (if b then r1 else fail r1 msg) (gather b os).
Proof.
  intros F E. pose proof F as (B & C0 & V & A & N).
  destruct (branches_spec W legacy ev jd Hsim s anck sc Hst (KSubs l) i Hw l 0 c0 r1 bs (proj1 (proj2 (proj2 B)))
    (fun j t H => leads_subs W l j t H)) as (os & cs & H1 & H2 & H3 & H4); [|exact E|].
  { intros j _. now rewrite C0. }
  exists os. split; [exact H1|]. split; [exact H2|]. subst r1. apply (branches_kout _ _ c0 cs); auto; destruct b; try discriminate.
  - intros _. left. apply frame_refl.
  - intros _. split; [reflexivity|exact V].
  - intros _. eauto.
Qed.

Lemma kw_allOf key l c0 c : fresh key (KSubs l) c0 -> e_allOf ev l i anck c0 = Ok c ->
  exists os, all_some (map (fun t => jd sc t x) l) = Some os /\ kout key (KSubs l) c (gather (all_accept os) os).
Proof.
  intros F. unfold e_allOf. destruct (branches ev i anck 0 l c0) as [[r1 bs]| |] eqn:E; cbn [bind]; try discriminate. intros [= <-].
  destruct (kw_branches key l c0 r1 bs (forallb id bs) (JStr (lit "The instance is invalid against subschemas " ++ indices false bs)) F E) as (os & H1 & -> & H).
  exists os. split; [exact H1|]. rewrite forallb_ok in H. now rewrite forallb_ok.
Qed.
Lemma kw_anyOf key l c0 c : fresh key (KSubs l) c0 -> e_anyOf ev l i anck c0 = Ok c ->
  exists os, all_some (map (fun t => jd sc t x) l) = Some os /\ kout key (KSubs l) c (gather (existsb o_ok os) os).
Proof.
  intros F. unfold e_anyOf. destruct (branches ev i anck 0 l c0) as [[r1 bs]| |] eqn:E; cbn [bind]; try discriminate. intros [= <-].
  destruct (kw_branches key l c0 r1 bs (existsb id bs) (JStr (lit "The instance must be valid against at least one subschema")) F E) as (os & H1 & -> & H).
  exists os. split; [exact H1|]. rewrite existsb_ok in H. now rewrite existsb_ok.
Qed.
Lemma kw_oneOf key l c0 c : fresh key (KSubs l) c0 -> e_oneOf ev l i anck c0 = Ok c ->
  exists os, all_some (map (fun t => jd sc t x) l) = Some os /\ kout key (KSubs l) c (gather (Nat.eqb (count os) 1) os).
Proof.
  intros F. unfold e_oneOf. destruct (branches ev i anck 0 l c0) as [[r1 bs]| |] eqn:E; cbn [bind]; try discriminate. intro X. apply (f_equal (fun r => match r with Ok n => n | _ => c end)) in X. cbv beta iota in X. subst c.
  destruct (kw_branches key l c0 r1 bs (Nat.eqb (length (positions true 0 bs)) 1) (JStr (lit "The instance must be valid against exactly one subschema; it is valid against "
    ++ indices true bs ++ lit " and invalid against " ++ indices false bs)) F E) as (os & H1 & -> & H).
  exists os. split; [exact H1|]. rewrite positions_true, map_length, accepted_length in H. now rewrite positions_true, map_length, accepted_length.
Qed.

Lemma has_member_has name : has_member i name = has x name.
Proof.
  clear Hw. unfold has_member, has, members. destruct x as [| | | | |m]; try reflexivity. unfold dmem.
  induction m as [|[k v] m IH]; cbn [dget existsb fst]; [reflexivity|]. destruct (str_eqb name k); [reflexivity|exact IH].
Qed.

Lemma kw_dependentSchemas key m c0 c : fresh key (KSubm m) c0 -> NoDup (keys m) -> ~ In key read ->
  e_dependentSchemas ev m i anck c0 = Ok c ->
  exists os, all_some (map (fun nt => jd sc (snd nt) x) (filter (fun nt => has x (fst nt)) m)) = Some os /\
    kout key (KSubm m) c (gather (all_accept os) os).
Proof.
  intros F Nd Nr. pose proof F as (B & C0 & V & A & N). unfold e_dependentSchemas.
  destruct (dependents ev i anck m c0) as [[r1 [good bad]]| |] eqn:E; cbn [bind]; try discriminate.
  destruct (dependents_spec W legacy ev jd Hsim s anck sc Hst (KSubm m) i Hw m c0 r1 good bad (proj1 (proj2 (proj2 B))))
    as (os & cs & H1 & H2 & H3 & H4); auto.
  { intros name t H. apply leads_subm. now apply In_dget. }
  { intros name _. now rewrite C0. }
  intro X. exists os. split.
  { erewrite map_ext, filter_ext; [exact H1| |reflexivity]. intro a. cbn beta. now rewrite has_member_has. }
  unfold all_accept. subst r1. destruct (forallb o_ok os) eqn:Fb.
  - rewrite (proj2 H2 eq_refl) in X. injection X as <-. apply (branches_kout _ _ c0 cs); auto; try discriminate.
    intros _. right. eexists. split; [reflexivity|exact Nr].
  - destruct bad as [|b0 bad]; [destruct H2 as [H2 _]; specialize (H2 eq_refl); congruence|]. injection X as <-.
    apply (branches_kout _ _ c0 cs); auto; try discriminate. eauto.
Qed.

(** Annotations of a node with deeper children only. *)
Lemma ann_inv key n a : r_inst n = p -> r_discard n = false -> Forall (deeper p) (r_children n) -> ann p key n a ->
  a <> JNull /\ r_annot n = a /\ r_key n = Some key.
Proof.
  intros I D H Ha. destruct (r_valid n) eqn:V; [|now apply ann_invalid in Ha]. apply ann_own in Ha; auto.
Qed.

Lemma names_not_places key : In key name_keys -> ~ In key [tuple_key legacy; rest_key legacy; lit "unevaluatedItems"; lit "contains"].
Proof.
  unfold tuple_key, rest_key, name_keys. destruct legacy; cbn [In]; intros [<-|[<-|[<-|[<-|[]]]]]; vm_compute; intuition discriminate.
Qed.
Lemma contains_not_places : ~ In (lit "contains") [tuple_key legacy; rest_key legacy; lit "unevaluatedItems"].
Proof. unfold tuple_key, rest_key. destruct legacy; vm_compute; intuition discriminate. Qed.
Lemma rest_not_tuple : rest_key legacy <> tuple_key legacy.
Proof. unfold tuple_key, rest_key. destruct legacy; vm_compute; discriminate. Qed.
Lemma uneval_not_tuple : lit "unevaluatedItems" <> tuple_key legacy.
Proof. unfold tuple_key, rest_key. destruct legacy; vm_compute; discriminate. Qed.

(** properties and its relatives: the annotation lists names. *)
Lemma names_contribute key v c len b l names : kbase key v c -> Forall (deeper p) (r_children c) -> In key name_keys ->
  r_valid c = true -> r_annot c = JArr (map JStr l) -> (forall n, In n l <-> In n names) ->
  contributes legacy p len c (mkO b names [] []).
Proof.
  intros (B1 & B2 & B3 & B4) D K V A E.
  assert (EV : evaluated_at legacy (mkO b names [] []) = []) by (unfold evaluated_at; now destruct legacy).
  assert (NK : forall k', In k' [tuple_key legacy; rest_key legacy; lit "unevaluatedItems"; lit "contains"] -> forall a, ~ ann p k' c a).
  { intros k' Hk' a Ha. apply ann_inv in Ha; auto. destruct Ha as (_ & _ & Ha). rewrite B1 in Ha. injection Ha as <-.
    exact (names_not_places key K Hk'). }
  constructor; rewrite ?EV.
  - intro name. cbn [o_names]. rewrite <- E. split.
    + intros (k' & l' & Hk & Ha & Hl). apply ann_inv in Ha; auto. destruct Ha as (_ & Ha & _). rewrite A in Ha. injection Ha as <-.
      now apply mem_json_str.
    + intro H. exists key, (map JStr l). split; [exact K|]. split; [|now apply mem_json_str].
      apply ann_own; auto. repeat split; auto. discriminate.
  - intros k _. split; [|intros []]. intros [[H|[H|[H|(z & H & _)]]]|(_ & l' & H & _)]; exfalso.
    + exact (NK _ (or_introl eq_refl) _ H).
    + exact (NK _ (or_intror (or_introl eq_refl)) _ H).
    + exact (NK _ (or_intror (or_intror (or_introl eq_refl))) _ H).
    + exact (NK _ (or_introl eq_refl) _ H).
    + exact (NK _ (or_intror (or_intror (or_intror (or_introl eq_refl)))) _ H).
Qed.

Lemma no_names key v c : kbase key v c -> Forall (deeper p) (r_children c) -> ~ In key name_keys -> forall name, ~ CName p name c.
Proof.
  intros (B1 & B2 & B3 & B4) D K name (k' & l & Hk & Ha & _). apply ann_inv in Ha; auto. destruct Ha as (_ & _ & Ha).
  congruence.
Qed.

Lemma place_not_name key : In key [tuple_key legacy; rest_key legacy; lit "unevaluatedItems"; lit "contains"] -> ~ In key name_keys.
Proof. intros H1 H2. exact (names_not_places key H2 H1). Qed.

(** items and its relatives, with the annotation True. *)
Lemma true_contributes key v c len o : kbase key v c -> Forall (deeper p) (r_children c) ->
  In key [tuple_key legacy; rest_key legacy; lit "unevaluatedItems"] ->
  r_valid c = true -> r_annot c = JBool true -> o_names o = [] ->
  (forall k, k < len -> In k (evaluated_at legacy o)) ->
  contributes legacy p len c o.
Proof.
  intros B D K V A N S. pose proof B as (B1 & B2 & B3 & B4). constructor.
  - intro name. rewrite N. split; [|intros []]. intro H. exfalso. refine (no_names key v c B D _ name H).
    apply place_not_name. cbn [In] in *. tauto.
  - intros k Hk. split; [intros _; now apply S|]. intros _. left. assert (Ha : ann p key c (JBool true)) by (apply ann_own; auto; repeat split; auto; discriminate).
    cbn [In] in K. unfold CPlace. destruct K as [<-|[<-|[<-|[]]]]; tauto.
Qed.

(** The tuple form, with the last position. *)
Lemma index_contributes v c len o (last : nat) : kbase (tuple_key legacy) v c -> Forall (deeper p) (r_children c) ->
  r_valid c = true -> r_annot c = jint last -> o_names o = [] ->
  (forall k, k < len -> (In k (evaluated_at legacy o) <-> k <= last)) ->
  contributes legacy p len c o.
Proof.
  intros B D V A N S. pose proof B as (B1 & B2 & B3 & B4). constructor.
  - intro name. rewrite N. split; [|intros []]. intro H. exfalso. refine (no_names _ v c B D _ name H).
    apply place_not_name. now left.
  - intros k Hk. rewrite (S k Hk). split; intro H.
    2: { left. right. right. right. exists (Z.of_nat last). split; [|lia]. apply ann_own; auto. repeat split; auto. discriminate. }
    destruct H as [[H|[H|[H|(z & H & Hz)]]]|(_ & l' & H & _)]; apply ann_inv in H; auto; destruct H as (_ & H & Hk').
    + rewrite A in H. discriminate.
    + rewrite A in H. discriminate.
    + rewrite A in H. discriminate.
    + rewrite A in H. injection H as <-. lia.
    + rewrite A in H. discriminate.
Qed.

(** contains. *)
Lemma found_contributes v c len b l : kbase (lit "contains") v c -> Forall (deeper p) (r_children c) ->
  (r_valid c = true \/ l = []) -> r_annot c = JArr (map jint l) ->
  contributes legacy p len c (mkO b [] [] l).
Proof.
  intros B D V A. pose proof B as (B1 & B2 & B3 & B4). constructor; cbn [o_names].
  - intro name. split; [|intros []]. intro H. exfalso. refine (no_names _ v c B D _ name H).
    apply place_not_name. cbn [In]. tauto.
  - intros k Hk. split; intro H.
    2: { unfold evaluated_at in H. cbn [o_places o_found app] in H. right. destruct legacy; [destruct H|]. split; [reflexivity|].
         destruct V as [V| ->]; [|destruct H]. exists (map jint l). split; [|now apply mem_json_int].
         apply ann_own; auto. repeat split; auto. discriminate. }
    unfold evaluated_at. cbn [o_places o_found app].
    destruct H as [[H|[H|[H|(z & H & Hz)]]]|(Lg & l' & H & Hl)].
    5: { rewrite Lg. apply ann_inv in H; auto. destruct H as (_ & H & _). rewrite A in H. injection H as <-. now apply mem_json_int. }
    all: exfalso; apply ann_inv in H; auto; destruct H as (_ & H & _); rewrite A in H; discriminate.
Qed.

(** ** Keywords evaluated into their own node on the same instance. *)
Lemma fresh_clean key v c0 : fresh key v c0 -> clean p c0.
Proof. intros (_ & C & _). unfold clean. rewrite C. constructor. Qed.

Lemma kw_inplace key v t c0 c1 : fresh key v c0 -> (v = KSub t \/ exists w, v = KJ w) -> ev t i anck c0 = Ok c1 ->
  exists o, jd sc t x = Some o /\ post legacy i c0 c1 o /\ kout key v c1 o.
Proof.
  intros F Hv E. pose proof F as (B & C0 & V & A & N). pose proof B as (_ & _ & B3 & B4).
  destruct (ev_inplace W legacy ev jd Hsim s anck sc Hst v t i c0 c1 Hw B3 Hv (fresh_clean _ _ _ F) N B4 E) as (o & Ho & P).
  exists o. split; [exact Ho|]. split; [exact P|]. exact (inplace_kout key v c0 c1 o F P).
Qed.

Lemma kw_reference key w t c0 c1 c : fresh key (KJ w) c0 -> ev t i anck c0 = Ok c1 -> c = refschema c1 t ->
  exists o, jd sc t x = Some o /\ kout key (KJ w) c o.
Proof.
  intros F E ->. destruct (kw_inplace key (KJ w) t c0 c1 F (or_intror (ex_intro _ w eq_refl)) E) as (o & Ho & _ & K).
  exists o. split; [exact Ho|]. revert K. apply kout_like; [repeat split|reflexivity].
Qed.

Lemma kw_not key t c0 c : fresh key (KSub t) c0 -> e_not ev t i anck c0 = Ok c ->
  exists o, jd sc t x = Some o /\ kout key (KSub t) c (mkO (negb (o_ok o)) (o_names o) (o_places o) (o_found o)).
Proof.
  intros F. unfold e_not. destruct (ev t i anck c0) as [c1| |] eqn:E; cbn [bind]; try discriminate. intros [= <-].
  destruct (kw_inplace key (KSub t) t c0 c1 F (or_introl eq_refl) E) as (o & Ho & P & [K1 K2 K3 K4]).
  exists o. split; [exact Ho|]. rewrite K3.
  pose proof P as (cs & (_ & _ & _ & _ & F5 & _ & F7) & C & _ & _ & R). destruct F as (_ & C0 & V & A & N).
  constructor.
  - now destruct (o_ok o).
  - rewrite under_eq in *. now destruct (o_ok o).
  - unfold passed. destruct (o_ok o); cbn [fail pass_ r_valid r_assert o_ok negb orb]; [now rewrite F5, A|reflexivity].
  - cbn [o_ok]. destruct (o_ok o); [discriminate|]. intros _. cbn [negb].
    assert (Q : Rel legacy p (width i) (r_children c1) o) by (rewrite C, C0; exact (R V)).
    assert (Q' : contributes legacy p (width i) (pass_ c1) o).
    { apply contributes_rel; [reflexivity|apply K1|left; cbn [pass_ r_annot]; now rewrite F7|exact Q]. }
    destruct Q' as [Q1 Q2]. constructor; [exact Q1|exact Q2].
Qed.

Lemma kw_if key t c0 c : fresh key (KSub t) c0 -> e_if ev t i anck c0 = Ok c ->
  exists o, jd sc t x = Some o /\ r_valid c = o_ok o /\ kout key (KSub t) c (gather true [o]).
Proof.
  intros F. unfold e_if. destruct (ev t i anck c0) as [c1| |] eqn:E; cbn [bind]; try discriminate. intros [= <-].
  destruct (kw_inplace key (KSub t) t c0 c1 F (or_introl eq_refl) E) as (o & Ho & P & K).
  exists o. split; [exact Ho|]. destruct K as [K1 K2 K3 K4].
  assert (V : r_valid c1 = o_ok o).
  { destruct P as (cs & _ & _ & _ & V & _). rewrite V. destruct F as (_ & _ & -> & _). reflexivity. }
  split; [exact V|]. constructor.
  - exact K1.
  - rewrite under_eq in *. exact K2.
  - unfold passed. cbn [noassert r_assert negb]. now rewrite orb_true_r.
  - intros _. apply (like_contributes c1 (noassert c1)); [repeat split|]. destruct (o_ok o) eqn:O.
    + specialize (K4 eq_refl). destruct K4 as [N1 N2]. unfold gather. cbn [filter]. rewrite O. cbn [flat_map].
      assert (EV : forall k, In k (evaluated_at legacy (mkO true (o_names o ++ []) (o_places o ++ []) (o_found o ++ []))) <-> In k (evaluated_at legacy o)).
      { intro k. unfold evaluated_at. cbn [o_places o_found]. rewrite !app_nil_r. reflexivity. }
      constructor; cbn [o_names].
      * intro name. rewrite app_nil_r. apply N1.
      * intros k Hk. now rewrite (N2 k Hk), EV.
    + unfold gather. cbn [filter]. rewrite O. cbn [flat_map].
      assert (EV : evaluated_at legacy (mkO true [] [] []) = []) by apply evaluated_plain.
      constructor; rewrite ?EV; cbn [o_names].
      * intro name. split; [|intros []]. intro H. exfalso. exact (CName_invalid p name c1 V H).
      * intros k _. split; [|intros []]. intro H. exact (CEval_invalid legacy p k c1 V H).
Qed.

(** ** Loops over items and members. *)
Lemma kw_each key v t c0 l r bs : fresh key v c0 -> (v = KSub t \/ exists w, v = KJ w) ->
  Forall (fun j => (exists y, i_path j = p ++ [y]) /\ jwf (i_val j) = true) l -> NoDup (map i_path l) ->
  each ev t anck l c0 = Ok (r, bs) ->
  exists os, judge_all jd sc t (map i_val l) = Some os /\ bs = map o_ok os /\ frame c0 r /\
    r_valid r = true /\ Forall (deeper p) (r_children r).
Proof.
  intros (B & C0 & V & A & N) Hv Hl Hn E. pose proof B as (_ & _ & B3 & B4).
  refine (each_spec W legacy ev jd Hsim s anck sc Hst v t p Hv l c0 r bs Hl Hn _ B3 N B4 V A _ E).
  - apply Forall_forall. intros j _. unfold clean. rewrite C0. constructor.
  - rewrite C0. constructor.
Qed.

Lemma frame_kbase key v c0 r : fresh key v c0 -> frame c0 r -> kbase key v r /\ r_assert r = true /\ r_annot r = JNull.
Proof.
  intros (B & C0 & V & A & N) F. split; [exact (kbase_frame _ _ _ _ F B)|].
  destruct F as (_ & _ & _ & _ & F5 & _ & F7). split; congruence.
Qed.

(** A loop that failed for some item. *)
Lemma failed_kout key v r e o : kbase key v r -> r_assert r = true -> Forall (deeper p) (r_children r) -> o_ok o = false ->
  kout key v (fail r e) o.
Proof.
  intros B A D O. constructor; [exact B| | |rewrite O; discriminate].
  - apply (kbase_under key v); [exact B|]. now apply deeper_under.
  - unfold passed. cbn [fail r_valid r_assert]. now rewrite A, O.
Qed.

Lemma seq_all start len k : start <= len -> (In k (seq start (len - start)) <-> start <= k < len).
Proof. intro H. rewrite in_seq. lia. Qed.

Lemma evaluated_places b names pl : forall k, In k (evaluated_at legacy (mkO b names pl [])) <-> In k pl.
Proof. intro k. unfold evaluated_at. cbn [o_places o_found]. destruct legacy; [reflexivity|now rewrite app_nil_r]. Qed.

Lemma Forall_skipn {A} (P : A -> Prop) n : forall l, Forall P l -> Forall P (skipn n l).
Proof. induction n as [|n IH]; intros l H; [exact H|]. destruct H as [|a l Ha H]; [constructor|]. now apply IH. Qed.
Lemma NoDup_skipn {A} n : forall l : list A, NoDup l -> NoDup (skipn n l).
Proof. induction n as [|n IH]; intros l H; [exact H|]. destruct H as [|a l Ha H]; [constructor|]. now apply IH. Qed.
Lemma skipn_map {A B} (f : A -> B) n : forall l, skipn n (map f l) = map f (skipn n l).
Proof. induction n as [|n IH]; intros [|a l]; cbn; auto. Qed.

Lemma items_below : Forall (fun j => (exists y, i_path j = p ++ [y]) /\ jwf (i_val j) = true) (items_of i).
Proof. exact (items_of_below i Hw). Qed.

Lemma kw_items_from key v t start c0 c : fresh key v c0 -> (v = KSub t \/ exists w, v = KJ w) -> key = rest_key legacy ->
  e_items_from ev start t i anck c0 = Ok c ->
  exists o, code_rest jd sc start t (items x) = Some o /\ kout key v c o.
Proof.
  intros F Hv Hk. unfold e_items_from. destruct (each ev t anck _ c0) as [[r bs]| |] eqn:E; cbn [bind]; try discriminate.
  destruct (kw_each key v t c0 (skipn start (items_of i)) r bs F Hv (Forall_skipn _ _ _ items_below)) as (os & H1 & -> & Fr & V & D); [|exact E|].
  { rewrite <- skipn_map. apply NoDup_skipn, items_of_distinct. }
  rewrite <- skipn_map, items_of_vals in H1. destruct (frame_kbase _ _ _ _ F Fr) as (B & A & N).
  unfold code_rest. rewrite H1. cbn [obind].
  pose proof (all_some_length _ _ H1) as L. rewrite map_length, skipn_length in L.
  intro X. eexists. split; [reflexivity|]. destruct (all_accept os) eqn:Al.
  - rewrite (proj2 (positions_false start _) (eq_trans (forallb_ok os) Al)) in X. injection X as <-.
    destruct os as [|o os].
    + cbn [map all_or_none].
      apply silent_kout; [exact B|exact D|now left|]. unfold passed. cbn [annotate r_valid]. now rewrite V.
    + constructor; [exact B| |unfold passed; cbn [annotate r_valid map]; now rewrite V|].
      { apply (kbase_under key v); [exact B|]. now apply deeper_under. }
      intros _. apply (true_contributes key v); auto.
      * rewrite Hk. cbn [In]. tauto.
      * intros k Hlt. unfold width in Hlt. apply evaluated_places. apply in_seq. lia.
  - destruct (positions false start (map o_ok os)) as [|e0 er] eqn:Po.
    { apply positions_false in Po. rewrite forallb_ok in Po. congruence. }
    injection X as <-. now apply failed_kout.
Qed.

Lemma pairs_contribute v c b n : kbase (tuple_key legacy) v c -> Forall (deeper p) (r_children c) -> r_valid c = true ->
  (n = 0 /\ r_annot c = JNull) \/ (n = width i /\ r_annot c = JBool true) \/ (exists m, n = S m /\ r_annot c = jint m) ->
  contributes legacy p (width i) c (mkO b [] (seq 0 n) []).
Proof.
  intros B D V [[-> A]|[[-> A]|(m & -> & A)]].
  - apply contributes_nothing; [apply B|apply B|exact D|now left].
  - apply (true_contributes (tuple_key legacy) v); auto; [now left|]. intros k Hk. apply evaluated_places, in_seq. lia.
  - apply (index_contributes v) with (last := m); auto. intros k Hk. rewrite evaluated_places, in_seq. lia.
Qed.

Lemma items_deep : Forall (fun j => (exists q, q <> [] /\ i_path j = p ++ q) /\ jwf (i_val j) = true) (items_of i).
Proof.
  generalize items_below. apply Forall_impl. intros j [(y & Hy) Hj]. split; [|exact Hj]. exists [y]. split; [discriminate|exact Hy].
Qed.

(** The tuple form: the loop, and the shape of the node it leaves. *)
Lemma kw_pairs key l c0 r bs : fresh key (KSubs l) c0 -> pairwise ev anck 0 (items_of i) l c0 = Ok (r, bs) ->
  exists os, all_some (map (fun tx => jd sc (fst tx) (snd tx)) (combine l (items x))) = Some os /\ bs = map o_ok os /\
    judge_pairs jd sc l (items x) = Some (mkO (all_accept os) [] (seq 0 (min (length l) (width i))) []) /\
    length os = min (length l) (width i) /\
    kbase key (KSubs l) r /\ r_assert r = true /\ r_annot r = JNull /\ r_valid r = true /\ Forall (deeper p) (r_children r).
Proof.
  intros (B & C0 & V & A & N) E. pose proof B as (_ & _ & B3 & _).
  destruct (pairwise_spec W legacy ev jd Hsim s anck sc Hst (KSubs l) p (items_of i) l 0 c0 r bs items_deep B3
    (fun j t H => leads_subs W l j t H)) as (os & cs & H1 & H2 & -> & D); [rewrite C0; constructor|exact E|].
  rewrite items_of_vals in H1. exists os. split; [exact H1|]. split; [exact H2|].
  split; [unfold judge_pairs; rewrite H1; reflexivity|].
  split; [rewrite (all_some_length _ _ H1), map_length, combine_length; reflexivity|].
  repeat (split; [solve [exact B|exact A|exact N|exact V]|]). exact D.
Qed.

Lemma kw_prefixItems key l c0 c : fresh key (KSubs l) c0 -> key = tuple_key legacy -> e_prefixItems ev l i anck c0 = Ok c ->
  exists o, judge_pairs jd sc l (items x) = Some o /\ kout key (KSubs l) c o.
Proof.
  intros F Hk. unfold e_prefixItems. destruct (pairwise ev anck 0 _ l c0) as [[r bs]| |] eqn:E; cbn [bind]; try discriminate.
  destruct (kw_pairs key l c0 r bs F E) as (os & H1 & -> & J & L & B & A & N & V & D). intro X.
  eexists. split; [exact J|]. destruct (all_accept os) eqn:Al.
  - rewrite (proj2 (positions_false 0 _) (eq_trans (forallb_ok os) Al)) in X. rewrite items_of_length in X.
    assert (Y : r_children c = r_children r /\ r_valid c = true /\ r_assert c = true /\ kbase key (KSubs l) c /\
      ((min (length l) (width i) = 0 /\ r_annot c = JNull) \/ (min (length l) (width i) = width i /\ r_annot c = JBool true) \/
       (exists m, min (length l) (width i) = S m /\ r_annot c = jint m))).
    { rewrite <- L. destruct os as [|o os]; cbn [map] in X; injection X as <-.
      - split; [reflexivity|]. split; [exact V|]. split; [exact A|]. split; [exact B|]. left. now split.
      - split; [reflexivity|]. split; [exact V|]. split; [exact A|]. split; [exact B|]. right. rewrite map_length in *.
        cbn [annotate r_annot length Nat.eqb]. destruct (width i) as [|w]; [right; eauto|]. destruct (Nat.eqb_spec (length os) w) as [Q|Q]; [left; rewrite Q; now split|right; eauto]. }
    destruct Y as (Y1 & Y2 & Y3 & Y4 & Y5). rewrite <- Y1 in D.
    constructor; [exact Y4|apply (kbase_under _ _ _ Y4); now apply deeper_under|unfold passed; now rewrite Y2|].
    intros _. subst key. now apply (pairs_contribute (KSubs l)).
  - destruct (positions false 0 (map o_ok os)) as [|e0 er] eqn:Po.
    { apply positions_false in Po. rewrite forallb_ok in Po. congruence. }
    injection X as <-. now apply failed_kout.
Qed.

(** contains: its node before minContains and maxContains come into play. *)
Lemma kw_contains key t c0 c : fresh key (KSub t) c0 -> e_contains ev t i anck c0 = Ok c ->
  exists os, judge_all jd sc t (items x) = Some os /\ kbase key (KSub t) c /\ Forall (deeper p) (r_children c) /\
    r_assert c = true /\ r_annot c = JArr (map jint (accepted 0 os)) /\ r_valid c = negb (Nat.eqb (count os) 0).
Proof.
  intros F. unfold e_contains. destruct (each ev t anck _ c0) as [[r bs]| |] eqn:E; cbn [bind]; try discriminate.
  destruct (kw_each key (KSub t) t c0 _ r bs F (or_introl eq_refl) items_below (items_of_distinct i) E) as (os & H1 & -> & Fr & V & D).
  rewrite items_of_vals in H1. destruct (frame_kbase _ _ _ _ F Fr) as (B & A & N). intros [= <-].
  exists os. split; [exact H1|]. rewrite positions_true. rewrite <- (accepted_length 0 os).
  destruct (accepted 0 os) as [|a l]; cbn [map length Nat.eqb negb];
  repeat (split; [solve [exact B|exact D|exact A|reflexivity]|]); [reflexivity|exact V].
Qed.

Lemma members_deep : Forall (fun ni => (exists q, q <> [] /\ i_path (snd ni) = p ++ q) /\ jwf (i_val (snd ni)) = true) (members_of i).
Proof.
  generalize (members_of_below i Hw). apply Forall_impl. intros j [Hy Hj]. split; [|exact Hj]. eexists. split; [|exact Hy]. discriminate.
Qed.

(** A filter over members, on instance nodes and on values. *)
Lemma members_filter (f : pystr -> bool) : forall l : list (pystr * inst),
  map (fun ni => (fst ni, i_val (snd ni))) (filter (fun ni => f (fst ni)) l) =
  filter (fun kv => f (fst kv)) (map (fun ni => (fst ni, i_val (snd ni))) l).
Proof.
  induction l as [|ni l IH]; cbn [filter map fst]; [reflexivity|]. destruct (f (fst ni)); cbn [map]; now rewrite IH.
Qed.

Lemma kw_properties key m c0 c : fresh key (KSubm m) c0 -> In key name_keys -> e_properties ev m i anck c0 = Ok c ->
  let present := filter (fun kv => dmem (fst kv) m) (members x) in
  exists os, all_some (map (fun kv => obind (dget (fst kv) m) (fun t => jd sc t (snd kv))) present) = Some os /\
    kout key (KSubm m) c (mkO (all_accept os) (map fst present) [] []).
Proof.
  intros F Hk. unfold e_properties. destruct (named ev m anck _ c0) as [[r [good bad]]| |] eqn:E; cbn [bind]; try discriminate.
  pose proof F as (B & C0 & V & A & N). pose proof B as (_ & _ & B3 & _).
  destruct (named_spec W legacy ev jd Hsim s anck sc Hst (KSubm m) m p (fun n t H => leads_subm W m n t H)
    (members_of i) c0 r good bad members_deep B3) as (os & cs & H1 & H2 & H3 & -> & D); [rewrite C0; constructor|exact E|].
  intros X. cbn zeta in *.
  pose proof (members_filter (fun n => dmem n m) (members_of i)) as MF. rewrite members_of_vals in MF. rewrite <- MF, !map_map. cbn [fst snd].
  exists os. split; [exact H1|]. unfold all_accept. destruct (forallb o_ok os) eqn:Al.
  - rewrite (proj2 H2 eq_refl) in X. injection X as <-. constructor; [exact B| |unfold passed; cbn [annotate r_valid with_children]; now rewrite V|].
    { apply (kbase_under key (KSubm m)); [exact B|]. now apply deeper_under. }
    intros _. apply (names_contribute key (KSubm m)) with (l := good); auto. intro n. now rewrite (H3 (proj2 H2 eq_refl)).
  - destruct bad as [|b0 bad]; [destruct H2 as [H2 _]; specialize (H2 eq_refl); congruence|]. injection X as <-.
    now apply failed_kout.
Qed.

Lemma kw_patternProperties key m c0 c : fresh key (KSubm m) c0 -> In key name_keys -> NoDup (keys m) ->
  e_patternProperties W ev m i anck c0 = Ok c ->
  exists os, all_some (map (fun kv =>
        obind (all_some (map (fun rt => w_search W (fst rt) (fst kv)) m)) (fun bs =>
        let hits := map fst (filter snd (combine (map snd m) bs)) in
        obind (all_some (map (fun t => jd sc t (snd kv)) hits)) (fun os =>
        Some (mkO (all_accept os) (match hits with [] => [] | _ => [fst kv] end) [] [])))) (members x)) = Some os /\
    kout key (KSubm m) c (mkO (all_accept os) (flat_map o_names os) [] []).
Proof.
  intros F Hk Nd. unfold e_patternProperties. destruct (patterned W ev m anck _ c0) as [[r [good bad]]| |] eqn:E; cbn [bind]; try discriminate.
  pose proof F as (B & C0 & V & A & N). pose proof B as (_ & _ & B3 & _).
  assert (Hl : forall regex t, In (regex, t) m -> leads W (KSubm m) regex t).
  { intros regex t H. apply leads_subm. now apply In_dget. }
  destruct (patterned_spec W legacy ev jd Hsim s anck sc Hst (KSubm m) p m Hl
    (members_of i) c0 r good bad members_deep B3) as (os & cs & H1 & H2 & H3 & -> & D); [rewrite C0; constructor|exact E|].
  intros X. cbn zeta in *.
  rewrite <- members_of_vals, map_map. cbn [fst snd].
  exists os. split; [exact H1|]. unfold all_accept. destruct (forallb o_ok os) eqn:Al.
  - rewrite (proj2 H2 eq_refl) in X. injection X as <-. constructor; [exact B| |unfold passed; cbn [annotate r_valid with_children]; now rewrite V|].
    { apply (kbase_under key (KSubm m)); [exact B|]. now apply deeper_under. }
    intros _. apply (names_contribute key (KSubm m)) with (l := dedup [] good); auto. intro n. rewrite dedup_In, (H3 (proj2 H2 eq_refl)).
    cbn [In]. tauto.
  - destruct bad as [|b0 bad]; [destruct H2 as [H2 _]; specialize (H2 eq_refl); congruence|]. injection X as <-.
    now apply failed_kout.
Qed.

Lemma kw_members key v t todo c0 c : fresh key v c0 -> (v = KSub t \/ exists w, v = KJ w) -> In key name_keys ->
  Forall (fun ni => i_path (snd ni) = p ++ [fst ni] /\ jwf (i_val (snd ni)) = true) todo -> NoDup (map fst todo) ->
  e_members ev todo t anck c0 = Ok c ->
  exists os, judge_all jd sc t (map (fun ni => i_val (snd ni)) todo) = Some os /\
    kout key v c (mkO (all_accept os) (map fst todo) [] []).
Proof.
  intros F Hv Hk Ht Hn. unfold e_members. destruct (each ev t anck _ c0) as [[r bs]| |] eqn:E; cbn [bind]; try discriminate.
  assert (Hp : map i_path (map snd todo) = map (fun n => p ++ [n]) (map fst todo)).
  { rewrite !map_map. apply map_ext_in. intros ni H. rewrite Forall_forall in Ht. apply (Ht ni H). }
  destruct (kw_each key v t c0 (map snd todo) r bs F Hv) as (os & H1 & -> & Fr & V & D); [| |exact E|].
  { apply Forall_map. revert Ht. apply Forall_impl. intros ni [H H']. split; [eexists; exact H|exact H']. }
  { rewrite Hp. apply FinFun.Injective_map_NoDup; [|exact Hn]. intros a b Q. apply app_inv_head in Q. congruence. }
  rewrite map_map in H1. destruct (frame_kbase _ _ _ _ F Fr) as (B & A & N).
  pose proof (all_some_length _ _ H1) as L. rewrite !map_length in L. intro X.
  exists os. split; [exact H1|].
  assert (L' : length todo = length (map o_ok os)) by (rewrite map_length; congruence).
  pose proof (failing_nil (fun ni : pystr * inst => JStr (fst ni)) todo (map o_ok os) L') as FN. rewrite forallb_ok in FN.
  destruct (all_accept os) eqn:Al.
  - rewrite (proj2 FN eq_refl) in X. injection X as <-.
    constructor; [exact B| |unfold passed; cbn [annotate r_valid]; now rewrite V|].
    { apply (kbase_under key v); [exact B|]. now apply deeper_under. }
    intros _. apply (names_contribute key v) with (l := map fst todo); auto; [|tauto]. cbn [annotate r_annot]. now rewrite map_map.
  - destruct (failing _ todo (map o_ok os)) as [|e0 er]; [destruct FN as [FN _]; specialize (FN eq_refl); congruence|].
    injection X as <-. now apply failed_kout.
Qed.

Lemma kw_propertyNames key t c0 c : fresh key (KSub t) c0 -> e_propertyNames ev t i anck c0 = Ok c ->
  exists os, judge_all jd sc t (map (fun kv => JStr (fst kv)) (members x)) = Some os /\
    kout key (KSub t) c (plain (all_accept os)).
Proof.
  intros F. unfold e_propertyNames. set (todo := map _ (members_of i)).
  destruct (each ev t anck _ c0) as [[r bs]| |] eqn:E; cbn [bind]; try discriminate.
  assert (Ht : Forall (fun ni => i_path (snd ni) = p ++ [fst ni] /\ jwf (i_val (snd ni)) = true) todo).
  { unfold todo. apply Forall_map. cbn [fst snd i_path i_val]. generalize (members_of_below i Hw). apply Forall_impl. intros ni [H _]. now split. }
  assert (Hn : NoDup (map fst todo)).
  { unfold todo. rewrite map_map. cbn [fst]. now apply members_of_distinct. }
  assert (Hp : map i_path (map snd todo) = map (fun n => p ++ [n]) (map fst todo)).
  { rewrite !map_map. apply map_ext_in. intros ni H. rewrite Forall_forall in Ht. apply (Ht ni H). }
  destruct (kw_each key (KSub t) t c0 (map snd todo) r bs F (or_introl eq_refl)) as (os & H1 & -> & Fr & V & D); [| |exact E|].
  { apply Forall_map. revert Ht. apply Forall_impl. intros ni [H H']. split; [eexists; exact H|exact H']. }
  { rewrite Hp. apply FinFun.Injective_map_NoDup; [|exact Hn]. intros a b Q. apply app_inv_head in Q. congruence. }
  destruct (frame_kbase _ _ _ _ F Fr) as (B & A & N).
  assert (EV : map i_val (map snd todo) = map (fun kv => JStr (fst kv)) (members x)).
  { unfold todo. rewrite <- (members_of_vals i), !map_map. reflexivity. }
  rewrite EV in H1. pose proof (all_some_length _ _ H1) as L. rewrite <- EV, !map_length in L. intro X.
  exists os. split; [exact H1|].
  assert (L' : length todo = length (map o_ok os)) by (rewrite map_length; congruence).
  pose proof (failing_nil (fun ni : pystr * inst => JStr (fst ni)) todo (map o_ok os) L') as FN. rewrite forallb_ok in FN.
  destruct (all_accept os) eqn:Al.
  - rewrite (proj2 FN eq_refl) in X. injection X as <-.
    apply silent_kout; [exact B|exact D|now left|unfold passed; now rewrite V].
  - destruct (failing _ todo (map o_ok os)) as [|e0 er]; [destruct FN as [FN _]; specialize (FN eq_refl); congruence|].
    injection X as <-. now apply failed_kout.
Qed.

(** ** Assertions. *)
Lemma has_has name : has x name = has_member i name.
Proof. symmetry. apply has_member_has. Qed.

Lemma check_kout key v c0 b msg : fresh key v c0 -> kout key v (check b msg c0) (plain b).
Proof.
  intros (B & C0 & V & A & N).
  assert (E : kbase key v (check b msg c0) /\ r_children (check b msg c0) = [] /\ r_annot (check b msg c0) = JNull /\ passed (check b msg c0) = b).
  { unfold check. destruct b; (split; [exact B|split; [exact C0|split; [exact N|]]]); unfold passed; cbn [fail r_valid r_assert]; rewrite ?V, ?A; reflexivity. }
  destruct E as (E1 & E2 & E3 & E4). apply silent_kout; auto; [rewrite E2; constructor|now left].
Qed.

Lemma limit_kout key v c0 c bad y before after : fresh key v c0 -> (exists n, v = KJ (JNum n)) -> limit W bad y v before after c0 = Ok c ->
  exists b, limit_ok (fun a b => negb (bad a b)) y v = Some b /\ kout key v c (plain b).
Proof.
  intros F (n & ->) E. apply limit_tells in E. destruct E as (m & t & Hm & ->). injection Hm as <-. eexists. split; [reflexivity|]. now apply check_kout.
Qed.

Lemma forallb_has ns : forallb (has x) ns = forallb (has_member i) ns.
Proof. apply forallb_same. intro. apply has_has. Qed.

Lemma dependents_missing m b : missing_dependents i m = Ok b ->
  forallb (fun kv => match snd kv with JArr l => match strings l with Some _ => true | None => false end | _ => false end) m = true ->
  exists bs, all_some (map (fun kv => match snd kv with
      | JArr l => obind (strings l) (fun ns => Some (negb (has x (fst kv)) || forallb (has x) ns))
      | _ => None end) m) = Some bs /\ forallb id bs = match b with [] => true | _ => false end.
Proof.
  revert b. induction m as [|[name deps] m IH]; intros b; cbn [missing_dependents map forallb snd fst all_some].
  { intros [= <-] _. exists []. now split. }
  intros E V. apply andb_true_iff in V. destruct V as [V1 V2]. destruct deps as [| | | |l|]; try discriminate.
  destruct (strings l) as [ns|] eqn:Sl; [|discriminate]. cbn [obind]. rewrite has_has, forallb_has.
  rewrite <- (missing_names_spec i l ns Sl). destruct (has_member i name) eqn:H; cbn [negb orb] in *.
  - destruct (missing_dependents i m) as [b'| |]; cbn [bind] in E; try discriminate. injection E as <-.
    destruct (IH b' eq_refl V2) as (bs & -> & Hb). eexists. split; [reflexivity|]. cbn [forallb id]. rewrite Hb.
    now destruct (missing_names i l).
  - destruct (IH b E V2) as (bs & -> & Hb). eexists. split; [reflexivity|]. cbn [forallb id]. now rewrite Hb.
Qed.

Lemma checked key v c0 b msg c : fresh key v c0 -> Ok (check b msg c0) = Ok c -> kout key v c (plain b).
Proof. intros F [= <-]. now apply check_kout. Qed.

Lemma told_kout key v c0 b msg c : fresh key v c0 -> tell b msg c0 = Ok c -> kout key v c (plain b).
Proof. intros F E. apply tell_ok in E. destruct E as [t ->]. now apply check_kout. Qed.

Lemma kw_assertion key k cl anc parent c0 c : fresh key (kw_json k) c0 -> ~ In (lit "format") read ->
  (cl = KFormat -> key = lit "format") ->
  value_ok k = true -> kw_class k = Std cl -> assertive cl = true -> applicable k i = true ->
  eval_std W ev k cl i anc parent c0 = Ok c ->
  exists b, assertion W k cl x = Some b /\ kout key (kw_json k) c (plain b).
Proof.
  intros F Nf Kf Vk Hc As Ap E. unfold value_ok in Vk. rewrite Hc in Vk. apply andb_true_iff in Vk. destruct Vk as [_ Vk].
  unfold applicable in Ap. rewrite Hc in Ap. apply andb_true_iff in Ap. destruct Ap as [_ Ap].
  destruct cl; try discriminate As; clear As; cbn [eval_std assertion] in *.
  all: try (destruct (kw_json k) as [[| |n| | |]| | |]; try discriminate Vk;
            unfold inst_num, inst_len in E; destruct x; try discriminate Ap;
            solve [apply (limit_kout key _ c0 c _ _ _ _ F (ex_intro _ n eq_refl) E)]).
  - (* type *)
    assert (TS : exists ts, type_names (kw_json k) = ts /\ match kw_json k with
        | KJ (JStr t) => Some (describes x t)
        | KJ (JArr l) => obind (strings l) (fun ts => Some (existsb (describes x) ts))
        | _ => None end = Some (existsb (describes x) ts)).
    { destruct (kw_json k) as [[| | |t|l|]| | |]; try discriminate Vk; cbn [type_names].
      - exists [t]. cbn [existsb]. rewrite orb_false_r. now split.
      - destruct (strings l) as [ts|] eqn:Sl; [|discriminate]. exists ts. split; [now apply strings_flat|reflexivity]. }
    destruct TS as (ts & T1 & T2). rewrite T2. eexists. split; [reflexivity|].
    unfold e_type in E. rewrite T1 in E. rewrite describes_any.
    destruct (mem_str (type_name (type_of x)) ts) eqn:M; cbn [bind orb] in *.
    { solve [exact (checked _ _ _ _ _ _ F E)|exact (told_kout _ _ _ _ _ _ F E)]. }
    destruct x as [| |n| | |]; try (solve [exact (checked _ _ _ _ _ _ F E)|exact (told_kout _ _ _ _ _ _ F E)]).
    destruct (mem_str (lit "integer") ts); cbn [andb] in *; [|solve [exact (checked _ _ _ _ _ _ F E)|exact (told_kout _ _ _ _ _ _ F E)]].
    destruct (num_integral n) as [b| |] eqn:I; cbn [bind] in E; try discriminate.
    rewrite <- (num_integral_spec _ _ I). solve [exact (checked _ _ _ _ _ _ F E)|exact (told_kout _ _ _ _ _ _ F E)].
  - (* enum *)
    unfold e_enum in E. destruct (kw_json k) as [[| | | |l|]| | |]; try discriminate Vk. cbn [iterated bind] in E.
    eexists. split; [reflexivity|]. solve [exact (checked _ _ _ _ _ _ F E)|exact (told_kout _ _ _ _ _ _ F E)].
  - (* const *)
    unfold e_const in E. destruct (kw_json k) as [u| | |]; try discriminate E.
    eexists. split; [reflexivity|]. solve [exact (checked _ _ _ _ _ _ F E)|exact (told_kout _ _ _ _ _ _ F E)].
  - (* multipleOf *)
    unfold e_multipleOf, inst_num in E. destruct (kw_json k) as [[| |n| | |]| | |]; try discriminate Vk. destruct x; try discriminate Ap.
    eexists. split; [reflexivity|]. solve [exact (checked _ _ _ _ _ _ F E)|exact (told_kout _ _ _ _ _ _ F E)].
  - (* pattern *)
    unfold e_pattern in E. destruct (kw_json k) as [[| | |r| |]| | |]; try discriminate E. destruct x as [| | |t| |]; try discriminate.
    destruct (w_search W r t) as [b|]; try discriminate. eexists. split; [reflexivity|]. solve [exact (checked _ _ _ _ _ _ F E)|exact (told_kout _ _ _ _ _ _ F E)].
  - (* uniqueItems *)
    unfold e_uniqueItems in E. destruct (kw_json k) as [[|b| | | |]| | |]; try discriminate Vk. destruct x as [| | | |l|]; try discriminate.
    cbn [truthy] in E. eexists. split; [reflexivity|].
    pose proof (uniquified_distinct [] l) as U. cbn [existsb length] in U. rewrite Nat.add_0_l in U.
    assert (U' : forallb (fun _ : json => negb false) l = true) by (clear; induction l; auto).
    rewrite U' in U. cbn [andb] in U. destruct b; cbn [negb orb].
    + rewrite U in E. solve [exact (checked _ _ _ _ _ _ F E)|exact (told_kout _ _ _ _ _ _ F E)].
    + injection E as <-. exact (check_kout key _ c0 true [] F).
  - (* required *)
    unfold e_required in E. destruct (kw_json k) as [[| | | |l|]| | |]; try discriminate Vk. cbn [iterated_nodes bind] in E. destruct (strings l) as [ns|] eqn:Sl; [|discriminate].
    destruct x eqn:Ex; try discriminate. rewrite <- Ex. cbn [obind]. eexists. split; [reflexivity|].
    rewrite forallb_has, <- (missing_names_spec i l ns Sl). solve [exact (checked _ _ _ _ _ _ F E)|exact (told_kout _ _ _ _ _ _ F E)].
  - (* dependentRequired *)
    unfold e_dependentRequired in E. destruct (kw_json k) as [[| | | | |m]| | |]; try discriminate Vk. cbn [iterated_items bind] in E.
    destruct (missing_dependents i m) as [b| |] eqn:Md; cbn [bind] in E; try discriminate.
    destruct (dependents_missing m b Md Vk) as (bs & Hb & Hb').
    destruct x eqn:Ex; try discriminate. rewrite <- Ex. try rewrite <- Ex in Hb. cbn [obind]. rewrite Hb. cbn [obind].
    eexists. split; [reflexivity|]. rewrite Hb'. solve [exact (checked _ _ _ _ _ _ F E)|exact (told_kout _ _ _ _ _ _ F E)].
  - (* format *)
    unfold e_format in E. destruct (kw_json k) as [[| | |a| |]| | |]; try discriminate Vk.
    specialize (Kf eq_refl). subst key. pose proof F as (B & C0 & V & A & N).
    assert (K : forall c' b', kbase (lit "format") (KJ (JStr a)) c' -> r_children c' = [] -> passed c' = b' -> kout (lit "format") (KJ (JStr a)) c' (plain b')).
    { intros c' b' B' C' P'. apply silent_kout; auto; [rewrite C'; constructor|]. right. destruct B' as (-> & _). exact Nf. }
    destruct (kw_format k) as [types|]; [|injection E as <-; eexists; split; [reflexivity|]; apply K; auto; unfold passed; now rewrite orb_true_r].
    unfold mem_type in E. destruct (existsb (jtype_eqb (type_of x)) types); cbn [negb orb].
    + injection E as <-. eexists. split; [reflexivity|]. destruct (w_format W a x); cbn [check].
      * apply K; auto. unfold passed. cbn [annotate r_valid]. now rewrite V.
      * apply K; auto. unfold passed. cbn [annotate fail r_valid r_assert]. now rewrite A.
    + injection E as <-. eexists. split; [reflexivity|]. apply K; auto. unfold passed. cbn [noassert r_assert]. now rewrite orb_true_r.
Qed.

Lemma kw_annotation key v c0 c : fresh key v c0 -> ~ In key read -> e_annotation v c0 = Ok c ->
  kout key v c (plain true).
Proof.
  intros (B & C0 & V & A & N) Nr. unfold e_annotation. destruct v as [v| | |]; try discriminate. intros [= <-].
  apply silent_kout; [exact B|cbn [noassert annotate r_children]; rewrite C0; constructor| |].
  - right. destruct B as (Bk & _). cbn [noassert annotate r_key]. rewrite Bk. exact Nr.
  - unfold passed. cbn [noassert r_assert]. now rewrite orb_true_r.
Qed.

(** ** Keywords that look at their siblings. *)
Lemma kw_branch key want t parent c0 c : fresh key (KSub t) c0 -> e_branch ev want t i anck parent c0 = Ok c ->
  match sibling parent i (lit "if") with
  | Some n => if Bool.eqb (r_valid n) want then exists o, jd sc t x = Some o /\ kout key (KSub t) c o else c = discard c0
  | None => c = discard c0
  end.
Proof.
  intros F. unfold e_branch. destruct (sibling parent i (lit "if")) as [n|]; [|congruence].
  destruct (Bool.eqb (r_valid n) want); [|congruence]. intro E.
  destruct (kw_inplace key (KSub t) t c0 c F (or_introl eq_refl) E) as (o & Ho & _ & K). eauto.
Qed.

Lemma kw_items key t parent c0 c (o : option (list sid)) : fresh key (KSub t) c0 -> key = rest_key legacy ->
  match o with
  | Some l => exists n, sibling parent i (lit "prefixItems") = Some n /\ stands W s (KSubs l) n
  | None => sibling parent i (lit "prefixItems") = None
  end ->
  let start := match o with Some l => length l | None => 0 end in
  e_items W ev t i anck parent c0 = Ok c ->
  exists ko, code_rest jd sc start t (items x) = Some ko /\ kout key (KSub t) c ko.
Proof.
  intros F Hk Ho start. unfold e_items. destruct o as [l|].
  - destruct Ho as (n & -> & _ & Hn). destruct (schema_node W n) as [sn| |]; cbn [bind]; try discriminate.
    destruct (Hn sn eq_refl) as [->|(w & ->)]; [|discriminate]. cbn [sn_of]. intro E.
    exact (kw_items_from key (KSub t) t (length l) c0 c F (or_introl eq_refl) Hk E).
  - rewrite Ho. intro E. exact (kw_items_from key (KSub t) t 0 c0 c F (or_introl eq_refl) Hk E).
Qed.

Lemma code_rest_min a t l : code_rest jd sc (min a (length l)) t l = code_rest jd sc a t l.
Proof.
  unfold code_rest. destruct (Nat.le_gt_cases a (length l)) as [H|H].
  - now rewrite Nat.min_l.
  - rewrite Nat.min_r by lia. now rewrite !skipn_all2 by lia.
Qed.

Lemma kw_additionalItems key t (ts : list sid) n parent c0 c : fresh key (KSub t) c0 -> key = rest_key legacy ->
  ts <> [] -> 0 < width i ->
  sibling parent i (lit "items") = Some n -> r_annot n = jint (pred (min (length ts) (width i))) ->
  e_additionalItems ev t i anck parent c0 = Ok c ->
  exists ko, code_rest jd sc (length ts) t (items x) = Some ko /\ kout key (KSub t) c ko.
Proof.
  intros F Hk Ht Hwd Hn Ha. unfold e_additionalItems. rewrite Hn, Ha. unfold jint. intro E.
  assert (L : 0 < length ts) by (destruct ts; [congruence|cbn; lia]).
  assert (Z1 : Z.to_nat (Z.of_nat (Nat.pred (Nat.min (length ts) (width i))) + 1) = Nat.min (length ts) (width i)) by lia.
  rewrite Z1 in E. rewrite <- code_rest_min. fold (width i).
  exact (kw_items_from key (KSub t) t _ c0 c F (or_introl eq_refl) Hk E).
Qed.

Lemma sibling_names_spec parent key names (o : option (list (pystr * sid))) :
  match o with
  | Some m => exists n, sibling parent i key = Some n /\ stands W s (KSubm m) n
  | None => sibling parent i key = None
  end -> sibling_names W parent i key = Ok names -> names = names_under o.
Proof.
  intro Ho. unfold sibling_names. destruct o as [m|].
  - destruct Ho as (n & -> & _ & Hn). destruct (schema_node W n) as [sn| |]; cbn [bind]; try discriminate.
    destruct (Hn sn eq_refl) as [->|(w & ->)]; [|discriminate]. cbn [sn_of names_under]. unfold keys. congruence.
  - rewrite Ho. cbn [names_under]. congruence.
Qed.

Lemma kw_additionalProperties key t parent c0 c (o1 o2 : option (list (pystr * sid))) :
  fresh key (KSub t) c0 -> In key name_keys ->
  match o1 with
  | Some m => exists n, sibling parent i (lit "properties") = Some n /\ stands W s (KSubm m) n
  | None => sibling parent i (lit "properties") = None
  end ->
  match o2 with
  | Some m => exists n, sibling parent i (lit "patternProperties") = Some n /\ stands W s (KSubm m) n
  | None => sibling parent i (lit "patternProperties") = None
  end ->
  e_additionalProperties W ev t i anck parent c0 = Ok c ->
  let rest := filter (fun kv => negb (mem_str (fst kv) (names_under o1))) (members x) in
  exists bs, all_some (map (fun kv => matches_any W (names_under o2) (fst kv)) rest) = Some bs /\
  exists ko, judge_members jd sc t (map fst (filter (fun kb => negb (snd kb)) (combine rest bs))) = Some ko /\
    kout key (KSub t) c ko.
Proof.
  intros F Hk H1 H2. unfold e_additionalProperties.
  destruct (sibling_names W parent i (lit "properties")) as [known| |] eqn:S1; cbn [bind]; try discriminate.
  destruct (sibling_names W parent i (lit "patternProperties")) as [patterns| |] eqn:S2; cbn [bind]; try discriminate.
  rewrite (sibling_names_spec _ _ _ _ H1 S1), (sibling_names_spec _ _ _ _ H2 S2).
  destruct (additional W _ _ (members_of i)) as [todo| |] eqn:Ad; cbn [bind]; try discriminate. intro E. cbn zeta.
  destruct (additional_spec W _ _ _ _ Ad) as (bs & A1 & A2). cbn zeta in A1, A2.
  pose proof (members_filter (fun n => negb (mem_str n (names_under o1))) (members_of i)) as MF. rewrite members_of_vals in MF.
  rewrite <- MF. rewrite map_map. cbn [fst]. exists bs. split; [exact A1|].
  assert (Ft : Forall (fun ni => i_path (snd ni) = p ++ [fst ni] /\ jwf (i_val (snd ni)) = true) todo).
  { rewrite A2. apply Forall_forall. intros ni Hin. apply (combine_sub negb) in Hin. apply filter_In in Hin.
    pose proof (members_of_below i Hw) as MB. rewrite Forall_forall in MB. now apply MB. }
  assert (Nt : NoDup (map fst todo)).
  { rewrite A2. apply (combine_NoDup fst negb). apply NoDup_map_filter. now apply members_of_distinct. }
  destruct (kw_members key (KSub t) t todo c0 c F (or_introl eq_refl) Hk Ft Nt E) as (os & J & K).
  rewrite <- (filter_combine_map (fun ni : pystr * inst => (fst ni, i_val (snd ni))) negb). rewrite <- A2.
  unfold judge_members. rewrite !map_map. cbn [fst snd]. rewrite J. cbn [obind]. eexists. split; [reflexivity|exact K].
Qed.

(** ** items of 2019-09. *)

Lemma judge_bools sc' t b l : (forall y, jd sc' t y = Some (plain b)) -> judge_all jd sc' t l = Some (map (fun _ => plain b) l).
Proof. intro H. unfold judge_all. induction l as [|y l IH]; cbn [map all_some]; [reflexivity|]. now rewrite H, IH. Qed.

Lemma kw_items_2019 key v c0 c : fresh key v c0 -> legacy = true -> key = tuple_key legacy ->
  match v with KSub _ => True | KSubs (_ :: _) => True | _ => False end ->
  e_items_2019 W ev v i anck c0 = Ok c ->
  exists ko, match v with
             | KSub t => match w_schema W t with
                         | SBool _ => match items x with [] => Some (plain true) | _ => jd sc t x end
                         | SObj _ => judge_rest jd sc 0 t (items x)
                         end
             | KSubs ts => judge_pairs jd sc ts (items x)
             | _ => None
             end = Some ko /\ kout key v c ko /\
    match v with
    | KSubs ts => o_ok ko = true -> (width i = 0 /\ r_annot c = JNull) \/ (0 < width i /\ r_annot c = jint (pred (min (length ts) (width i))))
    | _ => r_annot c = JNull \/ r_annot c = JBool true
    end /\ (o_ok ko = false -> r_annot c = JNull).
Proof.
  intros F Lg Hk Hv. pose proof F as (B & C0 & V & A & N). unfold e_items_2019.
  pose proof (items_of_length i) as Li. pose proof (items_of_vals i) as Vi.
  destruct (items_of i) as [|j0 js] eqn:Ij.
  { intros [= <-]. cbn [map length] in *. rewrite <- Vi. rewrite <- Li.
    assert (K : kout key v c0 (plain true)).
    { apply silent_kout; auto; [rewrite C0; constructor|now left|unfold passed; now rewrite V]. }
    destruct v as [w|t|ts|m]; try contradiction.
    - exists (plain true). split; [now destruct (w_schema W t)|]. split; [exact K|]. split; [now left|discriminate].
    - exists (plain true). split; [|split; [exact K|split; [now left|discriminate]]].
      unfold judge_pairs. rewrite combine_nil. cbn [map all_some obind length]. now rewrite Nat.min_0_r. }
  rewrite <- Ij in *. assert (Wp : 0 < width i) by (rewrite <- Li, Ij; cbn; lia).
  assert (Ej : forall (Q : res rnode), match items_of i with [] => Ok c0 | _ :: _ => Q end = Q) by (intro Q; now rewrite Ij).
  clear Ij j0 js. destruct v as [w|t|ts|m]; try contradiction.
  - destruct (w_schema W t) as [b|kws] eqn:Wt.
    + intro E.
      destruct (kw_inplace key (KSub t) t c0 c F (or_introl eq_refl) E) as (o & Ho & P & [K1 K2 K3 K4]).
      assert (Rn : r_annot c = JNull) by (destruct P as (cs & (_ & _ & _ & _ & _ & _ & F7) & _); congruence).
      unfold width in Wp. destruct (items x) as [|y l]; [cbn in Wp; lia|].
      exists o. split; [exact Ho|]. split; [|split; [now left|now intros]]. constructor; auto.
    + destruct (each_noreset ev t anck (items_of i) c0) as [r| |] eqn:E; cbn [bind]; try discriminate. intros [= <-].
      destruct (each_noreset_spec W legacy ev jd Hsim s anck sc Hst (KSub t) t p (or_introl eq_refl) (items_of i) c0 r items_below
        (items_of_distinct i)) as (os & H1 & Fr & V1 & D); auto; try apply B.
      { apply Forall_forall. intros j _. unfold clean. rewrite C0. constructor. }
      { rewrite C0. constructor. }
      rewrite Vi in H1. destruct (frame_kbase _ _ _ _ F Fr) as (B' & A' & N'). rewrite V in V1. cbn [andb] in V1.
      unfold judge_rest. cbn [skipn]. rewrite H1. cbn [obind]. eexists. split; [reflexivity|].
      assert (Pr : passed r = forallb o_ok os) by (unfold passed; now rewrite V1, A', orb_false_r).
      rewrite Pr. unfold all_accept. destruct (forallb o_ok os) eqn:Al; cbn [o_ok].
      * split; [|split; [now right|discriminate]]. constructor; [exact B'| |unfold passed; cbn [annotate r_valid]; now rewrite V1|].
        { apply (kbase_under key (KSub t)); [exact B'|]. now apply deeper_under. }
        intros _. apply (true_contributes key (KSub t)); auto.
        { rewrite Hk. now left. }
        intros k Hlt. apply evaluated_places, in_seq. unfold width in Hlt. lia.
      * split; [|split; [left; exact N'|intros _; exact N']]. constructor; [exact B'| |unfold passed; now rewrite V1, A'|discriminate].
        apply (kbase_under key (KSub t)); [exact B'|]. now apply deeper_under.
  - destruct ts as [|t0 ts0]; [contradiction|]. set (ts := t0 :: ts0) in *.
    destruct (pairwise ev anck 0 (items_of i) ts c0) as [[r bs]| |] eqn:E; cbn [bind]; try discriminate.
    destruct (kw_pairs key ts c0 r bs F E) as (os & H1 & -> & J & L & B' & A' & N' & V' & D). intro X.
    eexists. split; [exact J|]. cbn [o_ok].
    assert (Lp : 0 < length os) by (rewrite L; unfold ts; cbn [length]; lia).
    destruct (all_accept os) eqn:Al.
    + rewrite (proj2 (positions_false 0 _) (eq_trans (forallb_ok os) Al)) in X.
      destruct os as [|o os]; [cbn in Lp; lia|]. cbn [map] in X. rewrite map_length in X. cbn [length] in L. injection X as <-.
      split; [|split; [intros _; right; split; [exact Wp|cbn [annotate r_annot]; now rewrite <- L]|discriminate]].
      constructor; [exact B'|apply (kbase_under key (KSubs ts)); [exact B'|now apply deeper_under]|unfold passed; cbn [annotate r_valid]; now rewrite V'|].
      intros _. subst key. apply (pairs_contribute (KSubs ts)); auto. right. right. exists (length os). split; [now symmetry|reflexivity].
    + destruct (positions false 0 (map o_ok os)) as [|e0 er] eqn:Po.
      { apply positions_false in Po. rewrite forallb_ok in Po. congruence. }
      injection X as <-. split; [now apply failed_kout|]. split; [discriminate|intros _; exact N'].
Qed.

(** ** The unevaluated keywords. *)
Lemma kw_unevaluated_from key t last skip c0 c : fresh key (KSub t) c0 -> key = lit "unevaluatedItems" ->
  e_unevaluated_from ev last skip t i anck c0 = Ok c ->
  let evd n := (Z.of_nat n <=? last)%Z || mem_json (jint n) skip in
  let left := filter (fun n => negb (evd n)) (seq 0 (length (items x))) in
  exists os, judge_all jd sc t (map (fun n => nth n (items x) JNull) left) = Some os /\
    kout key (KSub t) c (mkO (all_accept os) [] (all_or_none os (length (items x))) []).
Proof.
  intros F Hk. unfold e_unevaluated_from. set (start := Z.to_nat (last + 1)). set (todo := unskipped skip start _).
  destruct (each ev t anck _ c0) as [[r bs]| |] eqn:E; cbn [bind]; try discriminate. intro X. cbn zeta.
  set (evd := fun n => (Z.of_nat n <=? last)%Z || mem_json (jint n) skip).
  set (lft := filter _ (seq 0 (length (items x)))).
  assert (E1 : map fst todo = lft).
  { unfold todo, lft. rewrite unskipped_fst, skipn_length, items_of_length. fold (width i). rewrite <- filter_from.
    apply filter_ext_in. intros n _. unfold evd. rewrite negb_orb. f_equal. f_equal.
    destruct (Nat.ltb_spec n start), (Z.leb_spec (Z.of_nat n) last); try reflexivity; unfold start in *; lia. }
  assert (E2 : map i_val (map snd todo) = map (fun n => nth n (items x) JNull) lft).
  { rewrite <- E1. unfold todo. rewrite unskipped_vals. apply map_ext_in. intros n Hn.
    rewrite unskipped_fst in Hn. apply filter_In in Hn. destruct Hn as [Hn _]. apply in_seq in Hn.
    rewrite <- skipn_map, items_of_vals, nth_skipn. f_equal. lia. }
  destruct (kw_each key (KSub t) t c0 (map snd todo) r bs F (or_introl eq_refl)) as (os & H1 & -> & Fr & V & D); [| |exact E|].
  { pose proof (Forall_skipn _ start _ items_below) as FS. rewrite Forall_forall in FS |- *. intros j Hj. apply FS.
    exact (unskipped_snd skip _ start j Hj). }
  { apply unskipped_NoDup. rewrite <- skipn_map. apply NoDup_skipn, items_of_distinct. }
  rewrite E2 in H1. exists os. split; [exact H1|]. destruct (frame_kbase _ _ _ _ F Fr) as (B & A & N).
  pose proof (all_some_length _ _ H1) as L. rewrite !map_length in L. rewrite <- E1, map_length in L.
  assert (L' : length todo = length (map o_ok os)) by (rewrite map_length; congruence).
  pose proof (failing_nil (fun ki : nat * inst => jint (fst ki)) todo (map o_ok os) L') as FN. rewrite forallb_ok in FN.
  destruct (all_accept os) eqn:Al.
  - rewrite (proj2 FN eq_refl) in X. injection X as <-. destruct os as [|o os].
    + cbn [map all_or_none].
      apply silent_kout; [exact B|exact D|now left|unfold passed; cbn [annotate r_valid]; now rewrite V].
    + constructor; [exact B| |unfold passed; cbn [annotate r_valid map]; now rewrite V|].
      { apply (kbase_under key (KSub t)); [exact B|]. now apply deeper_under. }
      intros _. apply (true_contributes key (KSub t)); auto.
      * rewrite Hk. cbn [In]. tauto.
      * intros k Hlt. apply evaluated_places, in_seq. unfold width in Hlt. lia.
  - destruct (failing _ todo (map o_ok os)) as [|e0 er]; [destruct FN as [FN _]; specialize (FN eq_refl); congruence|].
    injection X as <-. now apply failed_kout.
Qed.

(** What the node that holds the keyword's siblings has collected. *)
Lemma collect_parent parent key : r_annot parent = JNull -> r_discard parent = false -> In key read ->
  (r_valid parent = false -> collect_annotations (Some p) (Some key) parent = []) /\
  (r_valid parent = true -> forall a, In a (collect_annotations (Some p) (Some key) parent) <-> some (fun c => ann p key c a) (r_children parent)).
Proof.
  intros N D K. split.
  - intro V. rewrite collect_annotations_eq, V. reflexivity.
  - intros V a. exact (ann_transparent legacy p key parent a V D (or_introl N) K).
Qed.

Lemma nth_seq_all {A} (d : A) l : map (fun n => nth n l d) (seq 0 (length l)) = l.
Proof.
  induction l as [|a l IH]; cbn [length seq map nth]; [reflexivity|]. f_equal. rewrite <- seq_shift, map_map. exact IH.
Qed.

Lemma filter_all {A} (f : A -> bool) l : (forall a, In a l -> f a = true) -> filter f l = l.
Proof.
  induction l as [|a l IH]; intro H; cbn [filter]; [reflexivity|]. rewrite (H a (or_introl eq_refl)), IH; [reflexivity|]. intros; apply H; now right.
Qed.

(** The parent has collected nothing. *)
Lemma unevaluated_nothing key t c0 c : fresh key (KSub t) c0 -> key = lit "unevaluatedItems" ->
  e_unevaluated_from ev (-1) [] t i anck c0 = Ok c ->
  exists os, judge_all jd sc t (items x) = Some os /\ exists ko, kout key (KSub t) c ko.
Proof.
  intros F Hk E. destruct (kw_unevaluated_from key t (-1) [] c0 c F Hk E) as (os & H & K).
  rewrite filter_all in H; [|intros n _; destruct (Z.leb_spec (Z.of_nat n) (-1)); [lia|reflexivity]].
  rewrite nth_seq_all in H. eauto.
Qed.

Definition left_of (evl : list nat) : list nat := filter (fun n => negb (existsb (Nat.eqb n) evl)) (seq 0 (length (items x))).
Lemma existsb_nat n l : existsb (Nat.eqb n) l = true <-> In n l.
Proof. rewrite existsb_exists. split; [intros (m & H & E); apply Nat.eqb_eq in E; now subst|intro H; exists n; split; [exact H|apply Nat.eqb_refl]]. Qed.

Lemma left_of_ext evl evd : (forall k, k < width i -> (In k evl <-> evd k = true)) ->
  left_of evl = filter (fun n => negb (evd n)) (seq 0 (length (items x))).
Proof.
  intro H. apply filter_ext_in. intros n Hn. apply in_seq in Hn. f_equal. apply eq_true_iff_eq. rewrite existsb_nat. apply H. unfold width. lia.
Qed.

Definition late_items (key : pystr) (t : sid) (parent c0 c : rnode) : Prop :=
  (r_valid parent = false -> exists os, judge_all jd sc t (items x) = Some os /\ exists ko, kout key (KSub t) c ko) /\
  (r_valid parent = true -> forall evl, (forall k, k < width i -> (In k evl <-> some (CEval legacy p k) (r_children parent))) ->
     exists os, judge_all jd sc t (map (fun n => nth n (items x) JNull) (left_of evl)) = Some os /\
       ((c = discard c0 /\ left_of evl = []) \/
        kout key (KSub t) c (mkO (all_accept os) [] (all_or_none os (length (items x))) []))) /\
  (c = discard c0 \/ exists ko, kout key (KSub t) c ko).

Lemma late_discarded key t parent c0 : r_annot parent = JNull -> r_discard parent = false ->
  (exists key', In key' [tuple_key legacy; rest_key legacy; lit "unevaluatedItems"] /\ In (JBool true) (collect_annotations (Some p) (Some key') parent)) ->
  late_items key t parent c0 (discard c0).
Proof.
  intros N D (key' & Hk & Ha).
  assert (Hr : In key' read).
  { cbn [In] in Hk. destruct Hk as [<-|[<-|[<-|[]]]]; auto using read_tuple, read_rest, read_uneval. }
  destruct (collect_parent parent key' N D Hr) as [C1 C2]. split; [|split; [|now left]].
  - intro V. rewrite (C1 V) in Ha. destruct Ha.
  - intros V evl He. apply (C2 V) in Ha.
    assert (L : left_of evl = []).
    { unfold left_of. apply filter_none. intros n Hn. apply in_seq in Hn. rewrite (proj2 (existsb_nat n evl)); [reflexivity|].
      apply He; [unfold width; lia|]. destruct Ha as (kc & Hc & Ha). exists kc. split; [exact Hc|]. left. unfold CPlace.
      cbn [In] in Hk. destruct Hk as [<-|[<-|[<-|[]]]]; tauto. }
    rewrite L. exists []. split; [reflexivity|]. left. now split.
Qed.

Lemma some_iff (P Q : rnode -> Prop) cs : (forall c, P c <-> Q c) -> (some P cs <-> some Q cs).
Proof. intro H. unfold some. split; intros (kc & Hc & Hp); exists kc; (split; [exact Hc|]); now apply H. Qed.

Lemma late_from key t parent c0 c last skip : r_annot parent = JNull -> r_discard parent = false ->
  fresh key (KSub t) c0 -> key = lit "unevaluatedItems" ->
  (r_valid parent = false -> last = (-1)%Z /\ skip = []) ->
  ~ In (JBool true) (collect_annotations (Some p) (Some (tuple_key legacy)) parent) ->
  ~ In (JBool true) (collect_annotations (Some p) (Some (rest_key legacy)) parent) ->
  ~ In (JBool true) (collect_annotations (Some p) (Some (lit "unevaluatedItems")) parent) ->
  (forall y, In (JNum (NInt y)) (collect_annotations (Some p) (Some (tuple_key legacy)) parent) -> (y <= last)%Z) ->
  last = (-1)%Z \/ In (JNum (NInt last)) (collect_annotations (Some p) (Some (tuple_key legacy)) parent) ->
  (forall k, mem_json (jint k) skip = true <->
     legacy = false /\ exists b, In (JArr b) (collect_annotations (Some p) (Some (lit "contains")) parent) /\ mem_json (jint k) b = true) ->
  e_unevaluated_from ev last skip t i anck c0 = Ok c -> late_items key t parent c0 c.
Proof.
  intros N D F Hk Hi N1 N2 N3 Hle Hlast Hskip E. split; [|split].
  - intro V. destruct (Hi V) as [-> ->]. now apply (unevaluated_nothing key t c0 c).
  - intros V evl He. destruct (kw_unevaluated_from key t last skip c0 c F Hk E) as (os & H & K). cbn zeta in *.
    assert (Q : forall k, k < width i -> (In k evl <-> ((Z.of_nat k <=? last)%Z || mem_json (jint k) skip) = true)).
    { intros k Hlt. rewrite (He k Hlt), orb_true_iff, Z.leb_le, Hskip.
      destruct (collect_parent parent _ N D (read_tuple legacy)) as [_ C1]. specialize (C1 V).
      destruct (collect_parent parent _ N D (read_rest legacy)) as [_ C2]. specialize (C2 V).
      destruct (collect_parent parent _ N D (read_uneval legacy)) as [_ C3]. specialize (C3 V).
      destruct (collect_parent parent _ N D (read_contains legacy)) as [_ C4]. specialize (C4 V).
      split.
      - intros (kc & Hc & [[Ha|[Ha|[Ha|(z & Ha & Hz)]]]|(Lg & l & Ha & Hl)]).
        + exfalso. apply N1, C1. exists kc. now split.
        + exfalso. apply N2, C2. exists kc. now split.
        + exfalso. apply N3, C3. exists kc. now split.
        + left. assert (Ho : (z <= last)%Z) by (apply Hle, C1; exists kc; now split). lia.
        + right. split; [exact Lg|]. exists l. split; [|exact Hl]. apply C4. exists kc. now split.
      - intros [Hl|(Lg & b & Hb & Hm)].
        + destruct Hlast as [->|Hlast]; [lia|]. apply C1 in Hlast. destruct Hlast as (kc & Hc & Ha).
          exists kc. split; [exact Hc|]. left. right. right. right. exists last. now split.
        + apply C4 in Hb. destruct Hb as (kc & Hc & Ha). exists kc. split; [exact Hc|]. right. split; [exact Lg|]. exists b. now split. }
    rewrite (left_of_ext evl (fun k => (Z.of_nat k <=? last)%Z || mem_json (jint k) skip) Q). exists os. split; [exact H|]. right. exact K.
  - right. destruct (kw_unevaluated_from key t last skip c0 c F Hk E) as (os & _ & K). eauto.
Qed.

Lemma kw_unevaluatedItems key t parent c0 c : legacy = false -> r_annot parent = JNull -> r_discard parent = false ->
  fresh key (KSub t) c0 -> key = lit "unevaluatedItems" -> e_unevaluatedItems ev t i anck parent c0 = Ok c ->
  late_items key t parent c0 c.
Proof.
  intros Lg N D F Hk. unfold e_unevaluatedItems.
  assert (TK : tuple_key legacy = lit "prefixItems") by now rewrite Lg. assert (RK : rest_key legacy = lit "items") by now rewrite Lg.
  destruct (last_evaluated (-1) _) as [[last|]| |] eqn:La; cbn [bind]; try discriminate.
  2: { intros [= <-]. apply last_evaluated_None in La. apply late_discarded; auto. exists (tuple_key legacy). split; [now left|now rewrite TK]. }
  destruct (any_true _ || any_true _) eqn:At.
  { intros [= <-]. apply late_discarded; auto. apply orb_true_iff in At. rewrite !any_true_In in At. destruct At as [At|At].
    - exists (rest_key legacy). split; [cbn [In]; tauto|now rewrite RK].
    - exists (lit "unevaluatedItems"). split; [cbn [In]; tauto|exact At]. }
  destruct (union_annots _) as [skip| |] eqn:Un; cbn [bind]; try discriminate. intro E.
  apply orb_false_iff in At. destruct At as [At1 At2]. destruct (last_evaluated_Some _ _ _ La) as (L1 & L2 & L3 & L4).
  apply (late_from key t parent c0 c last skip); auto; rewrite ?TK, ?RK; auto.
  - intro V. destruct (collect_parent parent _ N D (read_tuple legacy)) as [C1 _]. rewrite TK in C1.
    destruct (collect_parent parent _ N D (read_contains legacy)) as [C2 _]. rewrite (C1 V) in La. rewrite (C2 V) in Un.
    cbn in La, Un. split; congruence.
  - intro H. apply any_true_In in H. congruence.
  - intro H. apply any_true_In in H. congruence.
  - intro k. rewrite (union_annots_mem _ _ _ Un). tauto.
Qed.

Lemma kw_unevaluatedItems_2019 key t parent c0 c : legacy = true -> r_annot parent = JNull -> r_discard parent = false ->
  fresh key (KSub t) c0 -> key = lit "unevaluatedItems" -> e_unevaluatedItems_2019 ev t i anck parent c0 = Ok c ->
  late_items key t parent c0 c.
Proof.
  intros Lg N D F Hk. unfold e_unevaluatedItems_2019.
  assert (TK : tuple_key legacy = lit "items") by now rewrite Lg. assert (RK : rest_key legacy = lit "additionalItems") by now rewrite Lg.
  destruct (last_evaluated_2019 (-1) _) as [last|] eqn:La.
  2: { intros [= <-]. apply last_evaluated_2019_None in La. apply late_discarded; auto. exists (tuple_key legacy). split; [now left|now rewrite TK]. }
  destruct (any_true _ || any_true _) eqn:At.
  { intros [= <-]. apply late_discarded; auto. apply orb_true_iff in At. rewrite !any_true_In in At. destruct At as [At|At].
    - exists (rest_key legacy). split; [cbn [In]; tauto|now rewrite RK].
    - exists (lit "unevaluatedItems"). split; [cbn [In]; tauto|exact At]. }
  intro E.
  apply orb_false_iff in At. destruct At as [At1 At2]. destruct (last_evaluated_2019_Some _ _ _ La) as (L1 & L2 & L3 & L4).
  apply (late_from key t parent c0 c last []); auto; rewrite ?TK, ?RK; auto.
  - intro V. destruct (collect_parent parent _ N D (read_tuple legacy)) as [C1 _]. rewrite TK in C1. rewrite (C1 V) in La.
    cbn in La. split; congruence.
  - intro H. apply any_true_In in H. congruence.
  - intro H. apply any_true_In in H. congruence.
  - intro k. rewrite Lg. split; [discriminate|intros [? _]; discriminate].
Qed.

Definition late_members (key : pystr) (t : sid) (parent c : rnode) : Prop :=
  (r_valid parent = false -> exists os, judge_all jd sc t (map snd (members x)) = Some os /\ exists ko, kout key (KSub t) c ko) /\
  (r_valid parent = true -> forall evl, (forall n, In n evl <-> some (CName p n) (r_children parent)) ->
     exists ko, judge_members jd sc t (filter (fun kv => negb (mem_str (fst kv) evl)) (members x)) = Some ko /\
       kout key (KSub t) c ko) /\
  exists ko, kout key (KSub t) c ko.

Lemma kw_unevaluatedProperties key t parent c0 c : r_annot parent = JNull -> r_discard parent = false ->
  fresh key (KSub t) c0 -> In key name_keys -> e_unevaluatedProperties ev t i anck parent c0 = Ok c ->
  late_members key t parent c.
Proof.
  intros N D F Hk. unfold e_unevaluatedProperties.
  destruct (union_annots (collect_annotations _ (Some (lit "properties")) _)) as [la| |] eqn:Ea; cbn [bind]; try discriminate.
  destruct (union_annots (collect_annotations _ (Some (lit "patternProperties")) _)) as [lb| |] eqn:Eb; cbn [bind]; try discriminate.
  destruct (union_annots (collect_annotations _ (Some (lit "additionalProperties")) _)) as [lc| |] eqn:Ec; cbn [bind]; try discriminate.
  destruct (union_annots (collect_annotations _ (Some (lit "unevaluatedProperties")) _)) as [ld| |] eqn:Ed; cbn [bind]; try discriminate.
  set (ev' := la ++ lb ++ lc ++ ld). intro E.
  set (todo := filter _ (members_of i)) in E.
  assert (Ft : Forall (fun ni => i_path (snd ni) = p ++ [fst ni] /\ jwf (i_val (snd ni)) = true) todo).
  { apply Forall_forall. intros ni Hin. apply filter_In in Hin.
    pose proof (members_of_below i Hw) as MB. rewrite Forall_forall in MB. now apply MB. }
  assert (Nt : NoDup (map fst todo)) by (apply NoDup_map_filter; now apply members_of_distinct).
  destruct (kw_members key (KSub t) t todo c0 c F (or_introl eq_refl) Hk Ft Nt E) as (os & J & K).
  assert (Ha : In (lit "properties") name_keys) by (cbn [name_keys In]; tauto).
  assert (Hb : In (lit "patternProperties") name_keys) by (cbn [name_keys In]; tauto).
  assert (Hc : In (lit "additionalProperties") name_keys) by (cbn [name_keys In]; tauto).
  assert (Hd : In (lit "unevaluatedProperties") name_keys) by (cbn [name_keys In]; tauto).
  destruct (collect_parent parent _ N D (read_name legacy _ Ha)) as [Ca1 Ca2].
  destruct (collect_parent parent _ N D (read_name legacy _ Hb)) as [Cb1 Cb2].
  destruct (collect_parent parent _ N D (read_name legacy _ Hc)) as [Cc1 Cc2].
  destruct (collect_parent parent _ N D (read_name legacy _ Hd)) as [Cd1 Cd2].
  split; [|split; [|eauto]].
  - intro V. exists os. split; [|eauto]. rewrite (Ca1 V) in Ea. rewrite (Cb1 V) in Eb. rewrite (Cc1 V) in Ec. rewrite (Cd1 V) in Ed.
    cbn in Ea, Eb, Ec, Ed. assert (Z : ev' = []) by (unfold ev'; injection Ea as <-; injection Eb as <-; injection Ec as <-; injection Ed as <-; reflexivity).
    assert (T : todo = members_of i) by (unfold todo; rewrite Z; apply filter_all; reflexivity).
    rewrite T in J. rewrite <- (members_of_vals i), map_map. exact J.
  - intros V evl He.
    assert (Q : forall n, mem_json (JStr n) ev' = mem_str n evl).
    { intro n. apply eq_true_iff_eq. rewrite mem_str_In, He. unfold ev'. rewrite !mem_json_app, !orb_true_iff.
      rewrite (union_annots_mem _ _ _ Ea), (union_annots_mem _ _ _ Eb), (union_annots_mem _ _ _ Ec), (union_annots_mem _ _ _ Ed). split.
      - intros [(b & H1 & H2)|[(b & H1 & H2)|[(b & H1 & H2)|(b & H1 & H2)]]];
          [apply (Ca2 V) in H1|apply (Cb2 V) in H1|apply (Cc2 V) in H1|apply (Cd2 V) in H1];
          destruct H1 as (kc & Hin & H1); exists kc; (split; [exact Hin|]); eexists _, b; (split; [|split; [exact H1|exact H2]]); assumption.
      - intros (kc & Hin & key' & b & Hk' & H1 & H2). unfold name_keys in Hk'. cbn [In] in Hk'. destruct Hk' as [<-|[<-|[<-|[<-|[]]]]].
        + left. exists b. split; [|exact H2]. apply (Ca2 V). exists kc. now split.
        + right. left. exists b. split; [|exact H2]. apply (Cb2 V). exists kc. now split.
        + right. right. left. exists b. split; [|exact H2]. apply (Cc2 V). exists kc. now split.
        + right. right. right. exists b. split; [|exact H2]. apply (Cd2 V). exists kc. now split. }
    pose proof (members_filter (fun n => negb (mem_str n evl)) (members_of i)) as MF. rewrite members_of_vals in MF. rewrite <- MF.
    unfold judge_members. rewrite !map_map. cbn [fst snd].
    assert (T : todo = filter (fun ni => negb (mem_str (fst ni) evl)) (members_of i)).
    { unfold todo. apply filter_ext. intro ni. now rewrite Q. }
    rewrite <- T, J. cbn [obind]. eexists. split; [reflexivity|exact K].
Qed.
End Kw.
