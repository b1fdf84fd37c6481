(** The errors that keywords leave behind. *)
From Coq Require Import List Lia Sorting.Sorted.
From Verif Require Export SpecErrors SchemaMain SchemaAnnot ValueFacts.
Import ListNotations.
Open Scope nat_scope.

(** ** Lists of positions and names. *)
Lemma numbered_cons b k c bs : numbered b k (c :: bs) = (if Bool.eqb c b then [k] else []) ++ numbered b (S k) bs.
Proof.
  unfold numbered. cbn [length seq filter nth]. rewrite <- seq_shift.
  assert (E : forall l : list nat, map (fun j => k + j) (filter (fun j => Bool.eqb (nth j (c :: bs) (negb b)) b) (map S l)) =
    map (fun j => S k + j) (filter (fun j => Bool.eqb (nth j bs (negb b)) b) l)).
  { induction l as [|j l IH]; [reflexivity|]. cbn [map filter nth]. destruct (Bool.eqb (nth j bs (negb b)) b); cbn [map]; [f_equal; [lia|exact IH]|exact IH]. }
  destruct (Bool.eqb c b); cbn [app map]; rewrite E; [|reflexivity]. f_equal. lia.
Qed.
Lemma positions_numbered b k bs : positions b k bs = map number (numbered b k bs).
Proof.
  revert k. induction bs as [|c bs IH]; intro k; [reflexivity|]. rewrite numbered_cons. cbn [positions]. rewrite IH.
  destruct (Bool.eqb c b); reflexivity.
Qed.
Lemma indices_numbered b bs : indices b bs = list_of_numbers (numbered b 0 bs).
Proof. unfold indices, list_of_numbers, in_brackets. rewrite positions_numbered, map_map. reflexivity. Qed.
Lemma failing_refused {A} (f : A -> json) (l : list A) bs : failing f l bs = map f (refused l bs).
Proof.
  revert bs. induction l as [|a l IH]; intros [|b bs]; try reflexivity. unfold refused in *. cbn [failing combine filter snd negb]. rewrite IH. now destruct b.
Qed.
Lemma refused_map {A B} (f : A -> B) (l : list A) bs : refused (map f l) bs = map f (refused l bs).
Proof.
  revert bs. induction l as [|a l IH]; intros [|b bs]; try reflexivity. unfold refused in *. cbn [map combine filter snd]. destruct b; cbn [negb map fst]; now rewrite IH.
Qed.
Lemma refused_cons {A} (a : A) l b bs : refused (a :: l) (b :: bs) = (if b then [] else [a]) ++ refused l bs.
Proof. unfold refused. cbn [combine filter snd]. now destruct b. Qed.
Lemma refused_app {A} (l1 l2 : list A) b1 b2 : length l1 = length b1 -> refused (l1 ++ l2) (b1 ++ b2) = refused l1 b1 ++ refused l2 b2.
Proof.
  revert b1. induction l1 as [|a l1 IH]; intros [|b b1] H; try discriminate; [reflexivity|]. cbn [app]. rewrite !refused_cons, IH by (now injection H). now rewrite app_assoc.
Qed.
Lemma all_some_Forall2 {A B} (f : A -> option B) l os : all_some (map f l) = Some os -> Forall2 (fun a o => f a = Some o) l os.
Proof.
  revert os. induction l as [|a l IH]; intros os; cbn [map all_some]; [intros [= <-]; constructor|].
  destruct (f a) as [o|] eqn:E; [|discriminate]. destruct (all_some (map f l)) as [os'|]; [|discriminate]. intros [= <-]. constructor; auto.
Qed.
Lemma Forall2_map_r {A B C} (P : A -> C -> Prop) (f : B -> C) l l' : Forall2 (fun a b => P a (f b)) l l' -> Forall2 P l (map f l').
Proof. induction 1; constructor; auto. Qed.
Lemma Forall2_map_l {A B C} (P : C -> B -> Prop) (f : A -> C) l l' : Forall2 (fun a b => P (f a) b) l l' -> Forall2 P (map f l) l'.
Proof. induction 1; constructor; auto. Qed.
Lemma Forall2_weaken {A B} (P Q : A -> B -> Prop) l l' : (forall a b, P a b -> Q a b) -> Forall2 P l l' -> Forall2 Q l l'.
Proof. intros H. induction 1; constructor; auto. Qed.

Lemma Forall2_len {A B} (P : A -> B -> Prop) l l' : Forall2 P l l' -> length l = length l'.
Proof. induction 1; cbn; congruence. Qed.

(** ** What evaluation does to the error of the node itself. *)
Definition blames (W : world) (ev : sid -> inst -> list sid -> rnode -> res rnode) : Prop :=
  forall s i anc n n', ev s i anc n = Ok n' ->
  (r_valid n' = r_valid n /\ r_error n' = r_error n) \/ (r_valid n' = false /\ r_error n' = own_error W s).

Definition kept (n n' : rnode) : Prop := r_valid n' = r_valid n /\ r_error n' = r_error n.
Lemma kept_close n n' key i c : kept n n' -> kept n (close_child n' key i c).
Proof. unfold close_child. now destruct (r_discard c). Qed.

Lemma min_parent W v i parent c parent' c' : e_minContains W v i parent c = Ok (parent', c') ->
  (parent' = parent \/ exists cc, parent' = put_child parent (lit "contains") i (pass_ cc)) /\
  (c' = c \/ exists n y, num_of v = Some y /\
     tell (num_leb y (len_num n)) (said W "The array has too few elements matching the ""contains"" subschema (minimum " v ")") c = Ok c').
Proof.
  unfold e_minContains. generalize (lit "contains"). intro ck. generalize (lit "maxContains"). intro mk. 
  destruct (sibling parent i ck) as [kc|].
  2: { intro E. apply ok_inj in E. pose proof (f_equal fst E) as E1. pose proof (f_equal snd E) as E2. cbn [fst snd] in E1, E2. auto. }
  destruct (if is_null (r_annot kc) then Ok 0 else annot_len (r_annot kc)) as [n| |]; cbn [bind]; try discriminate.
  destruct (num_of v) as [y|]; [|discriminate]. cbv zeta.
  destruct (tell _ _ _) as [r| |] eqn:T; cbn [bind]; try discriminate. intro E. apply ok_inj in E. pose proof (f_equal fst E) as E1. pose proof (f_equal snd E) as E2. cbn [fst snd] in E1, E2. subst r parent'. split; [|right; exists n, y; split; [reflexivity|exact T]].
  destruct (num_leb y (len_num n) && negb (r_valid kc)); [|now left].
  destruct (sibling parent i mk) as [m|]; [destruct (r_valid m)|]; eauto.
Qed.
Lemma eval_keyword_parent W ev k i anc parent c parent' c' : eval_keyword W ev k i anc parent c = Ok (parent', c') -> kept parent parent'.
Proof.
  unfold eval_keyword. destruct (kw_class k) as [cl|u].
  - intro H. assert (D : parent' = parent \/ e_minContains W (kw_json k) i parent c = Ok (parent', c')).
    { destruct cl; try (right; exact H); left;
      (destruct (eval_std W ev k _ i anc parent c) as [r| |]; cbn [bind] in H; try discriminate; apply ok_inj in H; exact (eq_sym (f_equal fst H))). }
    destruct D as [->|D]; [now split|]. apply min_parent in D. destruct D as [[->|(cc & ->)] _]; now split.
  - intro H. destruct (e_annotation (kw_json k) c); cbn [bind] in H; try discriminate. apply ok_inj in H. pose proof (f_equal fst H) as E. cbn [fst] in E. subst. now split.
Qed.
Lemma eval_keywords_kept W ev s i anc : forall kws n n', eval_keywords W ev s kws i anc n = Ok n' -> kept n n'.
Proof.
  induction kws as [|[key k] kws IH]; intros n n'; cbn [eval_keywords]; [intros [= <-]; now split|].
  destruct (applicable k i); [|apply IH].
  destruct (eval_keyword _ _ _ _ _ _ _) as [[parent' c]| |] eqn:E; cbn [bind]; try discriminate. intro H. apply IH in H.
  apply eval_keyword_parent in E. assert (K : kept n (close_child parent' key i c)) by (apply kept_close; exact E).
  destruct H, K. split; congruence.
Qed.
Lemma evaluate_blames W fuel : blames W (evaluate W fuel).
Proof.
  intros s i anc n n'. destruct fuel as [|fuel]; [discriminate|]. cbn [evaluate]. unfold own_error. destruct (w_schema W s) as [[|]|kws].
  - intros [= <-]. left. now split.
  - intros [= <-]. right. now split.
  - destruct (eval_keywords _ _ _ _ _ _ _) as [m| |] eqn:E; cbn [bind]; try discriminate. intros [= <-]. apply eval_keywords_kept in E.
    unfold finish. destruct (existsb _ _); [right; now split|left; exact E].
Qed.

(** ** Which members are named in errors. *)
Section Bad.
Variable W : world.
Variable legacy : bool.
Variable ev : sid -> inst -> list sid -> rnode -> res rnode.
Variable jd : list sid -> sid -> json -> option outcome.
Hypothesis Hsim : sim W legacy ev jd.
Variable s : sid.
Variable anck sc : list sid.
Hypothesis Hst : stutter (s :: anck) sc.

Definition says (t : sid) (y : json) (b : bool) : Prop := exists o, jd sc t y = Some o /\ o_ok o = b.

Lemma dependents_bad v i : jwf (i_val i) = true -> forall m result result' good bad,
  stands W s v result -> (forall name t, In (name, t) m -> leads W v name t) ->
  dependents ev i anck m result = Ok (result', (good, bad)) ->
  r_valid result' = r_valid result /\
  exists bs, Forall2 (fun nt b => says (snd nt) (i_val i) b) (filter (fun nt => has (i_val i) (fst nt)) m) bs /\
    bad = refused (map fst (filter (fun nt => has (i_val i) (fst nt)) m)) bs.
Proof.
  intro Hw. induction m as [|[name t] m IH]; intros result result' good bad Hr Hl; cbn [dependents].
  { intros [= <- <- <-]. split; [reflexivity|]. exists []. split; [constructor|reflexivity]. }
  rewrite has_inst. cbn [filter fst]. destruct (has (i_val i) name) eqn:Hm.
  2: { intro E. apply IH in E; auto. intros. apply Hl. now right. }
  intro H. runs H. destruct a as [r1 c]. runs H. destruct a as [r2 [good' bad']].
  destruct (in_child_spec W legacy ev jd Hsim s anck sc Hst v _ _ _ _ _ _ Hw Hr (Hl name t (or_introl eq_refl)) E) as (o & Ho & P & ->).
  destruct (IH (put_child result name i c) _ _ _ Hr (fun n u Hn => Hl n u (or_intror Hn)) E0) as (V & bs & F & ->).
  pose proof (post_new_child _ _ _ _ _ _ P) as Q. assert (Qp : passed c = o_ok o) by apply Q. rewrite Qp in H.
  assert (R : result' = r2 /\ bad = (if o_ok o then [] else [name]) ++ refused (map fst (filter (fun nt => has (i_val i) (fst nt)) m)) bs)
    by (destruct (o_ok o); injection H as <- _ <-; now split).
  destruct R as [-> ->]. split; [exact V|]. exists (o_ok o :: bs). split; [constructor; [exists o; now split|exact F]|].
  cbn [map fst]. now rewrite refused_cons.
Qed.

Lemma named_bad v subs p : (forall name t, dget name subs = Some t -> leads W v name t) ->
  forall (l : list (pystr * inst)) result result' good bad,
  Forall (fun ni => (exists q, q <> [] /\ i_path (snd ni) = p ++ q) /\ jwf (i_val (snd ni)) = true) l ->
  stands W s v result ->
  named ev subs anck l result = Ok (result', (good, bad)) ->
  let present := filter (fun ni => dmem (fst ni) subs) l in
  r_valid result' = r_valid result /\
  exists bs, Forall2 (fun ni b => exists t, dget (fst ni) subs = Some t /\ says t (i_val (snd ni)) b) present bs /\
    bad = refused (map fst present) bs.
Proof.
  intro Hl. induction l as [|[name j] l IH]; intros result result' good bad Hb Hr; cbn [named].
  { intros [= <- <- <-]. split; [reflexivity|]. exists []. split; [constructor|reflexivity]. }
  inversion Hb as [|? ? [_ Hw] Hb']; subst. cbn [fst snd] in *. cbn zeta in *. cbn [filter fst].
  assert (M : dmem name subs = match dget name subs with Some _ => true | None => false end) by reflexivity.
  rewrite M. destruct (dget name subs) as [t|] eqn:G.
  2: { intro E. exact (IH _ _ _ _ Hb' Hr E). }
  intro H. runs H. destruct a as [r1 c]. runs H. destruct a as [r2 [good' bad']].
  destruct (in_child_spec W legacy ev jd Hsim s anck sc Hst v _ _ _ _ _ _ Hw Hr (Hl _ _ G) E) as (o & Ho & P & ->).
  destruct (IH (put_child result name j c) _ _ _ Hb' Hr E0) as (V & bs & F & Eb).
  pose proof (post_new_child _ _ _ _ _ _ P) as Q. assert (Qp : passed c = o_ok o) by apply Q. rewrite Qp in H.
  assert (R : result' = r2 /\ bad = (if o_ok o then [] else [name]) ++ bad') by (destruct (o_ok o); injection H as <- _ <-; now split).
  destruct R as [-> ->]. split; [exact V|]. exists (o_ok o :: bs). split.
  - constructor; [|exact F]. exists t. split; [exact G|]. exists o. now split.
  - cbn [map fst]. now rewrite refused_cons, Eb.
Qed.

Definition hits_of (subs : list (pystr * sid)) (ny : pystr * json) : list (pystr * (sid * json)) :=
  map (fun rt => (fst ny, (snd rt, snd ny)))
      (filter (fun rt => match w_search W (fst rt) (fst ny) with Some b => b | None => false end) subs).

Lemma matching_bad v name j : jwf (i_val j) = true ->
  forall subs result result' good bad,
  (forall regex t, In (regex, t) subs -> leads W v regex t) -> stands W s v result ->
  matching W ev subs anck name j result = Ok (result', (good, bad)) ->
  stands W s v result' /\ r_valid result' = r_valid result /\
  exists bs, Forall2 (fun h b => says (fst (snd h)) (snd (snd h)) b) (hits_of subs (name, i_val j)) bs /\
    bad = refused (map fst (hits_of subs (name, i_val j))) bs.
Proof.
  intros Hw. unfold hits_of. cbn [fst snd]. induction subs as [|[regex t] subs IH]; intros result result' good bad Hl Hr; cbn [matching].
  { intros [= <- <- <-]. split; [exact Hr|]. split; [reflexivity|]. exists []. split; [constructor|reflexivity]. }
  cbn [filter fst snd]. destruct (w_search W regex name) as [[|]|] eqn:Sr; try discriminate.
  2: { intro E. exact (IH _ _ _ _ (fun r u Hn => Hl r u (or_intror Hn)) Hr E). }
  intro H. runs H. destruct a as [r1 c]. runs H. destruct a as [r2 [good' bad']].
  destruct (in_child_spec W legacy ev jd Hsim s anck sc Hst v _ _ _ _ _ _ Hw Hr (Hl regex t (or_introl eq_refl)) E) as (o & Ho & P & ->).
  destruct (IH (put_child result regex j c) _ _ _ (fun r u Hn => Hl r u (or_intror Hn)) Hr E0) as (S2 & V & bs & F & Eb).
  pose proof (post_new_child _ _ _ _ _ _ P) as Q. assert (Qp : passed c = o_ok o) by apply Q. rewrite Qp in H.
  assert (R : result' = r2 /\ bad = (if o_ok o then [] else [name]) ++ bad') by (destruct (o_ok o); injection H as <- _ <-; now split).
  destruct R as [-> ->]. split; [exact S2|]. split; [exact V|]. exists (o_ok o :: bs). cbn [map fst snd]. split.
  - constructor; [|exact F]. exists o. now split.
  - now rewrite refused_cons, Eb.
Qed.

Lemma patterned_bad v subs : (forall regex t, In (regex, t) subs -> leads W v regex t) ->
  forall (l : list (pystr * inst)) result result' good bad,
  Forall (fun ni => jwf (i_val (snd ni)) = true) l -> stands W s v result ->
  patterned W ev subs anck l result = Ok (result', (good, bad)) ->
  let all := flat_map (hits_of subs) (map (fun ni => (fst ni, i_val (snd ni))) l) in
  r_valid result' = r_valid result /\
  exists bs, Forall2 (fun h b => says (fst (snd h)) (snd (snd h)) b) all bs /\ bad = refused (map fst all) bs.
Proof.
  intro Hl. induction l as [|[name j] l IH]; intros result result' good bad Hb Hr; cbn [patterned].
  { intros [= <- <- <-]. split; [reflexivity|]. exists []. split; [constructor|reflexivity]. }
  inversion Hb as [|? ? Hw Hb']; subst. cbn [fst snd] in *. cbn zeta in *. cbn [map flat_map fst snd].
  intro H. runs H. destruct a as [r1 [good1 bad1]]. runs H. destruct a as [r2 [good2 bad2]]. injection H as <- _ <-.
  destruct (matching_bad v name j Hw subs _ _ _ _ Hl Hr E) as (S1 & V1 & bs1 & F1 & ->).
  destruct (IH _ _ _ _ Hb' S1 E0) as (V2 & bs2 & F2 & ->).
  split; [congruence|]. exists (bs1 ++ bs2). split; [now apply Forall2_app|].
  rewrite map_app, refused_app; [reflexivity|]. rewrite map_length. exact (Forall2_len _ _ _ F1).
Qed.
End Bad.

(** ** Words. *)
Lemma said_around W before v after t : said W before v after = Ok t -> around W before v after (JStr t).
Proof. unfold said. destruct v as [w| | |]; try discriminate. intro H. runs H. apply ok_inj in H. exists w, a. split; [reflexivity|]. split; [exact E|]. now f_equal. Qed.
Lemma told W ok before v after c0 c : tell ok (said W before v after) c0 = Ok c -> r_valid c0 = true -> r_valid c = false ->
  around W before v after (r_error c).
Proof.
  unfold tell. destruct ok; [intros [= <-]; congruence|]. intros H V0 V. runs H. apply ok_inj in H. subst c. cbn [check fail r_error]. now apply said_around.
Qed.
Lemma limited W bad y v before after c0 c : limit W bad y v before after c0 = Ok c -> r_valid c0 = true -> r_valid c = false ->
  around W before v after (r_error c).
Proof. unfold limit. destruct (num_of v); [|discriminate]. apply told. Qed.
Lemma checked_error ok msg c0 c : Ok (check ok msg c0) = Ok c -> r_valid c0 = true -> r_valid c = false -> r_error c = JStr msg.
Proof. intros H V0 V. apply ok_inj in H. subst c. destruct ok; [cbn [check] in V; congruence|reflexivity]. Qed.
Lemma missing_same i l : missing_names i l = missing_from (i_val i) l.
Proof. unfold missing_names, missing_from. apply filter_ext. intros []; try reflexivity. now rewrite has_inst. Qed.
Lemma dependents_named i m b : forallb (fun nd => match snd nd with JArr _ => true | _ => false end) m = true -> missing_dependents i m = Ok b ->
  b = filter (fun nl => match snd nl with [] => false | _ => true end)
        (map (fun nd => (fst nd, missing_from (i_val i) (match snd nd with JArr l => l | _ => [] end))) (filter (fun nd => has (i_val i) (fst nd)) m)).
Proof.
  revert b. induction m as [|[name deps] m IH]; intros b; cbn [missing_dependents]; [now intros _ [= <-]|].
  intro Hm. cbn [forallb snd] in Hm. apply andb_true_iff in Hm. destruct Hm as [Hd Hm]. specialize (fun b => IH b Hm) as IH'; clear IH; rename IH' into IH.
  rewrite has_inst. cbn [filter fst]. destruct (has (i_val i) name); [|apply IH]. destruct deps as [| | | |l|]; try discriminate Hd.
  intro H. cbn [iterated_nodes bind] in H. runs H. apply ok_inj in H. rewrite missing_same in H. rewrite (IH _ E) in H. cbn [map fst snd filter].
  destruct (missing_from (i_val i) l); now symmetry.
Qed.
Lemma all_texts_each {A} (f : A -> res pystr) l ts : Text.all_texts (map f l) = Ok ts -> Forall2 (fun a t => f a = Ok t) l ts.
Proof.
  revert ts. induction l as [|a l IH]; intros ts; cbn [map Text.all_texts]; [intros [= <-]; constructor|].
  intro H. runs H. runs H. apply ok_inj in H. subst ts. constructor; auto.
Qed.
Lemma missing_written W m ts : repr_missing W m = Ok ts ->
  Forall2 (fun nl t => exists us, Forall2 (fun n u => Repr.repr_node (writer W) n = Ok u) (snd nl) us /\ t = (Repr.repr_str (fst nl), in_brackets us)) m ts.
Proof.
  revert ts. induction m as [|[name l] m IH]; intros ts; cbn [repr_missing]; [intros [= <-]; constructor|].
  intro H. runs H. runs H. apply ok_inj in H. subst ts. constructor; [|auto]. exists a. split; [now apply all_texts_each|reflexivity].
Qed.
Lemma matches_any_existsb W ps n b : matches_any W ps n = Some b -> existsb (fun r => match w_search W r n with Some b => b | None => false end) ps = b.
Proof.
  induction ps as [|r ps IH]; cbn [matches_any existsb]; [now intros [= <-]|]. destruct (w_search W r n) as [[|]|]; [now intros [= <-]|exact IH|discriminate].
Qed.
Lemma sorted_seq k n : StronglySorted lt (seq k n).
Proof. revert k. induction n as [|n IH]; intro k; cbn [seq]; constructor; [apply IH|]. apply Forall_forall. intros y Hy. apply in_seq in Hy. lia. Qed.
Lemma sorted_filter (f : nat -> bool) l : StronglySorted lt l -> StronglySorted lt (filter f l).
Proof.
  induction 1 as [|a l H IH F]; cbn [filter]; [constructor|]. destruct (f a); [|exact IH]. constructor; [exact IH|].
  rewrite Forall_forall in *. intros y Hy. apply filter_In in Hy. now apply F.
Qed.

(** ** One keyword. *)
Section Err.
Variable W : world.
Variable d : list stdclass.
Variable legacy : bool.
Variable ev : sid -> inst -> list sid -> rnode -> res rnode.
Variable jd : list sid -> sid -> json -> option outcome.
Hypothesis Hsim : sim W legacy ev jd.
Hypothesis Hblame : blames W ev.
Hypothesis Hd : dialect legacy d.
Variable s : sid.
Variable kws : list (pystr * keyword).
Hypothesis Hkws : w_schema W s = SObj kws.
Hypothesis Hgood : good_schema d kws.
Variable anck sc : list sid.
Hypothesis Hst : stutter (s :: anck) sc.
Variable i : inst.
Hypothesis Hw : jwf (i_val i) = true.
Notation p := (i_path i).
Notation x := (i_val i).
Notation fresh := (fresh W s i).
Notation says := (says jd sc).
Notation complaint := (complaint W says kws).
Notation siblings_ok := (siblings_ok W legacy jd s kws sc i).

Lemma says_list {A} (f : A -> sid) (g : A -> json) l os : all_some (map (fun a => jd sc (f a) (g a)) l) = Some os ->
  Forall2 (fun a b => says (f a) (g a) b) l (map o_ok os).
Proof.
  intro H. apply all_some_Forall2 in H. apply Forall2_map_r. revert H. apply Forall2_weaken. intros a o E. exists o. now split.
Qed.

Lemma inplace_error key v t c0 c : fresh key v c0 -> (v = KSub t \/ exists w, v = KJ w) -> ev t i anck c0 = Ok c -> r_valid c = false ->
  says t x false /\ r_error c = own_error W t.
Proof.
  intros F Hv E V. destruct (kw_inplace W legacy ev jd Hsim s anck sc Hst i Hw key v t c0 c F Hv E) as (o & Ho & P & _).
  destruct F as (_ & _ & V0 & _). destruct P as (cs & _ & _ & _ & Vo & _). rewrite V0 in Vo. cbn [andb] in Vo.
  split; [exists o; split; [exact Ho|congruence]|]. destruct (Hblame _ _ _ _ _ E) as [[B _]|[_ B]]; [congruence|exact B].
Qed.

Lemma noreset_error t : forall l c0 c, each_noreset ev t anck l c0 = Ok c -> (r_valid c0 = false -> r_error c0 = own_error W t) ->
  r_valid c = false -> r_error c = own_error W t.
Proof.
  induction l as [|j l IH]; intros c0 c H H0 V; cbn [each_noreset] in H; [apply ok_inj in H; subst; auto|].
  runs H. apply (IH a c H); [|exact V]. intro Va. destruct (Hblame _ _ _ _ _ E) as [[B1 B2]|[_ B]]; [|exact B]. rewrite B2. apply H0. congruence.
Qed.

Lemma branches_error key l c0 r bs : fresh key (KSubs l) c0 -> branches ev i anck 0 l c0 = Ok (r, bs) ->
  r_valid r = true /\ Forall2 (fun t b => says t x b) l bs.
Proof.
  intros F E. pose proof F as (B & C0 & V & _).
  destruct (branches_spec W legacy ev jd Hsim s anck sc Hst (KSubs l) i Hw l 0 c0 r bs (proj1 (proj2 (proj2 B)))
    (fun j t H => leads_subs W l j t H)) as (os & cs & H1 & -> & -> & _); [|exact E|].
  { intros j _. now rewrite C0. }
  split; [exact V|]. exact (says_list (fun t => t) (fun _ => x) l os H1).
Qed.

Lemma each_error key v t c0 l r bs : fresh key v c0 -> (v = KSub t \/ exists w, v = KJ w) ->
  Forall (fun j => (exists y, i_path j = p ++ [y]) /\ jwf (i_val j) = true) l -> NoDup (map i_path l) ->
  each ev t anck l c0 = Ok (r, bs) -> r_valid r = true /\ Forall2 (says t) (map i_val l) bs.
Proof.
  intros F Hv Hl Hn E. destruct (kw_each W legacy ev jd Hsim s anck sc Hst i key v t c0 l r bs F Hv Hl Hn E) as (os & J & -> & _ & V & _).
  split; [exact V|]. exact (says_list (fun _ => t) (fun y => y) _ _ J).
Qed.

Lemma items_error key v t start c0 c : fresh key v c0 -> (v = KSub t \/ exists w, v = KJ w) ->
  e_items_from ev start t i anck c0 = Ok c -> r_valid c = false -> items_refused says start t x (r_error c).
Proof.
  intros F Hv H V. unfold e_items_from in H. runs H. destruct a as [r bs].
  destruct (each_error key v t c0 (skipn start (items_of i)) r bs F Hv (Forall_skipn _ start _ (items_below i Hw))) as [Vr S]; [|exact E|].
  { rewrite <- skipn_map. apply NoDup_skipn, items_of_distinct. }
  rewrite <- skipn_map, items_of_vals in S. exists bs. split; [exact S|]. apply ok_inj in H. rewrite positions_numbered in H.
  destruct (map number (numbered false start bs)) as [|a l]; subst c; [cbn [annotate r_valid] in V; congruence|reflexivity].
Qed.

Lemma pairs_error key l c0 r bs : fresh key (KSubs l) c0 -> pairwise ev anck 0 (items_of i) l c0 = Ok (r, bs) ->
  r_valid r = true /\ Forall2 (fun ty b => says (fst ty) (snd ty) b) (combine l (items x)) bs.
Proof.
  intros F E. destruct (kw_pairs W legacy ev jd Hsim s anck sc Hst i Hw key l c0 r bs F E) as (os & J & -> & _ & _ & _ & _ & _ & V & _).
  split; [exact V|]. exact (says_list fst snd _ _ J).
Qed.

Lemma members_error key v t todo c0 r bs : fresh key v c0 -> (v = KSub t \/ exists w, v = KJ w) ->
  Forall (fun ni => i_path (snd ni) = p ++ [fst ni] /\ jwf (i_val (snd ni)) = true) todo -> NoDup (map fst todo) ->
  each ev t anck (map snd todo) c0 = Ok (r, bs) ->
  r_valid r = true /\ Forall2 (fun kv b => says t (snd kv) b) (map (fun ni : pystr * inst => (fst ni, i_val (snd ni))) todo) bs.
Proof.
  intros F Hv Ht Hn E. assert (Hp : map i_path (map snd todo) = map (fun n => p ++ [n]) (map fst todo)).
  { rewrite !map_map. apply map_ext_in. intros ni H. rewrite Forall_forall in Ht. apply (Ht ni H). }
  destruct (each_error key v t c0 (map snd todo) r bs F Hv) as [V S]; [| |exact E|].
  { apply Forall_map. revert Ht. apply Forall_impl. intros ni [H H']. split; [eexists; exact H|exact H']. }
  { rewrite Hp. apply FinFun.Injective_map_NoDup; [|exact Hn]. intros a b Q. apply app_inv_head in Q. congruence. }
  split; [exact V|]. rewrite map_map in S. clear -S. revert bs S. induction todo as [|ni l IH]; intros bs S; inversion S; subst; constructor; auto.
Qed.

Lemma failing_names todo bs : failing (fun ni : pystr * inst => JStr (fst ni)) todo bs =
  map JStr (refused (map fst (map (fun ni : pystr * inst => (fst ni, i_val (snd ni))) todo)) bs).
Proof. rewrite failing_refused, map_map. cbn [fst]. rewrite refused_map, map_map. reflexivity. Qed.

Lemma e_members_error key v t todo c0 c : fresh key v c0 -> (v = KSub t \/ exists w, v = KJ w) ->
  Forall (fun ni => i_path (snd ni) = p ++ [fst ni] /\ jwf (i_val (snd ni)) = true) todo -> NoDup (map fst todo) ->
  e_members ev todo t anck c0 = Ok c -> r_valid c = false ->
  members_refused says t (map (fun ni => (fst ni, i_val (snd ni))) todo) (r_error c).
Proof.
  intros F Hv Ht Hn H V. unfold e_members in H. runs H. destruct a as [r bs].
  destruct (members_error key v t todo c0 r bs F Hv Ht Hn E) as [Vr S]. exists bs. split; [exact S|]. apply ok_inj in H.
  rewrite failing_names in H. unfold names. destruct (map JStr _) as [|a l]; subst c; [cbn [annotate r_valid] in V; congruence|reflexivity].
Qed.

Lemma todo_filter (f : pystr -> bool) : let todo := filter (fun ni : pystr * inst => f (fst ni)) (members_of i) in
  Forall (fun ni => i_path (snd ni) = p ++ [fst ni] /\ jwf (i_val (snd ni)) = true) todo /\ NoDup (map fst todo).
Proof.
  cbn zeta. split.
  - apply Forall_forall. intros ni Hin. apply filter_In in Hin. pose proof (members_of_below i Hw) as MB. rewrite Forall_forall in MB. now apply MB.
  - apply NoDup_map_filter. now apply members_of_distinct.
Qed.

Lemma unevaluated_error key t last skip c0 c : fresh key (KSub t) c0 -> e_unevaluated_from ev last skip t i anck c0 = Ok c -> r_valid c = false ->
  exists l bs, StronglySorted lt l /\ Forall (fun n => n < length (items x)) l /\
    Forall2 (fun n b => says t (nth n (items x) JNull) b) l bs /\ r_error c = JArr (map number (refused l bs)).
Proof.
  intros F H V. unfold e_unevaluated_from in H. set (start := Z.to_nat (last + 1)) in *. set (todo := unskipped skip start _) in *.
  runs H. destruct a as [r bs].
  destruct (each_error key (KSub t) t c0 (map snd todo) r bs F (or_introl eq_refl)) as [Vr S]; [| |exact E|].
  { pose proof (Forall_skipn _ start _ (items_below i Hw)) as FS. rewrite Forall_forall in FS |- *. intros j Hj. apply FS.
    exact (unskipped_snd skip _ start j Hj). }
  { apply unskipped_NoDup. rewrite <- skipn_map. apply NoDup_skipn, items_of_distinct. }
  assert (E1 : map fst todo = filter (fun n => negb (mem_json (jint n) skip)) (seq start (length (items x) - start)))
    by (unfold todo; now rewrite unskipped_fst, skipn_length, items_of_length).
  exists (map fst todo), bs. split; [rewrite E1; apply sorted_filter, sorted_seq|]. split.
  { rewrite E1. apply Forall_forall. intros n Hn. apply filter_In in Hn. destruct Hn as [Hn _]. apply in_seq in Hn. lia. }
  split.
  - assert (E2 : map i_val (map snd todo) = map (fun n => nth n (items x) JNull) (map fst todo)).
    { unfold todo. rewrite unskipped_vals. apply map_ext_in. intros n Hn.
      rewrite unskipped_fst in Hn. apply filter_In in Hn. destruct Hn as [Hn _]. apply in_seq in Hn.
      rewrite <- skipn_map, items_of_vals, nth_skipn. f_equal. lia. }
    rewrite E2 in S. clear -S. revert bs S. induction (map fst todo) as [|n l IH]; intros bs S; inversion S; subst; constructor; auto.
  - apply ok_inj in H. rewrite failing_refused in H. rewrite refused_map, map_map.
    change (fun ki : nat * inst => jint (fst ki)) with (fun ki : nat * inst => number (fst ki)) in H.
    destruct (map (fun ki : nat * inst => number (fst ki)) (refused todo bs)) as [|a l]; subst c; [cbn [annotate r_valid] in V; congruence|reflexivity].
Qed.

Lemma all_false bs : existsb id bs = false -> forall {A} (P : A -> bool -> Prop) l, Forall2 P l bs -> Forall (fun a => P a false) l.
Proof.
  intros H A P l F. induction F as [|a b l bs Hab F IH]; [constructor|]. cbn [existsb id] in H. apply orb_false_iff in H. destruct H as [H1 H2].
  unfold id in H1. subst b. constructor; auto.
Qed.
Lemma positions_none k bs : positions true k bs = [] -> existsb id bs = false.
Proof. revert k. induction bs as [|b bs IH]; intro k; cbn [positions existsb]; [reflexivity|]. destruct b; cbn; [discriminate|apply IH]. Qed.

Lemma plain_value key k : In (key, k) kws -> forall cl, kw_class k = Std cl ->
  match cl with KRef | KDynamicRef | KRecursiveRef => True | _ => False end -> exists w, kw_json k = KJ w.
Proof.
  intros HIn cl C Hcl. pose proof (kws_value d kws Hgood _ _ HIn) as V. unfold value_ok in V. rewrite C in V.
  destruct cl; try contradiction; destruct (kw_json k); try discriminate V; try (now rewrite andb_false_r in V); eauto.
Qed.

Lemma prefix_start v0 mn k parent : siblings_ok v0 mn k parent -> kw_class k = Std KItems -> legacy = false ->
  existsb (jtype_eqb (type_of x)) (std_types KPrefixItems) = true ->
  match subs_of (dget (lit "prefixItems") kws) with
  | Some l => exists n, sibling parent i (lit "prefixItems") = Some n /\ stands W s (KSubs l) n
  | None => sibling parent i (lit "prefixItems") = None
  end.
Proof.
  intros HS C Hl T. pose proof (find_prefix W d legacy ev jd Hsim Hd kws Hgood Hl) as FP.
  assert (Hdp : In (lit "prefixItems") (depends_on (kw_class k))) by (rewrite C; now left).
  pose proof (present_sibling W d legacy jd s kws Hgood sc i v0 mn k parent _ KPrefixItems HS Hdp FP eq_refl eq_refl eq_refl T) as HP.
  destruct (dget (lit "prefixItems") kws) as [k'|] eqn:G; [|exact HP]. destruct HP as (n & ko & Hs & J & K & _).
  apply (dget_kws d kws Hgood) in G. pose proof (class_found d kws Hgood _ _ _ G FP) as C'. unfold code_keyword in J. rewrite C' in J. cbn [code_std judge_std] in J.
  destruct (subs_of (Some k')) as [l|] eqn:Sk; cbn [obind] in J; [|discriminate]. exists n. split; [exact Hs|].
  unfold subs_of in Sk. cbn [obind] in Sk. destruct (kw_json k') eqn:Kj'; try discriminate. injection Sk as <-. apply K.
Qed.

Lemma known_names v0 mn k parent key c : siblings_ok v0 mn k parent -> In key (depends_on (kw_class k)) -> find_class d key = Some c ->
  match c with KProperties | KPatternProperties => True | _ => False end ->
  existsb (jtype_eqb (type_of x)) (std_types KProperties) = true ->
  match subm_of (dget key kws) with
  | Some m => exists n, sibling parent i key = Some n /\ stands W s (KSubm m) n
  | None => sibling parent i key = None
  end.
Proof.
  intros HS Hdp FP Hc T.
  assert (HP : match dget key kws with
    | Some k' => exists n ko, sibling parent i key = Some n /\ code_keyword W (code_choice W) jd sc kws x k' = Some ko /\ kout W legacy s i key (kw_json k') n ko
    | None => sibling parent i key = None end).
  { pose proof (present_sibling W d legacy jd s kws Hgood sc i v0 mn k parent key c HS Hdp FP) as HP.
    destruct c; try contradiction; specialize (HP eq_refl eq_refl eq_refl T); (destruct (dget key kws); [destruct HP as (n & ko & H1 & H2 & H3 & _); eauto|exact HP]). }
  destruct (dget key kws) as [k'|] eqn:G; [|exact HP]. destruct HP as (n & ko & Hs & J & K).
  apply (dget_kws d kws Hgood) in G. pose proof (class_found d kws Hgood _ _ _ G FP) as C'. unfold code_keyword in J. rewrite C' in J.
  assert (Sm : exists m, kw_json k' = KSubm m).
  { destruct c; try contradiction; cbn [code_std judge_std] in J; unfold subm_of in J; cbn [obind] in J; destruct (kw_json k'); try discriminate J; eauto. }
  destruct Sm as (m & Km). unfold subm_of. cbn [obind]. rewrite Km in *. exists n. split; [exact Hs|apply K].
Qed.

Lemma unmatched (rest : list (pystr * inst)) ps bs : all_some (map (fun ni => matches_any W ps (fst ni)) rest) = Some bs ->
  map fst (filter (fun kb => negb (snd kb)) (combine rest bs)) =
  filter (fun ni => negb (existsb (fun r => match w_search W r (fst ni) with Some b => b | None => false end) ps)) rest.
Proof.
  intro H. apply all_some_Forall2 in H. induction H as [|ni b l bs' Hb _ IH]; [reflexivity|]. cbn [combine filter snd fst].
  rewrite (matches_any_existsb _ _ _ _ Hb). destruct b; cbn [negb map fst]; now rewrite IH.
Qed.

Lemma filter_filter {A} (f g : A -> bool) l : filter g (filter f l) = filter (fun a => f a && g a) l.
Proof. induction l as [|a l IH]; cbn [filter]; [reflexivity|]. destruct (f a); cbn [filter andb]; [destruct (g a)|]; now rewrite IH. Qed.

Lemma properties_error v0 mn key k t parent c0 c : siblings_ok v0 mn k parent -> kw_class k = Std KAdditionalProperties ->
  existsb (jtype_eqb (type_of x)) (std_types KProperties) = true -> fresh key (KSub t) c0 ->
  e_additionalProperties W ev t i anck parent c0 = Ok c -> r_valid c = false -> members_refused says t (left_over W kws x) (r_error c).
Proof.
  intros HS C T F H V. unfold e_additionalProperties in H. runs H. runs H. runs H.
  assert (H1 : a = names_under (subm_of (dget (lit "properties") kws))).
  { apply (sibling_names_spec W s i parent (lit "properties") a); [|exact E].
    apply (known_names v0 mn k parent _ KProperties HS); [rewrite C; now left|exact (find_properties W d legacy ev jd Hsim Hd kws Hgood)|exact I|exact T]. }
  assert (H2 : a0 = names_under (subm_of (dget (lit "patternProperties") kws))).
  { apply (sibling_names_spec W s i parent (lit "patternProperties") a0); [|exact E0].
    apply (known_names v0 mn k parent _ KPatternProperties HS); [rewrite C; right; now left|exact (find_patterns W d legacy ev jd Hsim Hd kws Hgood)|exact I|exact T]. }
  pose proof (SchemaKw.additional_spec W _ _ _ _ E1) as AS. cbn zeta in AS. destruct AS as (bs & A1 & A2). rewrite (unmatched _ _ _ A1), filter_filter in A2.
  set (f := fun n => negb (mem_str n a) && negb (existsb (fun r => match w_search W r n with Some b => b | None => false end) a0)).
  change (a1 = filter (fun ni => f (fst ni)) (members_of i)) in A2. destruct (todo_filter f) as [Ft Nt]. rewrite <- A2 in Ft, Nt.
  pose proof (e_members_error key (KSub t) t a1 c0 c F (or_introl eq_refl) Ft Nt H V) as M. rewrite A2 in M.
  pose proof (members_filter f (members_of i)) as MF. rewrite members_of_vals in MF. rewrite MF in M.
  unfold left_over. cbn zeta. rewrite <- H1, <- H2. erewrite filter_ext; [exact M|]. intro kv. reflexivity.
Qed.

Lemma items_2019_error key k c0 c : In (key, k) kws -> kw_class k = Std KItems2019 -> fresh key (kw_json k) c0 ->
  e_items_2019 W ev (kw_json k) i anck c0 = Ok c -> r_valid c = false -> complaint k x (r_error c).
Proof.
  intros HIn C F H V. unfold SpecErrors.complaint. rewrite C. assert (V0 : r_valid c0 = true) by apply F. unfold e_items_2019 in H.
  destruct (items_of i) as [|j js] eqn:Ij; [apply ok_inj in H; subst; congruence|]. rewrite <- Ij in H.
  assert (Nw : items x <> []) by (rewrite <- items_of_vals, Ij; discriminate). clear Ij.
  destruct (kw_json k) as [w|t|ts|m]; try (apply ok_inj in H; subst; congruence).
  - destruct (w_schema W t) eqn:Wt.
    + exact (proj2 (inplace_error key (KSub t) t c0 c F (or_introl eq_refl) H V)).
    + runs H. apply ok_inj in H. subst c. assert (Va : r_valid a = false) by (destruct (passed a); exact V).
      replace (r_error (if passed a then annotate a (JBool true) else a)) with (r_error a) by (now destruct (passed a)).
      apply (noreset_error t _ _ _ E); [congruence|exact Va].
  - runs H. destruct a as [r bs]. destruct (pairs_error key ts c0 r bs F E) as [Vr S]. exists bs. split; [exact S|].
    apply ok_inj in H. rewrite positions_numbered in H. destruct (map number (numbered false 0 bs)) as [|a l]; subst c; [cbn [annotate r_valid] in V; congruence|reflexivity].
Qed.

Lemma additionalItems_error v0 mn key k t parent c0 c : In (key, k) kws -> kw_class k = Std KAdditionalItems -> concerns x k = true ->
  siblings_ok v0 mn k parent -> fresh key (KSub t) c0 ->
  e_additionalItems ev t i anck parent c0 = Ok c -> r_valid c = false ->
  exists ts, subs_of (dget (lit "items") kws) = Some ts /\ items_refused says (min (length ts) (length (items x))) t x (r_error c).
Proof.
  intros HIn C A HS F E V. assert (V0 : r_valid c0 = true) by apply F.
  assert (Hl : legacy = true) by (pose proof (class_legacy d legacy Hd kws Hgood _ _ _ HIn C) as X; destruct legacy; [reflexivity|discriminate X]).
  assert (T : existsb (jtype_eqb (type_of x)) (std_types KItems2019) = true).
  { unfold concerns in A. rewrite C in A. exact A. }
  assert (Hdp : In (lit "items") (depends_on (kw_class k))) by (rewrite C; now left).
  pose proof (find_items W d legacy ev jd Hsim Hd kws Hgood Hl) as FI.
  pose proof (present_sibling W d legacy jd s kws Hgood sc i v0 mn k parent _ KItems2019 HS Hdp FI eq_refl eq_refl eq_refl T) as HP.
  destruct (dget (lit "items") kws) as [k'|] eqn:G.
  2: { unfold e_additionalItems in E. rewrite HP in E. apply ok_inj in E. subst c. cbn [discard r_valid] in V. congruence. }
  destruct HP as (n & ko & Hs & J' & K & Ex). apply (dget_kws d kws Hgood) in G. pose proof (class_found d kws Hgood _ _ _ G FI) as C'.
  unfold extra in Ex. rewrite C' in Ex. destruct Ex as [X1 X2]. cbn [subs_of obind]. unfold e_additionalItems in E. rewrite Hs in E.
  unfold code_keyword in J'. rewrite C' in J'. cbn [code_std] in J'.
  destruct (kw_json k') as [v|t'|ts|m] eqn:Kj'; try discriminate J'.
  { destruct X1 as [X1|X1]; rewrite X1 in E; apply ok_inj in E; subst c; cbn [discard r_valid] in V; congruence. }
  exists ts. split; [reflexivity|]. destruct (o_ok ko) eqn:Ok0.
  2: { rewrite (X2 eq_refl) in E. apply ok_inj in E. subst c. cbn [discard r_valid] in V. congruence. }
  destruct (X1 eq_refl) as [[W0 An]|[W0 An]]; rewrite An in E.
  { apply ok_inj in E. subst c. cbn [discard r_valid] in V. congruence. }
  assert (Ht : ts <> []).
  { pose proof (kws_value d kws Hgood _ _ G) as Vo. unfold value_ok in Vo. rewrite C', Kj' in Vo. destruct ts; [|discriminate]. now rewrite andb_false_r in Vo. }
  assert (L : 0 < length ts) by (destruct ts; [congruence|cbn; lia]). unfold jint in E.
  replace (Z.to_nat (Z.of_nat (Nat.pred (Nat.min (length ts) (width i))) + 1)) with (Nat.min (length ts) (length (items x))) in E by (unfold width in *; lia).
  exact (items_error key (KSub t) t _ c0 c F (or_introl eq_refl) E V).
Qed.

Ltac listing H V := apply ok_inj in H; match goal with |- context [r_error ?c] => subst c end; try (cbn [annotate discard noassert r_valid] in V; congruence); try reflexivity.

Lemma err_inplace key k cl parent c0 c : In (key, k) kws -> kw_class k = Std cl -> fresh key (kw_json k) c0 ->
  match cl with KRef | KDynamicRef | KRecursiveRef | KAllOf | KAnyOf | KOneOf | KNot | KIf | KThen | KElse | KDependentSchemas => True | _ => False end ->
  eval_std W ev k cl i anck parent c0 = Ok c -> r_valid c = false -> complaint k x (r_error c).
Proof.
  intros HIn C F Hcl H V. assert (V0 : r_valid c0 = true) by apply F. unfold SpecErrors.complaint. rewrite C.
  assert (Rf : match cl with KRef | KDynamicRef | KRecursiveRef => True | _ => False end -> forall t, (let* r := ev t i anck c0 in Ok (refschema r t)) = Ok c ->
    says t x false /\ r_error c = own_error W t).
  { intros Hr t E. destruct (plain_value key k HIn cl C Hr) as (w & Kw). rewrite Kw in F. runs E. apply ok_inj in E. subst c. cbn [refschema r_valid r_error] in *.
    exact (inplace_error key (KJ w) t c0 a F (or_intror (ex_intro _ w eq_refl)) E0 V). }
  assert (In1 : forall want t, kw_json k = KSub t -> e_branch ev want t i anck parent c0 = Ok c -> says t x false /\ r_error c = own_error W t).
  { intros want t Kt E. rewrite Kt in F. unfold e_branch in E. destruct (sibling parent i (lit "if")) as [n|]; [|apply ok_inj in E; subst c; cbn [discard r_valid] in V; congruence].
    destruct (Bool.eqb (r_valid n) want); [|apply ok_inj in E; subst c; cbn [discard r_valid] in V; congruence].
    exact (inplace_error key (KSub t) t c0 c F (or_introl eq_refl) E V). }
  destruct cl; try contradiction; cbn [eval_std] in H; clear Hcl.
  - unfold e_ref in H. destruct (kw_ref k) as [t|]; [|discriminate]. exists t. split; [reflexivity|]. exact (Rf I t H).
  - unfold e_dynamicRef in H. destruct (kw_ref k) as [t|]; [|discriminate]. runs H. exists a. exact (Rf I a H).
  - unfold e_recursiveRef in H. destruct (kw_ref k) as [t|]; [|discriminate]. runs H. runs H. exists a0. exact (Rf I a0 H).
  - apply with_subs_inv in H; [|exact (value_subs k _ (kws_value d kws Hgood _ _ HIn) C eq_refl)]. destruct H as (l & Kj & H). rewrite Kj in *. unfold e_allOf in H. runs H. destruct a as [r bs].
    destruct (branches_error key l c0 r bs F E) as [Vr S]. exists bs. split; [exact S|]. apply ok_inj in H. subst c.
    destruct (forallb id bs); [congruence|]. cbn [fail r_error]. now rewrite indices_numbered.
  - apply with_subs_inv in H; [|exact (value_subs k _ (kws_value d kws Hgood _ _ HIn) C eq_refl)]. destruct H as (l & Kj & H). rewrite Kj in *. unfold e_anyOf in H. runs H. destruct a as [r bs].
    destruct (branches_error key l c0 r bs F E) as [Vr S]. apply ok_inj in H. subst c.
    destruct (existsb id bs) eqn:Ex; [congruence|]. split; [exact (all_false bs Ex (fun t b => says t x b) l S)|reflexivity].
  - apply with_subs_inv in H; [|exact (value_subs k _ (kws_value d kws Hgood _ _ HIn) C eq_refl)]. destruct H as (l & Kj & H). rewrite Kj in *. unfold e_oneOf in H. runs H. destruct a as [r bs].
    destruct (branches_error key l c0 r bs F E) as [Vr S]. exists bs. split; [exact S|]. apply ok_inj in H. subst c.
    destruct (Nat.eqb _ 1); [congruence|]. cbn [fail r_error]. now rewrite !indices_numbered.
  - apply with_sub_inv in H. destruct H as (t & Kj & H). rewrite Kj in *. unfold e_not in H. runs H. apply ok_inj in H.
    destruct (kw_inplace W legacy ev jd Hsim s anck sc Hst i Hw key (KSub t) t c0 a F (or_introl eq_refl) E) as (o & Ho & P & [_ _ K3 _]).
    subst c. destruct (passed a) eqn:Pa; [|cbn [pass_ r_valid] in V; discriminate]. split; [exists o; split; [exact Ho|congruence]|reflexivity].
  - apply with_sub_inv in H. destruct H as (t & Kj & H). rewrite Kj in *. unfold e_if in H. runs H. apply ok_inj in H. subst c. cbn [noassert r_valid r_error] in *.
    exact (inplace_error key (KSub t) t c0 a F (or_introl eq_refl) E V).
  - apply with_sub_inv in H. destruct H as (t & Kj & H). pose proof (In1 true t Kj H) as Q. rewrite Kj. exact Q.
  - apply with_sub_inv in H. destruct H as (t & Kj & H). pose proof (In1 false t Kj H) as Q. rewrite Kj. exact Q.
  - apply with_subm_inv in H. destruct H as (m & Kj & H). pose proof (subm_nodup d kws Hgood _ _ _ HIn Kj) as Nd. rewrite Kj in *. unfold e_dependentSchemas in H. runs H. destruct a as [r [good bad]].
    destruct (dependents_bad W legacy ev jd Hsim s anck sc Hst (KSubm m) i Hw m c0 r good bad (proj1 (proj2 (proj2 (proj1 F)))) (fun n t Hn => leads_subm W m n t (proj2 (dget_In_iff n t m Nd) Hn)) E)
      as (Vr & bs & S & ->). cbn zeta. exists bs. split; [exact S|]. apply ok_inj in H.
    destruct (refused _ bs) as [|b0 l]; subst c; [cbn [annotate r_valid] in V; congruence|reflexivity].
Qed.

Lemma err_items v0 mn key k cl parent c0 c : In (key, k) kws -> kw_class k = Std cl -> fresh key (kw_json k) c0 -> concerns x k = true ->
  siblings_ok v0 mn k parent ->
  match cl with KPrefixItems | KItems | KUnevaluatedItems | KContains | KItems2019 | KAdditionalItems | KUnevaluatedItems2019 => True | _ => False end ->
  eval_std W ev k cl i anck parent c0 = Ok c -> r_valid c = false -> complaint k x (r_error c).
Proof.
  intros HIn C F A HS Hcl H V. assert (V0 : r_valid c0 = true) by apply F.
  destruct cl; try contradiction; cbn [eval_std] in H; clear Hcl; try (exact (items_2019_error key k c0 c HIn C F H V)); unfold SpecErrors.complaint; rewrite C.
  - apply with_prefix_inv in H; [|exact (value_subs k _ (kws_value d kws Hgood _ _ HIn) C eq_refl)]. destruct H as (l & Kj & H). rewrite Kj in *. unfold e_prefixItems in H. runs H. destruct a as [r bs].
    destruct (pairs_error key l c0 r bs F E) as [Vr S]. exists bs. split; [exact S|].
    apply ok_inj in H. rewrite positions_numbered in H. destruct (map number (numbered false 0 bs)) as [|a l']; subst c; [|reflexivity].
    destruct bs; cbn [annotate r_valid] in V; congruence.
  - apply with_sub_inv in H. destruct H as (t & Kj & H). rewrite Kj in *.
    assert (Hl : legacy = false) by (pose proof (class_legacy d legacy Hd kws Hgood _ _ _ HIn C) as X; destruct legacy; [discriminate X|reflexivity]).
    assert (T : existsb (jtype_eqb (type_of x)) (std_types KPrefixItems) = true) by (unfold concerns in A; rewrite C in A; exact A).
    pose proof (prefix_start v0 mn k parent HS C Hl T) as HP. unfold e_items in H.
    destruct (subs_of (dget (lit "prefixItems") kws)) as [l|].
    + destruct HP as (n & Hs & _ & Hn). rewrite Hs in H. runs H. destruct (Hn a E) as [->|(w & ->)]; [|discriminate]. cbn [sn_of] in H.
      exact (items_error key (KSub t) t _ c0 c F (or_introl eq_refl) H V).
    + rewrite HP in H. exact (items_error key (KSub t) t _ c0 c F (or_introl eq_refl) H V).
  - apply with_sub_inv in H. destruct H as (t & Kj & H). rewrite Kj in *. unfold e_unevaluatedItems in H. runs H.
    destruct a as [last|]; [|apply ok_inj in H; subst c; cbn [discard r_valid] in V; congruence].
    destruct (_ || _); [apply ok_inj in H; subst c; cbn [discard r_valid] in V; congruence|]. runs H.
    exact (unevaluated_error key t last a c0 c F H V).
  - apply with_sub_inv in H. destruct H as (t & Kj & H). rewrite Kj in *. unfold e_contains in H. runs H. destruct a as [r bs].
    destruct (each_error key (KSub t) t c0 (items_of i) r bs F (or_introl eq_refl) (items_below i Hw) (items_of_distinct i) E) as [Vr S].
    rewrite items_of_vals in S. apply ok_inj in H. subst c. destruct (positions true 0 bs) eqn:Po; [|cbn [annotate r_valid] in V; congruence].
    split; [exact (all_false bs (positions_none _ _ Po) (says t) _ S)|reflexivity].
  - apply with_sub_inv in H. destruct H as (t & Kj & H). rewrite Kj in *. exact (additionalItems_error v0 mn key k t parent c0 c HIn C A HS F H V).
  - apply with_sub_inv in H. destruct H as (t & Kj & H). rewrite Kj in *. unfold e_unevaluatedItems_2019 in H.
    destruct (last_evaluated_2019 _ _) as [last|]; [|apply ok_inj in H; subst c; cbn [discard r_valid] in V; congruence].
    destruct (_ || _); [apply ok_inj in H; subst c; cbn [discard r_valid] in V; congruence|].
    exact (unevaluated_error key t last [] c0 c F H V).
Qed.

Lemma err_members v0 mn key k cl parent c0 c : In (key, k) kws -> kw_class k = Std cl -> fresh key (kw_json k) c0 -> concerns x k = true ->
  siblings_ok v0 mn k parent ->
  match cl with KProperties | KPatternProperties | KAdditionalProperties | KUnevaluatedProperties | KUnevaluatedProperties2019 | KPropertyNames => True | _ => False end ->
  eval_std W ev k cl i anck parent c0 = Ok c -> r_valid c = false -> complaint k x (r_error c).
Proof.
  intros HIn C F A HS Hcl H V. assert (V0 : r_valid c0 = true) by apply F. unfold SpecErrors.complaint. rewrite C.
  assert (Un : forall t, fresh key (KSub t) c0 -> e_unevaluatedProperties ev t i anck parent c0 = Ok c ->
    exists keep, members_refused says t (filter (fun kv => keep (fst kv)) (members x)) (r_error c)).
  { intros t Ft E. unfold e_unevaluatedProperties in E. runs E. runs E. runs E. runs E.
    set (f := fun n => negb (mem_json (JStr n) (a ++ a0 ++ a1 ++ a2))). change (e_members ev (filter (fun ni => f (fst ni)) (members_of i)) t anck c0 = Ok c) in E.
    exists f. destruct (todo_filter f) as [T1 T2]. pose proof (e_members_error key (KSub t) t _ c0 c Ft (or_introl eq_refl) T1 T2 E V) as M.
    pose proof (members_filter f (members_of i)) as MF. rewrite members_of_vals in MF. rewrite MF in M. exact M. }
  destruct cl; try contradiction; cbn [eval_std] in H; clear Hcl.
  - apply with_subm_inv in H. destruct H as (m & Kj & H). rewrite Kj in *. unfold e_properties in H. runs H. destruct a as [r [good bad]].
    pose proof (named_bad W legacy ev jd Hsim s anck sc Hst (KSubm m) m p (fun n t Hn => leads_subm W m n t Hn) (members_of i) c0 r good bad (members_deep i Hw)
      (proj1 (proj2 (proj2 (proj1 F)))) E) as NB. cbn zeta in NB. destruct NB as (Vr & bs & S & Eb).
    exists bs. cbn zeta. pose proof (members_filter (fun n => dmem n m) (members_of i)) as MF. rewrite members_of_vals in MF. rewrite <- MF. split.
    + apply Forall2_map_l. exact S.
    + rewrite map_map. change (map (fun ni : pystr * inst => fst (fst ni, i_val (snd ni)))) with (map (@fst pystr inst)). rewrite <- Eb. apply ok_inj in H. destruct bad as [|b0 l]; subst c; [cbn [annotate r_valid] in V; congruence|reflexivity].
  - apply with_subm_inv in H. destruct H as (m & Kj & H). pose proof (subm_nodup d kws Hgood _ _ _ HIn Kj) as Nd. rewrite Kj in *. unfold e_patternProperties in H. runs H. destruct a as [r [good bad]].
    assert (Jw : Forall (fun ni : pystr * inst => jwf (i_val (snd ni)) = true) (members_of i)).
    { generalize (members_of_below i Hw). apply Forall_impl. now intros ni [_ Hj]. }
    pose proof (patterned_bad W legacy ev jd Hsim s anck sc Hst (KSubm m) m (fun n t Hn => leads_subm W m n t (proj2 (dget_In_iff n t m Nd) Hn)) (members_of i) c0 r good bad Jw
      (proj1 (proj2 (proj2 (proj1 F)))) E) as NB. cbn zeta in NB. rewrite members_of_vals in NB. destruct NB as (Vr & bs & S & Eb).
    change (flat_map (hits_of W m) (members x)) with (pattern_hits W m x) in S, Eb. exists bs. split; [exact S|]. rewrite <- Eb.
    apply ok_inj in H. destruct bad as [|b0 l]; subst c; [cbn [annotate r_valid] in V; congruence|reflexivity].
  - apply with_sub_inv in H. destruct H as (t & Kj & H). rewrite Kj in *.
    assert (T : existsb (jtype_eqb (type_of x)) (std_types KProperties) = true) by (unfold concerns in A; rewrite C in A; exact A).
    exact (properties_error v0 mn key k t parent c0 c HS C T F H V).
  - apply with_sub_inv in H. destruct H as (t & Kj & H). rewrite Kj in *. exact (Un t F H).
  - apply with_sub_inv in H. destruct H as (t & Kj & H). rewrite Kj in *. unfold e_propertyNames in H. runs H. destruct a as [r bs].
    set (todo := map (fun ni : pystr * inst => (fst ni, mkInst (i_path (snd ni)) (JStr (fst ni)))) (members_of i)) in *.
    destruct (members_error key (KSub t) t todo c0 r bs F (or_introl eq_refl)) as [Vr S]; [| |exact E|].
    { unfold todo. apply Forall_map. cbn [fst snd i_path i_val]. generalize (members_of_below i Hw). apply Forall_impl. intros ni [Hp _]. now split. }
    { unfold todo. rewrite map_map. cbn [fst]. now apply members_of_distinct. }
    assert (Ev : map (fun ni : pystr * inst => (fst ni, i_val (snd ni))) todo = map (fun kv => (fst kv, JStr (fst kv))) (members x)).
    { unfold todo. rewrite <- (members_of_vals i), !map_map. reflexivity. }
    apply ok_inj in H. rewrite failing_names, Ev in H. rewrite Ev in S. exists bs. split; [exact S|]. unfold names.
    destruct (map JStr _) as [|a l]; subst c; [congruence|reflexivity].
  - apply with_sub_inv in H. destruct H as (t & Kj & H). rewrite Kj in *. exact (Un t F H).
Qed.

Lemma err_rest key k cl parent c0 c : In (key, k) kws -> kw_class k = Std cl -> r_valid c0 = true -> cl <> KMinContains ->
  match cl with
  | KRef | KDynamicRef | KRecursiveRef | KAllOf | KAnyOf | KOneOf | KNot | KIf | KThen | KElse | KDependentSchemas
  | KPrefixItems | KItems | KUnevaluatedItems | KContains | KItems2019 | KAdditionalItems | KUnevaluatedItems2019
  | KProperties | KPatternProperties | KAdditionalProperties | KUnevaluatedProperties | KUnevaluatedProperties2019 | KPropertyNames => False
  | _ => True
  end ->
  eval_std W ev k cl i anck parent c0 = Ok c -> r_valid c = false -> complaint k x (r_error c).
Proof.
  intros HIn C V0 Nm Hcl H V. unfold SpecErrors.complaint. rewrite C.
  assert (An : forall v, e_annotation v c0 = Ok c -> False).
  { intros v E. unfold e_annotation in E. destruct v; try discriminate. apply ok_inj in E. subst c. cbn [noassert annotate r_valid] in V. congruence. }
  destruct cl; try contradiction; try congruence; cbn [eval_std] in H; clear Hcl Nm;
    try (apply ok_inj in H; subst c; congruence); try (exfalso; exact (An _ H)); try (exact (limited W _ _ _ _ _ _ _ H V0 V)).
  - (* type *) unfold e_type in H. runs H. exact (told W _ _ _ _ _ _ H V0 V).
  - (* enum *) pose proof (kws_value d kws Hgood _ _ HIn) as Vo; unfold value_ok in Vo; rewrite C in Vo; apply andb_true_iff in Vo; destruct Vo as [_ Vo]. unfold e_enum in H. destruct (kw_json k) as [[| | | |l|]| | |]; try discriminate Vo. cbn [iterated bind] in H. exact (checked_error _ _ _ _ H V0 V).
  - (* const *) unfold e_const in H. destruct (kw_json k) as [w| | |]; try discriminate. exact (checked_error _ _ _ _ H V0 V).
  - (* multipleOf *) pose proof (kws_value d kws Hgood _ _ HIn) as Vo; unfold value_ok in Vo; rewrite C in Vo; apply andb_true_iff in Vo; destruct Vo as [_ Vo]. unfold e_multipleOf in H. destruct (kw_json k) as [[| |n| | |]| | |] eqn:Kj; try discriminate Vo.
    destruct (invalid_operation W (inst_num i) n).
    + right. unfold tell in H. destruct (is_multiple W (inst_num i) n); [apply ok_inj in H; subst c; congruence|]. runs H. apply ok_inj in H. subst c.
      runs E. runs E. apply ok_inj in E. exists (JNum n), a0, a1. cbn [check fail r_error]. rewrite <- E. auto.
    + left. exact (told W _ _ _ _ _ _ H V0 V).
  - (* pattern *) unfold e_pattern in H. destruct (kw_json k) as [[| | |r| |]| | |] eqn:Kj; try discriminate. destruct x; try discriminate.
    destruct (w_search W r s0); [|discriminate]. exact (told W _ _ _ _ _ _ H V0 V).
  - (* uniqueItems *) unfold e_uniqueItems in H. destruct x; try discriminate. destruct (truthy (kw_json k)); [|apply ok_inj in H; subst c; congruence].
    exact (checked_error _ _ _ _ H V0 V).
  - (* maxContains *) unfold e_maxContains in H. destruct (sibling parent i (lit "contains")) as [cc|]; [|apply ok_inj in H; subst c; congruence].
    destruct (is_null (r_annot cc)); [apply ok_inj in H; subst c; congruence|]. runs H. exact (limited W _ _ _ _ _ _ _ H V0 V).
  - (* required *) pose proof (kws_value d kws Hgood _ _ HIn) as Vo; unfold value_ok in Vo; rewrite C in Vo; apply andb_true_iff in Vo; destruct Vo as [_ Vo]. unfold e_required in H. destruct (kw_json k) as [[| | | |l|]| | |] eqn:Kj; try discriminate Vo. cbn [iterated_nodes bind] in H. rewrite missing_same in H.
    exact (checked_error _ _ _ _ H V0 V).
  - (* dependentRequired *) pose proof (kws_value d kws Hgood _ _ HIn) as Vo; unfold value_ok in Vo; rewrite C in Vo; apply andb_true_iff in Vo; destruct Vo as [_ Vo]. unfold e_dependentRequired in H. destruct (kw_json k) as [[| | | | |m]| | |] eqn:Kj; try discriminate Vo. cbn [iterated_items bind] in H. runs H.
    assert (Vm : forallb (fun nd : pystr * json => match snd nd with JArr _ => true | _ => false end) m = true)
      by (rewrite forallb_forall in *; intros nd Hnd; specialize (Vo nd Hnd); destruct (snd nd); congruence).
    rewrite (dependents_named _ _ _ Vm E) in H. unfold tell in H.
    match type of H with (if ?b then _ else _) = _ => destruct b; [apply ok_inj in H; subst c; congruence|] end. runs H. apply ok_inj in H. subst c.
    runs E0. apply ok_inj in E0. exists a1. cbn [check fail r_error]. split; [now apply missing_written|now f_equal].
  - (* format *) unfold e_format in H. destruct (kw_json k) as [w| | |] eqn:Kj; try discriminate. destruct (kw_format k) as [types|].
    2: { apply ok_inj in H. subst c. cbn [noassert annotate r_valid] in V. congruence. }
    destruct w as [| | |a| |]; try (apply ok_inj in H; subst c; cbn [noassert annotate r_valid] in V; congruence).
    destruct (mem_type (type_of x) types); [|apply ok_inj in H; subst c; cbn [noassert annotate r_valid] in V; congruence].
    exists []. rewrite app_nil_r. refine (checked_error _ _ _ _ H _ V). exact V0.
  - (* contentSchema *) unfold e_contentSchema in H. destruct (sibling _ _ _); [exfalso; exact (An _ H)|]. apply ok_inj in H. subst c. cbn [discard r_valid] in V. congruence.
Qed.

Lemma err_std v0 mn key k cl parent c0 c : In (key, k) kws -> kw_class k = Std cl -> fresh key (kw_json k) c0 -> concerns x k = true ->
  siblings_ok v0 mn k parent -> cl <> KMinContains ->
  eval_std W ev k cl i anck parent c0 = Ok c -> r_valid c = false -> complaint k x (r_error c).
Proof.
  intros HIn C F A HS Nm H V. assert (V0 : r_valid c0 = true) by apply F.
  destruct cl; first
    [ exact (err_inplace key k _ parent c0 c HIn C F I H V)
    | exact (err_items v0 mn key k _ parent c0 c HIn C F A HS I H V)
    | exact (err_members v0 mn key k _ parent c0 c HIn C F A HS I H V)
    | exact (err_rest key k _ parent c0 c HIn C V0 Nm I H V) ].
Qed.

(** ** The keywords of a schema object. *)
Variable n0 : rnode.
Variable anc : list sid.
Hypothesis Hanck : anck = r_schema n0 :: anc.
Hypothesis Hclean : clean p n0.
Hypothesis Hloc : located W s n0.
Hypothesis Hann : r_annot n0 = JNull.
Hypothesis Hdis : r_discard n0 = false.
Notation inv := (inv W legacy jd s kws sc i n0).

Definition explained (dn : list (pystr * keyword)) (n : rnode) : Prop :=
  forall key k c, In (key, k) dn -> cget (key, p) (r_children n) = Some c -> r_valid c = false -> complaint k x (r_error c).

Lemma eval_keyword_child k a parent c parent' c' : eval_keyword W ev k i a parent c = Ok (parent', c') ->
  parent' = parent \/ exists cc, parent' = put_child parent (lit "contains") i (pass_ cc).
Proof using.
  unfold eval_keyword. destruct (kw_class k) as [cl|u].
  - intro H. assert (D : parent' = parent \/ e_minContains W (kw_json k) i parent c = Ok (parent', c')).
    { destruct cl; try (right; exact H); left;
      (destruct (eval_std W ev k _ i a parent c) as [r| |]; cbn [bind] in H; try discriminate; apply ok_inj in H; exact (eq_sym (f_equal fst H))). }
    destruct D as [->|D]; [now left|]. now apply min_parent in D.
  - intro H. destruct (e_annotation (kw_json k) c); cbn [bind] in H; try discriminate. apply ok_inj in H. left. exact (eq_sym (f_equal fst H)).
Qed.
Lemma cget_drop_new ck v m : cget ck m = None -> cget ck (cdrop ck (cput ck v m)) = None.
Proof using. intro H. now rewrite cdrop_put_new. Qed.

Lemma err_step dn n cs key k rest parent' c : kws = dn ++ (key, k) :: rest -> inv (minned dn) dn n cs -> concerns x k = true ->
  eval_keyword W ev k i anck (put_child n key i (new_child n key i s)) (new_child n key i s) = Ok (parent', c) ->
  explained dn n -> explained (dn ++ [(key, k)]) (close_child parent' key i c).
Proof.
  intros E Iv Co Ev Ex. destruct (split_fresh d kws Hgood _ _ _ _ E) as (H & HIn & Hi).
  pose proof (fresh_child W d s kws Hkws Hgood i n0 Hloc n key k (inv_frame _ _ _ _ _ _ _ _ _ _ _ _ Iv) HIn) as F.
  pose proof (inv_siblings W d legacy jd s kws Hgood anck sc Hst i n0 anc Hanck Hclean _ _ _ _ _ _ _ (new_child n key i s) E Iv) as Sb.
  set (c0 := new_child n key i s) in *. set (par := put_child n key i c0) in *.
  assert (V0 : r_valid c0 = true) by apply F.
  assert (Own : r_valid c = false -> complaint k x (r_error c)).
  { intro V. unfold eval_keyword in Ev. destruct (kw_class k) as [cl|u] eqn:C.
    2: { destruct (e_annotation (kw_json k) c0) as [r| |] eqn:E1; cbn [bind] in Ev; try discriminate. apply ok_inj in Ev.
         pose proof (f_equal snd Ev) as Q. cbn [snd] in Q. subst r. unfold e_annotation in E1. destruct (kw_json k); try discriminate. apply ok_inj in E1. subst c.
         cbn [noassert annotate r_valid] in V. congruence. }
    assert (D : cl = KMinContains \/ cl <> KMinContains /\ eval_std W ev k cl i anck par c0 = Ok c).
    { destruct cl; try (now left); right; (split; [discriminate|]); (destruct (eval_std W ev k _ i anck par c0) as [r| |]; cbn [bind] in Ev; try discriminate; apply ok_inj in Ev;
        pose proof (f_equal snd Ev) as Q; cbn [snd] in Q; now subst r). }
    destruct D as [->|[Nm D]]; [|exact (err_std _ _ key k cl par c0 c HIn C F Co Sb Nm D V)].
    apply min_parent in Ev. destruct Ev as [_ [->|(m & y & _ & T)]]; [congruence|]. unfold SpecErrors.complaint. rewrite C. exact (told W _ _ _ _ _ _ T V0 V). }
  apply eval_keyword_child in Ev.
  intros key' k' c' X G V. apply in_app_or in X. destruct X as [X|[[= <- <-]|[]]].
  - assert (N : (key, p) <> (key', p)).
    { intros [= ->]. apply H. change key' with (fst (key', k')). now apply in_map. }
    assert (G' : cget (key', p) (r_children parent') = Some c').
    { revert G. unfold close_child. destruct (r_discard c); [|unfold put_child]; cbn [with_children r_children].
      - rewrite cget_drop_other by congruence. auto.
      - rewrite cget_put_other by congruence. auto. }
    destruct Ev as [->|(cc & ->)].
    + apply (Ex key' k' c' X); [|exact V]. revert G'. unfold par, put_child. cbn [with_children r_children]. rewrite cget_put_other by congruence. auto.
    + unfold put_child at 1 in G'. cbn [with_children r_children] in G'.
      destruct (ckey_eqb_spec (lit "contains", p) (key', p)) as [Q|Q].
      * exfalso. rewrite <- Q in G'. rewrite cget_put_same in G'. apply (f_equal (fun o => match o with Some a => r_valid a | None => true end)) in G'. cbn [pass_ r_valid] in G'. congruence.
      * rewrite cget_put_other in G' by congruence. apply (Ex key' k' c' X); [|exact V]. revert G'. unfold par, put_child. cbn [with_children r_children]. rewrite cget_put_other by congruence. auto.
  - revert G. unfold close_child. destruct (r_discard c); [|unfold put_child]; cbn [with_children r_children].
    + assert (N : cget (key, p) (r_children n) = None).
      { rewrite (inv_children _ _ _ _ _ _ _ _ _ _ _ _ Iv), cget_app, (old_none i n0 Hclean). exact (inv_none W legacy jd s kws sc i n0 _ _ _ _ _ Iv H). }
      destruct Ev as [->|(cc & ->)]; unfold par, put_child; cbn [with_children r_children]; [rewrite (cget_drop_new _ _ _ N); discriminate|].
      destruct (ckey_eqb_spec (lit "contains", p) (key, p)) as [Q|Q]; [rewrite Q, cput_put, (cget_drop_new _ _ _ N); discriminate|].
      rewrite cdrop_put_other, cget_put_other, (cget_drop_new _ _ _ N) by congruence. discriminate.
    + rewrite cget_put_same. intros [= <-]. auto.
Qed.

Lemma err_skip dn n cs key k mn : inv mn dn n cs -> ~ In key (keys dn) -> explained dn n -> explained (dn ++ [(key, k)]) n.
Proof.
  intros Iv H Ex key' k' c' X G V. apply in_app_or in X. destruct X as [X|[[= <- <-]|[]]]; [exact (Ex _ _ _ X G V)|]. exfalso.
  rewrite (inv_children _ _ _ _ _ _ _ _ _ _ _ _ Iv), cget_app, (old_none i n0 Hclean) in G.
  rewrite (inv_none W legacy jd s kws sc i n0 _ _ _ _ _ Iv H) in G. discriminate.
Qed.

Lemma err_loop : forall rest dn n cs n', kws = dn ++ rest -> inv (minned dn) dn n cs -> explained dn n ->
  eval_keywords W ev s rest i anc n = Ok n' -> explained kws n'.
Proof.
  induction rest as [|[key k] rest IH]; intros dn n cs n' E Iv Ex Ev; cbn [eval_keywords] in Ev.
  - rewrite app_nil_r in E. apply ok_inj in Ev. subst n'. rewrite E. exact Ex.
  - destruct (split_fresh d kws Hgood _ _ _ _ E) as (H & HIn & Hi).
    assert (E' : kws = (dn ++ [(key, k)]) ++ rest) by (rewrite <- app_assoc; exact E).
    rewrite applicable_concerns in Ev. destruct (concerns x k) eqn:Co.
    + assert (Rs : r_schema n = r_schema n0) by (destruct (inv_frame _ _ _ _ _ _ _ _ _ _ _ _ Iv) as (_ & _ & F & _); exact F).
      rewrite Rs, <- Hanck in Ev. destruct (eval_keyword _ _ _ _ _ _ _) as [[parent' c]| |] eqn:E1; cbn [bind] in Ev; try discriminate.
      destruct (step W d legacy ev jd Hsim Hd s kws Hkws Hgood anck sc Hst i Hw n0 anc Hanck Hclean Hloc Hann Hdis dn n cs key k rest parent' c E Iv Co E1) as (cs' & I').
      exact (IH _ _ _ _ E' I' (err_step dn n cs key k rest parent' c E Iv Co E1 Ex) Ev).
    + refine (IH (dn ++ [(key, k)]) n cs n' E' _ (err_skip dn n cs key k _ Iv H Ex) Ev).
      pose proof (inv_skip W legacy jd s kws sc i n0 _ _ _ _ _ k Iv H Co) as I'. destruct (str_eq_dec key (lit "minContains")) as [Hk|N]; [|now rewrite minned_snoc].
      destruct I' as [I1 I2 I3 I4 I5 I6]. constructor; auto. intros key' k' X. pose proof (I6 _ _ X) as En. revert En. apply entry_minned.
      intros C Co'. exfalso. pose proof (class_found d kws Hgood key k KMinContains HIn) as Cm. rewrite Hk, (find_min W d legacy ev jd Hsim Hd kws Hgood) in Cm. specialize (Cm eq_refl).
      unfold concerns in Co, Co'. rewrite Cm in Co. rewrite C in Co'. change (std_types KMinContains) with (std_types KContains) in Co. cbn [static instance_types negb andb std_types] in Co, Co'. congruence.
Qed.

Lemma err_object n1 : eval_keywords W ev s kws i anc n0 = Ok n1 -> explained kws n1.
Proof.
  intro E. refine (err_loop kws [] n0 [] n1 eq_refl _ _ E); [|intros key k c []].
  constructor; auto; [apply frame_refl|now rewrite app_nil_r|constructor|intros key k []].
Qed.
End Err.

(** Evaluation explains itself. *)
Theorem evaluate_explained W d legacy f s i anc n scope n' kws : dialect legacy d -> good_world d W -> pre W s i anc n scope ->
  evaluate W (S f) s i anc n = Ok n' -> w_schema W s = SObj kws ->
  forall key k c, In (key, k) kws -> cget (key, i_path i) (r_children n') = Some c -> r_valid c = false ->
    complaint W (says (code_judge W (code_choice W) f) (s :: scope)) kws k (i_val i) (r_error c).
Proof.
  intros Hd Hg (Hw & Hc & Hst & Hl & Ha & Hdi) E Hs key k c HIn G V. cbn [evaluate] in E. rewrite Hs in E.
  destruct (eval_keywords W (evaluate W f) s kws i anc n) as [n1| |] eqn:E1; cbn [bind] in E; try discriminate. apply ok_inj in E.
  assert (G1 : cget (key, i_path i) (r_children n1) = Some c).
  { rewrite <- G, <- E. unfold finish. now destruct (existsb _ _). }
  exact (err_object W d legacy _ _ (evaluate_code W d legacy Hd Hg f) (evaluate_blames W f) Hd s kws Hs (Hg _ _ Hs) (r_schema n :: anc) (s :: scope) Hst i Hw n anc
    eq_refl Hc Hl Ha Hdi n1 E1 key k c HIn G1 V).
Qed.
