(** Evaluation computes the code judgement, for whole schemas; judging is
    monotone in its depth, so that a verdict is unique. *)
From Verif Require Export SchemaLoop.
Open Scope nat_scope.

Section Main.
Variable W : world.
Variable d : list stdclass.
Variable legacy : bool.
Hypothesis Hd : dialect legacy d.
Hypothesis Hgood : good_world d W.

Theorem evaluate_code f : sim W legacy (evaluate W f) (code_judge W (code_choice W) f).
Proof.
  induction f as [|f IH]; intros s i anc n scope n' P E; [discriminate|]. destruct P as (Hw & Hc & Hst & Hl & Ha & Hdi).
  cbn [evaluate] in E. cbn [code_judge]. destruct (w_schema W s) as [b|kws] eqn:Hs.
  - exists (plain b). split; [reflexivity|]. exists []. rewrite app_nil_r.
    assert (R : Rel legacy (i_path i) (width i) [] (plain b)).
    { constructor; [intro name|intros k _]; rewrite ?evaluated_plain; (split; [intro H; now apply some_nil in H|intros []]). }
    destruct b; injection E as <-.
    + split; [apply frame_refl|]. split; [reflexivity|]. split; [constructor|]. split; [cbn [plain o_ok]; now rewrite andb_true_r|auto].
    + split; [repeat split|]. split; [reflexivity|]. split; [constructor|]. split; [cbn [plain o_ok]; now rewrite andb_false_r|auto].
  - destruct (eval_keywords W (evaluate W f) s kws i anc n) as [n1| |] eqn:E1; cbn [bind] in E; try discriminate. injection E as <-.
    exact (object_spec W d legacy _ _ IH Hd s kws Hs (Hgood _ _ Hs)
             (r_schema n :: anc) (s :: scope) Hst i Hw n anc eq_refl Hc Hl Ha Hdi n1 E1).
Qed.

Theorem evaluate_root_code f s i r : jwf (i_val i) = true -> evaluate_root W f s i = Ok r ->
  exists o, code_judge W (code_choice W) f [] s (i_val i) = Some o /\ r_valid r = o_ok o.
Proof.
  intros Hw E. destruct (evaluate_code f s i [] (new_root s i) [] r) as (o & J & cs & _ & _ & _ & V & _); [|exact E|].
  - split; [exact Hw|]. split; [constructor|]. split; [apply st_dup, st_cons, st_nil|]. split; [|now split].
    intros _ sn. cbn. intros [= <-]. now left.
  - exists o. split; [exact J|exact V].
Qed.
End Main.

(** ** Judging deeper does not change the answer. *)
Definition ext {A} (a b : option A) : Prop := a = None \/ a = b.

Lemma ext_refl {A} (a : option A) : ext a a.
Proof. now right. Qed.
Lemma ext_some {A} (a b : option A) x : ext a b -> a = Some x -> b = Some x.
Proof. intros [->| ->]; [discriminate|auto]. Qed.
Lemma ext_bind {A B} (a b : option A) (f g : A -> option B) : ext a b -> (forall x, ext (f x) (g x)) -> ext (obind a f) (obind b g).
Proof. intros [->| ->] H; [now left|]. destruct b as [x|]; [apply H|now left]. Qed.
Lemma ext_all {A} (l l' : list (option A)) : Forall2 ext l l' -> ext (all_some l) (all_some l').
Proof.
  induction 1 as [|a b l l' H _ IH]; [apply ext_refl|]. destruct H as [->| ->]; [now left|]. cbn [all_some].
  destruct b as [x|]; [|now left]. destruct IH as [->| ->]; [now left|apply ext_refl].
Qed.
Lemma ext_map {A B} (f g : A -> option B) l : (forall x, ext (f x) (g x)) -> ext (all_some (map f l)) (all_some (map g l)).
Proof. intro H. apply ext_all. induction l as [|a l IH]; constructor; auto. Qed.
Lemma ext_conclude l l' : Forall2 ext l l' -> ext (conclude l) (conclude l').
Proof.
  intro H. unfold conclude. destruct (existsb rejects l) eqn:E.
  - right. replace (existsb rejects l') with true; [reflexivity|]. symmetry. apply existsb_exists in E. destruct E as (o & Ho & Hr).
    induction H as [|a b l l' H _ IH]; [destruct Ho|]. cbn [existsb]. destruct Ho as [->|Ho]; [|rewrite IH by exact Ho; apply orb_true_r].
    destruct H as [->| ->]; [discriminate Hr|]. now rewrite Hr.
  - destruct (ext_all _ _ H) as [N|N]; [rewrite N; now left|].
    destruct (all_some l) as [os|] eqn:A; [|now left]. right.
    replace (existsb rejects l') with false; [now rewrite <- N|]. symmetry. apply not_true_is_false. intro X. apply existsb_exists in X.
    destruct X as (o & Ho & Hr). apply rejects_true in Hr. destruct Hr as (ko & -> & O).
    symmetry in N. apply (all_some_In _ _ N) in Ho. apply (all_some_In _ _ A) in Ho.
    apply not_true_iff_false in E. apply E. apply existsb_exists. exists (Some ko). split; [exact Ho|]. cbn. now rewrite O.
Qed.

Section Mono.
Variable W : world.
Variable choose choose' : pystr -> list sid -> sid -> sid.
Variable jd jd' : list sid -> sid -> json -> option outcome.
Hypothesis H : forall sc t y, ext (jd sc t y) (jd' sc t y).

Definition same_choice (k : keyword) : Prop :=
  kw_dynamic k = true -> forall sc t, choose (kw_fragment k) sc t = choose' (kw_fragment k) sc t.

Lemma ext_judge_all sc t l : ext (judge_all jd sc t l) (judge_all jd' sc t l).
Proof. apply ext_map. auto. Qed.
Lemma ext_judge_rest sc st t l : ext (judge_rest jd sc st t l) (judge_rest jd' sc st t l).
Proof. apply ext_bind; [apply ext_judge_all|intro; apply ext_refl]. Qed.
Lemma ext_judge_pairs sc ts l : ext (judge_pairs jd sc ts l) (judge_pairs jd' sc ts l).
Proof. apply ext_bind; [apply ext_map; auto|intro; apply ext_refl]. Qed.
Lemma ext_judge_members sc t l : ext (judge_members jd sc t l) (judge_members jd' sc t l).
Proof. apply ext_bind; [apply ext_judge_all|intro; apply ext_refl]. Qed.

Lemma ext_judge_std sc kws k c x : same_choice k -> ext (judge_std W choose jd sc kws k c x) (judge_std W choose' jd' sc kws k c x).
Proof.
  intro Hc. destruct c; cbn [judge_std]; try apply ext_refl;
    try solve [apply ext_bind; [apply ext_refl|]; intro; auto using ext_judge_rest, ext_judge_pairs];
    try solve [apply ext_bind; [apply ext_refl|]; intro; apply ext_bind; [apply ext_map; auto|intro; apply ext_refl]];
    try solve [apply ext_bind; [apply ext_refl|]; intro; apply ext_bind; [auto using ext_judge_all|intro; apply ext_refl]].
  - apply ext_bind; [apply ext_refl|]. intro t. destruct (kw_dynamic k) eqn:D; [|auto]. rewrite (Hc D). auto.
  - destruct (dget _ kws); [|apply ext_refl]. apply ext_bind; [apply ext_refl|]. intro. apply ext_bind; [auto|]. intro.
    destruct (o_ok _); [|apply ext_refl]. apply ext_bind; [apply ext_refl|auto].
  - destruct (dget _ kws); [|apply ext_refl]. apply ext_bind; [apply ext_refl|]. intro. apply ext_bind; [auto|]. intro.
    destruct (o_ok _); [apply ext_refl|]. apply ext_bind; [apply ext_refl|auto].
  - apply ext_bind; [apply ext_refl|]. intro m. apply ext_bind; [|intro; apply ext_refl]. apply ext_map. intro kv. apply ext_bind; [apply ext_refl|auto].
  - apply ext_bind; [apply ext_refl|]. intro m. apply ext_bind; [|intro; apply ext_refl]. apply ext_map. intro kv. apply ext_bind; [apply ext_refl|].
    intro bs. cbv zeta. apply ext_bind; [apply ext_map; auto|intro; apply ext_refl].
  - apply ext_bind; [apply ext_refl|]. intro t. cbv zeta. apply ext_bind; [apply ext_refl|]. intro bs. apply ext_judge_members.
  - destruct (kw_json k); auto using ext_refl, ext_judge_rest, ext_judge_pairs.
  - destruct (subs_of _); [|apply ext_refl]. apply ext_bind; [apply ext_refl|]. intro. apply ext_judge_rest.
Qed.

Lemma ext_judge_unevaluated sc o k c x : ext (judge_unevaluated jd sc o k c x) (judge_unevaluated jd' sc o k c x).
Proof.
  destruct c; cbn [judge_unevaluated]; cbv zeta; try apply ext_refl; apply ext_bind; try apply ext_refl; intro;
    try apply ext_judge_members; (apply ext_bind; [apply ext_judge_all|intro; apply ext_refl]).
Qed.

Lemma ext_judge_object sc kws x : (forall key k, In (key, k) kws -> same_choice k) ->
  ext (judge_object W choose jd sc kws x) (judge_object W choose' jd' sc kws x).
Proof.
  intro Hc. unfold judge_object. cbv zeta. set (early := filter (fun k => match late k with None => true | Some _ => false end) _).
  assert (He : forall k, In k early -> same_choice k).
  { intros k Hk. unfold early in Hk. rewrite !filter_In, in_map_iff in Hk. destruct Hk as [[([key k'] & <- & Hk) _] _]. exact (Hc _ _ Hk). }
  assert (E : ext (conclude (map (judge_keyword W choose jd sc kws x) early)) (conclude (map (judge_keyword W choose' jd' sc kws x) early))).
  { apply ext_conclude. clearbody early. induction early as [|k l IH]; constructor; [|apply IH; intros; apply He; now right]. unfold judge_keyword.
    destruct (kw_class k); [apply ext_judge_std, He; now left|apply ext_refl]. }
  destruct E as [->|E]; [now left|]. rewrite E. destruct (conclude (map (judge_keyword W choose' jd' sc kws x) early)) as [o|]; [|now left]. destruct (o_ok o); [|apply ext_refl].
  apply ext_conclude. constructor; [apply ext_refl|]. clear - H. induction (filter (concerns x) (map snd kws)) as [|k l IH]; [constructor|]. cbn [flat_map].
  destruct (late k); [|exact IH]. constructor; [apply ext_judge_unevaluated|exact IH].
Qed.
End Mono.

Lemma judge_mono W choose n : forall sc s x, ext (judge W choose n sc s x) (judge W choose (S n) sc s x).
Proof.
  induction n as [|n IH]; intros sc s x; [now left|]. cbn [judge]. destruct (w_schema W s); [apply ext_refl|].
  apply ext_judge_object; [exact IH|]. intros key k _ _ sc' t. reflexivity.
Qed.
Lemma judge_more W choose n m sc s x o : n <= m -> judge W choose n sc s x = Some o -> judge W choose m sc s x = Some o.
Proof.
  induction 1 as [|m _ IH]; [auto|]. intro E. exact (ext_some _ _ _ (judge_mono W choose m sc s x) (IH E)).
Qed.
Theorem judge_unique W choose n m sc s x o o' : judge W choose n sc s x = Some o -> judge W choose m sc s x = Some o' -> o = o'.
Proof.
  intros E E'. destruct (Nat.le_ge_cases n m) as [L|L].
  - rewrite (judge_more _ _ _ _ _ _ _ _ L E) in E'. congruence.
  - rewrite (judge_more _ _ _ _ _ _ _ _ L E') in E. congruence.
Qed.
Theorem verdict_unique W s x b b' : verdict W s x b -> verdict W s x b' -> b = b'.
Proof. intros (n & o & J & <-) (n' & o' & J' & <-). f_equal. exact (judge_unique _ _ _ _ _ _ _ _ _ J J'). Qed.

(** ** Where the code's choice of dynamic references is the prescribed one. *)
Lemma judge_choice W c1 c2 : (forall s kws key k, w_schema W s = SObj kws -> In (key, k) kws -> same_choice c1 c2 k) ->
  forall n sc s x, judge W c1 n sc s x = judge W c2 n sc s x.
Proof.
  intro Hc. assert (A : forall c1 c2, (forall s kws key k, w_schema W s = SObj kws -> In (key, k) kws -> same_choice c1 c2 k) ->
    forall n sc s x, ext (judge W c1 n sc s x) (judge W c2 n sc s x)).
  { clear. intros c1 c2 Hc. induction n as [|n IH]; intros sc s x; [now left|]. cbn [judge]. destruct (w_schema W s) as [|kws] eqn:Hs; [apply ext_refl|].
    apply ext_judge_object; [exact IH|]. intros key k Hk. exact (Hc _ _ _ _ Hs Hk). }
  intros n sc s x. assert (Hc' : forall s kws key k, w_schema W s = SObj kws -> In (key, k) kws -> same_choice c2 c1 k).
  { intros s' kws key k H1 H2 D sc' t. symmetry. exact (Hc _ _ _ _ H1 H2 D sc' t). }
  destruct (A c1 c2 Hc n sc s x) as [E|E]; [|exact E]. destruct (A c2 c1 Hc' n sc s x) as [E'|E']; congruence.
Qed.

Lemma visited_single W f (Hs : single_anchor W f) sc : forall checked cur,
  (forall s b, In s sc -> w_base W s = Some b -> mem_str b checked = true -> forall t, anchored W f s = Some t -> t = cur) ->
  visited_choice W f sc checked cur = match outermost (anchored W f) sc with Some t => t | None => cur end.
Proof.
  induction sc as [|s sc IH]; intros checked cur Hk; [reflexivity|]. cbn [visited_choice outermost].
  destruct (w_base W s) as [b|] eqn:B.
  - destruct (mem_str b checked) eqn:M.
    + rewrite IH by (intros s' b' H; apply Hk; now right). destruct (outermost (anchored W f) sc) as [t|] eqn:O; [reflexivity|].
      destruct (anchored W f s) as [t|] eqn:A; [|reflexivity]. symmetry. apply (Hk s b); auto. now left.
    + rewrite IH.
      * destruct (outermost (anchored W f) sc) as [t|] eqn:O; [reflexivity|]. now destruct (anchored W f s).
      * intros s' b' Hin B' M' t A'. cbn [mem_str existsb] in M'. apply orb_true_iff in M'.
        destruct (anchored W f s) as [t1|] eqn:A.
        { exact (Hs _ _ _ _ A' A). }
        destruct M' as [M'|M'].
        { exfalso. destruct (str_eqb_spec b' b) as [->|]; [|discriminate]. unfold anchored in A, A'. rewrite B in A. rewrite B' in A'. congruence. }
        { apply (Hk s' b'); auto. now right. }
  - rewrite IH by (intros s' b' H; apply Hk; now right). destruct (outermost (anchored W f) sc); [reflexivity|].
    unfold anchored. now rewrite B.
Qed.

Lemma code_choice_single W f sc t : single_anchor W f -> code_choice W f sc t = dynamic_choice W f sc t.
Proof. intro Hs. unfold code_choice, dynamic_choice. apply visited_single; [exact Hs|]. discriminate. Qed.

Lemma judge_prescribed W : plain_dynamics W -> forall n sc s x,
  judge W (code_choice W) n sc s x = judge W (dynamic_choice W) n sc s x.
Proof.
  intros H. apply judge_choice. intros s kws key k H1 H2 D sc t. apply code_choice_single. exact (H _ _ _ _ H1 H2 D).
Qed.
