(** The loop over the keywords of one schema object: what the result node's
    children say about each keyword, and that together they say what the code
    judgement says. *)
From Verif Require Export SchemaKw ValueFacts.
Open Scope nat_scope.

(** ** The dialects. *)

Definition modern (c : stdclass) : bool :=
  match c with KPrefixItems | KItems | KUnevaluatedItems | KUnevaluatedProperties | KDynamicRef => true | _ => false end.
Definition older (c : stdclass) : bool :=
  match c with KItems2019 | KAdditionalItems | KUnevaluatedItems2019 | KUnevaluatedProperties2019 | KRecursiveRef => true | _ => false end.

Lemma find_class_In d key c : find_class d key = Some c -> In c d /\ std_key c = key.
Proof.
  induction d as [|a d IH]; cbn [find_class]; [discriminate|]. destruct (str_eqb_spec (std_key a) key) as [E|E].
  - intros [= <-]. split; [now left|exact E].
  - intro H. destruct (IH H). split; [now right|assumption].
Qed.

Lemma dialect_excludes legacy d c : dialect legacy d -> In c d -> (if legacy then modern c else older c) = false.
Proof.
  intros D H. assert (A : forallb (fun c => negb (if legacy then modern c else older c)) d = true).
  { destruct legacy; cbn [dialect] in D; [subst d; reflexivity|]. destruct D as [->| ->]; reflexivity. }
  rewrite forallb_forall in A. specialize (A c H). now apply negb_true_iff in A.
Qed.

Lemma dialect_reads legacy d key : dialect legacy d -> In key (read_keys legacy) -> find_class d key <> None.
Proof.
  intros D H. assert (A : forallb (fun k => match find_class d k with Some _ => true | None => false end) (read_keys legacy) = true).
  { destruct legacy; cbn [dialect] in D; [subst d; vm_compute; reflexivity|]. destruct D as [->| ->]; vm_compute; reflexivity. }
  rewrite forallb_forall in A. specialize (A key H). now destruct (find_class d key).
Qed.

Lemma unread legacy c : silent c = true \/ c = KDependentSchemas \/ c = KFormat \/ c = KContentSchema -> ~ In (std_key c) (read_keys legacy).
Proof.
  intros H HIn. assert (A : mem_str (std_key c) (read_keys legacy) = false).
  { destruct H as [H|[-> |[-> | ->]]]; destruct legacy; try (vm_compute; reflexivity); destruct c; try discriminate H; vm_compute; reflexivity. }
  apply mem_str_In in HIn. congruence.
Qed.

(** ** Conclusions. *)
Lemma rejects_true o : rejects o = true <-> exists ko, o = Some ko /\ o_ok ko = false.
Proof.
  destruct o as [ko|]; cbn [rejects]; [|split; [discriminate|intros (? & ? & _); discriminate]].
  rewrite negb_true_iff. split; [intro; exists ko; auto|intros (ko' & [= <-] & H); exact H].
Qed.

Lemma conclude_rejects l ko : In (Some ko) l -> o_ok ko = false -> conclude l = Some (plain false).
Proof.
  intros H H0. unfold conclude. replace (existsb rejects l) with true; [reflexivity|]. symmetry. apply existsb_exists.
  exists (Some ko). split; [exact H|]. cbn. now rewrite H0.
Qed.
Lemma conclude_accepts l os : all_some l = Some os -> (forall o, In o os -> o_ok o = true) -> conclude l = Some (gather true os).
Proof.
  intros H H0. unfold conclude. rewrite H. replace (existsb rejects l) with false; [reflexivity|]. symmetry. apply not_true_iff_false. intro E.
  apply existsb_exists in E. destruct E as (o & Ho & E). apply rejects_true in E. destruct E as (ko & -> & E).
  apply (all_some_In _ _ H) in Ho. rewrite (H0 _ Ho) in E. discriminate.
Qed.
Lemma conclude_inv l o : conclude l = Some o -> o_ok o = true ->
  exists os, all_some l = Some os /\ (forall ko, In ko os -> o_ok ko = true) /\ o = gather true os.
Proof.
  unfold conclude. destruct (existsb rejects l) eqn:E; [intros [= <-]; discriminate|].
  destruct (all_some l) as [os|] eqn:A; [|discriminate]. intros [= <-] _. exists os. split; [reflexivity|]. split; [|reflexivity].
  intros ko H. apply (all_some_In _ _ A) in H. destruct (o_ok ko) eqn:O; [reflexivity|]. exfalso.
  assert (X : existsb rejects l = true) by (apply existsb_exists; exists (Some ko); split; [exact H|cbn; now rewrite O]). congruence.
Qed.

Lemma filter_ok_all os : (forall o, In o os -> o_ok o = true) -> filter o_ok os = os.
Proof. intro H. apply filter_all. exact H. Qed.

Lemma dget_In_iff {V} k (v : V) m : NoDup (keys m) -> (dget k m = Some v <-> In (k, v) m).
Proof. intro N. split; [apply dget_In|now apply In_dget]. Qed.

Section Loop.
Variable W : world.
Variable d : list stdclass.
Variable legacy : bool.
Variable ev : sid -> inst -> list sid -> rnode -> res rnode.
Variable jd : list sid -> sid -> json -> option outcome.
Hypothesis Hsim : sim W legacy ev jd.
Hypothesis Hd : dialect legacy d.
Variable s : sid.
Variable kws : list (pystr * keyword).
Hypothesis Hkws : w_schema W s = SObj kws.
Hypothesis Hgood : good_schema d kws.
Variable anck sc : list sid.
Hypothesis Hst : stutter (s :: anck) sc.
Variable i : inst.
Hypothesis Hw : jwf (i_val i) = true.
Notation p := (i_path i).
Notation x := (i_val i).
Notation choose := (code_choice W).
Notation jk := (code_keyword W choose jd sc kws x).
Notation kbase := (kbase W s i).
Notation fresh := (fresh W s i).
Notation kout := (kout W legacy s i).
Notation con := (contributes legacy p (width i)).

(** ** The keywords of the schema. *)
Lemma kws_unique key k k' : In (key, k) kws -> In (key, k') kws -> k = k'.
Proof.
  destruct Hgood as [N _]. intros H1 H2. apply dget_In_iff in H1; [|exact N]. apply dget_In_iff in H2; [|exact N]. congruence.
Qed.
Lemma class_key key k c : In (key, k) kws -> kw_class k = Std c -> key = std_key c /\ In c d.
Proof.
  intros H E. destruct Hgood as [_ G]. destruct (G key k H) as (_ & C & _). rewrite C in E.
  destruct (find_class d key) as [c'|] eqn:F; [|discriminate]. injection E as <-. apply find_class_In in F. destruct F. now split.
Qed.
Lemma class_found key k c : In (key, k) kws -> find_class d key = Some c -> kw_class k = Std c.
Proof. intros H E. destruct Hgood as [_ G]. destruct (G key k H) as (_ & C & _). now rewrite E in C. Qed.
Lemma class_unread key k u : In (key, k) kws -> kw_class k = Unknown u -> ~ In key (read_keys legacy).
Proof.
  intros H E R. destruct Hgood as [_ G]. destruct (G key k H) as (_ & C & _). rewrite C in E.
  pose proof (dialect_reads legacy d key Hd R). destruct (find_class d key); [discriminate|contradiction].
Qed.
Lemma dget_kws key k : dget key kws = Some k <-> In (key, k) kws.
Proof. apply dget_In_iff. apply Hgood. Qed.
Lemma kws_value key k : In (key, k) kws -> value_ok k = true.
Proof. intro H. destruct Hgood as [_ G]. now apply (G key k). Qed.

(** ** What the children say about a keyword. *)

Definition extra (k : keyword) (c : rnode) (ko : outcome) : Prop :=
  match kw_class k with
  | Std KIf => exists t o, kw_json k = KSub t /\ jd sc t x = Some o /\ r_valid c = o_ok o
  | Std KItems2019 =>
      match kw_json k with
      | KSubs ts => o_ok ko = true -> (width i = 0 /\ r_annot c = JNull) \/ (0 < width i /\ r_annot c = jint (pred (min (length ts) (width i))))
      | _ => r_annot c = JNull \/ r_annot c = JBool true
      end /\ (o_ok ko = false -> r_annot c = JNull)
  | Std KMaxContains => r_valid c = o_ok ko
  | _ => True
  end.

Definition may_vanish (c : kwclass) : bool :=
  match c with Std (KThen | KElse | KContentSchema | KAdditionalItems) => true | _ => false end.

Definition usual (key : pystr) (k : keyword) (oc : option rnode) : Prop :=
  match oc with
  | Some c => exists ko, jk k = Some ko /\ kout key (kw_json k) c ko /\ extra k c ko
  | None => may_vanish (kw_class k) = true /\ jk k = Some (plain true)
  end.

(** contains with its two companions. *)
Definition low_of (os : list outcome) : option bool :=
  match dget (lit "minContains") kws with
  | Some k' => limit_ok (fun a b => num_leb b a) (size (count os)) (kw_json k')
  | None => Some false
  end.
Definition high_of (os : list outcome) : option bool :=
  match dget (lit "maxContains") kws with
  | Some k' => limit_ok (fun a b => negb (num_gtb a b)) (size (count os)) (kw_json k')
  | None => Some true
  end.

Definition counted (k : keyword) (os : list outcome) (lo hi : bool) : Prop :=
  (exists t, kw_json k = KSub t /\ judge_all jd sc t (items x) = Some os) /\ low_of os = Some lo /\ high_of os = Some hi.

Definition contains_entry (minned : bool) (key : pystr) (k : keyword) (oc : option rnode) : Prop :=
  exists os lo hi c, counted k os lo hi /\ oc = Some c /\
    kbase key (kw_json k) c /\ Forall (deeper p) (r_children c) /\ r_assert c = true /\
    r_annot c = JArr (map jint (accepted 0 os)) /\
    r_valid c = negb (Nat.eqb (count os) 0) || (minned && (lo && hi)).

Definition early : list keyword :=
  filter (fun k => match late k with None => true | Some _ => false end) (filter (concerns x) (map snd kws)).

Definition late_entry (valid0 : bool) (key : pystr) (k : keyword) (lc : stdclass) (oc : option rnode) : Prop :=
  (forall c, oc = Some c -> kbase key (kw_json k) c /\ under p c) /\
  forall os, all_some (map jk early) = Some os ->
    exists ko, code_unevaluated jd sc (gather true os) k lc x = Some ko /\
      (valid0 = true -> match oc with
                        | Some c => kout key (kw_json k) c ko
                        | None => ko = plain true
                        end).

Definition entry (valid0 minned : bool) (key : pystr) (k : keyword) (oc : option rnode) : Prop :=
  if concerns x k then
    match late k with
    | Some lc => late_entry valid0 key k lc oc
    | None =>
        match kw_class k with
        | Std KContains => contains_entry minned key k oc
        | _ => usual key k oc
        end
    end
  else oc = None.

Definition ordinary (c : stdclass) : bool :=
  match c with
  | KContains | KMaxContains | KMinContains
  | KUnevaluatedItems | KUnevaluatedItems2019 | KUnevaluatedProperties | KUnevaluatedProperties2019 => false
  | _ => true
  end.

Definition done_with (key : pystr) (k : keyword) (c : rnode) : Prop :=
  usual key k (if r_discard c then None else Some c).

Lemma done_out key k c ko : jk k = Some ko -> kout key (kw_json k) c ko -> extra k c ko -> done_with key k c.
Proof.
  intros H K X. unfold done_with. replace (r_discard c) with false; [exists ko; auto|]. symmetry. apply K.
Qed.
Lemma done_gone key k c : may_vanish (kw_class k) = true -> jk k = Some (plain true) -> done_with key k (discard c).
Proof. intros H1 H2. now split. Qed.

(** The siblings that a keyword consults. *)
Definition siblings_ok (valid0 minned : bool) (k : keyword) (parent : rnode) : Prop :=
  forall key', In key' (depends_on (kw_class k)) ->
    match dget key' kws with
    | Some k' => entry valid0 minned key' k' (sibling parent i key')
    | None => sibling parent i key' = None
    end.

Lemma applicable_concerns k : applicable k i = concerns x k.
Proof. reflexivity. Qed.

Lemma find_if : find_class d (lit "if") = Some KIf.
Proof. destruct legacy; cbn [dialect] in Hd; [|destruct Hd]; subst d; vm_compute; reflexivity. Qed.
Lemma find_contains : find_class d (lit "contains") = Some KContains.
Proof. destruct legacy; cbn [dialect] in Hd; [|destruct Hd]; subst d; vm_compute; reflexivity. Qed.
Lemma find_max : find_class d (lit "maxContains") = Some KMaxContains.
Proof. destruct legacy; cbn [dialect] in Hd; [|destruct Hd]; subst d; vm_compute; reflexivity. Qed.
Lemma find_min : find_class d (lit "minContains") = Some KMinContains.
Proof. destruct legacy; cbn [dialect] in Hd; [|destruct Hd]; subst d; vm_compute; reflexivity. Qed.
Lemma find_properties : find_class d (lit "properties") = Some KProperties.
Proof. destruct legacy; cbn [dialect] in Hd; [|destruct Hd]; subst d; vm_compute; reflexivity. Qed.
Lemma find_patterns : find_class d (lit "patternProperties") = Some KPatternProperties.
Proof. destruct legacy; cbn [dialect] in Hd; [|destruct Hd]; subst d; vm_compute; reflexivity. Qed.
Lemma find_prefix : legacy = false -> find_class d (lit "prefixItems") = Some KPrefixItems.
Proof. destruct legacy; cbn [dialect] in Hd; intro; [discriminate|destruct Hd]; subst d; vm_compute; reflexivity. Qed.
Lemma find_items : legacy = true -> find_class d (lit "items") = Some KItems2019.
Proof. destruct legacy; cbn [dialect] in Hd; intro; [|discriminate]; subst d; vm_compute; reflexivity. Qed.

Lemma class_legacy key k c : In (key, k) kws -> kw_class k = Std c -> (if legacy then modern c else older c) = false.
Proof. intros H E. apply (dialect_excludes legacy d c Hd). now apply (class_key key k). Qed.

Lemma concerns_types k c : kw_class k = Std c -> static (Std c) = false -> concerns x k = existsb (jtype_eqb (type_of x)) (std_types c).
Proof. intros E N. unfold concerns. rewrite E, N. reflexivity. Qed.

Lemma jk_std k c : kw_class k = Std c -> jk k = code_std W choose jd sc kws k c x.
Proof. intro E. unfold code_keyword. now rewrite E. Qed.

Lemma present_if v0 mn k parent : siblings_ok v0 mn k parent -> In (lit "if") (depends_on (kw_class k)) ->
  match dget (lit "if") kws with
  | Some k' => exists n t o, sibling parent i (lit "if") = Some n /\ kw_json k' = KSub t /\ jd sc t x = Some o /\ r_valid n = o_ok o
  | None => sibling parent i (lit "if") = None
  end.
Proof.
  intros HS HD. specialize (HS _ HD). destruct (dget (lit "if") kws) as [k'|] eqn:G; [|exact HS].
  apply dget_kws in G. pose proof (class_found _ _ _ G find_if) as C. unfold entry in HS.
  rewrite (concerns_types k' KIf C eq_refl) in HS. unfold late in HS. rewrite C in HS.
  replace (existsb _ _) with true in HS by (cbn; destruct (type_of x); reflexivity).
  unfold usual in HS. rewrite C in HS. destruct (sibling parent i (lit "if")) as [n|]; [|destruct HS; discriminate].
  destruct HS as (ko & _ & _ & X). unfold extra in X. rewrite C in X. destruct X as (t & o & X1 & X2 & X3). exists n, t, o. auto.
Qed.

(** A sibling that never vanishes. *)
Lemma present_sibling v0 mn k parent key c : siblings_ok v0 mn k parent -> In key (depends_on (kw_class k)) ->
  find_class d key = Some c -> ordinary c = true -> static (Std c) = false -> may_vanish (Std c) = false ->
  existsb (jtype_eqb (type_of x)) (std_types c) = true ->
  match dget key kws with
  | Some k' => exists n ko, sibling parent i key = Some n /\ jk k' = Some ko /\ kout key (kw_json k') n ko /\ extra k' n ko
  | None => sibling parent i key = None
  end.
Proof.
  intros HS HD F O N V T. specialize (HS _ HD). destruct (dget key kws) as [k'|] eqn:G; [|exact HS].
  apply dget_kws in G. pose proof (class_found _ _ _ G F) as C. unfold entry in HS.
  rewrite (concerns_types k' c C N), T in HS. unfold late in HS. rewrite C in HS.
  assert (U : usual key k' (sibling parent i key)) by (destruct c; try discriminate O; exact HS).
  unfold usual in U. destruct (sibling parent i key) as [n|]; [|destruct U as [U _]; rewrite C in U; congruence].
  destruct U as (ko & U). exists n, ko. now split.
Qed.

(** ** One keyword. *)
Lemma extra_none k c ko cl : kw_class k = Std cl -> match cl with KIf | KItems2019 | KMaxContains => False | _ => True end -> extra k c ko.
Proof. intros E H. unfold extra. rewrite E. destruct cl; try exact I; destruct H. Qed.

Lemma step_ref key k cl c0 c : In (key, k) kws -> kw_class k = Std cl -> fresh key (kw_json k) c0 ->
  match cl with
  | KRef => e_ref ev (kw_ref k) i anck c0
  | KDynamicRef => e_dynamicRef W ev k i anck c0
  | KRecursiveRef => e_recursiveRef W ev k i anck c0
  | _ => Exn EOther
  end = Ok c -> done_with key k c.
Proof.
  intros HIn C F E. pose proof (kws_value _ _ HIn) as V.
  assert (R : exists t c1, ev t i anck c0 = Ok c1 /\ c = refschema c1 t /\ jk k = jd sc t x /\ exists w, kw_json k = KJ w).
  { unfold value_ok in V. rewrite C in V. rewrite (jk_std k cl C). assert (Rs : r_schema c0 = s) by apply F.
    destruct cl; try discriminate E; cbn [code_std judge_std].
    - unfold e_ref in E. destruct (kw_ref k) as [t|]; [|discriminate]. cbn [obind].
      destruct (ev t i anck c0) as [c1| |] eqn:E1; cbn [bind] in E; try discriminate. injection E as <-.
      exists t, c1. repeat split; auto. destruct (kw_json k); try discriminate V; try (now rewrite andb_false_r in V); eauto.
    - unfold e_dynamicRef in E. destruct (kw_ref k) as [t|]; [|discriminate]. cbn [obind].
      destruct (if kw_dynamic k then _ else _) as [t'| |] eqn:Et; cbn [bind] in E; try discriminate.
      destruct (ev t' i anck c0) as [c1| |] eqn:E1; cbn [bind] in E; try discriminate. injection E as <-.
      exists t', c1. split; [exact E1|]. split; [reflexivity|]. split.
      + destruct (kw_dynamic k); [|injection Et as <-; reflexivity]. rewrite Rs in Et.
        apply (dynamic_target_stutter W _ _ _ Hst) in Et. apply dynamic_target_choice in Et. unfold code_choice. now rewrite Et.
      + destruct (kw_json k); try discriminate V; try (now rewrite andb_false_r in V); eauto.
    - unfold e_recursiveRef in E. destruct (kw_ref k) as [t|]; [|discriminate]. cbn [obind].
      destruct (has_recursive_anchor W t) as [y| |] eqn:Ea; cbn [bind] in E; try discriminate.
      destruct (if y then _ else _) as [t'| |] eqn:Et; cbn [bind] in E; try discriminate.
      destruct (ev t' i anck c0) as [c1| |] eqn:E1; cbn [bind] in E; try discriminate. injection E as <-.
      exists t', c1. split; [exact E1|]. split; [reflexivity|]. split.
      + apply has_recursive_anchor_declares in Ea. unfold recursive_choice. rewrite Ea. destruct y; [|injection Et as <-; reflexivity].
        rewrite Rs in Et. apply (recursive_target_stutter W _ _ Hst) in Et. apply recursive_target_choice in Et. now rewrite <- Et.
      + destruct (kw_json k); try discriminate V; try (now rewrite andb_false_r in V); eauto. }
  destruct R as (t & c1 & E1 & Ec & J & w & Kj). rewrite Kj in F.
  destruct (kw_reference W legacy ev jd Hsim s anck sc Hst i Hw key w t c0 c1 c F E1 Ec) as (o & Jo & K).
  apply (done_out key k c o); [now rewrite J|now rewrite Kj|]. apply (extra_none k c o cl C). destruct cl; try exact I; discriminate E.
Qed.

Lemma with_sub_inv v f c : with_sub v f = Ok c -> exists t, v = KSub t /\ f t = Ok c.
Proof. destruct v; try discriminate. eauto. Qed.
Lemma with_subm_inv v f c : with_subm v f = Ok c -> exists m, v = KSubm m /\ f m = Ok c.
Proof. destruct v; try discriminate. eauto. Qed.

Lemma subm_nodup key k m : In (key, k) kws -> kw_json k = KSubm m -> NoDup (keys m).
Proof.
  intros HIn E. pose proof (kws_value _ _ HIn) as V. unfold value_ok in V. rewrite E in V. apply andb_true_iff in V.
  destruct V as [V _]. now apply nodup_keysb_NoDup.
Qed.

Lemma step_inplace key k cl c0 c : In (key, k) kws -> kw_class k = Std cl -> fresh key (kw_json k) c0 ->
  match cl with
  | KAllOf => with_subs (kw_json k) (fun l => e_allOf ev l i anck c0)
  | KAnyOf => with_subs (kw_json k) (fun l => e_anyOf ev l i anck c0)
  | KOneOf => with_subs (kw_json k) (fun l => e_oneOf ev l i anck c0)
  | KNot => with_sub (kw_json k) (fun t => e_not ev t i anck c0)
  | KIf => with_sub (kw_json k) (fun t => e_if ev t i anck c0)
  | KDependentSchemas => with_subm (kw_json k) (fun m => e_dependentSchemas ev m i anck c0)
  | KPrefixItems => with_prefix (kw_json k) i (fun l => e_prefixItems ev l i anck c0)
  | KProperties => with_subm (kw_json k) (fun m => e_properties ev m i anck c0)
  | KPatternProperties => with_subm (kw_json k) (fun m => e_patternProperties W ev m i anck c0)
  | KPropertyNames => with_sub (kw_json k) (fun t => e_propertyNames ev t i anck c0)
  | _ => Exn EOther
  end = Ok c -> done_with key k c.
Proof.
  intros HIn C F E. destruct (class_key _ _ _ HIn C) as [Hk Hc].
  destruct cl; try discriminate E.
  1-3, 7: first [apply (with_subs_inv _ _ _ (value_subs k _ (kws_value _ _ HIn) C eq_refl)) in E|apply (with_prefix_inv _ _ _ _ (value_subs k _ (kws_value _ _ HIn) C eq_refl)) in E];
    destruct E as (l & Kj & E); rewrite Kj in F.
  - destruct (kw_allOf W legacy ev jd Hsim s anck sc Hst i Hw key l c0 c F E) as (os & J & K).
    apply (done_out key k c (gather (all_accept os) os)); [|now rewrite Kj|now apply (extra_none k c _ _ C)].
    rewrite (jk_std _ _ C). cbn [code_std judge_std subs_of obind]. rewrite Kj. cbn [obind]. now rewrite J.
  - destruct (kw_anyOf W legacy ev jd Hsim s anck sc Hst i Hw key l c0 c F E) as (os & J & K).
    apply (done_out key k c (gather (existsb o_ok os) os)); [|now rewrite Kj|now apply (extra_none k c _ _ C)].
    rewrite (jk_std _ _ C). cbn [code_std judge_std subs_of obind]. rewrite Kj. cbn [obind]. now rewrite J.
  - destruct (kw_oneOf W legacy ev jd Hsim s anck sc Hst i Hw key l c0 c F E) as (os & J & K).
    apply (done_out key k c (gather (Nat.eqb (count os) 1) os)); [|now rewrite Kj|now apply (extra_none k c _ _ C)].
    rewrite (jk_std _ _ C). cbn [code_std judge_std subs_of obind]. rewrite Kj. cbn [obind]. now rewrite J.
  - assert (Hl : legacy = false) by (pose proof (class_legacy _ _ _ HIn C) as X; destruct legacy; [discriminate X|reflexivity]).
    assert (Hk' : key = tuple_key legacy) by (rewrite Hl; exact Hk).
    destruct (kw_prefixItems W legacy ev jd Hsim s anck sc Hst i Hw key l c0 c F Hk' E) as (ko & J & K).
    apply (done_out key k c ko); [|now rewrite Kj|now apply (extra_none k c _ _ C)].
    rewrite (jk_std _ _ C). cbn [code_std judge_std subs_of obind]. rewrite Kj. cbn [obind]. exact J.
  - apply with_sub_inv in E; destruct E as (t & Kj & E); rewrite Kj in F.
    destruct (kw_not W legacy ev jd Hsim s anck sc Hst i Hw key t c0 c F E) as (o & J & K).
    apply (done_out key k c (mkO (negb (o_ok o)) (o_names o) (o_places o) (o_found o))); [|now rewrite Kj|now apply (extra_none k c _ _ C)].
    rewrite (jk_std _ _ C). cbn [code_std judge_std sub_of obind]. rewrite Kj. cbn [obind]. now rewrite J.
  - apply with_sub_inv in E; destruct E as (t & Kj & E); rewrite Kj in F.
    destruct (kw_if W legacy ev jd Hsim s anck sc Hst i Hw key t c0 c F E) as (o & J & Vo & K).
    apply (done_out key k c (gather true [o])); [|now rewrite Kj|].
    + rewrite (jk_std _ _ C). cbn [code_std judge_std sub_of obind]. rewrite Kj. cbn [obind]. now rewrite J.
    + unfold extra. rewrite C. exists t, o. auto.
  - apply with_subm_inv in E; destruct E as (m & Kj & E); rewrite Kj in F.
    assert (Hu : ~ In key (read_keys legacy)) by (rewrite Hk; apply unread; auto).
    destruct (kw_dependentSchemas W legacy ev jd Hsim s anck sc Hst i Hw key m c0 c F (subm_nodup _ _ _ HIn Kj) Hu E) as (os & J & K).
    apply (done_out key k c (gather (all_accept os) os)); [|now rewrite Kj|now apply (extra_none k c _ _ C)].
    rewrite (jk_std _ _ C). cbn [code_std judge_std subm_of obind]. rewrite Kj. cbn [obind]. now rewrite J.
  - apply with_subm_inv in E; destruct E as (m & Kj & E); rewrite Kj in F.
    assert (Hn : In key name_keys) by (rewrite Hk; cbn [name_keys In std_key]; auto).
    destruct (kw_properties W legacy ev jd Hsim s anck sc Hst i Hw key m c0 c F Hn E) as (os & J & K).
    eapply (done_out key k c); [|rewrite Kj; exact K|now apply (extra_none k c _ _ C)].
    rewrite (jk_std _ _ C). cbn [code_std judge_std subm_of obind]. rewrite Kj. cbn [obind]. now rewrite J.
  - apply with_subm_inv in E; destruct E as (m & Kj & E); rewrite Kj in F.
    assert (Hn : In key name_keys) by (rewrite Hk; cbn [name_keys In std_key]; auto).
    destruct (kw_patternProperties W legacy ev jd Hsim s anck sc Hst i Hw key m c0 c F Hn (subm_nodup _ _ _ HIn Kj) E) as (os & J & K).
    eapply (done_out key k c); [|rewrite Kj; exact K|now apply (extra_none k c _ _ C)].
    rewrite (jk_std _ _ C). cbn [code_std judge_std subm_of obind]. rewrite Kj. cbn [obind]. cbn zeta in J |- *. now rewrite J.
  - apply with_sub_inv in E; destruct E as (t & Kj & E); rewrite Kj in F.
    destruct (kw_propertyNames W legacy ev jd Hsim s anck sc Hst i Hw key t c0 c F E) as (os & J & K).
    eapply (done_out key k c); [|rewrite Kj; exact K|now apply (extra_none k c _ _ C)].
    rewrite (jk_std _ _ C). cbn [code_std judge_std sub_of obind]. rewrite Kj. cbn [obind]. now rewrite J.
Qed.

Lemma step_plain key k cl parent c0 c : In (key, k) kws -> kw_class k = Std cl -> fresh key (kw_json k) c0 -> concerns x k = true ->
  assertive cl = true \/ silent cl = true ->
  eval_std W ev k cl i anck parent c0 = Ok c -> done_with key k c.
Proof.
  intros HIn C F A [Ha|Ha] E; destruct (class_key _ _ _ HIn C) as [Hk Hc].
  - assert (Hu : ~ In (lit "format") (read_keys legacy)) by (apply (unread legacy KFormat); auto).
    assert (Hf : cl = KFormat -> key = lit "format") by (intros ->; exact Hk).
    destruct (kw_assertion W legacy ev s i Hw key k cl anck parent c0 c F Hu Hf (kws_value _ _ HIn) C Ha A E) as (b & J & K).
    eapply (done_out key k c); [|exact K|apply (extra_none k c _ _ C); now destruct cl].
    rewrite (jk_std _ _ C). destruct cl; try discriminate Ha; cbn [code_std judge_std]; now rewrite J.
  - assert (Hu : ~ In key (read_keys legacy)) by (rewrite Hk; apply unread; auto).
    assert (E' : e_annotation (kw_json k) c0 = Ok c) by (destruct cl; try discriminate Ha; exact E).
    pose proof (kw_annotation W legacy s i key (kw_json k) c0 c F Hu E') as K.
    eapply (done_out key k c); [|exact K|apply (extra_none k c _ _ C); now destruct cl].
    rewrite (jk_std _ _ C). destruct cl; try discriminate Ha; reflexivity.
Qed.

Lemma step_branch v0 mn key k cl parent c0 c : In (key, k) kws -> kw_class k = Std cl -> fresh key (kw_json k) c0 ->
  siblings_ok v0 mn k parent ->
  match cl with
  | KThen => with_sub (kw_json k) (fun t => e_branch ev true t i anck parent c0)
  | KElse => with_sub (kw_json k) (fun t => e_branch ev false t i anck parent c0)
  | _ => Exn EOther
  end = Ok c -> done_with key k c.
Proof.
  intros HIn C F HS E.
  assert (E' : exists want t, kw_json k = KSub t /\ e_branch ev want t i anck parent c0 = Ok c /\ cl = if want then KThen else KElse).
  { destruct cl; try discriminate E; apply with_sub_inv in E; destruct E as (t & Kj & E); [exists true, t|exists false, t]; auto. }
  destruct E' as (want & t & Kj & E' & Hcl). rewrite Kj in F.
  pose proof (kw_branch W legacy ev jd Hsim s anck sc Hst i Hw key want t parent c0 c F E') as B.
  assert (Hd' : In (lit "if") (depends_on (kw_class k))) by (rewrite C, Hcl; destruct want; now left).
  pose proof (present_if v0 mn k parent HS Hd') as HI.
  assert (Mv : may_vanish (kw_class k) = true) by (rewrite C, Hcl; now destruct want).
  assert (Ex : forall ko, extra k c ko) by (intro ko; apply (extra_none k c ko cl C); rewrite Hcl; now destruct want).
  assert (J : jk k = match dget (lit "if") kws with
    | None => Some (plain true)
    | Some _ => obind (sub_of (dget (lit "if") kws)) (fun c => obind (jd sc c x) (fun o =>
          if Bool.eqb (o_ok o) want then jd sc t x else Some (plain true)))
    end).
  { rewrite (jk_std k cl C), Hcl. destruct want; cbn [code_std judge_std]; destruct (dget (lit "if") kws) as [k'|]; try reflexivity;
      cbn [sub_of obind]; destruct (match kw_json k' with KSub t' => Some t' | _ => None end) as [t'|]; try reflexivity; cbn [obind];
      destruct (jd sc t' x) as [o|]; try reflexivity; cbn [obind]; destruct (o_ok o); cbn [Bool.eqb]; try reflexivity;
      unfold sub_of; cbn [obind]; rewrite Kj; reflexivity. }
  destruct (dget (lit "if") kws) as [k'|].
  - destruct HI as (n & t' & o & Hs & Hj & Ho & Hv). rewrite Hs in B. rewrite Hv in B.
    cbn [sub_of obind] in J. rewrite Hj in J. cbn [obind] in J. rewrite Ho in J. cbn [obind] in J.
    destruct (Bool.eqb (o_ok o) want).
    + destruct B as (ko & Jo & K). apply (done_out key k c ko); [now rewrite J|now rewrite Kj|apply Ex].
    + rewrite B. apply done_gone; [exact Mv|exact J].
  - rewrite HI in B. rewrite B. apply done_gone; [exact Mv|exact J].
Qed.

Lemma step_items v0 mn key k parent c0 c : In (key, k) kws -> kw_class k = Std KItems -> fresh key (kw_json k) c0 -> concerns x k = true ->
  siblings_ok v0 mn k parent -> with_sub (kw_json k) (fun t => e_items W ev t i anck parent c0) = Ok c -> done_with key k c.
Proof.
  intros HIn C F A HS E. apply with_sub_inv in E. destruct E as (t & Kj & E). rewrite Kj in F.
  assert (Hl : legacy = false) by (pose proof (class_legacy _ _ _ HIn C) as X; destruct legacy; [discriminate X|reflexivity]).
  destruct (class_key _ _ _ HIn C) as [Hk _]. assert (Hk' : key = rest_key legacy) by (rewrite Hl; exact Hk).
  assert (T : existsb (jtype_eqb (type_of x)) (std_types KPrefixItems) = true) by (rewrite (concerns_types k KItems C eq_refl) in A; exact A).
  assert (Hdp : In (lit "prefixItems") (depends_on (kw_class k))) by (rewrite C; now left).
  pose proof (present_sibling v0 mn k parent _ KPrefixItems HS Hdp (find_prefix Hl) eq_refl eq_refl eq_refl T) as HP.
  assert (HP' : match subs_of (dget (lit "prefixItems") kws) with
    | Some l => exists n, sibling parent i (lit "prefixItems") = Some n /\ stands W s (KSubs l) n
    | None => sibling parent i (lit "prefixItems") = None
    end).
  { destruct (dget (lit "prefixItems") kws) as [k'|] eqn:G; [|exact HP]. destruct HP as (n & ko & Hs & J & K & _).
    apply dget_kws in G. pose proof (class_found _ _ _ G (find_prefix Hl)) as C'. rewrite (jk_std _ _ C') in J. cbn [code_std judge_std] in J.
    destruct (subs_of (Some k')) as [l|] eqn:Sk; cbn [obind] in J; [|discriminate]. exists n. split; [exact Hs|].
    unfold subs_of in Sk. cbn [obind] in Sk. destruct (kw_json k') eqn:Kj'; try discriminate. injection Sk as <-.
    apply K. }
  destruct (kw_items W legacy ev jd Hsim s anck sc Hst i Hw key t parent c0 c (subs_of (dget (lit "prefixItems") kws)) F Hk' HP' E) as (ko & J & K).
  apply (done_out key k c ko); [|now rewrite Kj|now apply (extra_none k c ko _ C)].
  rewrite (jk_std _ _ C). cbn [code_std judge_std]. unfold sub_of. cbn [obind]. rewrite Kj. cbn [obind]. exact J.
Qed.

Lemma items_type n : n < width i -> exists l, x = JArr l.
Proof. unfold width. destruct x; cbn [items length]; try lia. eauto. Qed.

Lemma step_items_2019 key k c0 c : In (key, k) kws -> kw_class k = Std KItems2019 -> fresh key (kw_json k) c0 ->
  e_items_2019 W ev (kw_json k) i anck c0 = Ok c -> done_with key k c.
Proof.
  intros HIn C F E.
  assert (Hl : legacy = true) by (pose proof (class_legacy _ _ _ HIn C) as X; destruct legacy; [reflexivity|discriminate X]).
  destruct (class_key _ _ _ HIn C) as [Hk _]. assert (Hk' : key = tuple_key legacy) by (rewrite Hl; exact Hk).
  assert (Hv : match kw_json k with KSub _ => True | KSubs (_ :: _) => True | _ => False end).
  { pose proof (kws_value _ _ HIn) as V. unfold value_ok in V. rewrite C in V. destruct (kw_json k) as [v|t|[|t l]|m] eqn:Kj; try discriminate V.
    - exact I.
    - exact I.
    - now rewrite andb_false_r in V. }
  destruct (kw_items_2019 W legacy ev jd Hsim s anck sc Hst i Hw key (kw_json k) c0 c F Hl Hk' Hv E) as (ko & J & K & X1 & X2).
  apply (done_out key k c ko); [|exact K|].
  - rewrite (jk_std _ _ C). cbn [code_std judge_std]. exact J.
  - unfold extra. rewrite C. split; [|exact X2]. destruct (kw_json k); exact X1.
Qed.

Lemma step_additionalItems v0 mn key k parent c0 c : In (key, k) kws -> kw_class k = Std KAdditionalItems -> fresh key (kw_json k) c0 -> concerns x k = true ->
  siblings_ok v0 mn k parent -> with_sub (kw_json k) (fun t => e_additionalItems ev t i anck parent c0) = Ok c -> done_with key k c.
Proof.
  intros HIn C F A HS E. apply with_sub_inv in E. destruct E as (t & Kj & E). rewrite Kj in F.
  assert (Hl : legacy = true) by (pose proof (class_legacy _ _ _ HIn C) as X; destruct legacy; [reflexivity|discriminate X]).
  destruct (class_key _ _ _ HIn C) as [Hk _]. assert (Hk' : key = rest_key legacy) by (rewrite Hl; exact Hk).
  assert (T : existsb (jtype_eqb (type_of x)) (std_types KItems2019) = true) by (rewrite (concerns_types k KAdditionalItems C eq_refl) in A; exact A).
  assert (Hdp : In (lit "items") (depends_on (kw_class k))) by (rewrite C; now left).
  pose proof (present_sibling v0 mn k parent _ KItems2019 HS Hdp (find_items Hl) eq_refl eq_refl eq_refl T) as HP.
  assert (Mv : may_vanish (kw_class k) = true) by now rewrite C.
  assert (J : jk k = match subs_of (dget (lit "items") kws) with
      | Some ts => obind (judge_pairs jd sc ts (items x)) (fun o => if o_ok o then code_rest jd sc (length ts) t (items x) else Some (plain true))
      | None => Some (plain true) end).
  { rewrite (jk_std _ _ C). cbn [code_std]. destruct (subs_of _); [|reflexivity]. unfold sub_of. cbn [obind]. now rewrite Kj. }
  destruct (dget (lit "items") kws) as [k'|] eqn:G.
  2: { unfold e_additionalItems in E. rewrite HP in E. injection E as <-. apply done_gone; [exact Mv|exact J]. }
  destruct HP as (n & ko & Hs & J' & K & Ex). pose proof G as G'. apply dget_kws in G. pose proof (class_found _ _ _ G (find_items Hl)) as C'.
  unfold extra in Ex. rewrite C' in Ex. destruct Ex as [X1 X2]. cbn [subs_of obind] in J. rewrite (jk_std _ _ C') in J'. cbn [code_std] in J'.
  destruct (kw_json k') as [v|t'|ts|m] eqn:Kj'; try discriminate J'.
  { unfold e_additionalItems in E; rewrite Hs in E; destruct X1 as [X1|X1]; rewrite X1 in E; injection E as <-; (apply done_gone; [exact Mv|exact J]). }
  rewrite J' in J. cbn [obind] in J. destruct (o_ok ko) eqn:Ok0.
  2: { unfold e_additionalItems in E. rewrite Hs, (X2 eq_refl) in E. injection E as <-. apply done_gone; [exact Mv|exact J]. }
  destruct (X1 eq_refl) as [[W0 An]|[W0 An]].
  - unfold e_additionalItems in E. rewrite Hs, An in E. injection E as <-. apply done_gone; [exact Mv|]. rewrite J.
    unfold width in W0. destruct (items x); [|discriminate W0]. unfold code_rest, judge_all. rewrite skipn_nil. reflexivity.
  - assert (Ht : ts <> []).
    { pose proof (kws_value _ _ G) as V. unfold value_ok in V. rewrite C', Kj' in V. destruct ts; [|discriminate]. now rewrite andb_false_r in V. }
    destruct (kw_additionalItems W legacy ev jd Hsim s anck sc Hst i Hw key t ts n parent c0 c F Hk' Ht W0 Hs An E) as (ko' & J2 & K2).
    apply (done_out key k c ko'); [now rewrite J|now rewrite Kj|now apply (extra_none k c ko' _ C)].
Qed.

Lemma step_additionalProperties v0 mn key k parent c0 c : In (key, k) kws -> kw_class k = Std KAdditionalProperties -> fresh key (kw_json k) c0 -> concerns x k = true ->
  siblings_ok v0 mn k parent -> with_sub (kw_json k) (fun t => e_additionalProperties W ev t i anck parent c0) = Ok c -> done_with key k c.
Proof.
  intros HIn C F A HS E. apply with_sub_inv in E. destruct E as (t & Kj & E). rewrite Kj in F.
  destruct (class_key _ _ _ HIn C) as [Hk _]. assert (Hn : In key name_keys) by (rewrite Hk; cbn [name_keys In std_key]; auto).
  assert (T : existsb (jtype_eqb (type_of x)) (std_types KProperties) = true) by (rewrite (concerns_types k KAdditionalProperties C eq_refl) in A; exact A).
  assert (Hd1 : In (lit "properties") (depends_on (kw_class k))) by (rewrite C; now left).
  assert (Hd2 : In (lit "patternProperties") (depends_on (kw_class k))) by (rewrite C; right; now left).
  pose proof (present_sibling v0 mn k parent _ KProperties HS Hd1 find_properties eq_refl eq_refl eq_refl T) as H1.
  pose proof (present_sibling v0 mn k parent _ KPatternProperties HS Hd2 find_patterns eq_refl eq_refl eq_refl T) as H2.
  assert (H1' : match subm_of (dget (lit "properties") kws) with
    | Some m => exists n, sibling parent i (lit "properties") = Some n /\ stands W s (KSubm m) n
    | None => sibling parent i (lit "properties") = None
    end).
  { destruct (dget (lit "properties") kws) as [k'|] eqn:G; [|exact H1]. destruct H1 as (n & ko & Hs & J & K & _).
    apply dget_kws in G. pose proof (class_found _ _ _ G find_properties) as C'. rewrite (jk_std _ _ C') in J. cbn [code_std judge_std] in J.
    destruct (subm_of (Some k')) as [l|] eqn:Sk; cbn [obind] in J; [|discriminate]. exists n. split; [exact Hs|].
    unfold subm_of in Sk. cbn [obind] in Sk. destruct (kw_json k') eqn:Kj'; try discriminate. injection Sk as <-. apply K. }
  assert (H2' : match subm_of (dget (lit "patternProperties") kws) with
    | Some m => exists n, sibling parent i (lit "patternProperties") = Some n /\ stands W s (KSubm m) n
    | None => sibling parent i (lit "patternProperties") = None
    end).
  { destruct (dget (lit "patternProperties") kws) as [k'|] eqn:G; [|exact H2]. destruct H2 as (n & ko & Hs & J & K & _).
    apply dget_kws in G. pose proof (class_found _ _ _ G find_patterns) as C'. rewrite (jk_std _ _ C') in J. cbn [code_std judge_std] in J.
    destruct (subm_of (Some k')) as [l|] eqn:Sk; cbn [obind] in J; [|discriminate]. exists n. split; [exact Hs|].
    unfold subm_of in Sk. cbn [obind] in Sk. destruct (kw_json k') eqn:Kj'; try discriminate. injection Sk as <-. apply K. }
  destruct (kw_additionalProperties W legacy ev jd Hsim s anck sc Hst i Hw key t parent c0 c _ _ F Hn H1' H2' E) as (bs & J1 & ko & J2 & K).
  apply (done_out key k c ko); [|now rewrite Kj|now apply (extra_none k c ko _ C)].
  rewrite (jk_std _ _ C). cbn [code_std judge_std]. unfold sub_of. cbn [obind]. rewrite Kj. cbn [obind]. cbn zeta in J1, J2 |- *. rewrite J1. cbn [obind]. exact J2.
Qed.

Lemma step_contentSchema key k parent c0 c : In (key, k) kws -> kw_class k = Std KContentSchema -> fresh key (kw_json k) c0 ->
  e_contentSchema (kw_json k) i parent c0 = Ok c -> done_with key k c.
Proof.
  intros HIn C F E. destruct (class_key _ _ _ HIn C) as [Hk _]. assert (J : jk k = Some (plain true)) by now rewrite (jk_std _ _ C).
  assert (Hu : ~ In key (read_keys legacy)) by (rewrite Hk; apply unread; auto).
  unfold e_contentSchema in E. destruct (sibling parent i (lit "contentMediaType")).
  - pose proof (kw_annotation W legacy s i key (kw_json k) c0 c F Hu E) as K.
    exact (done_out key k c _ J K (extra_none k c _ _ C I)).
  - injection E as <-. apply done_gone; [now rewrite C|exact J].
Qed.

Lemma step_unknown key k u c0 c : In (key, k) kws -> kw_class k = Unknown u -> fresh key (kw_json k) c0 ->
  e_annotation (kw_json k) c0 = Ok c -> done_with key k c.
Proof.
  intros HIn C F E. assert (J : jk k = Some (plain true)) by (unfold code_keyword; now rewrite C).
  pose proof (kw_annotation W legacy s i key (kw_json k) c0 c F (class_unread _ _ _ HIn C) E) as K.
  apply (done_out key k c _ J K). unfold extra. now rewrite C.
Qed.

Lemma step_ordinary v0 mn key k cl parent c0 c : In (key, k) kws -> kw_class k = Std cl -> ordinary cl = true ->
  fresh key (kw_json k) c0 -> concerns x k = true -> siblings_ok v0 mn k parent ->
  eval_std W ev k cl i anck parent c0 = Ok c -> done_with key k c.
Proof.
  intros HIn C O F A HS E. destruct cl; try discriminate O;
    try (unfold concerns in A; rewrite C in A; discriminate A);
    try (apply (step_plain key k _ parent c0 c HIn C F A); [(left; reflexivity) || (right; reflexivity)|exact E]);
    try exact (step_ref key k _ c0 c HIn C F E);
    try exact (step_inplace key k _ c0 c HIn C F E);
    try exact (step_branch v0 mn key k _ parent c0 c HIn C F HS E).
  - exact (step_items v0 mn key k parent c0 c HIn C F A HS E).
  - exact (step_additionalProperties v0 mn key k parent c0 c HIn C F A HS E).
  - exact (step_items_2019 key k c0 c HIn C F E).
  - exact (step_additionalItems v0 mn key k parent c0 c HIn C F A HS E).
  - exact (step_contentSchema key k parent c0 c HIn C F E).
Qed.

(** ** contains and its companions. *)
Lemma limit_value key k c : In (key, k) kws -> kw_class k = Std c -> c = KMaxContains \/ c = KMinContains -> exists n, kw_json k = KJ (JNum n).
Proof.
  intros HIn C H. pose proof (kws_value _ _ HIn) as V. unfold value_ok in V. rewrite C in V. apply andb_true_iff in V. destruct V as [_ V].
  destruct H as [-> | ->]; destruct (kw_json k) as [[| |n| | |]| | |]; try discriminate V; eauto.
Qed.

Lemma low_some os : exists lo, low_of os = Some lo.
Proof.
  unfold low_of. destruct (dget (lit "minContains") kws) as [k'|] eqn:G; [|eauto]. apply dget_kws in G.
  destruct (limit_value _ _ _ G (class_found _ _ _ G find_min) (or_intror eq_refl)) as (n & ->). cbn. eauto.
Qed.
Lemma high_some os : exists hi, high_of os = Some hi.
Proof.
  unfold high_of. destruct (dget (lit "maxContains") kws) as [k'|] eqn:G; [|eauto]. apply dget_kws in G.
  destruct (limit_value _ _ _ G (class_found _ _ _ G find_max) (or_introl eq_refl)) as (n & ->). cbn. eauto.
Qed.

Lemma step_contains key k c0 c : In (key, k) kws -> kw_class k = Std KContains -> fresh key (kw_json k) c0 ->
  with_sub (kw_json k) (fun t => e_contains ev t i anck c0) = Ok c -> r_discard c = false /\ contains_entry false key k (Some c).
Proof.
  intros HIn C F E. apply with_sub_inv in E. destruct E as (t & Kj & E). rewrite Kj in F.
  destruct (kw_contains W legacy ev jd Hsim s anck sc Hst i Hw key t c0 c F E) as (os & J & B & D & A & An & V).
  split; [apply B|]. destruct (low_some os) as [lo Hlo]. destruct (high_some os) as [hi Hhi].
  exists os, lo, hi, c. split; [split; [exists t; now split|now split]|]. split; [reflexivity|].
  rewrite Kj. split; [exact B|]. split; [exact D|]. split; [exact A|]. split; [exact An|]. rewrite V. cbn [andb]. now rewrite orb_false_r.
Qed.

Lemma counted_same k os lo hi os' lo' hi' : counted k os lo hi -> counted k os' lo' hi' -> os = os' /\ lo = lo' /\ hi = hi'.
Proof.
  intros ((t & K & J) & L & H) ((t' & K' & J') & L' & H'). rewrite K in K'. injection K' as <-. rewrite J in J'. injection J' as <-.
  repeat split; congruence.
Qed.

(** What the companions say. *)
Lemma limit_judge (is_low : bool) key k kc os lo hi : In (key, k) kws -> kw_class k = Std (if is_low then KMinContains else KMaxContains) ->
  dget (lit "contains") kws = Some kc -> counted kc os lo hi -> jk k = Some (plain (if is_low then lo else hi)).
Proof.
  intros HIn C G ((t & Kj & J) & L & H). rewrite (jk_std _ _ C).
  destruct (class_key _ _ _ HIn C) as [Hk _]. apply dget_kws in HIn.
  destruct is_low; cbn [code_std]; unfold code_limit, code_count; rewrite G; unfold sub_of; cbn [obind]; rewrite Kj; cbn [obind]; rewrite J; cbn [obind];
    rewrite Hk in HIn; cbn [std_key] in HIn.
  - unfold low_of in L. rewrite HIn in L. now rewrite L.
  - unfold high_of in H. rewrite HIn in H. now rewrite H.
Qed.
Lemma limit_idle (is_low : bool) key k : In (key, k) kws -> kw_class k = Std (if is_low then KMinContains else KMaxContains) ->
  dget (lit "contains") kws = None -> jk k = Some (plain true).
Proof.
  intros HIn C G. rewrite (jk_std _ _ C). destruct is_low; cbn [code_std]; unfold code_limit, code_count; rewrite G; reflexivity.
Qed.

Lemma checked_entry key k c0 (b : bool) msg : fresh key (kw_json k) c0 -> jk k = Some (plain b) ->
  kw_class k = Std KMinContains \/ kw_class k = Std KMaxContains -> usual key k (Some (check b msg c0)).
Proof.
  intros F J C. exists (plain b). split; [exact J|]. split; [exact (checked W legacy s i key (kw_json k) c0 b msg _ F eq_refl)|].
  destruct F as ((B1 & B2 & B3 & B4) & F1 & F2 & F3 & F4). unfold extra. destruct C as [-> | ->]; [exact I|]. destruct b; [exact F2|reflexivity].
Qed.

Lemma contains_sibling v0 mn k parent : siblings_ok v0 mn k parent -> In (lit "contains") (depends_on (kw_class k)) ->
  existsb (jtype_eqb (type_of x)) (std_types KContains) = true ->
  match dget (lit "contains") kws with
  | Some kc => contains_entry mn (lit "contains") kc (sibling parent i (lit "contains"))
  | None => sibling parent i (lit "contains") = None
  end.
Proof.
  intros HS HD T. specialize (HS _ HD). destruct (dget (lit "contains") kws) as [kc|] eqn:G; [|exact HS].
  apply dget_kws in G. pose proof (class_found _ _ _ G find_contains) as C. unfold entry in HS.
  rewrite (concerns_types kc KContains C eq_refl), T in HS. unfold late in HS. rewrite C in HS. exact HS.
Qed.
Lemma max_sibling v0 mn k parent : siblings_ok v0 mn k parent -> In (lit "maxContains") (depends_on (kw_class k)) ->
  existsb (jtype_eqb (type_of x)) (std_types KContains) = true ->
  match dget (lit "maxContains") kws with
  | Some kc => usual (lit "maxContains") kc (sibling parent i (lit "maxContains"))
  | None => sibling parent i (lit "maxContains") = None
  end.
Proof.
  intros HS HD T. specialize (HS _ HD). destruct (dget (lit "maxContains") kws) as [kc|] eqn:G; [|exact HS].
  apply dget_kws in G. pose proof (class_found _ _ _ G find_max) as C. unfold entry in HS.
  rewrite (concerns_types kc KMaxContains C eq_refl) in HS. change (std_types KMaxContains) with (std_types KContains) in HS. rewrite T in HS.
  unfold late in HS. rewrite C in HS. exact HS.
Qed.

Lemma step_maxContains v0 mn key k parent c0 c : In (key, k) kws -> kw_class k = Std KMaxContains -> fresh key (kw_json k) c0 -> concerns x k = true ->
  siblings_ok v0 mn k parent -> e_maxContains W (kw_json k) i parent c0 = Ok c ->
  r_discard c = false /\ usual key k (Some c).
Proof.
  intros HIn C F A HS E. assert (T : existsb (jtype_eqb (type_of x)) (std_types KContains) = true) by (rewrite (concerns_types k KMaxContains C eq_refl) in A; exact A).
  assert (Hdp : In (lit "contains") (depends_on (kw_class k))) by (rewrite C; now left).
  pose proof (contains_sibling v0 mn k parent HS Hdp T) as HC. destruct (class_key _ _ _ HIn C) as [Hk _].
  destruct (limit_value _ _ _ HIn C (or_introl eq_refl)) as (y & Kj).
  assert (Q : exists b msg, c = check b msg c0 /\ jk k = Some (plain b)).
  { unfold e_maxContains in E. destruct (dget (lit "contains") kws) as [kc|] eqn:G.
    - destruct HC as (os & lo & hi & cc & Cn & Hs & _ & _ & _ & An & _). rewrite Hs, An in E. cbn [is_null annot_len bind] in E.
      rewrite map_length, accepted_length in E. rewrite Kj in E. apply limit_tells in E. destruct E as (y' & msg & Hy & ->). injection Hy as <-.
      eexists _, _. split; [reflexivity|]. rewrite (limit_judge false key k kc os lo hi HIn C G Cn).
      destruct Cn as (_ & _ & Hh). unfold high_of in Hh. rewrite Hk in HIn. apply dget_kws in HIn. cbn [std_key] in HIn. rewrite HIn in Hh.
      rewrite Kj in Hh. cbn [limit_ok limit_of obind] in Hh. injection Hh as <-. reflexivity.
    - rewrite HC in E. injection E as <-. exists true, []. split; [reflexivity|]. exact (limit_idle false key k HIn C G). }
  destruct Q as (b & msg & -> & Q). split.
  - destruct F as ((_ & _ & _ & Fd) & _). destruct b; exact Fd.
  - exact (checked_entry key k c0 b msg F Q (or_intror C)).
Qed.

Lemma step_minContains v0 key k parent c0 parent' c : In (key, k) kws -> kw_class k = Std KMinContains -> fresh key (kw_json k) c0 -> concerns x k = true ->
  siblings_ok v0 false k parent -> e_minContains W (kw_json k) i parent c0 = Ok (parent', c) ->
  r_discard c = false /\ usual key k (Some c) /\
  (parent' = parent \/ exists cc, sibling parent i (lit "contains") = Some cc /\ parent' = put_child parent (lit "contains") i (pass_ cc)) /\
  match dget (lit "contains") kws with
  | Some kc => contains_entry true (lit "contains") kc (sibling parent' i (lit "contains"))
  | None => True
  end.
Proof.
  intros HIn C F A HS E. assert (T : existsb (jtype_eqb (type_of x)) (std_types KContains) = true) by (rewrite (concerns_types k KMinContains C eq_refl) in A; exact A).
  assert (Hdp : In (lit "contains") (depends_on (kw_class k))) by (rewrite C; now left).
  assert (Hdm : In (lit "maxContains") (depends_on (kw_class k))) by (rewrite C; right; now left).
  pose proof (contains_sibling v0 false k parent HS Hdp T) as HC. pose proof (max_sibling v0 false k parent HS Hdm T) as HM.
  destruct (class_key _ _ _ HIn C) as [Hk _]. destruct (limit_value _ _ _ HIn C (or_intror eq_refl)) as (y & Kj).
  unfold e_minContains in E. destruct (dget (lit "contains") kws) as [kc|] eqn:G.
  2: { rewrite HC in E. injection E as <- <-. split; [apply F|]. split; [|split; [now left|exact I]].
       apply (checked_entry key k c0 true [] F); [exact (limit_idle true key k HIn C G)|now left]. }
  destruct HC as (os & lo & hi & cc & Cn & Hs & B & D & As & An & V). rewrite Hs, An in E. cbn [is_null annot_len bind] in E.
  rewrite map_length, accepted_length, Kj in E. cbn [num_of] in E. cbn [andb] in V. rewrite orb_false_r in V.
  assert (Hlo : num_leb y (len_num (count os)) = lo).
  { destruct Cn as (_ & Hh & _). unfold low_of in Hh. pose proof HIn as HIn'. rewrite Hk in HIn'. apply dget_kws in HIn'. cbn [std_key] in HIn'. rewrite HIn' in Hh.
    rewrite Kj in Hh. cbn [limit_ok limit_of obind] in Hh. injection Hh as <-. reflexivity. }
  rewrite Hlo in E.
  assert (Hhi : match sibling parent i (lit "maxContains") with Some m => r_valid m = hi | None => hi = true end).
  { destruct (dget (lit "maxContains") kws) as [km|] eqn:Gm.
    - apply dget_kws in Gm. pose proof (class_found _ _ _ Gm find_max) as Cm. destruct (sibling parent i (lit "maxContains")) as [cm|].
      2: { destruct HM as [HM _]. rewrite Cm in HM. discriminate HM. }
      destruct HM as (ko & Jm & _ & Vm). unfold extra in Vm. rewrite Cm in Vm. rewrite Vm.
      rewrite (limit_judge false _ km kc os lo hi Gm Cm G Cn) in Jm. injection Jm as <-. reflexivity.
    - rewrite HM. destruct Cn as (_ & _ & Hh). unfold high_of in Hh. rewrite Gm in Hh. congruence. }
  cbv zeta in E. match type of E with bind ?t _ = _ => destruct t as [c'| |] eqn:Tl end; cbn [bind] in E; try discriminate E.
  apply tell_ok in Tl. destruct Tl as [msg ->].
  assert (Ep : parent' = (if lo && negb (r_valid cc) && hi then put_child parent (lit "contains") i (pass_ cc) else parent) /\
               c = check lo msg c0).
  { apply (f_equal (fun r => match r with Ok q => q | _ => (parent', c) end)) in E. cbv beta iota in E.
    pose proof (f_equal fst E) as E1. pose proof (f_equal snd E) as E2. cbv beta iota delta [fst snd] in E1, E2. subst parent' c.
    split; [|reflexivity]. destruct (lo && negb (r_valid cc)); [|reflexivity]. cbn [andb].
    destruct (sibling parent i (lit "maxContains")) as [m|]; rewrite Hhi; reflexivity. }
  destruct Ep as [Ep Ec]. split.
  { rewrite Ec. destruct F as ((_ & _ & _ & Fd) & _). destruct lo; exact Fd. }
  split.
  { rewrite Ec. apply checked_entry; [exact F|exact (limit_judge true key k kc os lo hi HIn C G Cn)|now left]. }
  destruct (lo && negb (r_valid cc) && hi) eqn:Q.
  - split; [right; exists cc; now split|]. rewrite Ep. unfold sibling, put_child. cbn [with_children r_children]. rewrite cget_put_same.
    exists os, lo, hi, (pass_ cc). split; [exact Cn|]. split; [reflexivity|]. split; [exact B|]. split; [exact D|]. split; [exact As|]. split; [exact An|].
    cbn [pass_ r_valid]. apply andb_true_iff in Q. destruct Q as [Q ->]. apply andb_true_iff in Q. destruct Q as [-> _]. cbn [andb]. now rewrite orb_true_r.
  - split; [now left|]. rewrite Ep, Hs. exists os, lo, hi, cc. split; [exact Cn|]. split; [reflexivity|]. split; [exact B|]. split; [exact D|]. split; [exact As|].
    split; [exact An|]. rewrite V. rewrite V in Q. destruct (Nat.eqb (count os) 0); cbn [negb orb andb] in *; [|reflexivity].
    rewrite andb_true_r in Q. now rewrite Q.
Qed.

(** ** When every early keyword accepts. *)
Lemma early_In k : In k early <-> exists key, In (key, k) kws /\ concerns x k = true /\ late k = None.
Proof.
  unfold early. rewrite !filter_In, in_map_iff. split.
  - intros [[(kk & E & H) H1] H2]. destruct kk as [key k']. cbn [snd] in E. subst k'. exists key. split; [exact H|]. split; [exact H1|].
    now destruct (late k).
  - intros (key & H & H1 & H2). split; [split; [exists (key, k); now split|exact H1]|]. now rewrite H2.
Qed.

(** What the early keywords have evaluated, when they are all judged. *)
Section Early.
Variable os : list outcome.
Hypothesis Eos : all_some (map jk early) = Some os.

Lemma early_evaluated {A} (f : outcome -> list A) n : In n (flat_map f (filter o_ok os)) <->
  exists key k ko, In (key, k) kws /\ concerns x k = true /\ late k = None /\ jk k = Some ko /\ o_ok ko = true /\ In n (f ko).
Proof.
  rewrite in_flat_map. split.
  - intros (ko & H & Hn). apply filter_In in H. destruct H as [H O]. apply (all_some_In _ _ Eos) in H. apply in_map_iff in H.
    destruct H as (k & J & H). apply early_In in H. destruct H as (key & H1 & H2 & H3). exists key, k, ko. auto 7.
  - intros (key & k & ko & H1 & H2 & H3 & J & O & Hn). exists ko. split; [|exact Hn]. apply filter_In. split; [|exact O].
    apply (all_some_In _ _ Eos). rewrite <- J. apply in_map, early_In. eauto.
Qed.
Lemma early_at n : In n (evaluated_at legacy (gather true os)) <->
  exists key k ko, In (key, k) kws /\ concerns x k = true /\ late k = None /\ jk k = Some ko /\ o_ok ko = true /\ In n (evaluated_at legacy ko).
Proof. rewrite evaluated_gather. apply early_evaluated. Qed.
Lemma early_named n : In n (o_names (gather true os)) <->
  exists key k ko, In (key, k) kws /\ concerns x k = true /\ late k = None /\ jk k = Some ko /\ o_ok ko = true /\ In n (o_names ko).
Proof. apply (early_evaluated o_names). Qed.
End Early.

Lemma counted_judge key k os lo hi : In (key, k) kws -> kw_class k = Std KContains -> counted k os lo hi ->
  jk k = Some (mkO (negb (Nat.eqb (count os) 0) || (lo && hi)) [] [] (accepted 0 os)).
Proof.
  intros HIn C ((t & Kj & J) & L & H). rewrite (jk_std _ _ C). cbn [code_std]. unfold sub_of. cbn [obind]. rewrite Kj. cbn [obind].
  rewrite J. cbn [obind]. cbv zeta. unfold low_of in L. unfold high_of in H. rewrite L. cbn [obind]. rewrite H. reflexivity.
Qed.

Lemma count_zero os : count os = 0 -> accepted 0 os = [].
Proof. intro H. destruct (accepted 0 os) eqn:E; [reflexivity|]. rewrite <- (accepted_length 0), E in H. discriminate. Qed.

(** What a child says has been evaluated: what its keyword says, if that accepts. *)
Definition child_says (c : rnode) (ko : outcome) : Prop :=
  (forall m, CName p m c <-> o_ok ko = true /\ In m (o_names ko)) /\
  (forall m, m < width i -> (CEval legacy p m c <-> o_ok ko = true /\ In m (evaluated_at legacy ko))).

Lemma kout_says key v c ko : kout key v c ko -> child_says c ko.
Proof.
  intros [B U Ps Cn]. destruct (o_ok ko) eqn:O.
  - destruct (Cn eq_refl) as [C1 C2]. split; [intro m; rewrite C1; tauto|intros m Hm; rewrite (C2 m Hm); tauto].
  - assert (V : r_valid c = false) by (unfold passed in Ps; apply orb_false_iff in Ps; tauto).
    split; [intro m|intros m _]; (split; [intro H; exfalso|intros [H _]; congruence]).
    + exact (CName_invalid _ _ _ V H).
    + exact (CEval_invalid _ _ _ _ V H).
Qed.

Lemma entry_says v0 mn key k oc : In (key, k) kws -> concerns x k = true -> late k = None -> entry v0 mn key k oc ->
  exists ko, jk k = Some ko /\ match oc with Some c => child_says c ko | None => ko = plain true end.
Proof.
  intros HIn Co La E. unfold entry in E. rewrite Co, La in E.
  assert (U : usual key k oc -> exists ko, jk k = Some ko /\ match oc with Some c => child_says c ko | None => ko = plain true end).
  { unfold usual. destruct oc as [c|].
    - intros (ko & J & K & _). exists ko. split; [exact J|]. exact (kout_says _ _ _ _ K).
    - intros [_ J]. eauto. }
  destruct (kw_class k) as [cl|u] eqn:C; [|exact (U E)].
  destruct cl; try exact (U E).
  destruct E as (os & lo & hi & c & Cn & -> & B & D & As & An & V). eexists. split; [exact (counted_judge key k os lo hi HIn C Cn)|].
  destruct (class_key _ _ _ HIn C) as [Hk _]. cbn [std_key] in Hk. rewrite Hk in B.
  destruct (found_contributes W legacy ev jd Hsim s i (kw_json k) c (width i) true (accepted 0 os) B D) as [C1 C2]; [|exact An|].
  { rewrite V. destruct (Nat.eqb_spec (count os) 0) as [Z|Z]; [right; now apply count_zero|now left]. }
  unfold child_says. cbn [o_ok o_names]. unfold evaluated_at in *. cbn [o_names o_places o_found] in *. split.
  - intro m. rewrite C1. cbn [In]. tauto.
  - intros m Hm. rewrite (C2 m Hm). destruct (Nat.eqb_spec (count os) 0) as [Z|Z]; cbn [negb orb].
    + rewrite (count_zero _ Z). destruct legacy; cbn [app In]; tauto.
    + tauto.
Qed.

Lemma entry_facts v0 mn key k c : entry v0 mn key k (Some c) -> concerns x k = true /\ kbase key (kw_json k) c /\ under p c.
Proof.
  unfold entry. destruct (concerns x k) eqn:Co; [|discriminate]. split; [reflexivity|].
  destruct (late k) as [lc|]; [now apply H|].
  assert (U : usual key k (Some c) -> kbase key (kw_json k) c /\ under p c) by (intros (ko & _ & K & _); split; apply K).
  destruct (kw_class k) as [cl|u]; [|exact (U H)]. destruct cl; try exact (U H).
  - destruct H as (os & lo & hi & c' & _ & [= <-] & B & D & _). split; [exact B|].
    apply (kbase_under W s i key (kw_json k)); [exact B|now apply deeper_under].
Qed.

(** ** The node that the schema is evaluated into. *)
Variable n0 : rnode.
Variable anc : list sid.
Hypothesis Hanck : anck = r_schema n0 :: anc.
Hypothesis Hclean : clean p n0.
Hypothesis Hloc : located W s n0.
Hypothesis Hann : r_annot n0 = JNull.
Hypothesis Hdis : r_discard n0 = false.

Lemma fresh_child n key k : frame n0 n -> In (key, k) kws -> fresh key (kw_json k) (new_child n key i s).
Proof.
  intros Fr HIn. assert (G : dget key (schema_keywords W s) = Some k) by (unfold schema_keywords; rewrite Hkws; now apply dget_kws).
  split; [|repeat split]. split; [reflexivity|]. split; [reflexivity|]. split; [|reflexivity]. split; [reflexivity|].
  intros sn. unfold schema_node, new_child. cbn [r_schema r_relpath]. destruct (Nat.eqb_spec s (r_schema n)) as [E|E].
  - destruct Fr as (_ & F2 & F3 & _). rewrite F2. rewrite F3 in E. rewrite sn_walk_app.
    pose proof (Hloc (eq_sym E)) as L. unfold schema_node in L. rewrite <- E in L.
    destruct (sn_walk W (SNSchema s) (r_relpath n0)) as [m| |]; cbn [bind]; try discriminate. cbn [sn_walk].
    destruct (L m eq_refl) as [->|(w & ->)].
    + cbn [sn_child]. rewrite G. cbn [bind]. intros [= <-]. now left.
    + destruct (sn_child W (SNJson (KJ w)) key) as [sn'| |] eqn:E1; cbn [bind]; try discriminate. intros [= <-].
      right. cbn [sn_child] in E1. destruct w as [| | | |l|m]; try discriminate.
      * destruct (sn_index key l); cbn [bind] in E1; try discriminate. injection E1 as <-. eexists; reflexivity.
      * destruct (dget key m); try discriminate. injection E1 as <-. eexists; reflexivity.
  - cbn [sn_walk sn_child]. rewrite G. cbn [bind]. intros [= <-]. now left.
Qed.

Lemma old_none key : cget (key, p) (r_children n0) = None.
Proof.
  apply cget_None. intro H. apply in_map_iff in H. destruct H as (kc & E & H). unfold clean in Hclean. rewrite Forall_forall in Hclean.
  destruct (Hclean kc H) as [X _]. apply X. now rewrite E.
Qed.

(** ** The invariant: [dn] are the keywords dealt with. *)
Record inv (mn : bool) (dn : list (pystr * keyword)) (n : rnode) (cs : list ((pystr * path) * rnode)) : Prop := {
  inv_frame : frame n0 n;
  inv_valid : r_valid n = r_valid n0;
  inv_children : r_children n = r_children n0 ++ cs;
  inv_keys : Forall (fun kc => snd (fst kc) = p /\ In (fst (fst kc)) (keys dn)) cs;
  inv_nodup : NoDup (map fst cs);
  inv_entry : forall key k, In (key, k) dn -> entry (r_valid n0) mn key k (cget (key, p) cs)
}.

Lemma inv_none mn dn n cs key : inv mn dn n cs -> ~ In key (keys dn) -> cget (key, p) cs = None.
Proof.
  intros I H. apply cget_None. intro X. apply in_map_iff in X. destruct X as (kc & E & X). pose proof (inv_keys _ _ _ _ I) as K.
  rewrite Forall_forall in K. destruct (K kc X) as [_ Y]. rewrite E in Y. contradiction.
Qed.

Lemma inv_put mn dn n cs key c : inv mn dn n cs -> ~ In key (keys dn) ->
  r_children (put_child n key i c) = r_children n0 ++ cs ++ [((key, p), c)].
Proof.
  intros I H. unfold put_child. cbn [with_children r_children]. rewrite (inv_children _ _ _ _ I).
  rewrite cput_new by (rewrite cget_app, old_none; now apply (inv_none _ _ _ _ _ I)). now rewrite app_assoc.
Qed.

Lemma inv_sibling mn dn n cs key c key' : inv mn dn n cs -> ~ In key (keys dn) -> key' <> key ->
  sibling (put_child n key i c) i key' = cget (key', p) cs.
Proof.
  intros I H N. unfold sibling. rewrite (inv_put mn dn n cs key c I H), cget_app, old_none, cget_app. cbn [cget].
  destruct (ckey_eqb_spec (key', p) (key, p)); [congruence|]. now destruct (cget (key', p) cs).
Qed.

Lemma entry_minned v0 mn mn' key k oc : (kw_class k = Std KContains -> concerns x k = true -> mn = mn') -> entry v0 mn key k oc -> entry v0 mn' key k oc.
Proof.
  intros H. unfold entry. destruct (concerns x k); [|auto]. destruct (late k); [auto|]. destruct (kw_class k) as [c|]; [|auto].
  destruct c; auto. now rewrite (H eq_refl eq_refl).
Qed.

Lemma keys_snoc {V} (dn : list (pystr * V)) key k : keys (dn ++ [(key, k)]) = keys dn ++ [key].
Proof. unfold keys. now rewrite map_app. Qed.

Lemma inv_skip mn dn n cs key k : inv mn dn n cs -> ~ In key (keys dn) -> concerns x k = false -> inv mn (dn ++ [(key, k)]) n cs.
Proof.
  intros I H Co. destruct I as [I1 I2 I3 I4 I5 I6]. constructor; auto.
  - revert I4. apply Forall_impl. intros kc [A B]. split; [exact A|]. rewrite keys_snoc. apply in_or_app. now left.
  - intros key' k' X. apply in_app_or in X. destruct X as [X|[[= <- <-]|[]]]; [auto|]. unfold entry. rewrite Co.
    apply (inv_none mn dn n cs); [now constructor|exact H].
Qed.

Lemma inv_close mn dn n cs key k c0 c : inv mn dn n cs -> ~ In key (keys dn) ->
  entry (r_valid n0) mn key k (if r_discard c then None else Some c) ->
  exists cs', inv mn (dn ++ [(key, k)]) (close_child (put_child n key i c0) key i c) cs'.
Proof.
  intros I H E. pose proof I as [I1 I2 I3 I4 I5 I6]. pose proof (inv_none _ _ _ _ _ I H) as N.
  assert (N' : cget (key, p) (r_children n) = None) by (rewrite I3, cget_app, old_none; exact N).
  assert (K : Forall (fun kc => snd (fst kc) = p /\ In (fst (fst kc)) (keys (dn ++ [(key, k)]))) cs).
  { revert I4. apply Forall_impl. intros kc [A B]. split; [exact A|]. rewrite keys_snoc. apply in_or_app. now left. }
  unfold close_child. destruct (r_discard c).
  - exists cs. constructor; auto.
    + unfold put_child. cbn [with_children r_children]. now rewrite cdrop_put_new.
    + intros key' k' X. apply in_app_or in X. destruct X as [X|[[= <- <-]|[]]]; [auto|]. now rewrite N.
  - exists (cs ++ [((key, p), c)]). constructor; auto.
    + unfold put_child. cbn [with_children r_children]. rewrite cput_put, cput_new by exact N'. now rewrite I3, app_assoc.
    + apply Forall_app. split; [exact K|]. constructor; [|constructor]. split; [reflexivity|]. rewrite keys_snoc. apply in_or_app. right. now left.
    + rewrite map_app. cbn [map fst]. apply cget_None in N. revert I5 N. clear. induction (map fst cs) as [|y l IH]; cbn [app]; intros N1 N2; [repeat constructor; intros []|].
      inversion N1; subst. constructor; [|apply IH; [assumption|intro; apply N2; now right]].
      intro X. apply in_app_or in X. destruct X as [X|[X|[]]]; [contradiction|]. apply N2. now left.
    + intros key' k' X. apply in_app_or in X. rewrite cget_app. cbn [cget]. destruct X as [X|[[= <- <-]|[]]].
      * destruct (ckey_eqb_spec (key', p) (key, p)) as [Q|Q].
        { exfalso. apply H. injection Q as <-. change key' with (fst (key', k')). now apply in_map. }
        specialize (I6 _ _ X). now destruct (cget (key', p) cs).
      * rewrite N. destruct (ckey_eqb_spec (key, p) (key, p)); [exact E|congruence].
Qed.

Lemma split_fresh dn key k rest : kws = dn ++ (key, k) :: rest -> ~ In key (keys dn) /\ In (key, k) kws /\ incl dn kws.
Proof.
  intro E. destruct Hgood as [N _]. rewrite E in N. unfold keys in N. rewrite map_app in N. cbn [map fst] in N.
  split; [intro H; apply NoDup_remove_2 in N; apply N, in_or_app; now left|].
  rewrite E. split; [apply in_or_app; right; now left|]. intros y Hy. apply in_or_app. now left.
Qed.

Lemma before_split (key key' : pystr) b l2 l3 : forall a l1, NoDup (a ++ key :: b) -> a ++ key :: b = l1 ++ key' :: l2 ++ key :: l3 -> In key' a.
Proof.
  induction a as [|y a IH]; intros l1 N E; cbn [app] in N, E; inversion N; subst.
  - exfalso. apply H1. destruct l1 as [|z l1]; cbn [app] in E; injection E as -> ->; apply in_or_app; right; [now left|].
    right. apply in_or_app. right. now left.
  - destruct l1 as [|z l1]; cbn [app] in E; injection E as -> E; [now left|right; now apply (IH l1)].
Qed.

Lemma inv_siblings mn dn n cs key k rest c : kws = dn ++ (key, k) :: rest -> inv mn dn n cs ->
  siblings_ok (r_valid n0) mn k (put_child n key i c).
Proof.
  intros E I key' Hd'. destruct (split_fresh _ _ _ _ E) as (H & HIn & Hi). destruct Hgood as [N G].
  destruct (G _ _ HIn) as (_ & _ & O). destruct (dget key' kws) as [k'|] eqn:D'.
  - apply dget_kws in D'. assert (K' : In key' (keys kws)) by (change key' with (fst (key', k')); now apply in_map).
    destruct (O key' Hd' K') as (l1 & l2 & l3 & El).
    assert (Dn : In key' (keys dn)).
    { assert (El2 : keys kws = keys dn ++ key :: keys rest) by (rewrite E; unfold keys; now rewrite map_app).
      rewrite El2 in El, N. exact (before_split key key' (keys rest) l2 l3 (keys dn) l1 N El). }
    rewrite (inv_sibling mn dn n cs key c key' I H) by (intros ->; contradiction).
    apply (inv_entry _ _ _ _ I). unfold keys in Dn. apply in_map_iff in Dn. destruct Dn as ([a b] & Ea & Dn). cbn [fst] in Ea. subst a.
    rewrite (kws_unique key' k' b D' (Hi _ Dn)). exact Dn.
  - assert (Nk : ~ In key' (keys kws)).
    { intro X. unfold keys in X. apply in_map_iff in X. destruct X as ([a b] & Ea & X). cbn [fst] in Ea. subst a. apply dget_kws in X. congruence. }
    rewrite (inv_sibling mn dn n cs key c key' I H).
    + apply (inv_none mn dn n cs _ I). intro X. apply Nk. rewrite E. unfold keys. rewrite map_app. apply in_or_app. now left.
    + intros ->. apply Nk. change key with (fst (key, k)). now apply in_map.
Qed.

(** ** Accounting: what the children together say has been evaluated. *)
Lemma some_entries (P : rnode -> Prop) mn dn n cs : inv mn dn n cs ->
  (some P cs <-> exists key k c, In (key, k) dn /\ cget (key, p) cs = Some c /\ P c).
Proof.
  intro I. pose proof (inv_keys _ _ _ _ I) as K. rewrite Forall_forall in K. split.
  - intros (kc & H & HP). destruct (K kc H) as [E X]. destruct kc as [[key q] c]. cbn [fst snd] in *. subst q.
    unfold keys in X. apply in_map_iff in X. destruct X as ([a k] & Ea & X). cbn [fst] in Ea. subst a. exists key, k, c.
    split; [exact X|]. split; [|exact HP]. apply In_cget; [apply I|exact H].
  - intros (key & k & c & _ & G & HP). exists ((key, p), c). split; [now apply cget_In|exact HP].
Qed.

Definition early_says (dn : list (pystr * keyword)) (cs : list ((pystr * path) * rnode)) (P : rnode -> Prop) : Prop :=
  exists key k c, In (key, k) dn /\ concerns x k = true /\ late k = None /\ cget (key, p) cs = Some c /\ P c.

Lemma early_dn mn dn n cs (P : rnode -> Prop) (Q : outcome -> Prop) : inv mn dn n cs -> incl dn kws ->
  (forall c ko, child_says c ko -> (P c <-> o_ok ko = true /\ Q ko)) -> ~ Q (plain true) ->
  (forall key k ko, In (key, k) kws -> ~ In (key, k) dn -> concerns x k = true -> late k = None -> jk k = Some ko -> ~ Q ko) ->
  (early_says dn cs P <->
   exists key k ko, In (key, k) kws /\ concerns x k = true /\ late k = None /\ jk k = Some ko /\ o_ok ko = true /\ Q ko).
Proof.
  intros I Hi HP Q0 R. split.
  - intros (key & k & c & H & Co & La & G & HPc). pose proof (inv_entry _ _ _ _ I key k H) as E. rewrite G in E.
    destruct (entry_says _ _ key k _ (Hi _ H) Co La E) as (ko & J & S). apply (HP _ _ S) in HPc. exists key, k, ko. destruct HPc. auto 7.
  - intros (key & k & ko & H & Co & La & J & O & X).
    assert (Hdn : In (key, k) dn).
    { destruct (in_dec str_eq_dec key (keys dn)) as [D|D].
      - unfold keys in D. apply in_map_iff in D. destruct D as ([a b] & Ea & D). cbn [fst] in Ea. subst a.
        now rewrite (kws_unique key k b H (Hi _ D)).
      - exfalso. assert (D' : ~ In (key, k) dn) by (intro Y; apply D; change key with (fst (key, k)); now apply in_map).
        exact (R key k ko H D' Co La J X). }
    pose proof (inv_entry _ _ _ _ I key k Hdn) as E.
    destruct (entry_says _ _ key k _ H Co La E) as (ko' & J' & S). rewrite J in J'. injection J' as <-.
    destruct (cget (key, p) cs) as [c|] eqn:G.
    + exists key, k, c. repeat (split; [assumption|]). apply (HP _ _ S). now split.
    + subst ko. contradiction.
Qed.

Lemma early_places mn dn n cs os : inv mn dn n cs -> incl dn kws -> all_some (map jk early) = Some os ->
  (forall key k ko, In (key, k) kws -> ~ In (key, k) dn -> concerns x k = true -> late k = None -> jk k = Some ko -> evaluated_at legacy ko = []) ->
  forall m, m < width i -> (early_says dn cs (CEval legacy p m) <-> In m (evaluated_at legacy (gather true os))).
Proof.
  intros I Hi A R m Hm. rewrite (early_at os A). apply (early_dn mn dn n); auto.
  - intros c ko S. now apply S.
  - rewrite evaluated_plain. intros [].
  - intros key k ko H1 H2 H3 H4 H5. rewrite (R key k ko H1 H2 H3 H4 H5). intros [].
Qed.

Lemma early_names mn dn n cs os : inv mn dn n cs -> incl dn kws -> all_some (map jk early) = Some os ->
  (forall key k ko, In (key, k) kws -> ~ In (key, k) dn -> concerns x k = true -> late k = None -> jk k = Some ko -> o_names ko = []) ->
  forall m, early_says dn cs (CName p m) <-> In m (o_names (gather true os)).
Proof.
  intros I Hi A R m. rewrite (early_named os A). apply (early_dn mn dn n); auto.
  - intros c ko S. apply S.
  - intros key k ko H1 H2 H3 H4 H5. rewrite (R key k ko H1 H2 H3 H4 H5). intros [].
Qed.

Lemma limit_plain rel k ko : code_limit jd sc kws rel k x = Some ko -> exists b, ko = plain b.
Proof.
  unfold code_limit. destruct (code_count jd sc kws x) as [[m|]|]; cbn [obind]; try discriminate.
  - destruct (limit_ok _ _ _) as [b|]; [|discriminate]. intros [= <-]. eauto.
  - intros [= <-]. eauto.
Qed.

(** Keywords on which an unevaluated keyword does not depend evaluate nothing
    that concerns it. *)
Lemma rest_places key k ko lc : In (key, k) kws -> concerns x k = true -> late k = None -> type_of x = TArray ->
  (legacy = false /\ lc = KUnevaluatedItems) \/ (legacy = true /\ lc = KUnevaluatedItems2019) ->
  ~ In key (std_depends lc) -> jk k = Some ko -> evaluated_at legacy ko = [].
Proof.
  intros HIn Co La Ty Hlc Nd J. unfold code_keyword in J. destruct (kw_class k) as [c|u] eqn:C.
  2: { injection J as <-. apply evaluated_plain. }
  destruct (class_key _ _ _ HIn C) as [Hk _]. pose proof (class_legacy _ _ _ HIn C) as Lg.
  assert (M : mem_str (std_key c) (std_depends lc) = false).
  { apply not_true_is_false. intro M. apply mem_str_In in M. rewrite Hk in Nd. contradiction. }
  clear Nd Hk. unfold concerns in Co. rewrite C, Ty in Co. unfold late in La. rewrite C in La.
  destruct Hlc as [[L ->]|[L ->]]; rewrite L in Lg; rewrite L; unfold evaluated_at;
  destruct c; try discriminate Lg; try discriminate La; try (vm_compute in Co; discriminate Co); try (vm_compute in M; discriminate M);
    cbn [code_std judge_std] in J;
    try (apply limit_plain in J; destruct J as [? ->]; reflexivity); cbv zeta in J;
    repeat match type of J with context [obind ?a _] => destruct a; cbn [obind] in J; [|discriminate J] end;
    injection J as <-; reflexivity.
Qed.

Lemma rest_names key k ko lc : In (key, k) kws -> concerns x k = true -> late k = None -> type_of x = TObject ->
  (legacy = false /\ lc = KUnevaluatedProperties) \/ (legacy = true /\ lc = KUnevaluatedProperties2019) ->
  ~ In key (std_depends lc) -> jk k = Some ko -> o_names ko = [].
Proof.
  intros HIn Co La Ty Hlc Nd J. unfold code_keyword in J. destruct (kw_class k) as [c|u] eqn:C.
  2: { injection J as <-. reflexivity. }
  destruct (class_key _ _ _ HIn C) as [Hk _]. pose proof (class_legacy _ _ _ HIn C) as Lg.
  assert (M : mem_str (std_key c) (std_depends lc) = false).
  { apply not_true_is_false. intro M. apply mem_str_In in M. rewrite Hk in Nd. contradiction. }
  clear Nd Hk. unfold concerns in Co. rewrite C, Ty in Co. unfold late in La. rewrite C in La.
  destruct Hlc as [[L ->]|[L ->]]; rewrite L in Lg;
  destruct c; try discriminate Lg; try discriminate La; try (vm_compute in Co; discriminate Co); try (vm_compute in M; discriminate M);
    cbn [code_std judge_std] in J;
    try (apply limit_plain in J; destruct J as [? ->]; reflexivity); cbv zeta in J;
    repeat match type of J with context [obind ?a _] => destruct a; cbn [obind] in J; [|discriminate J] end;
    injection J as <-; reflexivity.
Qed.

(** Only one unevaluated keyword concerns a value. *)
Lemma late_unique key k lc key' k' lc' : In (key, k) kws -> In (key', k') kws -> concerns x k = true -> concerns x k' = true ->
  late k = Some lc -> late k' = Some lc' -> key = key'.
Proof.
  intros H H' Co Co' La La'. unfold late in La, La'. destruct (kw_class k) as [c|] eqn:C; [|discriminate]. destruct (kw_class k') as [c'|] eqn:C'; [|discriminate].
  destruct (class_key _ _ _ H C) as [-> _]. destruct (class_key _ _ _ H' C') as [-> _].
  pose proof (class_legacy _ _ _ H C) as Lg. pose proof (class_legacy _ _ _ H' C') as Lg'.
  unfold concerns in Co, Co'. rewrite C in Co. rewrite C' in Co'.
  destruct legacy; destruct c; try discriminate La; try discriminate Lg; destruct c'; try discriminate La'; try discriminate Lg'; try reflexivity;
    destruct (type_of x); vm_compute in Co, Co'; congruence.
Qed.

Lemma clean_some (P : rnode -> Prop) : (forall c, (forall key, collect_annotations (Some p) (Some key) c = []) -> ~ P c) -> ~ some P (r_children n0).
Proof.
  intros H (kc & Hc & HP). unfold clean in Hclean. rewrite Forall_forall in Hclean. destruct (Hclean kc Hc) as (_ & _ & X). exact (H _ X HP).
Qed.
Lemma silent_name m c : (forall key, collect_annotations (Some p) (Some key) c = []) -> ~ CName p m c.
Proof. intros H (key & l & _ & A & _). unfold ann in A. rewrite H in A. destruct A. Qed.
Lemma silent_eval m c : (forall key, collect_annotations (Some p) (Some key) c = []) -> ~ CEval legacy p m c.
Proof.
  intros H [[A|[A|[A|(z & A & _)]]]|(_ & l & A & _)]; unfold ann in A; rewrite H in A; destruct A.
Qed.
Lemma fresh_silent key v c : fresh key v c -> forall key', collect_annotations (Some p) (Some key') c = [].
Proof.
  intros (_ & Ch & _ & _ & An) key'. rewrite collect_annotations_eq. destruct (_ && _); [|reflexivity].
  rewrite Ch. unfold own_annotation. rewrite An. reflexivity.
Qed.

(** At the unevaluated keyword, all children that say something are early. *)
Lemma late_children (P : rnode -> Prop) mn dn n cs key k lc rest c0 :
  kws = dn ++ (key, k) :: rest -> inv mn dn n cs -> concerns x k = true -> late k = Some lc -> fresh key (kw_json k) c0 ->
  (forall c, (forall key, collect_annotations (Some p) (Some key) c = []) -> ~ P c) ->
  (some P (r_children (put_child n key i c0)) <-> early_says dn cs P).
Proof.
  intros E I Co La F HP. destruct (split_fresh _ _ _ _ E) as (H & HIn & Hi).
  rewrite (inv_put mn dn n cs key c0 I H), !some_app, (some_entries P mn dn n cs I). split.
  - intros [X|[X|X]]; [now apply clean_some in X| |].
    + destruct X as (key' & k' & c & X & G & HPc). pose proof (inv_entry _ _ _ _ I key' k' X) as En. rewrite G in En.
      destruct (entry_facts _ _ _ _ _ En) as [Co' _]. exists key', k', c. repeat (split; [assumption|]). split; [|now split].
      destruct (late k') as [lc'|] eqn:La'; [|reflexivity]. exfalso.
      apply H. rewrite (late_unique key k lc key' k' lc' HIn (Hi _ X) Co Co' La La'). change key' with (fst (key', k')). now apply in_map.
    + destruct X as (kc & [<-|[]] & X). exfalso. exact (HP _ (fresh_silent _ _ _ F) X).
  - intros (key' & k' & c & X & Co' & La' & G & HPc). right. left. exists key', k', c. auto.
Qed.

Lemma depends_done dn key k rest key' k' : kws = dn ++ (key, k) :: rest -> In (key', k') kws -> ~ In (key', k') dn ->
  ~ In key' (depends_on (kw_class k)).
Proof.
  intros E H Hn D. destruct (split_fresh _ _ _ _ E) as (_ & HIn & Hi). destruct Hgood as [N G].
  destruct (G _ _ HIn) as (_ & _ & O). assert (K' : In key' (keys kws)) by (change key' with (fst (key', k')); now apply in_map).
  destruct (O key' D K') as (l1 & l2 & l3 & El).
  assert (El2 : keys kws = keys dn ++ key :: keys rest) by (rewrite E; unfold keys; now rewrite map_app).
  rewrite El2 in El, N. pose proof (before_split key key' (keys rest) l2 l3 (keys dn) l1 N El) as Dn.
  apply Hn. unfold keys in Dn. apply in_map_iff in Dn. destruct Dn as ([a b] & Ea & Dn). cbn [fst] in Ea. subst a.
  now rewrite (kws_unique key' k' b H (Hi _ Dn)).
Qed.

Lemma late_items_entry mn dn n cs key k t lc rest c0 c :
  kws = dn ++ (key, k) :: rest -> inv mn dn n cs -> concerns x k = true -> late k = Some lc -> kw_json k = KSub t ->
  (legacy = false /\ lc = KUnevaluatedItems) \/ (legacy = true /\ lc = KUnevaluatedItems2019) ->
  fresh key (KSub t) c0 -> late_items W legacy jd s sc i key t (put_child n key i c0) c0 c ->
  late_entry (r_valid n0) key k lc (if r_discard c then None else Some c).
Proof.
  intros E I Co La Kj Hlc F (L1 & L2 & L3). destruct (split_fresh _ _ _ _ E) as (H & HIn & Hi).
  assert (V : r_valid (put_child n key i c0) = r_valid n0) by exact (inv_valid _ _ _ _ I). rewrite V in L1, L2. unfold late_entry. rewrite Kj.
  assert (Cl : kw_class k = Std lc).
  { unfold late in La. destruct (kw_class k) as [a|]; [|discriminate]. destruct a; try discriminate La; injection La as <-; reflexivity. }
  assert (Ty : type_of x = TArray).
  { unfold concerns in Co. rewrite Cl in Co. destruct Hlc as [[_ ->]|[_ ->]]; destruct (type_of x); vm_compute in Co; congruence. }
  assert (Ju : forall o, code_unevaluated jd sc o k lc x =
    obind (judge_all jd sc t (map (fun m => nth m (items x) JNull) (left_of i (evaluated_at legacy o)))) (fun os =>
    Some (mkO (all_accept os) [] (all_or_none os (length (items x))) []))).
  { intro o. unfold evaluated_at, left_of. destruct Hlc as [[-> ->]|[-> ->]]; unfold code_unevaluated, judge_unevaluated, sub_of; cbn [obind]; rewrite Kj; reflexivity. }
  split.
  - intros c' Ec. destruct L3 as [->|(ko & K)]; [discriminate Ec|].
    destruct (r_discard c); [discriminate|]. injection Ec as <-. split; apply K.
  - intros es A. set (o := gather true es). rewrite Ju.
    destruct (r_valid n0) eqn:Vn.
    + assert (Q : forall m, m < width i -> (In m (evaluated_at legacy o) <-> some (CEval legacy p m) (r_children (put_child n key i c0)))).
      { intros m Hm. rewrite (late_children (CEval legacy p m) mn dn n cs key k lc rest c0 E I Co La); [|now rewrite Kj|apply silent_eval].
        symmetry. apply (early_places mn dn n cs es I Hi A); [|exact Hm].
        intros key' k' ko H1 H2 H3 H4 H5. apply (rest_places key' k' ko lc H1 H3 H4 Ty Hlc); [|exact H5].
        pose proof (depends_done dn key k rest key' k' E H1 H2) as D. now rewrite Cl in D. }
      destruct (L2 eq_refl _ Q) as (os & J & R). rewrite J. cbn [obind]. eexists. split; [reflexivity|]. intros _.
      destruct R as [[-> Le]|K].
      * cbn [discard r_discard]. rewrite Le in J. cbn in J. injection J as <-. reflexivity.
      * replace (r_discard c) with false by (symmetry; apply K). exact K.
    + destruct (L1 eq_refl) as (os & J & _).
      destruct (all_some_sub _ (map (jd sc t) (map (fun m => nth m (items x) JNull) (left_of i (evaluated_at legacy o)))) _ J) as (ys & J').
      { intros a Ha. apply in_map_iff in Ha. destruct Ha as (y & <- & Hy). apply in_map. apply in_map_iff in Hy. destruct Hy as (m & <- & Hm).
        apply nth_In. unfold left_of in Hm. apply filter_In in Hm. destruct Hm as [Hm _]. apply in_seq in Hm. lia. }
      unfold judge_all. rewrite J'. cbn [obind]. eexists. split; [reflexivity|]. discriminate.
Qed.

Lemma late_members_entry mn dn n cs key k t lc rest c0 c :
  kws = dn ++ (key, k) :: rest -> inv mn dn n cs -> concerns x k = true -> late k = Some lc -> kw_json k = KSub t ->
  (legacy = false /\ lc = KUnevaluatedProperties) \/ (legacy = true /\ lc = KUnevaluatedProperties2019) ->
  fresh key (KSub t) c0 -> late_members W legacy jd s sc i key t (put_child n key i c0) c ->
  late_entry (r_valid n0) key k lc (if r_discard c then None else Some c).
Proof.
  intros E I Co La Kj Hlc F (L1 & L2 & L3). destruct (split_fresh _ _ _ _ E) as (H & HIn & Hi).
  assert (V : r_valid (put_child n key i c0) = r_valid n0) by exact (inv_valid _ _ _ _ I). rewrite V in L1, L2. unfold late_entry. rewrite Kj.
  assert (Cl : kw_class k = Std lc).
  { unfold late in La. destruct (kw_class k) as [a|]; [|discriminate]. destruct a; try discriminate La; injection La as <-; reflexivity. }
  assert (Ty : type_of x = TObject).
  { unfold concerns in Co. rewrite Cl in Co. destruct Hlc as [[_ ->]|[_ ->]]; destruct (type_of x); vm_compute in Co; congruence. }
  assert (Ju : forall o, code_unevaluated jd sc o k lc x =
    judge_members jd sc t (filter (fun kv => negb (mem_str (fst kv) (o_names o))) (members x))).
  { intro o. destruct Hlc as [[_ ->]|[_ ->]]; unfold code_unevaluated, judge_unevaluated, sub_of; cbn [obind]; rewrite Kj; reflexivity. }
  assert (D : r_discard c = false) by (destruct L3 as (ko & K); apply K). rewrite D. split.
  - intros c' [= <-]. destruct L3 as (ko & K). split; apply K.
  - intros es A. set (o := gather true es). rewrite Ju.
    destruct (r_valid n0) eqn:Vn.
    + assert (Q : forall m, In m (o_names o) <-> some (CName p m) (r_children (put_child n key i c0))).
      { intros m. rewrite (late_children (CName p m) mn dn n cs key k lc rest c0 E I Co La); [|now rewrite Kj|apply silent_name].
        symmetry. apply (early_names mn dn n cs es I Hi A).
        intros key' k' ko H1 H2 H3 H4 H5. apply (rest_names key' k' ko lc H1 H3 H4 Ty Hlc); [|exact H5].
        pose proof (depends_done dn key k rest key' k' E H1 H2) as Dp. now rewrite Cl in Dp. }
      destruct (L2 eq_refl _ Q) as (ko & J & K). exists ko. split; [exact J|]. intros _. exact K.
    + destruct (L1 eq_refl) as (os & J & _). unfold judge_members.
      destruct (all_some_sub _ (map (jd sc t) (map snd (filter (fun kv => negb (mem_str (fst kv) (o_names o))) (members x)))) _ J) as (ys & J').
      { intros a Ha. apply in_map_iff in Ha. destruct Ha as (y & <- & Hy). apply in_map. apply in_map_iff in Hy. destruct Hy as (m & <- & Hm).
        apply filter_In in Hm. now apply in_map. }
      unfold judge_all. rewrite J'. cbn [obind]. eexists. split; [reflexivity|]. discriminate.
Qed.

(** ** One step of the loop. *)
Definition minned (dn : list (pystr * keyword)) : bool := mem_str (lit "minContains") (keys dn).

Lemma minned_snoc dn key k : key <> lit "minContains" -> minned (dn ++ [(key, k)]) = minned dn.
Proof.
  intro N. apply eq_true_iff_eq. unfold minned. rewrite !mem_str_In, keys_snoc, in_app_iff. cbn [In]. intuition congruence.
Qed.

Lemma contains_first dn key k rest : kws = dn ++ (key, k) :: rest -> key = lit "contains" -> minned dn = false.
Proof.
  intros E Hk. apply not_true_is_false. intro M. apply mem_str_In in M. unfold keys in M. apply in_map_iff in M.
  destruct M as ([a k'] & Ea & M). cbn [fst] in Ea. subst a. apply in_split in M. destruct M as (d1 & d2 & M).
  destruct (split_fresh _ _ _ _ E) as (H & HIn & Hi).
  assert (E' : kws = d1 ++ (lit "minContains", k') :: (d2 ++ (key, k) :: rest)) by (rewrite E, M, <- app_assoc; reflexivity).
  apply (depends_done d1 _ k' _ key k E' HIn).
  - intro X. apply H. rewrite M. unfold keys. rewrite map_app. apply in_or_app. left. change key with (fst (key, k)). now apply in_map.
  - rewrite (class_found (lit "minContains") k' KMinContains); [rewrite Hk; now left| |exact find_min]. rewrite E'. apply in_or_app. right. now left.
Qed.

Lemma cput_app_old ck (v w : rnode) m1 m2 : cget ck m1 = Some w -> cput ck v (m1 ++ m2) = cput ck v m1 ++ m2.
Proof.
  induction m1 as [|[k' v'] m IH]; cbn [cget cput app]; [discriminate|]. destruct (ckey_eqb_spec ck k'); [reflexivity|].
  intro H. cbn [app]. now rewrite IH.
Qed.

Lemma inv_min dn n cs key k rest c0 parent' : kws = dn ++ (key, k) :: rest -> key = lit "minContains" -> inv false dn n cs ->
  (parent' = put_child n key i c0 \/
   exists cc, sibling (put_child n key i c0) i (lit "contains") = Some cc /\
              parent' = put_child (put_child n key i c0) (lit "contains") i (pass_ cc)) ->
  match dget (lit "contains") kws with
  | Some kc => concerns x kc = true -> contains_entry true (lit "contains") kc (sibling parent' i (lit "contains"))
  | None => True
  end ->
  exists n' cs', inv true dn n' cs' /\ parent' = put_child n' key i c0.
Proof.
  intros E Hk I Hp Hc. destruct (split_fresh _ _ _ _ E) as (H & HIn & Hi).
  assert (Nk : lit "contains" <> key) by (rewrite Hk; discriminate).
  pose proof (inv_sibling false dn n cs key c0 (lit "contains") I H Nk) as Sb.
  assert (Old : forall cs1, (forall key', key' <> lit "contains" -> cget (key', p) cs1 = cget (key', p) cs) ->
    sibling parent' i (lit "contains") = cget (lit "contains", p) cs1 ->
    forall key' k', In (key', k') dn -> entry (r_valid n0) true key' k' (cget (key', p) cs1)).
  { intros cs1 Ho Hs key' k' X. destruct (str_eq_dec key' (lit "contains")) as [->|N].
    - pose proof (Hi _ X) as X'. apply dget_kws in X'. rewrite X' in Hc. apply dget_kws in X'.
      pose proof (class_found _ _ _ X' find_contains) as C. unfold entry. rewrite C. destruct (concerns x k') eqn:Co.
      + unfold late. rewrite C, <- Hs. exact (Hc eq_refl).
      + rewrite <- Hs. pose proof (inv_entry _ _ _ _ I _ _ X) as En. unfold entry in En. rewrite Co in En.
        destruct Hp as [->|(cc & Q & _)]; [now rewrite Sb|]. rewrite Sb, En in Q. discriminate.
    - rewrite (Ho _ N). apply (entry_minned _ false); [|now apply (inv_entry _ _ _ _ I)].
      intro C. destruct (class_key _ _ _ (Hi _ X) C). contradiction. }
  destruct Hp as [Hp|(cc & Q & Hp)].
  - exists n, cs. split; [|exact Hp]. pose proof I as [I1 I2 I3 I4 I5 I6]. constructor; auto. apply Old; [reflexivity|]. now rewrite Hp.
  - rewrite Sb in Q. set (cs1 := cput (lit "contains", p) (pass_ cc) cs).
    assert (Ep : parent' = put_child (with_children n (r_children n0 ++ cs1)) key i c0).
    { rewrite Hp. unfold put_child at 1. rewrite (inv_put false dn n cs key c0 I H).
      rewrite cput_app_new by apply old_none. rewrite (cput_app_old _ _ cc) by exact Q. fold cs1.
      unfold put_child, with_children. cbn [r_key r_path r_relpath r_schema r_inst r_valid r_assert r_discard r_annot r_error r_ref r_children].
      rewrite (cput_new (key, p) c0 (r_children n0 ++ cs1)); [now rewrite app_assoc|].
      rewrite cget_app, old_none. unfold cs1. rewrite cget_put_other by congruence. exact (inv_none _ _ _ _ _ I H). }
    exists (with_children n (r_children n0 ++ cs1)), cs1. split; [|exact Ep].
    pose proof I as [I1 I2 I3 I4 I5 I6]. constructor; auto.
    + apply Forall_cput; [|exact I4]. rewrite Forall_forall in I4. exact (I4 _ (cget_In _ _ _ Q)).
    + unfold cs1. rewrite cput_keys. replace (existsb _ _) with true; [exact I5|]. symmetry. apply existsb_exists.
      exists (lit "contains", p). split; [change (lit "contains", p) with (fst (lit "contains", p, cc)); apply in_map; now apply cget_In|].
      destruct (ckey_eqb_spec (lit "contains", p) (lit "contains", p)); congruence.
    + apply Old.
      * intros key' N. unfold cs1. apply cget_put_other. congruence.
      * rewrite Ep. unfold sibling, put_child. cbn [with_children r_children]. rewrite cget_put_other by congruence.
        now rewrite cget_app, old_none.
Qed.

Lemma step dn n cs key k rest parent' c : kws = dn ++ (key, k) :: rest -> inv (minned dn) dn n cs -> concerns x k = true ->
  eval_keyword W ev k i anck (put_child n key i (new_child n key i s)) (new_child n key i s) = Ok (parent', c) ->
  exists cs', inv (minned (dn ++ [(key, k)])) (dn ++ [(key, k)]) (close_child parent' key i c) cs'.
Proof.
  intros E I Co Ev. destruct (split_fresh _ _ _ _ E) as (H & HIn & Hi).
  pose proof (fresh_child n key k (inv_frame _ _ _ _ I) HIn) as F.
  pose proof (inv_siblings _ _ _ _ _ _ _ (new_child n key i s) E I) as Sb.
  set (c0 := new_child n key i s) in *. set (par := put_child n key i c0) in *.
  assert (Pn : r_annot par = JNull /\ r_discard par = false).
  { destruct (inv_frame _ _ _ _ I) as (_ & _ & _ & _ & _ & F6 & F7). unfold par. cbn [put_child with_children r_annot r_discard]. now rewrite F6, F7. }
  destruct Pn as [Pa Pd].
  assert (Close : key <> lit "minContains" -> parent' = par -> entry (r_valid n0) (minned dn) key k (if r_discard c then None else Some c) ->
    exists cs', inv (minned (dn ++ [(key, k)])) (dn ++ [(key, k)]) (close_child parent' key i c) cs').
  { intros N -> En. rewrite (minned_snoc _ _ _ N). exact (inv_close (minned dn) dn n cs key k c0 c I H En). }
  unfold eval_keyword in Ev. destruct (kw_class k) as [cl|u] eqn:C.
  2: { destruct (e_annotation (kw_json k) c0) as [r| |] eqn:E1; cbn [bind] in Ev; try discriminate. injection Ev as <- <-.
       apply Close; [|reflexivity|].
       - intros Hk. pose proof (class_found key k KMinContains HIn) as X. rewrite Hk, find_min in X. specialize (X eq_refl). congruence.
       - pose proof (step_unknown key k u c0 r HIn C F E1) as D. unfold entry, late. rewrite Co, C. exact D. }
  destruct (class_key _ _ _ HIn C) as [Hk _].
  destruct (match cl with KMinContains => true | _ => false end) eqn:Mi.
  - destruct cl; try discriminate Mi. clear Mi Close. cbn [std_key] in Hk.
    assert (M0 : minned dn = false).
    { apply not_true_is_false. intro M. apply mem_str_In in M. rewrite Hk in H. contradiction. }
    rewrite M0 in I, Sb. destruct (step_minContains _ key k par c0 parent' c HIn C F Co Sb Ev) as (D & L & Hp & Hc).
    assert (Hc' : match dget (lit "contains") kws with
      | Some kc => concerns x kc = true -> contains_entry true (lit "contains") kc (sibling parent' i (lit "contains"))
      | None => True end) by (destruct (dget (lit "contains") kws); [intros _; exact Hc|exact Hc]).
    destruct (inv_min dn n cs key k rest c0 parent' E Hk I Hp Hc') as (n' & cs1 & I' & Ep).
    replace (minned (dn ++ [(key, k)])) with true.
    2: { symmetry. unfold minned. apply mem_str_In. rewrite keys_snoc, Hk. apply in_or_app. right. now left. }
    rewrite Ep. apply (inv_close true dn n' cs1 key k c0 c I' H). rewrite D. unfold entry, late. rewrite Co, C. exact L.
  - assert (N : key <> lit "minContains").
    { intro X. pose proof (class_found key k KMinContains HIn) as Y. rewrite X, find_min in Y. specialize (Y eq_refl). rewrite C in Y.
      injection Y as ->. discriminate Mi. }
    assert (Ev' : exists r, eval_std W ev k cl i anck par c0 = Ok r /\ parent' = par /\ c = r).
    { destruct (eval_std W ev k cl i anck par c0) as [r| |] eqn:E1; destruct cl; try discriminate Mi; cbn [bind] in Ev; try discriminate Ev; injection Ev as <- <-; eauto. }
    clear Ev. destruct Ev' as (r & Ev & -> & <-). apply Close; [exact N|reflexivity|]. clear Close.
    destruct (ordinary cl) eqn:O.
    + pose proof (step_ordinary _ _ key k cl par c0 c HIn C O F Co Sb Ev) as D. unfold entry, late. rewrite Co, C. destruct cl; try discriminate O; exact D.
    + assert (Lg : (if legacy then modern cl else older cl) = false) by exact (class_legacy _ _ _ HIn C).
      unfold entry. rewrite Co. unfold late. rewrite C.
      assert (La : forall lc, match cl with KUnevaluatedItems | KUnevaluatedItems2019 | KUnevaluatedProperties | KUnevaluatedProperties2019 => Some cl | _ => None end = Some lc -> late k = Some lc)
        by (intros lc X; unfold late; rewrite C; exact X).
      destruct cl; try discriminate O; try discriminate Mi; cbn [eval_std] in Ev.
      * apply with_sub_inv in Ev. destruct Ev as (t & Kj & Ev). rewrite Kj in F.
        assert (Hl : legacy = false) by (destruct legacy; [discriminate Lg|reflexivity]).
        apply (late_items_entry (minned dn) dn n cs key k t _ rest c0 c E I Co (La _ eq_refl) Kj (or_introl (conj Hl eq_refl)) F).
        exact (kw_unevaluatedItems W legacy ev jd Hsim s anck sc Hst i Hw key t par c0 c Hl Pa Pd F Hk Ev).
      * destruct (step_contains key k c0 c HIn C F Ev) as [D X]. rewrite D. rewrite (contains_first dn key k rest E Hk). exact X.
      * apply with_sub_inv in Ev. destruct Ev as (t & Kj & Ev). rewrite Kj in F.
        assert (Hl : legacy = false) by (destruct legacy; [discriminate Lg|reflexivity]).
        apply (late_members_entry (minned dn) dn n cs key k t _ rest c0 c E I Co (La _ eq_refl) Kj (or_introl (conj Hl eq_refl)) F).
        assert (Hn : In key name_keys) by (rewrite Hk; cbn [name_keys In std_key]; auto).
        exact (kw_unevaluatedProperties W legacy ev jd Hsim s anck sc Hst i Hw key t par c0 c Pa Pd F Hn Ev).
      * apply with_sub_inv in Ev. destruct Ev as (t & Kj & Ev). rewrite Kj in F.
        assert (Hl : legacy = true) by (destruct legacy; [reflexivity|discriminate Lg]).
        apply (late_items_entry (minned dn) dn n cs key k t _ rest c0 c E I Co (La _ eq_refl) Kj (or_intror (conj Hl eq_refl)) F).
        exact (kw_unevaluatedItems_2019 W legacy ev jd Hsim s anck sc Hst i Hw key t par c0 c Hl Pa Pd F Hk Ev).
      * apply with_sub_inv in Ev. destruct Ev as (t & Kj & Ev). rewrite Kj in F.
        assert (Hl : legacy = true) by (destruct legacy; [reflexivity|discriminate Lg]).
        apply (late_members_entry (minned dn) dn n cs key k t _ rest c0 c E I Co (La _ eq_refl) Kj (or_intror (conj Hl eq_refl)) F).
        assert (Hn : In key name_keys) by (rewrite Hk; cbn [name_keys In std_key]; auto).
        exact (kw_unevaluatedProperties W legacy ev jd Hsim s anck sc Hst i Hw key t par c0 c Pa Pd F Hn Ev).
      * destruct (step_maxContains _ _ key k par c0 c HIn C F Co Sb Ev) as [D X]. rewrite D. exact X.
Qed.

Lemma loop : forall rest dn n cs n', kws = dn ++ rest -> inv (minned dn) dn n cs ->
  eval_keywords W ev s rest i anc n = Ok n' -> exists cs', inv (minned kws) kws n' cs'.
Proof.
  induction rest as [|[key k] rest IH]; intros dn n cs n' E I Ev; cbn [eval_keywords] in Ev.
  - rewrite app_nil_r in E. subst dn. injection Ev as <-. eauto.
  - destruct (split_fresh _ _ _ _ E) as (H & HIn & Hi).
    assert (E' : kws = (dn ++ [(key, k)]) ++ rest) by (rewrite <- app_assoc; exact E).
    rewrite applicable_concerns in Ev. destruct (concerns x k) eqn:Co.
    + assert (Rs : r_schema n = r_schema n0) by (destruct (inv_frame _ _ _ _ I) as (_ & _ & F & _); exact F).
      rewrite Rs, <- Hanck in Ev. destruct (eval_keyword _ _ _ _ _ _ _) as [[parent' c]| |] eqn:E1; cbn [bind] in Ev; try discriminate.
      destruct (step dn n cs key k rest parent' c E I Co E1) as (cs' & I'). exact (IH _ _ _ _ E' I' Ev).
    + apply (IH _ n cs n' E'); [|exact Ev].
      pose proof (inv_skip _ _ _ _ _ k I H Co) as I'. destruct (str_eq_dec key (lit "minContains")) as [Hk|N]; [|now rewrite minned_snoc].
      destruct I' as [I1 I2 I3 I4 I5 I6]. constructor; auto. intros key' k' X. pose proof (I6 _ _ X) as En. revert En. apply entry_minned.
      intros C Co'. exfalso. pose proof (class_found key k KMinContains HIn) as Cm. rewrite Hk, find_min in Cm. specialize (Cm eq_refl).
      unfold concerns in Co, Co'. rewrite Cm in Co. rewrite C in Co'. change (std_types KMinContains) with (std_types KContains) in Co. cbn [static instance_types negb andb std_types] in Co, Co'. congruence.
Qed.

(** ** After the loop. *)
Section Done.
Variable n : rnode.
Variable cs : list ((pystr * path) * rnode).
Hypothesis I : inv (minned kws) kws n cs.

Lemma done_entry key k : In (key, k) kws -> entry (r_valid n0) (minned kws) key k (cget (key, p) cs).
Proof. apply (inv_entry _ _ _ _ I). Qed.

Lemma done_child kc : In kc cs -> exists k, In (fst (fst kc), k) kws /\ cget (fst (fst kc), p) cs = Some (snd kc) /\
  concerns x k = true /\ kbase (fst (fst kc)) (kw_json k) (snd kc) /\ under p (snd kc).
Proof.
  intro H. pose proof (inv_keys _ _ _ _ I) as K. rewrite Forall_forall in K. destruct (K kc H) as [E X]. destruct kc as [[key q] c].
  cbn [fst snd] in *. subst q. unfold keys in X. apply in_map_iff in X. destruct X as ([a k] & Ea & X). cbn [fst] in Ea. subst a.
  assert (G : cget (key, p) cs = Some c) by (apply In_cget; [apply I|exact H]).
  exists k. split; [exact X|]. split; [exact G|]. pose proof (done_entry _ _ X) as En. rewrite G in En. exact (entry_facts _ _ _ _ _ En).
Qed.

Lemma low_without os lo : low_of os = Some lo -> minned kws = false -> lo = false.
Proof.
  unfold low_of. intros H M. destruct (dget (lit "minContains") kws) as [k'|] eqn:G; [|congruence]. exfalso.
  apply dget_kws in G. assert (X : minned kws = true); [|congruence]. unfold minned. apply mem_str_In.
  change (lit "minContains") with (fst (lit "minContains", k')). now apply in_map.
Qed.

(** A child has passed if its keyword accepts. *)
Lemma fin_each key k : In (key, k) kws -> concerns x k = true -> late k = None ->
  exists ko, jk k = Some ko /\ match cget (key, p) cs with Some c => passed c = o_ok ko | None => o_ok ko = true end.
Proof.
  intros H Co La. pose proof (done_entry _ _ H) as En. unfold entry in En. rewrite Co, La in En.
  assert (U : usual key k (cget (key, p) cs) ->
    exists ko, jk k = Some ko /\ match cget (key, p) cs with Some c => passed c = o_ok ko | None => o_ok ko = true end).
  { unfold usual. destruct (cget (key, p) cs) as [c|].
    - intros (ko & J & K & _). exists ko. split; [exact J|apply K].
    - intros [_ J]. exists (plain true). now split. }
  destruct (kw_class k) as [cl|u] eqn:C; [|exact (U En)]. destruct cl; try exact (U En).
  destruct En as (os & lo & hi & c & Cn & -> & _ & _ & As & _ & V). eexists. split; [exact (counted_judge key k os lo hi H C Cn)|].
  unfold passed. rewrite As, V. cbn [negb o_ok]. rewrite orb_false_r. destruct (minned kws) eqn:M; [reflexivity|].
  destruct Cn as (_ & Lo & _). now rewrite (low_without _ _ Lo M).
Qed.

Lemma fin_some : exists os, all_some (map jk early) = Some os.
Proof.
  apply all_some_ex. intros o Ho. apply in_map_iff in Ho. destruct Ho as (k & <- & Hk). apply early_In in Hk.
  destruct Hk as (key & H & Co & La). destruct (fin_each key k H Co La) as (ko & J & _). congruence.
Qed.

Definition late_out (o : outcome) : list (option outcome) :=
  flat_map (fun k => match late k with
                     | Some c => [code_unevaluated jd sc o k c x]
                     | None => []
                     end) (filter (concerns x) (map snd kws)).

Lemma late_out_In o a : In a (late_out o) <->
  exists key k lc, In (key, k) kws /\ concerns x k = true /\ late k = Some lc /\ code_unevaluated jd sc o k lc x = a.
Proof.
  unfold late_out. rewrite in_flat_map. split.
  - intros (k & H & Ha). apply filter_In in H. destruct H as [H Co]. apply in_map_iff in H. destruct H as ([key k'] & E & H). cbn [snd] in E. subst k'.
    destruct (late k) as [lc|] eqn:La; [|destruct Ha]. destruct Ha as [Ha|[]]. exists key, k, lc. auto.
  - intros (key & k & lc & H & Co & La & J). exists k. split; [apply filter_In; split; [apply in_map_iff; exists (key, k); auto|exact Co]|].
    rewrite La. now left.
Qed.

Lemma code_object_eq : code_object W choose jd sc kws x =
  obind (all_some (map jk early)) (fun os => obind (all_some (late_out (gather true os))) (fun us =>
  Some (gather (all_accept (os ++ us)) (os ++ us)))).
Proof. reflexivity. Qed.

Lemma late_some os : all_some (map jk early) = Some os -> exists us, all_some (late_out (gather true os)) = Some us.
Proof.
  intro A. apply all_some_ex. intros a Ha. apply late_out_In in Ha. destruct Ha as (key & k & lc & H & Co & La & <-).
  pose proof (done_entry _ _ H) as En. unfold entry in En. rewrite Co, La in En. destruct En as [_ En].
  destruct (En os A) as (ko & J & _). congruence.
Qed.

Lemma failing_children : existsb (fun kc => negb (passed (snd kc)) && strs_eqb (r_inst (snd kc)) p) (r_children n) = existsb (fun kc => negb (passed (snd kc))) cs.
Proof.
  rewrite (inv_children _ _ _ _ I), existsb_app. replace (existsb _ (r_children n0)) with false.
  2: { symmetry. apply not_true_is_false. intro X. apply existsb_exists in X. destruct X as (kc & H & X). apply andb_true_iff in X. destruct X as [_ X].
       destruct (strs_eqb_spec (r_inst (snd kc)) p) as [E|]; [|discriminate]. unfold clean in Hclean. rewrite Forall_forall in Hclean.
       destruct (Hclean kc H) as (_ & Y & _). contradiction. }
  cbn [orb]. apply eq_true_iff_eq. rewrite !existsb_exists. split; intros (kc & H & X); exists kc; (split; [exact H|]).
  - now apply andb_true_iff in X.
  - rewrite X. destruct (done_child kc H) as (k & _ & _ & _ & (_ & E & _) & _). rewrite E. now destruct (strs_eqb_spec p p).
Qed.

Lemma late_relates os key k lc : all_some (map jk early) = Some os -> r_valid n0 = true -> In (key, k) kws -> concerns x k = true -> late k = Some lc ->
  exists ko, code_unevaluated jd sc (gather true os) k lc x = Some ko /\
    match cget (key, p) cs with Some c => kout key (kw_json k) c ko | None => ko = plain true end.
Proof.
  intros A V H Co La. pose proof (done_entry _ _ H) as En. unfold entry in En. rewrite Co, La in En. destruct En as [_ En].
  destruct (En os A) as (ko & J & K). exists ko. split; [exact J|exact (K V)].
Qed.

Lemma done_split (P : rnode -> Prop) : some P cs <-> early_says kws cs P \/
  exists key k lc c, In (key, k) kws /\ concerns x k = true /\ late k = Some lc /\ cget (key, p) cs = Some c /\ P c.
Proof.
  rewrite (some_entries P _ _ _ _ I). split.
  - intros (key & k & c & H & G & HP). pose proof (done_entry _ _ H) as En. rewrite G in En. destruct (entry_facts _ _ _ _ _ En) as [Co _].
    destruct (late k) as [lc|] eqn:La; [right; exists key, k, lc, c; auto|left; exists key, k, c; auto].
  - intros [(key & k & c & H & Co & La & G & HP)|(key & k & lc & c & H & Co & La & G & HP)]; exists key, k, c; auto.
Qed.

Lemma finish_spec : exists o, code_object W choose jd sc kws x = Some o /\ post legacy i n0 (finish i n) o.
Proof.
  assert (Post : forall o, r_valid (finish i n) = r_valid n0 && o_ok o ->
    (r_valid n0 = true -> Rel legacy p (width i) cs o) -> post legacy i n0 (finish i n) o).
  { intros o V R. exists cs. split; [|split; [|split; [|now split]]].
    - pose proof (inv_frame _ _ _ _ I) as F. unfold finish. destruct (existsb _ _); exact F.
    - pose proof (inv_children _ _ _ _ I) as F. unfold finish. destruct (existsb _ _); exact F.
    - apply Forall_forall. intros kc H. destruct (done_child kc H) as (k & _ & _ & _ & B & U).
      pose proof (inv_keys _ _ _ _ I) as K. rewrite Forall_forall in K. destruct (K kc H) as [E _]. split; [exact E|]. split; [apply B|exact U]. }
  assert (Vf : r_valid (finish i n) = r_valid n0 && negb (existsb (fun kc => negb (passed (snd kc))) cs)).
  { unfold finish. rewrite failing_children. destruct (existsb _ cs); cbn [fail r_valid negb]; [now rewrite andb_false_r|].
    rewrite andb_true_r. exact (inv_valid _ _ _ _ I). }
  destruct fin_some as (os & A). destruct (late_some os A) as (us & Lo). rewrite code_object_eq, A. cbn [obind]. rewrite Lo. cbn [obind].
  eexists. split; [reflexivity|]. destruct (r_valid n0) eqn:V0.
  2: { apply Post; [rewrite Vf; reflexivity|discriminate]. }
  assert (Ho : forall key k ko, In (key, k) kws -> concerns x k = true -> late k = None -> jk k = Some ko -> In ko os).
  { intros key k ko H Co La J. apply (all_some_In _ _ A). rewrite <- J. apply in_map, early_In. eauto. }
  assert (Hu : forall key k lc ko, In (key, k) kws -> concerns x k = true -> late k = Some lc -> code_unevaluated jd sc (gather true os) k lc x = Some ko -> In ko us).
  { intros key k lc ko H Co La J. apply (all_some_In _ _ Lo). rewrite <- J. apply late_out_In. exists key, k, lc. auto. }
  assert (Ok : negb (existsb (fun kc => negb (passed (snd kc))) cs) = all_accept (os ++ us)).
  { apply eq_true_iff_eq. rewrite negb_true_iff, <- not_true_iff_false, existsb_exists. unfold all_accept. rewrite forallb_forall. split.
    - intros H ko Hko. destruct (o_ok ko) eqn:O; [reflexivity|]. exfalso. apply H. apply in_app_or in Hko. destruct Hko as [Hko|Hko].
      + apply (all_some_In _ _ A) in Hko. apply in_map_iff in Hko. destruct Hko as (k & J & Hk). apply early_In in Hk. destruct Hk as (key & Hk & Co & La).
        destruct (fin_each key k Hk Co La) as (ko' & J' & K). rewrite J in J'. injection J' as <-. destruct (cget (key, p) cs) as [c|] eqn:G; [|congruence].
        exists ((key, p), c). split; [now apply cget_In|]. cbn [snd]. now rewrite K, O.
      + apply (all_some_In _ _ Lo) in Hko. apply late_out_In in Hko. destruct Hko as (key & k & lc & Hk & Co & La & J).
        destruct (late_relates os key k lc A V0 Hk Co La) as (ko' & J' & K). rewrite J in J'. injection J' as <-. destruct (cget (key, p) cs) as [c|] eqn:G; [|subst ko; discriminate O].
        exists ((key, p), c). split; [now apply cget_In|]. cbn [snd]. now rewrite (ko_passed _ _ _ _ _ _ _ _ K), O.
    - intros H (kc & Hc & X). apply negb_true_iff in X. destruct (done_child kc Hc) as (k & Hk & G & Co & _). destruct (late k) as [lc|] eqn:La.
      + destruct (late_relates os _ k lc A V0 Hk Co La) as (ko & J & K). rewrite G in K. rewrite (ko_passed _ _ _ _ _ _ _ _ K), H in X; [discriminate|].
        apply in_or_app. right. exact (Hu _ _ _ _ Hk Co La J).
      + destruct (fin_each _ k Hk Co La) as (ko & J & K). rewrite G in K. rewrite K, H in X; [discriminate|].
        apply in_or_app. left. exact (Ho _ _ _ Hk Co La J). }
  apply Post; [rewrite Vf, Ok; reflexivity|]. intros _.
  assert (Late : forall (P : rnode -> Prop) (Q : outcome -> Prop),
    (forall c ko, child_says c ko -> (P c <-> o_ok ko = true /\ Q ko)) -> ~ Q (plain true) ->
    ((exists key k lc c, In (key, k) kws /\ concerns x k = true /\ late k = Some lc /\ cget (key, p) cs = Some c /\ P c) <->
     exists ko, In ko us /\ o_ok ko = true /\ Q ko)).
  { intros P Q HP Q0. split.
    - intros (key & k & lc & c & H & Co & La & G & X). destruct (late_relates os key k lc A V0 H Co La) as (ko & J & K). rewrite G in K.
      exists ko. split; [exact (Hu _ _ _ _ H Co La J)|]. apply (HP c); [exact (kout_says _ _ _ _ K)|exact X].
    - intros (ko & Hko & O & X). apply (all_some_In _ _ Lo) in Hko. apply late_out_In in Hko. destruct Hko as (key & k & lc & H & Co & La & J).
      destruct (late_relates os key k lc A V0 H Co La) as (ko' & J' & K). rewrite J in J'. injection J' as <-.
      destruct (cget (key, p) cs) as [c|] eqn:G; [|subst ko; contradiction]. exists key, k, lc, c. repeat (split; [assumption|]).
      apply (HP _ _ (kout_says _ _ _ _ K)). now split. }
  assert (Fl : forall B (f : outcome -> list B) m, In m (flat_map f (filter o_ok us)) <-> exists ko, In ko us /\ o_ok ko = true /\ In m (f ko)).
  { intros B f m. rewrite in_flat_map. split; intros (ko & H & H'); exists ko; rewrite filter_In in *; tauto. }
  constructor.
  - intro name. rewrite done_split. unfold gather at 1. cbn [o_names]. rewrite filter_app, flat_map_app, in_app_iff.
    rewrite (early_names _ _ _ _ os I (incl_refl _) A) by (intros; contradiction).
    rewrite (Late (CName p name) (fun ko => In name (o_names ko))), (Fl _ o_names); [reflexivity|intros c ko S; apply S|intros []].
  - intros m Hm. rewrite done_split, evaluated_gather, filter_app, flat_map_app, in_app_iff, <- (evaluated_gather legacy true os).
    rewrite (early_places _ _ _ _ os I (incl_refl _) A) by (auto; intros; contradiction).
    rewrite (Late (CEval legacy p m) (fun ko => In m (evaluated_at legacy ko))), Fl; [reflexivity|intros c ko S; now apply S|rewrite evaluated_plain; intros []].
Qed.
End Done.

(** The whole schema object. *)
Lemma object_spec n' : eval_keywords W ev s kws i anc n0 = Ok n' ->
  exists o, code_object W choose jd sc kws x = Some o /\ post legacy i n0 (finish i n') o.
Proof.
  intro Ev. destruct (loop kws [] n0 [] n' eq_refl) as (cs & I); [|exact Ev|exact (finish_spec n' cs I)].
  constructor; [apply frame_refl|reflexivity|now rewrite app_nil_r|constructor|constructor|intros key k []].
Qed.
End Loop.
