(** C77: which documents are made into schemas. *)
From Coq Require Import String List Bool Lia.
From Verif Require Import SpecAccept SchemaCases PropsSchema PropsBuild PropsMeta SchemaLocal JudgeLocal SchemaMain BuildSteps BuildStrict PropsWritten PropsCaches PropsMixed PropsWhole PropsSafe PropsTotal MetaFacts BuildAccept BuildFound.
Import ListNotations.
Open Scope string_scope.
Open Scope list_scope.
Open Scope nat_scope.

(** Creating the schema objects succeeds exactly if the document is
    buildable, whatever is in the catalog, and never goes on forever. *)
Theorem C77_objects : forall E id v u m c, reachable c -> jwf v = true ->
  if buildable E m v then exists s c', build E id v u m None c = (Ok s, c') else exists e c', build E id v u m None c = (Exn e, c').
Proof.
  intros E id v u m c R J. pose proof (build_decides E id v u m c (proj1 (reachable_sane c R)) J) as H. destruct (build E id v u m None c) as [[s|e|] c']; cbn [fst] in H; [rewrite H; eauto|rewrite H; eauto|destruct H].
Qed.
(** Other documents raise an exception. *)
Theorem C77_refused : forall E f id v u m c, reachable c -> jwf v = true -> buildable E m v = false -> exists e c', construct E f id v u m c = (Exn e, c').
Proof. intros E f id v u m c R J. exact (construct_refused E f id v u m c (proj1 (reachable_sane c R)) J). Qed.
(** A buildable document all of whose references lead to schemas of the cache
    is made into a schema; nothing is loaded. *)
Theorem C77_known : forall E id v u m c s c1, reachable c -> jwf v = true -> build E id v u m None c = (Ok s, c1) -> all_found E c1 s ->
  exists N, forall f, N <= f -> exists c', construct E f id v u m c = (Ok s, c') /\ c_cache c' = c_cache c1.
Proof.
  intros E id v u m c s c1 R J H A. exists (size c1). intros f Hf. destruct (construct_outcome E f id v u m c s c1 (reachable_sane c R) J H ltac:(lia)) as [O _].
  destruct (O A) as (c' & X & [_ L]). eauto.
Qed.
(** If nothing can be loaded, this is exactly what it takes. *)
Theorem C77_exactly : forall E id v u m c, loads_nothing E -> reachable c -> jwf v = true ->
  exists N, forall f, N <= f ->
    ((exists s c', construct E f id v u m c = (Ok s, c')) <-> buildable E m v = true /\ exists s c1, build E id v u m None c = (Ok s, c1) /\ all_found E c1 s) /\
    forall c', construct E f id v u m c <> (Fuel, c').
Proof.
  intros E id v u m c Si R J. pose proof (C77_objects E id v u m c R J) as H. destruct (buildable E m v) eqn:B.
  - destruct H as (s & c1 & H). exists (size c1). intros f Hf. destruct (construct_outcome E f id v u m c s c1 (reachable_sane c R) J H ltac:(lia)) as [O1 O2]. destruct (O2 Si) as [A|(e & c' & X & _ & N)].
    + destruct (O1 A) as (c' & X & _). split; [|congruence]. split; [intros _; eauto 6|intros _; eauto].
    + split; [|congruence]. split; [intros (s' & c2 & Y); congruence|]. intros (_ & s' & c2 & H' & A). rewrite H' in H. injection H as -> ->. destruct (N A).
  - exists 0. intros f _. destruct (C77_refused E f id v u m c R J B) as (e & c' & X). split; [|congruence]. split; [intros (s' & c2 & Y); congruence|intros [Q _]; discriminate Q].
Qed.
(** Documents without references: buildable is all it takes. *)
Theorem C77_plain : forall E id v u m c, reachable c -> jwf v = true -> free_of_references E m v = true ->
  exists N, forall f, N <= f ->
    if buildable E m v then exists s c', construct E f id v u m c = (Ok s, c') else exists e c', construct E f id v u m c = (Exn e, c').
Proof.
  intros E id v u m c R J Fr. destruct (buildable E m v) eqn:B.
  - pose proof (C77_objects E id v u m c R J) as H. rewrite B in H. destruct H as (s & c1 & H).
    destruct (C77_known E id v u m c s c1 R J H (free_found E id v u m c s c1 (reachable_sane c R) J H Fr)) as (N & K). exists N. intros f Hf. destruct (K f Hf) as (c' & X & _). eauto.
  - exists 0. intros f _. exact (C77_refused E f id v u m c R J B).
Qed.

(** ** From a document to a verdict. *)
Lemma proper_free E re ms d avoid legacy : dialect legacy d -> without_references avoid -> (forall u d', ms u = true -> e_dialect E u = Some d' -> d' = d) ->
  forall v m, (forall m', m = Some m' -> ms m' = true) -> proper_with d (demands re (e_lib E) ms d avoid) v = true -> jwf v = true -> free_of_references E m v = true.
Proof.
  intros Hd (A1 & A2 & A3) Di.
  assert (G : forall n v m, jsize v < n -> (forall m', m = Some m' -> ms m' = true) -> proper_with d (demands re (e_lib E) ms d avoid) v = true -> jwf v = true -> free_of_references E m v = true).
  { induction n as [|n IH]; intros v m Hn Hm P J; [lia|]. destruct v as [| | | | |doc]; try reflexivity. apply jwf_obj in J. destruct J as [Nd J]. rewrite Forall_forall in J.
    cbn [proper_with free_of_references] in *. rewrite forallb_forall in *.
    assert (Ha : forall m', applies E m doc = Some m' -> ms m' = true).
    { intros m' Q. unfold applies in Q. destruct (dget (lit "$schema") doc) as [[| | |t| |]|] eqn:D; try (now apply Hm). injection Q as <-. apply dget_In in D. specialize (P _ D). cbn [fst snd] in P.
      apply andb_true_iff in P. destruct P as [P _]. apply andb_true_iff in P. destruct P as [P _]. apply andb_true_iff in P. destruct P as [_ P].
      replace (str_eqb (lit "$schema") (lit "$schema")) with true in P by reflexivity. exact P. }
    intros [key v] Hv. specialize (P _ Hv). specialize (J _ Hv). pose proof (jsize_members _ _ Hv) as Sz. cbn [fst snd] in *. apply andb_true_iff in P. destruct P as [Pd P].
    unfold class_for. destruct (str_eqb key (lit "$schema")); [now destruct v|]. destruct (str_eqb key (lit "$vocabulary")); [now destruct v|]. destruct (applies E m doc) as [mu|] eqn:Ap; [|reflexivity].
    destruct (e_dialect E mu) as [d'|] eqn:D; [|reflexivity]. assert (d' = d) by exact (Di _ _ (Ha _ eq_refl) D). subst d'.
    destruct (str_eqb key (lit "$id")); [destruct (find_class d (lit "$id")) as [[]|]; now destruct v|]. destruct (find_class d key) as [c|] eqn:F; [|reflexivity].
    apply andb_true_iff in P. destruct P as [_ P]. apply andb_true_iff. split.
    - apply find_class_key in F. apply andb_true_iff in Pd. destruct Pd as [Pd _]. apply andb_true_iff in Pd. destruct Pd as [Pd _]. apply negb_true_iff in Pd.
      destruct (refers (Std c)) eqn:Rf; [|reflexivity]. exfalso. assert (Hin : mem_str key avoid = true); [apply mem_str_In|congruence]. rewrite <- F. destruct c; try discriminate Rf; assumption.
    - destruct v as [| | | |l|m']; try reflexivity.
      + destruct (many_schemas c); [|reflexivity]. rewrite forallb_forall in *. apply jwf_arr in J. rewrite Forall_forall in J. intros w Hw. pose proof (jsize_items _ _ Hw). apply IH; [lia|exact Ha|exact (P _ Hw)|exact (J _ Hw)].
      + destruct (one_schema c); [apply IH; [lia|exact Ha|exact P|exact J]|]. destruct (named_schemas c); [|reflexivity]. rewrite forallb_forall in *. apply jwf_obj in J. destruct J as [_ J]. rewrite Forall_forall in J.
        intros kv Hw. pose proof (jsize_members _ _ Hw). apply IH; [lia|exact Ha|exact (P _ Hw)|exact (J _ Hw)]. }
  intros v m. exact (G (S (jsize v)) v m (Nat.lt_succ_diag_r _)).
Qed.
(** A buildable strict document without references is made into a schema, its
    evaluation of any instance returns, and the verdict is the prescribed
    one. *)
Theorem C77_pipeline : forall re lib id W0 ms d avoid legacy E v u m st x, (forall r x, re r = true -> w_search W0 r x <> None) ->
  dialect legacy d -> without_references avoid -> plain_enough legacy avoid ->
  completed re id ms d avoid st -> speaks_strictly re E ms d avoid -> jwf v = true -> proper_with d (demands re (e_lib E) ms d avoid) v = true ->
  (forall m', m = Some m' -> ms m' = true) -> buildable E m v = true -> finite_numbers x = true -> jwf x = true ->
  exists N, forall f, N <= f -> exists s c' r, construct E f id v u m (mc_cat st) = (Ok s, c') /\
    returns (cache_world lib id W0 c') s (root x) r /\ forall b, verdict (cache_world lib id W0 c') s x b <-> b = r_valid r.
Proof.
  intros re lib id W0 ms d avoid legacy E v u m st x Hre Hd Hn Hp Hc Sp J P Hm B F Jx. pose proof (proper_free E re ms d avoid legacy Hd Hn (proj1 Sp) v m Hm P J) as Fr.
  destruct (completed_inv re id ms d avoid (dialect_boot _ _ Hd) st Hc) as (S & _). pose proof (build_decides E id v u m (mc_cat st) (proj1 S) J) as H.
  destruct (build E id v u m None (mc_cat st)) as [[s|e|] c1] eqn:Hb; cbn [fst] in H; [|congruence|destruct H]. exists (BuildInv.size c1). intros f Hf.
  destruct (construct_outcome E f id v u m (mc_cat st) s c1 S J Hb ltac:(lia)) as [O _]. destruct (O (free_found E id v u m (mc_cat st) s c1 S J Hb Fr)) as (c' & X & _).
  destruct (C76_plain_documents re lib id W0 ms d avoid legacy Hre E f v u m st s c' x Hd Hn Hp Hc Sp J P Hm X F Jx) as (r & Rr & V). exists s, c', r. auto.
Qed.
Print Assumptions C77_objects.
Print Assumptions C77_refused.
Print Assumptions C77_known.
Print Assumptions C77_exactly.
Print Assumptions C77_plain.
Print Assumptions C77_pipeline.

(** The document of C76, which is built and evaluated; and what is refused. *)
Example C77_case :
  without_references avoided76r /\ plain_enough false avoided76r /\ completed (fun _ => true) default only2020 dialect_2020_12 avoided76r st73 /\
  speaks_strictly (fun _ => true) (env_in (env_docs []) st73) only2020 dialect_2020_12 avoided76r /\
  jwf form = true /\ proper_with dialect_2020_12 (demands (fun _ => true) secure only2020 dialect_2020_12 avoided76r) form = true /\
  buildable (env_in (env_docs []) st73) None form = true /\ free_of_references (env_in (env_docs []) st73) None form = true /\
  map (fun kw => buildable (env_in (env_docs []) st73) (Some (mkUri (draft V2020 "schema") None)) (JObj [(lit (fst kw), snd kw)]))
    [("not", obj []); ("not", int 3); ("allOf", JArr [JBool true; JArr []]); ("allOf", text "abc"); ("properties", JArr []); ("$anchor", int 3); ("$id", text "http://a/x#y"); ("", JNull); ("anything", JNull);
     ("$schema", text "http://unknown"); ("items", obj [("$schema", text "http://unknown"); ("type", JNull)]); ("$recursiveRef", text "#"); ("$dynamicRef", int 1); ("$ref", int 1); ("pattern", int 1)] =
    [true; false; false; true; false; false; false; false; true; true; false; true; false; true; false].
Proof.
  split; [unfold without_references; cbn; tauto|]. split; [left; cbn; tauto|]. split; [apply completed73|]. split; [apply docs_strict; [exact only2020_known|vm_compute; reflexivity]|].
  split; [reflexivity|]. split; [vm_compute; reflexivity|]. split; [vm_compute; reflexivity|]. split; [vm_compute; reflexivity|]. vm_compute. reflexivity.
Qed.
(** References within a document, to the document, by anchor and to a
    metaschema, and one that leads nowhere. *)
Lemma no_docs st : loads_nothing (env_in (env_docs []) st).
Proof.
  intro u. unfold load_json. cbn [e_lib env_in with_dialects env_docs]. unfold or_catalog_error, uri_validate.
  repeat match goal with |- context [if ?b then _ else _] => destruct b end; cbn [bind]; try (eexists; reflexivity).
Qed.
Lemma steps_reachable ok st st' : steps ok st st' -> reachable (mc_cat st) -> reachable (mc_cat st').
Proof.
  induction 1 as [|E f id v u m st' Hid R J _ IH|E f id u m st' Hid R _ IH|id st' Hid _ IH|u cs st' _ IH|E see f u core defaults st' Hid R _ IH]; intro R0; auto.
  - cbn. apply reach_construct. auto.
  - cbn. apply reach_get. auto.
  - cbn. apply reach_leave. auto.
  - apply create_reachable. auto.
Qed.
Lemma reachable73 : reachable (mc_cat st73).
Proof. cbn [mc_cat upon st73]. apply reach_construct. apply (steps_reachable (fun _ => True) empty_catalog); [apply steps2020; exact I|apply reach_empty]. Qed.
Definition linking : json :=
  obj [("$schema", std_uri "schema"); ("$id", text "http://a/tree"); ("$defs", obj [("node", obj [("$anchor", text "n"); ("type", text "object")])]);
       ("properties", obj [("left", obj [("$ref", text "#/$defs/node")]); ("right", obj [("$ref", text "http://a/tree#n")]); ("next", obj [("$dynamicRef", text "#")])])].
Definition built (v : json) := build (env_in (env_docs []) st73) default v None None None (mc_cat st73).
Lemma by_running v s c1 : jwf v = true -> built v = (Ok s, c1) -> BuildInv.size c1 - s <= 20 ->
  match fst (construct (env_in (env_docs []) st73) 20 default v None None (mc_cat st73)) with Ok _ => all_found (env_in (env_docs []) st73) c1 s | _ => ~ all_found (env_in (env_docs []) st73) c1 s end.
Proof.
  intros J H L. generalize reachable73 (no_docs st73). intros R N. unfold built in H. revert H R N. generalize (mc_cat st73) (env_in (env_docs []) st73). intros c E H R N.
  destruct (construct_outcome E 20 default v None None c s c1 (reachable_sane _ R) J H L) as [O1 O2]. destruct (O2 N) as [A|(e & c' & X & _ & A)].
  - destruct (O1 A) as (c' & X & _). now rewrite X.
  - now rewrite X.
Qed.
Lemma built_pair v s : match fst (built v) with Ok s' => s' = s | _ => False end -> built v = (Ok s, snd (built v)).
Proof. intro H. rewrite (surjective_pairing (built v)) at 1. destruct (fst (built v)); [now subst|destruct H|destruct H]. Qed.
Example C77_known_case : exists s c1,
  reachable (mc_cat st73) /\ jwf linking = true /\ built linking = (Ok s, c1) /\ all_found (env_in (env_docs []) st73) c1 s /\ free_of_references (env_in (env_docs []) st73) None linking = false.
Proof.
  assert (H : built linking = (Ok 19, snd (built linking))) by (apply built_pair; vm_compute; reflexivity).
  assert (L : BuildInv.size (snd (built linking)) - 19 <= 20) by (apply Nat.leb_le; vm_compute; reflexivity).
  pose proof (by_running linking 19 (snd (built linking)) eq_refl H L) as A. exists 19, (snd (built linking)). split; [exact reachable73|]. split; [reflexivity|]. split; [exact H|]. split; [|vm_compute; reflexivity].
  revert A. assert (Q : exists s, fst (construct (env_in (env_docs []) st73) 20 default linking None None (mc_cat st73)) = Ok s) by (eexists; vm_compute; reflexivity). destruct Q as [s ->]. auto.
Qed.
Example C77_missing_case : exists s c1,
  loads_nothing (env_in (env_docs []) st73) /\ jwf dangling = true /\ buildable (env_in (env_docs []) st73) None dangling = true /\ built dangling = (Ok s, c1) /\ ~ all_found (env_in (env_docs []) st73) c1 s /\
  fst (construct (env_in (env_docs []) st73) 20 default dangling None None (mc_cat st73)) = Exn ECatalog.
Proof.
  assert (H : built dangling = (Ok 19, snd (built dangling))) by (apply built_pair; vm_compute; reflexivity).
  assert (L : BuildInv.size (snd (built dangling)) - 19 <= 20) by (apply Nat.leb_le; vm_compute; reflexivity).
  pose proof (by_running dangling 19 (snd (built dangling)) eq_refl H L) as A. assert (Q : fst (construct (env_in (env_docs []) st73) 20 default dangling None None (mc_cat st73)) = Exn ECatalog) by (vm_compute; reflexivity).
  rewrite Q in A. exists 19, (snd (built dangling)). split; [apply no_docs|]. split; [reflexivity|]. split; [vm_compute; reflexivity|]. split; [exact H|]. split; [exact A|exact Q].
Qed.

(** ** C54, success *)

(** A member whose name Python can use and is not a keyword of the metaschema, of
    whatever value, makes no difference to whether a document can be made into
    a schema. *)
Lemma unknown_class E m key mu d : m = Some mu -> e_dialect E mu = Some d -> find_class d key = None -> ~ In key bootstrapped -> class_for E m key = Some (Unknown key).
Proof.
  intros -> Di Fc Nb. unfold class_for. rewrite Di, Fc.
  assert (NE : forall x, In x bootstrapped -> str_eqb key x = false) by (intros x Hx; destruct (str_eqb_spec key x) as [->|]; [contradiction|reflexivity]).
  rewrite (NE (lit "$schema")), (NE (lit "$vocabulary")), (NE (lit "$id")) by (unfold bootstrapped; cbn [In]; auto). reflexivity.
Qed.
Lemma applies_insert E m (key : pystr) v (a b : list (pystr * json)) : ~ In key bootstrapped -> applies E m (a ++ (key, v) :: b) = applies E m (a ++ b).
Proof.
  intro N. unfold applies. assert (D : dget (lit "$schema") (a ++ (key, v) :: b) = dget (lit "$schema") (a ++ b)); [|now rewrite D].
  induction a as [|[k w] a IH]; [|cbn [app dget]; now rewrite IH]. cbn [app dget].
  assert (Q : str_eqb (lit "$schema") key = false) by (destruct (str_eqb_spec (lit "$schema") key) as [X|]; [destruct N; rewrite <- X; left; reflexivity|reflexivity]). now rewrite Q.
Qed.
Theorem C54_harmless : forall E m (a : list (pystr * json)) (key : pystr) v (b : list (pystr * json)) mu d,
  applies E m (a ++ b) = Some mu -> e_dialect E mu = Some d -> nameable key = true -> find_class d key = None -> ~ In key bootstrapped ->
  buildable E m (JObj (a ++ (key, v) :: b)) = buildable E m (JObj (a ++ b)) /\
  free_of_references E m (JObj (a ++ (key, v) :: b)) = free_of_references E m (JObj (a ++ b)).
Proof.
  intros E m a key v b mu d Ap Di Ne Fc Nb. pose proof (unknown_class E (applies E m (a ++ b)) key mu d Ap Di Fc Nb) as C.
  pose proof (applies_insert E m key v a b Nb) as Q. cbn [buildable free_of_references]. rewrite Q. clear Q Ap. generalize dependent (applies E m (a ++ b)). intros m' C. split.
  - rewrite !forallb_app. cbn [forallb fst snd]. rewrite C, Ne. reflexivity.
  - rewrite !forallb_app. cbn [forallb fst snd]. rewrite C. reflexivity.
Qed.
(** So adding such a member to a document without references that can be
    constructed gives a document that can be constructed, at any time. *)
Theorem C54_constructed : forall E id m (a : list (pystr * json)) (key : pystr) v (b : list (pystr * json)) mu d u c,
  applies E m (a ++ b) = Some mu -> e_dialect E mu = Some d -> nameable key = true -> find_class d key = None -> ~ In key bootstrapped ->
  reachable c -> jwf (JObj (a ++ (key, v) :: b)) = true -> buildable E m (JObj (a ++ b)) = true -> free_of_references E m (JObj (a ++ b)) = true ->
  exists N, forall f, N <= f -> exists s c', construct E f id (JObj (a ++ (key, v) :: b)) u m c = (Ok s, c').
Proof.
  intros E id m a key v b mu d u c Ap Di Ne Fc Nb R J B F. destruct (C54_harmless E m a key v b mu d Ap Di Ne Fc Nb) as [HB HF].
  rewrite <- HB in B. rewrite <- HF in F. destruct (C77_plain E id _ u m c R J F) as (N & H). exists N. intros f Hf. specialize (H f Hf). now rewrite B in H.
Qed.
(** A document with no other members at all. *)
Theorem C54_only_unknown : forall E id m doc mu d u c, m = Some mu -> e_dialect E mu = Some d -> reachable c -> jwf (JObj doc) = true ->
  (forall key, In key (keys doc) -> nameable key = true /\ find_class d key = None /\ ~ In key bootstrapped) ->
  exists N, forall f, N <= f -> exists s c', construct E f id (JObj doc) u m c = (Ok s, c').
Proof.
  intros E id m doc mu d u c -> Di R J H.
  assert (G : forall a, (forall key, In key (keys a) -> nameable key = true /\ find_class d key = None /\ ~ In key bootstrapped) ->
    applies E (Some mu) a = Some mu /\ buildable E (Some mu) (JObj a) = true /\ free_of_references E (Some mu) (JObj a) = true).
  { induction a as [|[key v] a IH]; intro K; [repeat split|]. destruct (K key (or_introl eq_refl)) as (K1 & K2 & K3). destruct IH as (A & B & F); [intros; apply K; now right|].
    pose proof (applies_insert E (Some mu) key v [] a K3) as Q. cbn [app] in Q. destruct (C54_harmless E (Some mu) [] key v a mu d A Di K1 K2 K3) as [HB HF]. cbn [app] in HB, HF. rewrite Q, HB, HF. auto. }
  destruct (G doc H) as (_ & B & F). destruct (C77_plain E id _ u (Some mu) c R J F) as (N & X). exists N. intros f Hf. specialize (X f Hf). now rewrite B in X.
Qed.
Example C54_success_case :
  let E := env_of [] [] in let a := [(lit "type", text "string")] in let b := [(lit "not", obj [("x-y", int 1)])] in
  applies E (Some META) (a ++ b) = Some META /\ e_dialect E META = Some dialect_2020_12 /\ find_class dialect_2020_12 (lit "Ref") = None /\ ~ In (lit "Ref") bootstrapped /\
  buildable E (Some META) (JObj (a ++ b)) = true /\ free_of_references E (Some META) (JObj (a ++ b)) = true /\
  jwf (JObj (a ++ (lit "Ref", text "#/nowhere") :: b)) = true.
Proof. cbv zeta. repeat split; try (vm_compute; reflexivity). intros [X|[X|[X|[]]]]; discriminate X. Qed.
Print Assumptions C54_constructed.
Print Assumptions C54_only_unknown.
