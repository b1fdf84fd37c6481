(** C73: from the document to the verdict, in a catalog with several caches and
    several dialects. *)
From Coq Require Import String List Bool Lia.
From Verif Require Import SchemaCases PropsSchema PropsBuild PropsMeta SchemaLocal JudgeLocal BuildSteps BuildGood PropsWritten PropsCaches.
Import ListNotations.
Open Scope string_scope.
Open Scope list_scope.
Open Scope nat_scope.

Section Mixed.
Variables (lib : urilib) (id : pystr) (W0 : world) (ms : uri -> bool) (d : list stdclass) (avoid : list pystr) (legacy : bool).
Local Notation see c := (cache_world lib id W0 c).
Local Notation own c := (own_world lib id W0 c).

Lemma own_object c s kws : w_schema (own c) s = SObj kws -> belongs id c s /\ keywords_at (c_objs c) s kws.
Proof.
  cbn [w_schema own_world]. destruct (nth_error (c_objs c) s) as [o|] eqn:Ho; [|discriminate]. destruct (str_eqb_spec (so_cache o) id) as [Hc|]; [|discriminate].
  intro D. split; exists o; auto.
Qed.
Lemma own_kws st s kws : dialect legacy d -> written_in id ms d avoid st -> w_schema (own (mc_cat st)) s = SObj kws -> good_kws d avoid always kws.
Proof.
  intros Hd Hw H. destruct (own_object _ _ _ H) as [B K]. destruct (written_in_inv id ms d avoid (dialect_boot _ _ Hd) st Hw) as [_ [_ [F _]]]. exact (F s kws B K).
Qed.
(** The schemas of a cache are as evaluation expects them when the documents
    of this cache are written in one dialect. *)
Theorem C73_good_world : forall st, dialect legacy d -> written_in id ms d avoid st -> good_world d (own (mc_cat st)).
Proof.
  intros st Hd Hw s kws H. destruct (own_kws st s kws Hd Hw H) as (N & G & D). split; [exact N|]. intros key k Hk. destruct (G _ _ Hk) as (G1 & G2 & _).
  split; [exact G1|]. split; [exact G2|]. intros n Hn Hi. exact (D _ _ _ Hk Hn Hi).
Qed.

(** Evaluation does not see what is in the other caches. *)
Lemma own_closed c : shut id c -> closed (see c) (belongs id c) /\ same_on (belongs id c) (see c) (own c).
Proof.
  intros (T & C & K & U). split; [split|].
  - intros s t B (kws & key & k & Hs & Hin & D). cbn [w_schema cache_world] in Hs. assert (Hk : keywords_at (c_objs c) s kws).
    { destruct B as (o & Ho & _). rewrite Ho in Hs. exists o. auto. }
    destruct (K s kws key k B Hk Hin) as [K1 K2]. destruct D; auto.
  - intros s b f t _ _ Ha. cbn [w_anchor cache_world] in Ha. exact (C _ _ Ha).
  - split; [|split; [reflexivity|split; [reflexivity|split; reflexivity]]].
    intros s (o & Ho & Hc). split; [|reflexivity]. cbn [w_schema cache_world own_world]. rewrite Ho. now destruct (str_eqb_spec (so_cache o) id).
Qed.
Theorem C73_own : forall st s fuel i x b, dialect legacy d -> written_in id ms d avoid st -> belongs id (mc_cat st) s ->
  evaluate_root (see (mc_cat st)) fuel s i = evaluate_root (own (mc_cat st)) fuel s i /\
  (verdict (see (mc_cat st)) s x b <-> verdict (own (mc_cat st)) s x b).
Proof.
  intros st s fuel i x b Hd Hw B. destruct (written_in_inv id ms d avoid (dialect_boot _ _ Hd) st Hw) as [_ [Sh _]]. destruct (own_closed _ Sh) as [C S]. split.
  - exact (C71_evaluation _ _ _ fuel s i C S B).
  - exact (C71_verdict _ _ _ s x b C S B).
Qed.

(** So evaluating a schema of this cache gives what the specification
    prescribes, whatever the dialects of the other caches. *)
Theorem C73_verdict : forall st s fuel x r, dialect legacy d -> written_in id ms d avoid st -> belongs id (mc_cat st) s ->
  no_unevaluated (own (mc_cat st)) \/ no_misjudged (own (mc_cat st)) -> plain_dynamics (own (mc_cat st)) ->
  jwf x = true -> evaluate_root (see (mc_cat st)) fuel s (root x) = Ok r -> verdict (see (mc_cat st)) s x (r_valid r).
Proof.
  intros st s fuel x r Hd Hw B Hu Hp Jx Ev. destruct (C73_own st s fuel (root x) x (r_valid r) Hd Hw B) as [E V]. rewrite E in Ev. apply V.
  exact (C27_agrees_partial _ d legacy fuel s (root x) r Hd (C73_good_world st Hd Hw) Hu Hp Jx Ev).
Qed.

Lemma own_unused st k : dialect legacy d -> written_in id ms d avoid st -> In (std_key k) avoid -> ~ uses (own (mc_cat st)) k.
Proof.
  intros Hd Hw Ha (s & kws & key & kw & H & Hk & Kc). destruct (own_kws st s kws Hd Hw H) as (_ & G & _). destruct (G _ _ Hk) as (_ & G2 & G3 & _).
  rewrite Kc in G2. unfold cls in G2. destruct (find_class d key) as [c0|] eqn:F; [|discriminate G2]. injection G2 as <-. apply find_class_key in F. subst key.
  apply mem_str_In in Ha. congruence.
Qed.
Lemma own_outside st k : dialect legacy d -> written_in id ms d avoid st -> ~ In k d -> ~ uses (own (mc_cat st)) k.
Proof.
  intros Hd Hw Ha (s & kws & key & kw & H & Hk & Kc). destruct (own_kws st s kws Hd Hw H) as (_ & G & _). destruct (G _ _ Hk) as (_ & G2 & G3 & _).
  rewrite Kc in G2. unfold cls in G2. destruct (find_class d key) as [c0|] eqn:F; [|discriminate G2]. injection G2 as <-. apply Ha. exact (find_class_In _ _ _ F).
Qed.
(** Conditions on the keywords used in the cache that are enough. *)
Theorem C73_avoiding : forall st s fuel x r, dialect legacy d -> plain_enough legacy avoid -> statically_enough legacy avoid ->
  written_in id ms d avoid st -> belongs id (mc_cat st) s ->
  jwf x = true -> evaluate_root (see (mc_cat st)) fuel s (root x) = Ok r -> verdict (see (mc_cat st)) s x (r_valid r).
Proof.
  intros st s fuel x r Hd Hp Hq Hw B Jx Ev. apply (C73_verdict st s fuel x r Hd Hw B); [| |exact Jx|exact Ev].
  - pose proof (fun k => own_unused st k Hd Hw) as U. destruct Hp as [[H1 H2]|[H1 H2]].
    + left. repeat split; apply U; assumption.
    + right. split; [apply U; exact H1|]. intros t kws key k t' b Hk Hin Kc _ _. assert (X : uses (own (mc_cat st)) KItems2019) by (exists t, kws, key, k; auto).
      pose proof (own_outside st KItems2019 Hd Hw) as O. destruct legacy; [exact (U KItems2019 H2 X)|].
      apply O; [|exact X]. destruct Hd as [->| ->]; vm_compute; intuition discriminate.
  - intros t kws key k Hk Hin Kd. destruct (own_kws st t kws Hd Hw Hk) as (_ & G & _). pose proof (proj1 (proj2 (proj2 (proj2 (G _ _ Hin)))) Kd) as Kc. exfalso.
    assert (X : uses (own (mc_cat st)) KDynamicRef) by (exists t, kws, key, k; auto).
    pose proof (own_unused st KDynamicRef Hd Hw) as U. pose proof (own_outside st KDynamicRef Hd Hw) as O. destruct legacy.
    + apply O; [|exact X]. rewrite Hd. vm_compute. intuition discriminate.
    + exact (U Hq X).
Qed.
(** In particular for a document just constructed; the schema that was made is
    that of the document. *)
Theorem C73_documents : forall E f v u m st s c' fuel x r, dialect legacy d -> plain_enough legacy avoid -> statically_enough legacy avoid ->
  written_in id ms d avoid st -> speaks_in E ms d avoid -> jwf v = true -> proper_with d (declares (e_lib E) ms avoid) v = true ->
  (forall m', m = Some m' -> ms m' = true) -> construct E f id v u m (mc_cat st) = (Ok s, c') ->
  jwf x = true -> evaluate_root (see c') fuel s (root x) = Ok r ->
  verdict (see c') s x (r_valid r) /\
  made E (c_objs c') m None (match u, v with None, JObj _ => Some (e_uuid E (length (c_objs (mc_cat st)))) | _, _ => u end) v s None.
Proof.
  intros E f v u m st s c' fuel x r Hd Hp Hq Hw Sp Jv Pv Hm H Jx Ev. pose proof (dialect_boot _ _ Hd) as Boot.
  destruct (written_in_inv id ms d avoid Boot st Hw) as [Sa Iv]. assert (R : reads_json E) by (intros w doc L; exact (proj1 (proj2 Sp w doc L))).
  split; [|exact (proj1 (proj2 (proj2 (proj2 (construct_ok E R f id v u m _ s c' Sa Jv H)))))].
  assert (Hw' : written_in id ms d avoid (upon (construct E f id v u m) st)) by now apply wi_construct.
  replace c' with (mc_cat (upon (construct E f id v u m) st)) in * by (cbn; now rewrite H).
  apply (C73_avoiding _ s fuel x r Hd Hp Hq Hw'); [|exact Jx|exact Ev].
  destruct (run_construct id ms d avoid always Boot E _ Sp (no_more _ _ _) f v u m Jv Pv Hm (mc_cat st) Iv I) as (_ & _ & Hs). cbn [mc_cat upon] in *. rewrite H in *. exact (Hs s eq_refl).
Qed.
End Mixed.
Print Assumptions C73_good_world.
Print Assumptions C73_own.
Print Assumptions C73_verdict.
Print Assumptions C73_avoiding.
Print Assumptions C73_documents.

(** A catalog with the metaschema of 2020-12; a document of 2019-09 in another
    cache, which has the URI of one of the documents that are used here. *)
Lemma steps_standard (ok : pystr -> Prop) : steps ok empty_catalog vocabularies.
Proof.
  unfold vocabularies, create_standard. assert (H : steps ok empty_catalog nothing) by apply st_self. revert H. generalize nothing. induction (standard_vocabularies V2020) as [|nc r IH]; intros st H; [exact H|].
  cbn [fold_left]. apply IH. now apply st_vocabulary.
Qed.
Lemma steps2020 (ok : pystr -> Prop) : ok meta_id -> steps ok empty_catalog (snd made2020).
Proof. intro H. unfold made2020, create_standard_metaschema. destruct (map _ _); [apply steps_standard|]. apply st_metaschema; [exact H|exact reads2020|apply steps_standard]. Qed.
Definition older : uri := at_ "http://older".
Definition E2019 : env :=
  mkEnv secure (shelf []) [] (fun _ => None) (fun u => if uri_eqb u older then Some dialect_2019_09 else None) (fun _ => true) (fun n => mkUri (lit "http:uuid" ++ str_of_nat n) None).
Definition st73 : mcat :=
  upon (construct E2019 9 second (obj [("$schema", text "http://older"); ("$id", text "http://a/list"); ("items", JArr [JBool true; obj [("$recursiveRef", text "#")]])]) None None) (snd made2020).
Definition listdoc : json :=
  obj [("$schema", std_uri "schema"); ("$id", text "http://a/list"); ("prefixItems", JArr [obj [("type", text "string")]]); ("items", obj [("$ref", text "#")])].
Definition E73 : env := env_in (env_docs [("http://a/list", listdoc)]) st73.
Definition only2020 (u : uri) : bool := uri_eqb u (mkUri (draft V2020 "schema") None).
Definition userdoc : json :=
  obj [("$schema", std_uri "schema"); ("$id", text "http://a/user"); ("properties", obj [("list", obj [("$ref", text "http://a/list")]); ("user", obj [("not", obj [("$ref", text "#")])])])].
Lemma docs_speak l ms d avoid st : (forall u d', ms u = true -> known_dialects st u = Some d' -> d' = d) ->
  forallb (fun kv => jwf (snd kv) && proper_with d (declares secure ms avoid) (snd kv)) l = true -> speaks_in (env_in (env_docs l) st) ms d avoid.
Proof.
  intros K F. split; [exact K|].
  intros u doc H. unfold load_json in H. cbn [e_lib env_in with_dialects env_docs] in H. destruct (or_catalog_error _) as [[]| |]; [|discriminate H|discriminate H]. cbn [bind e_sources env_in with_dialects env_docs shelf filter fst prefixb] in H.
  cbn [sort_longest insert_longest length skipn] in H.
  destruct (dget (uri_str u) (map (fun kv => (lit (fst kv), snd kv)) l)) as [v|] eqn:D; [|discriminate H]. injection H as <-.
  apply dget_In in D. apply in_map_iff in D. destruct D as ([k v'] & X & Hin). apply pair_equal_spec in X. destruct X as [_ <-]. rewrite forallb_forall in F. apply andb_true_iff. exact (F _ Hin).
Qed.
Example C73_case :
  let r := construct E73 20 default userdoc None None (mc_cat st73) in
  let accepted x := match evaluate_root (cache_world secure default (objs_world []) (snd r)) 60 19 (root x) with Ok n => Some (r_valid n) | _ => None end in
  dialect false dialect_2020_12 /\ plain_enough false avoided /\ statically_enough false avoided /\
  written_in default only2020 dialect_2020_12 avoided st73 /\ speaks_in E73 only2020 dialect_2020_12 avoided /\
  jwf userdoc = true /\ proper_with dialect_2020_12 (declares (e_lib E73) only2020 avoided) userdoc = true /\
  length (c_objs (mc_cat st73)) = 19 /\ fst r = Ok 19 /\ length (c_objs (snd r)) = 26 /\
  cached second (at_ "http://a/list") (c_cache (snd r)) = Some 16 /\ cached default (at_ "http://a/list") (c_cache (snd r)) = Some 23 /\
  accepted (obj [("list", JArr [text "a"; JArr [text "b"; JArr []]])]) = Some true /\
  accepted (obj [("list", JArr [text "a"; JArr [int 1]])]) = Some false /\
  accepted (obj [("user", obj [])]) = Some false /\
  accepted (obj [("user", obj [("list", JArr [JNull])])]) = Some true.
Proof.
  cbv zeta. split; [now left|]. split; [left; cbn; tauto|]. split; [cbn; tauto|]. split.
  { apply (wi_elsewhere default only2020 dialect_2020_12 avoided empty_catalog); [apply wi_empty|]. apply st_construct; [vm_compute; discriminate| |reflexivity|apply steps2020; vm_compute; discriminate].
    intros u doc H. apply (env_docs_reads [] eq_refl u doc). exact H. }
  split. { apply docs_speak; [|vm_compute; reflexivity]. intros u d' Hu. unfold only2020 in Hu. destruct (uri_eqb_spec u (mkUri (draft V2020 "schema") None)) as [->|]; [|discriminate Hu].
    assert (K : known_dialects st73 (mkUri (draft V2020 "schema") None) = Some dialect_2020_12) by (vm_compute; reflexivity). rewrite K. now intros [= <-]. }
  split; [reflexivity|]. split; [vm_compute; reflexivity|]. vm_compute. repeat split.
Qed.
