(** C69-C72: the caches of a catalog, and what evaluation looks at. *)
From Coq Require Import String List Bool Lia.
From Verif Require Import SchemaCases PropsBuild PropsMeta SchemaLocal JudgeLocal BuildSteps.
Import ListNotations.
Open Scope string_scope.
Open Scope list_scope.
Open Scope nat_scope.

Lemma steps_trans ok a b c : steps ok a b -> steps ok b c -> steps ok a c.
Proof. intros H. induction 1; [exact H|now apply st_construct|now apply st_get|now apply st_leave|now apply st_vocabulary|now apply st_metaschema]. Qed.
Lemma steps_more (ok ok' : pystr -> Prop) a b : (forall id, ok id -> ok' id) -> steps ok a b -> steps ok' a b.
Proof. intros H. induction 1; [apply st_self|apply st_construct; auto|apply st_get; auto|apply st_leave; auto|apply st_vocabulary; auto|apply st_metaschema; auto]. Qed.

(** ** C69 *)

(** Whatever happens in the other caches, with whatever outcome: a cache keeps
    its entries, no schema is added to it, and all schemas stay as they are. *)
Theorem C69_elsewhere : forall id st st', grown st -> elsewhere id st st' ->
  (forall u, cached id u (c_cache (mc_cat st')) = cached id u (c_cache (mc_cat st))) /\
  (forall s, belongs id (mc_cat st') s <-> belongs id (mc_cat st) s) /\
  (forall s, s < length (c_objs (mc_cat st)) -> nth_error (c_objs (mc_cat st')) s = nth_error (c_objs (mc_cat st)) s).
Proof.
  intros id st st' G H. destruct (grown_shut id st G) as [S _]. destruct (elsewhere_same id st st' S H) as ((_ & _ & O) & C & B). auto.
Qed.
Print Assumptions C69_elsewhere.
(** So all schemas that constructing a document makes, including those of
    the documents it loads, get the cache id it was called with. *)
Theorem C69_construct : forall E f id v u m st s, grown st -> reads_json E -> jwf v = true ->
  length (c_objs (mc_cat st)) <= s -> s < length (c_objs (snd (construct E f id v u m (mc_cat st)))) ->
  belongs id (snd (construct E f id v u m (mc_cat st))) s.
Proof.
  intros E f id v u m st s G R J Lo Hi. destruct (nth_error (c_objs (snd (construct E f id v u m (mc_cat st)))) s) as [o|] eqn:Ho; [|apply nth_error_None in Ho; lia].
  exists o. split; [exact Ho|]. destruct (str_eqb_spec (so_cache o) id) as [|N]; [assumption|exfalso].
  destruct (C69_elsewhere (so_cache o) st (upon (construct E f id v u m) st) G) as (_ & B & _); [apply st_construct; [congruence|exact R|exact J|apply st_self]|].
  destruct (proj1 (B s)) as (o' & Ho' & _); [now exists o|]. assert (X : nth_error (c_objs (mc_cat st)) s <> None) by congruence. apply nth_error_Some in X. lia.
Qed.
Print Assumptions C69_construct.
Theorem C69_get : forall E f id u m st s, grown st -> reads_json E ->
  length (c_objs (mc_cat st)) <= s -> s < length (c_objs (snd (get_schema E f id u m (mc_cat st)))) ->
  belongs id (snd (get_schema E f id u m (mc_cat st))) s.
Proof.
  intros E f id u m st s G R Lo Hi. destruct (nth_error (c_objs (snd (get_schema E f id u m (mc_cat st)))) s) as [o|] eqn:Ho; [|apply nth_error_None in Ho; lia].
  exists o. split; [exact Ho|]. destruct (str_eqb_spec (so_cache o) id) as [|N]; [assumption|exfalso].
  destruct (C69_elsewhere (so_cache o) st (upon (get_schema E f id u m) st) G) as (_ & B & _); [apply st_get; [congruence|exact R|apply st_self]|].
  destruct (proj1 (B s)) as (o' & Ho' & _); [now exists o|]. assert (X : nth_error (c_objs (mc_cat st)) s <> None) by congruence. apply nth_error_Some in X. lia.
Qed.
Print Assumptions C69_get.

(** Two documents with the same URI in two caches; the second cannot be
    constructed, and the cache is left. *)
Definition second : pystr := lit "second".
Definition st69 : mcat := upon (construct E52 9 default linked None (Some META)) empty_catalog.
Definition failing : M sid := construct E52 9 second (obj [("$id", text "http://a/root"); ("items", obj [("$ref", text "http://a/other")]); ("not", obj [("$ref", text "#/nope")])]) None (Some META).
Definition st69' : mcat := upon failing st69.
Lemma grown69 : grown st69.
Proof. apply st_construct; [exact I|now apply shelf_reads|reflexivity|apply st_self]. Qed.
Example C69_case :
  grown st69 /\ elsewhere default st69 st69' /\ elsewhere default st69 (left_cache second st69') /\
  (exists e, fst (failing (mc_cat st69)) = Exn e) /\ length (c_objs (mc_cat st69)) = 6 /\ length (c_objs (mc_cat st69')) = 11 /\
  (let c := c_cache (mc_cat st69') in cached default (at_ "http://a/root") c = Some 0 /\ cached second (at_ "http://a/root") c = Some 6 /\
   cached default (at_ "http://a/other") c = Some 4 /\ cached second (at_ "http://a/other") c = Some 9) /\
  map so_cache (c_objs (mc_cat st69')) = repeat default 6 ++ repeat second 5.
Proof.
  assert (N : second <> default) by (vm_compute; discriminate).
  assert (H : elsewhere default st69 st69') by (apply st_construct; [exact N|now apply shelf_reads|reflexivity|apply st_self]).
  split; [apply grown69|]. split; [exact H|]. split; [apply st_leave; [exact N|exact H]|]. split; [eexists; vm_compute; reflexivity|]. vm_compute. repeat split; reflexivity.
Qed.

(** ** C70 *)

(** A metaschema stays what it is, whatever happens outside the cache of the
    metaschemas. *)
Lemma metas_same st st' : elsewhere meta_id st st' -> mc_metas st' = mc_metas st.
Proof. induction 1; auto. congruence. Qed.
Theorem C70_metaschemas_stay : forall st st' u, grown st -> elsewhere meta_id st st' ->
  cached_metaschema st' u = cached_metaschema st u /\ known_dialects st' u = known_dialects st u.
Proof.
  intros st st' u G H. destruct (C69_elsewhere meta_id st st' G H) as (C & _ & O). destruct (grown_shut meta_id st G) as [S _].
  assert (X : cached_metaschema st' u = cached_metaschema st u).
  { unfold cached_metaschema. rewrite C. destruct (cached meta_id u (c_cache (mc_cat st))) as [s|] eqn:D; [|reflexivity].
    unfold has_data. rewrite O by exact (proj2 (proj2 (proj2 S)) _ _ _ D). unfold meta_at. now rewrite (metas_same st st' H). }
  split; [exact X|]. unfold known_dialects. now rewrite X.
Qed.
Print Assumptions C70_metaschemas_stay.
(** So once there, it is returned by every later lookup, and provides the same
    keyword classes to every later construction. *)
Theorem C70_same_metaschema : forall E see f u s st st' st'', grown st -> elsewhere meta_id st st' ->
  cached_metaschema st u <> None -> get_metaschema E see f u st = (Ok s, st'') ->
  get_metaschema E see f u st' = (Ok s, st') /\
  forall key, get_kwclass (match known_dialects st' u with Some d => d | None => [] end) key = get_kwclass (match known_dialects st u with Some d => d | None => [] end) key.
Proof.
  intros E see f u s st st' st'' G H N Hg. destruct (C70_metaschemas_stay st st' u G H) as [C K]. split; [|now rewrite K].
  unfold get_metaschema in *. rewrite C. destruct (cached_metaschema st u) as [r|]; [|congruence]. apply pair_equal_spec in Hg. destruct Hg as [Hr _]. now rewrite Hr.
Qed.
Print Assumptions C70_same_metaschema.

Lemma grown_standard : grown vocabularies.
Proof.
  unfold vocabularies, create_standard. assert (H : grown nothing) by apply st_self. revert H. generalize nothing. induction (standard_vocabularies V2020) as [|nc r IH]; intros st H; [exact H|].
  cbn [fold_left]. apply IH. now apply st_vocabulary.
Qed.
Lemma reads2020 : reads_json E2020. Proof. apply env_docs_reads. vm_compute. reflexivity. Qed.
Lemma grown2020 : grown (snd made2020).
Proof. unfold made2020, create_standard_metaschema. destruct (map _ _); [apply grown_standard|]. apply st_metaschema; [exact I|exact reads2020|apply grown_standard]. Qed.
(** A document that takes the URI of the metaschema, and one that refers to it. *)
Definition user2020 : M sid :=
  construct (env_in E2020 (snd made2020)) 20 default
    (obj [("$schema", std_uri "schema"); ("$id", std_uri "schema"); ("allOf", JArr [obj [("$ref", std_uri "meta/core")]; obj [("type", text "nope")]])]) None None.
Example C70_case :
  let st := snd made2020 in let st' := upon user2020 st in
  grown st /\ elsewhere meta_id st st' /\ fst (user2020 (mc_cat st)) = Ok 16 /\ length (c_objs (mc_cat st')) = 24 /\
  (exists r, cached_metaschema st (at_ "https://json-schema.org/draft/2020-12/schema") = Some (Ok (0, r))) /\
  cached default (at_ "https://json-schema.org/draft/2020-12/schema") (c_cache (mc_cat st')) = Some 16.
Proof.
  cbv zeta. split; [apply grown2020|]. split; [apply st_construct; [vm_compute; discriminate|exact (reads_with E2020 _ reads2020)|reflexivity|apply st_self]|].
  split; [vm_compute; reflexivity|]. split; [vm_compute; reflexivity|]. split; [|vm_compute; reflexivity]. eexists. vm_compute. reflexivity.
Qed.

(** ** C71 *)

(** Evaluation looks at no other schemas than those it can come to by
    subschemas, references and anchors: worlds that have these in common give
    the same result, annotations, errors and all; and they prescribe the same. *)
Theorem C71_evaluation : forall (R : sid -> Prop) W W' fuel s i, closed W R -> same_on R W W' -> R s ->
  evaluate_root W fuel s i = evaluate_root W' fuel s i.
Proof. intros R W W' fuel s i C S Hs. exact (evaluate_root_local R W W' C S fuel s i Hs). Qed.
Print Assumptions C71_evaluation.
Theorem C71_verdict : forall (R : sid -> Prop) W W' s x b, closed W R -> same_on R W W' -> R s ->
  verdict W s x b <-> verdict W' s x b.
Proof. exact verdict_local. Qed.
Print Assumptions C71_verdict.

(** ** C72 *)
Section World.
Variables (lib : urilib) (id : pystr) (W0 : world).
Local Notation see := (cache_world lib id W0).

(** Evaluation never leaves the cache of a schema. *)
Theorem C72_closed : forall st, grown st -> closed (see (mc_cat st)) (belongs id (mc_cat st)).
Proof.
  intros st G. destruct (grown_shut id st G) as [S (T & C & K & U)]. split.
  - intros s t B (kws & key & k & Hs & Hin & D). cbn [w_schema cache_world] in Hs. assert (Hk : keywords_at (c_objs (mc_cat st)) s kws).
    { destruct B as (o & Ho & _). rewrite Ho in Hs. exists o. auto. }
    destruct (K s kws key k B Hk Hin) as [K1 K2]. destruct D; auto.
  - intros s b f t _ _ Ha. cbn [w_anchor cache_world] in Ha. exact (C _ _ Ha).
Qed.
(** So what happens in other caches makes no difference. *)
Lemma elsewhere_view st st' : grown st -> elsewhere id st st' -> same_on (belongs id (mc_cat st)) (see (mc_cat st)) (see (mc_cat st')).
Proof.
  intros G H. destruct (grown_shut id st G) as [S _]. destruct (elsewhere_same id st st' S H) as ((S' & L & O) & C & B).
  split; [|split; [|split; [reflexivity|split; reflexivity]]].
  - intros s (o & Ho & Hc). assert (Ls : s < size (mc_cat st)) by (apply nth_error_Some; congruence). cbn [w_schema w_base cache_world]. rewrite O by exact Ls. split; [reflexivity|].
    f_equal. unfold base_uri. f_equal. symmetry. apply (climb_agree so_uri); [exact (proj1 S)|]. intros i Hi. rewrite O; [reflexivity|unfold size in *; cbn in *; lia].
  - intros s b f _ _. cbn [w_anchor cache_world]. symmetry. apply C.
Qed.
Theorem C72_undisturbed : forall st st' s fuel i x b, grown st -> elsewhere id st st' -> belongs id (mc_cat st) s ->
  evaluate_root (see (mc_cat st')) fuel s i = evaluate_root (see (mc_cat st)) fuel s i /\
  (verdict (see (mc_cat st')) s x b <-> verdict (see (mc_cat st)) s x b).
Proof.
  intros st st' s fuel i x b G H B. pose proof (C72_closed st G) as C. pose proof (elsewhere_view st st' G H) as Sm. split.
  - symmetry. exact (C71_evaluation _ _ _ fuel s i C Sm B).
  - symmetry. exact (C71_verdict _ _ _ s x b C Sm B).
Qed.
End World.
Print Assumptions C72_closed.
Print Assumptions C72_undisturbed.

(** A schema that refers to its own anchors, and a document in another cache
    that takes its URI and the anchor. *)
Definition tree : json :=
  obj [("$id", text "http://a/tree"); ("$dynamicAnchor", text "node"); ("type", text "object"); ("properties", obj [("children", obj [("items", obj [("$dynamicRef", text "#node")])])])].
Definition st72 : mcat := upon (construct E52 9 default tree None (Some META)) empty_catalog.
Definition st72' : mcat := upon (construct E52 9 second (obj [("$id", text "http://a/tree"); ("$dynamicAnchor", text "node"); ("type", text "string")]) None (Some META)) st72.
Definition leaves (x : json) : json := obj [("children", JArr [obj [("children", JArr [])]; obj [("children", JArr [x])]])].
Definition see72 (id : pystr) (st : mcat) : world := cache_world simple id (objs_world []) (mc_cat st).
Example C72_case :
  grown st72 /\ elsewhere default st72 st72' /\ belongs default (mc_cat st72) 0 /\ belongs second (mc_cat st72') 3 /\
  (forall st, In st [st72; st72'] ->
     (exists r, evaluate_root (see72 default st) 30 0 (root (leaves (obj []))) = Ok r /\ r_valid r = true) /\
     exists r, evaluate_root (see72 default st) 30 0 (root (leaves (int 1))) = Ok r /\ r_valid r = false) /\
  w_anchor (see72 default st72') (lit "http://a/tree") (lit "node") = Some 0 /\
  w_anchor (see72 second st72') (lit "http://a/tree") (lit "node") = Some 3.
Proof.
  split; [apply st_construct; [exact I|now apply shelf_reads|reflexivity|apply st_self]|].
  split; [apply st_construct; [vm_compute; discriminate|now apply shelf_reads|reflexivity|apply st_self]|].
  split; [eexists; split; vm_compute; reflexivity|]. split; [eexists; split; vm_compute; reflexivity|]. split.
  - intros st [<-|[<-|[]]]; split; (eexists; split; [vm_compute; reflexivity|]; vm_compute; reflexivity).
  - split; vm_compute; reflexivity.
Qed.
(** C71 with a world in which other schemas are different. *)
Definition hidden (c : cat) : world :=
  let W := cache_world simple default (objs_world []) c in
  mkWorld (fun s => if Nat.ltb s 3 then w_schema W s else SBool false) (w_base W) (w_anchor W) (w_search W) (w_repr W) (w_format W) (w_uri W).
Example C71_case :
  let W := see72 default st72' in let W' := hidden (mc_cat st72') in let R := fun s => s < 3 in
  closed W R /\ same_on R W W' /\ w_schema W 3 <> w_schema W' 3 /\
  (exists r, evaluate_root W' 30 0 (root (leaves (int 1))) = Ok r /\ r_valid r = false).
Proof.
  cbv zeta. split.
  - assert (G : grown st72') by (apply (steps_trans _ empty_catalog st72); [apply C72_case|]; apply (steps_more (fun id' => id' <> default)); [auto|apply C72_case]).
    pose proof (C72_closed simple default (objs_world []) st72' G) as [C1 C2].
    assert (X : forall s, belongs default (mc_cat st72') s <-> s < 3).
    { intro s. assert (Ln : map so_cache (c_objs (mc_cat st72')) = [default; default; default; second]) by (vm_compute; reflexivity). split.
      - intros (o & Ho & Hc). apply (map_nth_error so_cache) in Ho. rewrite Ln, Hc in Ho. destruct s as [|[|[|[|s]]]]; try lia; cbn in Ho; [vm_compute in Ho; discriminate Ho|destruct s; discriminate Ho].
      - intro Hs. destruct (nth_error (c_objs (mc_cat st72')) s) as [o|] eqn:Ho; [|apply nth_error_None in Ho; apply (f_equal (@length _)) in Ln; rewrite map_length in Ln; cbn [length] in Ln; lia].
        exists o. split; [exact Ho|]. apply (map_nth_error so_cache) in Ho. rewrite Ln in Ho. destruct s as [|[|[|s]]]; try lia; cbn [nth_error] in Ho; injection Ho as Ho; symmetry; exact Ho. }
    split; [intros s t Hs H; apply X, (C1 s t); [now apply X|exact H]|intros s b f t Hs Hb Ha; apply X, (C2 s b f t); [now apply X|exact Hb|exact Ha]].
  - split.
    + split; [|split; [reflexivity|split; [reflexivity|split; reflexivity]]]. intros s Hs. split; [|reflexivity]. cbn [w_schema hidden]. apply Nat.ltb_lt in Hs. now rewrite Hs.
    + split; [vm_compute; discriminate|]. eexists. split; [vm_compute; reflexivity|]. vm_compute. reflexivity.
Qed.
