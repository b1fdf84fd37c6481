(** C101: metaschemas that are loaded while a schema is constructed. *)
From Coq Require Import String List Bool Lia.
From Verif Require Import SchemaCases PropsBuild MetaFacts PropsMeta CatalogFacts BuildFrame SpecLate LateFacts LateKeeps.
Import ListNotations.
Open Scope string_scope.
Open Scope list_scope.
Open Scope nat_scope.

(** ** States that arise. *)
Lemma onward_start st apart : tidy (c_cache (mc_cat st)) -> onward st apart (mc_cat st).
Proof.
  intro T. constructor; auto. intros i o Hi Ho. assert (i < length (c_objs (mc_cat st))) by (apply nth_error_Some; congruence). lia.
Qed.
(** A name for a cache that is neither of those given. *)
Definition another (id : pystr) : pystr := 0%N :: id.
Lemma another_apart id : another id <> [] /\ another id <> meta_id /\ id <> another id.
Proof.
  split; [discriminate|]. split; [intro H; vm_compute in H; discriminate H|]. intro H. apply (f_equal (@List.length _)) in H. cbn in H. lia.
Qed.
Lemma stays_tidy {A} st apart (x : ML A) Q : stays st apart x Q -> tidy (c_cache (mc_cat st)) -> tidy (c_cache (mc_cat (snd (x st)))).
Proof. intros H T. exact (on_tidy _ _ _ (proj1 (H st (onward_start st apart T)))). Qed.
Section Whole.
Variable E : env.
Variable see : cat -> world.
Variable st : mcat.
Variable apart : pystr.
Hypothesis A1 : apart <> [].
Hypothesis A2 : apart <> meta_id.
Lemma s_constructL f id v u m : id <> apart -> stays st apart (constructL E see f id v u m) (fun _ => True).
Proof.
  intro H. apply s_weaken with (Q := fun s => length (c_objs (mc_cat st)) <= s); [|auto]. apply s_construct; auto; [intro; now apply s_consult|]. intros s Hs.
  apply s_resolve; auto. intro; now apply s_consult.
Qed.
Lemma s_getL f id u m : id <> apart -> stays st apart (get_schemaL E see f id u m) (fun _ => True).
Proof. intro H. apply s_get; auto; [intro; now apply s_consult|]. intros s Hs. apply s_resolve; auto. intro; now apply s_consult. Qed.
Lemma s_makeL f u core defaults : stays st apart (make_metaschemaL E see f u core defaults) (fun _ => True).
Proof. apply s_create; auto. intro; now apply s_consult. Qed.
Lemma s_metaL f u : stays st apart (get_metaschemaL E see f u) (fun _ => True).
Proof. apply s_bind with (Q := fun _ => True); [now apply s_find|]. intros. now apply s_ret. Qed.
Lemma a_constructL f id v u m : advances (constructL E see f id v u m).
Proof. apply a_construct; [intro; apply a_consult|]. intro. apply a_resolve. intro; apply a_consult. Qed.
Lemma a_getL f id u m : advances (get_schemaL E see f id u m).
Proof. apply a_get; [intro; apply a_consult|]. intro. apply a_resolve. intro; apply a_consult. Qed.
Lemma a_makeL f u core defaults : advances (make_metaschemaL E see f u core defaults).
Proof. apply a_create. intro; apply a_consult. Qed.
Lemma a_metaL f u : advances (get_metaschemaL E see f u).
Proof. apply a_bind; [apply a_find|]. intro. apply a_ret. Qed.
End Whole.
Lemma arises_tidy see st : arises see st -> tidy (c_cache (mc_cat st)).
Proof.
  induction 1 as [|u cs st H IH|E f u core ds st H IH|E f u st H IH|E f id v u m st H IH|E f id u m st H IH|id st H IH].
  - repeat constructor.
  - exact IH.
  - destruct (another_apart []) as (B1 & B2 & B3). exact (stays_tidy _ _ _ _ (s_makeL E see st _ B1 B2 f u core ds) IH).
  - destruct (another_apart []) as (B1 & B2 & B3). exact (stays_tidy _ _ _ _ (s_metaL E see st _ B1 B2 f u) IH).
  - destruct (another_apart id) as (B1 & B2 & B3). exact (stays_tidy _ _ _ _ (s_constructL E see st _ B1 B2 f id v u m B3) IH).
  - destruct (another_apart id) as (B1 & B2 & B3). exact (stays_tidy _ _ _ _ (s_getL E see st _ B1 B2 f id u m B3) IH).
  - now apply tidy_leave.
Qed.

(** ** C101 *)

(** Where the table of the metaschemas that are cached suffices, construction
    and lookup do what they do with that table: the same result or exception,
    the same schemas and caches, and no metaschema is loaded. *)
Theorem C101_known : forall E see f st id, arises see st -> id <> meta_id ->
  (forall v u m r c, construct (env_in E st) f id v u m (mc_cat st) = (r, c) -> r <> Exn ECatalog ->
     constructL E see f id v u m st = (r, mkMcat c (mc_vocabs st) (mc_metas st))) /\
  (forall u m r c, get_schema (env_in E st) f id u m (mc_cat st) = (r, c) -> r <> Exn ECatalog ->
     get_schemaL E see f id u m st = (r, mkMcat c (mc_vocabs st) (mc_metas st))).
Proof.
  intros E see f st id Ha Hid. pose proof (onward_start st meta_id (arises_tidy see st Ha)) as On.
  assert (Emb : emb st (mc_cat st) = st) by now destruct st.
  assert (M0 : meta_id <> []) by (vm_compute; discriminate).
  assert (K : forall c u d, onward st meta_id c -> known_dialects st u = Some d -> consult_late E see f u (emb st c) = (Ok d, emb st c)) by (intros; now apply find_known).
  assert (Rs : forall s, length (c_objs (mc_cat st)) <= s -> matches st meta_id (resolve_references (env_in E st) f s) (resolve_referencesL E (consult_late E see f) f s) (fun _ => True)) by (now apply m_resolve).
  split.
  - intros v u m r c H Hr. pose proof (m_construct E st meta_id (consult_late E see f) K _ _ Rs id v u m Hid (mc_cat st) On) as (_ & _ & X). rewrite Emb in X. unfold construct in H. rewrite H in X. cbn [fst snd] in X. exact (X Hr).
  - intros u m r c H Hr. pose proof (m_get E st meta_id (consult_late E see f) K _ _ Rs id u m Hid (mc_cat st) On) as (_ & _ & X). rewrite Emb in X. unfold get_schema in H. rewrite H in X. cbn [fst snd] in X. exact (X Hr).
Qed.
Print Assumptions C101_known.

(** However many metaschemas are loaded on the way, and whether or not it
    succeeds, it leaves alone the vocabularies, the schemas and metaschemas that
    were there and every cache but its own and that of the metaschemas. *)
Lemma prefix_of {A} (l l' : list A) : (forall i, i < List.length l -> nth_error l' i = nth_error l i) -> List.length l <= List.length l' -> exists r, l' = l ++ r.
Proof.
  revert l'. induction l as [|x l IH]; intros l' H L; [now exists l'|]. destruct l' as [|y l']; [cbn in L; lia|].
  pose proof (H 0 ltac:(cbn; lia)) as H0. cbn in H0. injection H0 as ->. destruct (IH l') as [r ->]; [|cbn in L; lia|now exists r]. intros i Hi. apply (H (S i)). cbn. lia.
Qed.
Lemma untouched_of {A} st apart (x : ML A) Q : tidy (c_cache (mc_cat st)) -> stays st apart x Q -> advances x -> untouched st (snd (x st)) /\ same_cache apart st (snd (x st)).
Proof.
  intros T S Ad. destruct (S st (onward_start st apart T)) as [[O1 O2 O3 O4 O5] _]. destruct (Ad st) as [V [L _] Mt]. split; [|exact O5]. split; [exact V|]. split; [|exact Mt].
  now apply prefix_of.
Qed.
Theorem C101_keeps : forall E see f st, arises see st ->
  (forall id v u m, untouched st (snd (constructL E see f id v u m st)) /\
     forall id', id' <> id -> id' <> meta_id -> id' <> [] -> same_cache id' st (snd (constructL E see f id v u m st))) /\
  (forall id u m, untouched st (snd (get_schemaL E see f id u m st)) /\
     forall id', id' <> id -> id' <> meta_id -> id' <> [] -> same_cache id' st (snd (get_schemaL E see f id u m st))) /\
  (forall u, untouched st (snd (get_metaschemaL E see f u st)) /\
     forall id', id' <> meta_id -> id' <> [] -> same_cache id' st (snd (get_metaschemaL E see f u st))).
Proof.
  intros E see f st Ha. pose proof (arises_tidy see st Ha) as T. split; [|split].
  - intros id v u m. split.
    + destruct (another_apart id) as (B1 & B2 & B3). exact (proj1 (untouched_of _ _ _ _ T (s_constructL E see st _ B1 B2 f id v u m B3) (a_constructL E see f id v u m))).
    + intros id' N1 N2 N3. exact (proj2 (untouched_of _ _ _ _ T (s_constructL E see st _ N3 N2 f id v u m (not_eq_sym N1)) (a_constructL E see f id v u m))).
  - intros id u m. split.
    + destruct (another_apart id) as (B1 & B2 & B3). exact (proj1 (untouched_of _ _ _ _ T (s_getL E see st _ B1 B2 f id u m B3) (a_getL E see f id u m))).
    + intros id' N1 N2 N3. exact (proj2 (untouched_of _ _ _ _ T (s_getL E see st _ N3 N2 f id u m (not_eq_sym N1)) (a_getL E see f id u m))).
  - intros u. split.
    + destruct (another_apart []) as (B1 & B2 & B3). exact (proj1 (untouched_of _ _ _ _ T (s_metaL E see st _ B1 B2 f u) (a_metaL E see f u))).
    + intros id' N2 N3. exact (proj2 (untouched_of _ _ _ _ T (s_metaL E see st _ N3 N2 f u) (a_metaL E see f u))).
Qed.
Print Assumptions C101_keeps.

(** A metaschema that is loaded because a schema needs it provides what its
    $vocabulary lists; without $vocabulary none is made. *)
Lemma listed_follows E st l vc d dc dv : core_vocabulary E (mc_vocabs st) (Some (JObj l)) dc = Ok vc -> vocabulary_keyword E (mc_vocabs st) vc (JObj l) = (d, None) ->
  follows_list E st l (mkMeta (v_uri vc) (complete_classes true vc dv d)).
Proof.
  intros Cv Vk. cbn [vocabulary_keyword] in Vk. destruct (is_true (dget (uri_str (v_uri vc)) l)) eqn:Tr; [|discriminate Vk].
  assert (Tl : dget (uri_str (v_uri vc)) l = Some (JBool true)). { destruct (dget (uri_str (v_uri vc)) l) as [[|[|]| | | |]|]; try discriminate Tr. reflexivity. }
  unfold core_vocabulary in Cv. destruct (truthy (KJ (JObj l))) eqn:Ty.
  2:{ destruct l; [|discriminate Ty]. discriminate Tl. }
  cbn [possible_cores bind] in Cv. destruct (filter core_like (keys l)) as [|t [|t2 r]] eqn:F; try discriminate Cv. destruct (filter_one _ _ _ F) as (F1 & F2 & F3).
  rewrite get_known in Cv. destruct (find _ (mc_vocabs st)) as [vc'|] eqn:Kn; [|discriminate Cv]. injection Cv as ->.
  exists t, vc. split; [exact F1|]. split; [exact F2|]. split; [exact F3|]. split; [exact Kn|]. split; [now apply dget_In|]. split; [reflexivity|]. split; [exact (gather_known E st l [] d Vk)|].
  intro key. cbn [m_classes]. unfold complete_classes. cbv zeta iota. rewrite update_offers. destruct (offered (v_classes vc) key); [reflexivity|]. rewrite (gather_offers E st l [] d key Vk). now destruct (last_offer (known_among E st (keys l)) key).
Qed.
Theorem C101_listed : forall E see f u st s m st', cached_metaschema st u = None -> find_metaschema E see f u st = (Ok (s, m), st') ->
  exists ms l, load_json (e_lib E) (e_sources E) u = Ok (JObj ms) /\ dget (lit "$vocabulary") ms = Some (JObj l) /\ follows_list E st l m.
Proof.
  intros E see f u st s m st' Nc H. destruct f as [|f]; cbn [find_metaschema] in H; rewrite Nc in H; [discriminate H|].
  apply bindL_ok in H. destruct H as (s1 & st1 & Cr & H). destruct (meta_at st1 s1) as [m1|] eqn:Mt; [|discriminate H]. injection H as -> -> ->.
  destruct (create_ok_late E (fun w => mdo p <- find_metaschema E see f w; retL (provided (snd p))) ltac:(intro w; apply a_bind; [apply a_find|intro; apply a_ret]) see f u None [] st s st' Cr) as (ms & vc & d & dc & dv & Ld & Dc & Dv & Cv & Vk & Mt').
  rewrite Mt in Mt'. apply (f_equal (fun o => match o with Some x => x | None => m end)) in Mt'. cbv beta iota in Mt'. injection Dc as <-. injection Dv as <-. exists ms. destruct (dget (lit "$vocabulary") ms) as [x|] eqn:Hv.
  - destruct x as [| | | | |l]; try (cbn [vocabulary_keyword] in Vk; discriminate Vk). exists l. split; [exact Ld|]. split; [reflexivity|]. rewrite Mt'. now apply listed_follows with (dc := None).
  - cbn [core_vocabulary] in Cv. discriminate Cv.
Qed.
Print Assumptions C101_listed.

Lemma set_nth_last {A} (l : list A) x y : set_nth (List.length l) y (l ++ [x]) = l ++ [y].
Proof. induction l as [|z l IH]; [reflexivity|]. cbn. now rewrite IH. Qed.
(** If the metaschema that a schema names cannot be loaded, construction raises
    what loading raised, and the schema stays behind in the cache with $schema as
    its only keyword. *)
Theorem C101_failing : forall E see f id ms u m st t key w e st', dget (lit "$schema") ms = Some (JStr t) -> uri_validate (e_lib E) true true true true (ul_parse (e_lib E) t) = Ok w ->
  dmem (lit "$vocabulary") ms = false -> In key (keys ms) -> key <> lit "$schema" ->
  let c := mc_cat st in let s := length (c_objs c) in
  let left := mkObj (Some u) (Some (ul_parse (e_lib E) t)) None id (SObj [(lit "$schema", mkKw (Std KSchema_) (KJ (JStr t)) None false [] None)]) in
  find_metaschema E see f (ul_parse (e_lib E) t) (mkMcat (mkCat (c_objs c ++ [left]) (add_schema id u s (c_cache c))) (mc_vocabs st) (mc_metas st)) = (Exn e, st') ->
  constructL E see f id (JObj ms) (Some u) m st = (Exn e, st').
Proof.
  intros E see f id ms u m st t key w e st' Hs Hw Hv Hk Nk c s left H. unfold constructL, construct_withL. rewrite buildL_object_eq. set (l := map _ ms).
  assert (Dl : forall k, dget k l = option_map (member_ofL E (consult_late E see f) id) (dget k ms)).
  { intro k. unfold l. clear. induction ms as [|[k' v] ms IH]; [reflexivity|]. cbn [map fst snd dget]. now destruct (str_eqb k k'). }
  assert (Kl : keys l = keys ms) by (unfold l, keys; rewrite map_map; reflexivity).
  unfold on_cat at 1. unfold bindL at 1. unfold bindL at 1. rewrite new_schema_eq. fold c s. set (st1 := with_cat _ st).
  assert (Ho : nth_error (c_objs (mc_cat st1)) s = Some (mkObj (Some u) m None id (SObj []))). { unfold st1, s. cbn [mc_cat with_cat c_objs]. now rewrite nth_error_app2, Nat.sub_diag by lia. }
  set (st2 := mkMcat (mkCat (c_objs c ++ [left]) (add_schema id u s (c_cache c))) (mc_vocabs st) (mc_metas st)) in *.
  assert (Set_ : add_keywordL E s l (lit "$schema") (Std KSchema_) st1 = (Ok tt, st2)).
  { unfold add_keywordL. rewrite Dl, Hs. cbn [option_map]. cbn [keyword_jsonL mixins]. unfold bindL, retL. cbn [ml_value member_ofL].
    assert (R : rest_of_keyword E s (Std KSchema_) (JStr t) (KJ (JStr t)) (mc_cat st1) =
      (Ok (mkKw (Std KSchema_) (KJ (JStr t)) None false [] None), put_obj s (with_meta (Some (ul_parse (e_lib E) t)) (mkObj (Some u) m None id (SObj []))) (mc_cat st1))).
    { unfold rest_of_keyword, init_schema, bindM, lift, parse_uri. rewrite Hw. unfold ret, update, modify. now rewrite Ho. }
    unfold on_cat at 1. rewrite R. unfold on_cat, keep_keyword, update, modify. cbn [with_cat mc_cat].
    cbn [put_obj c_objs]. rewrite nth_set_nth_same by (apply nth_error_Some; congruence).
    unfold st2, st1, with_cat. cbn [mc_cat c_objs mc_vocabs mc_metas c_cache put_obj with_meta with_data so_data so_uri so_meta so_up so_cache dset].
    unfold put_obj, s. cbn [c_objs c_cache]. now rewrite !set_nth_last. }
  assert (Ms : metaschemaL (consult_late E see f) s st2 = (Exn e, st')).
  { unfold metaschemaL, on_cat, read, bindL. assert (X : metaschema_uri (c_objs (mc_cat st2)) s = Some (ul_parse (e_lib E) t)).
    { unfold metaschema_uri. cbn [climb]. unfold st2, s. cbn [mc_cat c_objs]. rewrite nth_error_app2, Nat.sub_diag by lia. reflexivity. }
    unfold with_cat. cbn [mc_cat]. rewrite X. unfold consult_late, bindL. change (mkMcat (mc_cat st2) (mc_vocabs st2) (mc_metas st2)) with st2. now rewrite H. }
  assert (B : build_objectL E (consult_late E see f) s l st1 = (Exn e, st')).
  { unfold build_objectL. unfold on_cat at 1, read at 1, bindL at 1. cbn [mc_cat]. rewrite Ho. unfold bindL at 1, retL at 1. unfold bindL at 1.
    change (with_cat (mc_cat st1) st1) with st1. unfold bootstrapL. unfold bindL at 1. rewrite Set_. unfold bindL at 1. unfold add_keywordL at 1. rewrite Dl.
    unfold dmem in Hv. destruct (dget (lit "$vocabulary") ms) eqn:Dv; [discriminate Hv|]. cbn [option_map]. unfold retL at 1.
    destruct (dmem (lit "$id") l) eqn:Di; [unfold bindL at 1; now rewrite Ms|]. unfold retL at 1.
    rewrite Kl. assert (X : exists k r, filter (fun k => negb (mem_str k bootstrapped)) (keys ms) = k :: r).
    { assert (Y : In key (filter (fun k => negb (mem_str k bootstrapped)) (keys ms))).
      { apply filter_In. split; [exact Hk|]. apply negb_true_iff. destruct (mem_str key bootstrapped) eqn:Y; [|reflexivity]. exfalso. apply mem_str_In in Y.
        assert (Z : forall k, In k (keys ms) -> dmem k ms = true) by (intros; now apply dmem_In).
        assert (W : dmem (lit "$id") ms = false). { unfold dmem in *. rewrite Dl in Di. now destruct (dget (lit "$id") ms). }
        destruct Y as [Y|[Y|[Y|[]]]]; subst key; [now apply Nk| |]; specialize (Z _ Hk); [unfold dmem in Z; rewrite Dv in Z; discriminate Z|congruence]. }
      destruct (filter _ (keys ms)) as [|k r]; [destruct Y|now exists k, r]. }
    destruct X as (k & r & ->). cbn [classesL]. unfold bindL at 1. unfold bindL at 1. now rewrite Ms. }
  unfold bindL. now rewrite B.
Qed.
Print Assumptions C101_failing.

(** A schema whose metaschema is loaded when it is constructed, and whose
    metaschema has one that is loaded as well; the class of minItems is not
    among those listed.  Making a metaschema that needs no other comes to what it does in
    Meta.v. *)
Definition custom : json :=
  obj [("$schema", std_uri "schema"); ("$id", text "http://custom"); ("$vocabulary", JObj [(core_name, JBool true); (draft V2020 "vocab/validation", JBool true)]); ("type", text "object")].
Definition other : json :=
  obj [("$schema", text "http://custom"); ("$id", text "http://another"); ("$vocabulary", JObj [(core_name, JBool true); (draft V2020 "vocab/applicator", JBool true)]); ("type", text "object")].
Definition broken : json := obj [("$schema", text "http://nowhere"); ("$vocabulary", JObj [(core_name, JBool true)]); ("type", text "object")].
Definition Elate : env := env_docs (("http://custom", custom) :: ("http://other", other) :: ("http://broken", broken) :: docs2020).
Definition before : mcat := snd (make_metaschemaL Elate view 60 (at_ "https://json-schema.org/draft/2020-12/schema") None [] vocabularies).
Definition wanting : list (pystr * json) :=
  [(lit "$schema", text "http://other"); (lit "$id", text "http://s"); (lit "minItems", int 3); (lit "allOf", JArr [obj [("type", text "string")]])].
Lemma arises_vocabularies v : arises view (create_standard (fun t => mkUri t None) v nothing).
Proof.
  unfold create_standard. assert (H : arises view nothing) by constructor. revert H. generalize nothing. induction (standard_vocabularies v) as [|nc r IH]; intros st H; [exact H|].
  cbn [fold_left]. apply IH. now constructor.
Qed.
Definition class_under (c : cat) (s : sid) (key : pystr) : option kwclass :=
  match nth_error (c_objs c) s with Some o => match so_data o with SObj kws => option_map kw_class (dget key kws) | _ => None end | None => None end.
Example C101_case :
  arises view before /\ before = snd made2020 /\ length (c_objs (mc_cat before)) = 16 /\
  (* with the table alone there is no such metaschema *)
  fst (construct (env_in Elate before) 40 (lit "default") (JObj wanting) (Some (at_ "http://s0")) None (mc_cat before)) = Exn ECatalog /\
  (* the two metaschemas are loaded, one of them under the URI that it gives itself,
     so that the subschema loads it again *)
  (let '(r, st) := constructL Elate view 40 (lit "default") (JObj wanting) (Some (at_ "http://s0")) None before in
   r = Ok 16 /\ map fst (mc_metas st) = [20; 18; 17; 0] /\ map (cached_metaschema before) [at_ "http://other"; at_ "http://custom"] = [None; None] /\
   cached meta_id (at_ "http://another") (c_cache (mc_cat st)) = Some 20 /\ cached meta_id (at_ "http://custom") (c_cache (mc_cat st)) = Some 18 /\
   class_under (mc_cat st) 16 (lit "minItems") = Some (Unknown (lit "minItems")) /\ class_under (mc_cat st) 16 (lit "allOf") = Some (Std KAllOf)) /\
  (* a metaschema that is known *)
  (exists c, construct (env_in Elate before) 40 (lit "default") (obj [("$schema", std_uri "schema"); ("minItems", int 3)]) (Some (at_ "http://s0")) None (mc_cat before) = (Ok 16, c) /\ length (c_objs c) = 17) /\
  (* one that cannot be loaded because its own is nowhere *)
  (let '(r, st) := constructL Elate view 40 (lit "default") (obj [("$schema", text "http://broken"); ("minItems", int 3)]) (Some (at_ "http://s0")) None before in
   r = Exn ECatalog /\ length (c_objs (mc_cat st)) = 18 /\ cached (lit "default") (at_ "http://s0") (c_cache (mc_cat st)) = Some 16 /\ class_under (mc_cat st) 16 (lit "minItems") = None).
Proof.
  split; [exact (arise_make view Elate 60 _ None [] vocabularies (arises_vocabularies V2020))|]. split; [vm_compute; reflexivity|]. split; [vm_compute; reflexivity|]. split; [vm_compute; reflexivity|].
  split; [vm_compute; repeat split; reflexivity|]. split; [eexists; split; [vm_compute; reflexivity|vm_compute; reflexivity]|]. vm_compute. repeat split; reflexivity.
Qed.
