(** C67, C68: vocabularies and metaschemas. *)
From Coq Require Import String List Bool Lia Permutation.
From Verif Require Import SchemaCases PropsBuild MetaFacts SpecNames NameFacts.
Import ListNotations.
Open Scope string_scope.
Open Scope list_scope.
Open Scope nat_scope.

(** ** C67 *)
Lemma filter_one {A} (P : A -> bool) l t : filter P l = [t] -> P t = true /\ In t l /\ forall t', In t' l -> P t' = true -> t' = t.
Proof.
  intro H. assert (X : In t (filter P l)) by (rewrite H; now left). apply filter_In in X. split; [tauto|]. split; [tauto|].
  intros t' H1 H2. assert (Y : In t' (filter P l)) by (apply filter_In; auto). rewrite H in Y. destruct Y as [->|[]]. reflexivity.
Qed.
Lemma reads_with E d : reads_json E -> reads_json (with_dialects E d).
Proof. intros H u doc. exact (H u doc). Qed.
(** On success $id is among the keywords, so the classes are complete. *)
Lemma meta_of_new E see f u v core defaults st s st' : reads_json E -> runs see st -> jwf v = true ->
  new_metaschema E f u v core defaults st = (Ok s, st') ->
  exists ms vc d, v = JObj ms /\
    core_vocabulary E (mc_vocabs st) (dget (lit "$vocabulary") ms) core = Ok vc /\
    match dget (lit "$vocabulary") ms with Some x => vocabulary_keyword E (mc_vocabs st) vc x | None => ([], None) end = (d, None) /\
    meta_at st' s = Some (mkMeta (v_uri vc) (complete_classes (match dget (lit "$vocabulary") ms with Some _ => true | None => false end) vc defaults d)).
Proof.
  intros R Ru J H. destruct (new_ok E f u v core defaults st s st' H) as (ms & vc & d & -> & Es & Cv & Vk & _ & C & _ & m & Ms & Hm).
  exists ms, vc, d. split; [reflexivity|]. split; [exact Cv|]. split; [exact Vk|]. unfold meta_at. rewrite Ms. cbn [find fst snd]. rewrite Nat.eqb_refl. cbn [option_map snd]. f_equal.
  rewrite Hm. destruct (dmem (lit "$id") ms) eqn:Dm; [|reflexivity]. cbn [negb orb].
  destruct (C55_made _ f meta_id (JObj ms) (Some u) None (mc_cat st) s (mc_cat st') (reads_with E _ R) (runs_reachable see st Ru) J C) as [Md _].
  inversion Md as [|? ? ? ? ? ? o kws Ho Hd _ _ _ Hk _ _ _ _]; subst.
  assert (Hi : has_keyword (mc_cat st') (length (c_objs (mc_cat st))) (lit "$id") = true).
  { unfold has_keyword. rewrite Ho, Hd. apply dmem_In. apply Hk. now apply dmem_In. }
  now rewrite Hi.
Qed.

(** A metaschema that lists vocabularies provides the classes of those that are
    known, and of no others. *)
Theorem C67_listed : forall E see f u core defaults st s st' ms l, reads_json E -> runs see st ->
  load_json (e_lib E) (e_sources E) u = Ok (JObj ms) -> dget (lit "$vocabulary") ms = Some (JObj l) ->
  create_metaschema E see f u core defaults st = (Ok s, st') ->
  exists m, meta_at st' s = Some m /\ follows_list E st l m.
Proof.
  intros E see f u core defaults st s st' ms l R Ru Ld Hv H. unfold create_metaschema in H. rewrite Ld in H. cbn [bind] in H.
  destruct (default_core (mc_vocabs st) core) as [dc| |]; cbn [bind] in H; try discriminate H. destruct (all_vocabularies (mc_vocabs st) defaults) as [dv| |]; cbn [bind] in H; try discriminate H.
  destruct (new_metaschema E f u (JObj ms) dc dv st) as [[s0| |] st0] eqn:N; try discriminate H.
  assert (s0 = s /\ st0 = st') as [-> ->]. { apply pair_equal_spec in H. destruct H as [H ->]. destruct (validate _ _ _ _) as [[|]| |]; try discriminate H. injection H as ->. auto. }
  destruct (meta_of_new E see f u (JObj ms) dc dv st s st' R Ru (R u _ Ld) N) as (ms' & vc & d & X & Cv & Vk & Mt). injection X as <-. rewrite Hv in *.
  eexists. split; [exact Mt|]. cbn [m_core m_classes complete_classes].
  cbn [vocabulary_keyword] in Vk. destruct (is_true (dget (uri_str (v_uri vc)) l)) eqn:Tr; [|discriminate Vk].
  assert (Tl : dget (uri_str (v_uri vc)) l = Some (JBool true)). { destruct (dget (uri_str (v_uri vc)) l) as [[|[|]| | | |]|]; try discriminate Tr. reflexivity. }
  unfold core_vocabulary in Cv. destruct (truthy (KJ (JObj l))) eqn:Ty.
  2:{ destruct l; [|discriminate Ty]. discriminate Tl. }
  cbn [possible_cores bind] in Cv. destruct (filter core_like (keys l)) as [|t [|t2 r]] eqn:F; try discriminate Cv. destruct (filter_one _ _ _ F) as (F1 & F2 & F3).
  rewrite get_known in Cv. destruct (find _ (mc_vocabs st)) as [vc'|] eqn:Kn; [|discriminate Cv]. injection Cv as ->.
  exists t, vc. split; [exact F1|]. split; [exact F2|]. split; [exact F3|]. split; [exact Kn|]. split; [now apply dget_In|]. split; [reflexivity|]. split; [exact (gather_known E st l [] d Vk)|].
  intro key. cbn [m_classes]. unfold complete_classes. rewrite update_offers. destruct (offered (v_classes vc) key); [reflexivity|]. rewrite (gather_offers E st l [] d key Vk). now destruct (last_offer (known_among E st (keys l)) key).
Qed.
Print Assumptions C67_listed.

(** One that lists none provides those of the default vocabularies. *)
Theorem C67_defaults : forall E see f u core defaults st s st' ms, reads_json E -> runs see st ->
  load_json (e_lib E) (e_sources E) u = Ok (JObj ms) -> dget (lit "$vocabulary") ms = None ->
  create_metaschema E see f u core defaults st = (Ok s, st') ->
  exists uc m, core = Some uc /\ meta_at st' s = Some m /\ follows_defaults st uc defaults m.
Proof.
  intros E see f u core defaults st s st' ms R Ru Ld Hv H. unfold create_metaschema in H. rewrite Ld in H. cbn [bind] in H.
  destruct (default_core (mc_vocabs st) core) as [dc| |] eqn:Dc; cbn [bind] in H; try discriminate H. destruct (all_vocabularies (mc_vocabs st) defaults) as [dv| |] eqn:Dv; cbn [bind] in H; try discriminate H.
  destruct (new_metaschema E f u (JObj ms) dc dv st) as [[s0| |] st0] eqn:N; try discriminate H.
  assert (s0 = s /\ st0 = st') as [-> ->]. { apply pair_equal_spec in H. destruct H as [H ->]. destruct (validate _ _ _ _) as [[|]| |]; try discriminate H. injection H as ->. auto. }
  destruct (meta_of_new E see f u (JObj ms) dc dv st s st' R Ru (R u _ Ld) N) as (ms' & vc & d & X & Cv & Vk & Mt). injection X as <-. rewrite Hv in *. injection Vk as <-.
  cbn [core_vocabulary] in Cv. destruct dc as [dc|]; [|discriminate Cv]. injection Cv as ->.
  destruct core as [uc|]; [|discriminate Dc]. cbn [default_core] in Dc. destruct (uri_str uc) eqn:Us; [discriminate Dc|]. rewrite get_known in Dc. destruct (find _ (mc_vocabs st)) as [vc'|] eqn:Kn; [|discriminate Dc]. cbn [bind] in Dc. injection Dc as ->.
  exists uc. eexists. split; [reflexivity|]. split; [exact Mt|]. exists vc, dv. split; [exact Kn|]. split.
  - clear - Dv. revert dv Dv. induction defaults as [|w ws IH]; intros dv Dv; [injection Dv as <-; reflexivity|]. cbn [all_vocabularies] in Dv. rewrite get_known in Dv.
    destruct (find _ (mc_vocabs st)) as [v|] eqn:Kn; [|discriminate Dv]. cbn [bind] in Dv. destruct (all_vocabularies (mc_vocabs st) ws) as [r| |]; try discriminate Dv. injection Dv as <-. cbn [map]. rewrite (IH r eq_refl). unfold known_as at 1. now rewrite Kn.
  - split; [reflexivity|]. intro key. cbn [m_classes last_offer]; unfold complete_classes. rewrite defaults_offer, update_offers. destruct (last_offer dv key); [reflexivity|]. now destruct (offered (v_classes vc) key).
Qed.
Print Assumptions C67_defaults.

(** So a keyword gets the class that its metaschema has under its key, and
    otherwise the class of unknown keywords, if its name can be used; the class of $id goes by the core
    vocabulary. *)
Theorem C67_class : forall m, (exists E st l, follows_list E st l m) \/ (exists st core defaults, follows_defaults st core defaults m) ->
  (forall key, key <> lit "$id" ->
     match dget key (m_classes m) with
     | Some c => get_kwclass (provided m) key = Ok (Std c)
     | None => if nameable key then get_kwclass (provided m) key = Ok (Unknown key) else exists e, get_kwclass (provided m) key = Exn e
     end) /\
  find_class (provided m) (lit "$id") = Some (id_class (m_core m)).
Proof.
  intros m Hm. assert (W : well_keyed (m_classes m)).
  { intros key c D. destruct Hm as [(E & st & l & t & core & _ & _ & _ & _ & _ & _ & _ & H)|(st & core & ds & vc & vs & _ & _ & _ & H)]; rewrite H in D.
    - destruct (offered (v_classes core) key) as [c'|] eqn:O; [injection D as ->; exact (proj1 (offered_key _ _ _ O))|]. destruct (last_offer_In _ _ _ D) as (v & _ & O'). exact (proj1 (offered_key _ _ _ O')).
    - destruct (last_offer_In _ _ _ D) as (v & _ & O'). exact (proj1 (offered_key _ _ _ O')). }
  split; [|apply find_id]. intros key Hk. unfold get_kwclass. rewrite (find_provided m key W Hk). destruct (dget key (m_classes m)); [reflexivity|exact (nameable_class key)].
Qed.
Print Assumptions C67_class.


(** ** C68 *)
Definition std_vocabs (v : version) : list vocab := map (fun nc => mkVocab (mkUri (fst nc) None) (snd nc)) (standard_vocabularies v).
Lemma std_distinct v : NoDup (map std_key (flat_map v_classes (std_vocabs v))).
Proof.
  assert (H : nodup_keysb (map (fun c => (std_key c, tt)) (flat_map v_classes (std_vocabs v))) = true) by (destruct v; vm_compute; reflexivity).
  apply nodup_keysb_NoDup in H. unfold keys in H. rewrite map_map in H. exact H.
Qed.
Definition std_meta (v : version) : meta :=
  mkMeta (mkUri (draft v "vocab/core") None) (fold_left (fun d v => update_classes d (v_classes v)) (std_vocabs v) []).
Lemma std_provided v : provided (std_meta v) = dialect_for v.
Proof. destruct v; vm_compute; reflexivity. Qed.
Lemma std_meta_offers v key : dget key (m_classes (std_meta v)) = last_offer (std_vocabs v) key.
Proof. cbn [std_meta m_classes]. rewrite defaults_offer. now destruct (last_offer (std_vocabs v) key). Qed.
Lemma std_core_like v t : In t (map fst (standard_vocabularies v)) -> core_like t = true -> t = draft v "vocab/core".
Proof.
  assert (H : filter core_like (map fst (standard_vocabularies v)) = [draft v "vocab/core"]) by (destruct v; vm_compute; reflexivity).
  intros I C. assert (X : In t (filter core_like (map fst (standard_vocabularies v)))) by (apply filter_In; auto). rewrite H in X. destruct X as [->|[]]. reflexivity.
Qed.
Lemma std_split v : exists cs r, standard_vocabularies v = (draft v "vocab/core", cs) :: r.
Proof. unfold standard_vocabularies. cbn [map app fst snd]. eauto. Qed.
Lemma flat_map_perm {A B} (f : A -> list B) l l' : Permutation l l' -> Permutation (flat_map f l) (flat_map f l').
Proof.
  induction 1; cbn [flat_map]; [constructor|now apply Permutation_app_head| |eapply Permutation_trans; eauto].
  rewrite !app_assoc. apply Permutation_app_tail, Permutation_app_comm.
Qed.
Lemma among_std E st v : parses_standard E v -> knows_standard st v -> known_among E st (map fst (standard_vocabularies v)) = std_vocabs v.
Proof.
  unfold parses_standard, knows_standard, std_vocabs, known_among. intros P K. induction (standard_vocabularies v) as [|[n cs] r IH]; [reflexivity|].
  cbn [map fst snd flat_map]. rewrite P by now left. rewrite (K n cs) by now left. cbn [app]. f_equal. apply IH; [intros; apply P; now right|intros; apply K; now right].
Qed.

Lemma perm_somes {A} (a b : list A) : Permutation (map Some a) (map Some b) -> Permutation a b.
Proof.
  assert (F : forall l : list A, flat_map (fun o => match o with Some v => [v] | None => [] end) (map Some l) = l) by (induction l; cbn [map flat_map app]; congruence).
  intro H. rewrite <- (F a), <- (F b). now apply flat_map_perm.
Qed.

Lemma C68_list E st v l m : parses_standard E v -> knows_standard st v -> Permutation (keys l) (map fst (standard_vocabularies v)) ->
  follows_list E st l m -> provided m = dialect_for v.
Proof.
  intros P K Pm (t & core & T1 & T2 & _ & Kc & _ & Mc & _ & Ms). assert (It : In t (map fst (standard_vocabularies v))) by (eapply Permutation_in; eauto).
  pose proof (std_core_like v t It T1) as ->. rewrite (P _ It) in Kc. destruct (std_split v) as (cs & r & Sv).
  rewrite (K (draft v "vocab/core") cs) in Kc by (rewrite Sv; now left). injection Kc as <-. cbn [v_classes v_uri] in *.
  rewrite <- std_provided. apply provided_ext; [now rewrite Mc|]. intro key. rewrite std_meta_offers, Ms.
  assert (L : last_offer (known_among E st (keys l)) key = last_offer (std_vocabs v) key).
  { symmetry. apply last_offer_perm; [apply std_distinct|]. rewrite <- (among_std E st v P K). apply flat_map_perm, Permutation_sym, Pm. }
  rewrite L. destruct (offered cs key) as [c|] eqn:O; [|reflexivity].
  rewrite (last_offer_perm (std_vocabs v) (map (fun nc => mkVocab (mkUri (fst nc) None) (snd nc)) r ++ [mkVocab (mkUri (draft v "vocab/core") None) cs]) (std_distinct v)).
  - rewrite last_offer_app. cbn [last_offer v_classes]. now rewrite O.
  - unfold std_vocabs. rewrite Sv. cbn [map fst snd]. apply Permutation_cons_append.
Qed.
Lemma C68_default st v defaults m : knows_standard st v ->
  Permutation (mkUri (draft v "vocab/core") None :: defaults) (map (fun nc => mkUri (fst nc) None) (standard_vocabularies v)) ->
  follows_defaults st (mkUri (draft v "vocab/core") None) defaults m -> provided m = dialect_for v.
Proof.
  intros K Pm (vc & vs & Kc & Kv & Mc & Ms). destruct (std_split v) as (cs & r & Sv). rewrite (K (draft v "vocab/core") cs) in Kc by (rewrite Sv; now left). injection Kc as <-.
  rewrite <- std_provided. apply provided_ext; [now rewrite Mc|]. intro key. rewrite std_meta_offers, Ms. symmetry. apply last_offer_perm; [apply std_distinct|].
  assert (KK : map (known_as st) (map (fun nc => mkUri (fst nc) None) (standard_vocabularies v)) = map Some (std_vocabs v)).
  { unfold std_vocabs. rewrite !map_map. apply map_ext_in. intros [n c] I. exact (K n c I). }
  assert (K1 : Permutation (map Some (std_vocabs v)) (map Some (mkVocab (mkUri (draft v "vocab/core") None) cs :: vs))).
  { rewrite <- KK. cbn [map]. rewrite <- Kv. rewrite <- (K (draft v "vocab/core") cs) by (rewrite Sv; now left).
    change (known_as st (mkUri (draft v "vocab/core") None) :: map (known_as st) defaults) with (map (known_as st) (mkUri (draft v "vocab/core") None :: defaults)).
    apply Permutation_map, Permutation_sym, Pm. }
  now apply perm_somes.
Qed.

(** Creating a standard metaschema, when its vocabularies are known, gives the
    standard dialect: whether its document lists the vocabularies, in any order
    and requiring any of them, or lists none. *)
Theorem C68_standard : forall E see f v st s st' ms, reads_json E -> runs see st -> parses_standard E v -> knows_standard st v ->
  load_json (e_lib E) (e_sources E) (ul_parse (e_lib E) (draft v "schema")) = Ok (JObj ms) ->
  match dget (lit "$vocabulary") ms with
  | None => True
  | Some (JObj l) => Permutation (keys l) (map fst (standard_vocabularies v))
  | Some _ => False
  end ->
  create_standard_metaschema E see f v st = (Ok s, st') ->
  exists m, meta_at st' s = Some m /\ provided m = dialect_for v.
Proof.
  intros E see f v st s st' ms R Ru P K Ld Hv H. unfold create_standard_metaschema in H.
  assert (Mp : map (fun nc => ul_parse (e_lib E) (fst nc)) (standard_vocabularies v) = map (fun nc => mkUri (fst nc) None) (standard_vocabularies v)).
  { apply map_ext_in. intros nc I. apply P. now apply in_map. }
  rewrite Mp in H. clear Mp. destruct (std_split v) as (cs & r & Sv). rewrite Sv in H. cbn [map fst] in H.
  destruct (dget (lit "$vocabulary") ms) as [x|] eqn:Dv.
  - destruct x as [| | | | |l]; try contradiction. destruct (C67_listed E see f _ _ _ st s st' ms l R Ru Ld Dv H) as (m & Hm & Fm). exists m. split; [exact Hm|]. eapply C68_list; eauto.
  - destruct (C67_defaults E see f _ _ _ st s st' ms R Ru Ld Dv H) as (uc & m & Uc & Hm & Fm). injection Uc as <-. exists m. split; [exact Hm|]. eapply C68_default; eauto. rewrite Sv. cbn [map fst]. reflexivity.
Qed.
Print Assumptions C68_standard.

(** The vocabularies of a version are known from their creation on, and stay
    known whatever happens, unless one is created anew under the same URI. *)
Lemma known_creates l : NoDup (map fst l) -> forall st n cs, In (n, cs) l ->
  known_as (fold_left (fun st nc => create_vocabulary (mkUri (fst nc) None) (snd nc) st) l st) (mkUri n None) = Some (mkVocab (mkUri n None) cs).
Proof.
  assert (Keep : forall l st n, ~ In n (map fst l) -> known_as (fold_left (fun st nc => create_vocabulary (mkUri (fst nc) None) (snd nc) st) l st) (mkUri n None) = known_as st (mkUri n None)).
  { clear. induction l as [|[n' cs'] r IH]; intros st n H; [reflexivity|]. cbn [fold_left fst snd]. rewrite IH by (intro; apply H; now right).
    unfold known_as, create_vocabulary. cbn [mc_vocabs find v_uri]. destruct (uri_eqb (mkUri n' None) (mkUri n None)) eqn:Ue; [|reflexivity].
    exfalso. apply H. left. cbn [fst]. destruct (uri_eqb_spec (mkUri n' None) (mkUri n None)) as [X|]; [congruence|discriminate Ue]. }
  induction l as [|[n' cs'] r IH]; intros N st n cs I; [destruct I|]. inversion N as [|? ? Nn Nr]; subst. cbn [fold_left fst snd]. destruct I as [X|I].
  - injection X as -> ->. rewrite Keep by exact Nn. unfold known_as, create_vocabulary. cbn [mc_vocabs find v_uri].
    assert (Ue : uri_eqb (mkUri n None) (mkUri n None) = true) by now destruct (uri_eqb_spec (mkUri n None) (mkUri n None)). now rewrite Ue.
  - now apply IH.
Qed.
Theorem C68_known : forall v st, knows_standard (create_standard (fun t => mkUri t None) v st) v.
Proof.
  intros v st n cs I. unfold create_standard. apply known_creates; [|exact I].
  assert (H : nodup_keysb (standard_vocabularies v) = true) by (destruct v; vm_compute; reflexivity). now apply nodup_keysb_NoDup in H.
Qed.
Print Assumptions C68_known.

(** ** Cases *)

(** URIs with the schemes http and https; documents by URI. *)
Definition secure : urilib :=
  mkLib split_uri
    (fun u b => match u_base u with [] => mkUri (u_base b) (u_frag u) | _ => u end)
    (fun u => prefixb (lit "http") (uri_str u) && match u_frag u with None => true | _ => false end)
    (fun _ => true) (fun u => prefixb (lit "http") (uri_str u)) (fun _ => true) u_base (fun _ _ => false).
Definition env_docs (l : list (string * json)) : env :=
  mkEnv secure (shelf l) [] (fun _ => None) (fun _ => None) (fun _ => true) (fun n => mkUri (lit "http:uuid" ++ str_of_nat n) None).
Lemma env_docs_reads l : forallb (fun kv => jwf (snd kv)) l = true -> reads_json (env_docs l).
Proof.
  intros F u doc H. unfold load_json in H. cbn [e_lib env_docs] in H. destruct (or_catalog_error _) as [[]| |]; [|discriminate H|discriminate H]. cbn [bind e_sources env_docs shelf filter fst prefixb] in H.
  cbn [sort_longest insert_longest length skipn] in H.
  destruct (dget (uri_str u) (map (fun kv => (lit (fst kv), snd kv)) l)) as [v|] eqn:D; [|discriminate H]. injection H as <-.
  apply dget_In in D. apply in_map_iff in D. destruct D as ([k v'] & X & Hin). apply pair_equal_spec in X. destruct X as [_ <-]. rewrite forallb_forall in F. exact (F _ Hin).
Qed.
(** How evaluation sees a catalog: anchors are looked up among the metaschemas. *)
Definition view (c : cat) : world :=
  let W := objs_world (c_objs c) in
  mkWorld (w_schema W) (w_base W) (fun b f => cached meta_id (mkUri b (Some f)) (c_cache c)) (w_search W) (w_repr W) (w_format W) (w_uri W).
Definition nothing : mcat := mkMcat (mkCat [] []) [] [].
Definition vocabularies : mcat := create_standard (fun t => mkUri t None) V2020 nothing.
(** The metaschema of 2020-12, reduced to two of its documents. *)
Definition listing : json := JObj (map (fun nc => (fst nc, JBool true)) (rev (standard_vocabularies V2020))).
Definition std_uri (s : string) : json := JStr (draft V2020 s).
Definition docs2020 : list (string * json) :=
  [("https://json-schema.org/draft/2020-12/schema",
    obj [("$schema", std_uri "schema"); ("$id", std_uri "schema"); ("$vocabulary", listing); ("$dynamicAnchor", text "meta");
         ("allOf", JArr [obj [("$ref", std_uri "meta/core")]; obj [("$ref", std_uri "meta/applicator")]]);
         ("type", JArr [text "object"; text "boolean"]);
         ("properties", obj [("definitions", obj [("type", text "object"); ("additionalProperties", obj [("$dynamicRef", text "#meta")])])])]);
   ("https://json-schema.org/draft/2020-12/meta/core",
    obj [("$schema", std_uri "schema"); ("$id", std_uri "meta/core"); ("$vocabulary", JObj [(draft V2020 "vocab/core", JBool true)]); ("$dynamicAnchor", text "meta");
         ("properties", obj [("$id", obj [("$ref", text "#/$defs/uriReferenceString")]); ("$defs", obj [("type", text "object"); ("additionalProperties", obj [("$dynamicRef", text "#meta")])])]);
         ("$defs", obj [("uriReferenceString", obj [("type", text "string"); ("format", text "uri-reference")])])]);
   ("https://json-schema.org/draft/2020-12/meta/applicator",
    obj [("$schema", std_uri "schema"); ("$id", std_uri "meta/applicator"); ("$dynamicAnchor", text "meta");
         ("properties", obj [("allOf", obj [("$ref", text "#/$defs/schemaArray")]); ("properties", obj [("type", text "object"); ("additionalProperties", obj [("$dynamicRef", text "#meta")])])]);
         ("$defs", obj [("schemaArray", obj [("type", text "array"); ("minItems", int 1); ("items", obj [("$dynamicRef", text "#meta")])])])])].
Definition E2020 : env := env_docs docs2020.
Lemma runs_standard v : runs view (create_standard (fun t => mkUri t None) v nothing).
Proof.
  unfold create_standard. assert (H : runs view nothing) by constructor. revert H. generalize nothing. induction (standard_vocabularies v) as [|nc r IH]; intros st H; [exact H|].
  cbn [fold_left]. apply IH. now constructor.
Qed.
Definition made2020 : res sid * mcat := create_standard_metaschema E2020 view 60 V2020 vocabularies.
Definition members_of (v : json) : list (pystr * json) := match v with JObj m => m | _ => [] end.
Definition schema2020 : list (pystr * json) := members_of (snd (hd ("", JNull) docs2020)).
Example C68_case :
  reads_json E2020 /\ runs view vocabularies /\ parses_standard E2020 V2020 /\ knows_standard vocabularies V2020 /\
  load_json (e_lib E2020) (e_sources E2020) (ul_parse (e_lib E2020) (draft V2020 "schema")) = Ok (JObj schema2020) /\
  (exists l, dget (lit "$vocabulary") schema2020 = Some (JObj l) /\ Permutation (keys l) (map fst (standard_vocabularies V2020)) /\
     keys l <> map fst (standard_vocabularies V2020)) /\
  fst made2020 = Ok 0 /\ length (c_objs (mc_cat (snd made2020))) = 16.
Proof.
  split; [apply env_docs_reads; vm_compute; reflexivity|]. split; [apply runs_standard|]. split.
  { intros n H. cbn [e_lib E2020 env_docs secure ul_parse]. revert n H. assert (H : Forall (fun n => split_uri n = mkUri n None) (map fst (standard_vocabularies V2020))) by (repeat constructor).
    intros n I. rewrite Forall_forall in H. now apply H. }
  split; [apply C68_known|]. split; [vm_compute; reflexivity|]. split.
  - exists (map (fun nc => (fst nc, JBool true)) (rev (standard_vocabularies V2020))). split; [vm_compute; reflexivity|]. split.
    + unfold keys. rewrite map_map. cbn [fst]. apply Permutation_map, Permutation_sym, Permutation_rev.
    + vm_compute. discriminate.
  - split; vm_compute; reflexivity.
Qed.
(** C67: a metaschema with two vocabularies, of which the second is not
    required and not known. *)
Definition core_name : pystr := draft V2020 "vocab/core".
Definition sparse : json :=
  obj [("$schema", text "http://m"); ("$vocabulary", JObj [(lit "http://unknown", JBool false); (draft V2020 "vocab/validation", JBool true); (core_name, JBool true)]);
       ("type", text "object"); ("minItems", int 3); ("allOf", text "not checked")].
Example C67_case :
  let E := env_docs [("http://m", sparse)] in let r := get_metaschema E view 20 (at_ "http://m") vocabularies in
  reads_json E /\ runs view vocabularies /\ load_json (e_lib E) (e_sources E) (at_ "http://m") = Ok sparse /\ fst r = Ok 0 /\
  get_metaschema E view 20 (at_ "http://m") vocabularies = create_metaschema E view 20 (at_ "http://m") None [] vocabularies /\
  exists m, meta_at (snd r) 0 = Some m /\ get_kwclass (provided m) (lit "minItems") = Ok (Std KMinItems) /\ get_kwclass (provided m) (lit "allOf") = Ok (Unknown (lit "allOf")).
Proof.
  cbv zeta. split; [apply env_docs_reads; vm_compute; reflexivity|]. split; [apply runs_standard|]. split; [vm_compute; reflexivity|]. split; [vm_compute; reflexivity|]. split; [reflexivity|].
  eexists. split; [vm_compute; reflexivity|]. split; vm_compute; reflexivity.
Qed.
Example C67_defaults_case :
  let E := env_docs [("http://m", obj [("$schema", text "http://m"); ("type", text "object")])] in
  let core := mkUri core_name None in let others := [mkUri (draft V2020 "vocab/validation") None] in
  let r := create_metaschema E view 20 (at_ "http://m") (Some core) others vocabularies in
  fst r = Ok 0 /\ fst (create_metaschema E view 20 (at_ "http://m") None others vocabularies) = Exn ESchema /\
  exists m, meta_at (snd r) 0 = Some m /\ get_kwclass (provided m) (lit "minItems") = Ok (Std KMinItems).
Proof. cbv zeta. split; [vm_compute; reflexivity|]. split; [vm_compute; reflexivity|]. eexists. split; [vm_compute; reflexivity|]. vm_compute. reflexivity. Qed.

(** ** C50 *)

(** A metaschema that is refused, because it does not satisfy itself or because
    it requires a vocabulary that is not known, is returned by the next lookup. *)
Theorem C50_metaschema_refuted :
  (exists E u ms, reads_json E /\ load_json (e_lib E) (e_sources E) u = Ok (JObj ms) /\
     let r := get_metaschema E view 20 u vocabularies in
     fst r = Exn ECatalog /\ fst (get_metaschema E view 20 u (snd r)) = Ok 0 /\
     verdict (view (mc_cat (snd r))) 0 (JObj ms) false) /\
  (exists E u ms, reads_json E /\ load_json (e_lib E) (e_sources E) u = Ok (JObj ms) /\
     let r := get_metaschema E view 20 u vocabularies in
     fst r = Exn ESchema /\ fst (get_metaschema E view 20 u (snd r)) = Ok 0).
Proof.
  split.
  - exists (env_docs [("http://m", obj [("$schema", text "http://m"); ("$vocabulary", JObj [(core_name, JBool true); (draft V2020 "vocab/validation", JBool true)]); ("type", text "string")])]), (at_ "http://m").
    eexists. split; [apply env_docs_reads; vm_compute; reflexivity|]. split; [vm_compute; reflexivity|]. split; [vm_compute; reflexivity|]. split; [vm_compute; reflexivity|].
    exists 5. vm_compute. eexists. split; reflexivity.
  - exists (env_docs [("http://m", obj [("$schema", text "http://m"); ("$vocabulary", JObj [(core_name, JBool true); (lit "http://unknown", JBool true)])])]), (at_ "http://m").
    eexists. split; [apply env_docs_reads; vm_compute; reflexivity|]. split; [vm_compute; reflexivity|]. split; vm_compute; reflexivity.
Qed.
Print Assumptions C50_metaschema_refuted.
