(** C50-C56: construction of schemas. *)
From Coq Require Import String List Bool Lia.
From Verif Require Import SchemaCases QuoteFacts BuildStays.
Import ListNotations.
Open Scope string_scope.
Open Scope list_scope.
Open Scope nat_scope.

(** ** A small environment for the cases. *)

(** A stand-in for rfc3986: a URI is split at the number sign; references
    without a scheme are resolved by taking the base. *)
Fixpoint cut (s : pystr) : pystr * option pystr :=
  match s with
  | [] => ([], None)
  | c :: r => if N.eqb c 35 then ([], Some r) else let '(b, f) := cut r in (c :: b, f)
  end.
Definition split_uri (s : pystr) : uri := let '(b, f) := cut s in mkUri b f.
Definition simple : urilib :=
  mkLib split_uri
    (fun u b => match u_base u with [] => mkUri (u_base b) (u_frag u) | _ => u end)
    (fun u => prefixb (lit "http:") (uri_str u) && match u_frag u with None => true | _ => false end)
    (fun _ => true) (fun u => prefixb (lit "http:") (uri_str u)) (fun _ => true) u_base (fun _ _ => false).
Definition at_ (s : string) : uri := split_uri (lit s).
Definition META : uri := at_ "http://meta".
(** Documents by URI. *)
Definition shelf (l : list (string * json)) : sources :=
  [([], fun rest => match dget rest (map (fun kv => (lit (fst kv), snd kv)) l) with Some v => Ok v | None => Exn EOther end)].
Definition env_of (l : list (string * json)) (formats : list string) : env :=
  mkEnv simple (shelf l) (map lit formats) (fun _ => Some [TString])
    (fun u => if uri_eqb u META then Some dialect_2020_12 else None) (fun _ => true) (fun n => mkUri (lit "http:uuid" ++ str_of_nat n) None).
Definition empty : cat := mkCat [] [].
Lemma shelf_reads l fs : forallb (fun kv => jwf (snd kv)) l = true -> reads_json (env_of l fs).
Proof.
  intros F u doc H. unfold load_json in H. cbn [e_lib env_of] in H. destruct (or_catalog_error _) as [[]| |]; [|discriminate H|discriminate H]. cbn [bind e_sources env_of shelf filter fst prefixb] in H.
  cbn [sort_longest insert_longest length skipn] in H.
  destruct (dget (uri_str u) (map (fun kv => (lit (fst kv), snd kv)) l)) as [v|] eqn:D; [|discriminate H]. injection H as <-.
  apply dget_In in D. apply in_map_iff in D. destruct D as ([k v'] & X & Hin). apply pair_equal_spec in X. destruct X as [_ <-]. rewrite forallb_forall in F. exact (F _ Hin).
Qed.
Definition default : pystr := lit "default".

(** ** C52 *)

(** Whatever has been done with the catalog before: when construction returns,
    every reference in every subschema has been resolved, and leads to the
    schema that its URI designated when it was resolved. *)
Theorem C52_references_resolved : forall E f id v u m c s c',
  reads_json E -> reachable c -> jwf v = true -> construct E f id v u m c = (Ok s, c') ->
  forall t kws key k, within (c_objs c') s t -> keywords_at (c_objs c') t kws -> In (key, k) kws -> is_reference k ->
  (exists r, kw_ref k = Some r /\ r < length (c_objs c')) /\ resolved_between E c c' t k.
Proof.
  intros E f id v u m c s c' D R J H t kws key k W Ha Hk Rk. destruct (construct_ok E D f id v u m c s c' (reachable_sane _ R) J H) as (S & _ & _ & _ & Rs).
  pose proof (Rs t W kws key k Ha Hk Rk) as B. split; [|exact B]. destruct B as (c1 & u1 & r & _ & _ & _ & _ & Q). exists r. split; [exact Q|].
  destruct S as (_ & K & _). exact (proj1 (proj2 (proj2 (K _ _ Ha) _ _ Hk)) r Q).
Qed.
Print Assumptions C52_references_resolved.

Definition linked : json :=
  obj [("$id", text "http://a/root"); ("$ref", text "#/$defs/x"); ("$defs", obj [("x", obj [("allOf", JArr [obj [("$ref", text "http://a/other#mark")]; JBool true])])])].
Definition other : json := obj [("$defs", obj [("y", obj [("$anchor", text "mark"); ("$ref", text "http://a/root")])])].
Definition E52 : env := env_of [("http://a/other", other)] [].
Definition refs_of (c : cat) : list (option sid) :=
  flat_map (fun o => match so_data o with
                     | SObj kws => flat_map (fun kk => if reference_class (kw_class (snd kk)) then [kw_ref (snd kk)] else []) kws
                     | _ => []
                     end) (c_objs c).
Example C52_case :
  reads_json E52 /\ jwf linked = true /\
  (let r := construct E52 9 default linked None (Some META) empty in
   fst r = Ok 0 /\ refs_of (snd r) = [Some 1; Some 5; Some 0]).
Proof. split; [now apply shelf_reads|]. vm_compute. auto. Qed.

(** ** C55 *)

(** Construction makes the schema that the document describes: the same keys,
    with the classes that the metaschema has for them, subschemas made
    likewise, URIs according to $id (a document without a URI is given a fresh
    one), dependencies before what depends on them;
    and objects made before stay the same but for resolved references. *)
Theorem C55_made : forall E f id v u m c s c',
  reads_json E -> reachable c -> jwf v = true -> construct E f id v u m c = (Ok s, c') ->
  made E (c_objs c') m None (match u, v with None, JObj _ => Some (e_uuid E (length (c_objs c))) | _, _ => u end) v s None /\ kept c c'.
Proof.
  intros E f id v u m c s c' D R J H. destruct (construct_ok E D f id v u m c s c' (reachable_sane _ R) J H) as (_ & K & _ & Md & _).
  split; [exact Md|exact K].
Qed.
Print Assumptions C55_made.
Example C55_case :
  let r := construct E52 9 default linked None (Some META) empty in
  fst r = Ok 0 /\
  map (fun o => (so_uri o, match so_data o with SObj kws => keys kws | SBool _ => [] end)) (c_objs (snd r)) =
  [(Some (at_ "http://a/root"), [lit "$id"; lit "$ref"; lit "$defs"]); (None, [lit "allOf"]); (None, [lit "$ref"]); (None, []);
   (Some (at_ "http://a/other"), [lit "$defs"]); (None, [lit "$anchor"; lit "$ref"])].
Proof. vm_compute. auto. Qed.

(** ** C51 *)

(** [w] is the URI of schema [t] of document root [s], or is relative to a
    schema [r] around it, and its fragment leads from [r] to [t]. *)
Definition locates (objs : list sobj) (s t : sid) (w : uri) : Prop :=
  (exists o, nth_error objs t = Some o /\ so_uri o = Some w) \/
  exists r o u f ks, within objs s r /\ nth_error objs r = Some o /\ so_uri o = Some u /\ w = with_fragment u f /\
    sn_walk (objs_world objs) (SNSchema r) ks = Ok (SNSchema t) /\
    (u_frag u = None \/ u_frag u = Some [] -> uri_fragment ks = Ok f /\ (Forall (Forall scalar) ks -> parse_uri_fragment f = Ok ks)).
Theorem C51_canonical_location : forall E f id v u m c s c' t w,
  reads_json E -> reachable c -> jwf v = true -> construct E f id v u m c = (Ok s, c') -> within (c_objs c') s t ->
  canonical_uri (c_objs c') t = Ok (Some w) -> locates (c_objs c') s t w.
Proof.
  intros E f id v u m c s c' t w D R J H Wt Cn. destruct (construct_ok E D f id v u m c s c' (reachable_sane _ R) J H) as (S & _ & _ & Md & _).
  unfold canonical_uri in Cn. destruct (nth_error (c_objs c') t) as [o|] eqn:Ho; [|cbn [canonical_base] in Cn; rewrite Ho in Cn; discriminate Cn].
  destruct (so_uri o) as [w'|] eqn:Uo.
  - left. exists o. split; [exact Ho|]. destruct o as [[?|] ? ? ? ?]; cbn in Uo; [|discriminate Uo]. injection Cn as <-. reflexivity.
  - right. destruct (canonical_base (Datatypes.S t) (c_objs c') t []) as [[[r w0] ks]|] eqn:B.
    2:{ destruct o as [[?|] ? ? ? ?]; cbn in Uo; discriminate. }
    destruct (canonical_found E (c_objs c') m None _ v s (proj1 S) Md t Wt (Datatypes.S t) [] (SNSchema t) (Nat.lt_succ_diag_r t) eq_refl r w0 ks B) as (Wr & (o' & Ho' & Uo') & Wk).
    assert (Cn' : (let* rel := match u_frag w0 with Some ((_ :: _) as f) => let* p := parse_uri_fragment f in Ok (p ++ ks) | _ => Ok ks end in
                   let* f := uri_fragment rel in Ok (Some (with_fragment w0 f))) = Ok (Some w)).
    { destruct o as [[?|] ? ? ? ?]; cbn in Uo; [discriminate|exact Cn]. }
    clear Cn. destruct (match u_frag w0 with Some ((_ :: _) as f) => let* p := parse_uri_fragment f in Ok (p ++ ks) | _ => Ok ks end) as [rel| |] eqn:Rel; try discriminate Cn'.
    cbn [bind] in Cn'. destruct (uri_fragment rel) as [fr| |] eqn:Fr; try discriminate Cn'. injection Cn' as <-.
    exists r, o', w0, fr, ks. repeat (split; [assumption || reflexivity|]). intro Q.
    assert (rel = ks) by (destruct Q as [Q|Q]; rewrite Q in Rel; now injection Rel as <-). subst rel. split; [exact Fr|].
    intro Sc. destruct (fragment_roundtrip ks Sc) as (f' & F1 & F2). rewrite F1 in Fr. injection Fr as <-. exact F2.
Qed.
Print Assumptions C51_canonical_location.

(** The canonical URI exists, provided that the keys are made of characters
    (without lone surrogates, which cannot be encoded). *)
Theorem C51_exists : forall E f id v u m c s c' t,
  reads_json E -> reachable c -> jwf v = true -> construct E f id v u m c = (Ok s, c') -> within (c_objs c') s t ->
  (exists o u, nth_error (c_objs c') s = Some o /\ so_uri o = Some u) ->
  (forall i o u, nth_error (c_objs c') i = Some o -> so_uri o = Some u -> u_frag u = None \/ u_frag u = Some []) ->
  (forall i o p ks, nth_error (c_objs c') i = Some o -> so_up o = Some (p, ks) -> Forall (Forall scalar) ks) ->
  exists w, canonical_uri (c_objs c') t = Ok (Some w).
Proof.
  intros E f id v u m c s c' t D R J H Wt Us Fr Sc. destruct (construct_ok E D f id v u m c s c' (reachable_sane _ R) J H) as (S & _ & _ & Md & _).
  pose proof (canonical_some E (c_objs c') m None _ v s (proj1 S) Md Us t Wt (Datatypes.S t) [] (Nat.lt_succ_diag_r t)) as N.
  assert (K : forall n i ks r w0 ks', Forall (Forall scalar) ks -> canonical_base n (c_objs c') i ks = Some (r, w0, ks') ->
              Forall (Forall scalar) ks' /\ exists o, nth_error (c_objs c') r = Some o /\ so_uri o = Some w0).
  { induction n as [|n IH]; intros i ks r w0 ks' Hk B; [discriminate B|]. cbn [canonical_base] in B. destruct (nth_error (c_objs c') i) as [o|] eqn:Ho; [|discriminate B].
    destruct (so_uri o) as [w1|] eqn:U; [injection B as <- <- <-; eauto|]. destruct (so_up o) as [[p up]|] eqn:Up; [|discriminate B].
    apply (IH p (up ++ ks)) in B; [exact B|]. apply Forall_app. split; [exact (Sc _ _ _ _ Ho Up)|exact Hk]. }
  unfold canonical_uri. destruct (canonical_base (Datatypes.S t) (c_objs c') t []) as [[[r w0] ks]|] eqn:B; [|now destruct N].
  destruct (K _ _ _ _ _ _ (Forall_nil _) B) as (Hk & o & Ho & Uo). destruct (fragment_roundtrip ks Hk) as (fr & F & _).
  destruct (nth_error (c_objs c') t) as [[[w1|] ? ? ? ?]|]; [eauto| |]; (destruct (Fr _ _ _ Ho Uo) as [Q|Q]; rewrite Q; cbn [bind]; rewrite F; cbn [bind]; eauto).
Qed.
Print Assumptions C51_exists.

(** Looking the canonical URI up gives back the subschema, if the schema it is
    relative to is the one cached under its URI and the canonical URI is not
    the URI or anchor of another. *)
Theorem C51_lookup : forall E f id c r u fr ks t,
  u_frag u = None -> cached id u (c_cache c) = Some r ->
  (cached id (with_fragment u fr) (c_cache c) = None) ->
  parse_uri_fragment fr = Ok ks -> fr <> [] -> sn_walk (objs_world (c_objs c)) (SNSchema r) ks = Ok (SNSchema t) ->
  forall m, get_schema E f id (with_fragment u fr) m c = (Ok t, c).
Proof.
  intros E f id c r u fr ks t Uf Cr Cn P Nf Wk m. unfold get_schema, get_schema_with. cbn [bindM read].
  unfold bindM, read. rewrite Cn. assert (Q : no_fragment (with_fragment u fr) = u) by (destruct u as [b g]; cbn in *; now subst g).
  rewrite Q. cbn [with_fragment u_frag]. rewrite Cr. cbn [ret]. destruct fr as [|a fr]; [now destruct Nf|]. unfold lift. rewrite P. cbn [bind]. rewrite Wk. reflexivity.
Qed.
Print Assumptions C51_lookup.

Definition nested : json :=
  obj [("$id", text "http://a/root"); ("properties", obj [("a/b", obj [("items", JBool true)]);
       ("c", obj [("$id", text "http://a/inner"); ("prefixItems", JArr [JBool false; obj [("not", JBool true)]])])])].
Example C51_case :
  let r := construct E52 9 default nested None (Some META) empty in
  fst r = Ok 0 /\
  map (fun t => canonical_uri (c_objs (snd r)) t) (seq 0 7) =
  map (fun x => Ok (Some (at_ x))) ["http://a/root"; "http://a/root#/properties/a~1b"; "http://a/root#/properties/a~1b/items"; "http://a/inner";
     "http://a/inner#/prefixItems/0"; "http://a/inner#/prefixItems/1"; "http://a/inner#/prefixItems/1/not"] /\
  (forall t, In t (seq 0 7) -> match canonical_uri (c_objs (snd r)) t with
                               | Ok (Some w) => get_schema E52 9 default w (Some META) (snd r) = (Ok t, snd r)
                               | _ => False
                               end).
Proof.
  split; [vm_compute; reflexivity|]. split; [vm_compute; reflexivity|]. intros t Ht. cbn [seq In] in Ht.
  repeat (destruct Ht as [<-|Ht]; [vm_compute; reflexivity|]). destruct Ht.
Qed.
(** Keys with a lone surrogate have no canonical URI: encoding raises. *)
Theorem C51_surrogate_refuted : exists E f v s c',
  construct E f default v None (Some META) empty = (Ok s, c') /\ within (c_objs c') s 1 /\ canonical_uri (c_objs c') 1 = Exn EUnicode.
Proof.
  exists E52, 9, (JObj [(lit "properties", JObj [([55296%N], JBool true)])]). eexists 0, _. split; [vm_compute; reflexivity|]. split; [|vm_compute; reflexivity].
  eapply within_step; [apply within_self|eexists; split; reflexivity|now left|]. now left.
Qed.
Print Assumptions C51_surrogate_refuted.

(** ** C57 *)

(** Whatever is constructed or looked up later, with whatever outcome, and
    whichever cache blocks are left: the schemas made before stay as they
    are. *)
Theorem C57_schemas_stay : forall c c' s, reachable c -> develops c c' -> s < length (c_objs c) ->
  nth_error (c_objs c') s = nth_error (c_objs c) s.
Proof. intros c c' s R D Hs. destruct (develops_stays c c' (reachable_sane _ R) D) as [_ [_ H]]. now apply H. Qed.
Print Assumptions C57_schemas_stay.
Example C57_case :
  let c := snd (construct E52 9 default linked None (Some META) empty) in
  let c' := snd (construct E52 9 default (obj [("$id", text "http://a/root"); ("$ref", text "#/nope")]) None (Some META) c) in
  reachable c /\ develops c c' /\ length (c_objs c) = 6 /\ length (c_objs c') = 7
  /\ cached default (at_ "http://a/root") (c_cache c) = Some 0 /\ cached default (at_ "http://a/root") (c_cache c') = Some 6.
Proof.
  cbv zeta. split; [apply reach_construct, reach_empty|]. split; [apply dev_construct; [now apply shelf_reads|reflexivity|apply dev_self]|]. vm_compute. auto.
Qed.

(** ** C53 *)

(** Whether a format keyword asserts is decided when its schema is constructed,
    by the formats enabled at that time. *)
Theorem C53_enabled : forall E f id v u m c s c', reads_json E -> reachable c -> jwf v = true -> construct E f id v u m c = (Ok s, c') ->
  forall t kws key k a c2, within (c_objs c') s t -> develops c' c2 -> keywords_at (c_objs c2) t kws -> In (key, k) kws ->
  kw_class k = Std KFormat -> kw_json k = KJ (JStr a) ->
  (In a (e_formats E) -> exists types, e_validators E a = Some types /\ kw_format k = Some types) /\
  (~ In a (e_formats E) -> kw_format k = None).
Proof.
  intros E f id v u m c s c' D R J H t kws key k a c2 W Dv Ha Hk C Kj. destruct (construct_ok E D f id v u m c s c' (reachable_sane _ R) J H) as (S & _ & Ls & Md & _).
  assert (Lt : t < length (c_objs c')).
  { destruct (made_within E _ _ _ _ _ _ _ _ Md W) as (m' & b' & u' & v' & up' & Mt & _). apply made_up in Mt. destruct Mt as (o & Ho & _). apply nth_error_Some. congruence. }
  destruct (develops_stays c' c2 S Dv) as [_ [_ St]]. assert (Ha' : keywords_at (c_objs c') t kws) by (destruct Ha as (o & Ho & Do); exists o; rewrite St in Ho by exact Lt; auto).
  destruct (made_within E _ _ _ _ _ _ _ _ Md W) as (m' & b' & u' & v' & up' & Mt & _).
  inversion Mt as [? ? ? x ? ? o Ho Dd _ _|? ? ? doc ? ? o kws0 Ho Dd Hup Hu N K Cl Kp Hh Dep]; subst.
  { destruct Ha' as (o' & Ho' & D'). congruence. }
  assert (kws0 = kws) by (apply (keywords_fun (c_objs c') t); [now exists o|exact Ha']). subst kws0.
  assert (Hin : In key (keys doc)) by (apply K; exact (in_map fst _ _ Hk)). destruct (keys_dget _ _ Hin) as [w Dw].
  pose proof (Hh _ _ _ Hk Dw) as Hj. rewrite Kj, C in Hj. destruct (Kp _ _ _ Hk Dw) as [_ F]. rewrite C in F.
  assert (w = JStr a). { inversion Hj; subst; try reflexivity. }
  subst w. exact F.
Qed.
Print Assumptions C53_enabled.
Example C53_enabled_case :
  let schema := obj [("items", obj [("format", text "code")])] in
  let asserts formats := map (fun o => match so_data o with SObj [(_, k)] => kw_format k | _ => None end)
                             (c_objs (snd (construct (env_of [] formats) 9 default schema None (Some META) empty))) in
  asserts ["other"; "code"] = [None; Some [TString]] /\ asserts ["other"] = [None; None].
Proof. vm_compute. auto. Qed.

(** ** C54 *)

Theorem C54_unknown_keywords_kept : forall E f id doc u m c s c' mu d key v,
  reads_json E -> reachable c -> jwf (JObj doc) = true -> construct E f id (JObj doc) u m c = (Ok s, c') ->
  applies E m doc = Some mu -> e_dialect E mu = Some d -> dget key doc = Some v -> find_class d key = None -> ~ In key bootstrapped ->
  exists kws k, keywords_at (c_objs c') s kws /\ In (key, k) kws /\ kw_class k = Unknown key /\ kw_json k = KJ v.
Proof.
  intros E f id doc u m c s c' mu d key v D R J H Ap Di Dv Fc Nb. destruct (construct_ok E D f id _ u m c s c' (reachable_sane _ R) J H) as (_ & _ & _ & Md & _).
  inversion Md as [|? ? ? doc0 ? ? o kws Ho Dd Hup Hu N K Cl Kp Hh Dep]; subst.
  assert (Hin : In key (keys kws)) by (apply K; exact (dget_keys _ _ _ Dv)). unfold keys in Hin. apply in_map_iff in Hin. destruct Hin as ([key' k] & X & Hk). cbn [fst] in X. subst key'.
  exists kws, k. split; [now exists o|]. split; [exact Hk|]. pose proof (Cl _ _ Hk) as C. unfold class_for in C. rewrite Ap, Di, Fc in C.
  assert (NE : forall x, In x bootstrapped -> str_eqb key x = false) by (intros x Hx; destruct (str_eqb_spec key x) as [->|]; [contradiction|reflexivity]).
  rewrite (NE (lit "$schema")), (NE (lit "$vocabulary")), (NE (lit "$id")) in C by (unfold bootstrapped; cbn [In]; auto). injection C as C. symmetry in C. split; [exact C|].
  pose proof (Hh _ _ _ Hk Dv) as Hj. rewrite C in Hj. inversion Hj as [|? ? ? ? ? ? ? T|? ? ? ? ? ? ? T|? ? ? ? ? ? T|? ? ? ? ? ? ? T]; subst; [reflexivity| | | |];
    exfalso; unfold takes_one, takes_many, takes_named in T; apply in_map_iff in T; destruct T as (? & X & _); discriminate X.
Qed.
Print Assumptions C54_unknown_keywords_kept.
Definition odd_document : json := obj [("x-note", int 1); ("minLength", int 2); ("Minlength", text "z"); (" ", JNull)].
Example C54_case :
  let r := construct (env_of [] []) 9 default odd_document None (Some META) empty in
  fst r = Ok 0 /\ map (fun o => match so_data o with SObj kws => map (fun kk => kw_class (snd kk)) kws | _ => [] end) (c_objs (snd r)) =
    [[Unknown (lit "x-note"); Std KMinLength; Unknown (lit "Minlength"); Unknown (lit " ")]].
Proof. vm_compute. auto. Qed.

(** A keyword with an empty name makes construction raise IndexError. *)
Theorem C54_refuted : exists E doc, reads_json E /\ jwf doc = true /\
  forall f, fst (construct E f default doc None (Some META) empty) = Exn EIndex.
Proof.
  exists (env_of [] []), (obj [("", int 1)]). split; [now apply shelf_reads|]. split; [reflexivity|]. intro f. vm_compute. reflexivity.
Qed.
Print Assumptions C54_refuted.
(** So do a null character (ValueError) and a lone surrogate
    (UnicodeEncodeError) anywhere in the name. *)
Theorem C54_names_refuted : exists E, reads_json E /\
  jwf (JObj [([97; 0]%N, int 1)]) = true /\ jwf (JObj [([55296; 98]%N, int 1)]) = true /\
  forall f, fst (construct E f default (JObj [([97; 0]%N, int 1)]) None (Some META) empty) = Exn EValue /\
            fst (construct E f default (JObj [([55296; 98]%N, int 1)]) None (Some META) empty) = Exn EUnicode.
Proof.
  exists (env_of [] []). split; [now apply shelf_reads|]. split; [reflexivity|]. split; [reflexivity|]. intro f. split; vm_compute; reflexivity.
Qed.
Print Assumptions C54_names_refuted.

(** ** C50 *)

(** If there is no document for a URI, a lookup leaves the catalog alone. *)
Theorem C50_no_document : forall E f id u m c e, load_json (e_lib E) (e_sources E) (no_fragment u) = Exn e ->
  cached id u (c_cache c) = None -> (u_frag u = None \/ cached id (no_fragment u) (c_cache c) = None) ->
  get_schema E f id u m c = (Exn e, c).
Proof.
  intros E f id u m c e L N K. unfold get_schema, get_schema_with, bindM, read, lift. rewrite N.
  assert (Q : match u_frag u with Some _ => cached id (no_fragment u) (c_cache c) | None => None end = None) by (destruct K as [->| ->]; [reflexivity|now destruct (u_frag u)]).
  rewrite Q, L. reflexivity.
Qed.
Print Assumptions C50_no_document.

(** Otherwise a construction that fails leaves its schema in the cache: the
    next lookup of the same URI returns it, broken as it is. *)
Theorem C50_refuted : exists E u c1 s c2 k, reads_json E /\
  get_schema E 9 default u (Some META) empty = (Exn ECatalog, c1) /\
  get_schema E 9 default u (Some META) c1 = (Ok s, c2) /\
  (exists kws, keywords_at (c_objs c2) s kws /\ In (lit "$ref", k) kws) /\ is_reference k /\ kw_ref k = None.
Proof.
  exists (env_of [("http://a/broken", obj [("$ref", text "#/nope")])] []), (at_ "http://a/broken"). do 4 eexists. split; [now apply shelf_reads|].
  split; [vm_compute; reflexivity|]. split; [vm_compute; reflexivity|]. split; [eexists; split; [eexists; split; reflexivity|now left]|]. split; [now left|reflexivity].
Qed.
Print Assumptions C50_refuted.

(** ** C56 *)

(** A document that gives itself another URI than the one it is found at and
    refers to the latter loads itself again and again: no number of steps is
    enough.  (Python raises RecursionError.) *)
Definition evasive : json := obj [("$id", text "http://a/y"); ("$ref", text "http://a/x")].
Definition E56 : env := env_of [("http://a/x", evasive)] [].
Definition evasive_obj : sobj :=
  mkObj (Some (at_ "http://a/y")) (Some META) None default
    (SObj [(lit "$id", mkKw (Std KId_) (KJ (text "http://a/y")) None false [] None);
           (lit "$ref", mkKw (Std KRef) (KJ (text "http://a/x")) None false [] None)]).
Lemma set_nth_last {A} (l : list A) x y : set_nth (length l) y (l ++ [x]) = l ++ [y].
Proof. induction l as [|a l IH]; [reflexivity|]. cbn. now rewrite IH. Qed.
Lemma update_last l o k f : update (length l) f (mkCat (l ++ [o]) k) = (Ok tt, mkCat (l ++ [f o]) k).
Proof. unfold update, modify, put_obj. cbn [c_objs c_cache]. now rewrite nth_last, set_nth_last. Qed.
Lemma metaschema_last l u up i d k c' : e_dialect E56 k = Some c' ->
  forall ch, metaschema E56 (length l) (mkCat (l ++ [mkObj u (Some k) up i d]) ch) = (Ok c', mkCat (l ++ [mkObj u (Some k) up i d]) ch).
Proof.
  intros H ch. unfold metaschema, bindM, read. cbn [c_objs]. unfold metaschema_uri. cbn [climb]. rewrite nth_last. cbn [so_meta]. rewrite H. reflexivity.
Qed.
Lemma evasive_built c : build E56 default evasive (Some (at_ "http://a/x")) (Some META) None c =
  (Ok (length (c_objs c)),
   mkCat (c_objs c ++ [evasive_obj])
     (add_schema default (at_ "http://a/y") (length (c_objs c)) (del_schema default (at_ "http://a/x") (add_schema default (at_ "http://a/x") (length (c_objs c)) (c_cache c))))).
Proof.
  destruct c as [l k]. unfold evasive, obj. rewrite build_object_eq. unfold bindM at 1. rewrite new_schema_eq. cbn [c_objs c_cache].
  set (k1 := add_schema default (at_ "http://a/x") (length l) k). unfold bindM at 1. unfold build_object. unfold bindM at 1, read at 1. cbn [c_objs]. rewrite nth_last.
  unfold bindM at 1, ret at 1. set (mem := map _ (map _ _)).
  unfold bindM at 1. unfold bootstrap. unfold bindM at 1. replace (add_keyword E56 (length l) mem (lit "$schema") (Std KSchema_)) with (@ret unit tt) by reflexivity. unfold ret at 1.
  unfold bindM at 1. replace (add_keyword E56 (length l) mem (lit "$vocabulary") (Std KVocabulary_)) with (@ret unit tt) by reflexivity. unfold ret at 1.
  replace (dmem (lit "$id") mem) with true by reflexivity. unfold bindM at 1. rewrite (metaschema_last l _ _ _ _ META dialect_2020_12 eq_refl).
  replace (match find_class dialect_2020_12 (lit "$id") with Some KId_ => Std KId_ | _ => Std KIdNext end) with (Std KId_) by reflexivity.
  replace (add_keyword E56 (length l) mem (lit "$id") (Std KId_)) with
    (do kw <- (do _ <- init_id E56 false (length l) (text "http://a/y"); ret (mkKw (Std KId_) (KJ (text "http://a/y")) None false [] None)); keep_keyword (length l) (lit "$id") kw) by reflexivity.
  unfold bindM at 1 2.
  replace (init_id E56 false (length l) (text "http://a/y")) with (set_uri simple (length l) (at_ "http://a/y")) by reflexivity.
  unfold set_uri. unfold bindM at 1, read at 1. cbn [c_objs]. rewrite nth_last. cbn [so_uri so_cache].
  replace (uri_same simple (at_ "http://a/x") (at_ "http://a/y")) with false by reflexivity. unfold bindM at 1, uncache_schema at 1, modify at 1. cbn [c_objs c_cache].
  set (k2 := del_schema _ _ k1). unfold bindM at 1. rewrite update_last. unfold cache_schema at 1, modify at 1. cbn [c_objs c_cache]. set (k3 := add_schema _ _ _ k2).
  unfold ret at 1. unfold keep_keyword. rewrite update_last. cbn [with_uri with_data so_uri so_meta so_up so_cache so_data].
  set (kws := [(lit "$id", mkKw (Std KId_) (KJ (text "http://a/y")) None false [] None)]).
  match goal with |- context [mkCat (l ++ [?o]) k3] => replace o with (mkObj (Some (at_ "http://a/y")) (Some META) None default (SObj kws)) by reflexivity end.
  unfold bindM at 1.
  assert (Cs : classes E56 (length l) (filter (fun key => negb (mem_str key bootstrapped)) (keys mem)) (mkCat (l ++ [mkObj (Some (at_ "http://a/y")) (Some META) None default (SObj kws)]) k3)
               = (Ok [(lit "$ref", Std KRef)], mkCat (l ++ [mkObj (Some (at_ "http://a/y")) (Some META) None default (SObj kws)]) k3)).
  { replace (filter (fun key => negb (mem_str key bootstrapped)) (keys mem)) with [lit "$ref"] by reflexivity. unfold classes. cbn [mapM]. unfold bindM at 1 2.
    rewrite (metaschema_last l _ _ _ _ META dialect_2020_12 eq_refl). reflexivity. }
  rewrite Cs. unfold bindM at 1, lift at 1. replace (resolve_dependencies kwclass_eqb depends_on _ _) with (Ok [Std KRef]) by reflexivity.
  cbn [each_]. unfold bindM at 1.
  replace (add_keyword E56 (length l) mem (key_of (Std KRef)) (Std KRef)) with (keep_keyword (length l) (lit "$ref") (mkKw (Std KRef) (KJ (text "http://a/x")) None false [] None)) by reflexivity.
  unfold keep_keyword. rewrite update_last. reflexivity.
Qed.
Theorem C56_refuted : reads_json E56 /\ forall f, fst (get_schema E56 f default (at_ "http://a/x") (Some META) empty) = Fuel.
Proof.
  split; [now apply shelf_reads|].
  assert (G : forall f c, tidy (c_cache c) -> cached default (at_ "http://a/x") (c_cache c) = None -> fst (get_schema E56 f default (at_ "http://a/x") (Some META) c) = Fuel).
  { induction f as [|f IH]; intros c T N; unfold get_schema, get_schema_with; unfold bindM at 1, read at 1; rewrite N; unfold bindM at 1, read at 1; cbn [at_ u_frag];
      replace (u_frag (at_ "http://a/x")) with (@None pystr) by reflexivity;
      unfold bindM at 1 2, lift at 1; replace (load_json (e_lib E56) (e_sources E56) (no_fragment (at_ "http://a/x"))) with (Ok evasive) by reflexivity;
      unfold bindM at 1, construct_with; unfold bindM at 1; replace (no_fragment (at_ "http://a/x")) with (at_ "http://a/x") by reflexivity; rewrite evasive_built.
    - reflexivity.
    - set (k2 := add_schema _ _ _ (del_schema _ _ _)). cbn [evasive obj]. unfold bindM at 1. cbn [resolve_references]. unfold bindM at 1, read at 1.
      assert (Kw : schema_keywords (objs_world (c_objs (mkCat (c_objs c ++ [evasive_obj]) k2))) (length (c_objs c)) = match so_data evasive_obj with SObj kws => kws | _ => [] end).
      { unfold schema_keywords, objs_world. cbn [w_schema c_objs]. now rewrite nth_last. }
      rewrite Kw. cbn [evasive_obj so_data each_ fst snd kw_class reference_class kw_json]. unfold bindM at 1, ret at 1. unfold bindM at 1.
      unfold resolve_keyword. unfold bindM at 1, read at 1. cbn [c_objs kw_class kw_json]. rewrite nth_last. cbn [so_cache evasive_obj].
      unfold bindM at 1. replace (absolute_reference E56 (length (c_objs c)) (KJ (text "http://a/x"))) with (fun c => (Ok (at_ "http://a/x"), c) : res uri * cat) by reflexivity.
      unfold metaschema_uri. cbn [climb]. rewrite nth_last. cbn [so_meta evasive_obj]. change (mkObj _ _ _ _ _) with evasive_obj.
      assert (T2 : tidy k2) by (apply tidy_add, tidy_del, tidy_add, T).
      assert (N2 : cached default (at_ "http://a/x") k2 = None).
      { unfold k2. rewrite cached_add. replace (str_eqb default default && uri_eqb (at_ "http://a/x") (at_ "http://a/y")) with false by reflexivity.
        rewrite cached_del by (apply tidy_add, T). replace (str_eqb default default && uri_eqb (at_ "http://a/x") (at_ "http://a/x")) with true by reflexivity. reflexivity. }
      specialize (IH (mkCat (c_objs c ++ [evasive_obj]) k2) T2 N2). unfold get_schema in IH. unfold bindM at 1.
      match type of IH with fst ?x = _ => destruct x as [[?| |] c9]; cbn [fst] in IH; try discriminate IH end. reflexivity. }
  intro f. apply G; [repeat constructor|reflexivity].
Qed.
Print Assumptions C56_refuted.

(** An $id with an empty fragment, which the $id keyword of 2019-09 and 2020-12
    accepts, hides the schema from its own references: it is cached under the
    URI with the number sign, and looked up without it. *)
Theorem C51_empty_fragment_refuted : exists E v, reads_json E /\ jwf v = true /\
  fst (construct E 9 default v None (Some META) empty) = Exn ECatalog /\
  (let c := snd (construct E 9 default v None (Some META) empty) in
   cached default (at_ "http://a/s#") (c_cache c) = Some 0 /\ canonical_uri (c_objs c) 1 = Ok (Some (at_ "http://a/s#/$defs/x")) /\
   fst (get_schema E 9 default (at_ "http://a/s#/$defs/x") (Some META) c) = Exn ECatalog).
Proof.
  exists (env_of [] []), (obj [("$id", text "http://a/s#"); ("$defs", obj [("x", JBool true)]); ("$ref", text "#/$defs/x")]).
  split; [now apply shelf_reads|]. vm_compute. auto 10.
Qed.
Print Assumptions C51_empty_fragment_refuted.
