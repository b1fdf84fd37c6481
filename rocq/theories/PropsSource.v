(** C79, C80: files read by a LocalSource, and the registry of catalogs. *)
From Coq Require Import String List Bool Lia.
From Verif Require Import BaseFacts MetaFacts CatalogFacts SourceFacts SchemaCases PropsCatalog.
Import ListNotations.
Open Scope string_scope.
Open Scope list_scope.
Open Scope nat_scope.

(** ** C79 *)

(** Without a suffix, exactly where any relative path leads: an absolute one
    where it says, another one from the base directory on. *)
Theorem C79_where : forall cwd base rel,
  leads_to cwd (local_file base None rel) =
  match rel with
  | c :: _ => if N.eqb c 47 then leads_to cwd rel else fold_left enter (split_char 47 rel) (leads_to cwd base)
  | [] => leads_to cwd base
  end.
Proof.
  intros cwd base rel. unfold local_file. rewrite app_nil_r. rewrite leads_str_plain.
  - unfold path_join. destruct rel as [|c rel].
    + cbn [path_of posix_root slashes pp_root pp_parts]. rewrite fold_left_app, (leads_path cwd base). reflexivity.
    + destruct (N.eqb_spec c 47) as [E|E].
      * destruct (pp_root (path_of (c :: rel))) as [|r0 r] eqn:R.
        -- exfalso. now apply (proj1 (posix_root_nil (c :: rel)) R).
        -- rewrite (leads_path cwd (c :: rel)). reflexivity.
      * assert (R : pp_root (path_of (c :: rel)) = []) by (now apply posix_root_nil). rewrite R. cbn [pp_root pp_parts].
        rewrite fold_left_app, (leads_path cwd base). cbn [path_of pp_parts]. rewrite !enter_filter. reflexivity.
  - unfold path_join. destruct (pp_root (path_of rel)); apply posix_root_is.
  - unfold path_join. destruct (pp_root (path_of rel)); cbn [pp_parts]; [apply Forall_app; split|]; apply parts_proper.
Qed.
Print Assumptions C79_where.

(** With a suffix without a slash, exactly where any path leads: to the place
    of its last part with the suffix at it; if it has no parts, the suffix is
    at the last part of the base directory, which is then outside it; the
    root directory alone leads to a file with the name of the suffix in it. *)
Lemma unreal y : y = [] \/ y = lit "." -> real_part y = false.
Proof. intros [ -> | -> ]; reflexivity. Qed.
Lemma unreal_filter l : (forall y, In y l -> y = [] \/ y = lit ".") -> filter real_part l = [].
Proof. induction l as [|y l IH]; intro H; [reflexivity|]. cbn [filter]. rewrite (unreal y (H y (or_introl eq_refl))). apply IH. intros z Z. apply H. now right. Qed.
Lemma last_parts file l x : last_name file l x -> pp_parts (path_of file) = filter real_part l ++ [x].
Proof.
  intros (N1 & N2 & rest & E & F). cbn [path_of pp_parts]. rewrite E, filter_app. cbn [filter]. rewrite (unreal_filter _ F).
  assert (R : real_part x = true) by (unfold real_part; now rewrite (proj2 (str_eqb_neq x []) N1), (proj2 (str_eqb_neq x (lit ".")) N2)). now rewrite R.
Qed.
Lemma nameless_parts file : nameless file -> pp_parts (path_of file) = [].
Proof. exact (unreal_filter _). Qed.
Lemma last_path file l x : last_name file l x -> path_of file = mkPath (posix_root file) (filter real_part l ++ [x]).
Proof. intro L. rewrite <- (last_parts _ _ _ L). reflexivity. Qed.
Lemma nameless_path file : nameless file -> path_of file = mkPath (posix_root file) [].
Proof. intro L. rewrite <- (nameless_parts _ L). reflexivity. Qed.
Lemma absolute_root file : absolute file -> posix_root file <> [].
Proof. intros (r & ->) E. apply posix_root_nil in E. now apply E. Qed.
Lemma relative_root file : ~ absolute file -> posix_root file = [].
Proof. intro A. apply posix_root_nil. destruct file as [|c r]; [exact I|]. intros ->. apply A. now exists r. Qed.
Lemma no_slash_split s : ~ In 47%N s -> split_char 47 s = [s].
Proof. intro H. change s with (slashed [s]) at 1. apply split_slashed; [discriminate|]. constructor; [exact H|constructor]. Qed.
Lemma leads_root_suffix cwd r s : is_root r -> r <> [] -> s <> [] -> ~ In 47%N s -> leads_to cwd (path_str (mkPath r []) ++ s) = enter [] s.
Proof.
  intros R N N' S. destruct R as [ -> |[ -> | -> ]]; [now elim N| |]; unfold path_str, leads_to; cbn [pp_root pp_parts slashed app split_char N.eqb Pos.eqb].
  - rewrite (no_slash_split s S). reflexivity.
  - rewrite (no_slash_split s S). reflexivity.
Qed.
Theorem C79_where_suffix : forall cwd base rel s, s <> [] -> ~ In 47%N s ->
  let place := leads_to cwd (local_file base (Some s) rel) in
  (forall l x, last_name rel l x -> absolute rel -> place = enter (fold_left enter l []) (x ++ s)) /\
  (forall l x, last_name rel l x -> ~ absolute rel -> place = enter (fold_left enter l (leads_to cwd base)) (x ++ s)) /\
  (nameless rel -> absolute rel -> place = enter [] s) /\
  (nameless rel -> ~ absolute rel ->
     (forall l x, last_name base l x -> absolute base -> place = enter (fold_left enter l []) (x ++ s)) /\
     (forall l x, last_name base l x -> ~ absolute base -> place = enter (fold_left enter l cwd) (x ++ s)) /\
     (nameless base -> absolute base -> place = enter [] s) /\
     (nameless base -> ~ absolute base -> place = enter cwd (lit "." ++ s))).
Proof.
  intros cwd base rel s N S place.
  assert (G : forall r l x, is_root r -> Forall (fun t => ~ In 47%N t /\ t <> []) (l ++ [x]) -> leads_to cwd (path_str (mkPath r (l ++ [x])) ++ s) = enter (fold_left enter l (origin cwd r)) (x ++ s)).
  { intros r l x R F. rewrite leads_str; cbn [pp_root pp_parts]; [|exact R|now destruct l|exact F|exact S]. now rewrite suffixed_snoc, fold_left_app. }
  assert (P : forall file l x, last_name file l x -> Forall (fun t => ~ In 47%N t /\ t <> []) (filter real_part l ++ [x])) by (intros file l x L; rewrite <- (last_parts _ _ _ L); apply parts_proper).
  assert (O : forall file, absolute file -> origin cwd (posix_root file) = []) by (intros file A; pose proof (absolute_root _ A); now destruct (posix_root file)).
  assert (J : absolute rel -> path_join (path_of base) (path_of rel) = path_of rel) by (intro A; unfold path_join; pose proof (absolute_root _ A); cbn [path_of pp_root]; now destruct (posix_root rel)).
  assert (J' : ~ absolute rel -> path_join (path_of base) (path_of rel) = mkPath (posix_root base) (pp_parts (path_of base) ++ pp_parts (path_of rel))) by (intro A; apply join_rel; exact (relative_root _ A)).
  unfold place, local_file. cbv iota. repeat apply conj.
  - intros l x L A. rewrite (J A). rewrite (last_path _ _ _ L). refine (eq_trans (G _ _ _ (posix_root_is rel) (P _ _ _ L)) _). rewrite (O _ A). now rewrite enter_filter.
  - intros l x L A. rewrite (J' A), (last_parts _ _ _ L), app_assoc. refine (eq_trans (G _ _ _ (posix_root_is base) _) _); [rewrite <- app_assoc; apply Forall_app; split; [apply parts_proper|exact (P _ _ _ L)]|].
    rewrite fold_left_app, enter_filter, (leads_path cwd base). reflexivity.
  - intros Nm A. rewrite (J A). rewrite (nameless_path _ Nm). apply leads_root_suffix; [apply posix_root_is|exact (absolute_root _ A)|exact N|exact S].
  - intros Nm A. rewrite (J' A), (nameless_parts _ Nm), app_nil_r. repeat apply conj.
    + intros l x L B. rewrite (last_parts _ _ _ L). refine (eq_trans (G _ _ _ (posix_root_is base) (P _ _ _ L)) _). rewrite (O _ B). now rewrite enter_filter.
    + intros l x L B. rewrite (last_parts _ _ _ L). refine (eq_trans (G _ _ _ (posix_root_is base) (P _ _ _ L)) _). rewrite (relative_root _ B). now rewrite enter_filter.
    + intros Nb B. rewrite (nameless_parts _ Nb). apply leads_root_suffix; [apply posix_root_is|exact (absolute_root _ B)|exact N|exact S].
    + intros Nb B. rewrite (nameless_parts _ Nb), (relative_root _ B). unfold leads_to. cbn [path_str pp_root pp_parts slashed app]. change (lit ".") with [46%N]. cbn [app].
      rewrite no_slash_split; [reflexivity|]. intros [X|X]; [discriminate X|exact (S X)].
Qed.
Print Assumptions C79_where_suffix.
(** These are all the cases. *)
Theorem C79_cases : forall file, nameless file \/ exists l x, last_name file l x.
Proof.
  intro file. unfold nameless, last_name. induction (split_char 47 file) as [|y p IH]; [left; intros y []|].
  assert (D : (y = [] \/ y = lit ".") \/ (y <> [] /\ y <> lit ".")).
  { destruct (str_eqb_spec y []) as [H|H]; [auto|]. destruct (str_eqb_spec y (lit ".")) as [H'|H']; auto. }
  destruct IH as [Nm|(l & x & N1 & N2 & rest & E & F)].
  - destruct D as [D|[D1 D2]]; [left; intros z [<-|Z]; auto|]. right. exists [], y. split; [exact D1|]. split; [exact D2|]. exists p. auto.
  - right. exists (y :: l), x. split; [exact N1|]. split; [exact N2|]. exists rest. split; [cbn; now rewrite E|exact F].
Qed.
Print Assumptions C79_cases.
(** Some of each: a name, two dots, no name, the root. *)
Example C79_where_suffix_case :
  let file := local_file (lit "/srv/schemas") (Some (lit ".json")) in
  last_name (lit "a/b/.") [lit "a"] (lit "b") /\ leads_to [] (file (lit "a/b/.")) = [lit "b.json"; lit "a"; lit "schemas"; lit "srv"] /\
  last_name (lit "a/..") [lit "a"] (lit "..") /\ leads_to [] (file (lit "a/..")) = [lit "...json"; lit "a"; lit "schemas"; lit "srv"] /\
  nameless (lit "./") /\ leads_to [] (file (lit "./")) = [lit "schemas.json"; lit "srv"] /\
  leads_to [] (file (lit "/")) = [lit ".json"] /\ leads_to [lit "home"] (local_file [] (Some (lit ".json")) []) = [lit "..json"; lit "home"].
Proof.
  cbv zeta. split; [split; [discriminate|]; split; [discriminate|]; exists [lit "."]; split; [vm_compute; reflexivity|]; intros y [<-|[]]; now right|]. split; [vm_compute; reflexivity|].
  split; [split; [discriminate|]; split; [discriminate|]; exists []; split; [vm_compute; reflexivity|]; intros y []|]. split; [vm_compute; reflexivity|].
  split; [intros y [<-|[<-|[]]]; [now right|now left]|]. split; [vm_compute; reflexivity|]. split; vm_compute; reflexivity.
Qed.

(** A path that names something and never goes up is looked for inside the
    base directory, with the suffix at its last name.  Missing for the claim:
    the other paths, for which it fails (below). *)
Theorem C79_inside_partial : forall cwd base suffix rel,
  downward rel -> (forall s, suffix = Some s -> ~ In 47%N s) ->
  inside (leads_to cwd base) (leads_to cwd (local_file base suffix rel)).
Proof.
  intros cwd base suffix rel D S. destruct (downward_parts rel D) as (R & N & F).
  assert (Hs : ~ In 47%N (fixed suffix)) by (destruct suffix as [s|]; [exact (S s eq_refl)|now intros []]).
  rewrite local_below by assumption. rewrite enter_names by (now apply suffixed_names).
  eexists. split; [|reflexivity]. intros E. apply (f_equal (@length _)) in E. rewrite rev_length in E.
  destruct (pp_parts (path_of rel)) as [|x [|y l]]; [now elim N| |]; discriminate E.
Qed.
Print Assumptions C79_inside_partial.

(** So is whatever a catalog reads through it. *)
Theorem C79_loads_partial : forall L h open base suffix u p rest cwd v,
  loadable L u -> longest L h (uri_str u) p -> latest L h p (local_source open base suffix) ->
  uri_str u = p ++ rest -> downward rest -> (forall s, suffix = Some s -> ~ In 47%N s) ->
  load_json L (SpecCatalog.register L h []) u = Ok v ->
  exists file, open file = Ok v /\ inside (leads_to cwd base) (leads_to cwd file).
Proof.
  intros L h open base suffix u p rest cwd v V Lo La E D S H. destruct (C48_longest L h u p _ V Lo La) as (rest' & E' & Q).
  rewrite E in E'. apply app_inv_head in E'. subst rest'. rewrite Q in H. exists (local_file base suffix rest). unfold local_source in H. split.
  - destruct (open (local_file base suffix rest)); congruence.
  - now apply C79_inside_partial.
Qed.
Print Assumptions C79_loads_partial.

(** The claim for all paths fails: two slashes in a URI after the registered
    prefix make any file of the system be read.  Nothing in a URI with two
    slashes in a row is abnormal, so it suffices that the URI is loadable. *)
Theorem C79_any_file_refuted : forall L base_uri base_dir open t u secret cwd,
  add_uri_source L (Some base_uri) (local_source open base_dir None) [] = Ok t ->
  loadable L u -> uri_str u = uri_str base_uri ++ 47%N :: secret ->
  exists file, leads_to cwd file = leads_to cwd (47%N :: secret) /\
    load_json L t u = match open file with Exn _ => Exn ECatalog | e => e end.
Proof.
  intros L b dir open t u secret cwd A V E. exists (local_file dir None (47%N :: secret)). split; [exact (C79_where cwd dir (47%N :: secret))|].
  unfold add_uri_source in A. destruct (or_catalog_error (uri_validate L true true false true b)) as [[]| |]; cbn [bind] in A; try discriminate A.
  destruct (ends_with_slash (ul_path L b)); [|discriminate A]. injection A as <-.
  unfold load_json. rewrite (proj2 (proj1 (validate_loadable L u)) V). cbn [bind or_catalog_error filter fst dset].
  rewrite E. assert (P : forall a s, prefixb a (a ++ s) = true) by (induction a as [|z a IH]; intros s; [reflexivity|]; cbn; rewrite N.eqb_refl; apply IH).
  rewrite P. cbn [sort_longest insert_longest]. rewrite skipn_app, skipn_all, Nat.sub_diag. cbn [app skipn]. unfold local_source.
  now destruct (open _).
Qed.
Print Assumptions C79_any_file_refuted.

(** So do a path with two dots and, if there is a suffix, the empty path. *)
Theorem C79_inside_refuted :
  ~ inside (leads_to [] (lit "/srv/schemas")) (leads_to [] (local_file (lit "/srv/schemas") (Some (lit ".json")) (lit "/etc/secret")))
  /\ ~ inside (leads_to [] (lit "/srv/schemas")) (leads_to [] (local_file (lit "/srv/schemas") (Some (lit ".json")) (lit "a/../../secret")))
  /\ ~ inside (leads_to [] (lit "/srv/schemas")) (leads_to [] (local_file (lit "/srv/schemas") (Some (lit ".json")) [])).
Proof.
  repeat apply conj.
  all: intros (names & _ & E); apply (f_equal (@rev _)) in E; rewrite rev_app_distr in E; vm_compute in E; discriminate E.
Qed.
Print Assumptions C79_inside_refuted.

(** A disk with two files. *)
Definition disk (file : pystr) : res json :=
  if str_eqb file (lit "/srv/schemas/tree/leaf.json") then Ok (text "leaf")
  else if str_eqb file (lit "/etc/secret") then Ok (text "secret")
  else Exn EOther.
Definition shop (suffix : option pystr) : list (option uri * source) := [(Some (http "a/"), local_source disk (lit "/srv/schemas/") suffix)].
Example C79_case :
  downward (lit "./tree//leaf")
  /\ local_file (lit "/srv/schemas/") (Some (lit ".json")) (lit "./tree//leaf") = lit "/srv/schemas/tree/leaf.json"
  /\ leads_to [lit "home"] (lit "/srv/schemas/tree/leaf.json") = [lit "leaf.json"; lit "tree"; lit "schemas"; lit "srv"]
  /\ load_json lax (SpecCatalog.register lax (shop (Some (lit ".json"))) []) (http "a/tree/leaf") = Ok (text "leaf")
  /\ load_json lax (SpecCatalog.register lax (shop (Some (lit ".json"))) []) (http "a/tree/twig") = Exn ECatalog
  /\ load_json lax (SpecCatalog.register lax (shop None) []) (http "a//etc/secret") = Ok (text "secret")
  /\ local_file (lit "/srv/schemas/") (Some (lit ".json")) [] = lit "/srv/schemas.json"
  /\ local_file (lit "schemas") None (lit "a/b") = lit "schemas/a/b" /\ local_file [] None (lit "a") = lit "a" /\ local_file [] None [] = lit "."
  /\ local_file (lit "//host/x") None (lit "a") = lit "//host/x/a" /\ local_file (lit "///x") None (lit "../a/.") = lit "/x/../a".
Proof.
  split.
  - split; [cbn; intros E; discriminate E|]. split.
    + intros x I. vm_compute in I. repeat (destruct I as [<-|I]; [intros E; vm_compute in E; discriminate E|]). destruct I.
    + exists (lit "leaf"). split; [vm_compute; tauto|]. split; intros E; vm_compute in E; discriminate E.
  - repeat apply conj; vm_compute; reflexivity.
Qed.

(** The suffix is simply appended: with a slash in it, even downward paths
    leave the directory. *)
Theorem C79_suffix_refuted : exists suffix rel, downward rel /\
  ~ inside (leads_to [] (lit "/srv")) (leads_to [] (local_file (lit "/srv") (Some suffix) rel)).
Proof.
  exists (lit "/../.."), (lit "a"). split.
  - split; [cbn; intros E; discriminate E|]. split; [|exists (lit "a")].
    + intros x [<-|[]] E. vm_compute in E. discriminate E.
    + split; [now left|]. split; intros E; vm_compute in E; discriminate E.
  - intros (names & _ & E). apply (f_equal (@rev _)) in E. rewrite rev_app_distr in E. vm_compute in E. discriminate E.
Qed.
Print Assumptions C79_suffix_refuted.

(** ** C80 *)

(** After any creations of catalogs, a name stands for the catalog created
    last under it; a name never used is refused with a CatalogError. *)
Definition created (h : list (pystr * nat)) : registry := fold_left (fun r x => register_catalog (fst x) (snd x) r) h [].

Theorem C80_registry : forall h name c,
  get_catalog name (created h) = Ok c <-> exists h1 h2, h = h1 ++ (name, c) :: h2 /\ ~ In name (map fst h2).
Proof.
  intros h. induction h as [|[n d] h IH] using rev_ind; intros name c.
  - cbn. split; [intros E; discriminate E|]. intros (h1 & h2 & E & _). now destruct h1.
  - unfold created in *. rewrite fold_left_app. cbn [fold_left fst snd]. unfold get_catalog, register_catalog in *. rewrite dget_dset.
    destruct (str_eqb_spec name n) as [En|En].
    + subst n. split.
      * intros E. injection E as ->. exists h, []. split; [reflexivity|intros []].
      * intros (h1 & h2 & E & N). destruct h2 as [|x h2] using rev_ind.
        -- apply app_inj_tail in E. destruct E as [_ E]. injection E as ->. reflexivity.
        -- exfalso. rewrite app_comm_cons, app_assoc in E. apply app_inj_tail in E. destruct E as [_ <-]. apply N. rewrite map_app, in_app_iff. right. now left.
    + rewrite IH. split.
      * intros (h1 & h2 & -> & N). exists h1, (h2 ++ [(n, d)]). split; [now rewrite <- app_assoc|]. rewrite map_app, in_app_iff. intros [X|[X|[]]]; auto.
      * intros (h1 & h2 & E & N). destruct h2 as [|x h2] using rev_ind.
        -- apply app_inj_tail in E. destruct E as [_ E]. exfalso. apply En. congruence.
        -- rewrite app_comm_cons, app_assoc in E. apply app_inj_tail in E. destruct E as [-> <-]. exists h1, h2. split; [reflexivity|].
           intros X. apply N. rewrite map_app, in_app_iff. now left.
Qed.
Print Assumptions C80_registry.
Theorem C80_unknown : forall h name, ~ In name (map fst h) <-> get_catalog name (created h) = Exn ECatalog.
Proof.
  intros h name. split.
  - intros N. destruct (get_catalog name (created h)) as [c|e|] eqn:G.
    + apply C80_registry in G. destruct G as (h1 & h2 & -> & _). elim N. rewrite map_app, in_app_iff. right. now left.
    + unfold get_catalog in G. destruct (dget name (created h)); [discriminate G|]. now injection G as <-.
    + unfold get_catalog in G. destruct (dget name (created h)); discriminate G.
  - intros G I. assert (X : exists c h1 h2, h = h1 ++ (name, c) :: h2 /\ ~ In name (map fst h2)).
    { clear G. induction h as [|[n d] h IH]; [destruct I|]. destruct (in_dec (list_eq_dec N.eq_dec) name (map fst h)) as [J|J].
      - destruct (IH J) as (c & h1 & h2 & -> & N). exists c, ((n, d) :: h1), h2. now split.
      - destruct I as [I|I]; [|now elim J]. cbn in I. subst n. exists d, [], h. now split. }
    destruct X as (c & X). apply C80_registry in X. rewrite X in G. discriminate G.
Qed.
Print Assumptions C80_unknown.
Example C80_case :
  get_catalog (lit "b") (created [(lit "a", 1); (lit "b", 2); (lit "a", 3)]) = Ok 2
  /\ get_catalog (lit "a") (created [(lit "a", 1); (lit "b", 2); (lit "a", 3)]) = Ok 3
  /\ get_catalog (lit "c") (created [(lit "a", 1); (lit "b", 2); (lit "a", 3)]) = Exn ECatalog.
Proof. repeat split. Qed.
