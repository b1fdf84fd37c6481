(** Constructing a schema ends. *)
From Coq Require Import String List Bool Lia.
From Verif Require Import SchemaCases SpecEnds PropsBuild BuildEnds.
Import ListNotations.
Open Scope string_scope.
Open Scope list_scope.
Open Scope nat_scope.

(** ** C56, where documents name themselves *)

(** Of a finite library whose documents each name themselves, in any catalog
    that came about by constructing and looking up schemas: construction of
    any document (whatever it calls itself), and lookup of any URI, comes to
    an end, with an outcome that no longer depends on the fuel. *)
Theorem C56_construct_ends : forall E L, library E L -> answering E -> reads_json E ->
  forall id v u m c, reachable c -> jwf v = true ->
  exists N r c', r <> Fuel /\ forall f, N <= f -> construct E f id v u m c = (r, c').
Proof. intros E L H A D id v u m c R J. exact (construct_ends E L H A D id v u m c (reachable_sane c R) J). Qed.
Theorem C56_lookup_ends : forall E L, library E L -> answering E -> reads_json E ->
  forall id u m c, reachable c ->
  exists N r c', r <> Fuel /\ forall f, N <= f -> get_schema E f id u m c = (r, c').
Proof. intros E L H A D id u m c R. exact (get_ends E L H A D id u m c (reachable_sane c R)). Qed.

(** Shelves of self-naming documents are such libraries. *)
Definition naming (E : env) (b : uri) (doc : json) : bool :=
  match doc with JObj ms => match own_uri E (Some b) None ms with Some u => uri_eqb u b | None => false end | _ => true end.
Lemma naming_names E b doc : naming E b doc = true -> names_itself E b doc.
Proof. unfold naming, names_itself. destruct doc; auto. destruct (own_uri E (Some b) None m) as [u|]; [|discriminate]. now destruct (uri_eqb_spec u b) as [->|]. Qed.
Lemma shelf_library l fs : forallb (fun kv => naming (env_of l fs) (mkUri (lit (fst kv)) None) (snd kv)) l = true ->
  library (env_of l fs) (map (fun kv => mkUri (lit (fst kv)) None) l).
Proof.
  intros F b doc Fb H. unfold load_json in H. cbn [e_lib env_of] in H. destruct (or_catalog_error _) as [[]| |]; [|discriminate H|discriminate H]. cbn [bind e_sources env_of shelf filter fst prefixb] in H.
  cbn [sort_longest insert_longest length skipn] in H.
  destruct (dget (uri_str b) (map (fun kv => (lit (fst kv), snd kv)) l)) as [v|] eqn:D; [|discriminate H]. injection H as <-.
  apply dget_In in D. apply in_map_iff in D. destruct D as ([k v'] & X & Hin). apply pair_equal_spec in X. destruct X as [X <-].
  assert (Eb : b = mkUri (lit k) None). { destruct b as [p q]. cbn in Fb. subst q. cbn [fst] in X. rewrite X. unfold uri_str. cbn [u_base u_frag]. now rewrite ?app_nil_r. }
  subst b. split; [exact (in_map (fun kv => mkUri (lit (fst kv)) None) _ _ Hin)|]. apply naming_names. rewrite forallb_forall in F. exact (F _ Hin).
Qed.
Lemma shelf_answers l fs : answering (env_of l fs).
Proof.
  intros b H. unfold load_json in H. cbn [e_lib env_of] in H. unfold or_catalog_error in H. destruct (uri_validate simple true true false true b) as [[]|e|] eqn:V; cbn [bind] in H.
  - cbn [e_sources env_of shelf filter fst prefixb sort_longest insert_longest length skipn] in H. destruct (dget _ _); discriminate H.
  - destruct e; discriminate H.
  - unfold uri_validate in V. repeat match type of V with context [if ?b then _ else _] => destruct b end; discriminate V.
Qed.

(** Two documents that refer to one another and to themselves, one by the name
    it gives itself; a document to be constructed that calls itself otherwise
    than it is called and refers to all of them. *)
Definition ring : list (string * json) :=
  [("http://a/one", obj [("$id", text "http://a/one"); ("items", obj [("$ref", text "http://a/two")]); ("not", obj [("$ref", text "#")])]);
   ("http://a/two", obj [("$ref", text "http://a/one#/not"); ("$defs", obj [("d", obj [("$ref", text "http://a/two"); ("$id", text "http://a/three")])])])].
Example C56_ends_case :
  library (env_of ring []) [at_ "http://a/one"; at_ "http://a/two"] /\ answering (env_of ring []) /\ reads_json (env_of ring []) /\
  (let r := construct (env_of ring []) 9 default (obj [("$id", text "http://a/me"); ("$ref", text "http://a/one"); ("anyOf", JArr [obj [("$ref", text "http://a/two")]; obj [("$ref", text "http://a/three")]])])
              (Some (at_ "http://a/you")) (Some META) empty in
   fst r = Ok 0 /\ refs_of (snd r) = [Some 3; Some 6; Some 7; Some 6; Some 3; Some 5; Some 6]) /\
  ~ (exists L, library E56 L).
Proof.
  split; [exact (shelf_library ring [] eq_refl)|]. split; [apply shelf_answers|]. split; [now apply shelf_reads|]. split; [vm_compute|].
  - auto.
  - intros [L H]. destruct (H (at_ "http://a/x") evasive) as [_ N]; [reflexivity|reflexivity|]. apply (f_equal (fun o => match o with Some u => uri_eqb u (at_ "http://a/y") | None => false end)) in N. vm_compute in N. discriminate N.
Qed.
Print Assumptions C56_construct_ends.
Print Assumptions C56_lookup_ends.
