(** C87: catalogs made by create_catalog. *)
From Coq Require Import String List Bool Lia Permutation.
From Verif Require Import BaseFacts CatalogFacts SchemaCases PropsBuild PropsMeta PropsCatalog SpecStart StartFacts.
Import ListNotations.
Open Scope string_scope.
Open Scope list_scope.
Open Scope nat_scope.

Lemma called_name n v : version_called n = Some v <-> n = version_name v.
Proof.
  split.
  - unfold version_called. intro H. apply find_some in H. destruct H as [_ H]. destruct (str_eqb_spec (version_name v) n); [congruence|discriminate H].
  - intros ->. destruct v; reflexivity.
Qed.
Lemma fine_start E see open package : fine E see open package [] [] (mkMcat (mkCat [] []) [] []).
Proof. split; [reflexivity|]. split; [intros v []|]. split; [constructor|]. split; intros v []. Qed.

(** A catalog that is made without error has, for every version named, its
    vocabularies, its metaschema with the keywords of that version, and the
    documents in the directory of that version. *)
Theorem C87_offers : forall E see open package f names (name : pystr) c r c' r' t st, installed package -> opens_json open ->
  (forall v, In (version_name v) names -> parses_version E v /\
     exists ms, open (file_of package v (lit "schema")) = Ok (JObj ms) /\ lists_standard v ms) ->
  create_catalog E see open package f names name c r = (Ok c', r', (t, st)) ->
  c' = c /\
  forall n, In n names -> exists v, n = version_name v /\ knows_standard st v /\ has_metaschema st v /\
    forall u rest, loadable (e_lib E) u -> uri_str u = draft v "" ++ rest ->
      load_json (e_lib E) t u = match open (file_of package v rest) with Exn _ => Exn ECatalog | e => e end.
Proof.
  intros E see open package f names name c r c' r' t st Ip O Hv H. unfold create_catalog in H.
  destruct (initialize_all E see open package f names [] _) as [x [t0 st0]] eqn:I. apply pair_equal_spec in H. destruct H as [H H2]. apply pair_equal_spec in H2. destruct H2 as [-> ->]. apply pair_equal_spec in H. destruct H as [H _].
  destruct x as [[]|e|]; [|destruct e; discriminate H|discriminate H]. injection H as <-. split; [reflexivity|].
  assert (Hn : forall n v, In n names -> version_called n = Some v -> parses_version E v /\ main_document open package v).
  { intros n v Hn Cn. apply called_name in Cn. subst n. destruct (Hv v Hn) as (P & ms & Om & Ls). split; [exact P|]. exists ms. split; [|exact Ls]. now rewrite source_file. }
  destruct (all_fine E see open package f names [] [] _ t st O Hn (fun v (X : In v []) => match X return parses_version E v with end) (fine_start E see open package) I) as (ws & Eq & Ht & A & _ & Kn & Me). clear Hn.
  cbn [app] in Ht, A, Kn, Me.
  assert (P : forall w, In w ws -> parses_version E w).
  { intros w Hw. apply Hv. assert (X : In (Some w) (map version_called names)) by (rewrite Eq; now apply in_map). apply in_map_iff in X. destruct X as (n & Cn & Hn). apply called_name in Cn. now subst n. }
  intros n Hn. assert (X : In (version_called n) (map Some ws)) by (rewrite <- Eq; now apply in_map). apply in_map_iff in X. destruct X as (v & Cn & Hw). symmetry in Cn. apply called_name in Cn.
  exists v. split; [exact Cn|]. split; [now apply Kn|]. split; [now apply Me|]. intros u rest V U. rewrite Ht, (table_loads E open package ws v u rest P A Hw V U). now rewrite source_file.
Qed.
Print Assumptions C87_offers.

(** Whatever is not the name of a version is refused: nothing is returned, and
    a ValueError is raised unless a version named before it fails. *)
Lemma all_app E see open package f a b : forall t st, initialize_all E see open package f (a ++ b) t st =
  match initialize_all E see open package f a t st with
  | (Ok _, (t', st')) => initialize_all E see open package f b t' st'
  | x => x
  end.
Proof.
  induction a as [|n a IH]; intros t st; [reflexivity|]. cbn [app initialize_all]. destruct (version_called n) as [v|]; [|reflexivity].
  destruct (initialize E see open package f v t st) as [[?| |] [t' st']]; [apply IH|reflexivity|reflexivity].
Qed.
Theorem C87_unrecognised : forall E see open package f before n after (name : pystr) c r, (forall v, n <> version_name v) ->
  let made names := fst (fst (create_catalog E see open package f names name c r)) in
  made (before ++ n :: after) = match made before with Ok _ => Exn EValue | e => e end.
Proof.
  intros E see open package f before n after name c r Hn made. unfold made, create_catalog. rewrite all_app.
  destruct (initialize_all E see open package f before [] _) as [[[]|e|] [t st]]; [|destruct e; reflexivity|reflexivity]. cbn [initialize_all].
  destruct (version_called n) as [v|] eqn:Cn; [apply called_name in Cn; now destruct (Hn v)|]. reflexivity.
Qed.
Print Assumptions C87_unrecognised.

(** Whether or not an exception is raised, the new catalog is the one with the
    given name from then on, and the other names keep their catalogs. *)
Theorem C87_registered : forall E see open package f names (name : pystr) c r,
  let r' := snd (fst (create_catalog E see open package f names name c r)) in
  get_catalog name r' = Ok c /\ forall other, other <> name -> get_catalog other r' = get_catalog other r.
Proof.
  intros E see open package f names name c r. unfold create_catalog. destruct (initialize_all E see open package f names [] _) as [x [t st]]. cbn [fst snd].
  unfold get_catalog, register_catalog. split.
  - rewrite dget_dset. destruct (str_eqb_spec name name); [reflexivity|congruence].
  - intros other D. rewrite dget_dset. destruct (str_eqb_spec other name); [contradiction|reflexivity].
Qed.
Print Assumptions C87_registered.

(** ** A case *)

(** Two versions installed; the main document of one lists the vocabularies. *)
Definition home : pystr := lit "/opt/jschon/catalog".
Definition next_schema : json :=
  obj [("$schema", JStr (draft VNext "schema")); ("$id", JStr (draft VNext "schema")); ("type", JArr [text "object"; text "boolean"]);
       ("properties", obj [("minLength", obj [("type", text "integer")])])].
Definition files : list (pystr * json) :=
  combine (map lit ["/opt/jschon/catalog/json-schema-2020-12/schema.json"; "/opt/jschon/catalog/json-schema-2020-12/meta/core.json"; "/opt/jschon/catalog/json-schema-2020-12/meta/applicator.json"]) (map snd docs2020)
  ++ [(lit "/opt/jschon/catalog/json-schema-next/schema.json", next_schema)].
Definition open_file (file : pystr) : res json := match dget file files with Some d => Ok d | None => Exn EOther end.
Definition E87 : env := env_docs [].
Definition start (names : list string) (c : nat) (r : registry) : res nat * registry * (sources * mcat) :=
  create_catalog E87 view open_file home 60 (map lit names) (lit "catalog") c r.
Lemma parses87 v : parses_version E87 v.
Proof.
  assert (H : Forall (fun n => split_uri n = mkUri n None) (draft v "" :: draft v "schema" :: map fst (standard_vocabularies v))) by (destruct v; repeat constructor).
  inversion H as [|? ? H1 H']; subst. inversion H' as [|? ? H2 H3]; subst. split; [intros n I; rewrite Forall_forall in H3; now apply H3|]. split.
  - intros n [<-|[<-|[]]]; assumption.
  - destruct v; repeat split; reflexivity.
Qed.
Example C87_case :
  installed home /\ opens_json open_file /\
  (forall v, In (version_name v) (map lit ["2020-12"; "next"]) -> parses_version E87 v /\
     exists ms, open_file (file_of home v (lit "schema")) = Ok (JObj ms) /\ lists_standard v ms) /\
  fst (fst (start ["2020-12"; "next"] 7 [])) = Ok 7 /\
  (let st := snd (snd (start ["2020-12"; "next"] 7 [])) in
   length (c_objs (mc_cat st)) = 18 /\ length (mc_vocabs st) = 14 /\
   load_json (e_lib E87) (fst (snd (start ["2020-12"; "next"] 7 []))) (mkUri (draft VNext "schema") None) = Ok next_schema /\
   load_json (e_lib E87) (fst (snd (start ["2020-12"; "next"] 7 []))) (mkUri (draft V2019 "schema") None) = Exn ECatalog) /\
  fst (fst (start ["2019-09"] 7 [])) = Exn ECatalog /\ fst (fst (start [] 7 [])) = Ok 7.
Proof.
  split; [exists 111%N, (lit "pt/jschon/catalog"); split; [reflexivity|discriminate]|]. split.
  { intros file doc H. unfold open_file in H. destruct (dget file files) as [d|] eqn:D; [|discriminate H]. injection H as ->. apply dget_In in D.
    assert (F : forallb (fun kv => jwf (snd kv)) files = true) by (vm_compute; reflexivity). rewrite forallb_forall in F. exact (F _ D). }
  split.
  { intros v I. split; [apply parses87|]. destruct I as [Ev|[Ev|[]]]; apply called_name in Ev; injection Ev as <-.
    - exists schema2020. split; [vm_compute; reflexivity|]. unfold lists_standard. change (dget (lit "$vocabulary") schema2020) with (Some listing). unfold listing, keys. rewrite map_map. cbn [fst]. apply Permutation_map, Permutation_sym, Permutation_rev.
    - eexists. split; vm_compute; reflexivity. }
  split; [vm_compute; reflexivity|]. split; [cbv zeta; repeat split; vm_compute; reflexivity|]. split; vm_compute; reflexivity.
Qed.

(** A creation that fails leaves the new catalog under the name, in place of
    the one that was there. *)
Theorem C87_failed_refuted : exists names r, get_catalog (lit "catalog") r = Ok 0 /\
  fst (fst (start names 1 r)) = Exn EValue /\ get_catalog (lit "catalog") (snd (fst (start names 1 r))) = Ok 1 /\
  length (mc_vocabs (snd (snd (start names 1 r)))) = 7.
Proof. exists ["next"; "draft-07"], (register_catalog (lit "catalog") 0 []). repeat split; vm_compute; reflexivity. Qed.
Print Assumptions C87_failed_refuted.
