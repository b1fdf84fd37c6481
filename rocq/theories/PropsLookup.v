(** C104: looking up a schema by a JSON pointer. *)
From Coq Require Import String List Bool Lia.
From Verif Require Import PyIntFacts SpecTreeAny PointerFacts PropsLenient SchemaCases LookupFacts PropsBuild PropsEdit.
Import ListNotations.
Open Scope string_scope.
Open Scope list_scope.
Open Scope nat_scope.

(** A URI with a JSON pointer for fragment, not cached itself, whose base URI
    leads to a schema in the cache that was made from document [v]: the lookup
    returns the subschema at the place that the pointer is read as, and where
    there is none raises CatalogError, or ValueError where an array is given a
    key that is no integer.  Nothing is changed. *)
Theorem C104_lookup : forall E f id c u fr p r m m0 b u0 v up,
  u_frag u = Some fr -> fr <> [] -> cached id u (c_cache c) = None -> cached id (no_fragment u) (c_cache c) = Some r ->
  made E (c_objs c) m0 b u0 v r up -> jwf v = true -> parse_uri_fragment fr = Ok p ->
  let (x, c') := get_schema E f id u m c in
  c' = c /\
  match x with
  | Ok t => exists q, reads_as v p q /\ reached (c_objs c) r q t
  | Exn e => (exists q, reads_as v p q /\ (forall t, ~ reached (c_objs c) r q t) /\ e = ECatalog) \/
      (exists w k, ends_at v p w k /\ (not_integer w k /\ e = EValue \/ ~ not_integer w k /\ e = ECatalog))
  | Fuel => False
  end.
Proof.
  intros E f id c u fr p r m m0 b u0 v up Uf Nf Cu Cb Md J P. pose proof (walk_exact E (c_objs c) p r v) as X.
  unfold get_schema, get_schema_with, bindM, read. rewrite Cu, Uf, Cb. cbn [ret]. destruct fr as [|ch fr]; [contradiction|]. unfold lift, pointer_to_catalog. rewrite P. cbn [bind].
  assert (Mw : some_made E (c_objs c) v r) by (repeat eexists; eauto). specialize (X Mw J).
  destruct (sn_walk (objs_world (c_objs c)) (SNSchema r) p) as [[t|j]|e|] eqn:Hw; cbn [throw ret]; [split; [reflexivity|exact X]| | |contradiction].
  - split; [reflexivity|]. left. destruct X as (q & R & N). exists q. auto.
  - destruct X as (w & k & En & [(NI & ->)|(NI & ->)]); cbn [is_pointer_error]; (split; [reflexivity|]); right; exists w, k; auto.
Qed.
Print Assumptions C104_lookup.

(** So a schema is found at every place where there is one, by each pointer
    that is read as the way to it. *)
Lemma ends_nowhere v p w k q : jwf v = true -> ends_at v p w k -> ~ reads_as v p q.
Proof.
  intros J En. revert q J. induction En as [d k p N|d k v p w j I En IH|l k z i v p w j T P N En IH]; intros q J R.
  - inversion R as [|? ? x ? ? I R'|? ? z i x ? ? T P Nx R']; subst; [apply (N [k]); econstructor; [eauto|constructor]|apply (N [str_of_nat i]); econstructor; eauto; constructor].
  - inversion R as [|? ? x ? ? I' R'|]; subst. pose proof (In_dget _ _ _ (jwf_NoDup _ J) I) as D1. pose proof (In_dget _ _ _ (jwf_NoDup _ J) I') as D2.
    assert (x = v) by congruence. subst x. exact (IH _ (jwf_dget _ _ _ J D1) R').
  - inversion R as [| |? ? z' i' x ? ? T' P' N' R']; subst. pose proof (int_text_fun _ _ _ T T'). subst z'. assert (i' = i) by congruence. subst i'. assert (x = v) by congruence. subst x.
    exact (IH _ (jwf_nth _ _ _ J N) R').
Qed.
Theorem C104_found : forall E f id c u fr p q r m m0 b u0 v up t,
  u_frag u = Some fr -> fr <> [] -> cached id u (c_cache c) = None -> cached id (no_fragment u) (c_cache c) = Some r ->
  made E (c_objs c) m0 b u0 v r up -> jwf v = true -> parse_uri_fragment fr = Ok p -> reads_as v p q -> reached (c_objs c) r q t ->
  get_schema E f id u m c = (Ok t, c).
Proof.
  intros E f id c u fr p q r m m0 b u0 v up t Uf Nf Cu Cb Md J P R Rt. pose proof (C104_lookup E f id c u fr p r m m0 b u0 v up Uf Nf Cu Cb Md J P) as X.
  destruct (get_schema E f id u m c) as [x c']. destruct X as (-> & X). f_equal. assert (Mw : some_made E (c_objs c) v r) by (repeat eexists; eauto). pose proof (reached_walk E _ _ _ _ _ Mw Rt) as Wt.
  destruct x as [t'|e|]; [| |contradiction].
  - destruct X as (q' & R' & Rt'). pose proof (reads_fun _ _ _ _ J R R'). subst q'. pose proof (reached_walk E _ _ _ _ _ Mw Rt') as Wt'. congruence.
  - exfalso. destruct X as [(q' & R' & N & _)|(w & k & En & _)]; [|exact (ends_nowhere _ _ _ _ _ J En R)]. pose proof (reads_fun _ _ _ _ J R R'). subst q'. exact (N _ Rt).
Qed.
Print Assumptions C104_found.

(** A fragment that is no JSON pointer. *)
Theorem C104_no_pointer : forall E f id c u fr r m e,
  u_frag u = Some fr -> fr <> [] -> cached id u (c_cache c) = None -> cached id (no_fragment u) (c_cache c) = Some r ->
  parse_uri_fragment fr = Exn e -> get_schema E f id u m c = (Exn (if is_pointer_error e then ECatalog else e), c).
Proof.
  intros E f id c u fr r m e Uf Nf Cu Cb P. unfold get_schema, get_schema_with, bindM, read. rewrite Cu, Uf, Cb. cbn [ret]. destruct fr as [|ch fr]; [contradiction|].
  unfold lift, pointer_to_catalog. rewrite P. cbn [bind]. now destruct (is_pointer_error e).
Qed.
Print Assumptions C104_no_pointer.

(** In [cabinet] (PropsEdit.v): the last item of allOf also under the name -1
    and 01; no schema under properties, beyond the end, or inside minLength;
    ValueError for an array item x. *)
Definition find104 (p : string) : res sid * cat := get_schema E102 9 default (at_ ("http://a/x#" ++ p)%string) (Some META) cat102.
Example C104_case :
  (u_frag (at_ "http://a/x#/properties/p/allOf/-1") = Some (lit "/properties/p/allOf/-1") /\ cached default (at_ "http://a/x#/properties/p/allOf/-1") (c_cache cat102) = None /\
   cached default (no_fragment (at_ "http://a/x#/properties/p/allOf/-1")) (c_cache cat102) = Some 0 /\
   made E102 (c_objs cat102) (Some META) None (Some (e_uuid E102 0)) cabinet 0 None /\ jwf cabinet = true /\
   parse_uri_fragment (lit "/properties/p/allOf/-1") = Ok [lit "properties"; lit "p"; lit "allOf"; lit "-1"] /\
   reads_as cabinet [lit "properties"; lit "p"; lit "allOf"; lit "-1"] [lit "properties"; lit "p"; lit "allOf"; lit "1"]) /\
  map (fun p => fst (find104 p)) ["/properties/p/allOf/1"; "/properties/p/allOf/-1"; "/properties/p/allOf/01"; "/properties"; "/properties/p/allOf/2"; "/properties/p/allOf/1/minLength/0"; "/properties/p/allOf/x"; "nowhere"] =
    [Ok 4; Ok 4; Ok 4; Exn ECatalog; Exn ECatalog; Exn ECatalog; Exn EValue; Exn ECatalog].
Proof.
  split.
  - split; [vm_compute; reflexivity|]. split; [vm_compute; reflexivity|]. split; [vm_compute; reflexivity|]. split; [exact (proj1 (proj2 cabinet_part))|]. split; [vm_compute; reflexivity|]. split; [vm_compute; reflexivity|].
    eapply ra_member; [right; right; left; reflexivity|]. eapply ra_member; [left; reflexivity|]. eapply ra_member; [left; reflexivity|].
    apply (ra_item _ (lit "-1") (-1) 1 (obj [("minLength", int 2)])); [apply py_int_iff; vm_compute; reflexivity|reflexivity|reflexivity|constructor].
  - vm_compute. reflexivity.
Qed.

(** One would like the lookup of a place where there is no schema to raise
    CatalogError always; it does not. *)
Theorem C104_catalog_error_refuted : exists E f id c u m e c', worked E c /\ get_schema E f id u m c = (Exn e, c') /\ e = EValue.
Proof.
  exists E102, 9, default, cat102, (at_ "http://a/x#/properties/p/allOf/x"), (Some META), EValue.
  destruct (find104 "/properties/p/allOf/x") as [x c'] eqn:H. exists c'. split; [exact (proj1 cabinet_part)|]. split; [|reflexivity].
  assert (Q : fst (find104 "/properties/p/allOf/x") = Exn EValue) by (vm_compute; reflexivity). rewrite H in Q. cbn [fst] in Q. subst x. exact H.
Qed.
Print Assumptions C104_catalog_error_refuted.

(** The same for a document that is not in the cache and has to be loaded: it
    is constructed under its base URI, and the schema is then the one cached
    under the URI meanwhile, if there is one (an anchor), the root if there is
    no fragment, or the one at the pointer.  If the document cannot be loaded
    or constructed, the lookup raises what that raised. *)
Definition at_pointer (c : cat) (r : sid) (v : json) (p : list pystr) (x : res sid) : Prop :=
  match x with
  | Ok t => exists q, reads_as v p q /\ reached (c_objs c) r q t
  | Exn e => (exists q, reads_as v p q /\ (forall t, ~ reached (c_objs c) r q t) /\ e = ECatalog) \/
      (exists w k, ends_at v p w k /\ (not_integer w k /\ e = EValue \/ ~ not_integer w k /\ e = ECatalog))
  | Fuel => False
  end.
Lemma parse_fragment_ends s : parse_uri_fragment s <> Fuel.
Proof. unfold parse_uri_fragment, parse_pointer, mk_pointer, mk_pointer_from, parg_keys. repeat (match goal with |- context [match ?x with _ => _ end] => destruct x | |- context [if ?x then _ else _] => destruct x end; cbn [bind]); discriminate. Qed.
Theorem C104_loaded : forall E f id c u m doc,
  reads_json E -> reachable c -> cached id u (c_cache c) = None -> (u_frag u <> None -> cached id (no_fragment u) (c_cache c) = None) ->
  load_json (e_lib E) (e_sources E) (no_fragment u) = Ok doc ->
  let (y, c1) := construct E f id doc (Some (no_fragment u)) m c in
  let (x, c') := get_schema E f id u m c in
  c' = c1 /\
  match y with
  | Ok r =>
      match cached id u (c_cache c1), u_frag u with
      | Some s, _ => x = Ok s
      | None, (None | Some []) => x = Ok r
      | None, Some fr =>
          match parse_uri_fragment fr with
          | Ok p => at_pointer c1 r doc p x
          | Exn e => x = Exn (if is_pointer_error e then ECatalog else e)
          | Fuel => False
          end
      end
  | Exn e => x = Exn e
  | Fuel => x = Fuel
  end.
Proof.
  intros E f id c u m doc D R Cu Cb L. pose proof (C55_made E f id doc (Some (no_fragment u)) m c) as Md0. unfold construct in *. destruct (construct_with E (resolve_references E f) id doc (Some (no_fragment u)) m c) as [y c1] eqn:H.
  unfold get_schema, get_schema_with, bindM, read. rewrite Cu.
  assert (Kn : match u_frag u with Some _ => cached id (no_fragment u) (c_cache c) | None => None end = None) by (destruct (u_frag u); [apply Cb; discriminate|reflexivity]). rewrite Kn. unfold lift at 1. rewrite L, H.
  destruct y as [r|e|]; cbn [ret]; [|auto|auto]. destruct (cached id u (c_cache c1)) as [s|] eqn:C1; cbn [ret]; [auto|]. destruct (u_frag u) as [[|ch fr]|]; cbn [ret]; [auto| |auto].
  destruct (Md0 r c1 D R (D _ _ L) eq_refl) as [Md _]. pose proof (walk_exact E (c_objs c1)) as X. unfold lift, pointer_to_catalog.
  destruct (parse_uri_fragment (ch :: fr)) as [p|e|] eqn:P; cbn [bind]; [|destruct (is_pointer_error e); auto|exfalso; exact (parse_fragment_ends _ P)].
  assert (Mw : some_made E (c_objs c1) doc r) by (repeat eexists; eauto). specialize (X p r doc Mw (D _ _ L)).
  destruct (sn_walk (objs_world (c_objs c1)) (SNSchema r) p) as [[t|j]|e|] eqn:Hw; cbn [throw ret]; [split; [reflexivity|exact X]| | |contradiction].
  - split; [reflexivity|]. left. destruct X as (q & Rq & N). exists q. auto.
  - destruct X as (w & k & En & [(NI & ->)|(NI & ->)]); cbn [is_pointer_error]; (split; [reflexivity|]); right; exists w, k; auto.
Qed.
Print Assumptions C104_loaded.
Theorem C104_not_loaded : forall E f id c u m,
  cached id u (c_cache c) = None -> (u_frag u <> None -> cached id (no_fragment u) (c_cache c) = None) ->
  match load_json (e_lib E) (e_sources E) (no_fragment u) with Ok _ => True | Exn e => get_schema E f id u m c = (Exn e, c) | Fuel => get_schema E f id u m c = (Fuel, c) end.
Proof.
  intros E f id c u m Cu Cb. unfold get_schema, get_schema_with, bindM, read. rewrite Cu.
  assert (Kn : match u_frag u with Some _ => cached id (no_fragment u) (c_cache c) | None => None end = None) by (destruct (u_frag u); [apply Cb; discriminate|reflexivity]). rewrite Kn. unfold lift at 1 2.
  destruct (load_json (e_lib E) (e_sources E) (no_fragment u)); auto.
Qed.
Print Assumptions C104_not_loaded.
Definition E104 : env := env_of [("http://a/y", obj [("$defs", obj [("d", obj [("$anchor", text "here"); ("type", text "string")])])])] [].
Example C104_loaded_case :
  reads_json E104 /\ reachable empty /\
  map (fun t => fst (get_schema E104 9 default (at_ t) (Some META) empty)) ["http://a/y"; "http://a/y#"; "http://a/y#here"; "http://a/y#/$defs/d"; "http://a/y#/$defs"; "http://a/y#there"; "http://a/z"] =
    [Ok 0; Ok 0; Ok 1; Ok 1; Exn ECatalog; Exn ECatalog; Exn ECatalog].
Proof. split; [now apply shelf_reads|]. split; [constructor|]. vm_compute. reflexivity. Qed.
