(** Which keyword classes a metaschema should provide. *)
From Verif Require Export Meta.
Open Scope nat_scope.

(** The class that a vocabulary made from the classes [cs] has for a key: of
    several classes with that key, the last. *)
Definition offered (cs : list stdclass) (key : pystr) : option stdclass := find (fun c => str_eqb (std_key c) key) (rev cs).
(** The class that several vocabularies, taken one after the other, have for a
    key: that of the last one that has any. *)
Fixpoint last_offer (vs : list vocab) (key : pystr) : option stdclass :=
  match vs with
  | [] => None
  | v :: r => match last_offer r key with Some c => Some c | None => offered (v_classes v) key end
  end.
(** The vocabulary known under a URI, and those known under the names listed. *)
Definition known_as (st : mcat) (u : uri) : option vocab := find (fun v => uri_eqb (v_uri v) u) (mc_vocabs st).
Definition known_among (E : env) (st : mcat) (names : list pystr) : list vocab :=
  flat_map (fun t => match known_as st (ul_parse (e_lib E) t) with Some v => [v] | None => [] end) names.

(** The metaschema [m] for a document that lists [l] under $vocabulary: there
    is exactly one name of the form of a core vocabulary, it is listed as true
    and known; every other vocabulary that is required is known; the classes of
    the core vocabulary take precedence, then those of later vocabularies over
    those of earlier ones. *)
Definition follows_list (E : env) (st : mcat) (l : list (pystr * json)) (m : meta) : Prop :=
  exists t core, core_like t = true /\ In t (keys l) /\ (forall t', In t' (keys l) -> core_like t' = true -> t' = t) /\
    known_as st (ul_parse (e_lib E) t) = Some core /\ In (uri_str (v_uri core), JBool true) l /\ m_core m = v_uri core /\
    (forall n r, In (n, r) l -> truthy (KJ r) = true -> known_as st (ul_parse (e_lib E) n) <> None) /\
    forall key, dget key (m_classes m) =
      match offered (v_classes core) key with Some c => Some c | None => last_offer (known_among E st (keys l)) key end.
(** For a document without $vocabulary the vocabularies given at creation
    count, the core vocabulary having the lowest precedence. *)
Definition follows_defaults (st : mcat) (core : uri) (defaults : list uri) (m : meta) : Prop :=
  exists vc vs, known_as st core = Some vc /\ map (known_as st) defaults = map Some vs /\ m_core m = v_uri vc /\
    forall key, dget key (m_classes m) = last_offer (vc :: vs) key.

(** Histories of a catalog with metaschemas. *)
Section Histories.
Variable see : cat -> world.
Inductive runs : mcat -> Prop :=
| run_empty : runs (mkMcat (mkCat [] []) [] [])
| run_vocabulary u cs st : runs st -> runs (create_vocabulary u cs st)
| run_create E f u core defaults st : runs st -> runs (snd (create_metaschema E see f u core defaults st))
| run_get_meta E f u st : runs st -> runs (snd (get_metaschema E see f u st))
| run_construct E f id v u m st : runs st ->
    runs (mkMcat (snd (construct (env_in E st) f id v u m (mc_cat st))) (mc_vocabs st) (mc_metas st))
| run_get E f id u m st : runs st ->
    runs (mkMcat (snd (get_schema (env_in E st) f id u m (mc_cat st))) (mc_vocabs st) (mc_metas st))
| run_leave id st : runs st -> runs (mkMcat (mkCat (c_objs (mc_cat st)) (leave_cache id (c_cache (mc_cat st)))) (mc_vocabs st) (mc_metas st)).
End Histories.

(** ** The three standard dialects. *)
Definition dialect_for (v : version) : list stdclass :=
  match v with V2019 => dialect_2019_09 | V2020 => dialect_2020_12 | VNext => dialect_next end.
(** rfc3986 splits and joins the URIs of the standard vocabularies. *)
Definition parses_standard (E : env) (v : version) : Prop :=
  forall n, In n (map fst (standard_vocabularies v)) -> ul_parse (e_lib E) n = mkUri n None.
(** The standard vocabularies are known, under their URIs. *)
Definition knows_standard (st : mcat) (v : version) : Prop :=
  forall n cs, In (n, cs) (standard_vocabularies v) -> known_as st (mkUri n None) = Some (mkVocab (mkUri n None) cs).
