(** What happens in one cache of the catalog, seen from another. *)
From Verif Require Export SpecMeta SpecBuild.
Open Scope nat_scope.

(** Schema [s] was made with cache id [id]. *)
Definition belongs (id : pystr) (c : cat) (s : sid) : Prop := exists o, nth_error (c_objs c) s = Some o /\ so_cache o = id.

(** A computation on the schemas, run in a catalog with metaschemas. *)
Definition upon {A} (x : M A) (st : mcat) : mcat := mkMcat (snd (x (mc_cat st))) (mc_vocabs st) (mc_metas st).
Definition left_cache (id : pystr) (st : mcat) : mcat :=
  mkMcat (mkCat (c_objs (mc_cat st)) (leave_cache id (c_cache (mc_cat st)))) (mc_vocabs st) (mc_metas st).
Definition empty_catalog : mcat := mkMcat (mkCat [] []) [] [].

(** [st'] comes about from [st] by constructing and looking up schemas, leaving
    cache blocks, and creating vocabularies and metaschemas, where only caches
    with [ok] ids are involved. The steps may fail; sources, formats and the
    like may change from step to step. *)
Inductive steps (ok : pystr -> Prop) (st : mcat) : mcat -> Prop :=
| st_self : steps ok st st
| st_construct E f id v u m st' : ok id -> reads_json E -> jwf v = true -> steps ok st st' -> steps ok st (upon (construct E f id v u m) st')
| st_get E f id u m st' : ok id -> reads_json E -> steps ok st st' -> steps ok st (upon (get_schema E f id u m) st')
| st_leave id st' : ok id -> steps ok st st' -> steps ok st (left_cache id st')
| st_vocabulary u cs st' : steps ok st st' -> steps ok st (create_vocabulary u cs st')
| st_metaschema E see f u core defaults st' : ok meta_id -> reads_json E -> steps ok st st' ->
    steps ok st (snd (create_metaschema E see f u core defaults st')).
Definition grown (st : mcat) : Prop := steps (fun _ => True) empty_catalog st.
Definition elsewhere (id : pystr) : mcat -> mcat -> Prop := steps (fun id' => id' <> id).

(** How the evaluation of schemas with cache id [id] sees the catalog: anchors
    are looked up in that cache. *)
Definition cache_world (lib : urilib) (id : pystr) (W : world) (c : cat) : world :=
  mkWorld (fun s => match nth_error (c_objs c) s with Some o => so_data o | None => SBool true end)
          (fun s => option_map uri_str (base_uri (c_objs c) s))
          (fun b f => cached id (ul_parse lib (b ++ 35%N :: f)) (c_cache c))
          (w_search W) (w_repr W) (w_format W) (w_uri W).
