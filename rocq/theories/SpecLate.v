(** Histories of a catalog in which metaschemas are loaded when first needed. *)
From Verif Require Export Late.

Section Histories.
Variable see : cat -> world.
Inductive arises : mcat -> Prop :=
| arise_empty : arises (mkMcat (mkCat [] []) [] [])
| arise_vocabulary u cs st : arises st -> arises (create_vocabulary u cs st)
| arise_make E f u core defaults st : arises st -> arises (snd (make_metaschemaL E see f u core defaults st))
| arise_meta E f u st : arises st -> arises (snd (get_metaschemaL E see f u st))
| arise_construct E f id v u m st : arises st -> arises (snd (constructL E see f id v u m st))
| arise_get E f id u m st : arises st -> arises (snd (get_schemaL E see f id u m st))
| arise_leave id st : arises st -> arises (mkMcat (mkCat (c_objs (mc_cat st)) (leave_cache id (c_cache (mc_cat st)))) (mc_vocabs st) (mc_metas st)).
End Histories.

(** The vocabularies are those of before, and so are the schemas and the
    metaschemas that were there. *)
Definition untouched (st st' : mcat) : Prop :=
  mc_vocabs st' = mc_vocabs st /\
  (exists made, c_objs (mc_cat st') = c_objs (mc_cat st) ++ made) /\
  forall s, s < length (c_objs (mc_cat st)) -> meta_at st' s = meta_at st s.
(** A cache in which nothing has changed. *)
Definition same_cache (id : pystr) (st st' : mcat) : Prop :=
  forall u, cached id u (c_cache (mc_cat st')) = cached id u (c_cache (mc_cat st)).
