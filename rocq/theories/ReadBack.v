(** The value of a schema object as plain JSON. *)
From Verif Require Export Build SpecSchema.
Open Scope nat_scope.

Definition all_named {A} (l : list (pystr * option A)) : option (list (pystr * A)) :=
  option_map (combine (map fst l)) (all_some (map snd l)).
(** JSON.value (json.py:163-169) of a JSONSchema: the data of an object is the
    dict of its keyword's JSON nodes in the order in which they were created
    (jsonschema.py:155-186), whose data are plain values, JSONSchema objects, or
    lists or dicts of those (vocabulary/__init__.py:156-196).  The property is
    cached, which is not modelled; it is computed from what the catalog holds. *)
Fixpoint schema_value (n : nat) (objs : list sobj) (s : sid) {struct n} : option json :=
  match n with
  | 0 => None
  | S n =>
      match nth_error objs s with
      | None => None
      | Some o =>
          match so_data o with
          | SBool b => Some (JBool b)
          | SObj kws =>
              option_map JObj (all_named (map (fun kk => (fst kk,
                match kw_json (snd kk) with
                | KJ v => Some v
                | KSub t => schema_value n objs t
                | KSubs ts => option_map JArr (all_some (map (schema_value n objs) ts))
                | KSubm m => option_map JObj (all_named (map (fun nt => (fst nt, schema_value n objs (snd nt))) m))
                end)) kws))
          end
      end
  end.
