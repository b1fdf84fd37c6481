(** JSONSchema.parentschema, resource_rootschema and document_rootschema,
    jsonschema.py:222-261.

    The three are cached properties; the model computes them from the objects
    as they stand, which is what the first access does. *)
From Verif Require Export Build.

(** bool(schema), json.py:211-213: the truth of [self.data], which is a bool
    or a dict of the members made so far. *)
Definition so_truthy (o : sobj) : bool :=
  match so_data o with
  | SBool b => b
  | SObj kws => match kws with [] => false | _ => true end
  end.
(** ['$id' in schema.keywords]; a boolean schema has no keywords
    (jsonschema.py:73-77, 86). *)
Definition holds_id (o : sobj) : bool :=
  match so_data o with
  | SBool _ => false
  | SObj kws => dmem (lit "$id") kws
  end.
(** jsonschema.py:222-232. *)
Definition parentschema (objs : list sobj) (s : sid) : option sid :=
  match nth_error objs s with Some o => option_map fst (so_up o) | None => None end.
(** [while ancestor.parentschema: ancestor = ancestor.parentschema], with
    [stop] saying where to return before the loop has ended.  Parents are made
    before their children, so [S s] steps suffice. *)
Fixpoint ascend (steps : nat) (objs : list sobj) (stop : sobj -> bool) (s : sid) : sid :=
  match steps with
  | O => s
  | S n =>
      match nth_error objs s with
      | None => s
      | Some o =>
          if stop o then s
          else match so_up o with
               | None => s
               | Some (p, _) =>
                   match nth_error objs p with
                   | None => s
                   | Some op => if so_truthy op then ascend n objs stop p else s
                   end
               end
      end
  end.
(** jsonschema.py:234-248. *)
Definition resource_rootschema (objs : list sobj) (s : sid) : sid := ascend (S s) objs holds_id s.
(** jsonschema.py:250-261. *)
Definition document_rootschema (objs : list sobj) (s : sid) : sid := ascend (S s) objs (fun _ => false) s.
