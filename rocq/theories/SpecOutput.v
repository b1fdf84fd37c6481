(** Parts of a result tree and of an output document, without reference to
    the functions that collect from the one and write the other. *)
From Verif Require Export Schema Pointer.
Open Scope nat_scope.

(** [m] is [n] or lies below it, and every node from [n] to [m], both
    included, is [ok]. *)
Inductive linked_by (ok : rnode -> bool) : rnode -> rnode -> Prop :=
| lb_here n : ok n = true -> linked_by ok n n
| lb_below n key c m : ok n = true -> In (key, c) (r_children n) -> linked_by ok c m -> linked_by ok n m.

(** The nodes so linked to the root, parents before children and children in
    order. *)
Fixpoint linked_nodes (ok : rnode -> bool) (n : rnode) : list rnode :=
  if ok n
  then n :: (fix go (cs : list ((pystr * path) * rnode)) : list rnode :=
               match cs with [] => [] | (_, c) :: r => linked_nodes ok c ++ go r end) (r_children n)
  else [].

(** Valid (or invalid) and not discarded. *)
Definition live (v : bool) (n : rnode) : bool := Bool.eqb (r_valid n) v && negb (r_discard n).

(** Nodes asked for: by instance path and by keyword. *)
Definition asked_for (inst : option path) (key : option pystr) (m : rnode) : Prop :=
  (forall p, inst = Some p -> r_inst m = p) /\ (forall k, key = Some k -> r_key m = Some k).

(** No node of the tree is marked as discarded. *)
Definition undiscarded (n : rnode) : Prop := forall m, linked_by (fun _ => true) n m -> r_discard m = false.

(** A member of a JSON object. *)
Definition field (name : pystr) (o : json) : option json := match o with JObj m => dget name m | _ => None end.
(** A document reports the verdict [v]. *)
Definition says (v : bool) (o : json) : Prop := field (lit "valid") o = Some (JBool v).
(** A document names the instance and keyword locations of a node; [uri] is
    its absolute location. *)
Definition located (uri : rnode -> pystr) (n : rnode) (o : json) : Prop :=
  field (lit "instanceLocation") o = Some (JStr (pointer_str (r_inst n))) /\
  field (lit "keywordLocation") o = Some (JStr (pointer_str (r_path n))) /\
  field (lit "absoluteKeywordLocation") o = Some (JStr (uri n)).

Definition message_name (v : bool) : pystr := if v then lit "annotation" else lit "error".
Definition list_name (v : bool) : pystr := if v then lit "annotations" else lit "errors".
Definition message (v : bool) (n : rnode) : json := if v then r_annot n else r_error n.
Definition present (v : json) : option json := match v with JNull => None | _ => Some v end.

(** A document that repeats the whole tree: one object for each node, with
    its verdict, locations and message, and those of its children in order. *)
Inductive mirrors (uri : rnode -> pystr) : rnode -> json -> Prop :=
| mirrors_i n o os :
    says (r_valid n) o -> located uri n o ->
    field (message_name (r_valid n)) o = present (message (r_valid n) n) ->
    field (list_name (r_valid n)) o = match os with [] => None | _ => Some (JArr os) end ->
    Forall2 (fun kc o' => mirrors uri (snd kc) o') (r_children n) os ->
    mirrors uri n o.

(** The messages of [l] listed one by one, each with its locations. *)
Definition lists (uri : rnode -> pystr) (v : bool) (l : list rnode) (os : list json) : Prop :=
  Forall2 (fun m o => located uri m o /\ field (message_name v) o = Some (message v m)) l os.

(** A tree in which an error accounts for every invalid node: on the node
    itself or on one below it, through invalid nodes only. *)
Definition explained (n : rnode) : Prop :=
  forall m, linked_by (fun _ => true) n m -> r_valid m = false ->
  exists e, linked_by (fun c => negb (r_valid c)) m e /\ r_error e <> JNull.
