(** What detailed and hierarchical output should be. *)
From Verif Require Export SpecOutput.
Open Scope nat_scope.

(** The children with verdict [v]. *)
Definition of_verdict (v : bool) (n : rnode) : list rnode := filter (fun c => Bool.eqb (r_valid c) v) (map snd (r_children n)).

Section Uri.
Variable uri : rnode -> pystr.
(** Detailed output below the root: nodes of the verdict of the root only; a
    node with one such child is replaced by it; a node with several lists
    them; a node with none has its message. *)
Inductive condensed (v : bool) : rnode -> json -> Prop :=
| condensed_end n o : of_verdict v n = [] -> located uri n o -> field (message_name v) o = present (message v n) -> field (list_name v) o = None ->
    condensed v n o
| condensed_one n c o : of_verdict v n = [c] -> condensed v c o -> condensed v n o
| condensed_more n os o : 2 <= length (of_verdict v n) -> located uri n o -> field (message_name v) o = None -> field (list_name v) o = Some (JArr os) ->
    Forall2 (condensed v) (of_verdict v n) os -> condensed v n o.

(** A message that an output document has, at any depth. *)
Inductive tells (v : bool) : json -> json -> Prop :=
| tells_here o x : field (message_name v) o = Some x -> tells v o x
| tells_below o os o' x : field (list_name v) o = Some (JArr os) -> In o' os -> tells v o' x -> tells v o x.

(** The message under key [k] that a later one of the same key does not
    replace. *)
Definition last_message (v : bool) (n : rnode) (k : pystr) (x : json) : Prop :=
  exists l1 c l2, map snd (r_children n) = l1 ++ c :: l2 /\ r_key c = Some k /\ message v c = x /\ x <> JNull /\
    forall c', In c' l2 -> r_key c' = Some k -> message v c' = JNull.

Variable W : world.
(** Hierarchical output: one object for each node that stands for a schema,
    with the messages of its children, and inside it those for the schemas
    below the children of the same verdict. *)
Inductive outlined : rnode -> list json -> Prop :=
| outlined_schema n t o dets ms :
    schema_node W n = Ok (SNSchema t) -> says (r_valid n) o ->
    field (lit "evaluationPath") o = Some (JStr (pointer_str (r_path n))) ->
    field (lit "schemaLocation") o = Some (JStr (uri n)) ->
    field (lit "instanceLocation") o = Some (JStr (pointer_str (r_inst n))) ->
    Forall2 outlined (of_verdict (r_valid n) n) dets ->
    field (lit "details") o = match concat dets with [] => None | l => Some (JArr l) end ->
    field (list_name (r_valid n)) o = match ms with [] => None | _ => Some (JObj ms) end ->
    field (list_name (negb (r_valid n))) o = None ->
    NoDup (keys ms) -> (forall k x, In (k, x) ms <-> last_message (r_valid n) n k x) ->
    outlined n [o]
| outlined_keyword n w oss :
    schema_node W n = Ok (SNJson w) -> Forall2 outlined (map snd (r_children n)) oss -> outlined n (concat oss).
End Uri.
