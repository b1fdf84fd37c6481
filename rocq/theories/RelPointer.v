(** Relative JSON Pointers: model of jschon/jsonpointer.py:276-392 (class
    RelativeJSONPointer). *)
From Verif Require Export Pointer JTree.
Open Scope nat_scope.

(** jsonpointer.py:27  JSON_INDEX_MANIP_RE: an optional sign followed by a
    digit 1-9 and digits. *)
Definition JSON_INDEX_MANIP_RE : regex :=
  RAlt (RCat (RAlt (rchar 43) (rchar 45))
             (RCat (RClass false [(49, 57)]%N) (RStar (RClass false [(48, 57)]%N))))
       REps.

(** jsonpointer.py:28-32, the named groups [up], [over] and [ref] in sequence. *)
Definition up_re : regex := JSON_INDEX_RE.
Definition over_re : regex := JSON_INDEX_MANIP_RE.
Definition ref_re : regex := RAlt (rchar 35) JSON_POINTER_RE.
Definition RELATIVE_JSON_POINTER_RE : regex := RCat up_re (RCat over_re ref_re).

(** [match.group('up', 'over', 'ref')]: the text of the three groups, as the
    first way to cut the string into texts of the three groups.  (There is at
    most one way, [RelPointerFacts.groups_unique], so the search order of the
    regex engine does not matter.) *)
Fixpoint first_some {A} (f : nat -> option A) (n : nat) : option A :=
  match n with
  | O => f 0
  | S k => match first_some f k with Some a => Some a | None => f n end
  end.
Definition groups (s : pystr) : option (pystr * pystr * pystr) :=
  first_some (fun i =>
    let '(up, rest) := (firstn i s, skipn i s) in
    if fullmatch up_re up
    then first_some (fun j =>
           let '(over, ref) := (firstn j rest, skipn j rest) in
           if fullmatch over_re over && fullmatch ref_re ref then Some (up, over, ref) else None)
           (length rest)
    else None) (length s).

(** The attributes, jsonpointer.py:316-333. *)
Record relpointer : Set := mkRel {
  r_up : Z;
  r_over : Z;
  r_path : option pointer;   (* [None] for '#' *)
  r_index : bool;
  r_over_str : pystr
}.

(** The argument [ref]: a pointer or the literal '#'. *)
Inductive refarg : Set := RefPath (p : pointer) | RefHash.

(** The last statement of the constructor, jsonpointer.py:328-331; [over_text]
    is [str(over)] for the local variable [over] (the matched text, or the
    number given). *)
Definition over_str (over : Z) (over_text : pystr) : pystr :=
  if (over =? 0)%Z then []
  else if (over <? 0)%Z then over_text
  else 43%N :: str_of_Z over.

(** RelativeJSONPointer(up=..., over=..., ref=...), jsonpointer.py:321-333. *)
Definition mk_rel (up over : Z) (ref : refarg) : relpointer :=
  mkRel up over (match ref with RefPath p => Some p | RefHash => None end)
        (match ref with RefPath _ => false | RefHash => true end)
        (over_str over (str_of_Z over)).

(** RelativeJSONPointer(value), jsonpointer.py:312-333. *)
Definition parse_rel (s : pystr) : res relpointer :=
  if fullmatch RELATIVE_JSON_POINTER_RE s then
    match groups s with
    | None => Exn EOther    (* unreachable, [RelPointerFacts.groups_total] *)
    | Some (up, over, ref) =>
        match py_int up with
        | None => Exn EValue
        | Some u =>
            match (match over with [] => Some 0%Z | _ => py_int over end) with
            | None => Exn EValue
            | Some o =>
                if str_eqb ref (lit "#") then Ok (mkRel u o None true (over_str o over))
                else match parse_pointer ref with
                     | Ok p => Ok (mkRel u o (Some p) false (over_str o over))
                     | Exn e => Exn e
                     | Fuel => Fuel
                     end
            end
        end
    end
  else Exn ERelMalformed.

(** RelativeJSONPointer.__eq__, jsonpointer.py:335-342. *)
Definition rel_eqb (a b : relpointer) : bool :=
  (r_up a =? r_up b)%Z && (r_over a =? r_over b)%Z && Bool.eqb (r_index a) (r_index b) &&
  match r_path a, r_path b with
  | Some p, Some q => pointer_eqb p q
  | None, None => true
  | _, _ => false
  end.

(** RelativeJSONPointer.__str__, jsonpointer.py:348-352. *)
Definition rel_str (r : relpointer) : pystr :=
  str_of_Z (r_up r) ++ r_over_str r ++
  (if r_index r then lit "#" else match r_path r with Some p => pointer_str p | None => lit "None" end).

(** The result of evaluation. *)
Inductive relvalue : Set := RVIndex (z : Z) | RVKey (k : pystr) | RVNode (n : id).

(** jsonpointer.py:369-372, the loop over [range(self.up)]. *)
Fixpoint go_up (h : heap) (n : id) (up : nat) : res id :=
  match up with
  | O => Ok n
  | S u => match nparent (getn h n) with
           | None => Exn ERelReference
           | Some p => go_up h p u
           end
  end.

(** [int(node.key)]. *)
Definition int_key (h : heap) (n : id) : res Z :=
  match nkey (getn h n) with
  | Some k => match py_int k with Some z => Ok z | None => Exn EValue end
  | None => Exn EType
  end.

(** jsonpointer.py:374-382, the index adjustment. *)
Definition go_over (h : heap) (n : id) (over : Z) : res id :=
  if (over =? 0)%Z then Ok n
  else match nparent (getn h n) with
       | None => Exn ERelReference
       | Some p =>
           match ndata (getn h p) with
           | DArr ids =>
               let* z := int_key h n in
               let adjusted := (z + over)%Z in
               if ((adjusted <? 0) || (Z.of_nat (length ids) <=? adjusted))%Z then Exn ERelReference
               else getitem h p (IInt adjusted)
           | _ => Exn ERelReference
           end
       end.

(** RelativeJSONPointer.evaluate, jsonpointer.py:358-392.  [range(up)] is empty
    for a negative [up]. *)
Definition rel_eval (r : relpointer) (h : heap) (n : id) : res relvalue :=
  let* n := go_up h n (Z.to_nat (r_up r)) in
  let* n := go_over h n (r_over r) in
  if r_index r then
    match nparent (getn h n) with
    | None => Exn ERelReference
    | Some p =>
        match ndata (getn h p) with
        | DArr _ => let* z := int_key h n in Ok (RVIndex z)
        | _ => match nkey (getn h n) with Some k => Ok (RVKey k) | None => Exn EOther end
        end
    end
  else match r_path r with
       | None => Exn EAttribute
       | Some p =>
           match eval_id p h n with
           | Ok t => Ok (RVNode t)
           | Exn EPointerReference => Exn ERelReference
           | Exn e => Exn e
           | Fuel => Fuel
           end
       end.
