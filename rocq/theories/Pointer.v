(** JSON Pointers: model of jschon/jsonpointer.py:25-273 (class JSONPointer). *)
From Verif Require Export Json Regex.
Open Scope N_scope.

(** jsonpointer.py:25  JSON_POINTER_RE, which reads
    [(/([^~/]|(~[01]))  star ) star] with "star" for the repetition sign. *)
Definition JSON_POINTER_RE : regex :=
  RStar (RCat (rchar 47)
              (RStar (RAlt (RClass true [(126, 126); (47, 47)])
                           (RCat (rchar 126) (RClass false [(48, 48); (49, 49)]))))).

(** jsonpointer.py:26  JSON_INDEX_RE, which reads [0|([1-9][0-9] star )]. *)
Definition JSON_INDEX_RE : regex :=
  RAlt (rchar 48) (RCat (RClass false [(49, 57)]) (RStar (RClass false [(48, 57)]))).

(** A pointer is its list of unescaped keys (the attribute [_keys],
    jsonpointer.py:94).  Simplification: keys are strings; the constructor
    accepts iterables of arbitrary objects, which are outside the model. *)
Definition pointer := list pystr.

(** jsonpointer.py:264  key.replace('~', '~0').replace('/', '~1') *)
Definition escape (key : pystr) : pystr :=
  str_replace (lit "/") (lit "~1") (str_replace (lit "~") (lit "~0") key).

(** jsonpointer.py:273  token.replace('~1', '/').replace('~0', '~') *)
Definition unescape (token : pystr) : pystr :=
  str_replace (lit "~0") (lit "~") (str_replace (lit "~1") (lit "/") token).

(** A constructor argument, jsonpointer.py:96-109: a string, or a JSONPointer /
    iterable of unescaped keys.  (The TypeError branch for other objects is
    not modelled.) *)
Inductive parg : Set :=
| PStr (s : pystr)
| PKeys (ks : list pystr).

(** One round of the loop of jsonpointer.py:96-109. *)
Definition parg_keys (a : parg) : res (list pystr) :=
  match a with
  | PStr s =>
      if fullmatch JSON_POINTER_RE s
      then Ok (map unescape (tl (split_char 47 s)))
      else Exn EPointerMalformed
  | PKeys ks => Ok ks
  end.

(** JSONPointer.__new__, jsonpointer.py:84-111. *)
Fixpoint mk_pointer_from (acc : list pystr) (values : list parg) : res pointer :=
  match values with
  | [] => Ok acc
  | v :: r => let* ks := parg_keys v in mk_pointer_from (acc ++ ks) r
  end.
Definition mk_pointer (values : list parg) : res pointer := mk_pointer_from [] values.

(** JSONPointer(s) for one string argument. *)
Definition parse_pointer (s : pystr) : res pointer := mk_pointer [PStr s].

(** JSONPointer.__str__, jsonpointer.py:179-181. *)
Definition pointer_str (p : pointer) : pystr :=
  List.concat (map (fun k => 47 :: escape k) p).

(** JSONPointer.__getitem__ with an int, jsonpointer.py:123-124. *)
Definition pointer_item (p : pointer) (i : Z) : res pystr :=
  match norm_index (length p) i with
  | Some n => match nth_error p n with Some k => Ok k | None => Exn EIndex end
  | None => Exn EIndex
  end.

(** JSONPointer.__getitem__ with a slice, jsonpointer.py:125-126, for slices
    without a step: [p[i:j]], [p[:j]], [p[i:]] ([None] is an omitted bound). *)
Definition pointer_slice (p : pointer) (i j : option Z) : pointer :=
  let lo := match i with Some z => clamp_index (length p) z | None => O end in
  let hi := match j with Some z => clamp_index (length p) z | None => length p end in
  firstn (hi - lo) (skipn lo p).

(** JSONPointer.__truediv__, jsonpointer.py:141-147: a string suffix is one
    key, an iterable suffix is many. *)
Definition pointer_div_key (p : pointer) (k : pystr) : res pointer :=
  mk_pointer [PKeys p; PKeys [k]].
Definition pointer_div_keys (p : pointer) (ks : list pystr) : res pointer :=
  mk_pointer [PKeys p; PKeys ks].

(** JSONPointer.__eq__, jsonpointer.py:149-153. *)
Definition pointer_eqb (p q : pointer) : bool := strs_eqb p q.

(** JSONPointer.__le__, jsonpointer.py:155-163. *)
Definition pointer_leb (p q : pointer) : bool :=
  strs_eqb p (slice_to q (Z.of_nat (length p))).

(** JSONPointer.__lt__, jsonpointer.py:165-173. *)
Definition pointer_ltb (p q : pointer) : bool :=
  Nat.ltb (length p) (length q) && strs_eqb p (slice_to q (Z.of_nat (length p))).

(** JSONPointer.evaluate, jsonpointer.py:199-221, on a plain Python document.
    Simplification: documents are JSON-compatible values made of dicts,
    lists, strings, numbers, booleans and None. *)
Fixpoint eval_plain (p : pointer) (value : json) : res json :=
  match p with
  | [] => Ok value
  | key :: keys =>
      match value with
      | JObj m => match dget key m with
                  | Some v => eval_plain keys v
                  | None => Exn EPointerReference
                  end
      | JArr l =>
          if fullmatch JSON_INDEX_RE key
          then match py_int key with
               | Some i => match norm_index (length l) i with
                           | Some n => match nth_error l n with
                                       | Some v => eval_plain keys v
                                       | None => Exn EPointerReference
                                       end
                           | None => Exn EPointerReference
                           end
               | None => Exn EValue
               end
          else Exn EPointerReference
      | _ => Exn EPointerReference
      end
  end.

(** The same function on a JSON node, value part only (the node found is
    identified by its location in the tree; see JTree.v for node identities).
    For a JSON array the index pattern is not consulted: operator precedence
    at jsonpointer.py:210-213 attaches it to the [not isjson] alternative. *)
Fixpoint eval_node (p : pointer) (value : json) : res json :=
  match p with
  | [] => Ok value
  | key :: keys =>
      match value with
      | JObj m => match dget key m with
                  | Some v => eval_node keys v
                  | None => Exn EPointerReference
                  end
      | JArr l =>
          match py_int key with
          | Some i => match norm_index (length l) i with
                      | Some n => match nth_error l n with
                                  | Some v => eval_node keys v
                                  | None => Exn EPointerReference
                                  end
                      | None => Exn EPointerReference
                      end
          | None => Exn EValue
          end
      | _ => Exn EPointerReference
      end
  end.
