(** Evaluation of schemas: JSONSchema.evaluate, Result, and the [evaluate]
    method of every keyword class.  Models jschon/jsonschema.py:187-220,
    343-535 and jschon/vocabulary/*.py.

    General simplifications.
    - Schemas, once constructed, are not modified; they are given as a table
      [w_schema] from schema identities to their keywords.  How the table comes
      about is modelled in Deps.v (order of keywords) and Build.v.
    - Instances are pairs of a path and a value, standing for the nodes of a
      JSON document (JTree.v shows that paths identify nodes).
    - Error messages are the code's, with what Python writes for the values in
      them (Repr.v), except that the text of the exception that a format
      validator raised is left out.
    - A keyword whose value has a shape its metaschema forbids (say a string
      as the value of maximum) is treated as the code treats it: it raises an
      exception or gives some answer.  Cases that differ are marked "malformed"
      below.  *)
From Verif Require Export Keywords.
From Verif Require Import Text Repr.
Open Scope nat_scope.

Definition sid := nat.
Definition path := list pystr.

(** Keyword.json, vocabulary/__init__.py:141-150: what the mixins of lines
    168-221 make of the keyword value.  [KJ]: a plain JSON node; [KSub]: a
    subschema; [KSubs]/[KSubm]: an array/object of subschemas. *)
Inductive kjson : Set :=
| KJ (v : json)
| KSub (s : sid)
| KSubs (l : list sid)
| KSubm (m : list (pystr * sid)).

(** A keyword object.  [kw_ref] is the refschema set by resolve();
    [kw_dynamic], [kw_fragment]: core.py:127-143; [kw_format]: the
    validates_types of an enabled format, None if validator is None,
    format.py:17-22. *)
Record keyword : Set := mkKw {
  kw_class : kwclass;
  kw_json : kjson;
  kw_ref : option sid;
  kw_dynamic : bool;
  kw_fragment : pystr;
  kw_format : option (list jtype)
}.

(** A JSONSchema: boolean, or object with its [keywords] dict in evaluation
    order, jsonschema.py:97-119. *)
Inductive snode : Set :=
| SBool (b : bool)
| SObj (kws : list (pystr * keyword)).

(** Everything evaluation consults apart from the instance.
    [w_search r s]: re.search(r, s) is not None; None if r is not a regular
    expression.  [w_repr m e]: coefficient and exponent of the decimal that
    repr prints for the float m * 2^e.  [w_format a v]: the registered format
    validator for a accepts v.  [w_base s]: base_uri of schema s.
    [w_anchor b f]: the schema that catalog.get_schema finds for the URI b#f,
    None for CatalogError.  [w_uri s p]: the text of the absolute URI of the
    node at path p of schema s (jsonschema.py:502-513). *)
Record world : Type := mkWorld {
  w_schema : sid -> snode;
  w_base : sid -> option pystr;
  w_anchor : pystr -> pystr -> option sid;
  w_search : pystr -> pystr -> option bool;
  w_repr : Z -> Z -> Z * Z;
  w_format : pystr -> json -> bool;
  w_uri : sid -> path -> pystr
}.

(** An instance node. *)
Record inst : Set := mkInst { i_path : path; i_val : json }.

(** The items of an array node, and the members of an object node, in order. *)
Fixpoint items_from (p : path) (k : nat) (l : list json) : list inst :=
  match l with
  | [] => []
  | v :: r => mkInst (p ++ [str_of_nat k]) v :: items_from p (S k) r
  end.
Definition items_of (i : inst) : list inst :=
  match i_val i with JArr l => items_from (i_path i) 0 l | _ => [] end.
Definition members_of (i : inst) : list (pystr * inst) :=
  match i_val i with
  | JObj m => map (fun kv => (fst kv, mkInst (i_path i ++ [fst kv]) (snd kv))) m
  | _ => []
  end.
Definition has_member (i : inst) (k : pystr) : bool :=
  match i_val i with JObj m => dmem k m | _ => false end.

(** ** Result, jsonschema.py:343-398.  Children refer to their parent in
    Python; here the parent is passed along where it is consulted.  [JNull]
    stands for None as annotation or error value.  Not modelled: globals
    (432-437) and custom result classes. *)
Inductive rnode : Set := mkR {
  r_key : option pystr;
  r_path : path;
  r_relpath : path;
  r_schema : sid;
  r_inst : path;
  r_valid : bool;
  r_assert : bool;
  r_discard : bool;
  r_annot : json;
  r_error : json;
  r_ref : option sid;
  r_children : list ((pystr * path) * rnode)
}.

(** Result(schema, instance), jsonschema.py:391-394. *)
Definition new_root (s : sid) (i : inst) : rnode :=
  mkR None [] [] s (i_path i) true true false JNull JNull None [].

(** Result(schema, instance, parent=self, key=key), jsonschema.py:395-398. *)
Definition new_child (parent : rnode) (key : pystr) (i : inst) (s : sid) : rnode :=
  mkR (Some key) (r_path parent ++ [key])
      (if Nat.eqb s (r_schema parent) then r_relpath parent ++ [key] else [key])
      s (i_path i) true true false JNull JNull None [].

Definition with_children (n : rnode) (c : list ((pystr * path) * rnode)) : rnode :=
  mkR (r_key n) (r_path n) (r_relpath n) (r_schema n) (r_inst n) (r_valid n) (r_assert n)
      (r_discard n) (r_annot n) (r_error n) (r_ref n) c.

(** jsonschema.py:451-453. *)
Definition annotate (n : rnode) (v : json) : rnode :=
  mkR (r_key n) (r_path n) (r_relpath n) (r_schema n) (r_inst n) (r_valid n) (r_assert n)
      (r_discard n) v (r_error n) (r_ref n) (r_children n).
(** jsonschema.py:455-458. *)
Definition fail (n : rnode) (e : json) : rnode :=
  mkR (r_key n) (r_path n) (r_relpath n) (r_schema n) (r_inst n) false (r_assert n)
      (r_discard n) (r_annot n) e (r_ref n) (r_children n).
(** jsonschema.py:460-467. *)
Definition pass_ (n : rnode) : rnode :=
  mkR (r_key n) (r_path n) (r_relpath n) (r_schema n) (r_inst n) true (r_assert n)
      (r_discard n) (r_annot n) JNull (r_ref n) (r_children n).
(** jsonschema.py:469-471. *)
Definition noassert (n : rnode) : rnode :=
  mkR (r_key n) (r_path n) (r_relpath n) (r_schema n) (r_inst n) (r_valid n) false
      (r_discard n) (r_annot n) (r_error n) (r_ref n) (r_children n).
(** jsonschema.py:473-475. *)
Definition discard (n : rnode) : rnode :=
  mkR (r_key n) (r_path n) (r_relpath n) (r_schema n) (r_inst n) (r_valid n) (r_assert n)
      true (r_annot n) (r_error n) (r_ref n) (r_children n).
(** jsonschema.py:477-483. *)
Definition refschema (n : rnode) (s : sid) : rnode :=
  mkR (r_key n) (r_path n) (r_relpath n) (r_schema n) (r_inst n) (r_valid n) (r_assert n)
      (r_discard n) (r_annot n) (r_error n) (Some s) (r_children n).

(** jsonschema.py:490-500. *)
Definition passed (n : rnode) : bool := r_valid n || negb (r_assert n).

(** The children dict, keyed by schema key and instance path. *)
Definition ckey_eqb (a b : pystr * path) : bool :=
  str_eqb (fst a) (fst b) && strs_eqb (snd a) (snd b).
Fixpoint cget (k : pystr * path) (m : list ((pystr * path) * rnode)) : option rnode :=
  match m with
  | [] => None
  | (k', v) :: r => if ckey_eqb k k' then Some v else cget k r
  end.
Fixpoint cput (k : pystr * path) (v : rnode) (m : list ((pystr * path) * rnode)) : list ((pystr * path) * rnode) :=
  match m with
  | [] => [(k, v)]
  | (k', v') :: r => if ckey_eqb k k' then (k', v) :: r else (k', v') :: cput k v r
  end.
Fixpoint cdrop (k : pystr * path) (m : list ((pystr * path) * rnode)) : list ((pystr * path) * rnode) :=
  match m with
  | [] => []
  | (k', v') :: r => if ckey_eqb k k' then r else (k', v') :: cdrop k r
  end.

Definition put_child (n : rnode) (key : pystr) (i : inst) (c : rnode) : rnode :=
  with_children n (cput (key, i_path i) c (r_children n)).

(** The finally clause of Result.__call__, jsonschema.py:428-430. *)
Definition close_child (n : rnode) (key : pystr) (i : inst) (c : rnode) : rnode :=
  if r_discard c then with_children n (cdrop (key, i_path i) (r_children n))
  else put_child n key i c.

(** jsonschema.py:444-449, called on the child with its parent given. *)
Definition sibling (parent : rnode) (i : inst) (key : pystr) : option rnode :=
  cget (key, i_path i) (r_children parent).

Definition opt_str_eqb (k : pystr) (o : option pystr) : bool :=
  match o with Some k' => str_eqb k k' | None => false end.
Definition is_null (v : json) : bool := match v with JNull => true | _ => false end.

(** jsonschema.py:515-524. *)
Fixpoint collect_annotations (inst : option path) (key : option pystr) (n : rnode) {struct n} : list json :=
  if r_valid n && negb (r_discard n) then
    (if negb (is_null (r_annot n))
        && match key with None => true | Some k => opt_str_eqb k (r_key n) end
        && match inst with None => true | Some p => strs_eqb p (r_inst n) end
     then [r_annot n] else [])
    ++ (fix go (cs : list ((pystr * path) * rnode)) : list json :=
          match cs with
          | [] => []
          | (_, c) :: r => collect_annotations inst key c ++ go r
          end) (r_children n)
  else [].

(** jsonschema.py:526-535. *)
Fixpoint collect_errors (inst : option path) (key : option pystr) (n : rnode) {struct n} : list json :=
  if negb (r_valid n) && negb (r_discard n) then
    (if negb (is_null (r_error n))
        && match key with None => true | Some k => opt_str_eqb k (r_key n) end
        && match inst with None => true | Some p => strs_eqb p (r_inst n) end
     then [r_error n] else [])
    ++ (fix go (cs : list ((pystr * path) * rnode)) : list json :=
          match cs with
          | [] => []
          | (_, c) :: r => collect_errors inst key c ++ go r
          end) (r_children n)
  else [].

(** ** Helpers for keyword values. *)

(** A number used in a comparison with an int or float: booleans compare as
    integers; other types raise TypeError. *)
Definition num_of (v : kjson) : option num :=
  match v with
  | KJ (JNum n) => Some n
  | KJ (JBool b) => Some (NInt (if b then 1 else 0))
  | _ => None
  end.

Definition jint (n : nat) : json := JNum (NInt (Z.of_nat n)).
Definition len_num (n : nat) : num := NInt (Z.of_nat n).

(** The positions holding [b], counted from [k]. *)
Fixpoint positions (b : bool) (k : nat) (l : list bool) : list json :=
  match l with
  | [] => []
  | x :: r => if Bool.eqb x b then jint k :: positions b (S k) r else positions b (S k) r
  end.

Definition mem_type (t : jtype) (l : list jtype) : bool := existsb (jtype_eqb t) l.

(** validation.py:37-38: the strings that the tuple of types contains.
    tuplify (utils.py:25-32) turns a dict into its keys. *)
Definition type_names (v : kjson) : list pystr :=
  match v with
  | KJ (JStr s) => [s]
  | KJ (JArr l) => flat_map (fun x => match x with JStr s => [s] | _ => [] end) l
  | KJ (JObj m) => keys m
  | _ => []
  end.

(** validation.py:41, [instance.data == int(instance.data)]; int() raises on
    infinities (OverflowError) and NaN (ValueError). *)
Definition num_integral (n : num) : res bool :=
  match n with
  | NInt _ => Ok true
  | NDyad m e => Ok ((0 <=? e)%Z || (m mod 2 ^ (- e) =? 0)%Z)
  | NInf _ => Exn EOther
  | NNan => Exn EValue
  end.

(** validation.py:72, Decimal(f'{x}') for a number: coefficient and exponent. *)
Definition dec_of (W : world) (n : num) : option (Z * Z) :=
  match n with
  | NInt z => Some (z, 0%Z)
  | NDyad m e => Some (w_repr W m e)
  | NInf _ | NNan => None
  end.

(** [Decimal(x) % Decimal(y) == 0] with the default context (precision 28):
    InvalidOperation, which the keyword turns into a failure (validation.py:74-75),
    is raised for y = 0 and when the integer quotient needs more than 28 digits;
    the remainder itself is exact up to a rounding that does not reach zero.
    Infinite and NaN instances are not multiples either.  Simplification: CPython's limits
    on decimal exponents and on int/str conversion length are not modelled. *)
Definition dec_multiple (a b : Z * Z) : bool :=
  let e := Z.min (snd a) (snd b) in
  let x := (Z.abs (fst a) * 10 ^ (snd a - e))%Z in
  let y := (Z.abs (fst b) * 10 ^ (snd b - e))%Z in
  negb (y =? 0)%Z && (x / y <? 10 ^ 28)%Z && (x mod y =? 0)%Z.
Definition is_multiple (W : world) (a b : num) : bool :=
  match dec_of W a, dec_of W b with
  | Some x, Some y => dec_multiple x y
  | Some (c, _), None => match b with NInf _ => (c =? 0)%Z | _ => false end
  | None, _ => false
  end.

(** The division raises InvalidOperation. *)
Definition invalid_operation (W : world) (a b : num) : bool :=
  match dec_of W a, dec_of W b with
  | Some x, Some y =>
      let e := Z.min (snd x) (snd y) in
      let p := (Z.abs (fst x) * 10 ^ (snd x - e))%Z in
      let q := (Z.abs (fst y) * 10 ^ (snd y - e))%Z in
      (q =? 0)%Z || negb (p / q <? 10 ^ 28)%Z
  | _, _ => match a, b with NInf _, NNan => false | NInf _, _ => true | _, _ => false end
  end.

(** validation.py:171-176: the number of items left after dropping repeats. *)
Fixpoint uniquified (seen : list json) (l : list json) : list json :=
  match l with
  | [] => seen
  | v :: r => if existsb (fun u => json_eqb u v) seen then uniquified seen r else uniquified (seen ++ [v]) r
  end.

(** Python truth of the data of a JSON node. *)
Definition truthy (v : kjson) : bool :=
  match v with
  | KJ JNull => false
  | KJ (JBool b) => b
  | KJ (JNum n) => negb (num_eqb n (NInt 0))
  | KJ (JStr s) => match s with [] => false | _ => true end
  | KJ (JArr l) => match l with [] => false | _ => true end
  | KJ (JObj m) => match m with [] => false | _ => true end
  | KSub _ => true  (* malformed: not a plain value *)
  | KSubs l => match l with [] => false | _ => true end
  | KSubm m => match m with [] => false | _ => true end
  end.

(** What a loop over a JSON node goes through (json.py:222-227), characters and
    names being str. *)
Definition iterated (v : kjson) : res (list json) :=
  match v with
  | KJ (JArr l) => Ok l
  | KJ (JStr s) => Ok (map (fun c => JStr [c]) s)
  | KJ (JObj m) => Ok (map JStr (keys m))
  | _ => Exn EType
  end.
(** The same where the loop reads the attribute data of each: str has none. *)
Definition iterated_nodes (v : json) : res (list json) :=
  match v with
  | JArr l => Ok l
  | JStr [] | JObj [] => Ok []
  | JStr _ | JObj _ => Exn EAttribute
  | _ => Exn EType
  end.
(** The items() of a node (collections.abc.ItemsView): what a loop over the node
    goes through is used as a key. *)
Definition iterated_items (v : json) : res (list (pystr * json)) :=
  match v with
  | JObj m => Ok m
  | JArr [] | JStr [] => Ok []
  | _ => Exn EType
  end.

(** validation.py:238 and 251: the names listed that the instance lacks; an
    entry that is not a string is never a member. *)
Definition missing_names (i : inst) (l : list json) : list json :=
  filter (fun x => match x with JStr s => negb (has_member i s) | _ => true end) l.

(** re.search over the patterns, stopping at the first match as any() does. *)
Fixpoint any_search (W : world) (patterns : list pystr) (name : pystr) : res bool :=
  match patterns with
  | [] => Ok false
  | r :: rs => match w_search W r name with
               | None => Exn ERegex
               | Some true => Ok true
               | Some false => any_search W rs name
               end
  end.

Definition schema_keywords (W : world) (s : sid) : list (pystr * keyword) :=
  match w_schema W s with SObj kws => kws | SBool _ => [] end.

(** Result.schema_node, jsonschema.py:439-442: relpath evaluated on the
    schema document.  [SNSchema]: the node is a schema. *)
Inductive schemanode : Set :=
| SNSchema (s : sid)
| SNJson (v : kjson).
Definition sn_of (v : kjson) : schemanode :=
  match v with KSub s => SNSchema s | _ => SNJson v end.
(** value[int(key)], jsonpointer.py:210-217: the ValueError of int() is not
    caught there. *)
Definition sn_index {A} (k : pystr) (l : list A) : res A :=
  match py_int k with
  | Some z => match norm_index (length l) z with
              | Some n => match nth_error l n with Some x => Ok x | None => Exn EPointerReference end
              | None => Exn EPointerReference
              end
  | None => Exn EValue
  end.
Definition sn_child (W : world) (n : schemanode) (k : pystr) : res schemanode :=
  match n with
  | SNSchema s => match dget k (schema_keywords W s) with
                  | Some kw => Ok (sn_of (kw_json kw))
                  | None => Exn EPointerReference
                  end
  | SNJson (KSubs l) => let* s := sn_index k l in Ok (SNSchema s)
  | SNJson (KSubm m) => match dget k m with Some s => Ok (SNSchema s) | None => Exn EPointerReference end
  | SNJson (KJ (JArr l)) => let* v := sn_index k l in Ok (SNJson (KJ v))
  | SNJson (KJ (JObj m)) => match dget k m with Some v => Ok (SNJson (KJ v)) | None => Exn EPointerReference end
  | SNJson _ => Exn EPointerReference
  end.
Fixpoint sn_walk (W : world) (n : schemanode) (p : path) : res schemanode :=
  match p with
  | [] => Ok n
  | k :: r => let* m := sn_child W n k in sn_walk W m r
  end.
Definition schema_node (W : world) (n : rnode) : res schemanode :=
  sn_walk W (SNSchema (r_schema n)) (r_relpath n).

(** core.py:142, 160-161: [schema.get("$dynamicAnchor")] is present, non-empty
    and equal to the fragment; .get on a boolean schema raises TypeError. *)
Definition has_dynamic_anchor (W : world) (s : sid) (fragment : pystr) : res bool :=
  match w_schema W s with
  | SBool _ => Exn EType
  | SObj kws => Ok match dget (lit "$dynamicAnchor") kws with
                   | Some kw => match kw_json kw with
                                | KJ (JStr (c :: r)) => str_eqb (c :: r) fragment
                                | _ => false
                                end
                   | None => false
                   end
  end.

(** legacy.py:36-37, 41-42. *)
Definition has_recursive_anchor (W : world) (s : sid) : res bool :=
  match w_schema W s with
  | SBool _ => Exn EType
  | SObj kws => Ok match dget (lit "$recursiveAnchor") kws with
                   | Some kw => match kw_json kw with KJ (JBool true) => true | _ => false end
                   | None => false
                   end
  end.

(** core.py:149-166: the walk from the current result node to the root;
    [chain] lists target.schema at each step. *)
Fixpoint dynamic_target (W : world) (fragment : pystr) (chain : list sid) (checked : list pystr) (cur : sid) : res sid :=
  match chain with
  | [] => Ok cur
  | t :: r =>
      match w_base W t with
      | Some b =>
          if mem_str b checked then dynamic_target W fragment r checked cur
          else match w_anchor W b fragment with
               | Some found =>
                   let* yes := has_dynamic_anchor W found fragment in
                   dynamic_target W fragment r (b :: checked) (if yes then found else cur)
               | None => dynamic_target W fragment r (b :: checked) cur
               end
      | None => dynamic_target W fragment r checked cur
      end
  end.

(** legacy.py:39-45. *)
Fixpoint recursive_target (W : world) (chain : list sid) (cur : sid) : res sid :=
  match chain with
  | [] => Ok cur
  | t :: r => let* yes := has_recursive_anchor W t in recursive_target W r (if yes then t else cur)
  end.

(** applicator.py:204-209: the largest index among the prefixItems
    annotations, or None if one of them is True. *)
Fixpoint last_evaluated (last : Z) (l : list json) : res (option Z) :=
  match l with
  | [] => Ok (Some last)
  | JBool true :: _ => Ok None
  | JNum (NInt z) :: r => last_evaluated (if (z >? last)%Z then z else last) r
  | _ :: _ => Exn EType
  end.
(** legacy.py:134-139: only True and ints count. *)
Fixpoint last_evaluated_2019 (last : Z) (l : list json) : option Z :=
  match l with
  | [] => Some last
  | JBool true :: _ => None
  | JNum (NInt z) :: r => last_evaluated_2019 (if (z >? last)%Z then z else last) r
  | _ :: r => last_evaluated_2019 last r
  end.
Definition any_true (l : list json) : bool :=
  existsb (fun a => match a with JBool true => true | _ => false end) l.

(** [s |= set(a)] over the annotations: their elements; an annotation that is
    not a list is malformed. *)
Fixpoint union_annots (l : list json) : res (list json) :=
  match l with
  | [] => Ok []
  | JArr a :: r => let* rest := union_annots r in Ok (a ++ rest)
  | _ :: _ => Exn EType
  end.
Definition mem_json (v : json) (l : list json) : bool := existsb (json_eqb v) l.

(** ** Keyword evaluation.  [ev s i anc n] is JSONSchema.evaluate of schema [s]
    on instance [i] into result node [n], where [anc] lists the schemas of the
    proper ancestors of [n], innermost first. *)
(** How floats are written: [w_repr] gives the digits that repr shows. *)
Definition writer (W : world) : floats := {| f_repr := fun m e => decimal_text (w_repr W m e); f_parse := fun _ => NNan |}.
(** The indices of the subschemas that passed, or that did not, as a list. *)
Definition indices (b : bool) (bs : list bool) : pystr :=
  repr_list (map (fun x => match x with JNum (NInt z) => str_of_Z z | _ => [] end) (positions b 0 bs)).

Section Eval.
Variable W : world.
Variable ev : sid -> inst -> list sid -> rnode -> res rnode.

(** [with result(instance, key) as subresult: ...], jsonschema.py:400-430, for
    a keyword's own subresults. *)
Definition in_child (result : rnode) (anc : list sid) (i : inst) (key : pystr) (s : sid) : res (rnode * rnode) :=
  let* c := ev s i (r_schema result :: anc) (new_child result key i (r_schema result)) in
  Ok (close_child result key i c, c).

(** applicator.py:33-37, 48-52, 64-69: the subschemas one after the other on
    the same instance; the list says which passed. *)
Fixpoint branches (i : inst) (anc : list sid) (k : nat) (l : list sid) (result : rnode) : res (rnode * list bool) :=
  match l with
  | [] => Ok (result, [])
  | s :: r =>
      let* (result, c) := in_child result anc i (str_of_nat k) s in
      let* (result, bs) := branches i anc (S k) r result in
      Ok (result, passed c :: bs)
  end.

(** applicator.py:31-40. *)
Definition e_allOf (l : list sid) (i : inst) (anc : list sid) (result : rnode) : res rnode :=
  let* (result, bs) := branches i anc 0 l result in
  Ok (if forallb id bs then result else fail result (JStr (lit "The instance is invalid against subschemas " ++ indices false bs))).

(** applicator.py:46-55. *)
Definition e_anyOf (l : list sid) (i : inst) (anc : list sid) (result : rnode) : res rnode :=
  let* (result, bs) := branches i anc 0 l result in
  Ok (if existsb id bs then result
      else fail result (JStr (lit "The instance must be valid against at least one subschema"))).

(** applicator.py:61-74. *)
Definition e_oneOf (l : list sid) (i : inst) (anc : list sid) (result : rnode) : res rnode :=
  let* (result, bs) := branches i anc 0 l result in
  Ok (if Nat.eqb (length (positions true 0 bs)) 1 then result
      else fail result (JStr (lit "The instance must be valid against exactly one subschema; it is valid against "
                              ++ indices true bs ++ lit " and invalid against " ++ indices false bs))).

(** applicator.py:80-86. *)
Definition e_not (s : sid) (i : inst) (anc : list sid) (result : rnode) : res rnode :=
  let* result := ev s i anc result in
  Ok (if passed result then fail result (JStr (lit "The instance must not be valid against the subschema"))
      else pass_ result).

(** applicator.py:92-94. *)
Definition e_if (s : sid) (i : inst) (anc : list sid) (result : rnode) : res rnode :=
  let* result := ev s i anc result in Ok (noassert result).

(** applicator.py:101-105 ([want] true) and 112-116 ([want] false). *)
Definition e_branch (want : bool) (s : sid) (i : inst) (anc : list sid) (parent result : rnode) : res rnode :=
  match sibling parent i (lit "if") with
  | Some if_ => if Bool.eqb (r_valid if_) want then ev s i anc result else Ok (discard result)
  | None => Ok (discard result)
  end.

(** applicator.py:126-133: the named subschemas for the members present. *)
Fixpoint dependents (i : inst) (anc : list sid) (m : list (pystr * sid)) (result : rnode)
  : res (rnode * (list pystr * list pystr)) :=
  match m with
  | [] => Ok (result, ([], []))
  | (name, s) :: r =>
      if has_member i name then
        let* (result, c) := in_child result anc i name s in
        let* (result, (good, bad)) := dependents i anc r result in
        Ok (result, if passed c then (name :: good, bad) else (good, name :: bad))
      else dependents i anc r result
  end.
Definition e_dependentSchemas (m : list (pystr * sid)) (i : inst) (anc : list sid) (result : rnode) : res rnode :=
  let* (result, (good, bad)) := dependents i anc m result in
  Ok match bad with
     | [] => annotate result (JArr (map JStr good))
     | _ => fail result (JStr (lit "Properties " ++ repr_list (map repr_str bad) ++ lit " are invalid against the corresponding ""dependentSchemas"" subschemas"))
     end.

(** applicator.py:149-153, legacy.py:77-81: item by item against the subschema
    at the same position. *)
Fixpoint pairwise (anc : list sid) (k : nat) (items : list inst) (l : list sid) (result : rnode) : res (rnode * list bool) :=
  match items, l with
  | i :: is, s :: r =>
      let* (result, c) := in_child result anc i (str_of_nat k) s in
      let* (result, bs) := pairwise anc (S k) is r result in
      Ok (result, passed c :: bs)
  | _, _ => Ok (result, [])
  end.
(** applicator.py:146-160. *)
Definition e_prefixItems (l : list sid) (i : inst) (anc : list sid) (result : rnode) : res rnode :=
  let* (result, bs) := pairwise anc 0 (items_of i) l result in
  Ok match positions false 0 bs with
     | (_ :: _) as error => fail result (JArr error)
     | [] => match bs with
             | [] => result
             | _ :: bs' => annotate result (if Nat.eqb (S (length bs')) (length (items_of i))
                                            then JBool true else jint (length bs'))
             end
     end.

(** The loop shared by items, additionalItems, unevaluatedItems,
    additionalProperties, unevaluatedProperties and propertyNames, e.g.
    applicator.py:176-182: evaluate each instance into the same result node;
    after a failure the node is reset to passed. *)
Fixpoint each (s : sid) (anc : list sid) (l : list inst) (result : rnode) : res (rnode * list bool) :=
  match l with
  | [] => Ok (result, [])
  | i :: r =>
      let* result := ev s i anc result in
      let b := passed result in
      let* (result, bs) := each s anc r (if b then result else pass_ result) in
      Ok (result, b :: bs)
  end.

(** Items from position [start] on, judged by one subschema; the error is the
    list of failing positions, the annotation True if any item was evaluated
    (applicator.py:168-187, legacy.py:96-109). *)
Definition e_items_from (start : nat) (s : sid) (i : inst) (anc : list sid) (result : rnode) : res rnode :=
  let* (result, bs) := each s anc (skipn start (items_of i)) result in
  Ok match positions false start bs with
     | (_ :: _) as error => fail result (JArr error)
     | [] => annotate result (match bs with [] => JNull | _ => JBool true end)
     end.

(** applicator.py:168-187.  schema_node is the keyword value of prefixItems;
    malformed: a string, whose length the code would take. *)
Definition e_items (s : sid) (i : inst) (anc : list sid) (parent result : rnode) : res rnode :=
  match sibling parent i (lit "prefixItems") with
  | Some prefix =>
      let* sn := schema_node W prefix in
      match sn with
      | SNJson (KSubs l) => e_items_from (length l) s i anc result
      | _ => Exn EType
      end
  | None => e_items_from 0 s i anc result
  end.

(** Positions and instances from [start] on that are not in [skip]. *)
Fixpoint unskipped (skip : list json) (k : nat) (l : list inst) : list (nat * inst) :=
  match l with
  | [] => []
  | i :: r => if mem_json (jint k) skip then unskipped skip (S k) r else (k, i) :: unskipped skip (S k) r
  end.
Fixpoint failing {A} (f : A -> json) (l : list A) (bs : list bool) : list json :=
  match l, bs with
  | a :: l', b :: bs' => if b then failing f l' bs' else f a :: failing f l' bs'
  | _, _ => []
  end.

(** applicator.py:208-245; legacy.py:151-164 with an empty [skip]. *)
Definition e_unevaluated_from (last : Z) (skip : list json) (s : sid) (i : inst) (anc : list sid) (result : rnode) : res rnode :=
  let start := Z.to_nat (last + 1) in
  let todo := unskipped skip start (skipn start (items_of i)) in
  let* (result, bs) := each s anc (map snd todo) result in
  Ok match failing (fun ki => jint (fst ki)) todo bs with
     | (_ :: _) as error => fail result (JArr error)
     | [] => annotate result (match bs with [] => JNull | _ => JBool true end)
     end.

(** applicator.py:208-245. *)
Definition e_unevaluatedItems (s : sid) (i : inst) (anc : list sid) (parent result : rnode) : res rnode :=
  let collect key := collect_annotations (Some (i_path i)) (Some key) parent in
  let* last := last_evaluated (-1) (collect (lit "prefixItems")) in
  match last with
  | None => Ok (discard result)
  | Some last =>
      if any_true (collect (lit "items")) || any_true (collect (lit "unevaluatedItems")) then Ok (discard result)
      else
        let* skip := union_annots (collect (lit "contains")) in
        e_unevaluated_from last skip s i anc result
  end.

(** legacy.py:132-164. *)
Definition e_unevaluatedItems_2019 (s : sid) (i : inst) (anc : list sid) (parent result : rnode) : res rnode :=
  let collect key := collect_annotations (Some (i_path i)) (Some key) parent in
  match last_evaluated_2019 (-1) (collect (lit "items")) with
  | None => Ok (discard result)
  | Some last =>
      if any_true (collect (lit "additionalItems")) || any_true (collect (lit "unevaluatedItems")) then Ok (discard result)
      else e_unevaluated_from last [] s i anc result
  end.

(** applicator.py:252-263. *)
Definition e_contains (s : sid) (i : inst) (anc : list sid) (result : rnode) : res rnode :=
  let* (result, bs) := each s anc (items_of i) result in
  let found := positions true 0 bs in
  let result := annotate result (JArr found) in
  Ok match found with
     | [] => fail result (JStr (lit "The array does not contain any element that is valid against the ""contains"" subschema"))
     | _ => result
     end.

(** applicator.py:270-279. *)
Fixpoint named (subs : list (pystr * sid)) (anc : list sid) (l : list (pystr * inst)) (result : rnode)
  : res (rnode * (list pystr * list pystr)) :=
  match l with
  | [] => Ok (result, ([], []))
  | (name, item) :: r =>
      match dget name subs with
      | Some s =>
          let* (result, c) := in_child result anc item name s in
          let* (result, (good, bad)) := named subs anc r result in
          Ok (result, if passed c then (name :: good, bad) else (good, name :: bad))
      | None => named subs anc r result
      end
  end.
(** applicator.py:270-285. *)
Definition e_properties (subs : list (pystr * sid)) (i : inst) (anc : list sid) (result : rnode) : res rnode :=
  let* (result, (good, bad)) := named subs anc (members_of i) result in
  Ok match bad with
     | [] => annotate result (JArr (map JStr good))
     | _ => fail result (JStr (lit "Properties " ++ repr_list (map repr_str bad) ++ lit " are invalid"))
     end.

(** applicator.py:296-303: one member against every pattern. *)
Fixpoint matching (subs : list (pystr * sid)) (anc : list sid) (name : pystr) (item : inst) (result : rnode)
  : res (rnode * (list pystr * list pystr)) :=
  match subs with
  | [] => Ok (result, ([], []))
  | (regex, s) :: r =>
      match w_search W regex name with
      | None => Exn ERegex
      | Some false => matching r anc name item result
      | Some true =>
          let* (result, c) := in_child result anc item regex s in
          let* (result, (good, bad)) := matching r anc name item result in
          Ok (result, if passed c then (name :: good, bad) else (good, name :: bad))
      end
  end.
Fixpoint patterned (subs : list (pystr * sid)) (anc : list sid) (l : list (pystr * inst)) (result : rnode)
  : res (rnode * (list pystr * list pystr)) :=
  match l with
  | [] => Ok (result, ([], []))
  | (name, item) :: r =>
      let* (result, (good, bad)) := matching subs anc name item result in
      let* (result, (good', bad')) := patterned subs anc r result in
      Ok (result, (good ++ good', bad ++ bad'))
  end.
(** Dropping repeats, keeping first occurrences. *)
Fixpoint dedup (seen : list pystr) (l : list pystr) : list pystr :=
  match l with
  | [] => []
  | k :: r => if mem_str k seen then dedup seen r else k :: dedup (k :: seen) r
  end.
(** applicator.py:292-308.  Simplification: list(matched_names) is a list of
    set elements in unspecified order; the model lists them in the order in
    which they were matched. *)
Definition e_patternProperties (subs : list (pystr * sid)) (i : inst) (anc : list sid) (result : rnode) : res rnode :=
  let* (result, (good, bad)) := patterned subs anc (members_of i) result in
  Ok match bad with
     | [] => annotate result (JArr (map JStr (dedup [] good)))
     | _ => fail result (JStr (lit "Properties " ++ repr_list (map repr_str bad) ++ lit " are invalid"))
     end.

(** The members [todo] judged by one subschema (applicator.py:327-343, 376-390). *)
Definition e_members (todo : list (pystr * inst)) (s : sid) (anc : list sid) (result : rnode) : res rnode :=
  let* (result, bs) := each s anc (map snd todo) result in
  Ok match failing (fun ni => JStr (fst ni)) todo bs with
     | (_ :: _) as error => fail result (JArr error)
     | [] => annotate result (JArr (map (fun ni => JStr (fst ni)) todo))
     end.

Fixpoint additional (known patterns : list pystr) (l : list (pystr * inst)) : res (list (pystr * inst)) :=
  match l with
  | [] => Ok []
  | (name, item) :: r =>
      if mem_str name known then additional known patterns r
      else
        let* m := any_search W patterns name in
        let* rest := additional known patterns r in
        Ok (if m then rest else (name, item) :: rest)
  end.
Definition sibling_names (parent : rnode) (i : inst) (key : pystr) : res (list pystr) :=
  match sibling parent i key with
  | Some n =>
      let* sn := schema_node W n in
      match sn with
      | SNJson (KSubm m) => Ok (keys m)
      | _ => Exn EType
      end
  | None => Ok []
  end.
(** applicator.py:316-343.  Simplification: the regular expressions are tried
    for all members before any member is evaluated. *)
Definition e_additionalProperties (s : sid) (i : inst) (anc : list sid) (parent result : rnode) : res rnode :=
  let* known := sibling_names parent i (lit "properties") in
  let* patterns := sibling_names parent i (lit "patternProperties") in
  let* todo := additional known patterns (members_of i) in
  e_members todo s anc result.

(** applicator.py:365-390, legacy.py:186-211. *)
Definition e_unevaluatedProperties (s : sid) (i : inst) (anc : list sid) (parent result : rnode) : res rnode :=
  let collect key := union_annots (collect_annotations (Some (i_path i)) (Some key) parent) in
  let* a := collect (lit "properties") in
  let* b := collect (lit "patternProperties") in
  let* c := collect (lit "additionalProperties") in
  let* d := collect (lit "unevaluatedProperties") in
  let evaluated := a ++ b ++ c ++ d in
  e_members (filter (fun ni => negb (mem_json (JStr (fst ni)) evaluated)) (members_of i)) s anc result.

(** applicator.py:397-405.  The name is evaluated as a string node placed
    under the instance with the name as its key. *)
Definition e_propertyNames (s : sid) (i : inst) (anc : list sid) (result : rnode) : res rnode :=
  let names := map (fun ni => (fst ni, mkInst (i_path (snd ni)) (JStr (fst ni)))) (members_of i) in
  let* (result, bs) := each s anc (map snd names) result in
  Ok match failing (fun ni => JStr (fst ni)) names bs with
     | (_ :: _) as error => fail result (JArr error)
     | [] => result
     end.

(** legacy.py:67-72: each item into the same result, without resetting. *)
Fixpoint each_noreset (s : sid) (anc : list sid) (l : list inst) (result : rnode) : res rnode :=
  match l with
  | [] => Ok result
  | i :: r => let* result := ev s i anc result in each_noreset s anc r result
  end.
(** legacy.py:60-86. *)
Definition e_items_2019 (v : kjson) (i : inst) (anc : list sid) (result : rnode) : res rnode :=
  match items_of i with
  | [] => Ok result
  | items =>
      match v with
      | KSub s =>
          match w_schema W s with
          | SBool _ => ev s i anc result
          | SObj _ =>
              let* result := each_noreset s anc items result in
              Ok (if passed result then annotate result (JBool true) else result)
          end
      | KSubs l =>
          let* (result, bs) := pairwise anc 0 items l result in
          Ok match positions false 0 bs with
             | (_ :: _) as error => fail result (JArr error)
             | [] => annotate result (match bs with [] => JNull | _ :: bs' => jint (length bs') end)
             end
      | _ => Ok result
      end
  end.

(** legacy.py:94-112; [type(x) is int] excludes True. *)
Definition e_additionalItems (s : sid) (i : inst) (anc : list sid) (parent result : rnode) : res rnode :=
  match sibling parent i (lit "items") with
  | Some items =>
      match r_annot items with
      | JNum (NInt z) => e_items_from (Z.to_nat (z + 1)) s i anc result
      | _ => Ok (discard result)
      end
  | None => Ok (discard result)
  end.

(** core.py:101-103. *)
Definition e_ref (o : option sid) (i : inst) (anc : list sid) (result : rnode) : res rnode :=
  match o with
  | Some s => let* result := ev s i anc result in Ok (refschema result s)
  | None => Exn EAttribute
  end.

(** core.py:145-169. *)
Definition e_dynamicRef (k : keyword) (i : inst) (anc : list sid) (result : rnode) : res rnode :=
  match kw_ref k with
  | Some s =>
      let* t := if kw_dynamic k then dynamic_target W (kw_fragment k) (r_schema result :: anc) [] s else Ok s in
      let* result := ev t i anc result in Ok (refschema result t)
  | None => Exn EAttribute
  end.

(** legacy.py:34-48. *)
Definition e_recursiveRef (k : keyword) (i : inst) (anc : list sid) (result : rnode) : res rnode :=
  match kw_ref k with
  | Some s =>
      let* anchored := has_recursive_anchor W s in
      let* t := if anchored then recursive_target W (r_schema result :: anc) s else Ok s in
      let* result := ev t i anc result in Ok (refschema result t)
  | None => Exn EAttribute
  end.

(** vocabulary/annotation.py:19-23, vocabulary/__init__.py:162-165. *)
Definition e_annotation (v : kjson) (result : rnode) : res rnode :=
  match v with
  | KJ v => Ok (noassert (annotate result v))
  | _ => Exn EOther  (* not reachable: these classes have no subschema mixin *)
  end.

(** A failure with a message, unless [ok]. *)
Definition check (ok : bool) (msg : pystr) (result : rnode) : rnode :=
  if ok then result else fail result (JStr msg).
(** The same where writing the message may raise: nothing is written if [ok]. *)
Definition tell (ok : bool) (msg : res pystr) (result : rnode) : res rnode :=
  if ok then Ok result else let* t := msg in Ok (check ok t result).

(** f'{before}{self.json}{after}': str of the keyword value, json.py:207-209.
    It raises ValueError if there is an infinity or a NaN in it, utils.py:36-38. *)
Definition said (before : string) (v : kjson) (after : string) : res pystr :=
  match v with
  | KJ v => let* t := json_dumps (writer W) v in Ok (lit before ++ t ++ lit after)
  | _ => Exn EOther  (* not reachable: used by classes that have no subschema mixin *)
  end.

(** Comparisons with a limit, e.g. validation.py:83 and 119; [bad x y] is the
    comparison that makes the keyword fail. *)
Definition limit (bad : num -> num -> bool) (x : num) (v : kjson) (before after : string) (result : rnode) : res rnode :=
  match num_of v with
  | Some y => tell (negb (bad x y)) (said before v after) result
  | None => Exn EType
  end.

Definition inst_num (i : inst) : num := match i_val i with JNum n => n | _ => NInt 0 end.
Definition inst_len (i : inst) : nat :=
  match i_val i with JStr s => length s | JArr l => length l | JObj m => length m | _ => 0 end.

(** validation.py:36-46. *)
Definition e_type (v : kjson) (i : inst) (result : rnode) : res rnode :=
  let types := type_names v in
  let* ok :=
    if mem_str (type_name (type_of (i_val i))) types then Ok true
    else match i_val i with
         | JNum n => if mem_str (lit "integer") types then num_integral n else Ok false
         | _ => Ok false
         end in
  tell ok (said "The instance must be of type " v "") result.

(** validation.py:52-55.  [instance in self.json] goes through self.json
    (Sequence.__contains__), which gives the characters of a string and the
    names of an object. *)
Definition e_enum (v : kjson) (i : inst) (result : rnode) : res rnode :=
  let* l := iterated v in
  Ok (check (existsb (fun x => json_eqb x (i_val i)) l)
        (lit "The instance value must be equal to one of the elements in the defined enumeration") result).

(** validation.py:61-63. *)
Definition e_const (v : kjson) (i : inst) (result : rnode) : res rnode :=
  match v with
  | KJ c => Ok (check (json_eqb (i_val i) c) (lit "The instance value must be equal to the defined constant") result)
  | _ => Exn EType
  end.

(** validation.py:70-75.  The text of null, of a boolean, an array or an object is
    no Decimal, which makes InvalidOperation too.  Malformed: strings; Decimal
    reads some of them. *)
Definition e_multipleOf (v : kjson) (i : inst) (result : rnode) : res rnode :=
  match v with
  | KJ (JNum n) =>
      tell (is_multiple W (inst_num i) n)
        (if invalid_operation W (inst_num i) n
         then let* a := json_dumps (writer W) (i_val i) in
              let* b := json_dumps (writer W) (JNum n) in
              Ok (lit "Invalid operation: " ++ a ++ lit " % " ++ b)
         else said "The value must be a multiple of " v "") result
  | KJ (JStr _) => Exn EType
  | KJ v =>
      tell false
        (let* a := json_dumps (writer W) (i_val i) in
         let* b := json_dumps (writer W) v in
         Ok (lit "Invalid operation: " ++ a ++ lit " % " ++ b)) result
  | _ => Exn EOther  (* not reachable: this class has no subschema mixin *)
  end.

(** validation.py:140-142. *)
Definition e_pattern (v : kjson) (i : inst) (result : rnode) : res rnode :=
  match v, i_val i with
  | KJ (JStr r), JStr s =>
      match w_search W r s with
      | Some b => tell b (said "The text must match the regular expression " v "") result
      | None => Exn ERegex
      end
  | _, _ => Exn EType
  end.

(** validation.py:167-177. *)
Definition e_uniqueItems (v : kjson) (i : inst) (result : rnode) : res rnode :=
  match i_val i with
  | JArr l => if truthy v
              then Ok (check (negb (length (uniquified [] l) <? length l)) (lit "The array's elements must all be unique") result)
              else Ok result
  | _ => Exn EType
  end.

Definition annot_len (a : json) : res nat :=
  match a with JArr l => Ok (length l) | JObj m => Ok (length m) | JStr s => Ok (length s) | _ => Exn EType end.

(** validation.py:185-189. *)
Definition e_maxContains (v : kjson) (i : inst) (parent result : rnode) : res rnode :=
  match sibling parent i (lit "contains") with
  | Some contains =>
      if is_null (r_annot contains) then Ok result
      else let* n := annot_len (r_annot contains) in
           limit num_gtb (len_num n) v "The array has too many elements matching the ""contains"" subschema (maximum " ")" result
  | None => Ok result
  end.

(** validation.py:197-212.  contains.pass_() changes the sibling, hence the
    parent is returned as well. *)
Definition e_minContains (v : kjson) (i : inst) (parent result : rnode) : res (rnode * rnode) :=
  match sibling parent i (lit "contains") with
  | Some contains =>
      let* n := (if is_null (r_annot contains) then Ok 0 else annot_len (r_annot contains)) in
      match num_of v with
      | None => Exn EType
      | Some y =>
          let valid := num_leb y (len_num n) in
          let parent :=
            if valid && negb (r_valid contains) then
              match sibling parent i (lit "maxContains") with
              | Some m => if r_valid m then put_child parent (lit "contains") i (pass_ contains) else parent
              | None => put_child parent (lit "contains") i (pass_ contains)
              end
            else parent in
          let* result := tell valid (said "The array has too few elements matching the ""contains"" subschema (minimum " v ")") result in
          Ok (parent, result)
      end
  | None => Ok (parent, result)
  end.

(** validation.py:237-240. *)
Definition e_required (v : kjson) (i : inst) (result : rnode) : res rnode :=
  match v with
  | KJ v => let* l := iterated_nodes v in
            Ok (check (match missing_names i l with [] => true | _ => false end)
                  (lit "The object is missing required properties "
                   ++ repr_list (map (repr_value (writer W)) (missing_names i l))) result)
  | _ => Exn EOther  (* not reachable: this class has no subschema mixin *)
  end.

(** validation.py:247-256. *)
Fixpoint missing_dependents (i : inst) (m : list (pystr * json)) : res (list (pystr * list json)) :=
  match m with
  | [] => Ok []
  | (name, deps) :: r =>
      if has_member i name then
        let* l := iterated_nodes deps in
        let* rest := missing_dependents i r in
        Ok (match missing_names i l with [] => rest | miss => (name, miss) :: rest end)
      else missing_dependents i r
  end.
(** f'{missing}': the dependents are JSON nodes. *)
Fixpoint repr_missing (m : list (pystr * list json)) : res (list (pystr * pystr)) :=
  match m with
  | [] => Ok []
  | (name, l) :: r =>
      let* ts := all_texts (map (repr_node (writer W)) l) in
      let* rest := repr_missing r in
      Ok ((repr_str name, repr_list ts) :: rest)
  end.
Definition e_dependentRequired (v : kjson) (i : inst) (result : rnode) : res rnode :=
  match v with
  | KJ v =>
      let* m := iterated_items v in
      let* missing := missing_dependents i m in
      tell (match missing with [] => true | _ => false end)
        (let* ts := repr_missing missing in Ok (lit "The object is missing dependent properties " ++ repr_dict ts)) result
  | _ => Exn EOther  (* not reachable: this class has no subschema mixin *)
  end.

(** format.py:24-32. *)
Definition e_format (k : keyword) (i : inst) (result : rnode) : res rnode :=
  match kw_json k with
  | KJ v =>
      let result := annotate result v in
      match kw_format k, v with
      | Some types, JStr a =>
          if mem_type (type_of (i_val i)) types
          then Ok (check (w_format W a (i_val i)) (lit "The instance is invalid against the """ ++ a ++ lit """ format: ") result)
          else Ok (noassert result)
      | _, _ => Ok (noassert result)
      end
  | _ => Exn EOther
  end.

(** vocabulary/annotation.py:69-73. *)
Definition e_contentSchema (v : kjson) (i : inst) (parent result : rnode) : res rnode :=
  match sibling parent i (lit "contentMediaType") with
  | Some _ => e_annotation v result
  | None => Ok (discard result)
  end.

Definition with_sub (v : kjson) (f : sid -> res rnode) : res rnode :=
  match v with KSub s => f s | _ => Exn EAttribute end.
(** A string passes as a sequence (vocabulary/__init__.py:192-200): a loop over it
    ends at once if it is empty, otherwise the first character has no evaluate. *)
Definition with_subs (v : kjson) (f : list sid -> res rnode) : res rnode :=
  match v with KSubs l => f l | KJ (JStr []) => f [] | _ => Exn EAttribute end.
(** applicator.py:149-152: there must be items as well to get that far. *)
Definition with_prefix (v : kjson) (i : inst) (f : list sid -> res rnode) : res rnode :=
  match v with
  | KSubs l => f l
  | KJ (JStr s) => match s, items_of i with _ :: _, _ :: _ => Exn EAttribute | _, _ => f [] end
  | _ => Exn EAttribute
  end.
Definition with_subm (v : kjson) (f : list (pystr * sid) -> res rnode) : res rnode :=
  match v with KSubm m => f m | _ => Exn EAttribute end.

(** keyword.evaluate(instance, result): [parent] is result.parent, [anc] the
    schemas of the ancestors of result.  An applicator whose value is not of the
    shape its mixin expects cannot be constructed. *)
Definition eval_std (k : keyword) (c : stdclass) (i : inst) (anc : list sid) (parent result : rnode) : res rnode :=
  let v := kw_json k in
  match c with
  | KRef => e_ref (kw_ref k) i anc result
  | KDynamicRef => e_dynamicRef k i anc result
  | KRecursiveRef => e_recursiveRef k i anc result
  | KAllOf => with_subs v (fun l => e_allOf l i anc result)
  | KAnyOf => with_subs v (fun l => e_anyOf l i anc result)
  | KOneOf => with_subs v (fun l => e_oneOf l i anc result)
  | KNot => with_sub v (fun s => e_not s i anc result)
  | KIf => with_sub v (fun s => e_if s i anc result)
  | KThen => with_sub v (fun s => e_branch true s i anc parent result)
  | KElse => with_sub v (fun s => e_branch false s i anc parent result)
  | KDependentSchemas => with_subm v (fun m => e_dependentSchemas m i anc result)
  | KPrefixItems => with_prefix v i (fun l => e_prefixItems l i anc result)
  | KItems => with_sub v (fun s => e_items s i anc parent result)
  | KUnevaluatedItems => with_sub v (fun s => e_unevaluatedItems s i anc parent result)
  | KContains => with_sub v (fun s => e_contains s i anc result)
  | KProperties => with_subm v (fun m => e_properties m i anc result)
  | KPatternProperties => with_subm v (fun m => e_patternProperties m i anc result)
  | KAdditionalProperties => with_sub v (fun s => e_additionalProperties s i anc parent result)
  | KUnevaluatedProperties => with_sub v (fun s => e_unevaluatedProperties s i anc parent result)
  | KPropertyNames => with_sub v (fun s => e_propertyNames s i anc result)
  | KItems2019 => e_items_2019 v i anc result
  | KAdditionalItems => with_sub v (fun s => e_additionalItems s i anc parent result)
  | KUnevaluatedItems2019 => with_sub v (fun s => e_unevaluatedItems_2019 s i anc parent result)
  | KUnevaluatedProperties2019 => with_sub v (fun s => e_unevaluatedProperties s i anc parent result)
  | KType_ => e_type v i result
  | KEnum => e_enum v i result
  | KConst => e_const v i result
  | KMultipleOf => e_multipleOf v i result
  | KMaximum => limit num_gtb (inst_num i) v "The value may not be greater than " "" result
  | KExclusiveMaximum => limit num_geb (inst_num i) v "The value must be less than " "" result
  | KMinimum => limit num_ltb (inst_num i) v "The value may not be less than " "" result
  | KExclusiveMinimum => limit num_leb (inst_num i) v "The value must be greater than " "" result
  | KMaxLength => limit num_gtb (len_num (inst_len i)) v "The text is too long (maximum " " characters)" result
  | KMinLength => limit num_ltb (len_num (inst_len i)) v "The text is too short (minimum " " characters)" result
  | KPattern => e_pattern v i result
  | KMaxItems => limit num_gtb (len_num (inst_len i)) v "The array has too many elements (maximum " ")" result
  | KMinItems => limit num_ltb (len_num (inst_len i)) v "The array has too few elements (minimum " ")" result
  | KUniqueItems => e_uniqueItems v i result
  | KMaxContains => e_maxContains v i parent result
  | KMaxProperties => limit num_gtb (len_num (inst_len i)) v "The object has too many properties (maximum " ")" result
  | KMinProperties => limit num_ltb (len_num (inst_len i)) v "The object has too few properties (minimum " ")" result
  | KRequired => e_required v i result
  | KDependentRequired => e_dependentRequired v i result
  | KFormat => e_format k i result
  | KTitle | KDescription | KDefault | KDeprecated | KReadOnly | KWriteOnly | KExamples
  | KContentMediaType | KContentEncoding => e_annotation v result
  | KContentSchema => e_contentSchema v i parent result
  | KSchema_ | KVocabulary_ | KId_ | KIdNext | KAnchor | KDynamicAnchor | KDefs | KComment_
  | KRecursiveAnchor => Ok result  (* Keyword.evaluate, vocabulary/__init__.py:152-153; static, never called *)
  | KMinContains => Ok result  (* see eval_keyword *)
  end.
Definition eval_keyword (k : keyword) (i : inst) (anc : list sid) (parent result : rnode) : res (rnode * rnode) :=
  match kw_class k with
  | Std KMinContains => e_minContains (kw_json k) i parent result
  | Std c => let* r := eval_std k c i anc parent result in Ok (parent, r)
  | Unknown _ => let* r := e_annotation (kw_json k) result in Ok (parent, r)
  end.

(** jsonschema.py:209: whether the keyword looks at the instance at all. *)
Definition applicable (k : keyword) (i : inst) : bool :=
  negb (static (kw_class k)) && mem_type (type_of (i_val i)) (instance_types (kw_class k)).

(** jsonschema.py:208-211, for schema [s] evaluated into [node]. *)
Fixpoint eval_keywords (s : sid) (kws : list (pystr * keyword)) (i : inst) (anc : list sid) (node : rnode) : res rnode :=
  match kws with
  | [] => Ok node
  | (key, k) :: r =>
      if applicable k i then
        let child := new_child node key i s in
        let* (parent, child) := eval_keyword k i (r_schema node :: anc) (put_child node key i child) child in
        eval_keywords s r i anc (close_child parent key i child)
      else eval_keywords s r i anc node
  end.

(** jsonschema.py:213-218. *)
Definition finish (i : inst) (node : rnode) : rnode :=
  if existsb (fun kc => negb (passed (snd kc)) && strs_eqb (r_inst (snd kc)) (i_path i)) (r_children node)
  then fail node JNull else node.
End Eval.

(** JSONSchema.evaluate, jsonschema.py:191-220.  Each nested call uses one
    unit of fuel; running out stands for a computation that goes on. *)
Fixpoint evaluate (W : world) (fuel : nat) (s : sid) (i : inst) (anc : list sid) (node : rnode) : res rnode :=
  match fuel with
  | O => Fuel
  | S f =>
      match w_schema W s with
      | SBool true => Ok node
      | SBool false => Ok (fail node (JStr (lit "The instance is disallowed by a boolean false schema")))
      | SObj kws => let* node := eval_keywords W (evaluate W f) s kws i anc node in Ok (finish i node)
      end
  end.

(** schema.evaluate(instance). *)
Definition evaluate_root (W : world) (fuel : nat) (s : sid) (i : inst) : res rnode :=
  evaluate W fuel s i [] (new_root s i).
