(** Hashes, and what dicts keyed by pointers and URIs do with them. *)
From Coq Require Import ZArith List Bool.
From Verif Require Export Catalog Rfc3986 Pointer RelPointer.
Import ListNotations.
Open Scope list_scope.
Open Scope nat_scope.

(** The built-in hash() of strings, ints, bools, None, and of tuples given the
    hashes of their elements: functions about which nothing is assumed. *)
Record hasher : Type := mkHasher {
  h_str : pystr -> Z;
  h_int : Z -> Z;
  h_bool : bool -> Z;
  h_none : Z;
  h_tuple : list Z -> Z
}.

(** JSONPointer.__hash__, jsonpointer.py:175-177. *)
Definition pointer_hash (H : hasher) (p : pointer) : Z := h_tuple H (map (h_str H) p).

(** RelativeJSONPointer.__hash__, jsonpointer.py:344-346. *)
Definition rel_hash (H : hasher) (r : relpointer) : Z :=
  h_tuple H [h_int H (r_up r); h_int H (r_over r); h_bool H (r_index r);
             match r_path r with Some p => pointer_hash H p | None => h_none H end].

(** URI.__hash__, uri.py:28-29: a URIReference of rfc3986 is a named tuple of
    five components and hashes as a tuple.  Simplification: a path that is not
    there is the empty text. *)
Definition hash_part (H : hasher) (x : option pystr) : Z := match x with Some s => h_str H s | None => h_none H end.
Definition uri_hash (H : hasher) (u : uri) : Z :=
  let p := split_parts (u_base u) in
  h_tuple H [hash_part H (p_scheme p); hash_part H (p_authority p); h_str H (p_path p); hash_part H (p_query p); hash_part H (u_frag u)].

(** A CPython dict (Objects/dictobject.c): an entry belongs to a key if the
    hashes are the same and the keys are equal.  [d[k]], [d[k] = v], which keeps
    the key of an entry that is there, and [d.pop(k, None)]. *)
Section Dict.
Context {K V : Type}.
Variable hash : K -> Z.
Variable eqb : K -> K -> bool.
Definition hits (k k' : K) : bool := (hash k' =? hash k)%Z && eqb k' k.
Fixpoint dict_get (k : K) (d : list (K * V)) : option V :=
  match d with
  | [] => None
  | (k', v) :: r => if hits k k' then Some v else dict_get k r
  end.
Fixpoint dict_set (k : K) (v : V) (d : list (K * V)) : list (K * V) :=
  match d with
  | [] => [(k, v)]
  | (k', v') :: r => if hits k k' then (k', v) :: r else (k', v') :: dict_set k v r
  end.
Fixpoint dict_pop (k : K) (d : list (K * V)) : list (K * V) :=
  match d with
  | [] => []
  | (k', v') :: r => if hits k k' then r else (k', v') :: dict_pop k r
  end.

(** A history of such changes, the latest first. *)
Inductive dict_op : Type := DSet (k : K) (v : V) | DPop (k : K).
Fixpoint dict_after (h : list dict_op) : list (K * V) :=
  match h with
  | [] => []
  | DSet k v :: h => dict_set k v (dict_after h)
  | DPop k :: h => dict_pop k (dict_after h)
  end.
End Dict.
