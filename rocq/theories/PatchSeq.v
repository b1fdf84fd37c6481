(** JSONPatch as a mutable sequence of operations.  Models
    jschon/jsonpatch.py:139-175 and the methods that JSONPatch inherits from
    collections.abc.MutableSequence (CPython, _collections_abc.py).

    Simplified: a JSONPatch is the list of its operations; a method that
    changes it gives the new list together with its outcome.  Operations
    compare with [==] only (the inherited index and remove first ask whether
    they are the same object, which makes no difference unless a value is
    unequal to itself). *)
From Verif Require Export Patch.
Open Scope Z_scope.

(** What may be put into a patch, jsonpatch.py:117-118. *)
Inductive operation : Set := Given (o : patchop) | Mapping (m : list (pystr * json)).
(** jsonpatch.py:159-160 and 173-174. *)
Definition made (a : operation) : res patchop := match a with Given o => Ok o | Mapping m => mk_op m end.

(** ** Slices: [slice.indices] (CPython, sliceobject.c) and the positions in the
    [range] of its result. *)
Definition bound (len lower upper : Z) (default : Z) (x : option Z) : Z :=
  match x with
  | None => default
  | Some i => if i <? 0 then Z.max (i + len) lower else Z.min i upper
  end.
Definition slice_indices (len : Z) (start stop : option Z) (step : Z) : Z * Z :=
  if step <? 0
  then (bound len (-1) (len - 1) (len - 1) start, bound len (-1) (len - 1) (-1) stop)
  else (bound len 0 len 0 start, bound len 0 len len stop).
(** len(range(start, stop, step)). *)
Definition range_len (start stop step : Z) : Z :=
  if step <? 0
  then (if stop <? start then (start - stop - 1) / (- step) + 1 else 0)
  else (if start <? stop then (stop - start - 1) / step + 1 else 0).
Definition slice_positions (len : nat) (start stop : option Z) (step : Z) : list nat :=
  let (a, b) := slice_indices (Z.of_nat len) start stop step in
  map (fun k => Z.to_nat (a + Z.of_nat k * step)) (seq 0 (Z.to_nat (range_len a b step))).

(** ** The methods. *)

(** __getitem__ of an int, jsonpatch.py:149-150. *)
Definition seq_get (p : list patchop) (i : Z) : res patchop :=
  match norm_index (length p) i with
  | Some k => match nth_error p k with Some o => Ok o | None => Exn EIndex end
  | None => Exn EIndex
  end.

(** __getitem__ of a slice, jsonpatch.py:151-152; a step of 0 is a ValueError. *)
Definition picked {A} (l : list A) (positions : list nat) : list A :=
  flat_map (fun k => match nth_error l k with Some x => [x] | None => [] end) positions.
Definition seq_slice (p : list patchop) (start stop step : option Z) : res (list patchop) :=
  let step := match step with Some s => s | None => 1 end in
  if step =? 0 then Exn EValue
  else Ok (picked p (slice_positions (length p) start stop step)).

(** __setitem__, jsonpatch.py:155-159. *)
Definition seq_set (p : list patchop) (i : Z) (a : operation) : list patchop * res unit :=
  match made a with
  | Ok o => match norm_index (length p) i with Some k => (update_nth k o p, Ok tt) | None => (p, Exn EIndex) end
  | Exn e => (p, Exn e)
  | Fuel => (p, Fuel)
  end.

(** __delitem__, jsonpatch.py:161-163. *)
Definition seq_del (p : list patchop) (i : Z) : list patchop * res unit :=
  match norm_index (length p) i with Some k => (remove_nth k p, Ok tt) | None => (p, Exn EIndex) end.

(** __delitem__ of a slice, jsonpatch.py:161-163 ([del] of a list passes the
    slice on): the operations at its positions go. *)
Fixpoint without {A} (positions : list nat) (k : nat) (l : list A) : list A :=
  match l with
  | [] => []
  | x :: r => if existsb (Nat.eqb k) positions then without positions (S k) r else x :: without positions (S k) r
  end.
Definition seq_del_slice (p : list patchop) (start stop step : option Z) : list patchop * res unit :=
  let step := match step with Some s => s | None => 1 end in
  if step =? 0 then (p, Exn EValue)
  else (without (slice_positions (length p) start stop step) 0 p, Ok tt).

(** __setitem__ of a slice, jsonpatch.py:155-159: the operation is made first;
    a list then wants an iterable, which an operation is not. *)
Definition seq_set_slice (p : list patchop) (start stop step : option Z) (a : operation) : list patchop * res unit :=
  match made a with
  | Ok _ => let step := match step with Some s => s | None => 1 end in
            (p, Exn (if step =? 0 then EValue else EType))
  | Exn e => (p, Exn e)
  | Fuel => (p, Fuel)
  end.

(** insert, jsonpatch.py:169-173. *)
Definition seq_insert (p : list patchop) (i : Z) (a : operation) : list patchop * res unit :=
  match made a with
  | Ok o => (insert_nth (clamp_index (length p) i) o p, Ok tt)
  | Exn e => (p, Exn e)
  | Fuel => (p, Fuel)
  end.

(** MutableSequence.append: [self.insert(len(self), value)]. *)
Definition seq_append (p : list patchop) (a : operation) : list patchop * res unit :=
  seq_insert p (Z.of_nat (length p)) a.

(** MutableSequence.extend, also [+=]: append one after the other. *)
Fixpoint seq_extend (p : list patchop) (l : list operation) : list patchop * res unit :=
  match l with
  | [] => (p, Ok tt)
  | a :: r => match seq_append p a with (p', Ok _) => seq_extend p' r | x => x end
  end.

(** MutableSequence.pop: [v = self[index]; del self[index]; return v]. *)
Definition seq_pop (p : list patchop) (i : Z) : list patchop * res patchop :=
  match seq_get p i with
  | Ok o => match seq_del p i with (p', Ok _) => (p', Ok o) | (p', Exn e) => (p', Exn e) | (p', Fuel) => (p', Fuel) end
  | Exn e => (p, Exn e)
  | Fuel => (p, Fuel)
  end.

(** MutableSequence.clear: pop the last one until there is an IndexError. *)
Fixpoint seq_clear (fuel : nat) (p : list patchop) : list patchop * res unit :=
  match fuel with
  | O => (p, Fuel)
  | S fuel =>
      match seq_pop p (-1) with
      | (p', Ok _) => seq_clear fuel p'
      | (p', Exn EIndex) => (p', Ok tt)
      | (p', Exn e) => (p', Exn e)
      | (p', Fuel) => (p', Fuel)
      end
  end.

(** MutableSequence.reverse:
    [for i in range(n//2): self[i], self[n-i-1] = self[n-i-1], self[i]]. *)
Fixpoint seq_swaps (p : list patchop) (n : Z) (is : list nat) : list patchop * res unit :=
  match is with
  | [] => (p, Ok tt)
  | i :: r =>
      let i := Z.of_nat i in
      match seq_get p (n - i - 1), seq_get p i with
      | Ok x, Ok y =>
          match seq_set p i (Given x) with
          | (p', Ok _) => match seq_set p' (n - i - 1) (Given y) with (p'', Ok _) => seq_swaps p'' n r | z => z end
          | z => z
          end
      | Ok _, Exn e | Exn e, _ => (p, Exn e)
      | _, _ => (p, Fuel)
      end
  end.
Definition seq_reverse (p : list patchop) : list patchop * res unit :=
  seq_swaps p (Z.of_nat (length p)) (seq 0 (length p / 2)).

(** Sequence.index(value) without bounds: the first position of an equal
    operation, ValueError if there is none.  A mapping is made into an
    operation at each comparison, jsonpatch.py:99-100. *)
Fixpoint index_from (i : nat) (p : list patchop) (a : operation) : res nat :=
  match p with
  | [] => Exn EValue
  | v :: r => let* o := made a in if patchop_eqb v o then Ok i else index_from (S i) r a
  end.
Definition seq_index (p : list patchop) (a : operation) : res nat := index_from 0 p a.

(** MutableSequence.remove: [del self[self.index(value)]]. *)
Definition seq_remove (p : list patchop) (a : operation) : list patchop * res unit :=
  match seq_index p a with
  | Ok i => seq_del p (Z.of_nat i)
  | Exn e => (p, Exn e)
  | Fuel => (p, Fuel)
  end.

(** ** Comparison with what may be put into a patch. *)
(** JSONPatchOperation.__eq__ with an operation or a mapping, jsonpatch.py:97-104. *)
Definition op_equals (self : patchop) (other : operation) : res bool :=
  let* other := made other in Ok (patchop_eqb self other).
(** JSONPatch( *operations), jsonpatch.py:114-122. *)
Fixpoint made_all (operations : list operation) : res (list patchop) :=
  match operations with
  | [] => Ok []
  | a :: r => let* o := made a in let* os := made_all r in Ok (o :: os)
  end.
(** JSONPatch.__eq__ with an iterable of these, jsonpatch.py:175-179: all of
    them are made into operations before any is compared. *)
Definition patch_equals (self : list patchop) (other : list operation) : res bool :=
  let* other := made_all other in Ok (patch_eqb self other).
