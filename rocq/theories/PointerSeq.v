(** JSONPointer as a sequence of its keys: slices with a step
    (jsonpointer.py:125-126) and the methods that JSONPointer inherits from
    collections.abc.Sequence (CPython, _collections_abc.py), which use
    [__getitem__] and [__len__]. *)
From Verif Require Export Pointer PatchSeq.
Open Scope Z_scope.

(** jsonpointer.py:125-126, any slice. *)
Definition pointer_slices (p : pointer) (start stop step : option Z) : res pointer :=
  let step := match step with Some s => s | None => 1 end in
  if step =? 0 then Exn EValue else mk_pointer [PKeys (picked p (slice_positions (length p) start stop step))].

(** Sequence.__iter__: [self[0]], [self[1]], ... until there is an IndexError. *)
Fixpoint iter_from (fuel : nat) (p : pointer) (i : Z) : res (list pystr) :=
  match fuel with
  | O => Fuel
  | S fuel =>
      match pointer_item p i with
      | Ok k => let* r := iter_from fuel p (i + 1) in Ok (k :: r)
      | Exn EIndex => Ok []
      | Exn e => Exn e
      | Fuel => Fuel
      end
  end.
Definition pointer_iter (fuel : nat) (p : pointer) : res (list pystr) := iter_from fuel p 0.

(** Sequence.__contains__: [any(v is value or v == value for v in self)]. *)
Definition pointer_contains (fuel : nat) (p : pointer) (k : pystr) : res bool :=
  let* l := pointer_iter fuel p in Ok (existsb (fun v => str_eqb v k) l).

(** Sequence.count: [sum(1 for v in self if v is value or v == value)]. *)
Definition pointer_count (fuel : nat) (p : pointer) (k : pystr) : res nat :=
  let* l := pointer_iter fuel p in Ok (length (filter (fun v => str_eqb v k) l)).

(** Sequence.__reversed__: [for i in reversed(range(len(self))): yield self[i]]. *)
Fixpoint items_at (p : pointer) (is : list nat) : res (list pystr) :=
  match is with
  | [] => Ok []
  | i :: r => let* k := pointer_item p (Z.of_nat i) in let* l := items_at p r in Ok (k :: l)
  end.
Definition pointer_reversed (p : pointer) : res (list pystr) := items_at p (rev (seq 0 (length p))).

(** Sequence.index(value, start, stop): negative bounds count from the end; the
    keys are looked at one by one until [stop] or an IndexError. *)
Fixpoint index_loop (fuel : nat) (p : pointer) (k : pystr) (stop : option Z) (i : Z) : res Z :=
  match fuel with
  | O => Fuel
  | S fuel =>
      if match stop with Some j => j <=? i | None => false end then Exn EValue
      else match pointer_item p i with
           | Ok v => if str_eqb v k then Ok i else index_loop fuel p k stop (i + 1)
           | Exn EIndex => Exn EValue
           | Exn e => Exn e
           | Fuel => Fuel
           end
  end.
Definition pointer_index (fuel : nat) (p : pointer) (k : pystr) (start : Z) (stop : option Z) : res Z :=
  let len := Z.of_nat (length p) in
  let start := if start <? 0 then Z.max (len + start) 0 else start in
  let stop := match stop with Some j => Some (if j <? 0 then j + len else j) | None => None end in
  index_loop fuel p k stop start.
