(** What it means for a list or dict to hold a JSON value, and the programs
    that C100 is about. *)
From Verif Require Import JAlias SpecTree.
Open Scope nat_scope.

Inductive shows (st : store) : pyref -> json -> Prop :=
| shows_atom v : shows st (PAtom v) v
| shows_list a l vs : nth_error st a = Some (PList l) -> length l = length vs ->
    (forall i x v, nth_error l i = Some x -> nth_error vs i = Some v -> shows st x v) ->
    shows st (PRef a) (JArr vs)
| shows_dict a m kvs : nth_error st a = Some (PDict m) -> map fst m = map fst kvs ->
    (forall i k x k' v, nth_error m i = Some (k, x) -> nth_error kvs i = Some (k', v) -> shows st x v) ->
    shows st (PRef a) (JObj kvs).

(** Nodes exist and values are JSON values. *)
Definition act_ok (t : state) (x : action) : Prop :=
  match x with
  | ANew v => jwf v = true
  | ARead n | ADel n _ => n < length (s_heap t)
  | ASet n _ o | AInsert n _ o => n < length (s_heap t) /\ operand_ok (s_heap t) o
  end.

(** States reached by a program that does not change what [value] hands out. *)
Inductive reached : state -> Prop :=
| reached_start : reached (mkState [] [] [])
| reached_act t x : reached t -> act_ok t x -> reached (act t x).
