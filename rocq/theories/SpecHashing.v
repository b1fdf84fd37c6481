(** What a dict holds, without hashes: the value last stored under the same key,
    unless the key has been removed since. *)
From Coq Require Import List.
From Verif Require Import Hashing.
Import ListNotations.

Inductive holds_under {K V : Type} (same : K -> K -> Prop) (k : K) : list (@dict_op K V) -> V -> Prop :=
| hu_set k' v h : same k' k -> holds_under same k (DSet k' v :: h) v
| hu_other k' v' h v : ~ same k' k -> holds_under same k h v -> holds_under same k (DSet k' v' :: h) v
| hu_pop k' h v : ~ same k' k -> holds_under same k h v -> holds_under same k (DPop k' :: h) v.
