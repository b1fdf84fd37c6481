(** Specification of Relative JSON Pointers (draft-hha-relative-json-pointer),
    by grammar and by locations in a document. *)
From Verif Require Import SpecPointer SpecTree RelPointer.
Open Scope nat_scope.

(** Grammar: non-negative integer, optional index manipulation, then a JSON
    pointer or '#'. *)
Inductive rel_over_text : pystr -> Prop :=
| ro_none : rel_over_text []
| ro_some sign c r : sign = 43%N \/ sign = 45%N -> (49 <= c)%N -> (c <= 57)%N -> Forall digit r ->
    rel_over_text (sign :: c :: r).
Inductive rel_ref_text : pystr -> Prop :=
| rr_hash : rel_ref_text [35%N]
| rr_path s : rfc_pointer s -> rel_ref_text s.
Definition rel_text (s : pystr) : Prop :=
  exists up over ref, s = up ++ over ++ ref /\ rfc_index_text up /\ rel_over_text over /\ rel_ref_text ref.

(** The location meant by the prefix [up][over], starting from location [p]:
    drop [up] keys, then move the last key by [over] array positions. *)
Inductive rel_base (h : heap) (r : id) (p : pointer) (up : nat) (over : Z) : pointer -> Prop :=
| rb_plain q : length q + up = length p -> is_prefix q p -> over = 0%Z -> rel_base h r p up over q
| rb_over q i k a ids : length q + 1 + up = length p -> is_prefix (q ++ [str_of_nat i]) p -> over <> 0%Z ->
    located h r q a -> ndata (getn h a) = DArr ids ->
    (Z.of_nat i + over)%Z = Z.of_nat k -> k < length ids ->
    rel_base h r p up over (q ++ [str_of_nat k]).

(** What the whole relative pointer denotes. *)
Inductive rel_denotes (h : heap) (r : id) (p : pointer) (up : nat) (over : Z) : refarg -> relvalue -> Prop :=
| rd_path q ref n : rel_base h r p up over q -> located h r (q ++ ref) n ->
    rel_denotes h r p up over (RefPath ref) (RVNode n)
| rd_index q i a ids : rel_base h r p up over (q ++ [str_of_nat i]) -> located h r q a ->
    ndata (getn h a) = DArr ids -> rel_denotes h r p up over RefHash (RVIndex (Z.of_nat i))
| rd_key q k a m : rel_base h r p up over (q ++ [k]) -> located h r q a ->
    ndata (getn h a) = DObj m -> rel_denotes h r p up over RefHash (RVKey k).

(** The keys of [ref] that meet an array, starting at node [m], are indices in
    the syntax of RFC 6901. *)
Definition indices_at_arrays (h : heap) (m : id) (ref : pointer) : Prop :=
  forall a k b x ids, ref = a ++ k :: b -> located h m a x -> ndata (getn h x) = DArr ids -> rfc_index_text k.
