(** What it means for an order to respect dependencies, without reference to
    the resolving loop. *)
From Coq Require Import Permutation.
From Verif Require Export Json.

(** [d] occurs before (some occurrence of) [c] in [l]. *)
Definition before {C} (d c : C) (l : list C) : Prop :=
  exists l1 l2 l3, l = l1 ++ d :: l2 ++ c :: l3.

(** Class [c], registered under some name in [kw], depends on class [d]: one
    of the names [c] lists is the name of [d]. *)
Definition depends {C} (deps_of : C -> list pystr) (kw : list (pystr * C)) (c d : C) : Prop :=
  exists n, In n (deps_of c) /\ dget n kw = Some d.

(** An order of evaluation: every class once, after everything it depends on. *)
Definition good_order {C} (deps_of : C -> list pystr) (kw : list (pystr * C)) (l : list C) : Prop :=
  Permutation l (map snd kw) /\
  forall c d, In c l -> depends deps_of kw c d -> before d c l.

(** No class names a present keyword twice. *)
Definition no_repeats {C} (deps_of : C -> list pystr) (kw : list (pystr * C)) : Prop :=
  forall k c, In (k, c) kw ->
  NoDup (filter (fun n => match dget n kw with Some _ => true | None => false end) (deps_of c)).

(** The order in which things written as the first list come about, when each
    has to wait for others: the next one is always the first written of those
    that wait for nothing any more. *)
Inductive in_turn {K} (waits : K -> K -> Prop) : list K -> list K -> Prop :=
| turn_none : in_turn waits [] []
| turn_next l1 k l2 o :
    (forall x, In x (l1 ++ k :: l2) -> ~ waits k x) ->
    (forall y, In y l1 -> exists x, In x (l1 ++ k :: l2) /\ waits y x) ->
    in_turn waits (l1 ++ l2) o -> in_turn waits (l1 ++ k :: l2) (k :: o).
