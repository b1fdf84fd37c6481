(** Specification vocabulary for the methods that JSON inherits from
    collections.abc: the same methods on plain lists and dicts. *)
From Verif Require Export SpecTreeAny.
From Verif Require Import Json.
Open Scope nat_scope.

(** An operand with value [w] whose value does not change while the array or
    object [n] is edited: a plain value, or a node that [n] is not below. *)
Definition stays (h : heap) (n : id) (o : operand) : Prop :=
  match o with OVal _ => True | ONode c => ~ below h c n end.
Definition ready (h : heap) (n : id) (o : operand) (w : json) : Prop :=
  operand_ok h o /\ operand_is h o w /\ stays h n o.
Definition ready_pair (h : heap) (n : id) (ko : pystr * operand) (kw : pystr * json) : Prop :=
  fst ko = fst kw /\ ready h n (snd ko) (snd kw).

(** [d.update(kws)] on a plain dict. *)
Definition put_all (kws : list (pystr * json)) (m : list (pystr * json)) : list (pystr * json) :=
  fold_left (fun d kw => dict_put (fst kw) (snd kw) d) kws m.

(** [r] is the position of the first item of [l] that equals [w]; [None] when
    no item does. *)
Definition first_equal (l : list json) (w : json) (r : option nat) : Prop :=
  match r with
  | Some i => (exists x, nth_error l i = Some x /\ json_eqb x w = true) /\
              forall j y, j < i -> nth_error l j = Some y -> json_eqb y w = false
  | None => forall x, In x l -> json_eqb x w = false
  end.
