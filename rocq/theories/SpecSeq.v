(** What Python's sequence indices and slices stand for (The Python Standard
    Library, Common Sequence Operations, notes 3 to 5), as relations. *)
From Coq Require Export Sorting.Sorted.
From Verif Require Export Patch.
Open Scope Z_scope.

(** The index [i] stands for the position [k] in a sequence of length [len]. *)
Definition means (len : nat) (i : Z) (k : nat) : Prop :=
  (k < len)%nat /\ (Z.of_nat k = i \/ i < 0 /\ Z.of_nat k = Z.of_nat len + i).

(** The place between elements that [i] stands for: past the end is the end,
    before the beginning the beginning. *)
Definition place (len : nat) (i : Z) (k : nat) : Prop :=
  0 <= i /\ Z.of_nat k = Z.min i (Z.of_nat len) \/ i < 0 /\ Z.of_nat k = Z.max 0 (Z.of_nat len + i).

(** [k] is at or after the place that [start] stands for; before that of [stop]. *)
Definition from_place (len : nat) (start : option Z) (a : nat) : Prop :=
  match start with None => a = 0%nat | Some i => place len i a end.
Definition to_place (len : nat) (stop : option Z) (b : nat) : Prop :=
  match stop with None => b = len | Some i => place len i b end.

(** Going backwards: the element that [start] stands for, the last one if there
    is none so late; [stop] is the element before which to stop, -1 if there
    is none so early. *)
Definition last_first (len : nat) (start : option Z) (a : Z) : Prop :=
  match start with
  | None => a = Z.of_nat len - 1
  | Some i => 0 <= i /\ a = Z.min i (Z.of_nat len - 1) \/ i < 0 /\ a = Z.max (-1) (Z.of_nat len + i)
  end.
Definition last_stop (len : nat) (stop : option Z) (b : Z) : Prop :=
  match stop with
  | None => b = -1
  | Some i => 0 <= i /\ b = Z.min i (Z.of_nat len - 1) \/ i < 0 /\ b = Z.max (-1) (Z.of_nat len + i)
  end.

(** The position [k] belongs to the slice [start:stop:step]. *)
Definition selected (len : nat) (start stop : option Z) (step : Z) (k : nat) : Prop :=
  (k < len)%nat /\
  (0 < step /\ (exists a b m : nat, from_place len start a /\ to_place len stop b /\ Z.of_nat k = Z.of_nat a + Z.of_nat m * step /\ (k < b)%nat)
   \/ step < 0 /\ (exists (a b : Z) (m : nat), last_first len start a /\ last_stop len stop b /\ Z.of_nat k = a + Z.of_nat m * step /\ b < Z.of_nat k)).
