(** The keys that nodes carry, as against the places they are at. *)
From Verif Require Export SpecTreeAny.
Open Scope nat_scope.

(** Going down from [r] through children leads to [n], and [q] are the keys
    that the nodes on the way carry. *)
Inductive labelled (h : heap) (r : id) : pointer -> id -> Prop :=
| lab_here : labelled h r [] r
| lab_step q n k c l : labelled h r q n -> child_at h n k c -> nkey (getn h c) = Some l -> labelled h r (q ++ [l]) c.

(** The items [ids] carry the numbers [zs] as keys. *)
Definition labels (h : heap) (ids : list id) (zs : list Z) : Prop :=
  Forall2 (fun c z => nkey (getn h c) = Some (str_of_Z z)) ids zs.
(** The numbers that say where the items are. *)
Definition right_labels (len : nat) : list Z := map Z.of_nat (seq 0 len).

(** Adding [d] to the numbers from position [k] on. *)
Definition shift_from (k : nat) (d : Z) (zs : list Z) : list Z := firstn k zs ++ map (fun z => (z + d)%Z) (skipn k zs).
Definition put {A} (k : nat) (x : A) (l : list A) : list A := firstn k l ++ x :: skipn (S k) l.
Definition drop {A} (k : nat) (l : list A) : list A := firstn k l ++ skipn (S k) l.
Definition squeeze {A} (k : nat) (x : A) (l : list A) : list A := firstn k l ++ x :: skipn k l.

(** Other nodes are as they were: of the nodes there were, only [n] has other
    children, and only the items [ids] other keys. *)
Definition only (h h' : heap) (n : id) (ids : list id) : Prop :=
  (forall m, m < length h -> m <> n -> ndata (getn h' m) = ndata (getn h m)) /\
  (forall m, m < length h -> nparent (getn h' m) = nparent (getn h m)) /\
  (forall m, m < length h -> ~ In m ids -> nkey (getn h' m) = nkey (getn h m)).
