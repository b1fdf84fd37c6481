(** The texts that Python's [int()] accepts, as a grammar (the Python library
    reference, [int]; PEP 515 for the underscores), and the reading of a JSON
    pointer in which array items may be named by any such text. *)
From Verif Require Import Base Json SpecTreeAny.
Open Scope nat_scope.

(** Blanks, one by one. *)
Definition blank (c : N) : Prop :=
  In c [9; 10; 11; 12; 13; 32; 133; 160; 5760; 8192; 8193; 8194; 8195; 8196; 8197; 8198; 8199; 8200; 8201; 8202;
        8232; 8233; 8239; 8287; 12288]%N.

(** A decimal digit: one of ten consecutive code points, the first of which is
    a zero of some script (the table [nd_zeros] of Base.v). *)
Definition decimal (c : N) (d : Z) : Prop :=
  exists zero i, In zero nd_zeros /\ (i < 10)%N /\ c = (zero + i)%N /\ d = Z.of_N i.

(** Digits, the most significant first, with at most one underscore between
    two neighbours. *)
Inductive numeral : pystr -> Z -> Prop :=
| num_one c d : decimal c d -> numeral [c] d
| num_more s z c d : numeral s z -> decimal c d -> numeral (s ++ [c]) (10 * z + d)%Z
| num_sep s z c d : numeral s z -> decimal c d -> numeral (s ++ [95%N; c]) (10 * z + d)%Z.

Inductive signed : pystr -> Z -> Prop :=
| sg_none s z : numeral s z -> signed s z
| sg_plus s z : numeral s z -> signed (43%N :: s) z
| sg_minus s z : numeral s z -> signed (45%N :: s) (- z)%Z.

Definition int_text (s : pystr) (z : Z) : Prop :=
  exists a b t, Forall blank a /\ Forall blank b /\ s = a ++ t ++ b /\ signed t z.

(** [reads_as d p q]: the keys [p] lead from [d] to a value when every array
    item may be named by any integer text, counting from the end if negative;
    [q] is the same way with each item named by its index. *)
Inductive reads_as : json -> list pystr -> list pystr -> Prop :=
| ra_here d : reads_as d [] []
| ra_member m k v p q : In (k, v) m -> reads_as v p q -> reads_as (JObj m) (k :: p) (k :: q)
| ra_item l k z i v p q : int_text k z -> position (length l) z = Some i -> nth_error l i = Some v ->
    reads_as v p q -> reads_as (JArr l) (k :: p) (str_of_nat i :: q).

(** [ends_at d p v k]: following [p] in the same way as far as possible, one
    stops at [v] because the next key [k] leads nowhere. *)
Inductive ends_at : json -> list pystr -> json -> pystr -> Prop :=
| ea_here d k p : (forall q, ~ reads_as d [k] q) -> ends_at d (k :: p) d k
| ea_member m k v p w j : In (k, v) m -> ends_at v p w j -> ends_at (JObj m) (k :: p) w j
| ea_item l k z i v p w j : int_text k z -> position (length l) z = Some i -> nth_error l i = Some v ->
    ends_at v p w j -> ends_at (JArr l) (k :: p) w j.

(** The step fails because an array is given a key that is no integer. *)
Definition not_integer (v : json) (k : pystr) : Prop :=
  (exists l, v = JArr l) /\ forall z, ~ int_text k z.
