(** What a constructed schema reads back as, member order included. *)
From Verif Require Export SpecBuild.
Open Scope nat_scope.

Section Arranged.
Variable E : env.

(** [arranged m v x]: document [v], under metaschema [m], reads back as [x].
    The members of every schema object stand in the order in which they come
    about; everything that is not a schema reads back as it is. *)
Inductive arranged : option uri -> json -> json -> Prop :=
| arr_bool m b : arranged m (JBool b) (JBool b)
| arr_obj m doc ms : creation_order E (applies E m doc) doc (keys ms) ->
    (forall key v x, dget key doc = Some v -> dget key ms = Some x -> part (applies E m doc) key v x) ->
    arranged m (JObj doc) (JObj ms)
with part : option uri -> pystr -> json -> json -> Prop :=
| part_plain m key c v : class_for E m key = Some c -> ~ takes_one c -> ~ takes_many c -> ~ takes_named c -> part m key v v
| part_one m key c v x : class_for E m key = Some c -> takes_one c -> arranged m v x -> part m key v x
| part_many m key c l xs : class_for E m key = Some c -> takes_many c -> length xs = length l ->
    (forall i v x, nth_error l i = Some v -> nth_error xs i = Some x -> arranged m v x) -> part m key (JArr l) (JArr xs)
| part_text m key c t : class_for E m key = Some c -> takes_many c -> part m key (JStr t) (JStr t)
| part_named m key c d xs : class_for E m key = Some c -> takes_named c -> keys xs = keys d ->
    (forall n v x, dget n d = Some v -> dget n xs = Some x -> arranged m v x) -> part m key (JObj d) (JObj xs).
End Arranged.
