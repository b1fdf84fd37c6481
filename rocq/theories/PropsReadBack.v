(** C64: a constructed schema reads back as the document it was made from. *)
From Coq Require Import String List Bool Lia.
From Verif Require Import ReadBackFacts ReadBackExact PropsBuild SchemaCases BuildStays.
Import ListNotations.
Open Scope string_scope.
Open Scope list_scope.
Open Scope nat_scope.

(** The value of a schema, right after construction or at any later time, is
    the given document, up to the order of members. *)
Theorem C64_read_back : forall E f id v u m c s c' c'' n,
  reads_json E -> reachable c -> jwf v = true -> construct E f id v u m c = (Ok s, c') -> develops c' c'' ->
  length (c_objs c'') <= n ->
  exists x, schema_value n (c_objs c'') s = Some x /\ looks_like eq x v.
Proof.
  intros E f id v u m c s c' c'' n D R J H Dv Hn. destruct (construct_ok E D f id v u m c s c' (reachable_sane _ R) J H) as (S & _ & _ & Md & _).
  destruct (develops_stays c' c'' S Dv) as [S' [L St]].
  assert (M2 : made E (c_objs c'') m None (match u, v with None, JObj _ => Some (e_uuid E (length (c_objs c))) | _, _ => u end) v s None).
  { apply (made_agree E (c_objs c') (c_objs c'')); [exact (proj1 S)|exact Md|]. intros i o _ Hi. exists o. split; [|reflexivity]. rewrite St; [exact Hi|]. apply nth_error_Some. congruence. }
  destruct (made_value E (c_objs c'') (proj1 S') n _ _ _ _ _ _ ltac:(lia) J M2) as (x & X1 & X2 & _). exists x. auto.
Qed.
Print Assumptions C64_read_back.

(** For instance after $ref has been resolved through two documents, and after
    a failing construction that takes over the URI. *)
Example C64_case :
  let c := snd (construct E52 9 default linked None (Some META) empty) in
  let c' := snd (construct E52 9 default (obj [("$id", text "http://a/root"); ("$ref", text "#/nope")]) None (Some META) c) in
  fst (construct E52 9 default linked None (Some META) empty) = Ok 0 /\ develops c c' /\
  exists x, schema_value 7 (c_objs c') 0 = Some x /\ json_eqb x linked = true.
Proof.
  cbv zeta. split; [vm_compute; reflexivity|]. split; [apply dev_construct; [now apply shelf_reads|reflexivity|apply dev_self]|].
  eexists. split; [vm_compute; reflexivity|vm_compute; reflexivity].
Qed.
(** The order may differ: keywords are created in the order of their
    dependencies. *)
Theorem C64_order_refuted : exists E f v s c' x, reads_json E /\ jwf v = true /\
  construct E f default v None (Some META) empty = (Ok s, c') /\ schema_value (length (c_objs c')) (c_objs c') s = Some x /\ x <> v.
Proof.
  exists E52, 9, (obj [("additionalProperties", JBool false); ("properties", obj [])]). do 3 eexists.
  split; [now apply shelf_reads|]. split; [reflexivity|]. split; [vm_compute; reflexivity|]. split; [vm_compute; reflexivity|]. vm_compute. discriminate.
Qed.
Print Assumptions C64_order_refuted.

(** What it reads back as exactly: in every schema object $schema, $vocabulary
    and $id stand first, the other members in the order of the document except
    that each waits for the members it depends on; all else is as written. *)
Theorem C64_exact : forall E f id v u m c s c' c'' n,
  reads_json E -> reachable c -> jwf v = true -> construct E f id v u m c = (Ok s, c') -> develops c' c'' ->
  length (c_objs c'') <= n ->
  exists x, schema_value n (c_objs c'') s = Some x /\ arranged E m v x /\ forall y, arranged E m v y -> y = x.
Proof.
  intros E f id v u m c s c' c'' n D R J H Dv Hn. destruct (construct_ok E D f id v u m c s c' (reachable_sane _ R) J H) as (S & _ & _ & Md & _).
  destruct (develops_stays c' c'' S Dv) as [S' [L St]].
  assert (M2 : made E (c_objs c'') m None (match u, v with None, JObj _ => Some (e_uuid E (length (c_objs c))) | _, _ => u end) v s None).
  { apply (made_agree E (c_objs c') (c_objs c'')); [exact (proj1 S)|exact Md|]. intros i o _ Hi. exists o. split; [|reflexivity]. rewrite St; [exact Hi|]. apply nth_error_Some. congruence. }
  destruct (made_arranged E (c_objs c'') (proj1 S') n _ _ _ _ _ _ ltac:(lia) J M2) as (x & X1 & X2). exists x. split; [exact X1|]. split; [exact X2|].
  intros y Y. exact (arranged_unique E v J m y x Y X2).
Qed.
Print Assumptions C64_exact.

(** So a document whose members stand in that order already reads back as it
    is, member for member. *)
Theorem C64_in_order : forall E f id v u m c s c' c'' n,
  reads_json E -> reachable c -> jwf v = true -> construct E f id v u m c = (Ok s, c') -> develops c' c'' ->
  length (c_objs c'') <= n -> arranged E m v v -> schema_value n (c_objs c'') s = Some v.
Proof.
  intros E f id v u m c s c' c'' n D R J H Dv Hn A. destruct (C64_exact E f id v u m c s c' c'' n D R J H Dv Hn) as (x & X & _ & U). now rewrite (U v A).
Qed.
Print Assumptions C64_in_order.

Definition unsorted : json :=
  obj [("then", JBool true); ("title", text "t"); ("$defs", obj [("z", obj [("maximum", JNum (NInt 1%Z)); ("$id", text "http://a/z")]); ("a", JBool false)]); ("if", JBool true); ("$id", text "http://a/u")].
Definition sorted : json :=
  obj [("$id", text "http://a/u"); ("title", text "t"); ("$defs", obj [("z", obj [("$id", text "http://a/z"); ("maximum", JNum (NInt 1%Z))]); ("a", JBool false)]); ("if", JBool true); ("then", JBool true)].
Example C64_case_exact :
  let made_from v := construct E52 9 default v None (Some META) empty in
  fst (made_from unsorted) = Ok 0 /\ schema_value 9 (c_objs (snd (made_from unsorted))) 0 = Some sorted /\
  fst (made_from sorted) = Ok 0 /\ arranged E52 (Some META) unsorted sorted /\ arranged E52 (Some META) sorted sorted.
Proof.
  cbv zeta. split; [vm_compute; reflexivity|]. split; [vm_compute; reflexivity|]. split; [vm_compute; reflexivity|].
  assert (K : forall v, jwf v = true -> fst (construct E52 9 default v None (Some META) empty) = Ok 0 ->
    Nat.leb (length (c_objs (snd (construct E52 9 default v None (Some META) empty)))) 9 = true ->
    schema_value 9 (c_objs (snd (construct E52 9 default v None (Some META) empty))) 0 = Some sorted -> arranged E52 (Some META) v sorted).
  { intros v J F L V. destruct (construct E52 9 default v None (Some META) empty) as [r c] eqn:Q. cbn [fst snd] in *. subst r. apply Nat.leb_le in L.
    destruct (C64_exact E52 9 default v None (Some META) empty 0 c c 9) as (x & X & A & _); [now apply shelf_reads|constructor|exact J|exact Q|constructor|exact L|].
    rewrite V in X. injection X as <-. exact A. }
  split; apply K; vm_compute; reflexivity.
Qed.
