(** C63: instances that are equal as JSON are judged alike. *)
From Coq Require Import String List Bool Lia QArith.
From Verif Require Import SchemaEqual SchemaCases.
Import ListNotations.
Open Scope string_scope.
Open Scope list_scope.
Open Scope nat_scope.

(** As prescribed: two instances that differ in the order of members, and in
    writing equal numbers differently (1 and 1.0, both written exactly), get
    the same verdict from every schema, references and unevaluated keywords
    included. *)
Theorem C63_verdict : forall W s x y b, fair_formats (on_par W) W -> looks_like (on_par W) x y -> jwf x = true -> jwf y = true ->
  (verdict W s x b <-> verdict W s y b).
Proof.
  intros W s x y b F L Wx Wy. pose proof (on_par_fair W F) as E. split.
  - exact (equal_verdict _ (on_par_like W) (on_par_sym W) W s x y b E L Wx Wy).
  - exact (equal_verdict _ (on_par_like W) (on_par_sym W) W s y x b E (like_sym _ (on_par_sym W) _ _ L) Wy Wx).
Qed.
Print Assumptions C63_verdict.

(** And as evaluated. *)
Theorem C63_evaluated : forall W d legacy fuel fuel' s i i' r r', fair_formats (on_par W) W ->
  dialect legacy d -> good_world d W ->
  looks_like (on_par W) (i_val i) (i_val i') -> jwf (i_val i) = true -> jwf (i_val i') = true ->
  evaluate_root W fuel s i = Ok r -> evaluate_root W fuel' s i' = Ok r' -> r_valid r = r_valid r'.
Proof. intros W d legacy fuel fuel' s i i' r r' F. exact (equal_valid _ (on_par_like W) (on_par_sym W) W d legacy fuel fuel' s i i' r r' (on_par_fair W F)). Qed.
Print Assumptions C63_evaluated.

(** In particular the order of members is immaterial, whatever repr does. *)
Theorem C63_member_order : forall W d legacy fuel fuel' s i i' r r', fair_formats eq W ->
  dialect legacy d -> good_world d W ->
  looks_like eq (i_val i) (i_val i') -> jwf (i_val i) = true -> jwf (i_val i') = true ->
  evaluate_root W fuel s i = Ok r -> evaluate_root W fuel' s i' = Ok r' -> r_valid r = r_valid r'.
Proof.
  intros W d legacy fuel fuel' s i i' r r' F. apply (equal_valid eq).
  - intros a b ->. now left.
  - intros a b ->. reflexivity.
  - split; [exact F|]. intros a b m ->. reflexivity.
Qed.
Print Assumptions C63_member_order.

(** Equal numbers written inexactly are not judged alike: 2^70 as an int is a
    multiple of itself; as a float it is written 1.1805916207174113e+21, and
    is not. *)
Definition exact (m e : Z) : Z * Z := if (0 <=? e)%Z then (m * 2 ^ e, 0)%Z else (m * 5 ^ (- e), e)%Z.
Definition python_repr (m e : Z) : Z * Z := if ((m =? 1) && (e =? 70))%Z then (11805916207174113, 5)%Z else exact m e.
Definition written_by (repr : Z -> Z -> Z * Z) (l : list snode) : world :=
  mkWorld (fun s => nth s l (SBool true)) (fun _ => None) (fun _ _ => None) (fun r s => Some (occurs r s)) repr (fun _ _ => true) (fun _ _ => []).
Theorem C63_inexact_refuted : exists W s x y fuel r r', good_world dialect_2020_12 W /\ no_unevaluated W /\
  fair_formats like_number W /\ jeq (JNum x) (JNum y) /\
  evaluate_root W fuel s (root (JNum x)) = Ok r /\ r_valid r = true /\
  evaluate_root W fuel s (root (JNum y)) = Ok r' /\ r_valid r' = false.
Proof.
  pose (l := [SObj [kw_in dialect_2020_12 "multipleOf" (KJ (JNum (NInt (2 ^ 70))))]]).
  exists (written_by python_repr l), 0, (NInt (2 ^ 70)), (NDyad 1 70), 5. do 2 eexists.
  split; [exact (good_small dialect_2020_12 l eq_refl)|]. split; [exact (no_unevaluated_small l eq_refl)|].
  split; [intros a x y _; reflexivity|]. split; [constructor; vm_compute; reflexivity|].
  split; [vm_compute; reflexivity|]. split; [reflexivity|]. split; [vm_compute; reflexivity|reflexivity].
Qed.
Print Assumptions C63_inexact_refuted.

(** A case: members in another order, 1 and 1.0, 0.5 and 0.5. *)
Definition ordered : list snode :=
  [ SObj [kw_in dialect_2020_12 "properties" (KSubm [(lit "a", 1); (lit "b", 2)]); kw_in dialect_2020_12 "additionalProperties" (KSub 3)];
    SObj [kw_in dialect_2020_12 "multipleOf" (KJ (JNum (NDyad 1 (-1)))); kw_in dialect_2020_12 "type" (KJ (text "integer"))];
    SObj [kw_in dialect_2020_12 "uniqueItems" (KJ (JBool true))];
    SObj [kw_in dialect_2020_12 "const" (KJ (obj [("p", int 1); ("q", int 2)]))] ].
Definition one : json := JNum (NDyad 1 0).
Definition doc_a : json := obj [("a", int 1); ("b", JArr [int 1; int 3]); ("c", obj [("p", int 1); ("q", int 2)])].
Definition doc_b : json := obj [("c", obj [("q", int 2); ("p", one)]); ("b", JArr [one; int 3]); ("a", one)].
Lemma one_on_par l : looks_like (on_par (written_by exact l)) (int 1) one.
Proof. constructor. right. split; [vm_compute; reflexivity|]. split; [exact I|vm_compute; reflexivity]. Qed.
Lemma int_on_par W z : looks_like (on_par W) (JNum (NInt z)) (JNum (NInt z)).
Proof. constructor. now left. Qed.
Ltac members := cbn [map fst]; intros k; cbn [In]; tauto.
Ltac pick := intros ?k ?x ?y ?X ?Y; cbn [In map fst] in *;
  repeat match goal with H : _ \/ _ |- _ => destruct H as [H|H] | H : False |- _ => destruct H end;
  repeat match goal with H : (_, _) = (_, _) |- _ => apply pair_equal_spec in H; destruct H as [? ?] end; subst; try discriminate.
Lemma docs_alike l : looks_like (on_par (written_by exact l)) doc_a doc_b.
Proof.
  apply like_obj; [members|]. pick; cbn [snd].
  - apply like_obj; [members|]. pick; cbn [snd]; first [apply one_on_par|apply int_on_par].
  - apply like_arr; [reflexivity|]. intros [|[|[|n]]] x y X Y; cbn in X, Y; try discriminate; injection X as <-; injection Y as <-; [apply one_on_par|apply int_on_par].
  - apply one_on_par.
Qed.
Example C63_case : exists r r',
  fair_formats (on_par (written_by exact ordered)) (written_by exact ordered) /\ good_world dialect_2020_12 (written_by exact ordered) /\
  looks_like (on_par (written_by exact ordered)) doc_a doc_b /\
  evaluate_root (written_by exact ordered) 5 0 (root doc_a) = Ok r /\ evaluate_root (written_by exact ordered) 5 0 (root doc_b) = Ok r' /\
  r_valid r = true /\ r_valid r' = true.
Proof.
  do 2 eexists. split; [intros a x y _; reflexivity|]. split; [exact (good_small dialect_2020_12 ordered eq_refl)|]. split; [apply docs_alike|].
  split; [vm_compute; reflexivity|]. split; [vm_compute; reflexivity|]. split; reflexivity.
Qed.
