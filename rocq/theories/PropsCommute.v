(** C97, C98: the order of operations on different places, and the order of
    members of the patched document. *)
From Coq Require Import String List NArith ZArith Bool Lia Permutation.
From Verif Require Import BaseFacts JsonFacts PointerFacts Patch PatchFacts SpecPointer SpecEq SpecPatch SpecCommute CommuteFacts.
Import ListNotations.
Open Scope nat_scope.

(** ** C97 *)
Theorem C97_any_order : forall ops ops' d e,
  Permutation ops ops' -> ForallOrdPairs apart ops -> Forall (fun o => jwf (po_value o) = true) ops -> jwf d = true ->
  patch_apply ops d = Ok e -> exists e', patch_apply ops' d = Ok e' /\ same_doc e e'.
Proof. intros ops ops' d e P. exact (any_order ops ops' P d e). Qed.
Print Assumptions C97_any_order.

(** If the operations fail in one order then in every order; the exceptions may
    be different ones. *)
Theorem C97_fails : forall ops ops' d x,
  Permutation ops ops' -> ForallOrdPairs apart ops -> Forall (fun o => jwf (po_value o) = true) ops -> jwf d = true ->
  patch_apply ops d = Exn x -> forall e', patch_apply ops' d <> Ok e'.
Proof.
  intros ops ops' d x P A V W H e' H'.
  assert (A' : ForallOrdPairs apart ops').
  { clear - P A. induction P as [|o l l' P IH|o o' l|l1 l2 l3 Q1 IH1 Q2 IH2]; auto.
    - inversion A as [|? ? H Ar]; subst. constructor; [|now apply IH]. apply (Permutation_Forall P H).
    - inversion A as [|? ? H Ar]; subst. inversion Ar as [|? ? H' Ar']; subst. apply Forall_cons_iff in H. destruct H as [H Hl].
      constructor; [constructor; [now apply apart_sym|exact H']|]. constructor; assumption. }
  destruct (any_order ops' ops (Permutation_sym P) d e' A' (Permutation_Forall P V) W H') as (e & E & _). congruence.
Qed.
Print Assumptions C97_fails.

(** The members of an object and the items of an array. *)
Definition word (k : string) (v : json) : pystr * json := (lit k, v).
Definition int (z : Z) : json := JNum (NInt z).
Definition op (o : opname) (p : list string) (v : json) : patchop := mkOp o (map lit p) v None.
Definition house : json := JObj [word "a" (JObj [word "x" (int 1)]); word "l" (JArr [JObj [word "p" (int 1)]; int 2; JArr []])].
Definition works : list patchop :=
  [op ADD ["a"; "y"] (int 5); op ADD ["a"; "z"] (int 6); op REMOVE ["a"; "x"] JNull; op REPLACE ["l"; "1"] JNull; op REMOVE ["l"; "0"; "p"] JNull;
   op ADD ["l"; "2"; "-"] (int 7)]%string.

Lemma apart_by o1 o2 q k1 r1 k2 r2 : one_place o1 -> one_place o2 -> po_path o1 = q ++ k1 :: r1 -> po_path o2 = q ++ k2 :: r2 -> str_eqb k1 k2 = false ->
  (no_position k1 \/ no_position k2 \/ stays_put o1 r1 /\ stays_put o2 r2 /\ py_int k1 <> py_int k2) -> apart o1 o2.
Proof. intros A B E1 E2 N H. apply str_eqb_neq in N. split; [exact A|split; [exact B|]]. now exists q, k1, r1, k2, r2. Qed.
Ltac parted pre a r b s := apply (apart_by _ _ (map lit pre) (lit a) (map lit r) (lit b) (map lit s));
  [split; discriminate|split; discriminate|reflexivity|reflexivity|reflexivity|].
Example C97_case :
  ForallOrdPairs apart works /\ jwf house = true
  /\ patch_apply works house = Ok (JObj [word "a" (JObj [word "y" (int 5); word "z" (int 6)]); word "l" (JArr [JObj []; JNull; JArr [int 7]])])
  /\ patch_apply (rev works) house = Ok (JObj [word "a" (JObj [word "z" (int 6); word "y" (int 5)]); word "l" (JArr [JObj []; JNull; JArr [int 7]])])
  (** Not so for operations that are not apart: *)
  /\ patch_apply [op ADD ["l"; "0"] JNull; op REMOVE ["l"; "1"] JNull]%string house = Ok (JObj [word "a" (JObj [word "x" (int 1)]); word "l" (JArr [JNull; int 2; JArr []])])
  /\ patch_apply [op REMOVE ["l"; "1"] JNull; op ADD ["l"; "0"] JNull]%string house = Ok (JObj [word "a" (JObj [word "x" (int 1)]); word "l" (JArr [JNull; JObj [word "p" (int 1)]; JArr []])]).
Proof.
  split; [|repeat apply conj; vm_compute; reflexivity]. unfold works.
  assert (NX : forall s, str_eqb (lit s) (lit "-") = false -> py_int (lit s) = None -> no_position (lit s)).
  { intros s H I. split; [now apply str_eqb_neq|exact I]. }
  repeat match goal with
  | |- ForallOrdPairs _ [] => apply FOP_nil
  | |- ForallOrdPairs _ (_ :: _) => apply FOP_cons
  | |- Forall _ [] => apply Forall_nil
  | |- Forall _ (_ :: _) => apply Forall_cons
  end.
  - parted ["a"%string] "y"%string (@nil string) "z"%string (@nil string). left. apply NX; vm_compute; reflexivity.
  - parted ["a"%string] "y"%string (@nil string) "x"%string (@nil string). left. apply NX; vm_compute; reflexivity.
  - parted (@nil string) "a"%string ["y"%string] "l"%string ["1"%string]. left. apply NX; vm_compute; reflexivity.
  - parted (@nil string) "a"%string ["y"%string] "l"%string ["0"; "p"]%string. left. apply NX; vm_compute; reflexivity.
  - parted (@nil string) "a"%string ["y"%string] "l"%string ["2"; "-"]%string. left. apply NX; vm_compute; reflexivity.
  - parted ["a"%string] "z"%string (@nil string) "x"%string (@nil string). left. apply NX; vm_compute; reflexivity.
  - parted (@nil string) "a"%string ["z"%string] "l"%string ["1"%string]. left. apply NX; vm_compute; reflexivity.
  - parted (@nil string) "a"%string ["z"%string] "l"%string ["0"; "p"]%string. left. apply NX; vm_compute; reflexivity.
  - parted (@nil string) "a"%string ["z"%string] "l"%string ["2"; "-"]%string. left. apply NX; vm_compute; reflexivity.
  - parted (@nil string) "a"%string ["x"%string] "l"%string ["1"%string]. left. apply NX; vm_compute; reflexivity.
  - parted (@nil string) "a"%string ["x"%string] "l"%string ["0"; "p"]%string. left. apply NX; vm_compute; reflexivity.
  - parted (@nil string) "a"%string ["x"%string] "l"%string ["2"; "-"]%string. left. apply NX; vm_compute; reflexivity.
  - parted ["l"%string] "1"%string (@nil string) "0"%string ["p"%string]. right. right. split; [right; now left|split; [left; discriminate|vm_compute; discriminate]].
  - parted ["l"%string] "1"%string (@nil string) "2"%string ["-"%string]. right. right. split; [right; now left|split; [left; discriminate|vm_compute; discriminate]].
  - parted ["l"%string] "0"%string ["p"%string] "2"%string ["-"%string]. right. right. split; [left; discriminate|split; [left; discriminate|vm_compute; discriminate]].
Qed.

(** ** C98 *)
Theorem C98_member_order : forall ops ops' d e,
  same_doc d e -> Forall2 same_op ops ops' -> jwf d = true -> jwf e = true ->
  Forall (fun o => jwf (po_value o) = true) ops -> Forall (fun o => jwf (po_value o) = true) ops' ->
  same_result (patch_apply ops d) (patch_apply ops' e).
Proof. intros ops ops' d e S H Wd We V V'. exact (patch_same ops ops' d e H V V' Wd We S). Qed.
Print Assumptions C98_member_order.

(** And [same_doc] is no less than equality in JSON, but for numbers. *)
Theorem C98_equal : forall d e, jwf d = true -> nan_free d = true -> same_doc d e -> jeq d e.
Proof. intros d e W N S. apply jeq_sym, (same_jeq d e S), jeq_refl; assumption. Qed.
Print Assumptions C98_equal.

Definition mirrored : json := JObj [word "l" (JArr [JObj [word "p" (int 1)]; int 2; JArr []]); word "a" (JObj [word "x" (int 1)])].
Example C98_case : same_doc house mirrored /\ house <> mirrored /\
  patch_apply [mkOp MOVE [lit "l"; lit "0"; lit "q"] JNull (Some [lit "a"])] mirrored = Ok (JObj [word "l" (JArr [JObj [word "p" (int 1); word "q" (JObj [word "x" (int 1)])]; int 2; JArr []])]) /\
  patch_apply [op TEST [] mirrored] house = Ok house /\
  patch_apply [op ADD ["a"; "x"; "y"]%string JNull] house = Exn EAssertion /\ patch_apply [op ADD ["a"; "x"; "y"]%string JNull] mirrored = Exn EAssertion.
Proof.
  split; [|split; [discriminate|repeat apply conj; vm_compute; reflexivity]].
  apply same_obj_intro; [apply jwf_NoDup; reflexivity|apply jwf_NoDup; reflexivity|].
  intro k. unfold house, mirrored, word. cbn [dget]. destruct (str_eqb k (lit "a")) eqn:A.
  - apply str_eqb_eq in A. subst k. change (str_eqb (lit "a") (lit "l")) with false. cbv iota. apply sd_refl.
  - destruct (str_eqb k (lit "l")); [apply sd_refl|exact I].
Qed.
