(** Property C110: operation objects whose path is not a string. *)
From Verif Require Import SpecOpMembers PatchAny PatchFacts PropsPatch PropsOpMembers.
Open Scope nat_scope.
Open Scope string_scope.
Open Scope list_scope.

Definition not_text (v : json) : Prop := forall s, v <> JStr s.
(** What Python takes for false, of the values that are no strings. *)
Definition empty_like (v : json) : Prop :=
  v = JNull \/ v = JBool false \/ v = JNum (NInt 0) \/ (exists e, v = JNum (NDyad 0 e)) \/ v = JArr [] \/ v = JObj [].
Lemma falsy_empty v : not_text v -> (falsy v = true <-> empty_like v).
Proof.
  intro T. unfold empty_like. split.
  - intro H. destruct v as [|[]|[z|m e| |]|s|[|]|[|]]; cbn in H; try discriminate; try tauto.
    + destruct z; try discriminate. tauto.
    + destruct m; try discriminate. right; right; right; left. eauto.
    + now destruct (T s).
  - intros [-> | [-> | [-> | [(e & ->) | [-> | ->]]]]]; reflexivity.
Qed.

(** RFC 6902 gives such an object no meaning. *)
Lemma no_change m v d d' : NoDup (map fst m) -> In (lit "path", v) m -> not_text v -> ~ object_changes m d d'.
Proof.
  intros N I T H.
  assert (L : forall p, ~ locates m (lit "path") p).
  { intros p (s & J & _). apply (In_dget _ _ _ N) in I, J. rewrite I in J. injection J as ->. exact (T s eq_refl). }
  destruct H as [p w O P V R|p O P R|p w O P V R|p f O P Fr R|p f O P Fr R|p w O P V R]; exact (L p P).
Qed.

(** Where Patch.v makes an operation, this is the same one; where it refuses
    the mapping for any reason but a value that is no string, so does this. *)
Theorem C110_agrees : forall m,
  (forall o, mk_op m = Ok o -> exists a, mk_any m = Ok a /\ forall d, any_apply a d = op_apply o d) /\
  (forall e, mk_op m = Exn e -> e <> EOther -> mk_any m = Exn e).
Proof.
  intro m.
  assert (S : forall v, (exists s, v = JStr s /\ spot_of v = (let* p := parse_pointer s in Ok (Ptr p)) /\ pointer_arg v = (let* p := parse_pointer s in Ok (Some p))) \/
              (v = JNull) \/ (pointer_arg v = Exn EOther /\ spot_of v = Ok (Raw v))).
  { intros []; cbn [spot_of pointer_arg]; eauto 6. }
  unfold mk_op, mk_any. destruct (dmem (lit "cls") m); [split; [discriminate|congruence]|].
  destruct (dget (lit "op") m) as [op|]; [|split; [discriminate|congruence]]. destruct (dget (lit "path") m) as [pa|]; [|split; [discriminate|congruence]].
  destruct (match op with JStr s => opname_of s | _ => Exn EValue end) as [o|e|]; cbn [bind]; [|split; [discriminate|congruence]|split; discriminate].
  destruct (S pa) as [(s & -> & E1 & E2)|[->|[E1 E2]]].
  - rewrite E1, E2. destruct (parse_pointer s) as [p|e|]; cbn [bind]; [|split; [discriminate|congruence]|split; discriminate].
    match goal with |- context [pointer_arg ?x] => set (fr := x) end. destruct (S fr) as [(t & F & E3 & E4)|[F|[E3 E4]]].
    + rewrite E3, E4. destruct (parse_pointer t) as [q|e|]; cbn [bind]; [|split; [discriminate|congruence]|split; discriminate].
      split; [|discriminate]. intros x [= <-]. eexists. split; [reflexivity|]. intro d. unfold any_apply, op_apply. cbn [ao_op ao_path ao_value ao_from po_op po_path po_value po_from].
      destruct o; reflexivity.
    + rewrite F. cbn [pointer_arg spot_of bind]. split; [|discriminate]. intros x [= <-]. eexists. split; [reflexivity|]. intro d.
      unfold any_apply, op_apply. cbn [ao_op ao_path ao_value ao_from po_op po_path po_value po_from]. destruct o; reflexivity.
    + rewrite E3, E4. cbn [bind]. split; [discriminate|]. intros e [= <-] H. now destruct H.
  - cbn [pointer_arg bind]. split; [discriminate|]. intros e [= <-] H. now destruct H.
  - rewrite E1. cbn [bind]. split; [discriminate|]. intros e [= <-] H. now destruct H.
Qed.
Print Assumptions C110_agrees.

(** What happens instead: the value is kept as the path. *)
Lemma mk_any_kept m v a : NoDup (map fst m) -> In (lit "path", v) m -> not_text v -> mk_any m = Ok a -> ao_path a = Raw v.
Proof.
  intros N I T. unfold mk_any. destruct (dmem (lit "cls") m); [discriminate|]. rewrite (In_dget _ _ _ N I).
  destruct (dget (lit "op") m) as [op|]; [|discriminate].
  destruct (match op with JStr s => opname_of s | _ => Exn EValue end) as [o|e|]; cbn [bind]; try discriminate.
  assert (E : spot_of v = Ok (Raw v)) by (destruct v; try reflexivity; now destruct (T s)). rewrite E. cbn [bind].
  match goal with |- context [spot_of ?x] => destruct (spot_of x) end; cbn [bind]; try discriminate. intros [= <-]. reflexivity.
Qed.

(** A value that is not empty is refused when the operation is applied. *)
Theorem C110_refused_partial : forall m v a d, NoDup (map fst m) -> In (lit "path", v) m -> not_text v -> ~ empty_like v ->
  mk_any m = Ok a -> forall d', any_apply a d <> Ok d'.
Proof.
  intros m v a d N I T NE E d' H. assert (P := mk_any_kept m v a N I T E).
  assert (F : falsy v = false) by (destruct (falsy v) eqn:F; [now apply (falsy_empty v T) in F|reflexivity]).
  unfold any_apply, any_move, any_copy in H. rewrite P in H. cbn [any_add any_remove any_replace any_test] in H. rewrite F in H.
  destruct (ao_op a); try discriminate.
  - destruct (any_source d (ao_from a)); cbn [bind] in H; try discriminate. destruct (any_remove d (ao_from a)); cbn [bind] in H; discriminate.
  - destruct (any_source d (ao_from a)); cbn [bind] in H; discriminate.
Qed.
Print Assumptions C110_refused_partial.

(** An empty one stands for the whole document, except in a test. *)
Theorem C110_whole_document : forall m v a d d', NoDup (map fst m) -> In (lit "path", v) m -> empty_like v -> mk_any m = Ok a -> jwf d = true ->
  (any_apply a d = Ok d' <->
   match ao_op a with
   | ADD | REPLACE => d' = ao_value a
   | REMOVE => d' = JNull
   | COPY => exists f, ao_from a = Ptr f /\ refers d f d'
   | MOVE => exists f d1, ao_from a = Ptr f /\ refers d f d' /\ p_remove d f = Ok d1
   | TEST => False
   end).
Proof.
  intros m v a d d' N I EL E W.
  assert (T : not_text v) by (intros s ->; destruct EL as [X|[X|[X|[(e & X)|[X|X]]]]]; discriminate).
  assert (P := mk_any_kept m v a N I T E). assert (F := proj2 (falsy_empty v T) EL).
  assert (Sf : forall f x, as_patch_error (eval_plain f d) = Ok x <-> refers d f x).
  { intros f x. rewrite <- (eval_plain_refers _ _ _ W). unfold as_patch_error. destruct (eval_plain f d) as [y|e|]; try reflexivity.
    destruct (is_pointer_error e); split; discriminate. }
  unfold any_apply, any_move, any_copy. rewrite P. cbn [any_add any_remove any_replace any_test]. rewrite F.
  destruct (ao_op a).
  - split; [now intros [= <-]|now intros ->].
  - split; [now intros [= <-]|now intros ->].
  - split; [now intros [= <-]|now intros ->].
  - destruct (ao_from a) as [f|w]; cbn [any_source any_remove bind].
    + split.
      * destruct (as_patch_error (eval_plain f d)) as [x|e|] eqn:X; cbn [bind]; try discriminate.
        destruct (p_remove d f) as [d1|e|] eqn:R; cbn [bind]; try discriminate. intros [= <-]. exists f, d1. repeat split; auto. now apply Sf.
      * intros (g & d1 & [= <-] & X & R). apply Sf in X. rewrite X. cbn [bind]. rewrite R. reflexivity.
    + split; [discriminate|]. intros (g & d1 & [=] & _).
  - destruct (ao_from a) as [f|w]; cbn [any_source bind].
    + split.
      * destruct (as_patch_error (eval_plain f d)) as [x|e|] eqn:X; cbn [bind]; try discriminate. intros [= <-]. exists f. split; auto. now apply Sf.
      * intros (g & [= <-] & X). apply Sf in X. rewrite X. reflexivity.
    + split; [discriminate|]. intros (g & [=] & _).
  - split; [discriminate|contradiction].
Qed.
Print Assumptions C110_whole_document.

(** The claim is false: with a path of null the whole document is lost. *)
Theorem C110_refuted : exists m a d d', jwf (JObj m) = true /\ jwf d = true /\ In (lit "path", JNull) m /\
  (forall x, ~ object_changes m d x) /\ mk_any m = Ok a /\ any_apply a d = Ok d' /\ json_eqb d d' = false.
Proof.
  exists [(lit "op", JStr (lit "remove")); (lit "path", JNull)], (mkAny REMOVE (Raw JNull) JNull (Raw JNull)), two_members, JNull.
  split; [vm_compute; reflexivity|]. split; [vm_compute; reflexivity|]. split; [cbn [In]; tauto|]. split; [|repeat split; vm_compute; reflexivity].
  intro x. apply (no_change _ JNull).
  - match goal with |- NoDup (map fst ?m) => apply (proj1 (nodup_keysb_NoDup m)) end. vm_compute. reflexivity.
  - cbn [In]. tauto.
  - discriminate.
Qed.
Print Assumptions C110_refuted.

Example C110_case :
  let m v := [(lit "op", JStr (lit "copy")); (lit "path", v); (lit "from", JStr (lit "/b"))] in
  let a v := mkAny COPY (Raw v) JNull (Ptr [lit "b"]) in
  mk_any (m (JArr [])) = Ok (a (JArr [])) /\ any_apply (a (JArr [])) two_members = Ok (JNum (NInt 2)) /\ empty_like (JArr []) /\
  mk_any (m (JBool true)) = Ok (a (JBool true)) /\ any_apply (a (JBool true)) two_members = Exn EType /\ not_text (JBool true) /\ ~ empty_like (JBool true).
Proof.
  cbn zeta. split; [vm_compute; reflexivity|]. split; [vm_compute; reflexivity|]. split; [unfold empty_like; tauto|].
  split; [vm_compute; reflexivity|]. split; [vm_compute; reflexivity|]. split; [discriminate|].
  intros [X|[X|[X|[(e & X)|[X|X]]]]]; discriminate X.
Qed.
