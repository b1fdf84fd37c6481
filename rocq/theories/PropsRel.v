(** Properties C11 and C12: Relative JSON Pointers. *)
From Verif Require Import RelPointerFacts.
Open Scope nat_scope.

(** ** C11.  Text. *)
Theorem C11_acceptance : forall s, valid_str s -> ((exists r, parse_rel s = Ok r) <-> rel_text s).
Proof.
  intros s V. split.
  - intros (r & H). destruct (fullmatch RELATIVE_JSON_POINTER_RE s) eqn:F; [|unfold parse_rel in H; rewrite F in H; discriminate].
    apply full_cut in F as (u & o & rf & -> & U & O & R). exists u, o, rf. split; auto.
    split; [now apply index_match_rfc|]. split; [now apply over_match|]. apply ref_match; auto.
    unfold valid_str in *. rewrite !Forall_app in V. tauto.
  - intros (u & o & rf & -> & U & O & R).
    assert (C : cut (u ++ o ++ rf) u o rf).
    { split; auto. split; [now apply index_match_rfc|]. split; [now apply over_match|]. apply ref_match; auto.
      unfold valid_str in *. rewrite !Forall_app in V. tauto. }
    destruct (parse_rel_cut _ _ _ _ C) as (n & z & rr & _ & _ & _ & P). eauto.
Qed.
Print Assumptions C11_acceptance.

Theorem C11_rejection_is_malformed : forall s, (exists r, parse_rel s = Ok r) \/ parse_rel s = Exn ERelMalformed.
Proof.
  intro s. destruct (fullmatch RELATIVE_JSON_POINTER_RE s) eqn:F.
  - left. apply full_cut in F as (u & o & rf & C). destruct (parse_rel_cut _ _ _ _ C) as (n & z & rr & _ & _ & _ & P). eauto.
  - right. unfold parse_rel. now rewrite F.
Qed.
Print Assumptions C11_rejection_is_malformed.

Theorem C11_str_of_parse : forall s r, parse_rel s = Ok r -> rel_str r = s.
Proof. exact parse_rel_str. Qed.
Print Assumptions C11_str_of_parse.

Theorem C11_parse_of_str : forall up over ref, (0 <= up)%Z ->
  exists r, parse_rel (rel_str (mk_rel up over ref)) = Ok r /\ rel_eqb r (mk_rel up over ref) = true /\
            r_up r = up /\ r_over r = over /\ r_index r = (match ref with RefHash => true | _ => false end) /\
            r_path r = (match ref with RefPath p => Some p | _ => None end).
Proof.
  intros up over ref U. exists (mk_rel up over ref). split; [now apply parse_rel_of_str|].
  split; [|destruct ref; cbn; auto].
  unfold rel_eqb, mk_rel. cbn [r_up r_over r_index r_path]. rewrite !Z.eqb_refl, eqb_reflx. cbn [andb].
  destruct ref; auto. unfold pointer_eqb. apply strs_eqb_refl.
Qed.
Print Assumptions C11_parse_of_str.

(** Equality is equality of the four attributes that evaluation looks at. *)
Theorem C11_equality : forall a b, rel_eqb a b = true <->
  r_up a = r_up b /\ r_over a = r_over b /\ r_index a = r_index b /\ r_path a = r_path b.
Proof.
  intros a b. unfold rel_eqb. rewrite !andb_true_iff, !Z.eqb_eq, eqb_true_iff.
  split.
  - intros [[[E1 E2] E3] E4]. repeat split; auto. destruct (r_path a), (r_path b); try discriminate; auto.
    f_equal. now apply strs_eqb_eq.
  - intros (E1 & E2 & E3 & E4). repeat split; auto. rewrite E4. destruct (r_path b); auto. apply strs_eqb_refl.
Qed.
Print Assumptions C11_equality.

(** 2-10/a~1b reads: up 2, over -10, then the member 'a/b'. *)
Example C11_case :
  parse_rel (lit "2-10/a~1b") = Ok (mk_rel 2 (-10) (RefPath [lit "a/b"])) /\
  parse_rel (lit "0+3#") = Ok (mk_rel 0 3 RefHash) /\
  parse_rel (lit "01") = Exn ERelMalformed /\ parse_rel (lit "0-0") = Exn ERelMalformed /\
  parse_rel (lit "0#/a") = Exn ERelMalformed.
Proof. repeat split; vm_compute; reflexivity. Qed.

(** ** C12.  Evaluation, in any document that any history of operations
    produces; [p] is the location of the starting node. *)

(** With '#': the index or key of the node meant, exactly when there is one. *)
Theorem C12_index : forall h r p n up over, history h -> is_root h r -> located h r p n -> (0 <= up)%Z ->
  (forall v, rel_eval (mk_rel up over RefHash) h n = Ok v <-> rel_denotes h r p (Z.to_nat up) over RefHash v) /\
  ((forall v, ~ rel_denotes h r p (Z.to_nat up) over RefHash v) ->
   rel_eval (mk_rel up over RefHash) h n = Exn ERelReference).
Proof.
  intros h r p n up over H R L U. apply history_inv in H as I. pose proof (inv_shape _ I) as Sh.
  pose proof (rel_hash_spec h r p n up over Sh R L U) as X.
  destruct (rel_eval (mk_rel up over RefHash) h n) as [w|e|]; [| |tauto].
  - split.
    + intro v. split; [intros [= <-]; auto|]. intro V. f_equal. eapply rel_denotes_hash_fun; eauto.
    + intro N. destruct (N _ X).
  - destruct X as [-> N]. split; auto. intro v. split; [discriminate|]. intro V. destruct (N _ V).
Qed.
Print Assumptions C12_index.

(** With a pointer: what the relative pointer denotes is found. *)
Theorem C12_path_resolves : forall h r p n up over ref v, history h -> is_root h r -> located h r p n -> (0 <= up)%Z ->
  rel_denotes h r p (Z.to_nat up) over (RefPath ref) v -> rel_eval (mk_rel up over (RefPath ref)) h n = Ok v.
Proof.
  intros h r p n up over ref v H R L U. apply history_inv in H as I. apply rel_path_ok; auto. apply I.
Qed.
Print Assumptions C12_path_resolves.

(** The steps before the pointer never fail otherwise than by
    RelativeJSONPointerReferenceError, and never succeed wrongly. *)
Theorem C12_bad_base_is_reference_error : forall h r p n up over ref, history h -> is_root h r -> located h r p n ->
  (0 <= up)%Z -> (forall q, ~ rel_base h r p (Z.to_nat up) over q) ->
  rel_eval (mk_rel up over ref) h n = Exn ERelReference.
Proof.
  intros h r p n up over ref H R L U N. apply history_inv in H as I. pose proof (inv_shape _ I) as Sh.
  rewrite rel_eval_base. pose proof (go_base_spec h r p n up over Sh R L U) as G.
  destruct (go_base h n up over) as [m|e|]; cbn [bind]; [| |tauto].
  - destruct G as (q & B & _). destruct (N _ B).
  - destruct G as [-> _]. reflexivity.
Qed.
Print Assumptions C12_bad_base_is_reference_error.

(** The full claim says: the value denoted if there is one, otherwise
    RelativeJSONPointerReferenceError.  Missing: references in which an array
    is met by a key that is not an RFC 6901 index, for which it is false (see
    the two theorems below). *)
Theorem C12_path_exact_partial : forall h r p n up over ref, history h -> is_root h r -> located h r p n -> (0 <= up)%Z ->
  (forall q m, rel_base h r p (Z.to_nat up) over q -> located h r q m -> indices_at_arrays h m ref) ->
  (forall v, rel_eval (mk_rel up over (RefPath ref)) h n = Ok v <-> rel_denotes h r p (Z.to_nat up) over (RefPath ref) v) /\
  ((forall v, ~ rel_denotes h r p (Z.to_nat up) over (RefPath ref) v) ->
   rel_eval (mk_rel up over (RefPath ref)) h n = Exn ERelReference).
Proof.
  intros h r p n up over ref H R L U A. apply history_inv in H as I. pose proof (inv_shape _ I) as Sh.
  pose proof (rel_path_exact h r p n up over ref Sh R L U A) as X.
  assert (K : forall v, rel_denotes h r p (Z.to_nat up) over (RefPath ref) v -> rel_eval (mk_rel up over (RefPath ref)) h n = Ok v)
    by (intro; apply rel_path_ok; auto).
  destruct (rel_eval (mk_rel up over (RefPath ref)) h n) as [w|e|]; [| |tauto].
  - split; [|intro N; destruct (N _ X)]. intro v. split; auto. now intros [= <-].
  - destruct X as [-> N]. split; auto. intro v. split; [discriminate|auto].
Qed.
Print Assumptions C12_path_exact_partial.

(** The example document of the Relative JSON Pointer draft, extended. *)
Definition doc12 : json :=
  JObj [(lit "foo", JArr [JStr (lit "bar"); JStr (lit "baz"); JStr (lit "biz")]);
        (lit "highly", JObj [(lit "nested", JObj [(lit "objects", JBool true)])])].
Definition heap12 : heap := fst (new_doc doc12 []).
Lemma heap12_history : history heap12.
Proof. apply (hist_step [] (OpNew doc12)); [apply hist_start|reflexivity]. Qed.
Lemma heap12_root : is_root heap12 0.
Proof. split; [vm_compute; lia|reflexivity]. Qed.
Lemma heap12_baz : located heap12 0 [lit "foo"; lit "1"] 3.
Proof.
  apply (located_cons _ _ _ 1); [eapply ca_member; [vm_compute; reflexivity|left; reflexivity]|].
  change (lit "1") with (str_of_nat 1).
  apply (located_cons _ _ _ 3); [econstructor; [vm_compute; reflexivity|reflexivity]|constructor].
Qed.

Theorem C12_negative_index_refuted : exists h r p n rel v, history h /\ is_root h r /\ located h r p n /\
  parse_rel (lit "1/-1") = Ok rel /\ rel_eval rel h n = Ok v /\
  forall w, ~ rel_denotes h r p 1 0 (RefPath [lit "-1"]) w.
Proof.
  exists heap12, 0, [lit "foo"; lit "1"], 3, (mk_rel 1 0 (RefPath [lit "-1"])), (RVNode 4).
  split; [apply heap12_history|]. split; [apply heap12_root|]. split; [apply heap12_baz|].
  split; [vm_compute; reflexivity|]. split; [vm_compute; reflexivity|].
  pose proof (inv_shape _ (history_inv _ heap12_history)) as Sh.
  intros w W. inversion W as [q ref n B L| |]; subst.
  inversion B as [q' Lq (s & Ps) _|]; subst; [|congruence].
  assert (q = [lit "foo"]) as ->.
  { destruct q as [|x [|y q]]; simpl in Lq; try lia. injection Ps as <- _. reflexivity. }
  apply located_snoc_inv in L as (a & La & C).
  assert (L1 : located heap12 0 [lit "foo"] 1).
  { apply (located_cons _ _ _ 1); [eapply ca_member; [vm_compute; reflexivity|left; reflexivity]|constructor]. }
  rewrite (located_fun _ _ _ _ _ Sh La L1) in C.
  destruct (child_at_arr heap12 1 _ _ [2; 3; 4] eq_refl C) as (j & E & Hj).
  destruct j as [|[|[|j]]]; try (vm_compute in E; discriminate). simpl in Hj. destruct j; discriminate.
Qed.
Print Assumptions C12_negative_index_refuted.

Theorem C12_value_error_refuted : exists h r p n rel, history h /\ is_root h r /\ located h r p n /\
  parse_rel (lit "1/x") = Ok rel /\ rel_eval rel h n = Exn EValue.
Proof.
  exists heap12, 0, [lit "foo"; lit "1"], 3, (mk_rel 1 0 (RefPath [lit "x"])).
  split; [apply heap12_history|]. split; [apply heap12_root|]. split; [apply heap12_baz|].
  split; vm_compute; reflexivity.
Qed.
Print Assumptions C12_value_error_refuted.

(** From 'baz' (/foo/1) the cases of the draft. *)
Example C12_case :
  rel_eval (mk_rel 0 0 RefHash) heap12 3 = Ok (RVIndex 1) /\
  rel_eval (mk_rel 0 1 RefHash) heap12 3 = Ok (RVIndex 2) /\
  rel_eval (mk_rel 1 0 RefHash) heap12 3 = Ok (RVKey (lit "foo")) /\
  rel_eval (mk_rel 0 (-1) (RefPath [])) heap12 3 = Ok (RVNode 2) /\
  rel_eval (mk_rel 2 0 (RefPath [lit "highly"; lit "nested"; lit "objects"])) heap12 3 = Ok (RVNode 7) /\
  rel_eval (mk_rel 0 2 (RefPath [])) heap12 3 = Exn ERelReference /\
  rel_eval (mk_rel 3 0 (RefPath [])) heap12 3 = Exn ERelReference /\
  rel_denotes heap12 0 [lit "foo"; lit "1"] 0 1 RefHash (RVIndex 2).
Proof.
  repeat (split; [vm_compute; reflexivity|]).
  change (RVIndex 2) with (RVIndex (Z.of_nat 2)). eapply (rd_index _ _ _ _ _ [lit "foo"] 2 1).
  - eapply rb_over with (q := [lit "foo"]) (i := 1) (k := 2) (a := 1) (ids := [2; 3; 4]); try (cbn; lia); auto.
    + exists []. reflexivity.
    + apply (located_cons _ _ _ 1); [eapply ca_member; [vm_compute; reflexivity|left; reflexivity]|constructor].
  - apply (located_cons _ _ _ 1); [eapply ca_member; [vm_compute; reflexivity|left; reflexivity]|constructor].
  - vm_compute. reflexivity.
Qed.
