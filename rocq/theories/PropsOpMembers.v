(** Property C109: the members of operation objects; and C25 for comparisons
    with mappings. *)
From Verif Require Import SpecOpMembers PatchSeq PatchFacts PropsPatch.
Open Scope nat_scope.
Open Scope string_scope.
Open Scope list_scope.

Lemma decodes_token t k : rfc_decodes t k -> token t /\ unescape t = k.
Proof.
  induction 1 as [|c s k U _ [T E]|s k _ [T E]|s k _ [T E]].
  - split; [constructor|reflexivity].
  - assert (c <> 126 /\ c <> 47)%N as [A B] by (unfold rfc_unescaped in U; lia). split; [now constructor|]. now rewrite unescape_plain, E.
  - split; [now constructor|]. now rewrite unescape_0, E.
  - split; [now constructor|]. now rewrite unescape_1, E.
Qed.
Lemma denotes_parse s p : rfc_denotes s p -> parse_pointer s = Ok p.
Proof.
  intro H. assert (exists ts, s = render ts /\ Forall token ts /\ p = map unescape ts) as (ts & -> & T & ->).
  { induction H as [|t k s ks D _ (ts & -> & T & ->)]; [now exists []|]. destruct (decodes_token _ _ D) as [Tt <-].
    exists (t :: ts). repeat split; auto. }
  now apply parse_render.
Qed.

Lemma no_member (k : pystr) (m : list (pystr * json)) : ~ In k (map fst m) -> dget k m = None.
Proof. intro H. now apply dget_None. Qed.
Lemma no_dmem (k : pystr) (m : list (pystr * json)) : ~ In k (map fst m) -> dmem k m = false.
Proof. intro H. unfold dmem. now rewrite (no_member _ _ H). Qed.

(** What is made of an object with these members only. *)
Lemma mk_op_plain m o p : NoDup (keys m) -> plain_members m -> op_is m (opname_str o) -> locates m (lit "path") p ->
  exists f, mk_op m = Ok (mkOp o p (match dget (lit "value") m with Some v => v | None => JNull end) f) /\
    (forall q, locates m (lit "from") q -> f = Some q) /\
    (forall q, f = Some q -> exists s, In (lit "from", JStr s) m /\ parse_pointer s = Ok q).
Proof.
  intros N (C & F & G) O (s & P & D). unfold mk_op.
  rewrite (no_dmem _ _ C), (In_dget _ _ _ N O), (In_dget _ _ _ N P), opname_round, (no_member _ _ F). cbn [bind pointer_arg].
  rewrite (denotes_parse _ _ D). cbn [bind].
  destruct (dget (lit "from") m) as [v|] eqn:V.
  - destruct (G v (dget_In _ _ _ V)) as [->|(t & q & -> & Q)].
    + exists None. split; [reflexivity|]. split; [|discriminate]. intros q (t & I & _). rewrite (In_dget _ _ _ N I) in V. discriminate.
    + exists (Some q). cbn [pointer_arg]. rewrite (denotes_parse _ _ Q). split; [reflexivity|]. split.
      * intros r (u & I & R). rewrite (In_dget _ _ _ N I) in V. injection V as ->. 
        apply denotes_parse in R, Q. congruence.
      * intros r [= <-]. exists t. split; [now apply dget_In|now apply denotes_parse].
  - exists None. split; [reflexivity|]. split; [|discriminate]. intros q (t & I & _). rewrite (In_dget _ _ _ N I) in V. discriminate.
Qed.

Definition jwfs (m : list (pystr * json)) : Prop := jwf (JObj m) = true.
Lemma jwfs_parts m : jwfs m -> NoDup (keys m) /\ (forall k v, In (k, v) m -> jwf v = true).
Proof.
  unfold jwfs. cbn [jwf]. rewrite andb_true_iff, nodup_keysb_NoDup, forallb_forall. intros [A B]. split; [exact A|].
  intros k v H. exact (B (k, v) H).
Qed.

(** Objects without the excepted members do what RFC 6902 says. *)
Theorem C109_as_rfc_partial : forall m d d', jwf (JObj m) = true -> jwf d = true -> plain_members m -> object_changes m d d' ->
  exists o, mk_op m = Ok o /\ op_apply o d = Ok d'.
Proof.
  intros m d d' Wm W P H. destruct (jwfs_parts m Wm) as [N J].
  destruct H as [p v O L V R|p O L R|p v O L V R|p f O L Fr R|p f O L Fr R|p v O L V R];
    [destruct (mk_op_plain m ADD p N P O L) as (g & E & F & _)|destruct (mk_op_plain m REMOVE p N P O L) as (g & E & F & _)
    |destruct (mk_op_plain m REPLACE p N P O L) as (g & E & F & _)|destruct (mk_op_plain m MOVE p N P O L) as (g & E & F & _)
    |destruct (mk_op_plain m COPY p N P O L) as (g & E & F & _)|destruct (mk_op_plain m TEST p N P O L) as (g & E & F & _)];
    eexists; (split; [exact E|]); unfold op_apply; cbn [po_op po_path po_value po_from];
    try rewrite (In_dget _ _ _ N V); try rewrite (F f Fr).
  - now apply C18_add_as_rfc.
  - now apply C19_remove_as_rfc.
  - now apply C19_replace_as_rfc.
  - now apply C20_move_as_rfc.
  - now apply C20_copy_as_rfc.
  - apply C21_test_exact; eauto.
Qed.
Print Assumptions C109_as_rfc_partial.

(** And nothing else, where the required members are there and the last token
    is as C24 asks. *)
Definition well_put (m : list (pystr * json)) (d : json) : Prop :=
  (forall k s, In (k, JStr s) m -> valid_str s) /\
  (forall p, locates m (lit "path") p -> token_ok d p) /\
  (forall p f d1, op_is m (lit "move") -> locates m (lit "path") p -> locates m (lit "from") f ->
     ~ is_proper_prefix f p /\ (rfc_remove f d d1 -> token_ok d1 p)).

Lemma opname_inv s o : opname_of s = Ok o -> s = opname_str o.
Proof.
  unfold opname_of. repeat match goal with |- context [str_eqb s ?t] => destruct (str_eqb_spec s t) as [->|_]; [intros [= <-]; reflexivity|] end. discriminate.
Qed.

Lemma mk_op_inv m o : mk_op m = Ok o -> exists s t, dget (lit "op") m = Some (JStr s) /\ opname_of s = Ok (po_op o) /\
  dget (lit "path") m = Some (JStr t) /\ parse_pointer t = Ok (po_path o).
Proof.
  unfold mk_op. destruct (dmem _ m); [discriminate|]. destruct (dget (lit "op") m) as [[]|]; try discriminate; destruct (dget (lit "path") m) as [q|]; try discriminate.
  destruct (opname_of s) as [a|e|] eqn:E; cbn [bind]; try discriminate. destruct q; cbn [pointer_arg bind]; try discriminate.
  destruct (parse_pointer s0) as [p|e|] eqn:Q; cbn [bind]; try discriminate.
  match goal with |- context [pointer_arg ?x] => destruct (pointer_arg x) as [f|e|] end; cbn [bind]; try discriminate.
  intros [= <-]. exists s, s0. cbn [po_op po_path]. auto.
Qed.

Theorem C109_only_rfc_partial : forall m o d d', jwf (JObj m) = true -> jwf d = true -> plain_members m -> complete m -> well_put m d ->
  mk_op m = Ok o -> op_apply o d = Ok d' -> object_changes m d d'.
Proof.
  intros m o d d' Wm W P C (Vs & T & M) E A. destruct (jwfs_parts m Wm) as [N J].
  destruct (mk_op_inv m o E) as (s & t & O & On & L & Lp). apply dget_In in O. apply dget_In in L.
  assert (Lo : locates m (lit "path") (po_path o)) by (exists t; split; [exact L|apply parse_denotes; eauto]).
  assert (X := opname_inv _ _ On). subst s.
  destruct (mk_op_plain m _ _ N P O Lo) as (f & E' & _ & Fr). rewrite E in E'. injection E' as E'.
  assert (Pv : po_value o = match dget (lit "value") m with Some v => v | None => JNull end) by exact (f_equal po_value E').
  assert (V : forall name, In name [lit "add"; lit "replace"; lit "test"] -> opname_str (po_op o) = name ->
            In (lit "value", po_value o) m).
  { intros name I <-. destruct (C _ I O) as (v & Hv). rewrite (In_dget _ _ _ N Hv) in Pv. now rewrite Pv. }
  assert (G : po_from o = f) by exact (f_equal po_from E').
  assert (Lf : forall q, po_from o = Some q -> locates m (lit "from") q).
  { intros q Q. destruct (Fr q) as (u & I & U); [congruence|]. exists u. split; [exact I|apply parse_denotes; eauto]. }
  clear E E' Fr G Pv. unfold op_apply in A. destruct o as [op p v g]. cbn [po_op po_path po_value po_from] in *. destruct op.
  - eapply oc_add; [exact O|exact Lo|eapply V; [|reflexivity]; vm_compute; auto|]. apply C18_add_only_rfc; auto.
  - eapply oc_remove; [exact O|exact Lo|]. apply C19_remove_only_rfc; auto.
  - eapply oc_replace; [exact O|exact Lo|eapply V; [|reflexivity]; vm_compute; auto|]. apply C19_replace_only_rfc; auto.
  - destruct g as [q|]; [|discriminate]. eapply oc_move; [exact O|exact Lo|exact (Lf q eq_refl)|].
    apply C20_move_is_remove_add in A as (x & d1 & Rx & Rm & Ad); [|exact W].
    assert (Rm' : rfc_remove q d d1) by (apply C19_remove_only_rfc; auto; eapply refers_token_ok; eauto).
    destruct (M p q d1 O Lo (Lf q eq_refl)) as [Np Tk]. split; [exact Np|]. exists x, d1. repeat split; auto.
    apply C18_add_only_rfc; auto. apply rfc_remove_int in Rm'. eapply spec_remove_jwf; eauto.
  - destruct g as [q|]; [|discriminate]. eapply oc_copy; [exact O|exact Lo|exact (Lf q eq_refl)|]. apply (proj2 (C20_copy_as_rfc d p q d' W)); auto.
  - assert (Iv : In (lit "value", v) m) by (eapply V; [|reflexivity]; vm_compute; auto).
    eapply oc_test; [exact O|exact Lo|exact Iv|]. apply C21_test_exact in A; eauto.
Qed.
Print Assumptions C109_only_rfc_partial.

(** ** Whole patches. *)
Lemma changes_jwf m d d' : jwf (JObj m) = true -> jwf d = true -> object_changes m d d' -> jwf d' = true.
Proof.
  intros Wm W H. destruct (jwfs_parts m Wm) as [_ J].
  destruct H as [p v O L V R|p O L R|p v O L V R|p f O L Fr R|p f O L Fr R|p v O L V R].
  - eapply spec_add_jwf; eauto.
  - eapply spec_remove_jwf; eauto.
  - eapply spec_replace_jwf; eauto.
  - destruct R as (_ & v & d1 & Rv & Rm & Ad). eapply spec_add_jwf; [exact Ad|eapply spec_remove_jwf; eauto|eapply refers_jwf; [|exact Rv]; auto].
  - destruct R as (v & Rv & Ad). eapply spec_add_jwf; [exact Ad|auto|eapply refers_jwf; [|exact Rv]; auto].
  - destruct R as [-> _]. exact W.
Qed.
Theorem C109_patch_partial : forall ms d d', Forall (fun m => jwf (JObj m) = true /\ plain_members m) ms -> jwf d = true ->
  patch_changes ms d d' -> exists ops, mk_patch ms = Ok ops /\ patch_apply ops d = Ok d'.
Proof.
  intros ms d d' F W H. revert F W. induction H as [d|m r d d1 d' Hm _ IH]; intros F W; [now exists []|].
  inversion F as [|? ? [Wm P] Fr]; subst. destruct (C109_as_rfc_partial m d d1 Wm W P Hm) as (o & E & A).
  destruct (IH Fr (changes_jwf m d d1 Wm W Hm)) as (ops & Es & As). exists (o :: ops). cbn [mk_patch patch_apply].
  rewrite E, A. cbn [bind]. rewrite Es. auto.
Qed.
Print Assumptions C109_patch_partial.

(** The converse for whole patches: each object well put where it is reached. *)
Inductive all_put : list (list (pystr * json)) -> json -> Prop :=
| ap_end d : all_put [] d
| ap_next m r d : well_put m d -> (forall d1, object_changes m d d1 -> all_put r d1) -> all_put (m :: r) d.
Theorem C109_patch_only_partial : forall ms ops d d', Forall (fun m => jwf (JObj m) = true /\ plain_members m /\ complete m) ms -> jwf d = true ->
  all_put ms d -> mk_patch ms = Ok ops -> patch_apply ops d = Ok d' -> patch_changes ms d d'.
Proof.
  induction ms as [|m r IH]; intros ops d d' F W P; cbn [mk_patch].
  - intros [= <-] [= <-]. constructor.
  - destruct (mk_op m) as [o|e|] eqn:E; cbn [bind]; try discriminate. destruct (mk_patch r) as [os|e|]; cbn [bind]; try discriminate.
    intros [= <-]. cbn [patch_apply]. destruct (op_apply o d) as [d1|e|] eqn:A; cbn [bind]; try discriminate. intro H.
    inversion F as [|? ? (Wm & Pm & Cm) Fr]; subst. inversion P as [|? ? ? Pd Pn]; subst.
    assert (X := C109_only_rfc_partial m o d d1 Wm W Pm Cm Pd E A).
    eapply pc_next; [exact X|]. exact (IH os d1 d' Fr (changes_jwf m d d1 Wm W X) (Pn d1 X) eq_refl H).
Qed.
Print Assumptions C109_patch_only_partial.

(** ** The members that are read at all. *)
Theorem C109_members_read : forall m m', NoDup (map fst m) -> NoDup (map fst m') ->
  (forall k v, In k [lit "op"; lit "path"; lit "value"; lit "from"; lit "from_"; lit "cls"] -> (In (k, v) m <-> In (k, v) m')) ->
  mk_op m = mk_op m'.
Proof.
  intros m m' N N' H.
  assert (D : forall k, In k [lit "op"; lit "path"; lit "value"; lit "from"; lit "from_"; lit "cls"] -> dget k m = dget k m').
  { intros k I. destruct (dget k m) as [v|] eqn:E.
    - symmetry. apply In_dget; [exact N'|]. apply (H k v I), dget_In, E.
    - destruct (dget k m') as [v|] eqn:E'; [|reflexivity]. apply dget_In, (H k v I), (In_dget _ _ _ N) in E'. congruence. }
  unfold mk_op, dmem. rewrite (D (lit "op")), (D (lit "path")), (D (lit "value")), (D (lit "from")), (D (lit "from_")), (D (lit "cls")); [reflexivity|..];
    cbn [In]; tauto.
Qed.
Print Assumptions C109_members_read.

(** A further member changes nothing, neither in the code nor in the RFC. *)
Theorem C109_ignored : forall m k v, NoDup (map fst (m ++ [(k, v)])) ->
  ~ In k [lit "op"; lit "path"; lit "value"; lit "from"; lit "from_"; lit "cls"] ->
  mk_op (m ++ [(k, v)]) = mk_op m /\ (forall d d', object_changes (m ++ [(k, v)]) d d' <-> object_changes m d d').
Proof.
  intros m k v N K.
  assert (I : forall k' w, In k' [lit "op"; lit "path"; lit "value"; lit "from"; lit "from_"; lit "cls"] -> (In (k', w) (m ++ [(k, v)]) <-> In (k', w) m)).
  { intros k' w H. rewrite in_app_iff. split; [|auto]. intros [X|[X|[]]]; [exact X|]. injection X as -> ->. contradiction. }
  split.
  - apply C109_members_read; [exact N| |exact I]. rewrite map_app in N. exact (NoDup_remove_1 _ _ _ N) || (rewrite <- (app_nil_r (map fst m)); exact (NoDup_remove_1 _ _ _ N)).
  - assert (S : forall a b, (forall k' w, In k' [lit "op"; lit "path"; lit "value"; lit "from"; lit "from_"; lit "cls"] -> (In (k', w) a -> In (k', w) b)) ->
              forall d d', object_changes a d d' -> object_changes b d d').
    { intros a b H d d' X. unfold op_is, locates in *.
      assert (Lo : forall n p, In n [lit "op"; lit "path"; lit "value"; lit "from"; lit "from_"; lit "cls"] -> locates a n p -> locates b n p).
      { intros n p Hn (t & T & D). exists t. split; [apply H; assumption|exact D]. }
      assert (Oo : forall n, op_is a n -> op_is b n) by (intros n Hn; apply H; [cbn [In]; tauto|exact Hn]).
      destruct X as [p w O L V R|p O L R|p w O L V R|p f O L Fr R|p f O L Fr R|p w O L V R]; apply Oo in O; (apply Lo in L; [|cbn [In]; tauto]);
        try (apply H in V; [|cbn [In]; tauto]); try (apply Lo in Fr; [|cbn [In]; tauto]).
      - eapply oc_add; eauto.
      - eapply oc_remove; eauto.
      - eapply oc_replace; eauto.
      - eapply oc_move; eauto.
      - eapply oc_copy; eauto.
      - eapply oc_test; eauto. }
    intros d d'. split; apply S; intros k' w H; now apply I.
Qed.
Print Assumptions C109_ignored.
(** What the RFC says of such an object is one document at most. *)
Theorem C109_deterministic_partial : forall m d d1 d2, jwf (JObj m) = true -> jwf d = true -> plain_members m ->
  object_changes m d d1 -> object_changes m d d2 -> d1 = d2.
Proof.
  intros m d d1 d2 Wm W P H1 H2. destruct (C109_as_rfc_partial m d d1 Wm W P H1) as (o & E & A). destruct (C109_as_rfc_partial m d d2 Wm W P H2) as (o' & E' & A').
  congruence.
Qed.
Print Assumptions C109_deterministic_partial.

(** ** The exceptions. *)
Definition one_member : json := JObj [(lit "a", num 1)].
Definition two_members : json := JObj [(lit "a", num 1); (lit "b", num 2)].
Lemma den (c : N) : rfc_unescaped c -> rfc_denotes [47; c]%N [[c]].
Proof. intro H. apply (rdp_cons [c] [c] [] []); [apply rd_unescaped; [exact H|apply rd_nil]|apply rdp_nil]. Qed.
Lemma den_a : rfc_denotes (lit "/a") [lit "a"].
Proof. apply (den 97). unfold rfc_unescaped. lia. Qed.
Lemma den_c : rfc_denotes (lit "/c") [lit "c"].
Proof. apply (den 99). unfold rfc_unescaped. lia. Qed.
Lemma removes_a m : In (lit "op", JStr (lit "remove")) m -> In (lit "path", JStr (lit "/a")) m -> object_changes m one_member (JObj []).
Proof.
  intros O P. apply (oc_remove _ _ _ [lit "a"]); [exact O|exists (lit "/a"); split; [exact P|exact den_a]|].
  right. exists [], (lit "a"). split; [reflexivity|]. apply ed_here. exact (removes_member rfc_reading (lit "a") [] (num 1) []).
Qed.

(** A member named 'cls' makes the construction fail. *)
Theorem C109_cls_refuted : exists m, jwf (JObj m) = true /\ object_changes m one_member (JObj []) /\ mk_op m = Exn EType.
Proof.
  exists [(lit "op", JStr (lit "remove")); (lit "path", JStr (lit "/a")); (lit "cls", JNull)].
  split; [vm_compute; reflexivity|]. split; [|vm_compute; reflexivity]. apply removes_a; cbn [In]; tauto.
Qed.
Print Assumptions C109_cls_refuted.
(** So does a "from" that is no pointer in an operation that has none. *)
Theorem C109_unused_from_refuted : exists m, jwf (JObj m) = true /\ object_changes m one_member (JObj []) /\ mk_op m = Exn EPointerMalformed.
Proof.
  exists [(lit "op", JStr (lit "remove")); (lit "path", JStr (lit "/a")); (lit "from", JStr (lit "Alice"))].
  split; [vm_compute; reflexivity|]. split; [|vm_compute; reflexivity]. apply removes_a; cbn [In]; tauto.
Qed.
Print Assumptions C109_unused_from_refuted.
(** A member named 'from_' is taken instead of "from". *)
Theorem C109_from_underscore_refuted : exists m o d' d'', jwf (JObj m) = true /\ object_changes m two_members d' /\
  mk_op m = Ok o /\ op_apply o two_members = Ok d'' /\ json_eqb d' d'' = false.
Proof.
  exists [(lit "op", JStr (lit "copy")); (lit "path", JStr (lit "/c")); (lit "from", JStr (lit "/a")); (lit "from_", JStr (lit "/b"))].
  exists (mkOp COPY [lit "c"] JNull (Some [lit "b"])), (JObj [(lit "a", num 1); (lit "b", num 2); (lit "c", num 1)]), (JObj [(lit "a", num 1); (lit "b", num 2); (lit "c", num 2)]).
  split; [vm_compute; reflexivity|]. split; [|repeat split; vm_compute; reflexivity].
  apply (oc_copy _ _ _ [lit "c"] [lit "a"]); [cbn [op_is In]; unfold op_is; cbn [In]; tauto| | |].
  - exists (lit "/c"). split; [cbn [In]; tauto|exact den_c].
  - exists (lit "/a"). split; [cbn [In]; tauto|exact den_a].
  - exists (num 1). split.
    + eapply refers_down; [|apply refers_here]. apply child_member. cbn [In]. tauto.
    + right. exists [], (lit "c"). split; [reflexivity|]. apply ed_here.
      apply (adds_new rfc_reading (lit "c") (num 1) [(lit "a", num 1); (lit "b", num 2)]). vm_compute. intuition discriminate.
Qed.
Print Assumptions C109_from_underscore_refuted.
(** An 'add' without a "value" is no operation, but adds null. *)
Theorem C109_missing_value_refuted : exists m o, jwf (JObj m) = true /\ (forall d', ~ object_changes m (JObj []) d') /\
  mk_op m = Ok o /\ op_apply o (JObj []) = Ok (JObj [(lit "a", JNull)]).
Proof.
  exists [(lit "op", JStr (lit "add")); (lit "path", JStr (lit "/a"))], (mkOp ADD [lit "a"] JNull None).
  split; [vm_compute; reflexivity|]. split; [|split; vm_compute; reflexivity].
  intros d' H. destruct H as [p v O L V R|p O L R|p v O L V R|p f O L Fr R|p f O L Fr R|p v O L V R]; unfold op_is in O; cbn [In] in *;
    repeat match goal with X : _ \/ _ |- _ => destruct X as [X|X] | X : False |- _ => destruct X end; try (vm_compute in O; discriminate O); try (vm_compute in V; discriminate V).
Qed.
Print Assumptions C109_missing_value_refuted.

(** ** Which exception is raised. *)
Definition lacking (m : list (pystr * json)) : Prop :=
  In (lit "cls") (map fst m) \/ ~ In (lit "op") (map fst m) \/ ~ In (lit "path") (map fst m).
(** The "from" that counts: 'from_' unless it is absent or null. *)
Definition from_of (m : list (pystr * json)) (v : json) : Prop :=
  (In (lit "from_", v) m /\ v <> JNull) \/
  ((~ In (lit "from_") (map fst m) \/ In (lit "from_", JNull) m) /\ In (lit "from", v) m).
Lemma refused_parse s : valid_str s -> (parse_pointer s = Exn EPointerMalformed <-> ~ rfc_pointer s).
Proof.
  intro V. rewrite <- (accept_iff s V). destruct (reject_malformed s) as [(p & H)|H]; rewrite H; split; try discriminate; eauto.
  - intro N. destruct N. eauto.
  - intros _ (p & X). discriminate.
Qed.
Lemma member_in (k : pystr) (m : list (pystr * json)) : In k (map fst m) <-> exists v, dget k m = Some v.
Proof.
  split.
  - intro H. destruct (dget k m) as [v|] eqn:E; [eauto|]. now apply dget_None in E.
  - intros (v & H). exact (in_map fst _ _ (dget_In _ _ _ H)).
Qed.
Theorem C109_exceptions : forall m, NoDup (map fst m) -> (forall k s, In (k, JStr s) m -> valid_str s) ->
  (lacking m <-> mk_op m = Exn EType) /\
  (~ lacking m -> (forall o, ~ op_is m (opname_str o)) <-> mk_op m = Exn EValue) /\
  (forall o s, ~ lacking m -> op_is m (opname_str o) -> In (lit "path", JStr s) m ->
     (~ rfc_pointer s \/ exists t, from_of m (JStr t) /\ ~ rfc_pointer t) <-> mk_op m = Exn EPointerMalformed).
Proof.
  intros m N V.
  assert (L : lacking m <-> dmem (lit "cls") m = true \/ dget (lit "op") m = None \/ dget (lit "path") m = None).
  { unfold lacking. rewrite dmem_In, !dget_None. reflexivity. }
  assert (PA : forall v e, pointer_arg v = Exn e -> e = EPointerMalformed \/ e = EOther).
  { intros v e H. destruct v; cbn [pointer_arg] in H; try (injection H as <-; auto); try discriminate.
    destruct (reject_malformed s) as [(p & E)|E]; rewrite E in H; cbn [bind] in H; [discriminate|]. injection H as <-. auto. }
  assert (FT : forall v o (p : pointer) x e, (let* f := pointer_arg v in Ok (mkOp o p x f)) = Exn e -> pointer_arg v = Exn e).
  { intros v o p x e. destruct (pointer_arg v); cbn [bind]; congruence. }
  split; [|split].
  - rewrite L. unfold mk_op. destruct (dmem (lit "cls") m); [split; auto|].
    destruct (dget (lit "op") m) as [op|]; [|split; auto]. destruct (dget (lit "path") m) as [pa|]; [|split; [reflexivity|auto]].
    split; [intros [X|[X|X]]; discriminate|]. intro H. exfalso.
    destruct op; cbn [bind] in H; try discriminate. unfold opname_of in H.
    repeat match type of H with context [if ?b then _ else _] => destruct b end; cbn [bind] in H; try discriminate;
      (destruct (pointer_arg pa) as [[p|]|e|] eqn:P; cbn [bind] in H; try discriminate;
       [apply FT, PA in H as [H|H]; discriminate|injection H as ->; apply PA in P as [P|P]; discriminate]).
  - rewrite L. intro NL. unfold mk_op. destruct (dmem (lit "cls") m); [tauto|].
    destruct (dget (lit "op") m) as [op|] eqn:O; [|tauto]. destruct (dget (lit "path") m) as [pa|]; [|tauto].
    apply dget_In in O. split.
    + intro H. destruct op; try reflexivity. destruct (opname_of s) as [o|e|] eqn:E.
      * destruct (H o). unfold op_is. now rewrite <- (opname_inv _ _ E).
      * cbn [bind]. unfold opname_of in E. repeat match type of E with context [if ?b then _ else _] => destruct b end; congruence.
      * unfold opname_of in E. repeat match type of E with context [if ?b then _ else _] => destruct b end; discriminate.
    + intros H o I. apply (In_dget _ _ _ N) in I. apply (In_dget _ _ _ N) in O. rewrite O in I. injection I as ->.
      rewrite opname_round in H. cbn [bind] in H.
      destruct (pointer_arg pa) as [[p|]|e|] eqn:P; cbn [bind] in H; try discriminate;
       [apply FT, PA in H as [H|H]; discriminate|injection H as ->; apply PA in P as [P|P]; discriminate].
  - intros o s. rewrite L. intros NL O P. assert (Vs := V _ _ P). apply (In_dget _ _ _ N) in O, P.
    unfold mk_op. destruct (dmem (lit "cls") m); [tauto|]. rewrite O, P, opname_round. cbn [bind pointer_arg].
    destruct (reject_malformed s) as [(p & E)|E]; rewrite E; cbn [bind]; [|split; [reflexivity|intros _; left; now apply refused_parse]].
    set (v := match (match dget (lit "from_") m with Some v => v | None => JNull end) with
              | JNull => match dget (lit "from") m with Some v => v | None => JNull end
              | _ => match dget (lit "from_") m with Some v => v | None => JNull end end).
    transitivity (exists t, v = JStr t /\ ~ rfc_pointer t /\ valid_str t).
    + split.
      * intros [H|(t & F & H)]; [destruct H; apply (accept_iff s Vs); eauto|]. exists t.
        destruct F as [[F _]|[F G]].
        -- split; [|split; [exact H|exact (V _ _ F)]]. unfold v. now rewrite (In_dget _ _ _ N F).
        -- split; [|split; [exact H|exact (V _ _ G)]]. unfold v. rewrite (In_dget _ _ _ N G).
           destruct F as [F|F]; [rewrite (no_member _ _ F)|rewrite (In_dget _ _ _ N F)]; reflexivity.
      * intros (t & Ev & H & _). right. exists t. split; [|exact H]. unfold from_of, v in *.
        destruct (dget (lit "from_") m) as [w|] eqn:W.
        -- assert (I := dget_In _ _ _ W). destruct w; try discriminate Ev; [|injection Ev as ->; left; split; [exact I|discriminate]].
           right. split; [now right|]. destruct (dget (lit "from") m) as [w|] eqn:X; [|discriminate]. subst w. now apply dget_In.
        -- right. split; [left; now apply dget_None|]. destruct (dget (lit "from") m) as [w|] eqn:X; [|discriminate]. subst w. now apply dget_In.
    + split.
      * intros (t & Ev & H & Vt). rewrite Ev. cbn [pointer_arg]. apply (refused_parse t Vt) in H. now rewrite H.
      * intro H. apply FT in H. destruct v as [| | |t| |] eqn:Ev; cbn [pointer_arg] in H; try discriminate. exists t. split; [reflexivity|].
        assert (Vt : valid_str t).
        { unfold v in Ev. destruct (dget (lit "from_") m) as [w|] eqn:W; [destruct w; try discriminate Ev|].
          - destruct (dget (lit "from") m) as [w|] eqn:X; [|discriminate]. subst w. exact (V _ _ (dget_In _ _ _ X)).
          - injection Ev as ->. exact (V _ _ (dget_In _ _ _ W)).
          - destruct (dget (lit "from") m) as [w|] eqn:X; [|discriminate]. subst w. exact (V _ _ (dget_In _ _ _ X)). }
        split; [|exact Vt]. apply (refused_parse t Vt). destruct (parse_pointer t); cbn [bind] in H; congruence.
Qed.
Print Assumptions C109_exceptions.

Example C109_exceptions_case :
  let bad := [(lit "op", JStr (lit "remove")); (lit "path", JStr (lit "/a")); (lit "from_", JNull); (lit "from", JStr (lit "b"))] in
  NoDup (map fst bad) /\ ~ lacking bad /\ op_is bad (opname_str REMOVE) /\ from_of bad (JStr (lit "b")) /\ ~ rfc_pointer (lit "b") /\
  mk_op bad = Exn EPointerMalformed /\
  mk_op [(lit "op", JStr (lit "delete")); (lit "path", JStr (lit "a"))] = Exn EValue /\
  mk_op [(lit "op", JStr (lit "delete"))] = Exn EType.
Proof.
  cbn zeta. split; [match goal with |- NoDup (map fst ?m) => apply (proj1 (nodup_keysb_NoDup m)) end; vm_compute; reflexivity|]. split; [|split; [|split; [|split]]].
  - unfold lacking. cbn [map fst In]. intros [H|[H|H]].
    + repeat destruct H as [H|H]; try (vm_compute in H; discriminate H). destruct H.
    + apply H. tauto.
    + apply H. tauto.
  - unfold op_is. cbn [In]. tauto.
  - right. cbn [In]. tauto.
  - intro H. inversion H.
  - repeat split; vm_compute; reflexivity.
Qed.

Example C109_case : let m := [(lit "note", JStr (lit "x")); (lit "path", JStr (lit "/c")); (lit "from", JStr (lit "/a")); (lit "op", JStr (lit "copy")); (lit "value", JBool true)] in
  let d' := JObj [(lit "a", num 1); (lit "b", num 2); (lit "c", num 1)] in
  jwf (JObj m) = true /\ plain_members m /\ complete m /\ object_changes m two_members d' /\
  exists o, mk_op m = Ok o /\ op_apply o two_members = Ok d'.
Proof.
  cbn zeta. split; [vm_compute; reflexivity|]. split; [|split; [|split; [|exists (mkOp COPY [lit "c"] (JBool true) (Some [lit "a"])); split; vm_compute; reflexivity]]].
  - split; [vm_compute; intuition discriminate|]. split; [vm_compute; intuition discriminate|].
    intros v H. cbn [In] in H. right. exists (lit "/a"), [lit "a"]. split; [|exact den_a].
    repeat destruct H as [H|H]; try (vm_compute in H; discriminate H); [|destruct H]. injection H as <-. reflexivity.
  - intros name _ _. exists (JBool true). cbn [In]. tauto.
  - apply (oc_copy _ _ _ [lit "c"] [lit "a"]); [unfold op_is; cbn [In]; tauto| | |].
    + exists (lit "/c"). split; [cbn [In]; tauto|exact den_c].
    + exists (lit "/a"). split; [cbn [In]; tauto|exact den_a].
    + exists (num 1). split.
      * eapply refers_down; [|apply refers_here]. apply child_member. cbn [In]. tauto.
      * right. exists [], (lit "c"). split; [reflexivity|]. apply ed_here.
        apply (adds_new rfc_reading (lit "c") (num 1) [(lit "a", num 1); (lit "b", num 2)]). vm_compute. intuition discriminate.
Qed.

Example C109_well_put_case : let m := [(lit "note", JStr (lit "x")); (lit "path", JStr (lit "/c")); (lit "from", JStr (lit "/a")); (lit "op", JStr (lit "copy")); (lit "value", JBool true)] in
  well_put m two_members /\ all_put [m] two_members.
Proof.
  cbn zeta. match goal with |- well_put ?m _ /\ _ => assert (X : well_put m two_members) end.
  - split; [|split].
    + intros k s H. cbn [In] in H. unfold valid_str. apply Forall_forall. intros c Hc.
      repeat destruct H as [H|H]; try discriminate H; try (injection H as <- <-; vm_compute in Hc; repeat destruct Hc as [<-|Hc]; [lia..|destruct Hc]).
      destruct H.
    + intros p (s & I & D) q k l E R. exfalso. assert (s = lit "/c") as ->.
      { cbn [In] in I. repeat destruct I as [I|I]; try (vm_compute in I; discriminate I); [|destruct I]. now injection I as <-. }
      apply denotes_parse in D. vm_compute in D. injection D as <-. destruct q as [|x q]; [inversion R|].
      destruct q; discriminate E.
    + intros p f d1 O. exfalso. unfold op_is in O. cbn [In] in O. repeat destruct O as [O|O]; try (vm_compute in O; discriminate O). destruct O.
  - split; [exact X|]. apply ap_next; [exact X|]. intros. constructor.
Qed.

(** ** C25.  Comparison of operations and patches with mappings. *)
(** Equal attributes; the values as JSON values. *)
Definition same_operation (a b : patchop) : Prop :=
  po_op a = po_op b /\ po_path a = po_path b /\ po_from a = po_from b /\ jeq (po_value a) (po_value b).
Definition fine_value (o : patchop) : Prop := jwf (po_value o) = true.
Definition fine_operand (a : operation) : Prop :=
  match a with Given o => jwf (po_value o) = true | Mapping m => jwf (JObj m) = true end.

Lemma mk_op_value m o : mk_op m = Ok o -> po_value o = match dget (lit "value") m with Some v => v | None => JNull end.
Proof.
  unfold mk_op. destruct (dmem _ m); [discriminate|]. destruct (dget (lit "op") m) as [[]|]; try discriminate; destruct (dget (lit "path") m) as [q|]; try discriminate.
  destruct (opname_of s) as [a|e|]; cbn [bind]; try discriminate. destruct q; cbn [pointer_arg bind]; try discriminate.
  destruct (parse_pointer s0) as [p|e|]; cbn [bind]; try discriminate.
  match goal with |- context [pointer_arg ?x] => destruct (pointer_arg x) as [f|e|] end; cbn [bind]; try discriminate.
  intros [= <-]. reflexivity.
Qed.
Lemma made_fine a o : fine_operand a -> made a = Ok o -> fine_value o.
Proof.
  unfold fine_value. destruct a as [b|m]; cbn; [now intros H [= <-]|]. intros H E. rewrite (mk_op_value m o E).
  destruct (dget (lit "value") m) as [v|] eqn:V; [|reflexivity]. exact (proj2 (jwfs_parts m H) _ _ (dget_In _ _ _ V)).
Qed.

Theorem C25_compared_operation : forall o a b, fine_value o -> fine_operand a ->
  (op_equals o a = Ok b <-> exists o', made a = Ok o' /\ (b = true <-> same_operation o o')) /\
  (forall e, op_equals o a = Exn e <-> made a = Exn e).
Proof.
  intros o a b Wo Wa. unfold op_equals. assert (F := made_fine a). destruct (made a) as [o'|e|]; cbn [bind]; split.
  - specialize (F o' Wa eq_refl). assert (Q := C25_equality o o' Wo F). fold (same_operation o o') in Q. split.
    + intros [= <-]. exists o'. auto.
    + intros (x & [= <-] & H). f_equal. destruct (patchop_eqb o o'), b; intuition congruence.
  - split; discriminate.
  - split; [discriminate|]. intros (x & X & _). discriminate.
  - intro e'. split; intros [= ->]; reflexivity.
  - split; [discriminate|]. intros (x & X & _). discriminate.
  - split; discriminate.
Qed.
Print Assumptions C25_compared_operation.

Lemma made_all_spec l os : made_all l = Ok os <-> Forall2 (fun a o => made a = Ok o) l os.
Proof.
  revert os. induction l as [|a l IH]; intro os; cbn [made_all].
  - split; [intros [= <-]; constructor|]. intro H. now inversion H.
  - split.
    + destruct (made a) as [o|e|] eqn:E; cbn [bind]; try discriminate. destruct (made_all l) as [r|e|] eqn:R; cbn [bind]; try discriminate.
      intros [= <-]. constructor; [exact E|]. now apply IH.
    + intro H. inversion H as [|? o ? r E F]; subst. rewrite E. cbn [bind]. apply IH in F. now rewrite F.
Qed.
Lemma patch_eqb_same l r : Forall fine_value l -> Forall fine_value r -> (patch_eqb l r = true <-> Forall2 same_operation l r).
Proof.
  intro F. revert r. induction F as [|o l Wo _ IH]; intros [|p r] G; cbn [patch_eqb].
  - split; [constructor|reflexivity].
  - split; [discriminate|]. intro H. inversion H.
  - split; [discriminate|]. intro H. inversion H.
  - inversion G as [|? ? Wp Gr]; subst. rewrite andb_true_iff, (IH r Gr), (C25_equality o p Wo Wp). fold (same_operation o p). split.
    + intros [A B]. now constructor.
    + intro H. inversion H; subst. auto.
Qed.

(** A patch compared with any sequence of operations and mappings: true exactly
    if all of them can be made into operations that are the same one by one;
    the first one that cannot be made decides which exception it is, whatever
    stands before it. *)
Theorem C25_compared_patch : forall ops l, Forall fine_value ops -> Forall fine_operand l ->
  (patch_equals ops l = Ok true <-> exists os, Forall2 (fun a o => made a = Ok o) l os /\ Forall2 same_operation ops os) /\
  (patch_equals ops l = Ok false <-> exists os, Forall2 (fun a o => made a = Ok o) l os /\ ~ Forall2 same_operation ops os) /\
  (forall e, patch_equals ops l = Exn e <->
     exists l1 os a l2, l = l1 ++ a :: l2 /\ Forall2 (fun a o => made a = Ok o) l1 os /\ made a = Exn e).
Proof.
  intros ops l Wo Wl.
  assert (X : forall os, Forall2 (fun a o => made a = Ok o) l os -> patch_equals ops l = Ok (patch_eqb ops os) /\ (patch_eqb ops os = true <-> Forall2 same_operation ops os)).
  { intros os M. split; [unfold patch_equals; apply made_all_spec in M; now rewrite M|]. apply patch_eqb_same; [exact Wo|].
    clear ops Wo. induction M as [|a o l' r E _ IH]; [constructor|]. inversion Wl as [|? ? Wa Wr]; subst. constructor; [exact (made_fine a o Wa E)|exact (IH Wr)]. }
  assert (Y : forall b, patch_equals ops l = Ok b -> exists os, Forall2 (fun a o => made a = Ok o) l os).
  { intros b H. unfold patch_equals in H. destruct (made_all l) as [os|e|] eqn:M; cbn [bind] in H; try discriminate. exists os. now apply made_all_spec. }
  split; [|split].
  - split.
    + intro H. destruct (Y _ H) as (os & M). exists os. split; [exact M|]. destruct (X os M) as [E Q]. apply Q. congruence.
    + intros (os & M & S). destruct (X os M) as [E Q]. rewrite E. f_equal. now apply Q.
  - split.
    + intro H. destruct (Y _ H) as (os & M). exists os. split; [exact M|]. destruct (X os M) as [E Q]. intro S. apply Q in S. congruence.
    + intros (os & M & S). destruct (X os M) as [E Q]. rewrite E. f_equal. destruct (patch_eqb ops os); [|reflexivity]. now destruct (S (proj1 Q eq_refl)).
  - clear X Y Wl. intro e. unfold patch_equals.
    transitivity (made_all l = Exn e); [destruct (made_all l); cbn [bind]; split; intro H; congruence|].
    induction l as [|a l IH]; cbn [made_all].
    + split; [discriminate|]. intros (l1 & os & a & l2 & E & _). now destruct l1.
    + split.
      * destruct (made a) as [o|e'|] eqn:E; cbn [bind]; try discriminate.
        -- destruct (made_all l) as [r|e'|]; cbn [bind]; try discriminate. intros [= ->].
           destruct (proj1 IH eq_refl) as (l1 & os & b & l2 & -> & M & Eb). exists (a :: l1), (o :: os), b, l2. repeat split; auto.
        -- intros [= ->]. exists [], [], a, l. repeat split; auto.
      * intros ([|x l1] & os & b & l2 & E & M & Eb); injection E as -> E; [now rewrite Eb|].
        inversion M as [|? o ? r Ex Mr]; subst. rewrite Ex. cbn [bind]. rewrite (proj2 IH); [reflexivity|]. exists l1, r, b, l2. auto.
Qed.
Print Assumptions C25_compared_patch.

(** A patch of operations as C25 has them is equal to its list of dicts. *)
Theorem C25_equals_own_list : forall ops, Forall proper ops -> patch_equals ops (map Mapping (aslist ops)) = Ok true.
Proof.
  intros ops H. destruct (C25_patch_round_trip ops H) as [A B]. unfold patch_equals.
  assert (M : forall l, made_all (map Mapping l) = mk_patch l).
  { induction l as [|m l IH]; [reflexivity|]. cbn [map made_all mk_patch made]. destruct (mk_op m); cbn [bind]; rewrite ?IH; reflexivity. }
  rewrite M, A. cbn [bind]. now rewrite B.
Qed.
Print Assumptions C25_equals_own_list.

Example C25_compared_case : let ops := [mkOp TEST [lit "a"] (JNum (NInt 3)) None; mkOp REMOVE [lit "b"] JNull None] in
  let m1 := [(lit "path", JStr (lit "/a")); (lit "value", JNum (NDyad 3 0)); (lit "op", JStr (lit "test"))] in
  let m2 := [(lit "op", JStr (lit "remove")); (lit "path", JStr (lit "/b")); (lit "value", JBool false)] in
  Forall fine_value ops /\ Forall fine_operand [Mapping m1; Mapping m2] /\
  op_equals (hd (mkOp ADD [] JNull None) ops) (Mapping m1) = Ok true /\
  patch_equals ops [Mapping m1; Given (mkOp REMOVE [lit "b"] JNull None)] = Ok true /\
  patch_equals ops [Mapping m1; Mapping m2] = Ok false /\
  patch_equals [] [Mapping m1; Mapping [(lit "op", JStr (lit "remove"))]] = Exn EType.
Proof. cbn zeta. split; [repeat constructor|]. split; [repeat constructor|]. repeat split; vm_compute; reflexivity. Qed.
