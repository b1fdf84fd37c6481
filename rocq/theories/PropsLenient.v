(** What JSON nodes do with the keys that are not RFC 6901 indices: the exact
    outcome of evaluating a pointer (C09) or a relative pointer (C12) on a
    node, and of the in-place edits (C17), with no condition on the keys. *)
From Verif Require Import JTreeOps JTreeSim SpecRel SpecTreeAny RelPointerFacts PatchFacts PointerFacts PropsTreePatch PropsRel SpecPyInt PyIntFacts.
From Coq Require Import Lia.
Open Scope nat_scope.

(** ** Facts about the reading *)
Lemma reads_fun p : forall d q q', jwf d = true -> reads_as d p q -> reads_as d p q' -> q = q'.
Proof.
  induction p as [|k p IH]; intros d q q' W R R'.
  - now inversion R; inversion R'.
  - inversion R as [|m k1 v p1 q1 I1 R1|l k1 z i v p1 q1 T1 P1 N1 R1]; subst;
      inversion R' as [|m' k2 v' p2 q2 I2 R2|l' k2 z' i' v' p2 q2 T2 P2 N2 R2]; subst.
    + apply (In_dget _ _ _ (jwf_NoDup _ W)) in I1. apply (In_dget _ _ _ (jwf_NoDup _ W)) in I2.
      assert (v' = v) by congruence. subst. f_equal. exact (IH v _ _ (jwf_dget _ _ _ W I1) R1 R2).
    + assert (z' = z) by (eapply int_text_fun; eauto). subst. rewrite P1 in P2. injection P2 as <-. rewrite N1 in N2. injection N2 as <-.
      f_equal. exact (IH v _ _ (jwf_nth _ _ _ W N1) R1 R2).
Qed.

Lemma reads_refers p : forall d q, reads_as d p q -> exists v, refers d q v.
Proof.
  intros d q R. induction R as [d|m k v p q I R (w & F)|l k z i v p q T P N R (w & F)].
  - exists d. constructor.
  - exists w. econstructor; [constructor; eauto|auto].
  - exists w. econstructor; [now apply child_nat, N|auto].
Qed.

Lemma position_nth {T} (l : list T) z i : position (length l) z = Some i -> exists x, nth_error l i = Some x.
Proof.
  intro P. destruct (nth_error l i) as [x|] eqn:E; [eauto|]. exfalso. apply nth_error_None in E. unfold position in P.
  destruct ((0 <=? z) && (z <? Z.of_nat (length l)))%Z eqn:A.
  - apply andb_true_iff in A as [A B]. apply Z.leb_le in A. apply Z.ltb_lt in B. injection P as <-. lia.
  - destruct ((- Z.of_nat (length l) <=? z) && (z <? 0))%Z eqn:C; [|discriminate].
    apply andb_true_iff in C as [C D]. apply Z.leb_le in C. apply Z.ltb_lt in D. injection P as <-. lia.
Qed.

Definition fails_as (d : json) (p : list pystr) (e : exn) : Prop :=
  exists v k, ends_at d p v k /\
    (not_integer v k /\ e = EValue \/ ~ not_integer v k /\ e = EPointerReference).

(** ** C09.  Evaluation on a node, exactly: the value at the way that the keys
    are read as; a ValueError where an array is given a key that is no
    integer; otherwise a reference error. *)
Theorem C09_exact : forall p d, jwf d = true ->
  match eval_node p d with
  | Ok v => exists q, reads_as d p q /\ refers d q v /\ eval_plain q d = Ok v
  | Exn e => (forall q, ~ reads_as d p q) /\ fails_as d p e
  | Fuel => False
  end.
Proof.
  assert (Main : forall p d, jwf d = true ->
    match eval_node p d with
    | Ok v => exists q, reads_as d p q /\ refers d q v
    | Exn e => (forall q, ~ reads_as d p q) /\ fails_as d p e
    | Fuel => False
    end).
  2: { intros p d W. specialize (Main p d W). destruct (eval_node p d) as [v|e|]; auto.
       destruct Main as (q & R & F). exists q. split; auto. split; auto. now apply eval_plain_refers. }
  induction p as [|k p IH]; intros d W; [exists []; split; constructor|].
  assert (Stop : (forall q, ~ reads_as d [k] q) -> forall q, ~ reads_as d (k :: p) q).
  { intros N q R. inversion R as [|m k1 v p1 q1 I1 R1|l k1 z i v p1 q1 T1 P1 N1 R1]; subst.
    - apply (N [k]). econstructor; eauto. constructor.
    - apply (N [str_of_nat i]). econstructor; eauto. constructor. }
  assert (Plain : (forall l, d <> JArr l) -> (forall m, d <> JObj m) ->
    (forall q, ~ reads_as d (k :: p) q) /\ fails_as d (k :: p) EPointerReference).
  { intros NA NO. assert (N : forall q, ~ reads_as d [k] q).
    { intros q R. inversion R; subst; [eapply NO; eauto|eapply NA; eauto]. }
    split; [auto|]. exists d, k. split; [now constructor|]. right. split; auto. intros ((l & ->) & _). now apply (NA l). }
  destruct d as [|b|x|s|l|m]; cbn [eval_node]; try (apply Plain; discriminate); clear Plain.
  - destruct (py_int k) as [z|] eqn:T.
    + apply py_int_iff in T. rewrite <- position_norm. destruct (position (length l) z) as [i|] eqn:P.
      * destruct (position_nth l z i P) as (v & N). rewrite N. pose proof (jwf_nth _ _ _ W N) as Wv.
        specialize (IH v Wv). destruct (eval_node p v) as [u|e|]; auto.
        -- destruct IH as (q & R & F). exists (str_of_nat i :: q). split; [econstructor; eauto|].
           econstructor; eauto. now apply child_nat.
        -- destruct IH as (No & w & j & E & Cl). split.
           ++ intros q R. inversion R as [| |l' k' z' i' v' p' q' T' P' N' R']; subst.
              assert (z' = z) by (eapply int_text_fun; eauto). subst. rewrite P in P'. injection P' as <-.
              rewrite N in N'. injection N' as <-. eapply No; eauto.
           ++ exists w, j. split; auto. eapply ea_item; eauto.
      * assert (S : forall q, ~ reads_as (JArr l) [k] q).
        { intros q R. inversion R as [| |l' k' z' i' v' p' q' T' P' N' R']; subst.
          assert (z' = z) by (eapply int_text_fun; eauto). subst. congruence. }
        split; [now apply Stop|]. exists (JArr l), k. split; [now constructor|]. right. split; auto. intros (_ & No). eapply No; eauto.
    + assert (NT : forall z, ~ int_text k z) by (intros z H; apply py_int_iff in H; congruence).
      assert (S : forall q, ~ reads_as (JArr l) [k] q).
      { intros q R. inversion R as [| |l' k' z' i' v' p' q' T' P' N' R']; subst. eapply NT; eauto. }
      split; [now apply Stop|]. exists (JArr l), k. split; [now constructor|]. left. split; auto. split; eauto.
  - destruct (dget k m) as [v|] eqn:G.
    + pose proof (dget_In _ _ _ G) as I. specialize (IH v (jwf_dget _ _ _ W G)). destruct (eval_node p v) as [u|e|]; auto.
      * destruct IH as (q & R & F). exists (k :: q). split; [econstructor; eauto|]. econstructor; eauto. now constructor.
      * destruct IH as (No & w & j & E & Cl). split.
        -- intros q R. inversion R as [|m' k' v' p' q' I' R'|]; subst.
           apply (In_dget _ _ _ (jwf_NoDup _ W)) in I'. assert (v' = v) by congruence. subst. eapply No; eauto.
        -- exists w, j. split; auto. eapply ea_member; eauto.
    + assert (S : forall q, ~ reads_as (JObj m) [k] q).
      { intros q R. inversion R as [|m' k' v' p' q' I' R'|]; subst.
        apply (In_dget _ _ _ (jwf_NoDup _ W)) in I'. congruence. }
      split; [now apply Stop|]. exists (JObj m), k. split; [now constructor|]. right. split; auto. now intros ((l & [=]) & _).
Qed.
Print Assumptions C09_exact.

(** At most one reading, so that the equation above determines the outcome. *)
Theorem C09_reading_unique : forall p d q q', jwf d = true -> reads_as d p q -> reads_as d p q' -> q = q'.
Proof. exact reads_fun. Qed.
Print Assumptions C09_reading_unique.

(** ** The same on nodes of a heap. *)
Lemma eval_id_reads p : forall h n V, shape h -> denotes h n V ->
  match eval_id p h n with
  | Ok t => exists q, reads_as V p q /\ located h n q t
  | Exn e => (forall q, ~ reads_as V p q) /\ fails_as V p e
  | Fuel => False
  end.
Proof.
  intros h n V Sh D. pose proof (C09_exact p V (denotes_jwf _ _ _ Sh D)) as X.
  assert (Agree : match eval_id p h n, eval_node p V with
                  | Ok t, Ok v => exists q, reads_as V p q /\ located h n q t
                  | Exn e, Exn e' => e = e'
                  | _, _ => False end).
  { clear X. revert n V D. induction p as [|k p IH]; intros n V D; cbn [eval_id eval_node].
    { exists []. split; constructor. }
    destruct (ndata (getn h n)) as [|b|x|s|ids|m] eqn:E; inversion D as [? E'|? b' E'|? x' E'|? s' E'|? ids' l E' L H|? m' kvs E' K H]; subst; try congruence.
    - clear L H E'. destruct (denotes_arr_inv _ _ _ _ E D) as (l' & [= <-] & F).
      assert (Ln : length ids = length l) by (clear - F; induction F; cbn; auto). rewrite Ln.
      destruct (py_int k) as [z|] eqn:T; [|reflexivity]. rewrite <- position_norm.
      destruct (position (length l) z) as [i|] eqn:P; [|reflexivity].
      destruct (position_nth l z i P) as (v & N). rewrite N. destruct (Forall2_nth_r _ _ _ _ _ F N) as (c & Nc & Dc). rewrite Nc.
      specialize (IH c v Dc). destruct (eval_id p h c) as [t|e|], (eval_node p v) as [u|e'|]; auto.
      destruct IH as (q & R & L). exists (str_of_nat i :: q). split.
      + econstructor; eauto. now apply py_int_iff.
      + eapply located_cons; eauto. econstructor; eauto.
    - clear K H E'. destruct (denotes_obj_inv _ _ _ _ E D) as (kvs' & [= <-] & F).
      assert (G : match dget k m, dget k kvs with
                  | Some c, Some v => In (k, c) m /\ In (k, v) kvs /\ denotes h c v
                  | None, None => True | _, _ => False end).
      { clear - F. induction F as [|(k1 & c) (k2 & v) m kvs (Ek & Dc) F IHF]; cbn [dget]; auto. cbn in Ek, Dc. subst k2.
        destruct (str_eqb k k1) eqn:Q.
        - apply str_eqb_eq in Q as ->. split; [now left|]. split; [now left|auto].
        - destruct (dget k m), (dget k kvs); auto. destruct IHF as (A & B & C). split; [now right|]. split; [now right|auto]. }
      destruct (dget k m) as [c|], (dget k kvs) as [v|]; try tauto. destruct G as (Ic & Iv & Dc).
      specialize (IH c v Dc). destruct (eval_id p h c) as [t|e|], (eval_node p v) as [u|e'|]; auto.
      destruct IH as (q & R & L). exists (k :: q). split; [econstructor; eauto|]. eapply located_cons; eauto. eapply ca_member; eauto. }
  destruct (eval_id p h n) as [t|e|], (eval_node p V) as [v|e'|]; try tauto. now subst.
Qed.

(** ** C12.  A relative pointer with a path, exactly: with the base as the
    draft has it, the path is read as above from there. *)
Theorem C12_path_exact : forall h r p n up over ref, history h -> is_root h r -> located h r p n -> (0 <= up)%Z ->
  match rel_eval (mk_rel up over (RefPath ref)) h n with
  | Ok v => exists q m V s, rel_base h r p (Z.to_nat up) over q /\ located h r q m /\ denotes h m V /\
      reads_as V ref s /\ rel_denotes h r p (Z.to_nat up) over (RefPath s) v
  | Exn e =>
      ((forall q, ~ rel_base h r p (Z.to_nat up) over q) /\ e = ERelReference) \/
      exists q m V w k, rel_base h r p (Z.to_nat up) over q /\ located h r q m /\ denotes h m V /\
        (forall s, ~ reads_as V ref s) /\ ends_at V ref w k /\
        (not_integer w k /\ e = EValue \/ ~ not_integer w k /\ e = ERelReference)
  | Fuel => False
  end.
Proof.
  intros h r p n up over ref H R L U. apply history_inv in H as I. pose proof (inv_shape _ I) as Sh.
  rewrite rel_eval_base. pose proof (go_base_spec h r p n up over Sh R L U) as G.
  destruct (go_base h n up over) as [m|e|]; cbn [bind]; [| |auto].
  - destruct G as (q & B & Lq).
    assert (Bm : m < length h).
    { inversion Lq as [|q' a k c La C]; subst; [apply R|]. apply (sh_child h Sh) in C. apply C. }
    destruct (denotes_total h m (shape_ordered _ Sh) Bm) as (V & D). pose proof (eval_id_reads ref h m V Sh D) as X.
    destruct (eval_id ref h m) as [t|e|]; [| |contradiction].
    + destruct X as (s & Rd & Ls). exists q, m, V, s. repeat (split; [auto; fail|]). econstructor; eauto. eapply located_app; eauto.
    + destruct X as (No & w & k & E & Cl).
      destruct Cl as [(NI & ->)|(NI & ->)]; right; exists q, m, V, w, k; repeat (split; [auto; fail|]); auto.
  - destruct G as [-> N]. left. auto.
Qed.
Print Assumptions C12_path_exact.

(** ** C17.  The in-place edits, exactly, for every pointer. *)
Lemma reads_empty V p q : reads_as V p q -> match p with [] => true | _ => false end = match q with [] => true | _ => false end.
Proof. now intros []. Qed.
Lemma mk_keys q : mk_pointer [PKeys q] = Ok q.
Proof. reflexivity. Qed.

Lemma reading_child V p q k : jwf V = true -> reads_as V p (q ++ [k]) ->
  exists P, eval_plain q V = Ok P /\ jwf P = true /\ exists c, child P k c.
Proof.
  intros JV Rd. destruct (reads_refers _ _ _ Rd) as (c & F). apply refers_split in F as (P & F & G).
  apply refers_cons_child in G as (c' & C & _). exists P. split; [now apply eval_plain_refers|].
  split; [exact (refers_jwf _ _ _ JV F)|eauto].
Qed.
Lemma reading_removable V p q : jwf V = true -> reads_as V p q -> exists V', p_remove V q = Ok V'.
Proof.
  intros JV Rd. destruct (list_eq_dec (list_eq_dec N.eq_dec) q []) as [->|NE]; [exists JNull; reflexivity|].
  destruct (exists_last NE) as (q' & k & ->). destruct (reading_child _ _ _ _ JV Rd) as (P & Ev & WP & C).
  rewrite p_remove_snoc. unfold at_parent. rewrite Ev. cbn [as_patch_error bind].
  destruct (child_removable P k WP C) as (P' & ->). cbn [bind]. eauto.
Qed.
Lemma reading_replaceable V p q w : jwf V = true -> reads_as V p q -> exists V', p_replace V q w = Ok V'.
Proof.
  intros JV Rd. destruct (list_eq_dec (list_eq_dec N.eq_dec) q []) as [->|NE]; [exists w; reflexivity|].
  destruct (exists_last NE) as (q' & k & ->). destruct (reading_child _ _ _ _ JV Rd) as (P & Ev & WP & C).
  rewrite p_replace_snoc. unfold at_parent. rewrite Ev. cbn [as_patch_error bind].
  destruct (child_replaceable P k w WP C) as (P' & ->). cbn [bind]. eauto.
Qed.

Theorem C17_remove_exact : forall h n path p V, history h -> n < length h -> denotes h n V -> mk_pointer [path] = Ok p ->
  match json_remove h n path with
  | (Ok _, h') => exists q V', reads_as V p q /\ p_remove V q = Ok V' /\ denotes h' n V'
  | (Exn e, h') => h' = h /\ (forall q, ~ reads_as V p q) /\
      exists v k, ends_at V p v k /\ (not_integer v k /\ e = EValue \/ ~ not_integer v k /\ e = EJSON)
  | (Fuel, _) => False
  end.
Proof.
  intros h n path p V H B D MP. apply history_inv in H as I. pose proof (inv_shape _ I) as Sh.
  pose proof (denotes_jwf _ _ _ Sh D) as JV. pose proof (eval_id_reads p h n V Sh D) as X.
  destruct (eval_id p h n) as [t|e|] eqn:Et; [| |contradiction].
  - destruct X as (q & Rd & Lq).
    assert (Same : json_remove h n path = json_remove h n (PKeys q)).
    { unfold json_remove. rewrite (parg_empty _ _ MP), (parg_empty (PKeys q) q (mk_keys q)), (reads_empty _ _ _ Rd), MP, mk_keys, Et.
      now rewrite (located_eval _ _ _ _ Sh Lq). }
    assert (P : exists V', p_remove V q = Ok V') by (eapply reading_removable; eauto).
    destruct P as (V' & P). destruct (C17_remove_agrees h n (PKeys q) q V V' H B D (mk_keys q) P) as (h' & E & D').
    rewrite Same, E. exists q, V'. auto.
  - destruct X as (No & v & k & E & Cl).
    assert (Np : p <> []) by (intros ->; discriminate).
    unfold json_remove. rewrite (parg_empty _ _ MP), MP, Et. destruct p as [|k0 p]; [congruence|].
    destruct Cl as [(NI & ->)|(NI & ->)]; cbn; split; auto; split; auto; exists v, k; auto.
Qed.
Print Assumptions C17_remove_exact.

Theorem C17_replace_exact : forall h n path p o V w, history h -> n < length h -> operand_ok h o ->
  denotes h n V -> operand_is h o w -> mk_pointer [path] = Ok p ->
  match json_replace h n path o with
  | (Ok _, h') => exists q V', reads_as V p q /\ p_replace V q w = Ok V' /\ denotes h' n V'
  | (Exn e, h') => h' = h /\ (forall q, ~ reads_as V p q) /\
      exists v k, ends_at V p v k /\ (not_integer v k /\ e = EValue \/ ~ not_integer v k /\ e = EJSON)
  | (Fuel, _) => False
  end.
Proof.
  intros h n path p o V w H B OK D W MP. apply history_inv in H as I. pose proof (inv_shape _ I) as Sh.
  pose proof (denotes_jwf _ _ _ Sh D) as JV. pose proof (eval_id_reads p h n V Sh D) as X.
  destruct (eval_id p h n) as [t|e|] eqn:Et; [| |contradiction].
  - destruct X as (q & Rd & Lq).
    assert (Same : json_replace h n path o = json_replace h n (PKeys q) o).
    { unfold json_replace. rewrite (parg_empty _ _ MP), (parg_empty (PKeys q) q (mk_keys q)), (reads_empty _ _ _ Rd), MP, mk_keys, Et.
      now rewrite (located_eval _ _ _ _ Sh Lq). }
    destruct (reading_replaceable V p q w JV Rd) as (V' & P).
    destruct (C17_replace_agrees h n (PKeys q) q o V w V' H B OK D W (mk_keys q) P) as (h' & E & D').
    rewrite Same, E. exists q, V'. auto.
  - destruct X as (No & v & k & E & Cl).
    assert (Np : p <> []) by (intros ->; discriminate).
    unfold json_replace. rewrite (parg_empty _ _ MP), MP, Et. destruct p as [|k0 p]; [congruence|].
    destruct Cl as [(NI & ->)|(NI & ->)]; cbn; split; auto; split; auto; exists v, k; auto.
Qed.
Print Assumptions C17_replace_exact.

(** [add]: the way to the parent is read in that manner, the last key as the
    patch function reads it. *)
Theorem C17_add_exact : forall h n path p k o V w, history h -> n < length h -> operand_ok h o ->
  denotes h n V -> operand_is h o w -> mk_pointer [path] = Ok (p ++ [k]) ->
  match json_add h n path o with
  | (Ok _, h') => exists q V', reads_as V p q /\ p_add V (q ++ [k]) w = Ok V' /\ denotes h' n V'
  | (Exn e, h') => (forall m, m < length h -> keeps h h' m) /\
      ((exists q e', reads_as V p q /\ p_add V (q ++ [k]) w = Exn e' /\ e = EJSON) \/
       (forall q, ~ reads_as V p q) /\
       exists v j, ends_at V p v j /\ (not_integer v j /\ e = EValue \/ ~ not_integer v j /\ e = EJSON))
  | (Fuel, _) => False
  end.
Proof.
  intros h n path p k o V w H B OK D W MP. apply history_inv in H as I. pose proof (inv_shape _ I) as Sh.
  pose proof (denotes_jwf _ _ _ Sh D) as JV. pose proof (eval_id_reads p h n V Sh D) as X.
  destruct (json_add_spec h n path o w I B OK W) as (h1 & r & E1 & _ & _ & R).
  rewrite (parg_empty _ _ MP) in R. rewrite MP, snoc_not_nil, removelast_last, last_last in R. rewrite E1.
  destruct (eval_id p h n) as [t|e|] eqn:Et; [| |contradiction].
  - destruct X as (q & Rd & Lq). destruct R as (q2 & v2 & _ & _ & D2 & Ch & R).
    destruct (located_refers _ _ _ _ _ D Lq) as (P & F & DP). assert (v2 = P) by (eapply denotes_fun; eauto). subst v2.
    pose proof (refers_jwf _ _ _ JV F) as WP. apply (eval_plain_refers _ _ _ JV) in F as Ev.
    assert (PA : p_add V (q ++ [k]) w = let* P' := local_add P k w in Ok (update_at q P' V)).
    { rewrite p_add_snoc. unfold at_parent. now rewrite Ev. }
    assert (Sl : forall x, pointer_slice (x ++ [k]) None (Some (-1)%Z) = x) by (intro x; apply slice_init).
    destruct (plain_add P k w) as [P'|] eqn:EP; subst r.
    + apply (plain_adds k w P P' WP) in EP as AP. apply local_add_spec in AP; auto. rewrite AP in PA. cbn [bind] in PA.
      destruct (C17_add_agrees h n (PKeys (q ++ [k])) (q ++ [k]) o V w _ H B OK D W (mk_keys _) PA) as (h' & E2 & D').
      assert (Same : json_add h n path o = json_add h n (PKeys (q ++ [k])) o).
      { unfold json_add. rewrite (parg_empty _ _ MP), (parg_empty (PKeys (q ++ [k])) _ (mk_keys _)), !snoc_not_nil, MP, mk_keys.
        rewrite !Sl, !last_last, Et. now rewrite (located_eval _ _ _ _ Sh Lq). }
      rewrite E1, E2 in Same. injection Same as ->. exists q, (update_at q P' V). auto.
    + split; [exact Ch|]. left. destruct (local_add P k w) as [P'|e'|] eqn:LA.
      * exfalso. apply local_add_spec in LA; auto. apply (adds_plain k w P P' WP) in LA. congruence.
      * exists q, e'. auto.
      * exfalso. clear - LA. unfold local_add, local_target, seq_target, parent_insert, parent_assign in LA.
        destruct P; cbn [bind] in LA; try discriminate;
          repeat (match type of LA with context [match ?x with _ => _ end] => destruct x; cbn [bind t_type t_parent t_index] in LA; try discriminate end).
  - destruct X as (No & v & j & E & Cl). destruct R as [-> ->].
    destruct Cl as [(NI & ->)|(NI & ->)]; cbn; (split; [intros m _ x; auto|]); right; split; auto; exists v, j; auto.
Qed.
Print Assumptions C17_add_exact.

(** ' -1 ' (in blanks), '+0_1' and an Arabic-Indic one name the last two items
    of the array; 'x' is no integer. *)
Definition doc_lenient : json := JObj [(lit "a", JArr [JNull; JBool true])].
Example C09_exact_case :
  eval_node [lit "a"; lit " -1 "] doc_lenient = Ok (JBool true) /\
  reads_as doc_lenient [lit "a"; lit " -1 "] [lit "a"; lit "1"] /\
  int_text (lit "+0_1") 1 /\ int_text [1633%N] 1 /\
  fails_as doc_lenient [lit "a"; lit "x"] EValue /\
  fails_as doc_lenient [lit "a"; lit "2"] EPointerReference.
Proof.
  split; [vm_compute; reflexivity|]. split.
  - eapply ra_member; [left; reflexivity|]. change (lit "1") with (str_of_nat 1).
    apply (ra_item _ _ (-1)%Z _ (JBool true)); [apply py_int_iff; vm_compute; reflexivity|reflexivity|reflexivity|constructor].
  - split; [apply py_int_iff; vm_compute; reflexivity|]. split; [apply py_int_iff; vm_compute; reflexivity|].
    pose proof (C09_exact [lit "a"; lit "x"] doc_lenient eq_refl) as X. pose proof (C09_exact [lit "a"; lit "2"] doc_lenient eq_refl) as Y.
    replace (eval_node [lit "a"; lit "x"] doc_lenient) with (Exn EValue : res json) in X by (vm_compute; reflexivity).
    replace (eval_node [lit "a"; lit "2"] doc_lenient) with (Exn EPointerReference : res json) in Y by (vm_compute; reflexivity).
    split; [apply X|apply Y].
Qed.

(** Removing '/a/-2' removes what '/a/1' names. *)
Example C17_exact_case : exists h', json_remove heap17 0 (PStr (lit "/a/-2")) = (Ok tt, h') /\
  reads_as V17 [lit "a"; lit "-2"] [lit "a"; lit "1"] /\
  p_remove V17 [lit "a"; lit "1"] = Ok (JObj [(lit "a", JArr [num 10; num 30])]) /\
  fst (read_value h' 0) = Ok (JObj [(lit "a", JArr [num 10; num 30])]) /\
  fst (json_remove heap17 0 (PStr (lit "/a/x"))) = Exn EValue /\
  fst (json_remove heap17 0 (PStr (lit "/a/3"))) = Exn EJSON /\
  fst (json_add heap17 0 (PStr (lit "/a/-1")) (OVal JNull)) = Exn EJSON.
Proof.
  eexists. split; [vm_compute; reflexivity|]. split.
  - eapply ra_member; [left; reflexivity|]. change (lit "1") with (str_of_nat 1).
    apply (ra_item _ _ (-2)%Z _ (num 20)); [apply py_int_iff; vm_compute; reflexivity|reflexivity|reflexivity|constructor].
  - repeat (split; [vm_compute; reflexivity|]). vm_compute. reflexivity.
Qed.

(** From 'baz' (/foo/1): '1/-1' finds the node that '1/2' denotes. *)
Example C12_exact_case :
  rel_eval (mk_rel 1 0 (RefPath [lit "-1"])) heap12 3 = Ok (RVNode 4) /\
  rel_denotes heap12 0 [lit "foo"; lit "1"] 1 0 (RefPath [lit "2"]) (RVNode 4).
Proof.
  split; [vm_compute; reflexivity|]. apply (rd_path _ _ _ _ _ [lit "foo"]).
  - apply rb_plain; [reflexivity|exists [lit "1"]; reflexivity|reflexivity].
  - cbn [app]. apply (located_cons _ _ _ 1); [eapply ca_member; [vm_compute; reflexivity|left; reflexivity]|].
    change (lit "2") with (str_of_nat 2).
    apply (located_cons _ _ _ 4); [econstructor; [vm_compute; reflexivity|reflexivity]|constructor].
Qed.
