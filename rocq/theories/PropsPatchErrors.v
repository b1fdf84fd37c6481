(** C24: which exception each patch function raises, exactly. *)
From Verif Require Import Patch JsonFacts PatchFacts PointerFacts SpecPyInt PyIntFacts.
From Coq Require Import Lia.
Open Scope nat_scope.

(** The key names a place of a sequence of [len] items, or the end of it: as
    '-' or as any text that int() accepts, but not counted from the end. *)
Definition old_place (len : nat) (k : pystr) : Prop :=
  exists z, int_text k z /\ (0 <= z < Z.of_nat len)%Z.
Definition new_place (len : nat) (k : pystr) : Prop :=
  k = lit "-" \/ int_text k (Z.of_nat len).

Lemma seq_target_cases P len k :
  match seq_target P len k with
  | Ok t => t_parent t = P /\
      ((t_type t = ARRAY_ITEM_NEW /\ t_index t = PIndex len /\ new_place len k /\ ~ old_place len k) \/
       (t_type t = ARRAY_ITEM /\ (exists i, t_index t = PIndex i /\ i < len /\ int_text k (Z.of_nat i)) /\ old_place len k))
  | Exn e => e = EPatch /\ ~ new_place len k /\ ~ old_place len k
  | Fuel => False
  end.
Proof.
  assert (Dash : forall z, ~ int_text (lit "-") z) by (intros z H; apply py_int_iff in H; vm_compute in H; discriminate).
  unfold seq_target. destruct (str_eqb k (lit "-")) eqn:E.
  - apply str_eqb_eq in E as ->. split; auto. left. repeat split; auto; [now left|]. intros (z & H & _). exact (Dash z H).
  - assert (NE : k <> lit "-") by (intros ->; rewrite str_eqb_refl in E; discriminate).
    destruct (py_int k) as [z|] eqn:I.
    + apply py_int_iff in I. destruct (z =? Z.of_nat len)%Z eqn:Z1.
      * apply Z.eqb_eq in Z1 as ->. split; auto. left. repeat split; auto; [now right|].
        intros (z & H & L). pose proof (int_text_fun _ _ _ I H). lia.
      * apply Z.eqb_neq in Z1. destruct ((0 <=? z) && (z <? Z.of_nat len))%Z eqn:Z2.
        -- apply andb_true_iff in Z2 as [A B]. apply Z.leb_le in A. apply Z.ltb_lt in B. split; auto. right. split; auto. split.
           ++ exists (Z.to_nat z). split; auto. split; [lia|]. now rewrite Z2Nat.id.
           ++ exists z. auto.
        -- split; auto. split.
           ++ intros [H|H]; [congruence|]. pose proof (int_text_fun _ _ _ I H). congruence.
           ++ intros (z' & H & L). pose proof (int_text_fun _ _ _ I H) as <-.
              apply andb_false_iff in Z2. rewrite Z.leb_gt, Z.ltb_ge in Z2. lia.
    + assert (N : forall z, ~ int_text k z) by (intros z H; apply py_int_iff in H; congruence).
      split; auto. split; [intros [H|H]; [congruence|exact (N _ H)]|]. intros (z & H & _). exact (N _ H).
Qed.

(** The way to the parent. *)
Lemma parent_cases d q : jwf d = true ->
  (exists P, refers d q P /\ as_patch_error (eval_plain q d) = Ok P /\ jwf P = true) \/
  ((forall P, ~ refers d q P) /\ as_patch_error (eval_plain q d) = Exn EPatch).
Proof.
  intro W. destruct (eval_from_result d q W) as [(P & E & F) | E]; cbn [eval_from] in E.
  - left. exists P. split; auto. split; auto. exact (refers_jwf _ _ _ W F).
  - right. split; auto. intros P F. apply (eval_plain_refers _ _ _ W) in F. rewrite F in E. discriminate.
Qed.

(** What the outcome [r] is when [d] has no parent at [q], and otherwise, for
    the parent [P], whether [good P] or the exception [bad P] allows. *)
Definition outcome_at (d : json) (q : pointer) (r : res json) (good : json -> Prop) (bad : json -> exn -> Prop) : Prop :=
  match r with
  | Ok _ => exists P, refers d q P /\ good P
  | Exn e => ((forall P, ~ refers d q P) /\ e = EPatch) \/ exists P, refers d q P /\ bad P e
  | Fuel => False
  end.

Theorem C24_add_exact : forall d q k v, jwf d = true ->
  outcome_at d q (p_add d (q ++ [k]) v)
    (fun P => match P with
              | JArr l => new_place (length l) k \/ old_place (length l) k
              | JObj _ => True
              | _ => False end)
    (fun P e => match P with
                | JArr l => ~ (new_place (length l) k \/ old_place (length l) k) /\ e = EPatch
                | JStr s => (new_place (length s) k \/ old_place (length s) k) /\ e = EAttribute \/
                            ~ (new_place (length s) k \/ old_place (length s) k) /\ e = EPatch
                | JObj _ => False
                | _ => e = EAssertion end).
Proof.
  intros d q k v W. rewrite p_add_snoc. unfold at_parent.
  destruct (parent_cases d q W) as [(P & F & -> & WP)|(N & ->)]; cbn [bind]; [|left; auto].
  unfold local_add, local_target. destruct P as [|b|x|s|l|m]; cbn [bind]; try (right; eexists; split; [exact F|reflexivity]).
  - pose proof (seq_target_cases (JStr s) (length s) k) as C.
    destruct (seq_target (JStr s) (length s) k) as [t|e|]; cbn [bind]; [| |contradiction].
    + destruct C as (Pt & C). destruct C as [(T & I & Nw & _)|(T & _ & Od)]; rewrite T; unfold parent_insert; rewrite Pt; cbn [bind];
        right; exists (JStr s); (split; [exact F|]); left; auto.
    + destruct C as (-> & A & B). right. exists (JStr s). split; [exact F|]. right. split; auto. tauto.
  - pose proof (seq_target_cases (JArr l) (length l) k) as C.
    destruct (seq_target (JArr l) (length l) k) as [t|e|]; cbn [bind]; [| |contradiction].
    + destruct C as (Pt & C). destruct C as [(T & I & Nw & _)|(T & (i & I & _) & Od)]; rewrite T; unfold parent_insert; rewrite Pt, I; cbn [bind];
        exists (JArr l); (split; [exact F|]); auto.
    + destruct C as (-> & A & B). right. exists (JArr l). split; [exact F|]. split; auto. tauto.
  - destruct (dmem k m); cbn [t_type parent_assign t_parent t_index bind]; exists (JObj m); auto.
Qed.
Print Assumptions C24_add_exact.

Definition removable (P : json) (k : pystr) : Prop :=
  match P with
  | JArr l => old_place (length l) k
  | JObj m => In k (keys m)
  | _ => False
  end.
Definition blamed (P : json) (k : pystr) (e : exn) : Prop :=
  match P with
  | JArr l => ~ old_place (length l) k /\ e = EPatch
  | JStr s => old_place (length s) k /\ e = EType \/ ~ old_place (length s) k /\ e = EPatch
  | JObj m => ~ In k (keys m) /\ e = EPatch
  | _ => e = EAssertion
  end.

Lemma dmem_keys {T} k (m : list (pystr * T)) : dmem k m = true <-> In k (keys m).
Proof. unfold dmem. destruct (dget k m) eqn:E; split; auto; try discriminate.
  - intros _. apply dget_In in E. apply (in_map fst) in E. exact E.
  - intro I. exfalso. revert E. clear -I. induction m as [|(k' & v) m IH]; [destruct I|]. cbn [dget]. destruct I as [I|I].
    + cbn in I. subst. rewrite str_eqb_refl. discriminate.
    + destruct (str_eqb k k'); [discriminate|]. auto.
Qed.

Theorem C24_remove_exact : forall d q k, jwf d = true ->
  outcome_at d q (p_remove d (q ++ [k])) (fun P => removable P k) (fun P e => blamed P k e).
Proof.
  intros d q k W. rewrite p_remove_snoc. unfold at_parent.
  destruct (parent_cases d q W) as [(P & F & -> & WP)|(N & ->)]; cbn [bind]; [|left; auto].
  unfold local_remove, local_target. destruct P as [|b|x|s|l|m]; cbn [bind]; try (right; eexists; split; [exact F|reflexivity]).
  - pose proof (seq_target_cases (JStr s) (length s) k) as C.
    destruct (seq_target (JStr s) (length s) k) as [t|e|]; cbn [bind]; [| |contradiction].
    + destruct C as (Pt & C). destruct C as [(T & I & _ & Od)|(T & _ & Od)]; rewrite T; unfold parent_delete; rewrite ?Pt; cbn [bind];
        right; exists (JStr s); (split; [exact F|]); cbn; auto.
    + destruct C as (-> & A & B). right. exists (JStr s). split; [exact F|]. cbn. auto.
  - pose proof (seq_target_cases (JArr l) (length l) k) as C.
    destruct (seq_target (JArr l) (length l) k) as [t|e|]; cbn [bind]; [| |contradiction].
    + destruct C as (Pt & C). destruct C as [(T & I & _ & Od)|(T & (i & I & _) & Od)]; rewrite T; unfold parent_delete; rewrite ?Pt, ?I; cbn [bind].
      * right. exists (JArr l). split; [exact F|]. cbn. auto.
      * exists (JArr l). split; [exact F|]. cbn. auto.
    + destruct C as (-> & A & B). right. exists (JArr l). split; [exact F|]. cbn. auto.
  - destruct (dmem k m) eqn:M; cbn [t_type parent_delete t_parent t_index bind].
    + exists (JObj m). split; auto. now apply dmem_keys.
    + right. exists (JObj m). split; auto. split; auto. intro I. apply dmem_keys in I. congruence.
Qed.
Print Assumptions C24_remove_exact.

Theorem C24_replace_exact : forall d q k v, jwf d = true ->
  outcome_at d q (p_replace d (q ++ [k]) v) (fun P => removable P k) (fun P e => blamed P k e).
Proof.
  intros d q k v W. rewrite p_replace_snoc. unfold at_parent.
  destruct (parent_cases d q W) as [(P & F & -> & WP)|(N & ->)]; cbn [bind]; [|left; auto].
  unfold local_replace, local_target. destruct P as [|b|x|s|l|m]; cbn [bind]; try (right; eexists; split; [exact F|reflexivity]).
  - pose proof (seq_target_cases (JStr s) (length s) k) as C.
    destruct (seq_target (JStr s) (length s) k) as [t|e|]; cbn [bind]; [| |contradiction].
    + destruct C as (Pt & C). destruct C as [(T & I & _ & Od)|(T & _ & Od)]; rewrite T; unfold parent_assign; rewrite ?Pt; cbn [bind];
        right; exists (JStr s); (split; [exact F|]); cbn; auto.
    + destruct C as (-> & A & B). right. exists (JStr s). split; [exact F|]. cbn. auto.
  - pose proof (seq_target_cases (JArr l) (length l) k) as C.
    destruct (seq_target (JArr l) (length l) k) as [t|e|]; cbn [bind]; [| |contradiction].
    + destruct C as (Pt & C). destruct C as [(T & I & _ & Od)|(T & (i & I & _) & Od)]; rewrite T; unfold parent_assign; rewrite ?Pt, ?I; cbn [bind].
      * right. exists (JArr l). split; [exact F|]. cbn. auto.
      * exists (JArr l). split; [exact F|]. cbn. auto.
    + destruct C as (-> & A & B). right. exists (JArr l). split; [exact F|]. cbn. auto.
  - destruct (dmem k m) eqn:M; cbn [t_type parent_assign t_parent t_index bind].
    + exists (JObj m). split; auto. now apply dmem_keys.
    + right. exists (JObj m). split; auto. split; auto. intro I. apply dmem_keys in I. congruence.
Qed.
Print Assumptions C24_replace_exact.

(** [test]: as for remove; but a place is found a second time by the pointer,
    which does not accept the other spellings of indices, nor a string. *)
Theorem C24_test_exact : forall d q k v, jwf d = true -> jwf v = true ->
  outcome_at d q (p_test d (q ++ [k]) v)
    (fun P => exists c, child P k c /\ jeq c v)
    (fun P e => match P with
                | JArr l => ~ old_place (length l) k /\ e = EPatch \/
                            (exists c, child P k c /\ ~ jeq c v) /\ e = EPatch \/
                            old_place (length l) k /\ ~ rfc_index_text k /\ e = EPointerReference
                | JStr s => old_place (length s) k /\ e = EPointerReference \/ ~ old_place (length s) k /\ e = EPatch
                | JObj m => (forall c, child P k c -> ~ jeq c v) /\ e = EPatch
                | _ => e = EAssertion end).
Proof.
  intros d q k v W Wv. unfold p_test. rewrite mk_target_snoc.
  destruct (parent_cases d q W) as [(P & F & -> & WP)|(N & ->)]; cbn [bind]; [|left; auto].
  assert (Ev : eval_plain (q ++ [k]) d = eval_plain [k] P).
  { rewrite eval_plain_app. apply (eval_plain_refers _ _ _ W) in F. now rewrite F. }
  rewrite Ev. unfold local_target.
  assert (Eq : forall c, child P k c -> eval_plain [k] P = Ok c /\ (json_eqb c v = true <-> jeq c v)).
  { intros c C. assert (F1 : refers P [k] c) by (econstructor; [exact C|constructor]). split; [now apply eval_plain_refers|].
    apply json_eqb_jeq; [exact (refers_jwf _ _ _ WP F1)|exact Wv]. }
  destruct P as [|b|x|s|l|m]; cbn [bind]; try (right; eexists; split; [exact F|reflexivity]).
  - pose proof (seq_target_cases (JStr s) (length s) k) as C.
    destruct (seq_target (JStr s) (length s) k) as [t|e|]; cbn [bind]; [| |contradiction].
    + destruct C as (Pt & C). destruct C as [(T & I & _ & Od)|(T & _ & Od)]; rewrite T; cbn [eval_plain bind];
        right; exists (JStr s); (split; [exact F|]); auto.
    + destruct C as (-> & A & B). right. exists (JStr s). split; [exact F|]. auto.
  - pose proof (seq_target_cases (JArr l) (length l) k) as C.
    destruct (seq_target (JArr l) (length l) k) as [t|e|]; cbn [bind]; [| |contradiction].
    + destruct C as (Pt & C). destruct C as [(T & I & _ & Od)|(T & (i & I & Li & It) & Od)]; rewrite T.
      * right. exists (JArr l). split; [exact F|]. auto.
      * destruct (fullmatch JSON_INDEX_RE k) eqn:M.
        -- apply index_match_rfc in M. pose proof (py_int_index k M) as Pi. apply py_int_iff in It.
           destruct (nth_error l i) as [c|] eqn:Nc; [|apply nth_error_None in Nc; lia].
           assert (Ch : child (JArr l) k c).
           { constructor; auto. rewrite Pi in It. injection It as It. replace (N.to_nat (digits_value k)) with i by lia. exact Nc. }
           destruct (Eq c Ch) as (-> & Je). cbn [bind]. destruct (json_eqb c v) eqn:Jb.
           ++ exists (JArr l). split; [exact F|]. exists c. split; auto. now apply Je.
           ++ right. exists (JArr l). split; [exact F|]. right. left. split; auto. exists c. split; auto. intro H. apply Je in H. congruence.
        -- cbn [eval_plain]. rewrite M. cbn [bind]. right. exists (JArr l). split; [exact F|]. right. right. split; auto. split; auto.
           intro T'. apply index_match_rfc in T'. congruence.
    + destruct C as (-> & A & B). right. exists (JArr l). split; [exact F|]. auto.
  - destruct (dmem k m) eqn:M; cbn [t_type].
    + unfold dmem in M. destruct (dget k m) as [c|] eqn:G; [|discriminate].
      assert (Ch : child (JObj m) k c) by (constructor; now apply dget_In).
      destruct (Eq c Ch) as (-> & Je). cbn [bind]. destruct (json_eqb c v) eqn:Jb.
      * exists (JObj m). split; [exact F|]. exists c. split; auto. now apply Je.
      * right. exists (JObj m). split; [exact F|]. split; auto. intros c' C' H. inversion C' as [m' k' c1 I1|]; subst.
        apply (In_dget _ _ _ (jwf_NoDup _ WP)) in I1. assert (c' = c) by congruence. subst. apply Je in H. congruence.
    + right. exists (JObj m). split; [exact F|]. split; auto. intros c' C' _. inversion C' as [m' k' c1 I1|]; subst.
      assert (I2 : dmem k m = true) by (unfold dmem; now rewrite (In_dget _ _ _ (jwf_NoDup _ WP) I1)). congruence.
Qed.
Print Assumptions C24_test_exact.

(** [copy] and [move] without a value at [from_] raise JSONPatchError;
    otherwise they are [add], after [remove], with the exceptions above. *)
Theorem C24_from_exact : forall d p f, jwf d = true ->
  ((forall v, ~ refers d f v) /\ p_copy d p (Some f) = Exn EPatch /\ p_move d p (Some f) = Exn EPatch) \/
  exists v, refers d f v /\ p_copy d p (Some f) = p_add d p v /\
    p_move d p (Some f) = let* d' := p_remove d f in p_add d' p v.
Proof.
  intros d p f W. unfold p_copy, p_move. destruct (parent_cases d f W) as [(v & F & E & _)|(N & E)]; cbn [eval_from]; rewrite E; cbn [bind].
  - right. exists v. auto.
  - left. auto.
Qed.
Print Assumptions C24_from_exact.

(** {"s": "ab", "n": 5, "l": [1, 2]}: every kind of outcome. *)
Example C24_exact_case :
  let d := JObj [(lit "s", JStr (lit "ab")); (lit "n", JNum (NInt 5)); (lit "l", JArr [JNum (NInt 1); JNum (NInt 2)])] in
  p_add d [lit "s"; lit "1"] JNull = Exn EAttribute /\ p_add d [lit "s"; lit "3"] JNull = Exn EPatch /\
  p_add d [lit "n"; lit "x"] JNull = Exn EAssertion /\ p_add d [lit "l"; lit "-1"] JNull = Exn EPatch /\
  p_add d [lit "z"; lit "x"] JNull = Exn EPatch /\
  p_remove d [lit "s"; lit "1"] = Exn EType /\ p_remove d [lit "s"; lit "2"] = Exn EPatch /\ p_remove d [lit "l"; lit "-"] = Exn EPatch /\
  p_test d [lit "l"; lit "01"] (JNum (NInt 2)) = Exn EPointerReference /\ p_test d [lit "l"; lit "1"] JNull = Exn EPatch /\
  p_test d [lit "s"; lit "0"] JNull = Exn EPointerReference /\
  refers d [lit "l"] (JArr [JNum (NInt 1); JNum (NInt 2)]) /\ old_place 2 (lit "01") /\ ~ rfc_index_text (lit "01").
Proof.
  cbv zeta. repeat (split; [vm_compute; reflexivity|]). split.
  - econstructor; [constructor; right; right; left; reflexivity|constructor].
  - split; [exists 1%Z; split; [apply py_int_iff; vm_compute; reflexivity|lia]|].
    intro H. apply index_match_rfc in H. vm_compute in H. discriminate.
Qed.
