(** Proofs about JSON Patch on values. *)
From Verif Require Export PointerFacts JsonFacts Patch SpecPatch.
From Coq Require Import Permutation.
Open Scope nat_scope.

(** ** Dictionaries and lists by splitting *)
Section Dict.
Context {A : Type}.
Implicit Types m : list (pystr * A).

Lemma dget_split k x m : dget k m = Some x -> exists m1 m2, m = m1 ++ (k, x) :: m2 /\ ~ In k (keys m1).
Proof.
  induction m as [|[k' v'] m IH]; simpl; [discriminate|]. destruct (str_eqb k k') eqn:E; intro H.
  - apply str_eqb_eq in E as <-. injection H as ->. exists [], m. auto.
  - destruct (IH H) as (m1 & m2 & -> & N). exists ((k', v') :: m1), m2. split; auto. simpl.
    apply str_eqb_neq in E. intros [F|F]; auto.
Qed.
Lemma dget_at k x m1 m2 : ~ In k (keys m1) -> dget k (m1 ++ (k, x) :: m2) = Some x.
Proof.
  induction m1 as [|[k' v'] m1 IH]; simpl; intro N; [now rewrite str_eqb_refl|].
  destruct (str_eqb k k') eqn:E; [apply str_eqb_eq in E; subst; tauto|]. apply IH. tauto.
Qed.
Lemma dset_at k x v m1 m2 : ~ In k (keys m1) -> dset k v (m1 ++ (k, x) :: m2) = m1 ++ (k, v) :: m2.
Proof.
  induction m1 as [|[k' v'] m1 IH]; simpl; intro N; [now rewrite str_eqb_refl|].
  destruct (str_eqb k k') eqn:E; [apply str_eqb_eq in E; subst; tauto|]. f_equal. apply IH. tauto.
Qed.
Lemma ddel_at k x m1 m2 : ~ In k (keys m1) -> ddel k (m1 ++ (k, x) :: m2) = m1 ++ m2.
Proof.
  induction m1 as [|[k' v'] m1 IH]; simpl; intro N; [now rewrite str_eqb_refl|].
  destruct (str_eqb k k') eqn:E; [apply str_eqb_eq in E; subst; tauto|]. f_equal. apply IH. tauto.
Qed.
Lemma dset_new k v m : ~ In k (keys m) -> dset k v m = m ++ [(k, v)].
Proof.
  induction m as [|[k' v'] m IH]; simpl; intro N; auto.
  destruct (str_eqb k k') eqn:E; [apply str_eqb_eq in E; subst; tauto|]. f_equal. apply IH. tauto.
Qed.
Lemma NoDup_split k x m1 m2 : NoDup (keys (m1 ++ (k, x) :: m2)) -> ~ In k (keys m1) /\ ~ In k (keys m2).
Proof.
  unfold keys. rewrite map_app. simpl. intro H. apply NoDup_remove_2 in H. rewrite in_app_iff in H. tauto.
Qed.
End Dict.

Lemma nth_error_split' {A} (l : list A) n x : nth_error l n = Some x -> exists l1 l2, l = l1 ++ x :: l2 /\ length l1 = n.
Proof. apply nth_error_split. Qed.
Lemma nth_error_at {A} (l1 : list A) x l2 : nth_error (l1 ++ x :: l2) (length l1) = Some x.
Proof. rewrite nth_error_app2 by lia. now rewrite Nat.sub_diag. Qed.
Lemma update_nth_at {A} (l1 : list A) x y l2 : update_nth (length l1) y (l1 ++ x :: l2) = l1 ++ y :: l2.
Proof. induction l1; simpl; auto. now rewrite IHl1. Qed.
Lemma remove_nth_at {A} (l1 : list A) x l2 : remove_nth (length l1) (l1 ++ x :: l2) = l1 ++ l2.
Proof. induction l1; simpl; auto. now rewrite IHl1. Qed.
Lemma insert_nth_at {A} (l1 : list A) x l2 : insert_nth (length l1) x (l1 ++ l2) = l1 ++ x :: l2.
Proof.
  unfold insert_nth. rewrite firstn_app, Nat.sub_diag, firstn_all, firstn_O, app_nil_r.
  rewrite skipn_app, Nat.sub_diag, skipn_all. reflexivity.
Qed.

(** ** The two parts of a non-empty path *)
Lemma slice_init q (k : pystr) : pointer_slice (q ++ [k]) None (Some (-1)%Z) = q.
Proof.
  unfold pointer_slice. cbn [skipn]. rewrite Nat.sub_0_r. unfold clamp_index. cbn [Z.ltb Z.compare].
  rewrite app_length. change (length [k]) with 1.
  replace (Nat.min (Z.to_nat (-1 + Z.of_nat (length q + 1))) (length q + 1)) with (length q) by lia.
  rewrite firstn_app, Nat.sub_diag, firstn_all, firstn_O. apply app_nil_r.
Qed.
Lemma item_last q (k : pystr) : pointer_item (q ++ [k]) (-1) = Ok k.
Proof.
  unfold pointer_item, norm_index. cbn [Z.ltb Z.compare]. rewrite app_length. change (length [k]) with 1.
  destruct ((0 <=? -1 + Z.of_nat (length q + 1)) && (-1 + Z.of_nat (length q + 1) <? Z.of_nat (length q + 1)))%Z eqn:E.
  - replace (Z.to_nat (-1 + Z.of_nat (length q + 1))) with (length q) by lia. now rewrite nth_error_at.
  - apply andb_false_iff in E as [E|E]; [apply Z.leb_gt in E|apply Z.ltb_ge in E]; lia.
Qed.

Lemma path_cases (p : pointer) : p = [] \/ exists q k, p = q ++ [k].
Proof. destruct p as [|x p]; auto. right. destruct (exists_last (l := x :: p)) as (q & k & ->); [discriminate|]. eauto. Qed.

(** ** [edited] is [update_at] *)
Lemma index_digits_val k : rfc_index_text k -> py_int k = Some (Z.of_nat (N.to_nat (digits_value k))).
Proof. intro H. rewrite (py_int_index k H). f_equal. lia. Qed.

Lemma edited_update (R : json -> json -> Prop) q : forall d P P', jwf d = true -> eval_plain q d = Ok P -> R P P' ->
  edited R q d (update_at q P' d).
Proof.
  induction q as [|k q IH]; intros d P P' W E HR; cbn [eval_plain update_at] in *.
  - injection E as ->. now constructor.
  - destruct d as [|b|x|s|l|m]; try discriminate.
    + destruct (fullmatch JSON_INDEX_RE k) eqn:M; [|discriminate]. apply index_match_rfc in M.
      rewrite (index_digits_val k M) in *. set (n := N.to_nat (digits_value k)) in *. rewrite Nat2Z.id.
      destruct (Nat.lt_ge_cases n (length l)) as [B|B].
      * rewrite norm_index_nat in E by auto. destruct (nth_error l n) as [x|] eqn:X; [|discriminate].
        assert (Wx : jwf x = true) by (eapply jwf_nth; eauto).
        destruct (nth_error_split' _ _ _ X) as (l1 & l2 & -> & L). rewrite <- L. rewrite update_nth_at.
        apply ed_item; auto. eapply IH; eauto.
      * rewrite norm_index_out in E by lia. discriminate.
    + destruct (dget k m) as [x|] eqn:X; [|discriminate]. assert (Wx : jwf x = true) by (eapply jwf_dget; eauto).
      apply dget_split in X as (m1 & m2 & -> & N). rewrite dset_at by auto. apply ed_member. eapply IH; eauto.
Qed.

Lemma edited_eval (R : json -> json -> Prop) q d d' : edited R q d d' -> jwf d = true ->
  exists P P', eval_plain q d = Ok P /\ R P P' /\ d' = update_at q P' d.
Proof.
  induction 1 as [d d' H|k p m1 x x' m2 H IH|k p l1 x x' l2 T L H IH]; intro W.
  - exists d, d'. auto.
  - pose proof (jwf_NoDup _ W) as ND. apply NoDup_split in ND as [N _].
    assert (Wx : jwf x = true) by (eapply jwf_dget; [exact W|now apply dget_at]).
    destruct (IH Wx) as (P & P' & E & HR & ->). exists P, P'. cbn [eval_plain update_at].
    rewrite dget_at, dset_at by auto. auto.
  - assert (Wx : jwf x = true) by (eapply (jwf_nth _ (length l1)); [exact W|apply nth_error_at]).
    destruct (IH Wx) as (P & P' & E & HR & ->). exists P, P'. cbn [eval_plain update_at].
    apply index_match_rfc in T as M. rewrite M, (index_digits_val k T), L, Nat2Z.id, nth_error_at, update_nth_at.
    rewrite norm_index_nat by (rewrite app_length; simpl; lia). rewrite nth_error_at. auto.
Qed.

(** ** One step, without paths *)
Definition local_target (P : json) (key : pystr) : res target :=
  match P with
  | JArr l => seq_target P (length l) key
  | JStr s => seq_target P (length s) key
  | JObj m => Ok (mkTarget (if dmem key m then OBJECT_PROPERTY else OBJECT_PROPERTY_NEW) P (PKey key))
  | _ => Exn EAssertion
  end.
Definition local_add (P : json) (key : pystr) (v : json) : res json :=
  let* t := local_target P key in
  match t_type t with
  | ROOT => Ok v
  | ARRAY_ITEM | ARRAY_ITEM_NEW => parent_insert t v
  | OBJECT_PROPERTY | OBJECT_PROPERTY_NEW => parent_assign t v
  end.
Definition local_remove (P : json) (key : pystr) : res json :=
  let* t := local_target P key in
  match t_type t with
  | ROOT => Ok JNull
  | ARRAY_ITEM | OBJECT_PROPERTY => parent_delete t
  | _ => Exn EPatch
  end.
Definition local_replace (P : json) (key : pystr) (v : json) : res json :=
  let* t := local_target P key in
  match t_type t with
  | ROOT => Ok v
  | ARRAY_ITEM | OBJECT_PROPERTY => parent_assign t v
  | _ => Exn EPatch
  end.

Definition at_parent (d : json) (q : pointer) (f : json -> res json) : res json :=
  let* P := as_patch_error (eval_plain q d) in
  let* P' := f P in Ok (update_at q P' d).

Lemma mk_target_snoc d q k : mk_target d (q ++ [k]) =
  let* P := as_patch_error (eval_plain q d) in local_target P k.
Proof.
  unfold mk_target. destruct (q ++ [k]) eqn:E; [destruct q; discriminate|]. rewrite <- E.
  rewrite slice_init, item_last. unfold bind. destruct (as_patch_error (eval_plain q d)); auto.
Qed.

Lemma seq_target_root P n k t : seq_target P n k = Ok t -> t_type t <> ROOT.
Proof.
  unfold seq_target. intro H. destruct (str_eqb k (lit "-")); [injection H as <-; discriminate|].
  destruct (py_int k) as [z|]; [|discriminate]. destruct (z =? Z.of_nat n)%Z; [injection H as <-; discriminate|].
  destruct ((0 <=? z) && (z <? Z.of_nat n))%Z; [injection H as <-; discriminate|discriminate].
Qed.
Lemma local_target_root P k t : local_target P k = Ok t -> t_type t <> ROOT.
Proof.
  destruct P; cbn [local_target]; try discriminate; try apply seq_target_root.
  intros [= <-]. simpl. destruct (dmem k m); discriminate.
Qed.

Lemma p_add_snoc d q k v : p_add d (q ++ [k]) v = at_parent d q (fun P => local_add P k v).
Proof.
  unfold p_add, at_parent, in_parent, local_add. rewrite mk_target_snoc, slice_init.
  destruct (as_patch_error (eval_plain q d)) as [P|e|]; cbn [bind]; auto.
  destruct (local_target P k) as [t|e|] eqn:T; cbn [bind]; auto. apply local_target_root in T.
  destruct (t_type t); [congruence| | | |];
    try (destruct (parent_insert t v); cbn [bind]; auto); destruct (parent_assign t v); cbn [bind]; auto.
Qed.
Lemma p_remove_snoc d q k : p_remove d (q ++ [k]) = at_parent d q (fun P => local_remove P k).
Proof.
  unfold p_remove, at_parent, in_parent, local_remove. rewrite mk_target_snoc, slice_init.
  destruct (as_patch_error (eval_plain q d)) as [P|e|]; cbn [bind]; auto.
  destruct (local_target P k) as [t|e|] eqn:T; cbn [bind]; auto. apply local_target_root in T.
  destruct (t_type t); [congruence| | | |]; cbn [bind]; auto; destruct (parent_delete t); cbn [bind]; auto.
Qed.
Lemma p_replace_snoc d q k v : p_replace d (q ++ [k]) v = at_parent d q (fun P => local_replace P k v).
Proof.
  unfold p_replace, at_parent, in_parent, local_replace. rewrite mk_target_snoc, slice_init.
  destruct (as_patch_error (eval_plain q d)) as [P|e|]; cbn [bind]; auto.
  destruct (local_target P k) as [t|e|] eqn:T; cbn [bind]; auto. apply local_target_root in T.
  destruct (t_type t); [congruence| | | |]; cbn [bind]; auto; destruct (parent_assign t v); cbn [bind]; auto.
Qed.

(** The reading of a last token by the code: Python's [int]. *)
Definition int_reading : token_reading := fun k i => py_int k = Some (Z.of_nat i).

Lemma rfc_int_reading k i : rfc_reading k i -> int_reading k i.
Proof. intros [T ->]. unfold int_reading. now apply index_digits_val. Qed.
Lemma int_rfc_reading k i : rfc_index_text k -> int_reading k i -> rfc_reading k i.
Proof. intros T H. unfold int_reading in H. rewrite (index_digits_val k T) in H. injection H as H. split; auto. lia. Qed.

Lemma dash_not_int k i : int_reading k i -> k <> lit "-".
Proof. unfold int_reading. intros H ->. vm_compute in H. discriminate. Qed.

(** What the array branch of Node computes. *)
Lemma seq_target_spec P n k t : seq_target P n k = Ok t <->
  (t = mkTarget ARRAY_ITEM_NEW P (PIndex n) /\ (k = lit "-" \/ int_reading k n)) \/
  (exists i, i < n /\ t = mkTarget ARRAY_ITEM P (PIndex i) /\ int_reading k i).
Proof.
  unfold seq_target, int_reading. destruct (str_eqb k (lit "-")) eqn:E.
  { apply str_eqb_eq in E as ->. split.
    - intros [= <-]. auto.
    - intros [[-> _] | (i & _ & _ & H)]; [auto|]. vm_compute in H. discriminate. }
  apply str_eqb_neq in E. destruct (py_int k) as [z|].
  - destruct (Z.eqb_spec z (Z.of_nat n)) as [->|NZ].
    + split; [intros [= <-]; auto|]. intros [[-> _] | (i & L & -> & H)]; auto. injection H as H. lia.
    + destruct ((0 <=? z) && (z <? Z.of_nat n))%Z eqn:B.
      * apply andb_true_iff in B as [B1 B2]. apply Z.leb_le in B1. apply Z.ltb_lt in B2. split.
        -- intros [= <-]. right. exists (Z.to_nat z). split; [lia|]. split; auto. f_equal. lia.
        -- intros [[-> [H|H]] | (i & L & -> & H)]; [congruence|injection H as H; lia|].
           injection H as ->. now rewrite Nat2Z.id.
      * split; [discriminate|]. intros [[-> [H|H]] | (i & L & -> & H)]; [congruence|injection H as H; lia|].
        injection H as ->. apply andb_false_iff in B as [B|B]; [apply Z.leb_gt in B|apply Z.ltb_ge in B]; lia.
  - split; [discriminate|]. intros [[_ [H|H]] | (i & _ & _ & H)]; congruence.
Qed.
Lemma seq_target_error P n k : (exists t, seq_target P n k = Ok t) \/ seq_target P n k = Exn EPatch.
Proof.
  unfold seq_target. destruct (str_eqb k (lit "-")); eauto. destruct (py_int k); eauto.
  destruct (z =? Z.of_nat n)%Z; eauto. destruct ((0 <=? z) && (z <? Z.of_nat n))%Z; eauto.
Qed.

Lemma cut_length {A} (l : list A) i : i <= length l -> exists l1 l2, l = l1 ++ l2 /\ length l1 = i.
Proof. intro H. exists (firstn i l), (skipn i l). rewrite firstn_skipn. split; auto. now apply firstn_length_le. Qed.
Lemma cut_nth {A} (l : list A) i : i < length l -> exists l1 x l2, l = l1 ++ x :: l2 /\ length l1 = i.
Proof.
  intro H. destruct (nth_error l i) as [x|] eqn:E; [|apply nth_error_None in E; lia].
  destruct (nth_error_split' _ _ _ E) as (l1 & l2 & -> & L). eauto.
Qed.

Lemma dmem_split {A} k (m : list (pystr * A)) : dmem k m = true -> exists m1 x m2, m = m1 ++ (k, x) :: m2 /\ ~ In k (keys m1).
Proof.
  unfold dmem. destruct (dget k m) as [x|] eqn:E; [|discriminate]. intros _.
  destruct (dget_split _ _ _ E) as (m1 & m2 & H & N). eauto.
Qed.

Lemma insert_nth_end {A} (l : list A) x : insert_nth (length l) x l = l ++ [x].
Proof. pose proof (insert_nth_at l x []) as H. now rewrite app_nil_r in H. Qed.

Lemma local_add_spec P k v P' : jwf P = true -> (local_add P k v = Ok P' <-> adds int_reading k v P P').
Proof.
  intro W. unfold local_add. split.
  - intro H. destruct (local_target P k) as [t|e|] eqn:T; cbn [bind] in H; try discriminate.
    destruct P as [|b|x|s|l|m]; cbn [local_target] in T; try discriminate.
    + apply seq_target_spec in T as [[-> _] | (i & _ & -> & _)]; discriminate.
    + apply seq_target_spec in T as [[-> K] | (i & L & -> & K)]; cbn in H; injection H as <-.
      * rewrite insert_nth_end. destruct K as [-> | K].
        -- apply adds_end; auto.
        -- rewrite <- (app_nil_r l) at 1. apply adds_item. exact K.
      * destruct (cut_length l i) as (l1 & l2 & -> & <-); [lia|]. rewrite insert_nth_at. now apply adds_item.
    + injection T as <-. cbn [t_type] in H. destruct (dmem k m) eqn:D; cbn in H; injection H as <-.
      * apply dmem_split in D as (m1 & x & m2 & -> & N). rewrite dset_at by auto. constructor.
      * apply dmem_false in D. rewrite dset_new by auto. now constructor.
  - intro H. revert W. destruct H as [l1 l2 K|l ->|m N|m1 x m2]; intro W.
    + cbn [local_target]. destruct l2 as [|x l2].
      * rewrite app_nil_r. assert (E : seq_target (JArr l1) (length l1) k = Ok (mkTarget ARRAY_ITEM_NEW (JArr l1) (PIndex (length l1))))
          by (apply seq_target_spec; auto).
        rewrite E. cbn. now rewrite insert_nth_end.
      * assert (E : seq_target (JArr (l1 ++ x :: l2)) (length (l1 ++ x :: l2)) k =
                    Ok (mkTarget ARRAY_ITEM (JArr (l1 ++ x :: l2)) (PIndex (length l1)))).
        { apply seq_target_spec. right. exists (length l1). rewrite app_length. simpl. split; [lia|auto]. }
        rewrite E. cbn. now rewrite insert_nth_at.
    + cbn [local_target]. assert (E : seq_target (JArr l) (length l) (lit "-") = Ok (mkTarget ARRAY_ITEM_NEW (JArr l) (PIndex (length l))))
          by (apply seq_target_spec; auto).
      rewrite E. cbn [bind t_type parent_insert t_parent t_index]. now rewrite insert_nth_end.
    + cbn [local_target]. assert (D : dmem k m = false) by now apply dmem_false. rewrite D. cbn. now rewrite dset_new.
    + cbn [local_target]. apply jwf_NoDup, NoDup_split in W as [N _]. unfold dmem. rewrite dget_at by auto. cbn.
      now rewrite dset_at.
Qed.

Lemma local_remove_spec P k P' : jwf P = true -> (local_remove P k = Ok P' <-> removes int_reading k P P').
Proof.
  intro W. unfold local_remove. split.
  - intro H. destruct (local_target P k) as [t|e|] eqn:T; cbn [bind] in H; try discriminate.
    destruct P as [|b|x|s|l|m]; cbn [local_target] in T; try discriminate.
    + apply seq_target_spec in T as [[-> _] | (i & _ & -> & _)]; discriminate.
    + apply seq_target_spec in T as [[-> K] | (i & L & -> & K)]; cbn in H; [discriminate|]. injection H as <-.
      destruct (cut_nth l i) as (l1 & x & l2 & -> & <-); [lia|]. rewrite remove_nth_at. now apply removes_item.
    + injection T as <-. cbn [t_type] in H. destruct (dmem k m) eqn:D; cbn in H; [|discriminate]. injection H as <-.
      apply dmem_split in D as (m1 & x & m2 & -> & N). rewrite ddel_at by auto. constructor.
  - intro H. revert W. destruct H as [l1 x l2 K|m1 x m2]; intro W; cbn [local_target].
    + assert (E : seq_target (JArr (l1 ++ x :: l2)) (length (l1 ++ x :: l2)) k =
                    Ok (mkTarget ARRAY_ITEM (JArr (l1 ++ x :: l2)) (PIndex (length l1)))).
      { apply seq_target_spec. right. exists (length l1). rewrite app_length. simpl. split; [lia|auto]. }
      rewrite E. cbn. now rewrite remove_nth_at.
    + apply jwf_NoDup, NoDup_split in W as [N _]. unfold dmem. rewrite dget_at by auto. cbn. now rewrite ddel_at.
Qed.

Lemma local_replace_spec P k v P' : jwf P = true -> (local_replace P k v = Ok P' <-> replaces int_reading k v P P').
Proof.
  intro W. unfold local_replace. split.
  - intro H. destruct (local_target P k) as [t|e|] eqn:T; cbn [bind] in H; try discriminate.
    destruct P as [|b|x|s|l|m]; cbn [local_target] in T; try discriminate.
    + apply seq_target_spec in T as [[-> _] | (i & _ & -> & _)]; discriminate.
    + apply seq_target_spec in T as [[-> K] | (i & L & -> & K)]; cbn in H; [discriminate|]. injection H as <-.
      destruct (cut_nth l i) as (l1 & x & l2 & -> & <-); [lia|]. rewrite update_nth_at. now apply replaces_item.
    + injection T as <-. cbn [t_type] in H. destruct (dmem k m) eqn:D; cbn in H; [|discriminate]. injection H as <-.
      apply dmem_split in D as (m1 & x & m2 & -> & N). rewrite dset_at by auto. constructor.
  - intro H. revert W. destruct H as [l1 x l2 K|m1 x m2]; intro W; cbn [local_target].
    + assert (E : seq_target (JArr (l1 ++ x :: l2)) (length (l1 ++ x :: l2)) k =
                    Ok (mkTarget ARRAY_ITEM (JArr (l1 ++ x :: l2)) (PIndex (length l1)))).
      { apply seq_target_spec. right. exists (length l1). rewrite app_length. simpl. split; [lia|auto]. }
      rewrite E. cbn. now rewrite update_nth_at.
    + apply jwf_NoDup, NoDup_split in W as [N _]. unfold dmem. rewrite dget_at by auto. cbn. now rewrite dset_at.
Qed.

(** ** At the end of a path *)
Lemma eval_plain_jwf q : forall d P, jwf d = true -> eval_plain q d = Ok P -> jwf P = true.
Proof.
  induction q as [|k q IH]; intros d P W E.
  - injection E as <-. auto.
  - destruct (child_dec d k W) as [(v & _ & Wv & Ev & _) | [_ Ev]]; rewrite Ev in E; [eauto|discriminate].
Qed.

Lemma at_parent_spec (f : json -> res json) (R : json -> json -> Prop) d q d' : jwf d = true ->
  (forall P P', jwf P = true -> (f P = Ok P' <-> R P P')) ->
  (at_parent d q f = Ok d' <-> edited R q d d').
Proof.
  intros W H. unfold at_parent. split.
  - intro E. destruct (eval_plain q d) as [P|e|] eqn:EP; cbn [as_patch_error bind] in E.
    + destruct (f P) as [P'|e|] eqn:F; cbn [bind] in E; try discriminate. injection E as <-.
      apply edited_update with (P := P); auto. apply H; auto. eapply eval_plain_jwf; eauto.
    + destruct (is_pointer_error e); discriminate.
    + discriminate.
  - intro E. destruct (edited_eval _ _ _ _ E W) as (P & P' & EP & HR & ->).
    pose proof (eval_plain_jwf _ _ _ W EP) as WP. rewrite EP. cbn [as_patch_error bind].
    apply (H _ _ WP) in HR. rewrite HR. reflexivity.
Qed.

Lemma snoc_inj {A} (q q' : list A) k k' : q ++ [k] = q' ++ [k'] -> q = q' /\ k = k'.
Proof. apply app_inj_tail. Qed.

Lemma p_add_exact d p v d' : jwf d = true -> (p_add d p v = Ok d' <-> spec_add int_reading p v d d').
Proof.
  intro W. unfold spec_add. destruct (path_cases p) as [-> | (q & k & ->)].
  - cbn. split; [intros [= ->]; auto|]. intros [[_ ->] | (q & k & E & _)]; auto. destruct q; discriminate.
  - rewrite p_add_snoc, (at_parent_spec _ (adds int_reading k v)); auto using local_add_spec. split; [eauto|].
    intros [[E _] | (q' & k' & E & H)]; [destruct q; discriminate|]. apply snoc_inj in E as [-> ->]. auto.
Qed.
Lemma p_remove_exact d p d' : jwf d = true -> (p_remove d p = Ok d' <-> spec_remove int_reading p d d').
Proof.
  intro W. unfold spec_remove. destruct (path_cases p) as [-> | (q & k & ->)].
  - cbn. split; [intros [= ->]; auto|]. intros [[_ ->] | (q & k & E & _)]; auto. destruct q; discriminate.
  - rewrite p_remove_snoc, (at_parent_spec _ (removes int_reading k)); auto using local_remove_spec. split; [eauto|].
    intros [[E _] | (q' & k' & E & H)]; [destruct q; discriminate|]. apply snoc_inj in E as [-> ->]. auto.
Qed.
Lemma p_replace_exact d p v d' : jwf d = true -> (p_replace d p v = Ok d' <-> spec_replace int_reading p v d d').
Proof.
  intro W. unfold spec_replace. destruct (path_cases p) as [-> | (q & k & ->)].
  - cbn. split; [intros [= ->]; auto|]. intros [[_ ->] | (q & k & E & _)]; auto. destruct q; discriminate.
  - rewrite p_replace_snoc, (at_parent_spec _ (replaces int_reading k v)); auto using local_replace_spec. split; [eauto|].
    intros [[E _] | (q' & k' & E & H)]; [destruct q; discriminate|]. apply snoc_inj in E as [-> ->]. auto.
Qed.

(** ** Well-formedness is kept *)
Lemma jwf_arr_app l1 x l2 : jwf (JArr (l1 ++ x :: l2)) = true <->
  Forall (fun v => jwf v = true) l1 /\ jwf x = true /\ Forall (fun v => jwf v = true) l2.
Proof. rewrite jwf_arr, Forall_app, Forall_cons_iff. tauto. Qed.
Lemma jwf_obj_app m1 k x m2 : jwf (JObj (m1 ++ (k, x) :: m2)) = true <->
  NoDup (keys (m1 ++ (k, x) :: m2)) /\ Forall (fun kv => jwf (snd kv) = true) m1 /\ jwf x = true /\
  Forall (fun kv => jwf (snd kv) = true) m2.
Proof. rewrite jwf_obj, Forall_app, Forall_cons_iff. simpl. tauto. Qed.
Lemma keys_app_same {A} m1 k (x y : A) m2 : keys (m1 ++ (k, x) :: m2) = keys (m1 ++ (k, y) :: m2).
Proof. unfold keys. rewrite !map_app. reflexivity. Qed.

Lemma edited_jwf (R : json -> json -> Prop) q d d' : edited R q d d' -> jwf d = true ->
  (forall P P', R P P' -> jwf P = true -> jwf P' = true) -> jwf d' = true.
Proof.
  intros H W K. induction H as [d d' H|k p m1 x x' m2 H IH|k p l1 x x' l2 T L H IH]; [eauto| |].
  - apply jwf_obj_app in W as (N & W1 & Wx & W2). apply jwf_obj_app. rewrite (keys_app_same m1 k x' x m2). auto.
  - apply jwf_arr_app in W as (W1 & Wx & W2). apply jwf_arr_app. auto.
Qed.
Lemma adds_jwf r k v P P' : adds r k v P P' -> jwf v = true -> jwf P = true -> jwf P' = true.
Proof.
  intros H Wv. destruct H as [l1 l2 K|l ->|m N|m1 x m2]; intro W.
  - apply jwf_arr in W. apply Forall_app in W as [W1 W2]. apply jwf_arr_app. auto.
  - apply jwf_arr in W. apply jwf_arr_app. auto.
  - apply jwf_obj in W as [ND W]. apply jwf_obj_app. split; [|auto]. unfold keys. rewrite map_app. simpl.
    now apply NoDup_app_single.
  - apply jwf_obj_app in W as (N & W1 & Wx & W2). apply jwf_obj_app. rewrite (keys_app_same m1 k v x m2). auto.
Qed.
Lemma removes_jwf r k P P' : removes r k P P' -> jwf P = true -> jwf P' = true.
Proof.
  intros H. destruct H as [l1 x l2 K|m1 x m2]; intro W.
  - apply jwf_arr_app in W as (W1 & Wx & W2). apply jwf_arr, Forall_app. auto.
  - apply jwf_obj_app in W as (N & W1 & Wx & W2). apply jwf_obj. split; [|apply Forall_app; auto].
    unfold keys in *. rewrite map_app in *. simpl in N. now apply NoDup_remove_1 in N.
Qed.
Lemma replaces_jwf r k v P P' : replaces r k v P P' -> jwf v = true -> jwf P = true -> jwf P' = true.
Proof.
  intros H Wv. destruct H as [l1 x l2 K|m1 x m2]; intro W.
  - apply jwf_arr_app in W as (W1 & Wx & W2). apply jwf_arr_app. auto.
  - apply jwf_obj_app in W as (N & W1 & Wx & W2). apply jwf_obj_app. rewrite (keys_app_same m1 k v x m2). auto.
Qed.
Lemma spec_add_jwf r p v d d' : spec_add r p v d d' -> jwf d = true -> jwf v = true -> jwf d' = true.
Proof.
  intros [[-> ->] | (q & k & -> & H)] W Wv; auto. eapply edited_jwf; eauto. intros. eapply adds_jwf; eauto.
Qed.
Lemma spec_remove_jwf r p d d' : spec_remove r p d d' -> jwf d = true -> jwf d' = true.
Proof.
  intros [[-> ->] | (q & k & -> & H)] W; auto. eapply edited_jwf; eauto. intros. eapply removes_jwf; eauto.
Qed.
Lemma spec_replace_jwf r p v d d' : spec_replace r p v d d' -> jwf d = true -> jwf v = true -> jwf d' = true.
Proof.
  intros [[-> ->] | (q & k & -> & H)] W Wv; auto. eapply edited_jwf; eauto. intros. eapply replaces_jwf; eauto.
Qed.
Lemma refers_jwf d p v : jwf d = true -> refers d p v -> jwf v = true.
Proof. intros W H. apply (eval_plain_refers _ _ _ W) in H. eapply eval_plain_jwf; eauto. Qed.

(** ** Relations between readings *)
Lemma edited_mono (R R' : json -> json -> Prop) q d d' : (forall P P', R P P' -> R' P P') -> edited R q d d' -> edited R' q d d'.
Proof. intros K H. induction H; constructor; auto. Qed.
Lemma edited_mono_at (R R' : json -> json -> Prop) q d d' : jwf d = true ->
  (forall P P', refers d q P -> R P P' -> R' P P') -> edited R q d d' -> edited R' q d d'.
Proof.
  intros W K H. revert W K. induction H as [d d' H|k p m1 x x' m2 H IH|k p l1 x x' l2 T L H IH]; intros W K.
  - constructor. apply K; auto. constructor.
  - constructor. apply jwf_obj_app in W as (N & W1 & Wx & W2). apply IH; auto. intros P P' F. apply K.
    econstructor; eauto. constructor. apply in_elt.
  - constructor; auto. apply jwf_arr_app in W as (W1 & Wx & W2). apply IH; auto. intros P P' F. apply K.
    econstructor; eauto. constructor; auto. rewrite L. apply nth_error_at.
Qed.
Lemma adds_mono (r r' : token_reading) k v P P' : (forall i, r k i -> r' k i) -> adds r k v P P' -> adds r' k v P P'.
Proof. intros K []; constructor; auto. Qed.
Lemma removes_mono (r r' : token_reading) k P P' : (forall i, r k i -> r' k i) -> removes r k P P' -> removes r' k P P'.
Proof. intros K []; constructor; auto. Qed.
Lemma replaces_mono (r r' : token_reading) k v P P' : (forall i, r k i -> r' k i) -> replaces r k v P P' -> replaces r' k v P P'.
Proof. intros K []; constructor; auto. Qed.

Lemma rfc_add_int p v d d' : rfc_add p v d d' -> spec_add int_reading p v d d'.
Proof.
  intros [H | (q & k & -> & H)]; [left; auto|]. right. exists q, k. split; auto.
  refine (edited_mono _ _ _ _ _ _ H). intros P P'. apply adds_mono. apply rfc_int_reading.
Qed.
Lemma rfc_remove_int p d d' : rfc_remove p d d' -> spec_remove int_reading p d d'.
Proof.
  intros [H | (q & k & -> & H)]; [left; auto|]. right. exists q, k. split; auto.
  refine (edited_mono _ _ _ _ _ _ H). intros P P'. apply removes_mono. apply rfc_int_reading.
Qed.
Lemma rfc_replace_int p v d d' : rfc_replace p v d d' -> spec_replace int_reading p v d d'.
Proof.
  intros [H | (q & k & -> & H)]; [left; auto|]. right. exists q, k. split; auto.
  refine (edited_mono _ _ _ _ _ _ H). intros P P'. apply replaces_mono. apply rfc_int_reading.
Qed.

Lemma int_add_rfc p v d d' : jwf d = true -> token_ok d p -> spec_add int_reading p v d d' -> rfc_add p v d d'.
Proof.
  intros W T [H | (q & k & -> & H)]; [left; auto|]. right. exists q, k. split; auto.
  refine (edited_mono_at _ _ _ _ _ W _ H). intros P P' F A. destruct A as [l1 l2 K|l ->|m N|m1 x m2]; try (constructor; auto; fail).
  destruct (T q k _ eq_refl F) as [-> | Tk]; [apply dash_not_int in K; congruence|].
  apply adds_item. now apply int_rfc_reading.
Qed.
Lemma int_remove_rfc p d d' : jwf d = true -> token_ok d p -> spec_remove int_reading p d d' -> rfc_remove p d d'.
Proof.
  intros W T [H | (q & k & -> & H)]; [left; auto|]. right. exists q, k. split; auto.
  refine (edited_mono_at _ _ _ _ _ W _ H). intros P P' F A. destruct A as [l1 x l2 K|m1 x m2]; try (constructor; auto; fail).
  destruct (T q k _ eq_refl F) as [-> | Tk]; [apply dash_not_int in K; congruence|].
  apply removes_item. now apply int_rfc_reading.
Qed.
Lemma int_replace_rfc p v d d' : jwf d = true -> token_ok d p -> spec_replace int_reading p v d d' -> rfc_replace p v d d'.
Proof.
  intros W T [H | (q & k & -> & H)]; [left; auto|]. right. exists q, k. split; auto.
  refine (edited_mono_at _ _ _ _ _ W _ H). intros P P' F A. destruct A as [l1 x l2 K|m1 x m2]; try (constructor; auto; fail).
  destruct (T q k _ eq_refl F) as [-> | Tk]; [apply dash_not_int in K; congruence|].
  apply replaces_item. now apply int_rfc_reading.
Qed.

(** ** Frame *)
Lemma index_text_inj k k' : rfc_index_text k -> rfc_index_text k' -> digits_value k = digits_value k' -> k = k'.
Proof. intros T T' E. rewrite (index_text_print k T), (index_text_print k' T'). now rewrite E. Qed.

Lemma child_fun d k x y : jwf d = true -> child d k x -> child d k y -> x = y.
Proof.
  intros W X Y. destruct (child_dec d k W) as [(v & _ & _ & _ & U) | [N _]]; [|destruct (N _ X)].
  rewrite (U _ X), (U _ Y). auto.
Qed.

Lemma is_prefix_cons (k : pystr) p q : is_prefix (k :: p) (k :: q) <-> is_prefix p q.
Proof. unfold is_prefix. split; intros (r & E); exists r; [injection E as ->|rewrite E]; auto. Qed.

Lemma nth_error_mid {A} (l1 : list A) x y l2 n : n <> length l1 -> nth_error (l1 ++ x :: l2) n = nth_error (l1 ++ y :: l2) n.
Proof.
  intro N. destruct (Nat.lt_ge_cases n (length l1)).
  - now rewrite !nth_error_app1.
  - rewrite !nth_error_app2 by lia. destruct (n - length l1) eqn:E; [lia|]. reflexivity.
Qed.

Lemma refers_cons_child d k q y : refers d (k :: q) y <-> exists c, child d k c /\ refers c q y.
Proof. split; [intro H; inversion H; subst; eauto|intros (c & C & H); econstructor; eauto]. Qed.

Lemma edited_frame (R : json -> json -> Prop) q d d' : edited R q d d' -> jwf d = true -> jwf d' = true ->
  forall loc y, ~ is_prefix q loc -> ~ is_prefix loc q -> (refers d loc y <-> refers d' loc y).
Proof.
  induction 1 as [d d' H|k p m1 x x' m2 H IH|k p l1 x x' l2 T L H IH]; intros W W' loc y N1 N2.
  - destruct N1. exists loc. auto.
  - destruct loc as [|k' loc]; [destruct N2; eexists; reflexivity|]. rewrite !refers_cons_child.
    destruct (str_eq_dec k' k) as [->|NK].
    + rewrite is_prefix_cons in N1, N2.
      assert (C : child (JObj (m1 ++ (k, x) :: m2)) k x) by (constructor; apply in_elt).
      assert (C' : child (JObj (m1 ++ (k, x') :: m2)) k x') by (constructor; apply in_elt).
      apply jwf_obj_app in W as V. destruct V as (_ & _ & Wx & _). apply jwf_obj_app in W' as V. destruct V as (_ & _ & Wx' & _).
      split; intros (c & Cc & F).
      * rewrite <- (child_fun _ _ _ _ W C Cc) in F. exists x'. split; auto. now apply IH.
      * rewrite <- (child_fun _ _ _ _ W' C' Cc) in F. exists x. split; auto. now apply IH.
    + split; intros (c & Cc & F); exists c; split; auto; inversion Cc as [m k2 v I|]; subst; constructor;
        apply in_app_iff in I as [I|[I|I]]; try (injection I; congruence); apply in_app_iff; simpl; auto.
  - destruct loc as [|k' loc]; [destruct N2; eexists; reflexivity|]. rewrite !refers_cons_child.
    destruct (str_eq_dec k' k) as [->|NK].
    + rewrite is_prefix_cons in N1, N2.
      assert (C : child (JArr (l1 ++ x :: l2)) k x) by (constructor; auto; rewrite L; apply nth_error_at).
      assert (C' : child (JArr (l1 ++ x' :: l2)) k x') by (constructor; auto; rewrite L; apply nth_error_at).
      apply jwf_arr_app in W as V. destruct V as (_ & Wx & _). apply jwf_arr_app in W' as V. destruct V as (_ & Wx' & _).
      split; intros (c & Cc & F).
      * rewrite <- (child_fun _ _ _ _ W C Cc) in F. exists x'. split; auto. now apply IH.
      * rewrite <- (child_fun _ _ _ _ W' C' Cc) in F. exists x. split; auto. now apply IH.
    + split; intros (c & Cc & F); exists c; split; auto; inversion Cc as [|l k2 v T' I]; subst; constructor; auto;
        rewrite <- I; apply nth_error_mid; rewrite <- L; intro E; apply N2Nat.inj in E;
        apply NK, index_text_inj; auto.
Qed.

Lemma edited_inside (R : json -> json -> Prop) q d d' : edited R q d d' ->
  exists P P', refers d q P /\ refers d' q P' /\ R P P'.
Proof.
  induction 1 as [d d' H|k p m1 x x' m2 H IH|k p l1 x x' l2 T L H IH].
  - exists d, d'. repeat split; auto; constructor.
  - destruct IH as (P & P' & F & F' & HR). exists P, P'. repeat split; auto; econstructor; eauto; constructor; apply in_elt.
  - destruct IH as (P & P' & F & F' & HR). exists P, P'. repeat split; auto; econstructor; eauto; constructor; auto;
      rewrite L; apply nth_error_at.
Qed.

Lemma refers_app d p m q y : refers d p m -> refers m q y -> refers d (p ++ q) y.
Proof. intros H. revert q y. induction H; intros; simpl; auto. econstructor; eauto. Qed.
Lemma refers_split d p q y : refers d (p ++ q) y -> exists m, refers d p m /\ refers m q y.
Proof.
  revert d. induction p as [|k p IH]; intros d H; [exists d; split; auto; constructor|].
  inversion H; subst. match goal with X : refers _ (p ++ q) _ |- _ => destruct (IH _ X) as (m & A & B) end.
  exists m. split; auto. econstructor; eauto.
Qed.
Lemma refers_fun d p x y : jwf d = true -> refers d p x -> refers d p y -> x = y.
Proof. intros W X Y. apply (eval_plain_refers _ _ _ W) in X. apply (eval_plain_refers _ _ _ W) in Y. congruence. Qed.

(** ** Undoing *)
Lemma edited_flip (R R' : json -> json -> Prop) q d d' : jwf d = true ->
  (forall P P', jwf P = true -> refers d q P -> R P P' -> R' P' P) -> edited R q d d' -> edited R' q d' d.
Proof.
  intros W K H. revert W K. induction H as [d d' H|k p m1 x x' m2 H IH|k p l1 x x' l2 T L H IH]; intros W K.
  - constructor. apply K; auto. constructor.
  - constructor. apply jwf_obj_app in W as (N & W1 & Wx & W2). apply IH; auto. intros P P' WP F. apply K; auto.
    econstructor; eauto. constructor. apply in_elt.
  - constructor; auto. apply jwf_arr_app in W as (W1 & Wx & W2). apply IH; auto. intros P P' WP F. apply K; auto.
    econstructor; eauto. constructor; auto. rewrite L. apply nth_error_at.
Qed.

Lemma reordered_members m1 k x x' m2 : reordered x x' -> reordered (JObj (m1 ++ (k, x) :: m2)) (JObj (m1 ++ (k, x') :: m2)).
Proof.
  intro H. eapply re_obj; [apply Permutation_refl|]. apply Forall2_app; [|constructor; [auto|]].
  - induction m1; constructor; auto. split; auto. constructor.
  - induction m2; constructor; auto. split; auto. constructor.
Qed.
Lemma reordered_items l1 x x' l2 : reordered x x' -> reordered (JArr (l1 ++ x :: l2)) (JArr (l1 ++ x' :: l2)).
Proof.
  intro H. apply re_arr. apply Forall2_app; [|constructor; [auto|]].
  - induction l1; constructor; auto. constructor.
  - induction l2; constructor; auto. constructor.
Qed.

Lemma edited_two_steps (R R1 R2 : json -> json -> Prop) q d d1 : edited R q d d1 -> jwf d = true ->
  (forall P P1, jwf P = true -> R P P1 -> exists P2 P3, R1 P P2 /\ R2 P2 P3 /\ reordered P1 P3) ->
  exists d2 d3, edited R1 q d d2 /\ edited R2 q d2 d3 /\ reordered d1 d3.
Proof.
  induction 1 as [d d' H|k p m1 x x' m2 H IH|k p l1 x x' l2 T L H IH]; intros W K.
  - destruct (K _ _ W H) as (P2 & P3 & A & B & C). exists P2, P3. repeat split; auto; now constructor.
  - apply jwf_obj_app in W as (N & W1 & Wx & W2). destruct (IH Wx K) as (x2 & x3 & A & B & C).
    exists (JObj (m1 ++ (k, x2) :: m2)), (JObj (m1 ++ (k, x3) :: m2)).
    split; [now constructor|]. split; [now constructor|]. now apply reordered_members.
  - apply jwf_arr_app in W as (W1 & Wx & W2). destruct (IH Wx K) as (x2 & x3 & A & B & C).
    exists (JArr (l1 ++ x2 :: l2)), (JArr (l1 ++ x3 :: l2)).
    split; [now constructor|]. split; [now constructor|]. now apply reordered_items.
Qed.

Lemma Forall2_refl_re (m : list (pystr * json)) : Forall2 (fun a b => fst a = fst b /\ reordered (snd a) (snd b)) m m.
Proof. induction m; constructor; auto. split; auto. constructor. Qed.

Lemma replace_two_steps r k v P P1 : jwf P = true -> replaces r k v P P1 ->
  exists P2 P3, removes r k P P2 /\ adds r k v P2 P3 /\ reordered P1 P3.
Proof.
  intros W H. destruct H as [l1 x l2 K|m1 x m2].
  - exists (JArr (l1 ++ l2)), (JArr (l1 ++ v :: l2)). repeat split; try constructor; auto.
  - apply jwf_obj_app in W as (N & _). apply NoDup_split in N as [N1 N2].
    exists (JObj (m1 ++ m2)), (JObj ((m1 ++ m2) ++ [(k, v)])).
    split; [constructor|]. split.
    + apply adds_new. rewrite map_app, in_app_iff. unfold keys in *. tauto.
    + eapply re_obj with (m1 := (m1 ++ m2) ++ [(k, v)]).
      * rewrite <- app_assoc. apply Permutation_app_head. apply Permutation_cons_append.
      * apply Forall2_refl_re.
Qed.

(** ** Locations inside the parent *)
Lemma index_text_nat n : rfc_index_text (str_of_nat n) /\ N.to_nat (digits_value (str_of_nat n)) = n.
Proof.
  assert (T : rfc_index_text (str_of_nat n)) by (apply index_match_rfc, index_match, str_of_N_canonical).
  split; auto. pose proof (index_digits_val _ T) as V. rewrite py_int_str_of_nat in V. injection V as V. lia.
Qed.
Lemma child_nat l n x : child (JArr l) (str_of_nat n) x <-> nth_error l n = Some x.
Proof.
  destruct (index_text_nat n) as [T V]. split.
  - intro C. inversion C as [|l' k v T' I]; subst. now rewrite V in I.
  - intro H. constructor; auto. now rewrite V.
Qed.
Lemma refers_nat l n r y : refers (JArr l) (str_of_nat n :: r) y <-> exists c, nth_error l n = Some c /\ refers c r y.
Proof.
  rewrite refers_cons_child. split; intros (c & C & F); exists c; split; auto; now apply child_nat.
Qed.
Lemma refers_member m k r y : refers (JObj m) (k :: r) y <-> exists c, In (k, c) m /\ refers c r y.
Proof.
  rewrite refers_cons_child. split; intros (c & C & F); exists c; split; auto; [inversion C; auto|constructor; auto].
Qed.
Lemma refers_at d q P r y : jwf d = true -> refers d q P -> (refers d (q ++ r) y <-> refers P r y).
Proof.
  intros W F. split.
  - intro H. apply refers_split in H as (m & A & B). now rewrite (refers_fun _ _ _ _ W F A).
  - intro H. eapply refers_app; eauto.
Qed.

Lemma edited_inside_of (R : json -> json -> Prop) d q P P' : jwf d = true -> eval_plain q d = Ok P -> R P P' ->
  refers (update_at q P' d) q P'.
Proof.
  intros W E H. assert (X : edited (fun a b => a = P /\ b = P') q d (update_at q P' d)).
  { apply edited_update with (P := P); auto. }
  apply edited_inside in X as (A & B & _ & F & _ & ->). exact F.
Qed.

(** [d] and [d'] agree at all locations not comparable with [q]. *)
Definition agree_off (q : pointer) (d d' : json) : Prop :=
  forall loc y, ~ is_prefix q loc -> ~ is_prefix loc q -> (refers d loc y <-> refers d' loc y).

Lemma nth_ins_lt {A} (l1 l2 : list A) v j : j < length l1 -> nth_error (l1 ++ v :: l2) j = nth_error (l1 ++ l2) j.
Proof. intro H. now rewrite !nth_error_app1. Qed.
Lemma nth_ins_ge {A} (l1 l2 : list A) v j : length l1 <= j -> nth_error (l1 ++ v :: l2) (S j) = nth_error (l1 ++ l2) j.
Proof. intro H. rewrite !nth_error_app2 by lia. replace (S j - length l1) with (S (j - length l1)) by lia. reflexivity. Qed.

Lemma add_inside d q k v d' : jwf d = true -> jwf v = true -> p_add d (q ++ [k]) v = Ok d' ->
  jwf d' = true /\ agree_off q d d' /\
  exists P P', refers d q P /\ refers d' q P' /\ adds int_reading k v P P'.
Proof.
  intros W Wv H. apply p_add_exact in H; auto. assert (W' : jwf d' = true) by (eapply spec_add_jwf; eauto).
  destruct H as [[E _] | (q2 & k2 & E & H)]; [destruct q; discriminate|]. apply snoc_inj in E as [<- <-].
  split; auto. split; [intros loc y; eapply edited_frame; eauto|]. now apply edited_inside.
Qed.
Lemma remove_inside d q k d' : jwf d = true -> p_remove d (q ++ [k]) = Ok d' ->
  jwf d' = true /\ agree_off q d d' /\
  exists P P', refers d q P /\ refers d' q P' /\ removes int_reading k P P'.
Proof.
  intros W H. apply p_remove_exact in H; auto. assert (W' : jwf d' = true) by (eapply spec_remove_jwf; eauto).
  destruct H as [[E _] | (q2 & k2 & E & H)]; [destruct q; discriminate|]. apply snoc_inj in E as [<- <-].
  split; auto. split; [intros loc y; eapply edited_frame; eauto|]. now apply edited_inside.
Qed.
Lemma replace_inside d q k v d' : jwf d = true -> jwf v = true -> p_replace d (q ++ [k]) v = Ok d' ->
  jwf d' = true /\ agree_off q d d' /\
  exists P P', refers d q P /\ refers d' q P' /\ replaces int_reading k v P P'.
Proof.
  intros W Wv H. apply p_replace_exact in H; auto. assert (W' : jwf d' = true) by (eapply spec_replace_jwf; eauto).
  destruct H as [[E _] | (q2 & k2 & E & H)]; [destruct q; discriminate|]. apply snoc_inj in E as [<- <-].
  split; auto. split; [intros loc y; eapply edited_frame; eauto|]. now apply edited_inside.
Qed.

Lemma In_mid {A} (l1 l2 : list A) a x : In a (l1 ++ x :: l2) <-> a = x \/ In a (l1 ++ l2).
Proof. rewrite !in_app_iff. simpl. intuition. Qed.

(** ** From an RFC location to its target *)
Lemma refers_target d p x : jwf d = true -> refers d p x ->
  exists t, mk_target d p = Ok t /\ (t_type t = ROOT \/ t_type t = ARRAY_ITEM \/ t_type t = OBJECT_PROPERTY).
Proof.
  intros W F. destruct (path_cases p) as [-> | (q & k & ->)].
  - exists (mkTarget ROOT JNull PNone). auto.
  - apply refers_split in F as (P & F & G). rewrite mk_target_snoc.
    apply (eval_plain_refers _ _ _ W) in F as E. rewrite E. cbn [as_patch_error bind].
    apply refers_cons_child in G as (c & C & _). destruct C as [m k v I|l k v T I].
    + cbn [local_target]. rewrite (proj2 (dmem_In k m)) by (now apply (in_map fst) in I). eexists. split; [reflexivity|]. simpl. auto.
    + cbn [local_target]. eexists. split.
      * apply seq_target_spec. right. exists (N.to_nat (digits_value k)). split; [|split; [reflexivity|]].
        -- apply nth_error_Some. congruence.
        -- unfold int_reading. now apply index_digits_val.
      * simpl. auto.
Qed.

Lemma refers_token_ok d p x : jwf d = true -> refers d p x -> token_ok d p.
Proof.
  intros W F q k l -> G. apply refers_split in F as (P & F & H).
  rewrite (refers_fun _ _ _ _ W F G) in H. apply refers_cons_child in H as (c & C & _). inversion C; auto.
Qed.
Lemma refers_parent_ok d p x : jwf d = true -> refers d p x -> parent_ok d p.
Proof.
  intros W F q k v -> G. apply refers_split in F as (P & F & H).
  rewrite (refers_fun _ _ _ _ W F G) in H. apply refers_cons_child in H as (c & C & _). inversion C; eauto.
Qed.

Lemma eval_from_ok d f v : jwf d = true -> (eval_from d f = Ok v <-> exists g, f = Some g /\ refers d g v).
Proof.
  intro W. unfold eval_from. destruct f as [f|]; [|split; [discriminate|intros (g & E & _); discriminate]].
  split.
  - intro H. exists f. split; auto. apply (eval_plain_refers _ _ _ W). destruct (eval_plain f d) as [x|e|]; cbn in H; auto.
    destruct (is_pointer_error e); discriminate.
  - intros (g & [= <-] & F). apply (eval_plain_refers _ _ _ W) in F. now rewrite F.
Qed.

Lemma p_move_exact d p f d' : jwf d = true ->
  (p_move d p f = Ok d' <-> exists g v d1, f = Some g /\ refers d g v /\ rfc_remove g d d1 /\ spec_add int_reading p v d1 d').
Proof.
  intro W. unfold p_move. split.
  - intro H. destruct (eval_from d f) as [v|e|] eqn:E; try discriminate. apply eval_from_ok in E as (g & -> & F); auto.
    cbn [bind] in H. destruct (p_remove d g) as [d1|e|] eqn:R; try discriminate. cbn [bind] in H.
    apply p_remove_exact in R; auto. assert (W1 : jwf d1 = true) by (eapply spec_remove_jwf; eauto).
    exists g, v, d1. split; auto. split; auto. split; [eapply int_remove_rfc; eauto; eapply refers_token_ok; eauto|].
    now apply p_add_exact.
  - intros (g & v & d1 & -> & F & R & A). rewrite (proj2 (eval_from_ok d (Some g) v W)) by eauto. cbn [bind].
    apply rfc_remove_int in R. assert (W1 : jwf d1 = true) by (eapply spec_remove_jwf; eauto).
    rewrite (proj2 (p_remove_exact d g d1 W)) by auto. cbn [bind]. now apply p_add_exact.
Qed.
Lemma p_copy_exact d p f d' : jwf d = true ->
  (p_copy d p f = Ok d' <-> exists g v, f = Some g /\ refers d g v /\ spec_add int_reading p v d d').
Proof.
  intro W. unfold p_copy. split.
  - intro H. destruct (eval_from d f) as [v|e|] eqn:E; try discriminate. apply eval_from_ok in E as (g & -> & F); auto.
    cbn [bind] in H. apply p_add_exact in H; eauto.
  - intros (g & v & -> & F & A). rewrite (proj2 (eval_from_ok d (Some g) v W)) by eauto. cbn [bind]. now apply p_add_exact.
Qed.
Lemma p_test_exact d p v d' : jwf d = true -> jwf v = true -> (p_test d p v = Ok d' <-> rfc_test p v d d').
Proof.
  intros W Wv. unfold p_test, rfc_test. split.
  - intro H. destruct (mk_target d p) as [t|e|]; try discriminate. cbn [bind] in H.
    assert (K : (let* found := eval_plain p d in if json_eqb found v then Ok d else Exn EPatch) = Ok d')
      by (destruct (t_type t); auto; discriminate). clear H.
    destruct (eval_plain p d) as [x|e|] eqn:E; try discriminate. cbn [bind] in K.
    destruct (json_eqb x v) eqn:Q; [|discriminate]. injection K as <-. split; auto. exists x.
    apply (eval_plain_refers _ _ _ W) in E as F. split; auto.
    now apply (json_eqb_jeq x v (refers_jwf _ _ _ W F) Wv).
  - intros (-> & x & F & J). destruct (refers_target d p x W F) as (t & -> & T). cbn [bind].
    apply (eval_plain_refers _ _ _ W) in F as E. rewrite E. cbn [bind].
    rewrite (proj2 (json_eqb_jeq x v (refers_jwf _ _ _ W F) Wv) J). destruct T as [-> |[-> | ->]]; reflexivity.
Qed.

(** ** Exceptions *)
Lemma eval_plain_error p d e : jwf d = true -> eval_plain p d = Exn e -> e = EPointerReference.
Proof.
  revert d. induction p as [|k p IH]; intros d W H; [discriminate|].
  destruct (child_dec d k W) as [(v & _ & Wv & E & _) | [_ E]]; rewrite E in H; eauto. congruence.
Qed.
Lemma eval_plain_total p d : jwf d = true -> eval_plain p d <> Fuel.
Proof.
  revert d. induction p as [|k p IH]; intros d W H; [discriminate|].
  destruct (child_dec d k W) as [(v & _ & Wv & E & _) | [_ E]]; rewrite E in H; [eapply IH; eauto|congruence].
Qed.
Lemma eval_from_result d f : jwf d = true ->
  (exists v, eval_from d (Some f) = Ok v /\ refers d f v) \/ eval_from d (Some f) = Exn EPatch.
Proof.
  intro W. unfold eval_from. destruct (eval_plain f d) as [v|e|] eqn:E.
  - left. exists v. split; auto. now apply (eval_plain_refers _ _ _ W).
  - right. apply eval_plain_error in E as ->; auto.
  - destruct (eval_plain_total f d W E).
Qed.

Definition ok_or {A} (es : list exn) (r : res A) : Prop := (exists a, r = Ok a) \/ exists e, r = Exn e /\ In e es.

Lemma parent_result d q : jwf d = true ->
  (exists P, as_patch_error (eval_plain q d) = Ok P /\ refers d q P) \/ as_patch_error (eval_plain q d) = Exn EPatch.
Proof. exact (eval_from_result d q). Qed.

Lemma at_parent_error es d q (k : pystr) (f : json -> pystr -> res json) : jwf d = true -> In EPatch es ->
  (forall P, refers d q P -> ok_or es (f P k)) -> ok_or es (at_parent d q (fun P => f P k)).
Proof.
  intros W I K. unfold at_parent. destruct (parent_result d q W) as [(P & -> & F) | ->]; cbn [bind].
  - destruct (K P F) as [(a & ->) | (e & -> & J)]; cbn [bind]; [left; eauto|right; eauto].
  - right. eauto.
Qed.

Ltac finish_ok := first [ left; eexists; reflexivity | right; eexists; split; [reflexivity|simpl; tauto] ].
Lemma local_add_error P k v : ok_or [EPatch; EAssertion; EAttribute] (local_add P k v) /\
  ((exists l, P = JArr l) \/ (exists m, P = JObj m) -> ok_or [EPatch] (local_add P k v)).
Proof.
  unfold local_add. destruct P as [|b|x|s|l|m]; cbn [local_target bind];
    try (split; [finish_ok|intros [(z & E) | (z & E)]; discriminate]).
  - split; [|intros [(z & E) | (z & E)]; discriminate].
    destruct (seq_target_error (JStr s) (length s) k) as [(t & E) | E]; rewrite E; cbn [bind]; [|finish_ok].
    apply seq_target_spec in E as [[-> _] | (i & _ & -> & _)]; cbn; finish_ok.
  - destruct (seq_target_error (JArr l) (length l) k) as [(t & E) | E]; rewrite E; cbn [bind]; [|split; intros; finish_ok].
    apply seq_target_spec in E as [[-> _] | (i & _ & -> & _)]; cbn; split; intros; finish_ok.
  - destruct (dmem k m); cbn; split; intros; finish_ok.
Qed.
Lemma local_remove_error P k : ok_or [EPatch; EAssertion; EType] (local_remove P k) /\
  ((exists l, P = JArr l) \/ (exists m, P = JObj m) -> ok_or [EPatch] (local_remove P k)).
Proof.
  unfold local_remove. destruct P as [|b|x|s|l|m]; cbn [local_target bind];
    try (split; [finish_ok|intros [(z & E) | (z & E)]; discriminate]).
  - split; [|intros [(z & E) | (z & E)]; discriminate].
    destruct (seq_target_error (JStr s) (length s) k) as [(t & E) | E]; rewrite E; cbn [bind]; [|finish_ok].
    apply seq_target_spec in E as [[-> _] | (i & _ & -> & _)]; cbn; finish_ok.
  - destruct (seq_target_error (JArr l) (length l) k) as [(t & E) | E]; rewrite E; cbn [bind]; [|split; intros; finish_ok].
    apply seq_target_spec in E as [[-> _] | (i & _ & -> & _)]; cbn; split; intros; finish_ok.
  - destruct (dmem k m); cbn; split; intros; finish_ok.
Qed.
Lemma local_replace_error P k v : ok_or [EPatch; EAssertion; EType] (local_replace P k v) /\
  ((exists l, P = JArr l) \/ (exists m, P = JObj m) -> ok_or [EPatch] (local_replace P k v)).
Proof.
  unfold local_replace. destruct P as [|b|x|s|l|m]; cbn [local_target bind];
    try (split; [finish_ok|intros [(z & E) | (z & E)]; discriminate]).
  - split; [|intros [(z & E) | (z & E)]; discriminate].
    destruct (seq_target_error (JStr s) (length s) k) as [(t & E) | E]; rewrite E; cbn [bind]; [|finish_ok].
    apply seq_target_spec in E as [[-> _] | (i & _ & -> & _)]; cbn; finish_ok.
  - destruct (seq_target_error (JArr l) (length l) k) as [(t & E) | E]; rewrite E; cbn [bind]; [|split; intros; finish_ok].
    apply seq_target_spec in E as [[-> _] | (i & _ & -> & _)]; cbn; split; intros; finish_ok.
  - destruct (dmem k m); cbn; split; intros; finish_ok.
Qed.

Lemma p_add_error d p v : jwf d = true -> ok_or [EPatch; EAssertion; EAttribute] (p_add d p v) /\
  (parent_ok d p -> ok_or [EPatch] (p_add d p v)).
Proof.
  intro W. destruct (path_cases p) as [-> | (q & k & ->)]; [split; intros; left; eexists; reflexivity|].
  rewrite p_add_snoc. split; [|intro K]; apply at_parent_error with (f := fun P k => local_add P k v); simpl; auto; intros P F.
  - apply local_add_error.
  - apply local_add_error. eapply K; eauto.
Qed.
Lemma p_remove_error d p : jwf d = true -> ok_or [EPatch; EAssertion; EType] (p_remove d p) /\
  (parent_ok d p -> ok_or [EPatch] (p_remove d p)).
Proof.
  intro W. destruct (path_cases p) as [-> | (q & k & ->)]; [split; intros; left; eexists; reflexivity|].
  rewrite p_remove_snoc. split; [|intro K]; apply at_parent_error with (f := fun P k => local_remove P k); simpl; auto; intros P F.
  - apply local_remove_error.
  - apply local_remove_error. eapply K; eauto.
Qed.
Lemma p_replace_error d p v : jwf d = true -> ok_or [EPatch; EAssertion; EType] (p_replace d p v) /\
  (parent_ok d p -> ok_or [EPatch] (p_replace d p v)).
Proof.
  intro W. destruct (path_cases p) as [-> | (q & k & ->)]; [split; intros; left; eexists; reflexivity|].
  rewrite p_replace_snoc. split; [|intro K]; apply at_parent_error with (f := fun P k => local_replace P k v); simpl; auto; intros P F.
  - apply local_replace_error.
  - apply local_replace_error. eapply K; eauto.
Qed.

Lemma local_target_error P k : ok_or [EPatch; EAssertion] (local_target P k) /\
  ((exists l, P = JArr l) \/ (exists m, P = JObj m) -> ok_or [EPatch] (local_target P k)).
Proof.
  destruct P as [|b|x|s|l|m]; cbn [local_target];
    try (split; [finish_ok|intros [(z & E) | (z & E)]; discriminate]).
  - split; [|intros [(z & E) | (z & E)]; discriminate].
    destruct (seq_target_error (JStr s) (length s) k) as [(t & E) | E]; rewrite E; finish_ok.
  - destruct (seq_target_error (JArr l) (length l) k) as [(t & E) | E]; rewrite E; split; intros; finish_ok.
  - split; intros; finish_ok.
Qed.
Lemma mk_target_error d p : jwf d = true -> ok_or [EPatch; EAssertion] (mk_target d p) /\
  (parent_ok d p -> ok_or [EPatch] (mk_target d p)).
Proof.
  intro W. destruct (path_cases p) as [-> | (q & k & ->)]; [split; intros; left; eexists; reflexivity|].
  rewrite mk_target_snoc. destruct (parent_result d q W) as [(P & -> & F) | ->]; cbn [bind]; [|split; intros; finish_ok].
  destruct (local_target_error P k) as [A B]. split; auto. intro K. apply B. eapply K; eauto.
Qed.

(** The target exists by the reading of the code, and its token is an RFC
    index: then the second evaluation succeeds too. *)
Lemma target_refers d p t : jwf d = true -> mk_target d p = Ok t -> parent_ok d p -> token_ok d p ->
  t_type t = ROOT \/ t_type t = ARRAY_ITEM \/ t_type t = OBJECT_PROPERTY -> exists x, refers d p x.
Proof.
  intros W H Pk Tk T. destruct (path_cases p) as [-> | (q & k & ->)]; [exists d; constructor|].
  rewrite mk_target_snoc in H. destruct (parent_result d q W) as [(P & E & F) | E]; rewrite E in H; cbn [bind] in H; [|discriminate].
  destruct (Pk q k P eq_refl F) as [(l & ->) | (m & ->)]; cbn [local_target] in H.
  - apply seq_target_spec in H as [[-> _] | (i & L & -> & R)]; [simpl in T; intuition discriminate|].
    destruct (Tk q k l eq_refl F) as [-> | X]; [apply dash_not_int in R; congruence|].
    apply int_rfc_reading in R as [_ ->]; auto. destruct (nth_error l (N.to_nat (digits_value k))) as [c|] eqn:N;
      [|apply nth_error_None in N; lia].
    exists c. eapply refers_app; eauto. econstructor; [constructor; eauto|constructor].
  - injection H as <-. simpl in T. destruct (dmem k m) eqn:D; [|intuition discriminate].
    apply dmem_In in D. apply in_map_iff in D as ((k' & c) & E2 & I). simpl in E2. subst.
    exists c. eapply refers_app; eauto. econstructor; [constructor; eauto|constructor].
Qed.

Lemma p_test_error d p v : jwf d = true -> ok_or [EPatch; EAssertion; EPointerReference] (p_test d p v) /\
  (parent_ok d p -> token_ok d p -> ok_or [EPatch] (p_test d p v)).
Proof.
  intro W. unfold p_test. destruct (mk_target_error d p W) as [A B]. split.
  - destruct A as [(t & ->) | (e & -> & I)]; cbn [bind]; [|right; exists e; split; auto; simpl in *; tauto].
    destruct (t_type t); try finish_ok; (destruct (eval_plain p d) as [x|e|] eqn:E; cbn [bind];
      [destruct (json_eqb x v); finish_ok|apply eval_plain_error in E as ->; auto; finish_ok|destruct (eval_plain_total p d W E)]).
  - intros Pk Tk. destruct (B Pk) as [(t & E) | (e & -> & I)]; [|right; exists e; split; auto]. rewrite E. cbn [bind].
    pose proof (target_refers d p t W E Pk Tk) as R.
    destruct (t_type t); try finish_ok; (destruct R as (x & R); [tauto|]; apply (eval_plain_refers _ _ _ W) in R; rewrite R; cbn [bind];
      destruct (json_eqb x v); finish_ok).
Qed.
