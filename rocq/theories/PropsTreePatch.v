(** Property C17: in-place add, remove and replace on linked documents agree
    with the JSON Patch functions on their values. *)
From Verif Require Import JTreeOps SpecRel RelPointerFacts PatchFacts.
Open Scope nat_scope.

(** ** Locations in the heap and in the value *)
Lemma Forall2_in_l {A B} (R : A -> B -> Prop) l l' x : Forall2 R l l' -> In x l -> exists y, In y l' /\ R x y.
Proof. induction 1 as [|a b l l' H F IH]; simpl; [tauto|]. intros [<-|I]; [eauto|]. destruct (IH I) as (y & ? & ?). eauto. Qed.
Lemma Forall2_in_r {A B} (R : A -> B -> Prop) l l' y : Forall2 R l l' -> In y l' -> exists x, In x l /\ R x y.
Proof. induction 1 as [|a b l l' H F IH]; simpl; [tauto|]. intros [<-|I]; [eauto|]. destruct (IH I) as (x & ? & ?). eauto. Qed.
Lemma Forall2_nth_l {A B} (R : A -> B -> Prop) l l' i x : Forall2 R l l' -> nth_error l i = Some x -> exists y, nth_error l' i = Some y /\ R x y.
Proof. intro F. revert i. induction F; intros [|i]; simpl; try discriminate; [intros [= <-]; eauto|eauto]. Qed.
Lemma Forall2_nth_r {A B} (R : A -> B -> Prop) l l' i y : Forall2 R l l' -> nth_error l' i = Some y -> exists x, nth_error l i = Some x /\ R x y.
Proof. intro F. revert i. induction F; intros [|i]; simpl; try discriminate; [intros [= <-]; eauto|eauto]. Qed.

Lemma child_down h n V k c : denotes h n V -> child V k c -> exists t, child_at h n k t /\ denotes h t c.
Proof.
  intros D C. destruct C as [m k c I|l k c T I].
  - inversion D as [| | | | |? m' kvs E K H]; subst. destruct (denotes_obj_inv _ _ _ _ E D) as (kvs & [= <-] & F).
    destruct (Forall2_in_r _ _ _ _ F I) as ((k' & t) & J & Ek & Dt). simpl in *. subst. exists t. split; auto. econstructor; eauto.
  - inversion D as [| | | |? ids l' E L H|]; subst. destruct (denotes_arr_inv _ _ _ _ E D) as (l' & [= <-] & F).
    destruct (Forall2_nth_r _ _ _ _ _ F I) as (t & J & Dt). exists t. split; auto.
    rewrite (index_text_print k T). econstructor; eauto.
Qed.
Lemma child_up h n V k t : denotes h n V -> child_at h n k t -> exists c, child V k c /\ denotes h t c.
Proof.
  intros D C. destruct C as [ids i t E I|m k t E I].
  - destruct (denotes_arr_inv _ _ _ _ E D) as (l & -> & F). destruct (Forall2_nth_l _ _ _ _ _ F I) as (c & J & Dc).
    exists c. split; auto. now apply child_nat.
  - destruct (denotes_obj_inv _ _ _ _ E D) as (kvs & -> & F). destruct (Forall2_in_l _ _ _ _ F I) as ((k' & c) & J & Ek & Dc).
    simpl in *. subst. exists c. split; auto. now constructor.
Qed.
Lemma refers_located h q : forall n V P, denotes h n V -> refers V q P -> exists t, located h n q t /\ denotes h t P.
Proof.
  induction q as [|k q IH]; intros n V P D F.
  - inversion F; subst. exists n. split; auto. constructor.
  - apply refers_cons_child in F as (c & C & F). destruct (child_down _ _ _ _ _ D C) as (t & Ct & Dt).
    destruct (IH _ _ _ Dt F) as (u & L & Du). exists u. split; auto. eapply located_cons; eauto.
Qed.
Lemma located_refers h n V q t : denotes h n V -> located h n q t -> exists P, refers V q P /\ denotes h t P.
Proof.
  intros D L. induction L as [|p m k c L IH C].
  - exists V. split; auto. constructor.
  - destruct IH as (P & F & Dm). destruct (child_up _ _ _ _ _ Dm C) as (x & Cx & Dx). exists x. split; auto.
    eapply refers_app; eauto. econstructor; eauto. constructor.
Qed.

(** ** Changing the value there *)
Lemma subst_items (f : json -> json) k l1 x l2 : forall i, k = str_of_nat (i + length l1) ->
  (fix go (i : nat) (l : list json) : list json :=
     match l with [] => [] | x :: r => (if str_eqb (str_of_nat i) k then f x else x) :: go (S i) r end) i (l1 ++ x :: l2)
  = l1 ++ f x :: l2.
Proof.
  assert (Later : forall l i, (exists n, k = str_of_nat n /\ n < i) ->
    (fix go (i : nat) (l : list json) : list json :=
     match l with [] => [] | x :: r => (if str_eqb (str_of_nat i) k then f x else x) :: go (S i) r end) i l = l).
  { induction l as [|y l IH]; intros i (n & E & L); auto. rewrite IH by (exists n; split; [auto|lia]).
    destruct (str_eqb (str_of_nat i) k) eqn:Q; auto. apply str_eqb_eq in Q. rewrite E in Q. apply str_of_nat_inj in Q. lia. }
  induction l1 as [|y l1 IH]; intros i E; cbn [app].
  - simpl length in E. rewrite Nat.add_0_r in E. rewrite E at 1. rewrite str_eqb_refl. f_equal. apply Later. exists i. split; auto.
  - rewrite IH by (rewrite E; f_equal; simpl; lia). destruct (str_eqb (str_of_nat i) k) eqn:Q; auto.
    apply str_eqb_eq in Q. rewrite E in Q. apply str_of_nat_inj in Q. simpl in Q. lia.
Qed.
Lemma subst_members (f : json -> json) k m1 x m2 : ~ In k (keys m1) -> ~ In k (keys m2) ->
  map (fun kv => (fst kv, if str_eqb (fst kv) k then f (snd kv) else snd kv)) (m1 ++ (k, x) :: m2) = m1 ++ (k, f x) :: m2.
Proof.
  intros N1 N2. assert (G : forall m, ~ In k (keys m) ->
    map (fun kv => (fst kv, if str_eqb (fst kv) k then f (snd kv) else snd kv)) m = m).
  { induction m as [|[k' v] m IH]; intro N; auto. simpl in *. rewrite IH by tauto.
    rewrite (proj2 (str_eqb_neq k' k)) by tauto. reflexivity. }
  rewrite map_app. cbn [map fst snd]. rewrite !G, str_eqb_refl by auto. reflexivity.
Qed.
Lemma edited_subst (R : json -> json -> Prop) q d d' : edited R q d d' -> jwf d = true ->
  exists P P', refers d q P /\ R P P' /\ d' = subst_at q P' d.
Proof.
  induction 1 as [d d' H|k p m1 x x' m2 H IH|k p l1 x x' l2 T L H IH]; intro W.
  - exists d, d'. repeat split; auto. constructor.
  - pose proof (jwf_NoDup _ W) as ND. apply NoDup_split in ND as [N1 N2]. apply jwf_obj_app in W as (_ & _ & Wx & _).
    destruct (IH Wx) as (P & P' & F & HR & ->). exists P, P'. split; [econstructor; eauto; constructor; apply in_elt|]. split; auto.
    cbn [subst_at]. now rewrite subst_members.
  - apply jwf_arr_app in W as (_ & Wx & _).
    destruct (IH Wx) as (P & P' & F & HR & ->). exists P, P'.
    split; [econstructor; eauto; constructor; auto; rewrite L; apply nth_error_at|]. split; auto.
    cbn [subst_at]. now rewrite subst_items by (rewrite (index_text_print k T), L; reflexivity).
Qed.

(** ** The plain operations are those of the patch *)
Lemma list_ins_at l1 l2 w : list_ins (length l1) w (l1 ++ l2) = l1 ++ w :: l2.
Proof. unfold list_ins. now rewrite firstn_app, Nat.sub_diag, firstn_all, skipn_app, Nat.sub_diag, skipn_all, firstn_O, app_nil_r. Qed.
Lemma skipn_S_mid {A} (l1 : list A) x l2 : skipn (S (length l1)) (l1 ++ x :: l2) = l2.
Proof. induction l1; simpl; auto. Qed.
Lemma firstn_mid {A} (l1 : list A) l2 : firstn (length l1) (l1 ++ l2) = l1.
Proof. induction l1; simpl; congruence. Qed.
Lemma dict_put_new k w m : ~ In k (map fst m) -> dict_put k w m = m ++ [(k, w)].
Proof.
  intro N. unfold dict_put. replace (existsb _ m) with false; auto. symmetry. apply Bool.not_true_is_false. intro H.
  apply existsb_exists in H as ((k' & v) & I & E). apply str_eqb_eq in E. simpl in E. subst. apply N. now apply (in_map fst) in I.
Qed.
Lemma dict_put_old k w m1 x m2 : NoDup (keys (m1 ++ (k, x) :: m2)) -> dict_put k w (m1 ++ (k, x) :: m2) = m1 ++ (k, w) :: m2.
Proof.
  intro ND. apply NoDup_split in ND as [N1 N2]. unfold dict_put.
  replace (existsb _ _) with true by (symmetry; apply existsb_exists; exists (k, x); split; [apply in_elt|apply str_eqb_refl]).
  assert (G : forall m, ~ In k (keys m) -> map (fun kv => if str_eqb (fst kv) k then (k, w) else kv) m = m).
  { induction m as [|[k' v] m IH]; intro N; auto. simpl in *. rewrite IH by tauto.
    rewrite (proj2 (str_eqb_neq k' k)) by tauto. reflexivity. }
  rewrite map_app. cbn [map fst]. now rewrite !G, str_eqb_refl by auto.
Qed.
Lemma dict_del_old k m1 x m2 : NoDup (keys (m1 ++ (k, x) :: m2)) -> dict_del k (m1 ++ (k, x) :: m2) = m1 ++ m2.
Proof.
  intro ND. apply NoDup_split in ND as [N1 N2]. unfold dict_del.
  assert (G : forall m, ~ In k (keys m) -> filter (fun kv : pystr * json => negb (str_eqb (fst kv) k)) m = m).
  { induction m as [|[k' v] m IH]; intro N; auto. simpl in *.
    rewrite (proj2 (str_eqb_neq k' k)) by tauto. simpl. now rewrite IH by tauto. }
  assert (A : forall m m' : list (pystr * json), filter (fun kv : pystr * json => negb (str_eqb (fst kv) k)) (m ++ m') =
     filter (fun kv : pystr * json => negb (str_eqb (fst kv) k)) m ++ filter (fun kv : pystr * json => negb (str_eqb (fst kv) k)) m')
    by (induction m; intros; simpl; auto; destruct (str_eqb (fst a) k); simpl; congruence).
  rewrite A. cbn [filter fst]. rewrite str_eqb_refl. cbn [negb]. now rewrite !G by auto.
Qed.

Lemma adds_plain k w P P' : jwf P = true -> adds int_reading k w P P' -> plain_add P k w = Some P'.
Proof.
  intros W A. revert W. destruct A as [l1 l2 K|l E|m N|m1 x m2]; intro W; cbn [plain_add].
  - apply dash_not_int in K as N. rewrite (proj2 (str_eqb_neq _ _) N). unfold int_reading in K. rewrite K.
    rewrite (proj2 (Z.leb_le _ _)) by lia. cbn [plain_insert]. rewrite app_length.
    rewrite (proj2 (Z.leb_le _ _)) by lia. rewrite (proj2 (Z.leb_le _ _)) by lia. cbn [andb]. rewrite Nat2Z.id, list_ins_at. auto.
  - rewrite E, str_eqb_refl. cbn [plain_insert]. rewrite (proj2 (Z.leb_le _ _)) by lia. rewrite (proj2 (Z.leb_le _ _)) by lia.
    cbn [andb]. rewrite Nat2Z.id. rewrite <- (app_nil_r l) at 2. now rewrite list_ins_at.
  - now rewrite dict_put_new.
  - now rewrite dict_put_old by now apply jwf_NoDup.
Qed.
Lemma plain_adds k w P P' : jwf P = true -> plain_add P k w = Some P' -> adds int_reading k w P P'.
Proof.
  intro W. destruct P as [|b|x|s|l|m]; cbn [plain_add]; try discriminate.
  - destruct (str_eqb k (lit "-")) eqn:E.
    + apply str_eqb_eq in E as ->. cbn [plain_insert]. rewrite (proj2 (Z.leb_le _ _)) by lia. rewrite (proj2 (Z.leb_le _ _)) by lia.
      cbn [andb]. rewrite Nat2Z.id. rewrite <- (app_nil_r l) at 2. rewrite list_ins_at. intros [= <-]. now constructor.
    + destruct (py_int k) as [z|] eqn:V; [|discriminate]. destruct (0 <=? z)%Z eqn:Z0; [|discriminate]. cbn [plain_insert].
      rewrite Z0. cbn [andb]. destruct (z <=? Z.of_nat (length l))%Z eqn:ZL; [|discriminate]. intros [= <-].
      apply Z.leb_le in Z0, ZL. destruct (cut_length l (Z.to_nat z)) as (l1 & l2 & -> & L); [lia|]. rewrite <- L, list_ins_at.
      constructor. unfold int_reading. rewrite V. f_equal. lia.
  - intros [= <-]. destruct (dget k m) as [x|] eqn:G.
    + apply dget_split in G as (m1 & m2 & -> & N). rewrite dict_put_old by now apply jwf_NoDup. constructor.
    + assert (N : ~ In k (map fst m)) by (apply dmem_false; unfold dmem; now rewrite G). rewrite dict_put_new by auto. now constructor.
Qed.

(** The index that a token designates in a value. *)
Inductive designates (k : pystr) : json -> JTree.index -> Prop :=
| des_item l i : int_reading k i -> i < length l -> designates k (JArr l) (IInt (Z.of_nat i))
| des_member m x : In (k, x) m -> designates k (JObj m) (IStr k).
Lemma removes_plain k P P' : jwf P = true -> removes int_reading k P P' -> exists i, designates k P i /\ plain_del P i = Some P'.
Proof.
  intros W A. revert W. destruct A as [l1 x l2 K|m1 x m2]; intro W.
  - exists (IInt (Z.of_nat (length l1))). split; [constructor; auto; rewrite app_length; simpl; lia|]. cbn [plain_del].
    rewrite (proj2 (Z.leb_le _ _)) by lia. rewrite (proj2 (Z.ltb_lt _ _)) by (rewrite app_length; simpl; lia). cbn [andb].
    unfold list_del. now rewrite Nat2Z.id, skipn_S_mid, firstn_mid.
  - exists (IStr k). split; [econstructor; apply in_elt|]. cbn [plain_del].
    replace (existsb _ _) with true by (symmetry; apply existsb_exists; exists (k, x); split; [apply in_elt|apply str_eqb_refl]).
    now rewrite dict_del_old by now apply jwf_NoDup.
Qed.
Lemma replaces_plain k w P P' : jwf P = true -> replaces int_reading k w P P' -> exists i, designates k P i /\ plain_set P i w = Some P'.
Proof.
  intros W A. revert W. destruct A as [l1 x l2 K|m1 x m2]; intro W.
  - exists (IInt (Z.of_nat (length l1))). split; [constructor; auto; rewrite app_length; simpl; lia|]. cbn [plain_set].
    rewrite (proj2 (Z.leb_le _ _)) by lia. rewrite (proj2 (Z.ltb_lt _ _)) by (rewrite app_length; simpl; lia). cbn [andb].
    unfold list_put. now rewrite Nat2Z.id, skipn_S_mid, firstn_mid.
  - exists (IStr k). split; [econstructor; apply in_elt|]. cbn [plain_set].
    now rewrite dict_put_old by now apply jwf_NoDup.
Qed.

(** ** Evaluation of the pointer *)
Lemma eval_id_snoc q k : forall h n, eval_id (q ++ [k]) h n = let* t := eval_id q h n in eval_id [k] h t.
Proof.
  induction q as [|k0 q IH]; intros h n; [reflexivity|]. cbn [app eval_id].
  destruct (ndata (getn h n)); cbn [bind]; auto.
  - destruct (py_int k0); cbn [bind]; auto. destruct (norm_index (length ids) z); cbn [bind]; auto.
    destruct (nth_error ids n0); cbn [bind]; auto. apply IH.
  - destruct (dget k0 m); cbn [bind]; auto. apply IH.
Qed.
Lemma designated h tp P k i : shape h -> denotes h tp P -> designates k P i ->
  exists t k', eval_id [k] h tp = Ok t /\ child_at h tp k' t /\ edge_index (ndata (getn h tp)) k' i.
Proof.
  intros Sh D E. revert D. destruct E as [l i K L|m x I]; intro D.
  - inversion D as [| | | |? ids l' E L' H|]; subst. cbn [eval_id]. rewrite E, K, norm_index_nat by lia.
    destruct (nth_error ids i) as [t|] eqn:N; [|apply nth_error_None in N; lia]. exists t, (str_of_nat i).
    split; auto. split; [econstructor; eauto|]. simpl. eauto.
  - inversion D as [| | | | |? m' kvs E K H]; subst. destruct (denotes_obj_inv _ _ _ _ E D) as (kvs & [= <-] & F).
    destruct (Forall2_in_r _ _ _ _ F I) as ((k' & t) & J & Ek & Dt). simpl in *. subst.
    destruct (dget k m') as [t'|] eqn:G.
    + exists t', k. split; [cbn [eval_id]; now rewrite E, G|]. rewrite E. split; [|reflexivity]. econstructor; eauto. now apply dget_In.
    + exfalso. apply (in_map fst) in J. apply (dmem_In k m') in J. unfold dmem in J. rewrite G in J. discriminate.
Qed.

Lemma parg_empty path p : mk_pointer [path] = Ok p -> path_empty path = match p with [] => true | _ => false end.
Proof.
  destruct path as [s|ks].
  - intro H. apply (str_parse s p) in H. rewrite <- H. destruct p as [|k p]; reflexivity.
  - intros [= <-]. destruct ks; reflexivity.
Qed.

Lemma snoc_not_nil {A} (q : list A) k : match q ++ [k] with [] => true | _ => false end = false.
Proof. destruct q; reflexivity. Qed.

(** ** The theorems *)
(** When the patch function succeeds on the value, the in-place method
    succeeds and the node then has exactly that value. *)
Theorem C17_add_agrees : forall h n path p o V w V', history h -> n < length h -> operand_ok h o ->
  denotes h n V -> operand_is h o w -> mk_pointer [path] = Ok p -> p_add V p w = Ok V' ->
  exists h', json_add h n path o = (Ok tt, h') /\ denotes h' n V'.
Proof.
  intros h n path p o V w V' H B OK D W MP A. apply history_inv in H as I. pose proof (inv_shape _ I) as Sh.
  destruct (json_add_spec h n path o w I B OK W) as (h' & r & E & _ & _ & R). exists h'. rewrite E. clear E.
  rewrite (parg_empty _ _ MP) in R. rewrite MP in R. pose proof (denotes_jwf _ _ _ Sh D) as JV.
  apply p_add_exact in A; auto. destruct A as [[-> ->] | (q & k & -> & A)].
  { destruct R as (-> & Ch & _). auto. }
  rewrite snoc_not_nil in R. rewrite removelast_last, last_last in R.
  destruct (edited_subst _ _ _ _ A JV) as (P & P' & F & AP & ->).
  destruct (refers_located h q n V P D F) as (tp & L & DP). rewrite (located_eval _ _ _ _ Sh L) in R.
  destruct R as (q2 & v2 & _ & _ & D2 & Ch & R). rewrite (denotes_fun _ _ _ _ D2 DP) in *.
  rewrite (adds_plain _ _ _ _ (refers_jwf _ _ _ JV F) AP) in *. split; [congruence|]. destruct Ch as (_ & _ & Ch). apply Ch; auto.
Qed.
Print Assumptions C17_add_agrees.

Theorem C17_remove_agrees : forall h n path p V V', history h -> n < length h ->
  denotes h n V -> mk_pointer [path] = Ok p -> p_remove V p = Ok V' ->
  exists h', json_remove h n path = (Ok tt, h') /\ denotes h' n V'.
Proof.
  intros h n path p V V' H B D MP A. apply history_inv in H as I. pose proof (inv_shape _ I) as Sh.
  destruct (json_remove_spec h n path I B) as (h' & r & E & _ & _ & R). exists h'. rewrite E. clear E.
  rewrite (parg_empty _ _ MP) in R. rewrite MP in R. pose proof (denotes_jwf _ _ _ Sh D) as JV.
  apply p_remove_exact in A; auto. destruct A as [[-> ->] | (q & k & -> & A)].
  { destruct R as (-> & Ch & _). auto. }
  rewrite snoc_not_nil in R. destruct (edited_subst _ _ _ _ A JV) as (P & P' & F & AP & ->).
  destruct (refers_located h q n V P D F) as (tp & L & DP).
  destruct (removes_plain _ _ _ (refers_jwf _ _ _ JV F) AP) as (i & Des & Pl).
  destruct (designated h tp P k i Sh DP Des) as (t & k' & Et & C & Ei).
  rewrite eval_id_snoc, (located_eval _ _ _ _ Sh L) in R. cbn [bind] in R. rewrite Et in R.
  destruct R as (-> & q2 & k2 & tp2 & i2 & v2 & L2 & C2 & _ & D2 & E2 & Ch & NN). split; auto.
  pose proof (sh_child h Sh _ _ _ C) as (_ & _ & P1 & K1). pose proof (sh_child h Sh _ _ _ C2) as (_ & _ & P2 & K2).
  assert (tp2 = tp) by congruence. assert (k2 = k') by congruence. subst.
  assert (v2 = P) by (eapply denotes_fun; eauto). assert (i2 = i) by (eapply edge_fun; eauto). subst.
  rewrite Pl in Ch. destruct Ch as (_ & _ & Ch). apply Ch; auto.
Qed.
Print Assumptions C17_remove_agrees.

Theorem C17_replace_agrees : forall h n path p o V w V', history h -> n < length h -> operand_ok h o ->
  denotes h n V -> operand_is h o w -> mk_pointer [path] = Ok p -> p_replace V p w = Ok V' ->
  exists h', json_replace h n path o = (Ok tt, h') /\ denotes h' n V'.
Proof.
  intros h n path p o V w V' H B OK D W MP A. apply history_inv in H as I. pose proof (inv_shape _ I) as Sh.
  destruct (json_replace_spec h n path o w I B OK W) as (h' & r & E & _ & _ & R). exists h'. rewrite E. clear E.
  rewrite (parg_empty _ _ MP) in R. rewrite MP in R. pose proof (denotes_jwf _ _ _ Sh D) as JV.
  apply p_replace_exact in A; auto. destruct A as [[-> ->] | (q & k & -> & A)].
  { destruct R as (-> & Ch & _). auto. }
  rewrite snoc_not_nil in R. destruct (edited_subst _ _ _ _ A JV) as (P & P' & F & AP & ->).
  destruct (refers_located h q n V P D F) as (tp & L & DP).
  destruct (replaces_plain _ _ _ _ (refers_jwf _ _ _ JV F) AP) as (i & Des & Pl).
  destruct (designated h tp P k i Sh DP Des) as (t & k' & Et & C & Ei).
  rewrite eval_id_snoc, (located_eval _ _ _ _ Sh L) in R. cbn [bind] in R. rewrite Et in R.
  destruct R as (-> & q2 & k2 & tp2 & i2 & v2 & L2 & C2 & _ & D2 & E2 & Ch & NN). split; auto.
  pose proof (sh_child h Sh _ _ _ C) as (_ & _ & P1 & K1). pose proof (sh_child h Sh _ _ _ C2) as (_ & _ & P2 & K2).
  assert (tp2 = tp) by congruence. assert (k2 = k') by congruence. subst.
  assert (v2 = P) by (eapply denotes_fun; eauto). assert (i2 = i) by (eapply edge_fun; eauto). subst.
  rewrite Pl in Ch. destruct Ch as (_ & _ & Ch). apply Ch; auto.
Qed.
Print Assumptions C17_replace_agrees.

(** When the patch function raises, so does the method, and no value in the
    heap changes: for pointers whose tokens, where they meet arrays, are
    indices in RFC 6901 syntax.  Missing from the full claim: other tokens, of
    which a negative one makes it false (below). *)
Theorem C17_add_raises_partial : forall h n path q k o V w e, history h -> n < length h -> operand_ok h o ->
  denotes h n V -> operand_is h o w -> mk_pointer [path] = Ok (q ++ [k]) -> indices_at_arrays h n q ->
  p_add V (q ++ [k]) w = Exn e ->
  exists e' h', json_add h n path o = (Exn e', h') /\ forall m, m < length h -> keeps h h' m.
Proof.
  intros h n path q k o V w e H B OK D W MP IA A. apply history_inv in H as I. pose proof (inv_shape _ I) as Sh.
  destruct (json_add_spec h n path o w I B OK W) as (h' & r & E & _ & _ & R). rewrite E.
  rewrite (parg_empty _ _ MP) in R. rewrite MP in R. pose proof (denotes_jwf _ _ _ Sh D) as JV.
  rewrite snoc_not_nil, removelast_last, last_last in R. pose proof (eval_id_exact q h n Sh IA) as X.
  destruct (eval_id q h n) as [tp|e'|] eqn:EI; [| |contradiction].
  - destruct R as (q2 & v2 & L2 & _ & D2 & Ch & R). destruct (plain_add v2 k w) as [P'|] eqn:PA.
    + exfalso. apply (plain_adds k w v2 P' (denotes_jwf _ _ _ Sh D2)) in PA.
      destruct (located_refers _ _ _ _ _ D X) as (P & F & DP). rewrite (denotes_fun _ _ _ _ D2 DP) in PA.
      rewrite p_add_snoc in A. unfold at_parent in A. apply (eval_plain_refers _ _ _ JV) in F as Ev. rewrite Ev in A. cbn [as_patch_error bind] in A.
      apply local_add_spec in PA; [|exact (refers_jwf _ _ _ JV F)]. rewrite PA in A. discriminate.
    + exists EJSON, h'. split; [congruence|exact Ch].
  - destruct X as [-> _]. destruct R as [-> ->]. cbn. eexists. exists h. split; [reflexivity|]. intros m _ v; auto.
Qed.
Print Assumptions C17_add_raises_partial.

Lemma raises_at h n V q k f e : shape h -> denotes h n V -> indices_at_arrays h n (q ++ [k]) ->
  (forall P, jwf P = true -> (exists c, child P k c) -> exists P', f P = Ok P') ->
  at_parent V q f = Exn e -> exists e', eval_id (q ++ [k]) h n = Exn e'.
Proof.
  intros Sh D IA Lo A. pose proof (denotes_jwf _ _ _ Sh D) as JV. pose proof (eval_id_exact (q ++ [k]) h n Sh IA) as X.
  destruct (eval_id (q ++ [k]) h n) as [t|e'|]; [|eauto|contradiction]. exfalso.
  destruct (located_refers _ _ _ _ _ D X) as (c & F & _). apply refers_split in F as (P & F & G).
  apply refers_cons_child in G as (c' & C & _). unfold at_parent in A. apply (eval_plain_refers _ _ _ JV) in F as Ev.
  rewrite Ev in A. cbn [as_patch_error bind] in A. destruct (Lo P (refers_jwf _ _ _ JV F)) as (P' & E); [eauto|].
  rewrite E in A. discriminate.
Qed.
Lemma child_removable P k : jwf P = true -> (exists c, child P k c) -> exists P', local_remove P k = Ok P'.
Proof.
  intros W (c & C). revert W. destruct C as [m k c I|l k c T I]; intro W.
  - apply in_split in I as (m1 & m2 & ->). eexists. apply (local_remove_spec _ _ _ W). constructor.
  - destruct (nth_error_split' _ _ _ I) as (l1 & l2 & -> & L). eexists. apply (local_remove_spec _ _ _ W). constructor.
    unfold int_reading. now rewrite L, index_digits_val.
Qed.
Lemma child_replaceable P k w : jwf P = true -> (exists c, child P k c) -> exists P', local_replace P k w = Ok P'.
Proof.
  intros W (c & C). revert W. destruct C as [m k c I|l k c T I]; intro W.
  - apply in_split in I as (m1 & m2 & ->). eexists. apply (local_replace_spec _ _ _ _ W). constructor.
  - destruct (nth_error_split' _ _ _ I) as (l1 & l2 & -> & L). eexists. apply (local_replace_spec _ _ _ _ W). constructor.
    unfold int_reading. now rewrite L, index_digits_val.
Qed.

Theorem C17_remove_raises_partial : forall h n path q k V e, history h -> n < length h ->
  denotes h n V -> mk_pointer [path] = Ok (q ++ [k]) -> indices_at_arrays h n (q ++ [k]) ->
  p_remove V (q ++ [k]) = Exn e ->
  exists e' h', json_remove h n path = (Exn e', h') /\ forall m, m < length h -> keeps h h' m.
Proof.
  intros h n path q k V e H B D MP IA A. apply history_inv in H as I. pose proof (inv_shape _ I) as Sh.
  destruct (json_remove_spec h n path I B) as (h' & r & E & _ & _ & R). rewrite E.
  rewrite (parg_empty _ _ MP) in R. rewrite MP in R. rewrite snoc_not_nil in R. rewrite p_remove_snoc in A.
  destruct (raises_at h n V q k _ e Sh D IA (fun P W => child_removable P k W) A) as (e' & X).
  pose proof (eval_id_exact _ h n Sh IA) as Y. rewrite X in *. destruct Y as [-> _]. destruct R as [-> ->].
  cbn. eexists. exists h. split; [reflexivity|]. intros m _ v; auto.
Qed.
Print Assumptions C17_remove_raises_partial.
Theorem C17_replace_raises_partial : forall h n path q k o V w e, history h -> n < length h -> operand_ok h o ->
  denotes h n V -> operand_is h o w -> mk_pointer [path] = Ok (q ++ [k]) -> indices_at_arrays h n (q ++ [k]) ->
  p_replace V (q ++ [k]) w = Exn e ->
  exists e' h', json_replace h n path o = (Exn e', h') /\ forall m, m < length h -> keeps h h' m.
Proof.
  intros h n path q k o V w e H B OK D W MP IA A. apply history_inv in H as I. pose proof (inv_shape _ I) as Sh.
  destruct (json_replace_spec h n path o w I B OK W) as (h' & r & E & _ & _ & R). rewrite E.
  rewrite (parg_empty _ _ MP) in R. rewrite MP in R. rewrite snoc_not_nil in R. rewrite p_replace_snoc in A.
  destruct (raises_at h n V q k _ e Sh D IA (fun P W => child_replaceable P k w W) A) as (e' & X).
  pose proof (eval_id_exact _ h n Sh IA) as Y. rewrite X in *. destruct Y as [-> _]. destruct R as [-> ->].
  cbn. eexists. exists h. split; [reflexivity|]. intros m _ v; auto.
Qed.
Print Assumptions C17_replace_raises_partial.

(** A negative index: the method removes the last item, the function raises. *)
Definition num (z : Z) : json := JNum (NInt z).
Definition V17 : json := JObj [(lit "a", JArr [num 10; num 20; num 30])].
Definition heap17 : heap := fst (new_doc V17 []).
Theorem C17_negative_refuted : exists h n h' V V', history h /\ n < length h /\ denotes h n V /\
  json_remove h n (PKeys [lit "a"; lit "-1"]) = (Ok tt, h') /\ p_remove V [lit "a"; lit "-1"] = Exn EPatch /\
  fst (read_value h' n) = Ok V' /\ V' <> V.
Proof.
  exists heap17, 0. eexists. exists V17. eexists. split.
  { apply (hist_step [] (OpNew V17)); [apply hist_start|reflexivity]. }
  split; [vm_compute; lia|]. split.
  { destruct (new_doc_spec [] V17 inv_nil eq_refl) as (h' & E & _ & _ & _ & D & _). unfold heap17. rewrite E. exact D. }
  split; [vm_compute; reflexivity|]. split; [vm_compute; reflexivity|]. split; [vm_compute; reflexivity|]. discriminate.
Qed.
Print Assumptions C17_negative_refuted.

Example C17_case : exists h', json_add heap17 0 (PStr (lit "/a/1")) (OVal (num 15)) = (Ok tt, h') /\
  p_add V17 [lit "a"; lit "1"] (num 15) = Ok (JObj [(lit "a", JArr [num 10; num 15; num 20; num 30])]) /\
  fst (read_value h' 0) = Ok (JObj [(lit "a", JArr [num 10; num 15; num 20; num 30])]) /\
  indices_at_arrays heap17 0 [lit "a"; lit "9"] /\ p_remove V17 [lit "a"; lit "9"] = Exn EPatch.
Proof.
  eexists. split; [vm_compute; reflexivity|]. split; [vm_compute; reflexivity|]. split; [vm_compute; reflexivity|].
  split; [|vm_compute; reflexivity]. intros a k b x ids E L DA.
  destruct a as [|a0 [|a1 a]]; cbn in E.
  - injection E as <- <-. inversion L; subst; [|destruct p; discriminate]. vm_compute in DA. discriminate.
  - injection E as <- <- <-. right. exists 57%N, []. repeat split; try constructor; vm_compute; congruence.
  - destruct a; discriminate.
Qed.
