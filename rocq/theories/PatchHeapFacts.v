(** Proofs about JSON Patch on Python objects. *)
From Verif Require Import PatchFacts.
From Verif Require Export SpecHeap.
From Coq Require Import Lia.
Open Scope nat_scope.

(** ** Members of lists and dicts. *)
Lemma items_refill o l : length l = length (items o) -> items (refill o l) = l.
Proof.
  destruct o as [l0|m]; cbn; [auto|]. rewrite map_length. revert l.
  induction m as [|[k v] m IH]; intros [|x l] H; cbn in *; try lia; [reflexivity|]. now rewrite IH by lia.
Qed.
Lemma items_refill_incl o l v : In v (items (refill o l)) -> In v l.
Proof.
  destruct o as [l0|m]; cbn; [auto|]. revert l.
  induction m as [|[k x] m IH]; intros [|y l]; cbn; auto; try contradiction. intros [-> | H]; auto.
Qed.
Lemma In_insert_nth {A} i (x : A) l v : In v (insert_nth i x l) -> v = x \/ In v l.
Proof.
  unfold insert_nth. rewrite in_app_iff. cbn. intros [H | [-> | H]]; auto; right.
  - rewrite <- (firstn_skipn i l). apply in_or_app. auto.
  - rewrite <- (firstn_skipn i l). apply in_or_app. auto.
Qed.
Lemma In_update_nth {A} i (x : A) l v : In v (update_nth i x l) -> v = x \/ In v l.
Proof. revert i. induction l as [|y l IH]; intros [|i]; cbn; auto; intros [-> | H]; auto. apply IH in H. tauto. Qed.
Lemma In_remove_nth {A} i (l : list A) v : In v (remove_nth i l) -> In v l.
Proof. revert i. induction l as [|y l IH]; intros [|i]; cbn; auto. intros [-> | H]; eauto. Qed.
Lemma In_dset_snd {A} k (x : A) m v : In v (map snd (dset k x m)) -> v = x \/ In v (map snd m).
Proof.
  induction m as [|[k' y] m IH]; cbn; [intros [-> | []]; auto|]. destruct (str_eqb k k'); cbn; intros [-> | H]; auto. apply IH in H. tauto.
Qed.
Lemma In_ddel_snd {A} k (m : list (pystr * A)) v : In v (map snd (ddel k m)) -> In v (map snd m).
Proof. induction m as [|[k' y] m IH]; cbn; auto. destruct (str_eqb k k'); cbn; auto. intros [-> | H]; auto. Qed.
Lemma dget_snd {A} k (x : A) m : dget k m = Some x -> In x (map snd m).
Proof. intros H. apply dget_In in H. now apply (in_map snd) in H. Qed.
Lemma nth_update {A} i j (x : A) l : nth_error (update_nth i x l) j = if Nat.eqb i j then match nth_error l j with Some _ => Some x | None => None end else nth_error l j.
Proof.
  destruct (Nat.eqb_spec i j) as [->|N].
  - revert j. induction l as [|y l IH]; intros [|j]; cbn; auto.
  - now apply nth_error_update_other.
Qed.

(** ** Objects that existed before are left alone.

    [n] is the number of objects at the start; those made since then refer
    only to one another. *)
Definition above (n : nat) (v : pyval) : Prop := match v with VRef a => n <= a | _ => True end.
Definition closed_above (n : nat) (h : heap) : Prop := forall a o v, n <= a -> nth_error h a = Some o -> In v (items o) -> above n v.
Definition as_before (n : nat) (h h' : heap) : Prop := length h <= length h' /\ forall a, a < n -> nth_error h' a = nth_error h a.
Definition isolates {A} (n : nat) (c : hm A) (Q : A -> Prop) : Prop :=
  forall h, n <= length h -> closed_above n h ->
  as_before n h (snd (c h)) /\ closed_above n (snd (c h)) /\ match fst (c h) with Ok x => Q x | _ => True end.

Section Isolation.
Variable n : nat.

Lemma as_before_refl h : as_before n h h.
Proof. split; auto. Qed.
Lemma iso_ret {A} (x : res A) (Q : A -> Prop) : match x with Ok y => Q y | _ => True end -> isolates n (hret x) Q.
Proof. intros H h L C. cbn. auto using as_before_refl. Qed.
Lemma iso_bind {A B} (c : hm A) (k : A -> hm B) (Q : A -> Prop) (Q' : B -> Prop) :
  isolates n c Q -> (forall x, Q x -> isolates n (k x) Q') -> isolates n (hbind c k) Q'.
Proof.
  intros H K h L C. specialize (H h L C). unfold hbind. destruct (c h) as [[x|e|] h1]; cbn in *; destruct H as ([L1 B1] & C1 & Q1).
  - destruct (K x Q1 h1 ltac:(lia) C1) as ([L2 B2] & C2 & Q2). split; [|auto]. split; [lia|]. intros a La. rewrite B2; auto.
  - repeat split; auto.
  - repeat split; auto.
Qed.
Lemma iso_look {A} (f : heap -> res A) (Q : A -> Prop) :
  (forall h, n <= length h -> closed_above n h -> match f h with Ok x => Q x | _ => True end) -> isolates n (hlook f) Q.
Proof. intros H h L C. cbn. split; [apply as_before_refl|]. split; [exact C|exact (H h L C)]. Qed.
Lemma iso_weaken {A} (c : hm A) (Q Q' : A -> Prop) : isolates n c Q -> (forall x, Q x -> Q' x) -> isolates n c Q'.
Proof. intros H K h L C. destruct (H h L C) as (A1 & A2 & A3). repeat split; try apply A1; auto. destruct (fst (c h)); auto. Qed.
Lemma iso_get a : isolates n (hget a) (fun o => n <= a -> Forall (above n) (items o)).
Proof.
  intros h L C. unfold hget. destruct (nth_error h a) as [o|] eqn:E; cbn; split; auto using as_before_refl.
  split; auto. intros La. apply Forall_forall. intros v. eauto.
Qed.
Lemma iso_set a o : n <= a -> (forall v, In v (items o) -> above n v) -> isolates n (hset a o) (fun _ => True).
Proof.
  intros La Fo h L C. cbn. split; [|split; auto].
  - split; [now rewrite length_update_nth|]. intros b Lb. apply nth_error_update_other. lia.
  - intros b o' v Lb Eb. rewrite nth_update in Eb. destruct (Nat.eqb a b); [|eauto].
    destruct (nth_error h b); [|discriminate]. injection Eb as <-. auto.
Qed.
Lemma iso_new o : (forall v, In v (items o) -> above n v) -> isolates n (hnew o) (fun b => n <= b).
Proof.
  intros Fo h L C. cbn. split; [|split; auto].
  - split; [rewrite app_length; lia|]. intros b Lb. apply nth_error_app1. lia.
  - intros b o' v Lb Eb. destruct (Nat.lt_ge_cases b (length h)) as [Hb|Hb]; [rewrite nth_error_app1 in Eb by auto; eauto|].
    rewrite nth_error_app2 in Eb by auto. destruct (b - length h) as [|[|?]]; cbn in Eb; try discriminate. injection Eb as <-. auto.
Qed.

Lemma refill_nil o v : In v (items (refill o [])) -> above n v.
Proof. intros H. apply items_refill_incl in H. destruct H. Qed.
Definition memo_above (m : memo) : Prop := forall a b, noted a m = Some b -> n <= b.
Lemma iso_copy : forall fuel m v, memo_above m -> isolates n (deepcopy_memo fuel m v) (fun mv => memo_above (fst mv) /\ above n (snd mv)).
Proof.
  induction fuel as [|fuel IH]; intros m v M; [now apply iso_ret|].
  destruct v as [|b|x|s|a]; try (apply iso_ret; cbn; auto; fail). cbn.
  destruct (noted a m) as [b|] eqn:Na; [apply iso_ret; cbn; eauto|].
  eapply iso_bind; [apply iso_get|]. intros o _.
  eapply iso_bind; [apply iso_new, refill_nil|]. intros b Lb. cbn in Lb.
  assert (M' : memo_above ((a, b) :: m)).
  { intros a' b'. cbn. destruct (Nat.eqb a' a); [intros [= <-]; auto|apply M]. }
  eapply iso_bind with (Q := fun ml => memo_above (fst ml) /\ Forall (above n) (snd ml)).
  - clear M. revert M'. generalize ((a, b) :: m). induction (items o) as [|v l IHl]; intros m' M'; [apply iso_ret; cbn; auto|].
    cbn. eapply iso_bind; [apply IH; auto|]. intros [m1 v1] [M1 V1]. cbn in *.
    eapply iso_bind; [apply IHl; auto|]. intros [m2 l2] [M2 L2]. cbn in *. apply iso_ret. cbn. auto.
  - intros [m1 l1] [M1 L1]. cbn in *. eapply iso_bind.
    + apply (iso_set b); auto. intros v H. apply items_refill_incl in H. rewrite Forall_forall in L1. auto.
    + intros _ _. apply iso_ret. cbn. auto.
Qed.
Lemma iso_deepcopy fuel v : isolates n (deepcopy fuel v) (above n).
Proof.
  eapply iso_bind; [apply iso_copy; intros a b; discriminate|]. intros [m w] [_ W]. cbn in *. now apply iso_ret.
Qed.
Lemma heval_above p : forall v h w, closed_above n h -> above n v -> heval p v h = Ok w -> above n w.
Proof.
  induction p as [|k p IH]; intros v h w C V; cbn; [now intros [= <-]|].
  destruct v as [|b|x|s|a]; try discriminate. destruct (nth_error h a) as [[l|m]|] eqn:E; try discriminate.
  - destruct (fullmatch _ k); try discriminate. destruct (py_int k); try discriminate.
    destruct (norm_index _ _); try discriminate. destruct (nth_error l _) as [x|] eqn:F; try discriminate.
    apply IH; auto. apply (C _ _ _ V E). cbn. eapply nth_error_In; eauto.
  - destruct (dget k m) as [x|] eqn:F; try discriminate. apply IH; auto. apply (C _ _ _ V E). cbn. eapply dget_snd; eauto.
Qed.
Lemma as_patch_Ok {A} (r : res A) x : as_patch_error r = Ok x -> r = Ok x.
Proof. destruct r; cbn; auto. destruct (is_pointer_error e); discriminate. Qed.
Lemma hseq_parent v len k t : hseq_target v len k = Ok t -> ht_parent t = v.
Proof.
  unfold hseq_target. destruct (str_eqb _ _); [intros [= <-]; auto|]. destruct (py_int k); [|discriminate].
  destruct (_ =? _)%Z; [intros [= <-]; auto|]. destruct (_ && _)%bool; [intros [= <-]; auto|discriminate].
Qed.
Lemma hnode_above doc p h t : closed_above n h -> above n doc -> hnode doc p h = Ok t -> above n (ht_parent t).
Proof.
  intros C D. unfold hnode. destruct p as [|k p]; [intros [= <-]; cbn; auto|].
  destruct (as_patch_error _) as [v| |] eqn:E; cbn [bind]; try discriminate. apply as_patch_Ok, heval_above in E; auto.
  destruct (pointer_item _ _) as [key| |]; cbn [bind]; try discriminate.
  destruct v as [|b|x|s|a]; try discriminate.
  - intros H. apply hseq_parent in H. rewrite H. auto.
  - destruct (nth_error h a) as [[l|m]|]; try discriminate.
    + intros H. apply hseq_parent in H. rewrite H. auto.
    + intros [= <-]. auto.
Qed.
Lemma iso_node doc p : above n doc -> isolates n (hlook (hnode doc p)) (fun t => above n (ht_parent t)).
Proof.
  intros D. apply iso_look. intros h L C. destruct (hnode doc p h) eqn:E; auto. eapply hnode_above; eauto.
Qed.
Lemma iso_insert t v : above n (ht_parent t) -> above n v -> isolates n (hinsert t v) (fun _ => True).
Proof.
  intros P V. unfold hinsert. destruct (ht_parent t) as [| | | |a]; try now apply iso_ret.
  eapply iso_bind; [apply iso_get|]. intros [l|m] F; [|now apply iso_ret]. destruct (ht_index t); try now apply iso_ret.
  apply iso_set; auto. cbn in *. intros w H. apply In_insert_nth in H as [-> | H]; auto.
  specialize (F P). rewrite Forall_forall in F. auto.
Qed.
Lemma iso_assign t v : above n (ht_parent t) -> above n v -> isolates n (hassign t v) (fun _ => True).
Proof.
  intros P V. unfold hassign. destruct (ht_parent t) as [| | | |a]; try now apply iso_ret.
  eapply iso_bind; [apply iso_get|]. intros [l|m] F; destruct (ht_index t); try now apply iso_ret.
  - apply iso_set; auto. cbn in *. intros w H. apply In_update_nth in H as [-> | H]; auto. specialize (F P). rewrite Forall_forall in F. auto.
  - apply iso_set; auto. cbn in *. intros w H. apply In_dset_snd in H as [-> | H]; auto. specialize (F P). rewrite Forall_forall in F. auto.
Qed.
Lemma iso_delete t : above n (ht_parent t) -> isolates n (hdelete t) (fun _ => True).
Proof.
  intros P. unfold hdelete. destruct (ht_parent t) as [| | | |a]; try now apply iso_ret.
  eapply iso_bind; [apply iso_get|]. intros [l|m] F; destruct (ht_index t); try now apply iso_ret.
  - apply iso_set; auto. cbn in *. intros w H. apply In_remove_nth in H. specialize (F P). rewrite Forall_forall in F. auto.
  - apply iso_set; auto. cbn in *. intros w H. apply In_ddel_snd in H. specialize (F P). rewrite Forall_forall in F. auto.
Qed.
Lemma iso_add fuel doc p v : above n doc -> isolates n (h_add fuel doc p v) (above n).
Proof.
  intros D. unfold h_add. eapply iso_bind; [now apply iso_node|]. intros t T. eapply iso_bind; [apply iso_deepcopy|]. intros w V.
  destruct (ht_type t); [now apply iso_ret| | | |].
  1,2: eapply iso_bind; [now apply iso_insert|]; intros _ _; now apply iso_ret.
  all: eapply iso_bind; [now apply iso_assign|]; intros _ _; now apply iso_ret.
Qed.
Lemma iso_remove doc p : above n doc -> isolates n (h_remove doc p) (above n).
Proof.
  intros D. unfold h_remove. eapply iso_bind; [now apply iso_node|]. intros t T.
  destruct (ht_type t); try (now apply iso_ret); (eapply iso_bind; [now apply iso_delete|]; intros _ _; now apply iso_ret).
Qed.
Lemma iso_replace fuel doc p v : above n doc -> isolates n (h_replace fuel doc p v) (above n).
Proof.
  intros D. unfold h_replace. eapply iso_bind; [now apply iso_node|]. intros t T. eapply iso_bind; [apply iso_deepcopy|]. intros w V.
  destruct (ht_type t); try (now apply iso_ret); (eapply iso_bind; [now apply iso_assign|]; intros _ _; now apply iso_ret).
Qed.
Lemma iso_any {A} (f : heap -> res A) : isolates n (hlook f) (fun _ => True).
Proof. apply iso_look. intros h _ _. destruct (f h); auto. Qed.
Lemma iso_apply fuel o doc : above n doc -> isolates n (h_apply fuel o doc) (above n).
Proof.
  intros D. unfold h_apply. destruct (ho_op o).
  - now apply iso_add.
  - now apply iso_remove.
  - now apply iso_replace.
  - unfold h_move. eapply iso_bind; [apply iso_any|]. intros v _. destruct (ho_from o); [|now apply iso_ret].
    eapply iso_bind; [now apply iso_remove|]. intros d' D'. now apply iso_add.
  - unfold h_copy. eapply iso_bind; [apply iso_any|]. intros v _. now apply iso_add.
  - unfold h_test. eapply iso_bind; [now apply iso_node|]. intros t T.
    destruct (ht_type t); try (now apply iso_ret);
      (eapply iso_bind; [apply iso_any|]; intros x _; eapply iso_bind; [apply iso_any|]; intros y _; eapply iso_bind; [apply iso_any|]; intros z _;
       destruct (json_eqb y z); now apply iso_ret).
Qed.
Lemma iso_apply_all fuel ops : forall doc, above n doc -> isolates n (h_apply_all fuel ops doc) (above n).
Proof.
  induction ops as [|o ops IH]; intros doc D; cbn; [now apply iso_ret|].
  eapply iso_bind; [now apply iso_apply|]. auto.
Qed.
Lemma iso_evaluate fuel ops doc : isolates n (h_evaluate fuel ops doc) (above n).
Proof. eapply iso_bind; [apply iso_deepcopy|]. intros r. apply iso_apply_all. Qed.
Lemma reaches_above h v a : closed_above n h -> above n v -> reaches h v a -> n <= a.
Proof. intros C V H. induction H; auto. apply IHreaches. eauto. Qed.
End Isolation.

Lemma closed_above_length h : closed_above (length h) h.
Proof. intros a o v L E. apply nth_error_None in L. congruence. Qed.

Lemma prefix_of_nth {A} (l l' : list A) : (forall a, a < length l -> nth_error l' a = nth_error l a) -> l' = l ++ skipn (length l) l'.
Proof.
  revert l'. induction l as [|x l IH]; intros l' H; [reflexivity|].
  destruct l' as [|y l']; [specialize (H 0 ltac:(cbn; lia)); discriminate|].
  specialize (H 0 ltac:(cbn; lia)) as H0. injection H0 as ->. cbn. f_equal. apply IH. intros a L. exact (H (S a) ltac:(cbn; lia)).
Qed.
Lemma evaluate_isolated fuel ops doc h : forall r h', h_evaluate fuel ops doc h = (r, h') ->
  (exists h2, h' = h ++ h2) /\ forall v a, r = Ok v -> reaches h' v a -> length h <= a.
Proof.
  intros r h' E. destruct (iso_evaluate (length h) fuel ops doc h (le_n _) (closed_above_length h)) as ([L B] & C & Q).
  rewrite E in *. cbn in *. split.
  - exists (skipn (length h) h'). apply prefix_of_nth. auto.
  - intros v a -> R. eapply reaches_above; eauto.
Qed.
