(** JSON Patch does not depend on where the objects of a document are: equal
    object graphs give equal object graphs. *)
From Verif Require Import PatchFacts.
From Verif Require Export PatchHeapFacts.
From Coq Require Import Lia.
Open Scope nat_scope.

Definition rel := nat -> nat -> Prop.
Definition sub (R R' : rel) : Prop := forall a b, R a b -> R' a b.
Lemma sub_refl R : sub R R.
Proof. intros a b H. exact H. Qed.
Lemma sub_trans R R1 R2 : sub R R1 -> sub R1 R2 -> sub R R2.
Proof. intros H K a b X. auto. Qed.
#[local] Hint Resolve sub_refl sub_trans : core.

Lemma Forall2_mono {A B} (P P' : A -> B -> Prop) l l' : (forall x y, P x y -> P' x y) -> Forall2 P l l' -> Forall2 P' l l'.
Proof. intros H F. induction F; constructor; auto. Qed.
Lemma val_same_sub R R' v w : sub R R' -> val_same R v w -> val_same R' v w.
Proof. intros S. destruct v, w; cbn; auto. Qed.
Lemma obj_same_sub R R' o o' : sub R R' -> obj_same R o o' -> obj_same R' o o'.
Proof.
  intros S. destruct o, o'; cbn; auto; apply Forall2_mono.
  - intros x y. now apply val_same_sub.
  - intros x y [K V]. split; auto. eapply val_same_sub; eauto.
Qed.
Lemma obj_same_items R o o' : obj_same R o o' -> Forall2 (val_same R) (items o) (items o').
Proof. destruct o, o'; cbn; auto; try contradiction. intros F. induction F as [|? ? ? ? [_ V] ? ?]; cbn; constructor; auto. Qed.
Lemma obj_same_refill R o o' l l' : obj_same R o o' -> Forall2 (val_same R) l l' -> obj_same R (refill o l) (refill o' l').
Proof.
  destruct o as [x|m], o' as [x'|m']; cbn; auto; try contradiction. intros F. revert l l'.
  induction F as [|[k v] [k' v'] m m' [K V] F IH]; intros l l' L; cbn; [constructor|]. destruct L; constructor; auto.
Qed.

Definition res_same {A B} (Q : A -> B -> Prop) (r : res A) (r' : res B) : Prop :=
  match r, r' with Ok x, Ok y => Q x y | Exn e, Exn e' => e = e' | Fuel, Fuel => True | _, _ => False end.
Lemma res_same_bind {A B C D} (Q : A -> B -> Prop) (Q' : C -> D -> Prop) r r' k k' :
  res_same Q r r' -> (forall x y, Q x y -> res_same Q' (k x) (k' y)) -> res_same Q' (bind r k) (bind r' k').
Proof. destruct r, r'; cbn; auto; try contradiction. Qed.
Lemma res_same_patch {A B} (Q : A -> B -> Prop) r r' : res_same Q r r' -> res_same Q (as_patch_error r) (as_patch_error r').
Proof. destruct r, r'; cbn; auto; try contradiction. intros ->. destruct (is_pointer_error _); reflexivity. Qed.
Lemma res_same_eq {A} (r r' : res A) : r = r' -> res_same eq r r'.
Proof. intros ->. destruct r'; cbn; auto. Qed.

(** [c] and [c'] do the same to equal graphs. *)
Definition sim {A B} (R : rel) (c : hm A) (c' : hm B) (Q : rel -> A -> B -> Prop) : Prop :=
  forall R1 h h', sub R R1 -> heap_same R1 h h' ->
  exists R2, sub R1 R2 /\ heap_same R2 (snd (c h)) (snd (c' h')) /\ res_same (Q R2) (fst (c h)) (fst (c' h')).

Lemma sim_ret {A B} R (x : res A) (x' : res B) (Q : rel -> A -> B -> Prop) : (forall R1, sub R R1 -> res_same (Q R1) x x') -> sim R (hret x) (hret x') Q.
Proof. intros H R1 h h' S G. exists R1. cbn. auto. Qed.
Lemma sim_bind {A B C D} R (c : hm A) (c' : hm B) (k : A -> hm C) (k' : B -> hm D) Q Q' :
  sim R c c' Q -> (forall R1 x x', sub R R1 -> Q R1 x x' -> sim R1 (k x) (k' x') Q') -> sim R (hbind c k) (hbind c' k') Q'.
Proof.
  intros H K R1 h h' S G. destruct (H R1 h h' S G) as (R2 & S2 & G2 & Q2). unfold hbind.
  destruct (c h) as [[x|e|] h1], (c' h') as [[x'|e'|] h1']; cbn in *; try contradiction.
  - destruct (K R2 x x' ltac:(eauto) Q2 R2 h1 h1' ltac:(eauto) G2) as (R3 & S3 & G3 & Q3). exists R3. split; [eauto|auto].
  - exists R2. auto.
  - exists R2. auto.
Qed.
Lemma sim_look {A B} R (f : heap -> res A) (f' : heap -> res B) (Q : rel -> A -> B -> Prop) :
  (forall R1 h h', sub R R1 -> heap_same R1 h h' -> res_same (Q R1) (f h) (f' h')) -> sim R (hlook f) (hlook f') Q.
Proof. intros H R1 h h' S G. exists R1. cbn. auto. Qed.
Lemma sim_get (R : rel) a b : R a b -> sim R (hget a) (hget b) (fun R1 => obj_same R1).
Proof.
  intros H R1 h h' S G. exists R1. destruct (proj2 G a b (S _ _ H)) as (o & o' & E & E' & O).
  unfold hget. rewrite E, E'. cbn. auto.
Qed.
Lemma sim_set (R : rel) a b o o' : R a b -> obj_same R o o' -> sim R (hset a o) (hset b o') (fun _ _ _ => True).
Proof.
  intros H O R1 h h' S G. exists R1. cbn. split; [auto|]. split; [|auto]. destruct G as [I G]. split; auto.
  intros x y X. rewrite !nth_update. destruct (G _ _ X) as (p & p' & E & E' & P). rewrite E, E'.
  specialize (I _ _ _ _ X (S _ _ H)). destruct (Nat.eqb_spec a x) as [Ea|Ea], (Nat.eqb_spec b y) as [Eb|Eb].
  - exists o, o'. repeat split; auto. eapply obj_same_sub; eauto.
  - destruct Eb. symmetry. now apply I.
  - destruct Ea. symmetry. now apply I.
  - exists p, p'. auto.
Qed.
Lemma sim_new (R : rel) o o' : obj_same R o o' -> sim R (hnew o) (hnew o') (fun R1 b b' => R1 b b').
Proof.
  intros O R1 h h' S [I G]. exists (fun a b => R1 a b \/ a = length h /\ b = length h').
  assert (S2 : sub R1 (fun a b => R1 a b \/ a = length h /\ b = length h')) by (intros a b; auto).
  assert (L : forall a b, R1 a b -> a < length h /\ b < length h').
  { intros a b X. destruct (G _ _ X) as (p & p' & E & E' & _). split; apply nth_error_Some; congruence. }
  split; [auto|]. split; [split|].
  - intros a b a' b' [X|[-> ->]] [X'|[-> ->]]; [eauto| | |tauto].
    + apply L in X. lia.
    + apply L in X'. lia.
  - cbn. intros a b [X|[-> ->]].
    + destruct (G _ _ X) as (p & p' & E & E' & P). exists p, p'. apply L in X. rewrite !nth_error_app1 by lia.
      repeat split; auto. eapply obj_same_sub; eauto.
    + exists o, o'. rewrite !nth_error_app2 by lia. rewrite !Nat.sub_diag. cbn. split; [auto|]. split; [auto|]. eapply obj_same_sub; [|exact O]. eauto.
  - cbn. auto.
Qed.

(** ** deepcopy. *)
Definition memo_same (R : rel) (m m' : memo) : Prop := Forall2 (fun x y => R (fst x) (fst y) /\ R (snd x) (snd y)) m m'.
Lemma memo_same_sub R R' m m' : sub R R' -> memo_same R m m' -> memo_same R' m m'.
Proof. intros S. apply Forall2_mono. intros x y [H K]. auto. Qed.
Lemma noted_same (R : rel) m m' a b : one_to_one R -> memo_same R m m' -> R a b ->
  match noted a m, noted b m' with Some x, Some y => R x y | None, None => True | _, _ => False end.
Proof.
  intros I M H. induction M as [|[x x2] [y y2] m m' [X Y] M IH]; cbn in *; auto.
  specialize (I _ _ _ _ H X). destruct (Nat.eqb_spec a x), (Nat.eqb_spec b y); auto; tauto.
Qed.
Definition copied_same (R : rel) (x y : memo * pyval) : Prop := memo_same R (fst x) (fst y) /\ val_same R (snd x) (snd y).
Lemma sim_copy : forall fuel R m m' v v', memo_same R m m' -> val_same R v v' ->
  sim R (deepcopy_memo fuel m v) (deepcopy_memo fuel m' v') copied_same.
Proof.
  induction fuel as [|fuel IH]; intros R m m' v v' M V; [apply sim_ret; cbn; auto|].
  assert (C : forall l l' R m m', memo_same R m m' -> Forall2 (val_same R) l l' ->
    sim R (copy_all (deepcopy_memo fuel) m l) (copy_all (deepcopy_memo fuel) m' l')
      (fun R1 x y => memo_same R1 (fst x) (fst y) /\ Forall2 (val_same R1) (snd x) (snd y))).
  { clear R m m' v v' M V. intros l. induction l as [|v l IHl]; intros l' R m m' M L; inversion L as [|? v' ? l2 V L2]; subst; cbn.
    - apply sim_ret. cbn. intros R1 S. split; auto. eapply memo_same_sub; eauto.
    - eapply sim_bind; [apply IH; auto|]. intros R1 [m1 v1] [m1' v1'] S1 [M1 V1]. cbn in *.
      eapply sim_bind; [apply IHl; eauto|].
      + eapply Forall2_mono; [|exact L2]. intros x y. now apply val_same_sub.
      + intros R2 [m2 l3] [m2' l3'] S2 [M2 L3]. cbn in *. apply sim_ret. cbn. intros R3 S3. split; [eapply memo_same_sub; eauto|].
        constructor; [eapply val_same_sub; [|exact V1]; eauto|]. eapply Forall2_mono; [|exact L3]. intros x y. now apply val_same_sub. }
  intros R1 h h' S G. revert R1 h h' S G. change (sim R (deepcopy_memo (S fuel) m v) (deepcopy_memo (S fuel) m' v') copied_same).
  assert (Plain : sim R (hret (Ok (m, v))) (hret (Ok (m', v'))) copied_same).
  { apply sim_ret. intros R1 S. split; cbn; [eapply memo_same_sub; eauto|eapply val_same_sub; eauto]. }
  destruct v as [|b|x|s|a], v' as [|b'|x'|s'|a']; try contradiction; try exact Plain. clear Plain. cbn [deepcopy_memo].
  cbn in V. intros R1 h h' S G. pose proof (noted_same R1 m m' a a' (proj1 G) (memo_same_sub _ _ _ _ S M) (S _ _ V)) as N.
  destruct (noted a m) as [b|], (noted a' m') as [b'|]; try contradiction.
  - exists R1. cbn. split; [auto|]. split; [auto|]. split; [eapply memo_same_sub; eauto|exact N].
  - clear N. revert R1 h h' S G. match goal with |- forall R1 h h', sub _ _ -> heap_same _ _ _ -> exists R2, _ /\ heap_same _ (snd (?c _)) (snd (?c' _)) /\ _ => change (sim R c c' copied_same) end.
    eapply sim_bind; [now apply sim_get|]. intros R1 o o' S1 O.
    eapply sim_bind; [apply sim_new; apply obj_same_refill; auto|]. intros R2 b b' S2 B.
    eapply sim_bind.
    + apply C; [constructor; cbn; eauto|]; [eapply memo_same_sub; [|exact M]; eauto|].
      apply obj_same_items. eapply obj_same_sub; [|exact O]. eauto.
    + intros R3 [m3 l3] [m3' l3'] S3 [M3 L3]. cbn in *. eapply sim_bind.
      * apply (sim_set R3 b b'); auto. apply obj_same_refill; auto. eapply obj_same_sub; [|exact O]. eauto.
      * intros R4 _ _ S4 _. apply sim_ret. intros R5 S5. split; cbn; [eapply memo_same_sub; [|exact M3]; eauto|]. eauto.
Qed.
Lemma sim_deepcopy fuel R v v' : val_same R v v' -> sim R (deepcopy fuel v) (deepcopy fuel v') val_same.
Proof.
  intros V. eapply sim_bind; [apply sim_copy; [constructor|exact V]|]. intros R1 [m w] [m' w'] S [_ W]. cbn in *.
  apply sim_ret. cbn. intros R2 S2. eapply val_same_sub; eauto.
Qed.

(** ** Looking at equal graphs. *)
Lemma Forall2_len {A B} (P : A -> B -> Prop) l l' : Forall2 P l l' -> length l = length l'.
Proof. intros F. induction F; cbn; auto. Qed.
Lemma Forall2_nth {A B} (P : A -> B -> Prop) l l' n : Forall2 P l l' ->
  match nth_error l n, nth_error l' n with Some x, Some y => P x y | None, None => True | _, _ => False end.
Proof. intros F. revert n. induction F; intros [|n]; cbn; auto. apply IHF. Qed.
Definition member_same (R : rel) (kv kv' : pystr * pyval) : Prop := fst kv = fst kv' /\ val_same R (snd kv) (snd kv').
Lemma dget_same R m m' k : Forall2 (member_same R) m m' ->
  match dget k m, dget k m' with Some x, Some y => val_same R x y | None, None => True | _, _ => False end.
Proof.
  intros F. induction F as [|[k1 v] [k2 v'] m m' [K V] F IH]; cbn in *; auto. subst. destruct (str_eqb k k2); auto.
Qed.
Lemma heval_same R h h' p : heap_same R h h' -> forall v v', val_same R v v' -> res_same (val_same R) (heval p v h) (heval p v' h').
Proof.
  intros [I G]. induction p as [|k p IH]; intros v v' V; cbn; [auto|].
  destruct v as [|b|x|s|a], v' as [|b'|x'|s'|a']; try contradiction; try reflexivity.
  destruct (G _ _ V) as (o & o' & -> & -> & O). destruct o as [l|m], o' as [l'|m']; try contradiction; cbn in O.
  - destruct (fullmatch _ k); [|reflexivity]. destruct (py_int k) as [i|]; [|reflexivity].
    rewrite (Forall2_len _ _ _ O). destruct (norm_index _ i) as [n|]; [|reflexivity].
    pose proof (Forall2_nth _ _ _ n O) as N. destruct (nth_error l n), (nth_error l' n); try contradiction; [auto|reflexivity].
  - pose proof (dget_same R m m' k O) as N. destruct (dget k m), (dget k m'); try contradiction; [auto|reflexivity].
Qed.
Lemma hread_same R h h' n : heap_same R h h' -> forall v v', val_same R v v' -> hread n v h = hread n v' h'.
Proof.
  intros [I G]. induction n as [|n IH]; intros v v' V; [reflexivity|].
  assert (A : forall l l', Forall2 (val_same R) l l' -> read_all (hread n) l h = read_all (hread n) l' h').
  { intros l l' F. induction F as [|x y l l' X F IHF]; [reflexivity|]. cbn. now rewrite (IH _ _ X), IHF. }
  destruct v as [|b|x|s|a], v' as [|b'|x'|s'|a']; try contradiction; try (cbn in *; congruence).
  cbn. destruct (G _ _ V) as (o & o' & -> & -> & O). pose proof (obj_same_items _ _ _ O) as L.
  destruct o as [l|m], o' as [l'|m']; try contradiction; cbn in *; rewrite (A _ _ L); [reflexivity|].
  replace (keys m') with (keys m); [reflexivity|]. clear -O. unfold keys. cbn in O. induction O as [|[k v] [k' v'] m m' [K V] F IH]; cbn in *; congruence.
Qed.
Lemma reads_same_aux R h h' : heap_same R h h' ->
  (forall v d S, reads h v d S -> forall v', val_same R v v' -> exists S', reads h' v' d S' /\ Forall2 R S S').
Proof.
  intros [I G].
  fix IH 4. intros v d S H.
  assert (A : forall l ds S, reads_all h l ds S -> forall l', Forall2 (val_same R) l l' -> exists S', reads_all h' l' ds S' /\ Forall2 R S S').
  { fix IHA 4. intros l ds S0 [|v0 vs d0 ds0 S1 S2 H1 H2] l' F; inversion F; subst.
    - exists []. split; constructor.
    - destruct (IH _ _ _ H1 _ ltac:(eassumption)) as (S1' & A1 & B1). destruct (IHA _ _ _ H2 _ ltac:(eassumption)) as (S2' & A2 & B2).
      exists (S1' ++ S2'). split; [constructor; auto|now apply Forall2_app]. }
  intros v' V. destruct H as [v d E|a l ds S0 E L|a m dm S0 E K L].
  - exists []. split; [|constructor]. constructor. destruct v, v'; try contradiction; cbn in *; congruence.
  - destruct v' as [| | | |b]; try contradiction. cbn in V. destruct (G _ _ V) as (o & o' & E1 & E' & O). rewrite E in E1. injection E1 as <-.
    destruct o' as [l'|]; [|contradiction]. destruct (A _ _ _ L l' O) as (S' & L' & F). exists (b :: S'). split; [econstructor; eauto|constructor; auto].
  - destruct v' as [| | | |b]; try contradiction. cbn in V. destruct (G _ _ V) as (o & o' & E1 & E' & O). rewrite E in E1. injection E1 as <-.
    destruct o' as [|m']; [contradiction|]. destruct (A _ _ _ L (map snd m') (obj_same_items _ _ _ O)) as (S' & L' & F).
    exists (b :: S'). split; [|constructor; auto]. econstructor; eauto. rewrite <- K. clear -O. cbn in O.
    induction O as [|[k v] [k' v'] m m' [K V] F IH]; cbn in *; congruence.
Qed.
Definition target_same (R : rel) (t t' : htarget) : Prop :=
  ht_type t = ht_type t' /\ ht_index t = ht_index t' /\ val_same R (ht_parent t) (ht_parent t').
Lemma hseq_same R v v' n k : val_same R v v' -> res_same (target_same R) (hseq_target v n k) (hseq_target v' n k).
Proof.
  intros V. unfold hseq_target. destruct (str_eqb _ _); [repeat split; auto|]. destruct (py_int k); [|reflexivity].
  destruct (_ =? _)%Z; [repeat split; auto|]. destruct (_ && _)%bool; [repeat split; auto|reflexivity].
Qed.
Lemma hnode_same R h h' p v v' : heap_same R h h' -> val_same R v v' -> res_same (target_same R) (hnode v p h) (hnode v' p h').
Proof.
  intros G V. unfold hnode. destruct p as [|k p]; [repeat split|].
  eapply res_same_bind; [apply res_same_patch, heval_same; eauto|]. intros w w' W.
  eapply res_same_bind; [apply res_same_eq; reflexivity|]. intros key ? <-.
  destruct w as [|b|x|s|a], w' as [|b'|x'|s'|a']; try contradiction; try discriminate W; try reflexivity.
  - cbn in W. injection W as <-. apply hseq_same. reflexivity.
  - destruct (proj2 G _ _ W) as (o & o' & -> & -> & O). destruct o as [l|m], o' as [l'|m']; try contradiction; cbn in O.
    + rewrite <- (Forall2_len _ _ _ O). now apply hseq_same.
    + unfold dmem. pose proof (dget_same R m m' key O) as N.
      destruct (dget key m), (dget key m'); try contradiction; repeat split; auto.
Qed.

(** ** The operations. *)
Lemma Forall2_firstn {A B} (P : A -> B -> Prop) l l' n : Forall2 P l l' -> Forall2 P (firstn n l) (firstn n l').
Proof. intros F. revert n. induction F; intros [|n]; cbn; constructor; auto. Qed.
Lemma Forall2_skipn {A B} (P : A -> B -> Prop) l l' n : Forall2 P l l' -> Forall2 P (skipn n l) (skipn n l').
Proof. intros F. revert n. induction F; intros [|n]; cbn; try constructor; auto. Qed.
Lemma sim_insert R t t' v v' : target_same R t t' -> val_same R v v' -> sim R (hinsert t v) (hinsert t' v') (fun _ _ _ => True).
Proof.
  intros (T & X & P) V. unfold hinsert. rewrite <- X.
  destruct (ht_parent t) as [| | | |a], (ht_parent t') as [| | | |a']; try contradiction; try (apply sim_ret; reflexivity).
  eapply sim_bind; [now apply sim_get|]. intros R1 o o' S O. destruct o as [l|m], o' as [l'|m']; try contradiction; try (apply sim_ret; reflexivity).
  destruct (ht_index t); try (apply sim_ret; reflexivity). apply sim_set; auto. cbn in *.
  apply Forall2_app; [now apply Forall2_firstn|]. constructor; [eapply val_same_sub; eauto|now apply Forall2_skipn].
Qed.
Lemma sim_assign R t t' v v' : target_same R t t' -> val_same R v v' -> sim R (hassign t v) (hassign t' v') (fun _ _ _ => True).
Proof.
  intros (T & X & P) V. unfold hassign. rewrite <- X.
  destruct (ht_parent t) as [| | | |a], (ht_parent t') as [| | | |a']; try contradiction; try (apply sim_ret; reflexivity).
  eapply sim_bind; [now apply sim_get|]. intros R1 o o' S O. apply (val_same_sub R R1) in V; auto.
  destruct o as [l|m], o' as [l'|m']; try contradiction; destruct (ht_index t) as [i|k|]; try (apply sim_ret; reflexivity); (apply sim_set; [auto|]); cbn in *.
  - clear -O V. revert i. induction O; intros [|i]; cbn; constructor; auto.
  - clear -O V. induction O as [|[k1 w] [k2 w'] m m' [K W] F IH]; cbn in *; [repeat constructor; auto|]. subst.
    destruct (str_eqb k k2); constructor; auto.
Qed.
Lemma sim_delete R t t' : target_same R t t' -> sim R (hdelete t) (hdelete t') (fun _ _ _ => True).
Proof.
  intros (T & X & P). unfold hdelete. rewrite <- X.
  destruct (ht_parent t) as [| | | |a], (ht_parent t') as [| | | |a']; try contradiction; try (apply sim_ret; reflexivity).
  eapply sim_bind; [now apply sim_get|]. intros R1 o o' S O.
  destruct o as [l|m], o' as [l'|m']; try contradiction; destruct (ht_index t) as [i|k|]; try (apply sim_ret; reflexivity); (apply sim_set; [auto|]); cbn in *.
  - clear -O. revert i. induction O; intros [|i]; cbn; try constructor; auto.
  - clear -O. induction O as [|[k1 w] [k2 w'] m m' [K W] F IH]; cbn in *; [constructor|]. subst.
    destruct (str_eqb k k2); [|constructor]; auto.
Qed.
Lemma sim_node R v v' p : val_same R v v' -> sim R (hlook (hnode v p)) (hlook (hnode v' p)) target_same.
Proof. intros V. apply sim_look. intros R1 h h' S G. apply hnode_same; auto. eapply val_same_sub; eauto. Qed.
Lemma sim_done R (c c' : hm unit) v v' : sim R c c' (fun _ _ _ => True) -> val_same R v v' ->
  sim R (do _ <- c in hret (Ok v)) (do _ <- c' in hret (Ok v')) val_same.
Proof. intros H V. eapply sim_bind; [exact H|]. intros R1 _ _ S _. apply sim_ret. intros R2 S2. cbn. eapply val_same_sub; [|exact V]. eauto. Qed.
Lemma sim_val R v v' : val_same R v v' -> sim R (hret (Ok v)) (hret (Ok v')) val_same.
Proof. intros V. apply sim_ret. intros R2 S2. cbn. eapply val_same_sub; eauto. Qed.
Ltac exns := try (apply sim_ret; reflexivity).
Lemma sim_add fuel R doc doc' p v v' : val_same R doc doc' -> val_same R v v' -> sim R (h_add fuel doc p v) (h_add fuel doc' p v') val_same.
Proof.
  intros D V. unfold h_add. eapply sim_bind; [now apply sim_node|]. intros R1 t t' S1 T.
  eapply sim_bind; [apply sim_deepcopy; eapply val_same_sub; eauto|]. intros R2 w w' S2 W.
  assert (T' : target_same R2 t t') by (destruct T as (A & B & C); repeat split; auto; eapply val_same_sub; eauto).
  apply (val_same_sub R R2) in D; eauto. destruct T as (E & _). rewrite <- E.
  destruct (ht_type t); [now apply sim_val| | | |]; apply sim_done; auto using sim_insert, sim_assign.
Qed.
Lemma sim_remove R doc doc' p : val_same R doc doc' -> sim R (h_remove doc p) (h_remove doc' p) val_same.
Proof.
  intros D. unfold h_remove. eapply sim_bind; [now apply sim_node|]. intros R1 t t' S1 T. apply (val_same_sub R R1) in D; eauto.
  rewrite <- (proj1 T). destruct (ht_type t); exns; apply sim_done; auto using sim_delete.
Qed.
Lemma sim_replace fuel R doc doc' p v v' : val_same R doc doc' -> val_same R v v' -> sim R (h_replace fuel doc p v) (h_replace fuel doc' p v') val_same.
Proof.
  intros D V. unfold h_replace. eapply sim_bind; [now apply sim_node|]. intros R1 t t' S1 T.
  eapply sim_bind; [apply sim_deepcopy; eapply val_same_sub; eauto|]. intros R2 w w' S2 W.
  assert (T' : target_same R2 t t') by (destruct T as (A & B & C); repeat split; auto; eapply val_same_sub; eauto).
  apply (val_same_sub R R2) in D; eauto. rewrite <- (proj1 T).
  destruct (ht_type t); exns; [now apply sim_val| |]; apply sim_done; auto using sim_assign.
Qed.
Lemma sim_from R doc doc' f : val_same R doc doc' -> sim R (hlook (heval_from doc f)) (hlook (heval_from doc' f)) val_same.
Proof.
  intros D. apply sim_look. intros R1 h h' S G. destruct f; [|reflexivity]. apply res_same_patch, heval_same; auto. eapply val_same_sub; eauto.
Qed.
Definition op_same (R : rel) (o o' : hpatchop) : Prop :=
  ho_op o = ho_op o' /\ ho_path o = ho_path o' /\ ho_from o = ho_from o' /\ val_same R (ho_value o) (ho_value o').
Lemma sim_apply fuel R o o' doc doc' : op_same R o o' -> val_same R doc doc' -> sim R (h_apply fuel o doc) (h_apply fuel o' doc') val_same.
Proof.
  intros (E1 & E2 & E3 & V) D. unfold h_apply. rewrite <- E1, <- E2, <- E3. destruct (ho_op o).
  - now apply sim_add.
  - now apply sim_remove.
  - now apply sim_replace.
  - unfold h_move. eapply sim_bind; [now apply sim_from|]. intros R1 w w' S W. destruct (ho_from o); exns.
    eapply sim_bind; [apply sim_remove; eapply val_same_sub; eauto|]. intros R2 d d' S2 D2. apply sim_add; auto. eapply val_same_sub; eauto.
  - unfold h_copy. eapply sim_bind; [now apply sim_from|]. intros R1 w w' S W. apply sim_add; auto. eapply val_same_sub; eauto.
  - unfold h_test. eapply sim_bind; [now apply sim_node|]. intros R1 t t' S1 T. apply (val_same_sub R R1) in D; eauto. apply (val_same_sub R R1) in V; eauto.
    rewrite <- (proj1 T). assert (X : sim R1
      (do found <- hlook (heval (ho_path o) doc) in do a <- hlook (hread fuel found) in do b <- hlook (hread fuel (ho_value o)) in
       if json_eqb a b then hret (Ok doc) else hret (Exn EPatch))
      (do found <- hlook (heval (ho_path o) doc') in do a <- hlook (hread fuel found) in do b <- hlook (hread fuel (ho_value o')) in
       if json_eqb a b then hret (Ok doc') else hret (Exn EPatch)) val_same).
    { eapply sim_bind with (Q := val_same).
      - apply sim_look. intros R2 h h' S2 G2. apply heval_same; auto. eapply val_same_sub; eauto.
      - intros R2 x x' S2 X. eapply sim_bind with (Q := fun _ => eq).
        + apply sim_look. intros R3 h h' S3 G3. apply res_same_eq. eapply hread_same; eauto. eapply val_same_sub; eauto.
        + intros R3 j ? S3 <-. eapply sim_bind with (Q := fun _ => eq).
          * apply sim_look. intros R4 h h' S4 G4. apply res_same_eq. eapply hread_same; eauto. eapply val_same_sub; [|exact V]; eauto.
          * intros R4 j' ? S4 <-. destruct (json_eqb j j'); exns. apply sim_val. eapply val_same_sub; [|exact D]; eauto. }
    destruct (ht_type t); exns; exact X.
Qed.
Lemma sim_apply_all fuel : forall ops ops' R doc doc', Forall2 (op_same R) ops ops' -> val_same R doc doc' ->
  sim R (h_apply_all fuel ops doc) (h_apply_all fuel ops' doc') val_same.
Proof.
  intros ops ops' R doc doc' F. revert doc doc'.
  enough (K : forall R1 doc doc', sub R R1 -> val_same R1 doc doc' -> sim R1 (h_apply_all fuel ops doc) (h_apply_all fuel ops' doc') val_same) by eauto.
  induction F as [|o o' ops ops' O F IH]; intros R1 doc doc' S D; cbn; [now apply sim_val|].
  eapply sim_bind; [apply sim_apply; [|exact D]|].
  - destruct O as (E1 & E2 & E3 & V). repeat split; auto. eapply val_same_sub; eauto.
  - intros R2 d d' S2 D2. apply IH; eauto.
Qed.
Lemma sim_evaluate fuel R ops ops' doc doc' : Forall2 (op_same R) ops ops' -> val_same R doc doc' ->
  sim R (h_evaluate fuel ops doc) (h_evaluate fuel ops' doc') val_same.
Proof.
  intros F D. eapply sim_bind; [now apply sim_deepcopy|]. intros R1 d d' S D1. apply sim_apply_all; auto.
  eapply Forall2_mono; [|exact F]. intros o o' (E1 & E2 & E3 & V). repeat split; auto. eapply val_same_sub; eauto.
Qed.
