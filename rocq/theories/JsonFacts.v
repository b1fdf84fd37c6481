(** Proofs about JSON equality. *)
From Coq Require Import QArith Qpower.
From Verif Require Export BaseFacts SpecEq.
Open Scope nat_scope.

(** Induction over JSON values with the hypotheses for items and members. *)
Lemma json_induction (P : json -> Prop) :
  P JNull -> (forall b, P (JBool b)) -> (forall n, P (JNum n)) -> (forall s, P (JStr s)) ->
  (forall l, Forall P l -> P (JArr l)) ->
  (forall m, Forall (fun kv => P (snd kv)) m -> P (JObj m)) ->
  forall v, P v.
Proof.
  intros H1 H2 H3 H4 H5 H6.
  fix IH 1. intros [|b|n|s|l|m].
  - exact H1.
  - apply H2.
  - apply H3.
  - apply H4.
  - apply H5. induction l as [|v l IHl]; constructor; [apply IH|exact IHl].
  - apply H6. induction m as [|[k v] m IHm]; constructor; [apply IH|exact IHm].
Qed.

(** ** Numbers *)
Lemma Qpower2_pos e : (0 < Qpower (inject_Z 2) e)%Q.
Proof. apply Qpower_0_lt. reflexivity. Qed.

Lemma Qpower2_nonneg_Z e : (0 <= e)%Z -> (Qpower (inject_Z 2) e == inject_Z (2 ^ e))%Q.
Proof. intro H. now rewrite Zpower_Qpower. Qed.

Lemma dyad_scale m e f : (f <= e)%Z ->
  (inject_Z m * Qpower (inject_Z 2) e == inject_Z (m * 2 ^ (e - f)) * Qpower (inject_Z 2) f)%Q.
Proof.
  intro H. rewrite inject_Z_mult, <- Qpower2_nonneg_Z by lia.
  rewrite <- Qmult_assoc, <- Qpower_plus by (intro C; discriminate).
  replace (e - f + f)%Z with e by lia. reflexivity.
Qed.

Lemma Qcompare_scale a b c : (0 < c)%Q -> ((a * c) ?= (b * c))%Q = (a ?= b)%Q.
Proof.
  intro H. destruct (Qcompare_spec a b).
  - rewrite H0. now apply Qeq_alt.
  - apply Qlt_alt. now apply Qmult_lt_compat_r.
  - apply Qgt_alt. now apply Qmult_lt_compat_r.
Qed.

Lemma Qcompare_inject a b : (inject_Z a ?= inject_Z b)%Q = (a ?= b)%Z.
Proof. unfold Qcompare, inject_Z. simpl. now rewrite !Z.mul_1_r. Qed.

Lemma dyad_compare_Q m1 e1 m2 e2 :
  dyad_compare m1 e1 m2 e2 =
  (inject_Z m1 * Qpower (inject_Z 2) e1 ?= inject_Z m2 * Qpower (inject_Z 2) e2)%Q.
Proof.
  unfold dyad_compare. cbv zeta. set (e := Z.min e1 e2).
  rewrite (dyad_scale m1 e1 e), (dyad_scale m2 e2 e) by lia.
  now rewrite Qcompare_scale, Qcompare_inject by apply Qpower2_pos.
Qed.

(** Comparison of finite numbers is the comparison of their values. *)
Lemma num_compare_Q a b x y : num_Q a = Some x -> num_Q b = Some y ->
  num_compare a b = Some (x ?= y)%Q.
Proof.
  assert (I : forall z, (inject_Z z * Qpower (inject_Z 2) 0 == inject_Z z)%Q)
    by (intro z; simpl; ring).
  destruct a, b; simpl; intros Ha Hb; try discriminate;
    injection Ha as <-; injection Hb as <-; f_equal.
  - now rewrite Qcompare_inject.
  - rewrite dyad_compare_Q. now rewrite I.
  - rewrite dyad_compare_Q. now rewrite I.
  - apply dyad_compare_Q.
Qed.

Lemma num_finite a : (exists x, num_Q a = Some x) \/ (exists s, a = NInf s) \/ a = NNan.
Proof. destruct a; simpl; eauto. Qed.

Lemma num_eqb_same a b : num_eqb a b = true <-> same_number a b.
Proof.
  unfold num_eqb, same_number.
  destruct (num_finite a) as [(x & Ea)|[(s & ->)| ->]], (num_finite b) as [(y & Eb)|[(t & ->)| ->]];
    rewrite ?Ea, ?Eb; simpl.
  - rewrite (num_compare_Q a b x y Ea Eb). rewrite Qeq_alt. destruct (x ?= y)%Q; split; congruence.
  - destruct a; try discriminate; destruct t; simpl; split; intro; try discriminate; contradiction.
  - destruct a; try discriminate; simpl; split; intro; try discriminate; contradiction.
  - destruct b; try discriminate; destruct s; simpl; split; intro; try discriminate; contradiction.
  - destruct s, t; split; intro; try discriminate; auto.
  - split; intro; try discriminate; contradiction.
  - destruct b; try discriminate; simpl; split; intro; try discriminate; contradiction.
  - split; intro; try discriminate; contradiction.
  - split; intro; try discriminate; contradiction.
Qed.

Lemma same_number_refl a : a <> NNan -> same_number a a.
Proof.
  unfold same_number. destruct a; simpl; intro; try reflexivity; congruence.
Qed.
Lemma same_number_sym a b : same_number a b -> same_number b a.
Proof.
  unfold same_number. destruct a, b; simpl; intro H; auto; try now symmetry.
Qed.
Lemma same_number_trans a b c : same_number a b -> same_number b c -> same_number a c.
Proof.
  unfold same_number. destruct a, b, c; simpl; intros H H'; auto; try contradiction;
    try (etransitivity; eauto).
Qed.

(** ** Values *)
Lemma json_eqb_arr l l' :
  json_eqb (JArr l) (JArr l') = true <-> Forall2 (fun x y => json_eqb x y = true) l l'.
Proof.
  cbn [json_eqb]. revert l'. induction l as [|x l IH]; destruct l' as [|y l'].
  - split; constructor.
  - split; intro H; [discriminate|inversion H].
  - split; intro H; [discriminate|inversion H].
  - rewrite andb_true_iff, IH. split.
    + intros []; constructor; auto.
    + intro H; inversion H; auto.
Qed.

Lemma json_eqb_obj m m' :
  json_eqb (JObj m) (JObj m') = true <->
  length m = length m' /\
  (forall k v, In (k, v) m -> exists v', dget k m' = Some v' /\ json_eqb v v' = true).
Proof.
  cbn [json_eqb]. rewrite !andb_true_iff, Nat.eqb_eq, forallb_forall.
  set (go := fix go (m : list (pystr * json)) : bool := match m with [] => true | _ => _ end).
  assert (G : forall m, go m = true <->
    forall k v, In (k, v) m -> exists v', dget k m' = Some v' /\ json_eqb v v' = true).
  { clear. induction m as [|[k v] m IH].
    - split; auto. intros _ k v [].
    - change (go ((k, v) :: m)) with
        (match dget k m' with Some v' => json_eqb v v' | None => false end && go m).
      rewrite andb_true_iff, IH. split.
      + intros [H1 H2] k0 v0 [E|E]; auto. injection E as -> ->.
        destruct (dget k0 m'); [eauto|discriminate].
      + intro H. split.
        * destruct (H k v) as (v' & -> & E); auto. now left.
        * intros k0 v0 Hin. apply H. now right. }
  rewrite G. split.
  - tauto.
  - intros [H1 H2]. repeat split; auto. intros k Hk. apply in_map_iff in Hk as ([k' v] & <- & Hin).
    destruct (H2 _ _ Hin) as (v' & E & _). unfold dmem. simpl. now rewrite E.
Qed.

Lemma jwf_obj m : jwf (JObj m) = true <-> NoDup (keys m) /\ Forall (fun kv => jwf (snd kv) = true) m.
Proof.
  cbn [jwf]. rewrite andb_true_iff, nodup_keysb_NoDup, forallb_forall, Forall_forall. reflexivity.
Qed.
Lemma jwf_arr l : jwf (JArr l) = true <-> Forall (fun v => jwf v = true) l.
Proof. cbn [jwf]. rewrite forallb_forall, Forall_forall. reflexivity. Qed.

Lemma json_eqb_jeq a b : jwf a = true -> jwf b = true -> (json_eqb a b = true <-> jeq a b).
Proof.
  revert b. induction a as [| | | |l IH|m IH] using json_induction; intros [| | | |l'|m'] Wa Wb;
    try (split; intro H; [discriminate|inversion H]).
  - split; intro; [constructor|reflexivity].
  - cbn [json_eqb]. split; intro H.
    + apply Bool.eqb_prop in H as ->. constructor.
    + inversion H; subst. apply Bool.eqb_reflx.
  - cbn [json_eqb]. rewrite num_eqb_same. split; intro H; [now constructor|now inversion H].
  - cbn [json_eqb]. rewrite str_eqb_eq. split; intro H; [subst; constructor|now inversion H].
  - rewrite json_eqb_arr. apply jwf_arr in Wa, Wb. split.
    + intro H. constructor.
      * clear - H. induction H; simpl; congruence.
      * intros n x y Hx Hy. rewrite Forall_forall in IH, Wa, Wb.
        apply IH; eauto using nth_error_In.
        clear - H Hx Hy. revert n Hx Hy. induction H; intros [|n] Hx Hy; try discriminate; simpl in *.
        -- congruence.
        -- eauto.
    + intro H. inversion H as [| | | |? ? HL HN|]; subst. clear H. revert l' HL HN Wb.
      induction l as [|x l IHl]; intros [|y l'] HL HN Wb; try discriminate; constructor.
      * inversion IH; inversion Wa; inversion Wb; subst. apply H1; auto. apply (HN 0); reflexivity.
      * inversion IH; inversion Wa; inversion Wb; subst. apply IHl; auto.
        intros n x' y' Hx Hy. apply (HN (S n)); auto.
  - rewrite json_eqb_obj. apply jwf_obj in Wa as [Na Wa], Wb as [Nb Wb].
    rewrite Forall_forall in IH, Wa, Wb. split.
    + intros [HL HM]. constructor.
      * assert (I : incl (keys m) (keys m')).
        { intros k Hk. apply in_map_iff in Hk as ([k' v] & <- & Hin).
          destruct (HM _ _ Hin) as (v' & E & _). apply dget_In in E. now apply (in_map fst) in E. }
        intro k; split; [apply I|].
        apply NoDup_length_incl; auto. unfold keys. rewrite !map_length. lia.
      * intros k x y Hx Hy. destruct (HM _ _ Hx) as (v' & E & J).
        rewrite (In_dget k y m') in E by auto. injection E as <-.
        apply (IH (k, x)); auto. now apply (Wb (k, y)).
    + intro H. inversion H as [| | | | |? ? HK HV]; subst. split.
      * assert (E : length (keys m) = length (keys m')).
        { apply Nat.le_antisymm; apply NoDup_incl_length; auto; intros k; apply HK. }
        unfold keys in E. now rewrite !map_length in E.
      * intros k v Hin. assert (K : In k (keys m')) by (apply HK; now apply (in_map fst) in Hin).
        apply in_map_iff in K as ([k' v'] & E & Hin'). simpl in E. subst k'. exists v'. split.
        -- now apply In_dget.
        -- apply (IH (k, v)); auto; [now apply (Wb (k, v'))|]. eauto.
Qed.

Lemma jeq_refl a : jwf a = true -> nan_free a = true -> jeq a a.
Proof.
  induction a as [| | | |l IH|m IH] using json_induction; intros W F; try constructor; auto.
  - apply same_number_refl. destruct n; simpl in F; congruence.
  - intros n x y Hx Hy. rewrite Hx in Hy. injection Hy as <-.
    apply jwf_arr in W. cbn [nan_free] in F. rewrite forallb_forall in F. rewrite Forall_forall in IH, W.
    apply nth_error_In in Hx. auto.
  - tauto.
  - intros k x y Hx Hy. apply jwf_obj in W as [N W]. cbn [nan_free] in F.
    rewrite forallb_forall in F. rewrite Forall_forall in IH, W.
    apply (In_dget k x m N) in Hx as Ex. apply (In_dget k y m N) in Hy as Ey.
    rewrite Ex in Ey. injection Ey as <-. apply (IH (k, x)); auto.
Qed.

Lemma jeq_sym a b : jeq a b -> jeq b a.
Proof.
  induction 1; constructor; auto using same_number_sym.
  - intros n x y Hx Hy. eauto.
  - intro k. symmetry. auto.
  - intros k x y Hx Hy. eauto.
Qed.

Lemma jeq_trans a b c : jeq a b -> jeq b c -> jeq a c.
Proof.
  intro H. revert c. induction H; intros c Hc; auto; inversion Hc; subst; constructor.
  - eapply same_number_trans; eauto.
  - congruence.
  - intros n x z Hx Hz. destruct (nth_error l' n) as [y|] eqn:Hy; eauto.
    apply nth_error_None in Hy. assert (nth_error l n <> None) by congruence.
    apply nth_error_Some in H2. lia.
  - intro k. rewrite H. auto.
  - intros k x z Hx Hz.
    assert (K : In k (map fst m')) by (apply H; now apply (in_map fst) in Hx).
    apply in_map_iff in K as ([k' y] & E & Hin). simpl in E; subst. eauto.
Qed.

Lemma json_eqb_refl a : jwf a = true -> nan_free a = true -> json_eqb a a = true.
Proof. intros. apply json_eqb_jeq; auto. now apply jeq_refl. Qed.
Lemma json_eqb_sym a b : jwf a = true -> jwf b = true -> json_eqb a b = json_eqb b a.
Proof.
  intros Wa Wb. pose proof (json_eqb_jeq a b Wa Wb) as H1. pose proof (json_eqb_jeq b a Wb Wa) as H2.
  destruct (json_eqb a b), (json_eqb b a); auto.
  - symmetry. apply H2. apply jeq_sym. now apply H1.
  - apply H1. apply jeq_sym. now apply H2.
Qed.
Lemma json_eqb_trans a b c : jwf a = true -> jwf b = true -> jwf c = true ->
  json_eqb a b = true -> json_eqb b c = true -> json_eqb a c = true.
Proof.
  intros Wa Wb Wc. rewrite !json_eqb_jeq by auto. apply jeq_trans.
Qed.
