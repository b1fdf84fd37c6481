(** Editing keyword values keeps a schema the one that its document describes. *)
From Coq Require Import List Lia Bool.
From Verif Require Export SpecEdit BuildFacts.
Import ListNotations.
Open Scope nat_scope.

(** ** Schemas around a schema. *)
Inductive beneath (objs : list sobj) (t : sid) : sid -> Prop :=
| beneath_self : beneath objs t t
| beneath_up i o p ks : nth_error objs i = Some o -> so_up o = Some (p, ks) -> beneath objs t p -> beneath objs t i.
Lemma beneath_trans objs a b c : beneath objs a b -> beneath objs b c -> beneath objs a c.
Proof. intros H1 H2. induction H2 as [|i o p ks Ho Hu _ IH]; [exact H1|]. exact (beneath_up _ _ _ _ _ _ Ho Hu IH). Qed.
Lemma beneath_le objs t i : upward objs -> beneath objs t i -> t <= i.
Proof. intros U H. induction H as [|i o p ks Ho Hu _ IH]; [lia|]. pose proof (U _ _ _ _ Ho Hu). lia. Qed.
(** Of two such, one is around the other. *)
Lemma beneath_linear objs a b i : beneath objs a i -> beneath objs b i -> beneath objs a b \/ beneath objs b a.
Proof.
  intros H. revert b. induction H as [|i o p ks Ho Hu Hp IH]; intros b Hb; [now right|].
  inversion Hb as [|i' o' p' ks' Ho' Hu' Hb']; subst; [left; exact (beneath_up _ _ _ _ _ _ Ho Hu Hp)|].
  rewrite Ho in Ho'. injection Ho' as <-. rewrite Hu in Hu'. injection Hu' as <- <-. auto.
Qed.
Definition child (objs : list sobj) (r : sid) (ks : list pystr) (t : sid) : Prop := exists o, nth_error objs t = Some o /\ so_up o = Some (r, ks).
Lemma child_beneath objs r ks t : child objs r ks t -> beneath objs r t.
Proof. intros (o & Ho & Hu). exact (beneath_up _ _ _ _ _ _ Ho Hu (beneath_self _ _)). Qed.
Lemma child_below objs r ks t : upward objs -> child objs r ks t -> r < t.
Proof. intros U (o & Ho & Hu). exact (U _ _ _ _ Ho Hu). Qed.
Lemma child_around objs r ks a b : upward objs -> child objs r ks b -> beneath objs a b -> a = b \/ beneath objs a r.
Proof. intros U (o & Ho & Hu) H. inversion H as [|i o' p' ks' Ho' Hu' Hb']; subst; [now left|]. rewrite Ho in Ho'. injection Ho' as <-. rewrite Hu in Hu'. injection Hu' as <- <-. now right. Qed.
Lemma siblings_apart objs r ks ks' a b i : upward objs -> child objs r ks a -> child objs r ks' b -> beneath objs a i -> beneath objs b i -> a = b /\ ks = ks'.
Proof.
  intros U Ca Cb Ha Hb. assert (a = b).
  { destruct (beneath_linear _ _ _ _ Ha Hb) as [H|H].
    - destruct (child_around _ _ _ _ _ U Cb H) as [X|X]; [exact X|]. pose proof (beneath_le _ _ _ U X). pose proof (child_below _ _ _ _ U Ca). lia.
    - destruct (child_around _ _ _ _ _ U Ca H) as [X|X]; [now symmetry|]. pose proof (beneath_le _ _ _ U X). pose proof (child_below _ _ _ _ U Cb). lia. }
  subst b. split; [reflexivity|]. destruct Ca as (o & Ho & Hu). destruct Cb as (o' & Ho' & Hu'). congruence.
Qed.

(** ** Schemas that an edit does not concern. *)
Definition stays_under (objs objs' : list sobj) (t : sid) : Prop := forall i o, beneath objs t i -> nth_error objs i = Some o -> nth_error objs' i = Some o.
Definition stays_at (objs objs' : list sobj) (s : sid) (key : pystr) : Prop := forall ks t, child objs s (key :: ks) t -> stays_under objs objs' t.
Lemma stays_child objs objs' s ks t : stays_under objs objs' s -> child objs s ks t -> stays_under objs objs' t.
Proof. intros H C i o B. apply H. exact (beneath_trans _ _ _ _ (child_beneath _ _ _ _ C) B). Qed.
Lemma made_child E objs m b u v t s ks : made E objs m b u v t (Some (s, ks)) -> child objs s ks t.
Proof. apply made_up. Qed.
Lemma made_holds_stays E objs objs' :
  (forall m b u v s up, made E objs m b u v s up -> stays_under objs objs' s -> made E objs' m b u v s up) /\
  (forall m b s key c v j, holds E objs m b s key c v j -> stays_at objs objs' s key -> holds E objs' m b s key c v j).
Proof.
  apply made_holds_ind.
  - intros m b u x s up o Ho Hd Hup Hu A. apply (made_bool _ _ _ _ _ _ _ _ o); auto. apply A; [constructor|exact Ho].
  - intros m b u doc s up o kws Ho Hd Hup Hu N K C Kp _ IH Dep Ord Fo A. apply (made_object _ _ _ _ _ _ _ _ o kws); auto; [apply A; [constructor|exact Ho]|].
    intros key k v Hk Hv. apply (IH _ _ _ Hk Hv). intros ks t. apply stays_child. exact A.
  - intros. now apply holds_plain.
  - intros m b s key c v t Hc Ht IH A. apply holds_one; [exact Hc|]. apply IH. apply (A []). exact (made_child _ _ _ _ _ _ _ _ _ Ht).
  - intros m b s key c l ts Hc L Ht IH A. apply holds_many; [exact Hc|exact L|]. intros i v t Hv Hi. apply (IH _ _ _ Hv Hi). apply (A [str_of_nat i]). exact (made_child _ _ _ _ _ _ _ _ _ (Ht _ _ _ Hv Hi)).
  - intros. now apply holds_text.
  - intros m b s key c doc ts Hc N L Ht IH A. apply holds_named; [exact Hc|exact N|exact L|]. intros n v t Hv Hi. apply (IH _ _ _ Hv Hi). apply (A [n]). exact (made_child _ _ _ _ _ _ _ _ _ (Ht _ _ _ Hv Hi)).
Qed.
Definition made_stays E objs objs' := proj1 (made_holds_stays E objs objs').
Definition holds_stays E objs objs' := proj2 (made_holds_stays E objs objs').
(** A subschema that gets another key. *)
Lemma made_moved E objs objs' m b u v t s ks ks' o : made E objs m b u v t (Some (s, ks)) -> nth_error objs t = Some o -> nth_error objs' t = Some (with_up (Some (s, ks')) o) ->
  (forall ks x, child objs t ks x -> stays_under objs objs' x) -> made E objs' m b u v t (Some (s, ks')).
Proof.
  intros Md Ho Ho' A. inversion Md as [m0 b0 u0 x s0 up0 o0 Ho0 Hd Hup Hu|m0 b0 u0 doc s0 up0 o0 kws Ho0 Hd Hup Hu N K C Kp Hh Dep Ord Fo]; subst; rewrite Ho in Ho0; injection Ho0 as <-.
  - apply (made_bool _ _ _ _ _ _ _ _ (with_up (Some (s, ks')) o)); auto.
  - apply (made_object _ _ _ _ _ _ _ _ (with_up (Some (s, ks')) o) kws); auto.
    intros key k v0 Hk Hv. apply (holds_stays E objs objs'); [exact (Hh _ _ _ Hk Hv)|]. intros ks0 x. apply A.
Qed.

(** ** The metaschema and base URI in force. *)
Definition in_place (objs : list sobj) (m b : option uri) (up : option (sid * list pystr)) : Prop :=
  match up with None => b = None | Some (p, _) => m = metaschema_uri objs p /\ b = base_uri objs p end.
Lemma made_force E objs m b u doc s up o kws : upward objs -> nth_error objs s = Some o -> so_data o = SObj kws -> so_up o = up ->
  (match so_meta o with Some x => Some x | None => match up with Some _ => m | None => None end end) = applies E m doc ->
  in_place objs m b up -> made E objs m b u (JObj doc) s up -> metaschema_uri objs s = applies E m doc /\ base_uri objs s = base_of (so_uri o) b.
Proof.
  intros U Ho Hd Hup Fo P _. unfold metaschema_uri, base_uri. rewrite !climb_eq by exact U. rewrite Ho. rewrite <- Fo. rewrite Hup. unfold in_place, metaschema_uri, base_uri in P. destruct up as [[p ks]|].
  - destruct P as [-> ->]. split; [now destruct (so_meta o)|]. unfold base_of. now destruct (so_uri o).
  - subst b. split; [now destruct (so_meta o)|]. unfold base_of. now destruct (so_uri o).
Qed.

(** ** A change of one member. *)
Definition same_kind (v v' : json) : Prop := match v, v' with JArr _, JArr _ | JObj _, JObj _ => True | _, _ => False end.
Lemma amended_kind e p v v' : amended e p v v' -> same_kind v v'.
Proof. intros [? ? [] |?|?]; exact I. Qed.
Lemma dget_apart {A} k (v : A) m : dget k m = Some v -> exists m1 m2, m = m1 ++ (k, v) :: m2 /\ ~ In k (keys m1).
Proof.
  induction m as [|[a x] m IH]; [discriminate|]. cbn [dget]. destruct (str_eqb_spec k a) as [->|N].
  - intros [= ->]. exists [], m. split; [reflexivity|intros []].
  - intro H. destruct (IH H) as (m1 & m2 & -> & Nm). exists ((a, x) :: m1), m2. split; [reflexivity|]. cbn. intros [X|X]; [congruence|contradiction].
Qed.
Lemma dset_apart {A} k (x v : A) m1 m2 : ~ In k (keys m1) -> dset k v (m1 ++ (k, x) :: m2) = m1 ++ (k, v) :: m2.
Proof.
  induction m1 as [|[a y] m1 IH]; cbn [app dset keys map fst In]; intro N.
  - now rewrite str_eqb_refl.
  - destruct (str_eqb_spec k a) as [->|_]; [exfalso; apply N; now left|]. f_equal. apply IH. intro X. apply N. now right.
Qed.
Lemma keys_member {A} k (x v : A) m : dget k m = Some x -> keys (dset k v m) = keys m.
Proof. intro H. destruct (dget_apart _ _ _ H) as (m1 & m2 & -> & N). rewrite dset_apart by exact N. unfold keys. now rewrite !map_app. Qed.

Definition put_kws (key : pystr) (j : kjson) (kws : list (pystr * keyword)) : list (pystr * keyword) :=
  map (fun kk => (fst kk, if str_eqb (fst kk) key then with_json j (snd kk) else snd kk)) kws.
Lemma keys_put key j kws : keys (put_kws key j kws) = keys kws.
Proof. unfold keys, put_kws. rewrite map_map. reflexivity. Qed.
Lemma In_put key j kws a k' : In (a, k') (put_kws key j kws) -> exists k, In (a, k) kws /\ k' = if str_eqb a key then with_json j k else k.
Proof. unfold put_kws. rewrite in_map_iff. intros ([a0 k] & Q & H). cbn [fst snd] in Q. apply pair_equal_spec in Q. destruct Q as [-> <-]. eauto. Qed.
Lemma put_same key kws k : NoDup (keys kws) -> In (key, k) kws -> put_kws key (kw_json k) kws = kws.
Proof.
  intros N Hk. unfold put_kws. erewrite map_ext_in; [apply map_id|]. intros [a k'] H. cbn [fst snd]. destruct (str_eqb_spec a key) as [->|]; [|reflexivity].
  rewrite (NoDup_keys_eq _ _ _ _ N H Hk). now destruct k.
Qed.

Section Change.
Variable E : env.
Variables objs objs' : list sobj.
Hypothesis U : upward objs.

Lemma made_changed m b u doc s up o kws key k v v' j' :
  made E objs m b u (JObj doc) s up -> nth_error objs s = Some o -> so_data o = SObj kws -> In (key, k) kws -> dget key doc = Some v ->
  nth_error objs' s = Some (with_data (SObj (put_kws key j' kws)) o) ->
  (forall key' ks t, key' <> key -> child objs s (key' :: ks) t -> stays_under objs objs' t) -> same_kind v v' ->
  holds E objs' (applies E m doc) (base_of (so_uri o) b) s key (kw_class k) v' j' ->
  made E objs' m b u (JObj (dset key v' doc)) s up.
Proof.
  intros Md Ho Hd Hk Dv Ho' St Kd Hh'. inversion Md as [|m0 b0 u0 doc0 s0 up0 o0 kws0 Ho0 Hd0 Hup Hu N K C Kp Hh Dep Ord Fo]; subst. rewrite Ho in Ho0. injection Ho0 as <-. rewrite Hd in Hd0. injection Hd0 as <-.
  assert (Ek : keys (dset key v' doc) = keys doc) by exact (keys_member _ _ _ _ Dv).
  assert (Ea : applies E m (dset key v' doc) = applies E m doc).
  { unfold applies. destruct (str_eqb_spec (lit "$schema") key) as [X|X]; [rewrite <- X in *; rewrite dget_dset_same, Dv; now destruct v, v'|now rewrite dget_dset_other]. }
  assert (Eu : own_uri E u b (dset key v' doc) = own_uri E u b doc).
  { unfold own_uri. destruct (str_eqb_spec (lit "$id") key) as [X|X]; [rewrite <- X in *; rewrite dget_dset_same, Dv; now destruct v, v'|now rewrite dget_dset_other]. }
  refine (made_object E objs' m b u (dset key v' doc) s (so_up o) (with_data (SObj (put_kws key j' kws)) o) (put_kws key j' kws) Ho' eq_refl eq_refl _ _ _ _ _ _ _ _ _); rewrite ?Ea, ?Eu, ?keys_put, ?Ek; auto.
  - intros a k' Hin. apply In_put in Hin. destruct Hin as (k0 & Hin & ->). replace (kw_class (if str_eqb a key then with_json j' k0 else k0)) with (kw_class k0) by now destruct (str_eqb a key). exact (C _ _ Hin).
  - intros a k' w Hin Dw. apply In_put in Hin. destruct Hin as (k0 & Hin & ->). destruct (str_eqb_spec a key) as [->|Na].
    + rewrite dget_dset_same in Dw. injection Dw as <-. cbn [with_json kw_class kw_fragment kw_format]. specialize (Kp _ _ _ Hin Dv). destruct Kp as [K1 K2]. split.
      * destruct (kw_class k0) as [[]|]; try exact K1. destruct K1 as (t & -> & _). destruct v'; contradiction.
      * destruct (kw_class k0) as [[]|]; try exact K2. now destruct v, v'.
    + rewrite dget_dset_other in Dw by exact Na. exact (Kp _ _ _ Hin Dw).
  - intros a k' w Hin Dw. apply In_put in Hin. destruct Hin as (k0 & Hin & ->). destruct (str_eqb_spec a key) as [->|Na].
    + rewrite dget_dset_same in Dw. injection Dw as <-. rewrite (NoDup_keys_eq _ _ _ _ N Hin Hk). exact Hh'.
    + rewrite dget_dset_other in Dw by exact Na. apply (holds_stays E objs objs'); [exact (Hh _ _ _ Hin Dw)|]. intros ks t. now apply St.
  - intros a k' n Hin. apply In_put in Hin. destruct Hin as (k0 & Hin & ->). replace (kw_class (if str_eqb a key then with_json j' k0 else k0)) with (kw_class k0) by now destruct (str_eqb a key). exact (Dep _ _ _ Hin).
  - destruct Ord as (others & O1 & O2). exists others. rewrite Ek. split; [exact O1|exact O2].
Qed.

(** ** The same further up. *)
Lemma first_child m b s key c v k ks t : holds E objs m b s key c v (kw_json k) -> first_keys k ks t -> child objs s (key :: ks) t.
Proof.
  unfold first_keys. intros H F. destruct H as [| m b s key c v t0 Hc Ht | m b s key c l ts Hc L Ht | | m b s key c doc ts Hc N L Ht]; try contradiction.
  - destruct F as [-> ->]. exact (made_child _ _ _ _ _ _ _ _ _ Ht).
  - destruct F as (i & -> & Hi). destruct (nth_error l i) as [v|] eqn:Hv; [exact (made_child _ _ _ _ _ _ _ _ _ (Ht _ _ _ Hv Hi))|].
    apply nth_error_None in Hv. assert (i < length ts) by (apply nth_error_Some; congruence). lia.
  - destruct F as (n & -> & Hn). assert (X : In n (keys doc)) by (rewrite <- L; exact (dget_keys _ _ _ Hn)). destruct (keys_dget _ _ X) as [v Dv]. exact (made_child _ _ _ _ _ _ _ _ _ (Ht _ _ _ Dv Hn)).
Qed.
(** The document of a subschema. *)
Lemma first_made m b s key c v k ks t : holds E objs m b s key c v (kw_json k) -> first_keys k ks t -> exists w, made E objs m b None w t (Some (s, key :: ks)).
Proof.
  unfold first_keys. intros H F. destruct H as [| m b s key c v t0 Hc Ht | m b s key c l ts Hc L Ht | | m b s key c doc ts Hc N L Ht]; try contradiction.
  - destruct F as [-> ->]. eauto.
  - destruct F as (i & -> & Hi). destruct (nth_error l i) as [v|] eqn:Hv; [eauto|].
    apply nth_error_None in Hv. assert (i < length ts) by (apply nth_error_Some; congruence). lia.
  - destruct F as (n & -> & Hn). assert (X : In n (keys doc)) by (rewrite <- L; exact (dget_keys _ _ _ Hn)). destruct (keys_dget _ _ X) as [v Dv]. eauto.
Qed.
Lemma reached_beneath r p s : reached objs r p s -> forall m b u v up, made E objs m b u v r up -> beneath objs r s.
Proof.
  induction 1 as [r|r kws key k ks t p t' (o & Ho & Hd) Hk F R IH]; intros m b u v up Md; [constructor|].
  inversion Md as [m0 b0 u0 x s0 up0 o0 Ho0 Hd0 Hup Hu|m0 b0 u0 doc s0 up0 o0 kws0 Ho0 Hd0 Hup Hu N K C Kp Hh Dep Ord Fo]; subst; rewrite Ho in Ho0; injection Ho0 as <-; rewrite Hd in Hd0; [discriminate Hd0|].
  injection Hd0 as <-. assert (X : In key (keys doc)) by (apply K; exact (in_map fst _ _ Hk)). destruct (keys_dget _ _ X) as [v Dv].
  destruct (first_made _ _ _ _ _ _ _ _ _ (Hh _ _ _ Hk Dv) F) as [w Mt]. apply (beneath_trans _ _ t); [exact (child_beneath _ _ _ _ (made_child _ _ _ _ _ _ _ _ _ Mt))|exact (IH _ _ _ _ _ Mt)].
Qed.

Lemma amended_lift e tl s : (forall i o, nth_error objs i = Some o -> ~ beneath objs s i -> nth_error objs' i = Some o) ->
  (forall m b u v up, made E objs m b u v s up -> in_place objs m b up -> exists v', amended e tl v v' /\ made E objs' m b u v' s up) ->
  forall r p, reached objs r p s -> forall m b u v up, made E objs m b u v r up -> in_place objs m b up ->
  exists v', amended e (p ++ tl) v v' /\ made E objs' m b u v' r up.
Proof.
  intros Out Here r p R. remember s as s' eqn:Es in R. revert Es.
  induction R as [r|r kws key0 k ks t p t' (o & Ho & Hd) Hk F R IH]; intros Es m b u v up Md P; subst; [exact (Here _ _ _ _ _ Md P)|].
  inversion Md as [m0 b0 u0 x s0 up0 o0 Ho0 Hd0 Hup Hu|m0 b0 u0 doc s0 up0 o0 kws0 Ho0 Hd0 Hup Hu N K C Kp Hh Dep Ord Fo]; subst; rewrite Ho in Ho0; injection Ho0 as <-; rewrite Hd in Hd0; [discriminate Hd0|].
  injection Hd0 as <-. assert (X : In key0 (keys doc)) by (apply K; exact (in_map fst _ _ Hk)). destruct (keys_dget _ _ X) as [v Dv]. clear X.
  destruct (made_force E objs m b u doc r _ o kws U Ho Hd eq_refl Fo P Md) as [Em Eb].
  assert (Pt : forall ks0, in_place objs (applies E m doc) (base_of (so_uri o) b) (Some (r, ks0))) by (intro ks0; split; symmetry; [exact Em|exact Eb]).
  pose proof (Hh _ _ _ Hk Dv) as H0. pose proof (first_child _ _ _ _ _ _ _ _ _ H0 F) as Ct. pose proof (child_below _ _ _ _ U Ct) as Lt.
  assert (Bt : beneath objs t s) by (destruct (first_made _ _ _ _ _ _ _ _ _ H0 F) as [w Mt]; exact (reached_beneath _ _ _ R _ _ _ _ _ Mt)).
  assert (Ho' : nth_error objs' r = Some o).
  { apply Out; [exact Ho|]. intro B. pose proof (beneath_le _ _ _ U B). pose proof (beneath_le _ _ _ U Bt). lia. }
  assert (Sib : forall ks1 t1, child objs r ks1 t1 -> ks1 <> key0 :: ks -> stays_under objs objs' t1).
  { intros ks1 t1 C1 N1 i oi Bi Hi. apply Out; [exact Hi|]. intro B. apply N1. symmetry. apply (siblings_apart objs r _ _ t t1 i U Ct C1); [exact (beneath_trans _ _ _ _ Bt B)|exact Bi]. }
  assert (Fin : forall v', same_kind v v' -> amended e (ks ++ p ++ tl) v v' -> holds E objs' (applies E m doc) (base_of (so_uri o) b) r key0 (kw_class k) v' (kw_json k) ->
     exists w, amended e ((key0 :: ks ++ p) ++ tl) (JObj doc) w /\ made E objs' m b u w r (so_up o)).
  { intros v' Kd Am Hh'. exists (JObj (dset key0 v' doc)). split.
    - destruct (dget_apart _ _ _ Dv) as (m1 & m2 & -> & Nm). rewrite dset_apart by exact Nm. cbn [app]. apply ad_member; [exact Nm|]. now rewrite <- app_assoc.
    - apply (made_changed m b u doc r (so_up o) o kws key0 k v v' (kw_json k)); auto.
      + rewrite put_same by assumption. rewrite Ho'. destruct o; cbn in *. now rewrite Hd.
      + intros key' ks1 t1 Nk C1. apply (Sib _ _ C1). congruence. }
  revert Fin F. unfold first_keys. pose proof (fun ks1 w => IH eq_refl (applies E m doc) (base_of (so_uri o) b) None w (Some (r, ks1))) as IH'.
  destruct H0 as [| m1 b1 s1 key1 c1 v t0 Hc Ht | m1 b1 s1 key1 c1 l ts Hc L Ht | | m1 b1 s1 key1 c1 doc1 ts Hc N1 L Ht]; intros Fin F; try contradiction.
  - destruct F as [-> ->]. destruct (IH' _ _ Ht (Pt _)) as (v' & Am & Mt). apply (Fin v'); [exact (amended_kind _ _ _ _ Am)|exact Am|]. apply holds_one; assumption.
  - destruct F as (i & -> & Hi). assert (Li : i < length l) by (rewrite <- L; apply nth_error_Some; congruence). destruct (nth_error l i) as [x|] eqn:Hx; [|apply nth_error_None in Hx; lia].
    destruct (IH' _ _ (Ht _ _ _ Hx Hi) (Pt _)) as (x' & Am & Mt). destruct (nth_error_split _ _ Hx) as (l1 & l2 & -> & Ll).
    apply (Fin (JArr (l1 ++ x' :: l2))); [exact I|cbn [app]; rewrite <- Ll; now apply ad_item|]. apply holds_many; [exact Hc|rewrite L, !app_length; reflexivity|].
    intros n w t1 Hw Ht1. destruct (Nat.eq_dec n i) as [->|Nn].
    + rewrite Hi in Ht1. injection Ht1 as <-. rewrite nth_error_app2, Ll, Nat.sub_diag in Hw by lia. injection Hw as <-. exact Mt.
    + assert (Hw' : nth_error (l1 ++ x :: l2) n = Some w).
      { rewrite <- Hw. destruct (Nat.lt_ge_cases n (length l1)) as [Y|Y]; [now rewrite !nth_error_app1|]. rewrite !nth_error_app2 by exact Y. destruct (n - length l1) as [|q] eqn:Q; [lia|reflexivity]. }
      apply (made_stays E objs objs'); [exact (Ht _ _ _ Hw' Ht1)|]. apply (Sib _ _ (made_child _ _ _ _ _ _ _ _ _ (Ht _ _ _ Hw' Ht1))). intro Q. injection Q as Q. apply str_of_nat_inj in Q. lia.
  - destruct F as (n & -> & Hn). assert (X : In n (keys doc1)) by (rewrite <- L; exact (dget_keys _ _ _ Hn)). destruct (keys_dget _ _ X) as [x Dx]. clear X.
    destruct (IH' _ _ (Ht _ _ _ Dx Hn) (Pt _)) as (x' & Am & Mt). apply (Fin (JObj (dset n x' doc1))); [exact I| |].
    + destruct (dget_apart _ _ _ Dx) as (m2 & m3 & -> & Nm). rewrite dset_apart by exact Nm. cbn [app]. now apply ad_member.
    + apply holds_named; [exact Hc|rewrite (keys_member _ _ _ _ Dx); exact N1|rewrite (keys_member _ _ _ _ Dx); exact L|].
      intros a w t1 Hw Ht1. destruct (str_eqb_spec a n) as [->|Na].
      * rewrite Hn in Ht1. injection Ht1 as <-. rewrite dget_dset_same in Hw. injection Hw as <-. exact Mt.
      * rewrite dget_dset_other in Hw by exact Na. apply (made_stays E objs objs'); [exact (Ht _ _ _ Hw Ht1)|]. apply (Sib _ _ (made_child _ _ _ _ _ _ _ _ _ (Ht _ _ _ Hw Ht1))). congruence.
Qed.
End Change.

(** ** What the steps of an edit do. *)
Lemma with_up_same o up : so_up o = up -> with_up up o = o.
Proof. destruct o. cbn. now intros <-. Qed.
Lemma put_json_eq s key j c o kws : nth_error (c_objs c) s = Some o -> so_data o = SObj kws ->
  put_json s key j c = (Ok tt, mkCat (set_nth s (with_data (SObj (put_kws key j kws)) o) (c_objs c)) (c_cache c)).
Proof. intros Ho Hd. unfold put_json, update, modify. rewrite Ho, Hd. reflexivity. Qed.
Lemma relabel_eq s key ts : NoDup ts -> forall j c, exists c', relabel s key j ts c = (Ok tt, c') /\ length (c_objs c') = length (c_objs c) /\
  (forall n t o, nth_error ts n = Some t -> nth_error (c_objs c) t = Some o -> nth_error (c_objs c') t = Some (with_up (Some (s, [key; str_of_nat (j + n)])) o)) /\
  (forall i, ~ In i ts -> nth_error (c_objs c') i = nth_error (c_objs c) i).
Proof.
  induction ts as [|t ts IH]; intros N j c; cbn [relabel].
  - exists c. split; [reflexivity|]. split; [reflexivity|]. split; [intros [|n]; discriminate|reflexivity].
  - inversion N as [|? ? Nt N']; subst. unfold bindM, update, modify.
    set (c1 := match nth_error (c_objs c) t with Some o => put_obj t (with_up (Some (s, [key; str_of_nat j])) o) c | None => c end).
    destruct (IH N' (S j) c1) as (c' & R & L & H1 & H2). exists c'. split; [exact R|].
    assert (L1 : length (c_objs c1) = length (c_objs c)) by (unfold c1; destruct (nth_error (c_objs c) t); [apply length_set_nth|reflexivity]).
    assert (O1 : forall i, i <> t -> nth_error (c_objs c1) i = nth_error (c_objs c) i) by (intros i Hi; unfold c1; destruct (nth_error (c_objs c) t); [apply nth_set_nth_other; congruence|reflexivity]).
    split; [congruence|]. split.
    + intros [|n] t' o Hn Ho; cbn [nth_error] in Hn.
      * injection Hn as <-. rewrite H2 by exact Nt. unfold c1. rewrite Ho. cbn [put_obj c_objs]. rewrite Nat.add_0_r. apply nth_set_nth_same. apply nth_error_Some. congruence.
      * replace (j + S n) with (S j + n) by lia. apply (H1 n t' o Hn). rewrite O1; [exact Ho|]. intros ->. apply Nt. exact (nth_error_In _ _ Hn).
    + intros i Hi. cbn [In] in Hi. rewrite H2 by tauto. apply O1. intros ->. tauto.
Qed.

Section Here.
Variable E : env.
Variables objs objs' : list sobj.
Hypothesis U : upward objs.
Variables (m b u : option uri) (doc : list (pystr * json)) (s : sid) (up : option (sid * list pystr)) (o : sobj) (kws : list (pystr * keyword)) (key : pystr) (k : keyword) (v : json).
Hypothesis Md : made E objs m b u (JObj doc) s up.
Hypothesis Ho : nth_error objs s = Some o.
Hypothesis Hd : so_data o = SObj kws.
Hypothesis Hk : In (key, k) kws.
Hypothesis Dv : dget key doc = Some v.
Notation Ms := (applies E m doc).
Notation Bs := (base_of (so_uri o) b).

Lemma only_here v' j' : nth_error objs' s = Some (with_data (SObj (put_kws key j' kws)) o) -> (forall i, i <> s -> nth_error objs' i = nth_error objs i) ->
  same_kind v v' -> holds E objs Ms Bs s key (kw_class k) v' j' -> made E objs' m b u (JObj (dset key v' doc)) s up.
Proof.
  intros Ho' Oth Kd H.
  assert (St : forall ks t, child objs s ks t -> stays_under objs objs' t).
  { intros ks t C i oi B Hi. rewrite Oth; [exact Hi|]. intros ->. pose proof (beneath_le _ _ _ U B). pose proof (child_below _ _ _ _ U C). lia. }
  apply (made_changed E objs objs' m b u doc s up o kws key k v v' j' Md Ho Hd Hk Dv Ho'); [intros key' ks t _; apply St|exact Kd|].
  apply (holds_stays E objs objs'); [exact H|]. intros ks t. apply St.
Qed.

Lemma many_here l' ts' : nth_error objs' s = Some (with_data (SObj (put_kws key (KSubs ts') kws)) o) ->
  (forall i, i <> s -> ~ In i ts' -> nth_error objs' i = nth_error objs i) ->
  (forall n t ot, nth_error ts' n = Some t -> nth_error objs t = Some ot -> nth_error objs' t = Some (with_up (Some (s, [key; str_of_nat n])) ot)) ->
  same_kind v (JArr l') -> takes_many (kw_class k) -> length ts' = length l' ->
  (forall n w t, nth_error l' n = Some w -> nth_error ts' n = Some t -> exists ks, made E objs Ms Bs None w t (Some (s, key :: ks))) ->
  made E objs' m b u (JObj (dset key (JArr l') doc)) s up.
Proof.
  intros Ho' Oth Moved Kd T Len Mt.
  assert (Ch : forall t, In t ts' -> exists ks, child objs s (key :: ks) t).
  { intros t Ht. apply In_nth_error in Ht. destruct Ht as [n Hn]. destruct (nth_error l' n) as [w|] eqn:Hw.
    - destruct (Mt _ _ _ Hw Hn) as [ks M]. exists ks. exact (made_child _ _ _ _ _ _ _ _ _ M).
    - apply nth_error_None in Hw. assert (n < length ts') by (apply nth_error_Some; congruence). lia. }
  assert (St : forall key' ks t, key' <> key -> child objs s (key' :: ks) t -> stays_under objs objs' t).
  { intros key' ks t Nk C i oi B Hi. pose proof (child_below _ _ _ _ U C) as Lt. pose proof (beneath_le _ _ _ U B) as Li. rewrite Oth; [exact Hi|lia|].
    intro Hin. destruct (Ch _ Hin) as [ks' C']. destruct (child_around _ _ _ _ _ U C' B) as [->|X]; [|pose proof (beneath_le _ _ _ U X); lia].
    destruct C as (o1 & Ho1 & Hu1). destruct C' as (o2 & Ho2 & Hu2). congruence. }
  apply (made_changed E objs objs' m b u doc s up o kws key k v (JArr l') (KSubs ts') Md Ho Hd Hk Dv Ho' St Kd).
  apply holds_many; [exact T|exact Len|]. intros n w t Hw Hn. destruct (Mt _ _ _ Hw Hn) as [ks M]. pose proof (made_child _ _ _ _ _ _ _ _ _ M) as C. destruct C as (ot & Hot & Hut).
  apply (made_moved E objs objs' _ _ _ _ _ _ _ _ _ M Hot (Moved _ _ _ Hn Hot)).
  intros ks1 x C1 i oi B Hi. pose proof (child_below _ _ _ _ U C1) as L1. pose proof (U _ _ _ _ Hot Hut) as L2. pose proof (beneath_le _ _ _ U B) as L3. rewrite Oth; [exact Hi|lia|].
  intro Hin. destruct (Ch _ Hin) as [ks' C']. destruct (child_around _ _ _ _ _ U C' B) as [->|X]; [|pose proof (beneath_le _ _ _ U X); lia].
  destruct C1 as (o1 & Ho1 & Hu1). destruct C' as (o2 & Ho2 & Hu2). rewrite Ho1 in Ho2. injection Ho2 as <-. rewrite Hu1 in Hu2. injection Hu2 as Q _. lia.
Qed.
End Here.
