(** Running an edit. *)
From Coq Require Import List Lia Bool.
From Verif Require Export EditFacts.
Import ListNotations.
Open Scope nat_scope.

Lemma set_nth_at {A} (l1 : list A) x y l2 : set_nth (length l1) y (l1 ++ x :: l2) = l1 ++ y :: l2.
Proof. induction l1; simpl; auto. now rewrite IHl1. Qed.
Lemma drop_nth_at {A} (l1 : list A) x l2 : remove_nth (length l1) (l1 ++ x :: l2) = l1 ++ l2.
Proof. induction l1; simpl; auto. now rewrite IHl1. Qed.
Lemma add_nth_at {A} (l1 : list A) x l2 : insert_nth (length l1) x (l1 ++ l2) = l1 ++ x :: l2.
Proof. unfold insert_nth. rewrite firstn_app, Nat.sub_diag, firstn_all, firstn_O, app_nil_r. rewrite skipn_app, Nat.sub_diag, skipn_all. reflexivity. Qed.
Lemma ddel_apart {A} k (x : A) m1 m2 : ~ In k (keys m1) -> ddel k (m1 ++ (k, x) :: m2) = m1 ++ m2.
Proof.
  induction m1 as [|[a y] m1 IH]; cbn [app ddel keys map fst In]; intro N; [now rewrite str_eqb_refl|].
  destruct (str_eqb_spec k a) as [->|_]; [exfalso; apply N; now left|]. f_equal. apply IH. intro X. apply N. now right.
Qed.
Lemma dset_fresh {A} k (v : A) m : ~ In k (keys m) -> dset k v m = m ++ [(k, v)].
Proof.
  induction m as [|[a y] m IH]; cbn [app dset keys map fst In]; intro N; [reflexivity|].
  destruct (str_eqb_spec k a) as [->|_]; [exfalso; apply N; now left|]. f_equal. apply IH. intro X. apply N. now right.
Qed.
Lemma split_at {A} (l : list A) i : i <= length l -> exists l1 l2, l = l1 ++ l2 /\ length l1 = i.
Proof. intro H. exists (firstn i l), (skipn i l). split; [symmetry; apply firstn_skipn|now apply firstn_length_le]. Qed.
Lemma split_on {A} (l : list A) i : i < length l -> exists l1 x l2, l = l1 ++ x :: l2 /\ length l1 = i.
Proof. intro H. destruct (nth_error l i) as [x|] eqn:X; [|apply nth_error_None in X; lia]. destruct (nth_error_split _ _ X) as (l1 & l2 & Q & L). eauto. Qed.

(** On plain values. *)
Lemma amend_value_ok e v v' : amend_value e v = Ok v' -> amends e v v'.
Proof.
  destruct v as [|z0|z1|z2|l|m], e as [i x|i x|i|n x|n]; cbn [amend_value]; try discriminate.
  - destruct (Nat.ltb_spec i (length l)) as [H|]; [|discriminate]. intros [= <-]. destruct (split_on l i H) as (l1 & y & l2 & -> & <-). rewrite set_nth_at. apply am_put.
  - destruct (Nat.ltb_spec (length l) i) as [|H]; [discriminate|]. intros [= <-]. destruct (split_at l i H) as (l1 & l2 & -> & <-). rewrite add_nth_at. apply am_insert.
  - destruct (Nat.ltb_spec i (length l)) as [H|]; [|discriminate]. intros [= <-]. destruct (split_on l i H) as (l1 & y & l2 & -> & <-). rewrite drop_nth_at. apply am_drop.
  - intro H. apply (f_equal (fun r => match r with Ok y => y | _ => JNull end)) in H. subst v'. destruct (dget n m) as [y|] eqn:D.
    + destruct (dget_apart _ _ _ D) as (m1 & m2 & -> & N). rewrite dset_apart by exact N. now apply am_change.
    + apply dget_None in D. rewrite dset_fresh by exact D. now apply am_add.
  - unfold dmem. destruct (dget n m) as [y|] eqn:D; [|discriminate]. intro H. apply (f_equal (fun r => match r with Ok y => y | _ => JNull end)) in H. subst v'.
    destruct (dget_apart _ _ _ D) as (m1 & m2 & -> & N). rewrite ddel_apart by exact N. now apply am_remove.
Qed.
Lemma amends_kind e v v' : amends e v v' -> same_kind v v'.
Proof. now intros []. Qed.

Lemma amend_deep_ok q e : forall v v', amend_deep q e v = Ok v' -> amended e (map way_key q) v v'.
Proof.
  induction q as [|w q IH]; cbn [amend_deep map]; intros v v' H; [apply ad_here; now apply amend_value_ok|].
  destruct v as [|z0|z1|z2|l|m], w as [i|n]; try discriminate H.
  - destruct (nth_error l i) as [x|] eqn:Hx; [|discriminate H]. destruct (amend_deep q e x) as [x'| |] eqn:Q; try discriminate H. cbn in H. injection H as <-.
    destruct (nth_error_split _ _ Hx) as (l1 & l2 & -> & <-). rewrite set_nth_at. cbn [way_key]. apply ad_item. now apply IH.
  - destruct (dget n m) as [x|] eqn:D; [|discriminate H]. destruct (amend_deep q e x) as [x'| |] eqn:Q; try discriminate H. cbn in H. injection H as <-.
    destruct (dget_apart _ _ _ D) as (m1 & m2 & -> & N). rewrite dset_apart by exact N. apply ad_member; [exact N|]. now apply IH.
Qed.

Definition outside (objs objs' : list sobj) (s : sid) : Prop := forall i o, nth_error objs i = Some o -> ~ beneath objs s i -> nth_error objs' i = Some o.
Definition amends_here (E : env) (objs objs' : list sobj) (s : sid) (path : list pystr) (e : amendment) : Prop :=
  forall m b u v up, made E objs m b u v s up -> in_place objs m b up -> exists v', amended e path v v' /\ made E objs' m b u v' s up.
Lemma amended_deep e key q doc v v' : dget key doc = Some v -> amended e q v v' -> amended e (key :: q) (JObj doc) (JObj (dset key v' doc)).
Proof. intros D A. destruct (dget_apart _ _ _ D) as (m1 & m2 & -> & N). rewrite dset_apart by exact N. now apply ad_member. Qed.
Lemma amended_member e key doc v v' : dget key doc = Some v -> amends e v v' -> amended e [key] (JObj doc) (JObj (dset key v' doc)).
Proof. intros D A. apply (amended_deep _ _ _ _ _ _ D). now apply ad_here. Qed.

Section Runs.
Variable E : env.

(** *** Only the schema itself is changed. *)
Lemma put_effect s key j c o kws x c' : upward (c_objs c) -> nth_error (c_objs c) s = Some o -> so_data o = SObj kws -> put_json s key j c = (Ok x, c') ->
  nth_error (c_objs c') s = Some (with_data (SObj (put_kws key j kws)) o) /\ (forall i, i <> s -> nth_error (c_objs c') i = nth_error (c_objs c) i) /\
  outside (c_objs c) (c_objs c') s /\ upward (c_objs c') /\ length (c_objs c') = length (c_objs c).
Proof.
  intros U Ho Hd H. rewrite (put_json_eq _ _ _ _ _ _ Ho Hd) in H. apply (f_equal snd) in H. cbn [snd] in H. subst c'. cbn [c_objs].
  assert (Ls : s < length (c_objs c)) by (apply nth_error_Some; congruence).
  assert (Oth : forall i, i <> s -> nth_error (set_nth s (with_data (SObj (put_kws key j kws)) o) (c_objs c)) i = nth_error (c_objs c) i) by (intros i Hi; apply nth_set_nth_other; congruence).
  split; [now apply nth_set_nth_same|]. split; [exact Oth|]. split; [|split; [|apply length_set_nth]].
  - intros i oi Hi B. rewrite Oth; [exact Hi|]. intros ->. apply B. constructor.
  - intros i oi p ks Hi Hu. destruct (Nat.eq_dec i s) as [->|N].
    + rewrite nth_set_nth_same in Hi by exact Ls. injection Hi as <-. exact (U _ _ _ _ Ho Hu).
    + rewrite Oth in Hi by exact N. exact (U _ _ _ _ Hi Hu).
Qed.

(** *** The schema is changed, and some of its subschemas get other numbers. *)
Lemma many_effect s key hd tl c o kws x c' : upward (c_objs c) -> nth_error (c_objs c) s = Some o -> so_data o = SObj kws -> NoDup (hd ++ tl) ->
  (forall t, In t (hd ++ tl) -> exists ks, child (c_objs c) s (key :: ks) t) ->
  (forall n t, nth_error hd n = Some t -> child (c_objs c) s [key; str_of_nat n] t) ->
  (do _ <- put_json s key (KSubs (hd ++ tl)); relabel s key (length hd) tl) c = (Ok x, c') ->
  nth_error (c_objs c') s = Some (with_data (SObj (put_kws key (KSubs (hd ++ tl)) kws)) o) /\
  (forall i, i <> s -> ~ In i (hd ++ tl) -> nth_error (c_objs c') i = nth_error (c_objs c) i) /\
  (forall n t ot, nth_error (hd ++ tl) n = Some t -> nth_error (c_objs c) t = Some ot -> nth_error (c_objs c') t = Some (with_up (Some (s, [key; str_of_nat n])) ot)) /\
  outside (c_objs c) (c_objs c') s /\ upward (c_objs c') /\ length (c_objs c') = length (c_objs c).
Proof.
  intros U Ho Hd N Ch Pos H. apply bind_ok in H. destruct H as (x1 & c1 & H1 & H2).
  destruct (put_effect _ _ _ _ _ _ _ _ U Ho Hd H1) as (P1 & P2 & _ & P4 & P5).
  assert (Ntl : NoDup tl) by (clear -N; induction hd; [exact N|]; inversion N; auto).
  destruct (relabel_eq s key tl Ntl (length hd) c1) as (c2 & R & L & R1 & R2). rewrite R in H2. apply (f_equal snd) in H2. cbn [snd] in H2. subst c2.
  assert (Nots : forall t, In t (hd ++ tl) -> t <> s) by (intros t Ht ->; destruct (Ch _ Ht) as [ks C]; pose proof (child_below _ _ _ _ U C); lia).
  assert (A1 : nth_error (c_objs c') s = Some (with_data (SObj (put_kws key (KSubs (hd ++ tl)) kws)) o)).
  { rewrite R2; [exact P1|]. intro X. apply (Nots s); [apply in_or_app; now right|reflexivity]. }
  assert (A2 : forall i, i <> s -> ~ In i (hd ++ tl) -> nth_error (c_objs c') i = nth_error (c_objs c) i).
  { intros i Hi Hn. rewrite R2; [now apply P2|]. intro X. apply Hn, in_or_app. now right. }
  assert (A3 : forall n t ot, nth_error (hd ++ tl) n = Some t -> nth_error (c_objs c) t = Some ot -> nth_error (c_objs c') t = Some (with_up (Some (s, [key; str_of_nat n])) ot)).
  { intros n t ot Hn Hot. destruct (Nat.lt_ge_cases n (length hd)) as [X|X].
    - rewrite nth_error_app1 in Hn by exact X. destruct (Pos _ _ Hn) as (o' & Ho' & Hu'). rewrite Hot in Ho'. injection Ho' as <-. enough (Q : nth_error (c_objs c') t = Some ot) by (rewrite Q; f_equal; symmetry; exact (with_up_same _ _ Hu')).
      assert (Ht : In t hd) by exact (nth_error_In _ _ Hn). rewrite R2, P2; [exact Hot|apply Nots, in_or_app; now left|].
      intro Y. apply in_split in Ht. destruct Ht as (h1 & h2 & ->). rewrite <- app_assoc in N. cbn [app] in N. apply NoDup_remove_2 in N. apply N, in_or_app. right. apply in_or_app. now right.
    - rewrite nth_error_app2 in Hn by exact X. replace n with (length hd + (n - length hd)) by lia. apply (R1 _ _ _ Hn). rewrite P2; [exact Hot|]. apply Nots, in_or_app. right. exact (nth_error_In _ _ Hn). }
  split; [exact A1|]. split; [exact A2|]. split; [exact A3|]. split; [|split; [|congruence]].
  - intros i oi Hi B. rewrite A2; [exact Hi|intros ->; apply B; constructor|]. intro X. destruct (Ch _ X) as [ks C]. apply B. exact (child_beneath _ _ _ _ C).
  - intros i oi p ks Hi Hu. destruct (Nat.eq_dec i s) as [->|Ns].
    + rewrite A1 in Hi. injection Hi as <-. exact (U _ _ _ _ Ho Hu).
    + destruct (in_dec Nat.eq_dec i (hd ++ tl)) as [X|X].
      * destruct (Ch _ X) as (ks' & oc & Hoc & Huc). apply In_nth_error in X. destruct X as [n Hn]. rewrite (A3 _ _ _ Hn Hoc) in Hi. injection Hi as <-. injection Hu as <- <-. exact (U _ _ _ _ Hoc Huc).
      * rewrite A2 in Hi by assumption. exact (U _ _ _ _ Hi Hu).
Qed.

Lemma made_member objs m b u v s up o kws key k : upward objs -> made E objs m b u v s up -> in_place objs m b up -> nth_error objs s = Some o -> so_data o = SObj kws -> In (key, k) kws ->
  exists doc w, v = JObj doc /\ dget key doc = Some w /\ holds E objs (applies E m doc) (base_of (so_uri o) b) s key (kw_class k) w (kw_json k) /\
    metaschema_uri objs s = applies E m doc /\ base_uri objs s = base_of (so_uri o) b.
Proof.
  intros U Md P Ho Hd Hk. inversion Md as [m0 b0 u0 x s0 up0 o0 Ho0 Hd0 Hup Hu|m0 b0 u0 doc s0 up0 o0 kws0 Ho0 Hd0 Hup Hu N K C Kp Hh Dep Ord Fo]; subst; rewrite Ho in Ho0; injection Ho0 as <-; rewrite Hd in Hd0; [discriminate Hd0|].
  injection Hd0 as <-. assert (X : In key (keys doc)) by (apply K; exact (in_map fst _ _ Hk)). destruct (keys_dget _ _ X) as [w Dw].
  exists doc, w. split; [reflexivity|]. split; [exact Dw|]. split; [exact (Hh _ _ _ Hk Dw)|]. exact (made_force E objs m b u doc s _ o kws U Ho Hd eq_refl Fo P Md).
Qed.
Lemma holds_many_inv objs m b s key c w ts : holds E objs m b s key c w (KSubs ts) ->
  takes_many c /\ exists l, w = JArr l /\ length ts = length l /\ forall i v t, nth_error l i = Some v -> nth_error ts i = Some t -> made E objs m b None v t (Some (s, [key; str_of_nat i])).
Proof. intro H. inversion H; subst. eauto 8. Qed.
Lemma holds_named_inv objs m b s key c w ts : holds E objs m b s key c w (KSubm ts) ->
  takes_named c /\ exists d, w = JObj d /\ NoDup (keys d) /\ keys ts = keys d /\ forall n v t, dget n d = Some v -> dget n ts = Some t -> made E objs m b None v t (Some (s, [key; n])).
Proof. intro H. inversion H; subst. split; [assumption|]. eauto 8. Qed.
Lemma nth_Forall2 {A B} (R : A -> B -> Prop) l ts : length ts = length l -> (forall i v t, nth_error l i = Some v -> nth_error ts i = Some t -> R v t) -> Forall2 R l ts.
Proof.
  revert ts. induction l as [|v l IH]; intros [|t ts] L H; try discriminate L; constructor; [exact (H 0 _ _ eq_refl eq_refl)|].
  apply IH; [now injection L|]. intros i. exact (H (S i)).
Qed.
Lemma Forall2_nth {A B} (R : A -> B -> Prop) l ts : Forall2 R l ts -> forall i v t, nth_error l i = Some v -> nth_error ts i = Some t -> R v t.
Proof. induction 1 as [|v t l ts H _ IH]; intros [|i] v' t' Hv Ht; try discriminate; cbn in *; [congruence|eauto]. Qed.
Lemma Forall2_same {A B} (R : A -> B -> Prop) l ts : Forall2 R l ts -> length ts = length l.
Proof. induction 1; cbn; congruence. Qed.

(** The numbered subschemas of a keyword. *)
Definition in_row (objs : list sobj) (s : sid) (key : pystr) (ts : list sid) : Prop := forall n t, nth_error ts n = Some t -> child objs s [key; str_of_nat n] t.
Lemma row_NoDup objs s key ts : in_row objs s key ts -> NoDup ts.
Proof.
  intro H. apply NoDup_nth_error. intros i j Hi Q. destruct (nth_error ts i) as [t|] eqn:A; [|apply nth_error_None in A; lia]. symmetry in Q.
  destruct (H _ _ A) as (o & Ho & Hu). destruct (H _ _ Q) as (o' & Ho' & Hu'). rewrite Ho in Ho'. injection Ho' as <-. rewrite Hu in Hu'.
  apply (f_equal (fun y => match y with Some (_, [_; n]) => n | _ => [] end)) in Hu'. now apply str_of_nat_inj.
Qed.
Lemma many_row objs m b s key l ts : length ts = length l ->
  (forall i v t, nth_error l i = Some v -> nth_error ts i = Some t -> made E objs m b None v t (Some (s, [key; str_of_nat i]))) -> in_row objs s key ts.
Proof.
  intros L H n t Hn. destruct (nth_error l n) as [v|] eqn:Hv; [exact (made_child _ _ _ _ _ _ _ _ _ (H _ _ _ Hv Hn))|]. apply nth_error_None in Hv. assert (n < length ts) by (apply nth_error_Some; congruence). lia.
Qed.
Lemma row_child objs s key ts t : in_row objs s key ts -> In t ts -> exists ks, child objs s (key :: ks) t.
Proof. intros H Ht. apply In_nth_error in Ht. destruct Ht as [n Hn]. eauto. Qed.

Definition done (c c' : cat) (s : sid) (path : list pystr) (e : amendment) : Prop :=
  exists c1, same_old c c1 /\ upward (c_objs c1) /\ outside (c_objs c1) (c_objs c') s /\ amends_here E (c_objs c1) (c_objs c') s path e /\ upward (c_objs c') /\ length (c_objs c') = length (c_objs c1).

(** Edits of an array, in the form of the new list with the tail that gets other numbers. *)
Lemma many_done c c1 c' s key e o kws k ts hd tl x :
  same_old c c1 -> upward (c_objs c1) -> nth_error (c_objs c1) s = Some o -> so_data o = SObj kws -> In (key, k) kws -> kw_json k = KSubs ts ->
  NoDup (hd ++ tl) -> (forall t, In t (hd ++ tl) -> exists ks, child (c_objs c1) s (key :: ks) t) -> in_row (c_objs c1) s key hd ->
  (do _ <- put_json s key (KSubs (hd ++ tl)); relabel s key (length hd) tl) c1 = (Ok x, c') ->
  (forall m b l, metaschema_uri (c_objs c1) s = m -> base_uri (c_objs c1) s = b -> Forall2 (fun w t => exists ks, made E (c_objs c1) m b None w t (Some (s, key :: ks))) l ts ->
     exists l', amends e (JArr l) (JArr l') /\ Forall2 (fun w t => exists ks, made E (c_objs c1) m b None w t (Some (s, key :: ks))) l' (hd ++ tl)) ->
  done c c' s [key] e.
Proof.
  intros O1 U1 Ho Hd Hk Hj N Ch Row H Step. destruct (many_effect s key hd tl c1 o kws x c' U1 Ho Hd N Ch Row H) as (A1 & A2 & A3 & A4 & A5 & A6).
  exists c1. split; [exact O1|]. split; [exact U1|]. split; [exact A4|]. split; [|split; [exact A5|exact A6]].
  intros m b u v up Md P. destruct (made_member _ _ _ _ _ _ _ _ _ _ _ U1 Md P Ho Hd Hk) as (doc & w & -> & Dw & H0 & Em & Eb).
  rewrite Hj in H0. apply holds_many_inv in H0. destruct H0 as (T & l & -> & L & Mt).
  destruct (Step _ _ l Em Eb) as (l' & Am & F').
  { apply nth_Forall2; [exact L|]. intros i v t Hv Ht. exists [str_of_nat i]. exact (Mt _ _ _ Hv Ht). }
  exists (JObj (dset key (JArr l') doc)). split; [exact (amended_member _ _ _ _ _ Dw Am)|].
  apply (many_here E (c_objs c1) (c_objs c') U1 m b u doc s up o kws key k (JArr l) Md Ho Hd Hk Dw l' (hd ++ tl) A1 A2 A3); [exact I|exact T|exact (Forall2_same _ _ _ F')|exact (Forall2_nth _ _ _ F')].
Qed.

(** Edits that change the schema alone. *)
Lemma single_done c c1 c' s key q e o kws k j' x :
  same_old c c1 -> upward (c_objs c1) -> nth_error (c_objs c1) s = Some o -> so_data o = SObj kws -> In (key, k) kws -> put_json s key j' c1 = (Ok x, c') ->
  (forall m b w, metaschema_uri (c_objs c1) s = m -> base_uri (c_objs c1) s = b -> holds E (c_objs c1) m b s key (kw_class k) w (kw_json k) ->
     exists w', amended e q w w' /\ holds E (c_objs c1) m b s key (kw_class k) w' j') ->
  done c c' s (key :: q) e.
Proof.
  intros O1 U1 Ho Hd Hk H Step. destruct (put_effect s key j' c1 o kws x c' U1 Ho Hd H) as (A1 & A2 & A4 & A5 & A6).
  exists c1. split; [exact O1|]. split; [exact U1|]. split; [exact A4|]. split; [|split; [exact A5|exact A6]].
  intros m b u v up Md P. destruct (made_member _ _ _ _ _ _ _ _ _ _ _ U1 Md P Ho Hd Hk) as (doc & w & -> & Dw & H0 & Em & Eb).
  destruct (Step _ _ w Em Eb H0) as (w' & Am & H'). exists (JObj (dset key w' doc)). split; [exact (amended_deep _ _ _ _ _ _ Dw Am)|].
  exact (only_here E (c_objs c1) (c_objs c') U1 m b u doc s up o kws key k w Md Ho Hd Hk Dw w' j' A1 A2 (amended_kind _ _ _ _ Am) H').
Qed.

Lemma new_item_ok id s key n v c t c1 : upward (c_objs c) -> s < length (c_objs c) -> jwf v = true -> new_item E id s key n v c = (Ok t, c1) ->
  same_old c c1 /\ upward (c_objs c1) /\ t = length (c_objs c) /\ made E (c_objs c1) (metaschema_uri (c_objs c1) s) (base_uri (c_objs c1) s) None v t (Some (s, [key; n])).
Proof.
  intros U Ls J H. unfold new_item in H. assert (O1 : same_old c c1) by exact (framed_run _ _ _ _ _ (framed_build E id v None None _) H).
  destruct (build_ok E id v J None None (Some (s, [key; n])) c t c1 U (up_below s _ c Ls) H) as (Et & _ & U1 & _ & Mt).
  split; [exact O1|]. split; [exact U1|]. split; [exact Et|]. unfold outer_meta, outer_base, given_uri in Mt. rewrite (old_metaschema _ _ _ O1 U Ls), (old_base _ _ _ O1 U Ls). exact Mt.
Qed.

Lemma amend_done s key q e c x c' : upward (c_objs c) -> (forall v, item_of e = Some v -> jwf v = true) ->
  (exists m b u v up, made E (c_objs c) m b u v s up /\ in_place (c_objs c) m b up) -> amend_schema E s key q e c = (Ok x, c') -> done c c' s (key :: map way_key q) e.
Proof.
  intros U J (m0 & b0 & u0 & v0 & up0 & Md0 & P0) H. unfold amend_schema in H. apply bind_ok in H. destruct H as (oo & c0 & H1 & H). apply read_ok in H1. destruct H1 as [-> <-].
  destruct (nth_error (c_objs c) s) as [o|] eqn:Ho; [|discriminate H]. destruct (so_data o) as [|kws] eqn:Hd; [discriminate H|]. destruct (dget key kws) as [k|] eqn:Dk; [|discriminate H].
  assert (Hk : In (key, k) kws) by now apply dget_In. assert (Ls : s < length (c_objs c)) by (apply nth_error_Some; congruence).
  assert (Old : same_old c c) by apply pre_old.
  destruct (made_member _ _ _ _ _ _ _ _ _ _ _ U Md0 P0 Ho Hd Hk) as (doc0 & w0 & _ & _ & H0 & _ & _).
  assert (Keep : forall c1, same_old c c1 -> nth_error (c_objs c1) s = Some o) by (intros c1 [_ X]; rewrite X; assumption).
  assert (KeepRow : forall c1 ts, same_old c c1 -> in_row (c_objs c) s key ts -> in_row (c_objs c1) s key ts).
  { intros c1 ts [_ X] R n t Hn. destruct (R _ _ Hn) as (ot & Hot & Hut). exists ot. split; [rewrite X; [exact Hot|apply nth_error_Some; congruence]|exact Hut]. }
  destruct q as [|w1 q].
  2:{ destruct (kw_json k) as [pv|t0|ts|ts] eqn:Hj; try discriminate H. apply bind_ok in H. destruct H as (v' & c1 & H1 & H2). apply lift_ok in H1. destruct H1 as [Av <-].
    apply (single_done c c c' s key _ e o kws k (KJ v') x Old U Ho Hd Hk H2). intros m b w _ _ Hw. rewrite Hj in Hw. pose proof (amend_deep_ok _ _ _ _ Av) as Am.
    inversion Hw; subst.
    + exists v'. split; [exact Am|]. now apply holds_plain.
    + inversion Am. }
  cbn [map]. unfold amend_node in H. destruct (kw_json k) as [pv|t0|ts|ts] eqn:Hj.
  - (* plain *)
    assert (H' : (do v' <- lift (amend_value e pv); put_json s key (KJ v')) c = (Ok x, c')) by (destruct e; exact H). clear H.
    apply bind_ok in H'. destruct H' as (v' & c1 & H1 & H2). apply lift_ok in H1. destruct H1 as [Av <-].
    apply (single_done c c c' s key [] e o kws k (KJ v') x Old U Ho Hd Hk H2). intros m b w _ _ Hw. rewrite Hj in Hw. pose proof (amend_value_ok _ _ _ Av) as Am.
    inversion Hw; subst.
    + exists v'. split; [now apply ad_here|]. now apply holds_plain.
    + inversion Am.
  - destruct e; discriminate H.
  - (* array *)
    apply holds_many_inv in H0. destruct H0 as (T & l0 & _ & L0 & Mt0). pose proof (many_row _ _ _ _ _ _ _ L0 Mt0) as Row.
    destruct e as [i v|i v|i|n v|n]; try discriminate H.
    + apply bind_ok in H. destruct H as (t & c1 & H1 & H). destruct (new_item_ok _ _ _ _ _ _ _ _ U Ls (J _ eq_refl) H1) as (O1 & U1 & Et & Mt).
      destruct (Nat.ltb_spec i (length ts)) as [Li|]; [|discriminate H]. destruct (split_on ts i Li) as (t1 & y & t2 & -> & Lt). rewrite <- Lt in *. rewrite set_nth_at in H.
      assert (Row1 : in_row (c_objs c1) s key (t1 ++ t :: t2)).
      { intros n t' Hn. destruct (Nat.eq_dec n (length t1)) as [->|Nn].
        - rewrite nth_error_app2, Nat.sub_diag in Hn by lia. injection Hn as <-. exact (made_child _ _ _ _ _ _ _ _ _ Mt).
        - apply (KeepRow c1 _ O1 Row). rewrite <- Hn. destruct (Nat.lt_ge_cases n (length t1)) as [Y|Y]; [now rewrite !nth_error_app1|]. rewrite !nth_error_app2 by exact Y. destruct (n - length t1) as [|q] eqn:Q; [lia|reflexivity]. }
      apply (many_done c c1 c' s key _ o kws k (t1 ++ y :: t2) (t1 ++ t :: t2) [] x O1 U1 (Keep _ O1) Hd Hk Hj); rewrite ?app_nil_r.
      * exact (row_NoDup _ _ _ _ Row1).
      * intros t' Ht'. exact (row_child _ _ _ _ _ Row1 Ht').
      * exact Row1.
      * cbn [relabel]. unfold bindM. rewrite H. now destruct x.
      * intros m b l <- <- F. apply Forall2_app_inv_r in F. destruct F as (l1 & l2' & F1 & F2 & ->). inversion F2 as [|w y' l2 t2' Fy F2' ]; subst.
        exists (l1 ++ v :: l2). rewrite (Forall2_same _ _ _ F1). split; [apply am_put|]. apply Forall2_app; [exact F1|]. constructor; [eauto|exact F2'].
    + destruct (Nat.ltb_spec (length ts) i) as [|Li]; [discriminate H|].
      apply bind_ok in H. destruct H as (t & c1 & H1 & H). destruct (new_item_ok _ _ _ _ _ _ _ _ U Ls (J _ eq_refl) H1) as (O1 & U1 & Et & Mt).
      destruct (split_at ts i Li) as (t1 & t2 & -> & Lt). rewrite <- Lt in *. rewrite add_nth_at in H. rewrite skipn_app, Nat.sub_diag, skipn_all in H. cbn [app skipn] in H.
      replace (t1 ++ t :: t2) with ((t1 ++ [t]) ++ t2) in H by (rewrite <- app_assoc; reflexivity). replace (S (length t1)) with (length (t1 ++ [t])) in H by (rewrite app_length; cbn; lia).
      pose proof (KeepRow c1 _ O1 Row) as Row0.
      assert (New : ~ In t (t1 ++ t2)).
      { intro X. destruct (row_child _ _ _ _ _ Row X) as (ks & ot & Hot & _). assert (t < length (c_objs c)) by (apply nth_error_Some; congruence). lia. }
      apply (many_done c c1 c' s key _ o kws k (t1 ++ t2) (t1 ++ [t]) t2 x O1 U1 (Keep _ O1) Hd Hk Hj).
      * rewrite <- app_assoc. cbn [app]. apply (NoDup_Add (a := t) (l := t1 ++ t2)); [apply Add_app|]. split; [exact (row_NoDup _ _ _ _ Row)|exact New].
      * intros t' Ht'. rewrite <- app_assoc in Ht'. cbn [app] in Ht'. apply in_elt_inv in Ht'. destruct Ht' as [<-|Ht']; [eexists; exact (made_child _ _ _ _ _ _ _ _ _ Mt)|exact (row_child _ _ _ _ _ Row0 Ht')].
      * intros n t' Hn. destruct (Nat.lt_ge_cases n (length t1)) as [Y|Y].
        -- apply Row0. rewrite nth_error_app1 by exact Y. now rewrite nth_error_app1 in Hn by exact Y.
        -- rewrite nth_error_app2 in Hn by exact Y. destruct (n - length t1) as [|q] eqn:Q; [|destruct q; discriminate Hn]. injection Hn as <-. replace n with (length t1) by lia. exact (made_child _ _ _ _ _ _ _ _ _ Mt).
      * exact H.
      * intros m b l <- <- F. apply Forall2_app_inv_r in F. destruct F as (l1 & l2 & F1 & F2 & ->).
        exists (l1 ++ v :: l2). rewrite (Forall2_same _ _ _ F1). split; [apply am_insert|]. rewrite <- app_assoc. apply Forall2_app; [exact F1|]. constructor; [eauto|exact F2].
    + destruct (Nat.ltb_spec i (length ts)) as [Li|]; [|discriminate H]. destruct (split_on ts i Li) as (t1 & y & t2 & -> & Lt). rewrite <- Lt in *. rewrite drop_nth_at in H.
      replace (skipn (S (length t1)) (t1 ++ y :: t2)) with t2 in H.
      2:{ rewrite skipn_app. replace (S (length t1) - length t1) with 1 by lia. rewrite skipn_all2 by lia. reflexivity. }
      apply (many_done c c c' s key _ o kws k (t1 ++ y :: t2) t1 t2 x Old U Ho Hd Hk Hj).
      * apply (NoDup_remove_1 t1 t2 y). exact (row_NoDup _ _ _ _ Row).
      * intros t' Ht'. apply (row_child _ _ _ _ _ Row). apply in_app_iff in Ht'. apply in_app_iff. cbn [In]. tauto.
      * intros n t' Hn. apply Row. rewrite nth_error_app1; [exact Hn|]. apply nth_error_Some. congruence.
      * exact H.
      * intros m b l _ _ F. apply Forall2_app_inv_r in F. destruct F as (l1 & l2' & F1 & F2 & ->). inversion F2 as [|w y' l2 t2' Fy F2' ]; subst.
        exists (l1 ++ l2). rewrite (Forall2_same _ _ _ F1). split; [apply am_drop|]. now apply Forall2_app.
  - (* object *)
    destruct e as [i v|i v|i|n v|n]; try discriminate H.
    + apply bind_ok in H. destruct H as (t & c1 & H1 & H). destruct (new_item_ok _ _ _ _ _ _ _ _ U Ls (J _ eq_refl) H1) as (O1 & U1 & Et & Mt).
      apply (single_done c c1 c' s key [] _ o kws k (KSubm (dset n t ts)) x O1 U1 (Keep _ O1) Hd Hk H). intros m b w <- <- Hw. rewrite Hj in Hw.
      apply holds_named_inv in Hw. destruct Hw as (T & d & -> & Nd & Kd & Md). exists (JObj (dset n v d)). split.
      * apply ad_here. apply amend_value_ok. reflexivity.
      * apply holds_named; [exact T|now apply NoDup_dset| |].
        -- rewrite !keys_dset. unfold dmem. destruct (dget n ts) as [t'|] eqn:D1, (dget n d) as [v'|] eqn:D2; rewrite ?Kd; try reflexivity.
           ++ apply dget_keys in D1. rewrite Kd in D1. apply dget_None in D2. contradiction.
           ++ apply dget_keys in D2. rewrite <- Kd in D2. apply dget_None in D1. contradiction.
        -- intros a v' t' Hv Ht. destruct (str_eqb_spec a n) as [->|Na].
           ++ rewrite dget_dset_same in Hv. injection Hv as <-. pose proof (eq_trans (eq_sym (dget_dset_same n t ts)) Ht) as Q. injection Q as <-. exact Mt.
           ++ rewrite dget_dset_other in Hv by exact Na. pose proof (eq_trans (eq_sym (dget_dset_other a n t ts Na)) Ht) as Q. exact (Md _ _ _ Hv Q).
    + destruct (dmem n ts) eqn:Dm; [|discriminate H].
      apply (single_done c c c' s key [] _ o kws k (KSubm (ddel n ts)) x Old U Ho Hd Hk H). intros m b w _ _ Hw. rewrite Hj in Hw.
      apply holds_named_inv in Hw. destruct Hw as (T & d & -> & Nd & Kd & Md). exists (JObj (ddel n d)).
      assert (Dd : dmem n d = true) by (apply dmem_In; rewrite <- Kd; now apply dmem_In). split.
      * apply ad_here. apply amend_value_ok. cbn [amend_value]. now rewrite Dd.
      * apply holds_named; [exact T|now apply NoDup_ddel| |].
        -- unfold dmem in Dm, Dd. destruct (dget n ts) as [t'|] eqn:D1; [|discriminate Dm]. destruct (dget n d) as [v'|] eqn:D2; [|discriminate Dd].
           destruct (dget_apart _ _ _ D1) as (a1 & a2 & -> & N1). destruct (dget_apart _ _ _ D2) as (b1 & b2 & -> & N2). rewrite !ddel_apart by assumption.
           clear -Kd N1 N2. unfold keys in *. rewrite !map_app in *. cbn [map fst] in Kd. revert b1 N2 Kd. induction (map fst a1) as [|a l IH]; intros b1 N2 Kd; (destruct b1 as [|[b0 y] b1]; cbn [map fst app] in *).
           ++ now injection Kd.
           ++ injection Kd as -> _. exfalso. apply N2. now left.
           ++ injection Kd as -> _. exfalso. apply N1. now left.
           ++ injection Kd as -> Kd. f_equal. apply IH; [intro X; apply N1; now right|intro X; apply N2; now right|exact Kd].
        -- intros a v' t' Hv Ht. destruct (str_eqb_spec a n) as [->|Na].
           ++ rewrite dget_ddel_same in Hv by exact Nd. discriminate Hv.
           ++ rewrite dget_ddel_other in Hv by exact Na. pose proof (eq_trans (eq_sym (dget_ddel_other a n ts Na)) Ht) as Q. exact (Md _ _ _ Hv Q).
Qed.
End Runs.
