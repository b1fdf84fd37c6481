(** Detailed and hierarchical output are as specified. *)
From Coq Require Import List Bool Lia.
From Verif Require Export SpecOutline HierFacts.
Import ListNotations.
Open Scope nat_scope.

Lemma detailed_visit_eq uri v n :
  detailed_visit uri v n =
  match map (detailed_visit uri v) (of_verdict v n) with
  | [] => JObj (location uri n ++ (if is_null (msgval v n) then [] else [(msgkey v, msgval v n)]))
  | [o] => o
  | kids => JObj (location uri n ++ [(childkey v, JArr kids)])
  end.
Proof.
  destruct n as [k p rp s ip va a d an er rf cs]. unfold of_verdict. cbn [detailed_visit r_children].
  match goal with |- match ?k with _ => _ end = _ => replace k with (map (detailed_visit uri v) (filter (fun c => Bool.eqb (r_valid c) v) (map snd cs))) end; [destruct (map (detailed_visit uri v) _) as [|? [|? ?]]; reflexivity|].
  induction cs as [|[ck c] cs IH]; [reflexivity|]. cbn [map snd filter]. destruct (Bool.eqb (r_valid c) v); cbn [map]; now rewrite IH.
Qed.
Lemma of_verdict_In v n c : In c (of_verdict v n) <-> exists key, In (key, c) (r_children n) /\ r_valid c = v.
Proof.
  unfold of_verdict. rewrite filter_In, in_map_iff. split.
  - intros [([key c'] & E & H) B]. cbn in E. subst c'. exists key. split; [exact H|]. now apply eqb_prop.
  - intros (key & H & <-). split; [now exists (key, c)|]. apply eqb_reflx.
Qed.
Lemma Forall2_map_all {A B} (R : A -> B -> Prop) (f : A -> B) l : (forall a, In a l -> R a (f a)) -> Forall2 R l (map f l).
Proof. induction l as [|a l IH]; intro H; cbn [map]; constructor; [apply H; now left|apply IH; intros; apply H; now right]. Qed.
Lemma detailed_condensed uri v n : condensed uri v n (detailed_visit uri v n).
Proof.
  induction n as [n IH] using rnode_induction. rewrite Forall_forall in IH. rewrite detailed_visit_eq.
  assert (F : Forall2 (condensed uri v) (of_verdict v n) (map (detailed_visit uri v) (of_verdict v n))).
  { apply Forall2_map_all. intros c Hc. apply of_verdict_In in Hc. destruct Hc as (key & Hc & _). exact (IH _ Hc). }
  destruct (of_verdict v n) as [|c [|c' l]] eqn:K; cbn [map] in *.
  - apply condensed_end; [exact K|apply location_fields| |]; destruct v; cbn [msgval message]; destruct n as [k p rp s ip va a d an er rf cs]; cbn; [destruct an|destruct er|destruct an|destruct er]; reflexivity.
  - eapply condensed_one; [exact K|]. now inversion F.
  - eapply condensed_more; [rewrite K; cbn; lia|apply location_fields| | |rewrite K; exact F]; destruct v; reflexivity.
Qed.
Lemma Forall2_left {A B} (R : A -> B -> Prop) l l' a : Forall2 R l l' -> In a l -> exists b, In b l' /\ R a b.
Proof. induction 1 as [|x y l l' H F IH]; intros []; [subst; exists y; split; [now left|exact H]|]. destruct (IH H0) as (b & Hb & Hr). exists b. split; [now right|exact Hr]. Qed.
Lemma Forall2_right {A B} (R : A -> B -> Prop) l l' b : Forall2 R l l' -> In b l' -> exists a, In a l /\ R a b.
Proof. induction 1 as [|x y l l' H F IH]; intros []; [subst; exists x; split; [now left|exact H]|]. destruct (IH H0) as (a & Ha & Hr). exists a. split; [now right|exact Hr]. Qed.

Lemma condensed_tells uri v : forall n o, r_valid n = v -> condensed uri v n o -> forall x,
  tells v o x <-> exists m, linked_by (fun c => Bool.eqb (r_valid c) v) n m /\ of_verdict v m = [] /\ message v m = x /\ x <> JNull.
Proof.
  induction n as [n IH] using rnode_induction. rewrite Forall_forall in IH. intros o V C x. assert (Ok : Bool.eqb (r_valid n) v = true) by (rewrite V; apply eqb_reflx).
  assert (Step : forall m, linked_by (fun c => Bool.eqb (r_valid c) v) n m -> of_verdict v m = [] ->
    (m = n /\ of_verdict v n = []) \/ exists c, In c (of_verdict v n) /\ linked_by (fun c => Bool.eqb (r_valid c) v) c m).
  { intros m L E. inversion L as [? O|? key c ? O Hc Lc]; subst; [now left|]. right. exists c. split; [|exact Lc]. apply of_verdict_In. exists key. split; [exact Hc|].
    inversion Lc as [? O'|? ? ? ? O' _ _]; subst; now apply eqb_prop. }
  destruct C as [n o K S M L|n c o K C|n os o K S M L F].
  - split.
    + intro T. destruct T as [o x F|o os o' x F _ _]; [|congruence]. rewrite M in F. exists n. split; [now constructor|]. split; [exact K|].
      destruct (message v n); cbn in F; try discriminate F; injection F as <-; split; try reflexivity; discriminate.
    + intros (m & Lk & E & <- & N). destruct (Step m Lk E) as [[-> _]|(c & Hc & _)]; [|rewrite K in Hc; destruct Hc]. apply tells_here. rewrite M. destruct (message v n); try reflexivity. congruence.
  - assert (Hc : In c (of_verdict v n)) by (rewrite K; now left). apply of_verdict_In in Hc. destruct Hc as (key & Hc & Vc). rewrite (IH _ Hc o Vc C x). cbn [snd]. split.
    + intros (m & Lk & R). exists m. split; [eapply lb_below; eauto|exact R].
    + intros (m & Lk & E & R). destruct (Step m Lk E) as [[-> E']|(c' & Hc' & Lc)]; [congruence|]. rewrite K in Hc'. destruct Hc' as [<-|[]]. exists m. auto.
  - split.
    + intro T. destruct T as [o x G|o os' o' x G Hin T]; [congruence|]. rewrite L in G. injection G as <-. destruct (Forall2_right _ _ _ _ F Hin) as (c & Hc & C).
      apply of_verdict_In in Hc. destruct Hc as (key & Hc & Vc). apply (IH _ Hc o' Vc C x) in T. destruct T as (m & Lk & R). exists m. split; [eapply lb_below; eauto|exact R].
    + intros (m & Lk & E & R). destruct (Step m Lk E) as [[-> E']|(c & Hc & Lc)]; [rewrite E' in K; cbn in K; lia|]. destruct (Forall2_left _ _ _ _ F Hc) as (o' & Ho & C).
      apply of_verdict_In in Hc. destruct Hc as (key & Hc & Vc). eapply tells_below; [exact L|exact Ho|]. apply (IH _ Hc o' Vc C x). exists m. auto.
Qed.

(** ** Hierarchical output. *)
Lemma last_dget v k x : forall cs d,
  dget k (fold_left (fun d kc => noted v (snd kc) d) cs d) = Some x <->
  (exists l1 c l2, map (@snd (pystr * path) rnode) cs = l1 ++ c :: l2 /\ r_key c = Some k /\ message v c = x /\ x <> JNull /\ forall c', In c' l2 -> r_key c' = Some k -> message v c' = JNull) \/
  (dget k d = Some x /\ forall c', In c' (map snd cs) -> r_key c' = Some k -> message v c' = JNull).
Proof.
  induction cs as [|[ck c] cs IH]; intro d; cbn [fold_left snd map].
  - split; [intro H; right; split; [exact H|intros c []]|]. intros [(l1 & c & l2 & E & _)|[H _]]; [destruct l1; discriminate|exact H].
  - rewrite IH. split.
    + intros [(l1 & c1 & l2 & E & R)|[D N]].
      * left. exists (c :: l1), c1, l2. rewrite E. auto.
      * unfold noted in D. change (msgval v c) with (message v c) in D. destruct (is_null (message v c)) eqn:Nl.
        -- right. split; [exact D|]. intros c' [<-|Hc] K; [destruct (message v c); try discriminate; reflexivity|exact (N c' Hc K)].
        -- destruct (r_key c) as [k'|] eqn:Kc.
           ++ rewrite dget_dset in D. destruct (str_eqb_spec k k') as [<-|Ne].
              ** left. exists [], c, (map snd cs). split; [reflexivity|]. split; [exact Kc|]. injection D as <-. split; [reflexivity|]. split; [intro E; rewrite E in Nl; discriminate|exact N].
              ** right. split; [exact D|]. intros c' [<-|Hc] K; [congruence|exact (N c' Hc K)].
           ++ right. split; [exact D|]. intros c' [<-|Hc] K; [congruence|exact (N c' Hc K)].
    + intros [(l1 & c1 & l2 & E & K & M & Nx & N)|[D N]].
      * destruct l1 as [|c0 l1]; cbn [app] in E; injection E as <- E.
        -- right. rewrite E. split; [|exact N]. unfold noted. change (msgval v c) with (message v c). rewrite M. destruct x; try congruence; cbn [is_null]; rewrite K, dget_dset_same; reflexivity.
        -- left. exists l1, c1, l2. auto.
      * right. split; [|intros; apply N; [now right|assumption]]. unfold noted. change (msgval v c) with (message v c). destruct (is_null (message v c)) eqn:Nl; [exact D|]. destruct (r_key c) as [k'|] eqn:Kc; [|exact D].
        rewrite dget_dset. destruct (str_eqb_spec k k') as [<-|Ne]; [|exact D]. exfalso. rewrite (N c (or_introl eq_refl) Kc) in Nl. discriminate.
Qed.
Lemma noted_nodup v : forall (cs : list ((pystr * path) * rnode)) d, NoDup (keys d) -> NoDup (keys (fold_left (fun d kc => noted v (snd kc) d) cs d)).
Proof.
  induction cs as [|[ck c] cs IH]; intros d N; [exact N|]. cbn [fold_left snd]. apply IH. unfold noted. destruct (is_null _); [exact N|]. destruct (r_key c); [|exact N]. now apply NoDup_dset.
Qed.
Lemma hier_outlined uri W n : forall l, hier_visit uri W n = Ok l -> outlined uri W n l.
Proof.
  induction n as [n IH] using rnode_induction. intro l. destruct n as [k p rp s ip v a d an er rf cs]. cbn [r_children] in IH.
  assert (Kids : forall (f : rnode -> bool) l',
    (fix go (cs : list ((pystr * path) * rnode)) : res (list json) :=
       match cs with [] => Ok [] | (_, c) :: r => let* o := hier_visit uri W c in let* os := go r in Ok ((if f c then o else []) ++ os) end) cs = Ok l' ->
    exists oss, l' = concat oss /\ Forall2 (outlined uri W) (filter f (map snd cs)) oss).
  { intro f. clear -IH. induction IH as [|[key c] cs H _ IHcs]; intros l' E; [injection E as <-; exists []; split; [reflexivity|constructor]|]. cbn [snd] in H.
    destruct (hier_visit uri W c) as [o| |]; [|discriminate E|discriminate E]. cbn [bind] in E.
    match type of E with bind ?e _ = _ => destruct e as [os|x|] eqn:Eg; cbn [bind] in E; [|discriminate|discriminate] end. injection E as <-. destruct (IHcs _ eq_refl) as (oss & -> & F).
    cbn [map snd filter]. destruct (f c); [exists (o :: oss); split; [reflexivity|constructor; [now apply H|exact F]]|exists oss; split; [reflexivity|exact F]]. }
  set (n := mkR k p rp s ip v a d an er rf cs). unfold n at 1. cbn [hier_visit]. fold n. destruct (schema_node W n) as [[t|w]| |] eqn:A; cbn [bind]; try discriminate.
  - intro E. cbn [r_children r_valid n] in E. unfold n in E at 1 2. cbn [r_children r_valid] in E.
    match type of E with bind ?e _ = _ => destruct e as [dets|x|] eqn:Eg; cbn [bind] in E; [|discriminate|discriminate] end. injection E as <-.
    destruct (Kids _ _ Eg) as (oss & -> & F). set (ms := fold_left (fun d kc => noted v (snd kc) d) cs []).
    apply (outlined_schema uri W n t _ oss ms A).
    + reflexivity.
    + reflexivity.
    + reflexivity.
    + reflexivity.
    + exact F.
    + unfold field, vfield. destruct (concat oss), ms, v; reflexivity.
    + unfold field, vfield. cbn [r_valid n]. destruct (concat oss), ms, v; reflexivity.
    + unfold field, vfield. cbn [r_valid n]. destruct (concat oss), ms, v; reflexivity.
    + apply noted_nodup. constructor.
    + intros k' x. assert (Nd : NoDup (keys ms)) by (apply noted_nodup; constructor). transitivity (dget k' ms = Some x); [split; [now apply In_dget|apply dget_In]|].
      unfold ms. rewrite last_dget. unfold last_message. cbn [r_children n r_valid]. split; [intros [H|[H _]]; [exact H|discriminate H]|intro H; now left].
  - intro E. unfold n in E. cbn [r_children] in E. destruct (Kids (fun _ => true) l) as (oss & -> & F); [exact E|]. apply (outlined_keyword uri W n w oss A).
    unfold n. cbn [r_children]. replace (filter (fun _ : rnode => true) (map snd cs)) with (map snd cs) in F; [exact F|]. clear. induction (map snd cs) as [|c l IH]; [reflexivity|]. cbn [filter]. now f_equal.
Qed.
