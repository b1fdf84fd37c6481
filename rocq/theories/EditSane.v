(** Edits keep the catalog in order. *)
From Coq Require Import List Lia Bool.
From Verif Require Export EditRuns.
Import ListNotations.
Open Scope nat_scope.

Lemma subs_same k t : subschema_of k t <-> subs_in (kw_json k) t.
Proof. reflexivity. Qed.
Lemma sane_put c s key j o kws x c' : sane c -> nth_error (c_objs c) s = Some o -> so_data o = SObj kws -> put_json s key j c = (x, c') ->
  (forall t, subs_in j t -> t < size c) -> (forall k, In (key, k) kws -> is_reference k -> forall t, ~ subs_in j t) -> sane c'.
Proof.
  intros (U & K & T & C) Ho Hd H Hj Hr. rewrite (put_json_eq _ _ _ _ _ _ Ho Hd) in H. apply (f_equal snd) in H. cbn [snd] in H. subst c'.
  assert (Ls : s < length (c_objs c)) by (apply nth_error_Some; congruence).
  unfold sane, size. cbn [c_objs c_cache]. rewrite length_set_nth. split; [|split; [|split; [exact T|exact C]]].
  - intros i oi p ks Hi Hu. destruct (Nat.eq_dec i s) as [->|N].
    + rewrite nth_set_nth_same in Hi by exact Ls. injection Hi as <-. exact (U _ _ _ _ Ho Hu).
    + rewrite nth_set_nth_other in Hi by congruence. exact (U _ _ _ _ Hi Hu).
  - intros i kws' (oi & Hi & Di). destruct (Nat.eq_dec i s) as [->|N].
    + rewrite nth_set_nth_same in Hi by exact Ls. injection Hi as <-. cbn [with_data so_data] in Di. injection Di as <-. destruct (K s kws) as [N1 K1]; [now exists o|]. rewrite keys_put. split; [exact N1|].
      intros a k' Hin. apply In_put in Hin. destruct Hin as (k & Hin & ->). specialize (K1 _ _ Hin). destruct (str_eqb_spec a key) as [->|Na]; [|exact K1]. destruct K1 as (A & B & D).
      split; [intros t St; apply Hj; exact St|]. split; [intros t Rt; exact (B t Rt)|]. intros R t St. exact (Hr k Hin R t St).
    + rewrite nth_set_nth_other in Hi by congruence. exact (K i kws' (ex_intro _ oi (conj Hi Di))).
Qed.
Lemma sane_relabel s key ts : forall j c, sane c -> (forall t, In t ts -> s < t) -> sane (snd (relabel s key j ts c)).
Proof.
  induction ts as [|t ts IH]; intros j c S Hs; [exact S|]. cbn [relabel]. unfold bindM, update, modify. apply IH; [|intros; apply Hs; now right].
  destruct (nth_error (c_objs c) t) as [o|] eqn:Ho; [|exact S]. destruct S as (U & K & T & C). assert (Lt : t < length (c_objs c)) by (apply nth_error_Some; congruence).
  unfold sane, size. cbn [put_obj c_objs c_cache]. rewrite length_set_nth. split; [|split; [|split; [exact T|exact C]]].
  - intros i oi p ks Hi Hu. destruct (Nat.eq_dec i t) as [->|N].
    + rewrite nth_set_nth_same in Hi by exact Lt. injection Hi as <-. cbn [with_up so_up] in Hu. injection Hu as <- _. apply Hs. now left.
    + rewrite nth_set_nth_other in Hi by congruence. exact (U _ _ _ _ Hi Hu).
  - intros i kws' (oi & Hi & Di). destruct (Nat.eq_dec i t) as [->|N].
    + rewrite nth_set_nth_same in Hi by exact Lt. injection Hi as <-. exact (K t kws' (ex_intro _ o (conj Ho Di))).
    + rewrite nth_set_nth_other in Hi by congruence. exact (K i kws' (ex_intro _ oi (conj Hi Di))).
Qed.

Section Sane.
Variable E : env.
Lemma many_no_reference k : takes_many (kw_class k) -> ~ is_reference k.
Proof. unfold takes_many, is_reference. cbn [map In]. intros H [R|[R|R]]; rewrite R in H; repeat (destruct H as [H|H]; [discriminate H|]); exact H. Qed.
Lemma named_no_reference k : takes_named (kw_class k) -> ~ is_reference k.
Proof. unfold takes_named, is_reference. cbn [map In]. intros H [R|[R|R]]; rewrite R in H; repeat (destruct H as [H|H]; [discriminate H|]); exact H. Qed.

(** The new item, whether it can be made or not. *)
Lemma new_item_sane id s key n v c r c1 : sane c -> s < size c -> new_item E id s key n v c = (r, c1) -> sane c1 /\ same_old c c1 /\ forall t, r = Ok t -> t < size c1.
Proof.
  intros S Ls H. unfold new_item in H. assert (Sb := safe_build E id v (size c) None None (Some (s, [key; n])) (fun p ks Q => eq_ind s (fun y => y < size c) Ls p (f_equal (fun y => match y with Some (a, _) => a | None => 0 end) Q))).
  destruct (Sb c S (Nat.le_refl _)) as (A & _ & B). apply (f_equal (fun y => y)) in H. split; [exact (eq_ind _ (fun y => sane (snd y)) A _ H)|].
  split; [|intros t ->; exact (eq_ind _ (fun y => forall a, fst y = Ok a -> a < size (snd y)) B _ H t eq_refl)].
  pose proof (framed_build E id v None None (Some (s, [key; n])) c) as O. exact (eq_ind _ (fun y => same_old c (snd y)) O _ H).
Qed.

Lemma amend_sane s key q e c r c' : sane c -> (exists m b u v up, made E (c_objs c) m b u v s up /\ in_place (c_objs c) m b up) -> amend_schema E s key q e c = (r, c') ->
  sane c' /\ (forall x, r <> Ok x -> same_old c c').
Proof.
  intros S (m0 & b0 & u0 & v0 & up0 & Md0 & P0) H. assert (Old : same_old c c) by apply pre_old. unfold amend_schema in H. unfold bindM at 1, read in H.
  destruct (nth_error (c_objs c) s) as [o|] eqn:Ho; [|apply (f_equal snd) in H; cbn in H; subst c'; auto]. destruct (so_data o) as [|kws] eqn:Hd; [apply (f_equal snd) in H; cbn in H; subst c'; auto|].
  destruct (dget key kws) as [k|] eqn:Dk; [|apply (f_equal snd) in H; cbn in H; subst c'; auto].
  assert (Hk : In (key, k) kws) by now apply dget_In. assert (Ls : s < size c) by (apply nth_error_Some; congruence).
  assert (Nk : forall k', In (key, k') kws -> k' = k).
  { intros k' Hk'. destruct S as (_ & K & _). destruct (K s kws) as [N _]; [now exists o|]. exact (NoDup_keys_eq _ _ _ _ N Hk' Hk). }
  assert (Kk : kw_ok (size c) k) by (destruct S as (_ & K & _); destruct (K s kws) as [_ X]; [now exists o|exact (X _ _ Hk)]).
  destruct (made_member E _ _ _ _ _ _ _ _ _ _ _ (proj1 S) Md0 P0 Ho Hd Hk) as (doc0 & w0 & _ & _ & H0 & _ & _).
  assert (Keep : forall c1, same_old c c1 -> nth_error (c_objs c1) s = Some o) by (intros c1 [_ X]; rewrite X; assumption).
  assert (Put : forall c1 j x c2, sane c1 -> same_old c c1 -> put_json s key j c1 = (x, c2) -> (forall t, subs_in j t -> t < size c1) -> (is_reference k -> forall t, ~ subs_in j t) -> sane c2).
  { intros c1 j x c2 S1 O1 Hp A B. apply (sane_put c1 s key j o kws x c2 S1 (Keep _ O1) Hd Hp A). intros k' Hk' R. rewrite (Nk _ Hk') in R. exact (B R). }
  assert (PutOk : forall c1 j x c2, same_old c c1 -> put_json s key j c1 = (x, c2) -> x = Ok tt).
  { intros c1 j x c2 O1 Hp. rewrite (put_json_eq _ _ _ _ _ _ (Keep _ O1) Hd) in Hp. now injection Hp as <- _. }
  assert (RelOk : forall ts j c1 x c2, relabel s key j ts c1 = (x, c2) -> x = Ok tt).
  { induction ts as [|t ts IH]; intros j c1 x c2 Hr; [now injection Hr as <- _|]. cbn [relabel] in Hr. unfold bindM, update, modify in Hr. exact (IH _ _ _ _ Hr). }
  destruct q as [|w1 q].
  2:{ destruct (kw_json k) as [pv|t0|ts|ts] eqn:Hj; try (apply (f_equal snd) in H; cbn in H; subst c'; auto; fail). unfold bindM, lift in H.
    destruct (amend_deep (w1 :: q) e pv) as [v'|x|]; [|apply (f_equal snd) in H; cbn in H; subst c'; auto|apply (f_equal snd) in H; cbn in H; subst c'; auto].
    split; [apply (Put c _ _ _ S Old H); [intros ? []|intros _ ? []]|]. intros x N. rewrite (PutOk _ _ _ _ Old H) in N. destruct x; now exfalso; apply N. }
  unfold amend_node in H. destruct (kw_json k) as [pv|t0|ts|ts] eqn:Hj.
  - assert (H' : (do v' <- lift (amend_value e pv); put_json s key (KJ v')) c = (r, c')) by (destruct e; exact H). clear H. unfold bindM, lift in H'.
    destruct (amend_value e pv) as [v'|x|]; [|apply (f_equal snd) in H'; cbn in H'; subst c'; auto|apply (f_equal snd) in H'; cbn in H'; subst c'; auto].
    split; [apply (Put c _ _ _ S Old H'); [intros ? []|intros _ ? []]|]. intros x N. rewrite (PutOk _ _ _ _ Old H') in N. destruct x; now exfalso; apply N.
  - destruct e; apply (f_equal snd) in H; cbn in H; subst c'; auto.
  - apply holds_many_inv in H0. destruct H0 as (T & l0 & _ & L0 & Mt0). pose proof (many_row E _ _ _ _ _ _ _ L0 Mt0) as Row. pose proof (many_no_reference _ T) as Nr.
    assert (Hts : forall t, In t ts -> t < size c) by (intros t Ht; apply (proj1 Kk); unfold subschema_of; now rewrite Hj).
    assert (Late : forall t, In t ts -> s < t) by (intros t Ht; destruct (row_child _ _ _ _ _ Row Ht) as [ks C]; exact (child_below _ _ _ _ (proj1 S) C)).
    destruct e as [i v|i v|i|n v|n]; try (apply (f_equal snd) in H; cbn in H; subst c'; auto; fail).
    + unfold bindM in H. destruct (new_item E (so_cache o) s key (str_of_nat i) v c) as [[t|x|] c1] eqn:Hn; destruct (new_item_sane _ _ _ _ _ _ _ _ S Ls Hn) as (S1 & O1 & Ht);
        [|apply (f_equal snd) in H; cbn in H; subst c'; auto|apply (f_equal snd) in H; cbn in H; subst c'; auto].
      destruct (Nat.ltb_spec i (length ts)) as [Li|]; [|apply (f_equal snd) in H; cbn in H; subst c'; auto].
      split; [|intros x N; rewrite (PutOk _ _ _ _ O1 H) in N; destruct x; now exfalso; apply N].
      apply (Put c1 _ _ _ S1 O1 H); [|intro R; contradiction]. cbn [subs_in]. intros t' Ht'. destruct (split_on ts i Li) as (t1 & y & t2 & -> & <-). rewrite set_nth_at in Ht'.
      apply in_elt_inv in Ht'. destruct Ht' as [<-|Ht']; [now apply Ht|]. pose proof (proj1 O1). unfold size in *. assert (t' < length (c_objs c)) by (apply Hts; apply in_app_iff in Ht'; apply in_app_iff; cbn [In]; tauto). lia.
    + destruct (Nat.ltb_spec (length ts) i) as [|Li]; [apply (f_equal snd) in H; cbn in H; subst c'; auto|]. unfold bindM in H.
      destruct (new_item E (so_cache o) s key (str_of_nat i) v c) as [[t|x|] c1] eqn:Hn; destruct (new_item_sane _ _ _ _ _ _ _ _ S Ls Hn) as (S1 & O1 & Ht);
        [|apply (f_equal snd) in H; cbn in H; subst c'; auto|apply (f_equal snd) in H; cbn in H; subst c'; auto].
      destruct (put_json s key (KSubs (insert_nth i t ts)) c1) as [x2 c2] eqn:Hp. pose proof (PutOk _ _ _ _ O1 Hp) as ->. split; [|intros x N; rewrite (RelOk _ _ _ _ _ H) in N; destruct x; now exfalso; apply N].
      assert (S2 : sane c2).
      { apply (Put c1 _ _ _ S1 O1 Hp); [|intro R; contradiction]. cbn [subs_in]. intros t' Ht'. destruct (split_at ts i Li) as (t1 & t2 & -> & <-). rewrite add_nth_at in Ht'.
        apply in_elt_inv in Ht'. destruct Ht' as [<-|Ht']; [now apply Ht|]. pose proof (proj1 O1). unfold size in *. assert (t' < length (c_objs c)) by now apply Hts. lia. }
      pose proof (sane_relabel s key (skipn i ts) (Datatypes.S i) c2 S2) as X. rewrite H in X. apply X. intros t' Ht'. apply Late. rewrite <- (firstn_skipn i ts). apply in_or_app. now right.
    + destruct (Nat.ltb_spec i (length ts)) as [Li|]; [|apply (f_equal snd) in H; cbn in H; subst c'; auto]. unfold bindM in H.
      destruct (put_json s key (KSubs (remove_nth i ts)) c) as [x2 c2] eqn:Hp. pose proof (PutOk _ _ _ _ Old Hp) as ->. split; [|intros x N; rewrite (RelOk _ _ _ _ _ H) in N; destruct x; now exfalso; apply N].
      assert (S2 : sane c2).
      { apply (Put c _ _ _ S Old Hp); [|intro R; contradiction]. cbn [subs_in]. intros t' Ht'. apply Hts. destruct (split_on ts i Li) as (t1 & y & t2 & -> & <-). rewrite drop_nth_at in Ht'. apply in_app_iff in Ht'. apply in_app_iff. cbn [In]. tauto. }
      pose proof (sane_relabel s key (skipn (Datatypes.S i) ts) i c2 S2) as X. rewrite H in X. apply X. intros t' Ht'. apply Late. rewrite <- (firstn_skipn (Datatypes.S i) ts). apply in_or_app. now right.
  - apply holds_named_inv in H0. destruct H0 as (T & _). pose proof (named_no_reference _ T) as Nr.
    assert (Hts : forall t, In t (map snd ts) -> t < size c) by (intros t Ht; apply (proj1 Kk); unfold subschema_of; now rewrite Hj).
    destruct e as [i v|i v|i|n v|n]; try (apply (f_equal snd) in H; cbn in H; subst c'; auto; fail).
    + unfold bindM in H. destruct (new_item E (so_cache o) s key n v c) as [[t|x|] c1] eqn:Hn; destruct (new_item_sane _ _ _ _ _ _ _ _ S Ls Hn) as (S1 & O1 & Ht);
        [|apply (f_equal snd) in H; cbn in H; subst c'; auto|apply (f_equal snd) in H; cbn in H; subst c'; auto].
      split; [|intros x N; rewrite (PutOk _ _ _ _ O1 H) in N; destruct x; now exfalso; apply N].
      apply (Put c1 _ _ _ S1 O1 H); [|intro R; contradiction]. cbn [subs_in]. intros t' Ht'. apply in_map_iff in Ht'. destruct Ht' as (nt & <- & Hin). apply In_dset_inv in Hin.
      destruct Hin as [Hin|Hin]; [|subst nt; now apply Ht]. pose proof (proj1 O1). unfold size in *. assert (snd nt < length (c_objs c)) by (apply Hts; now apply in_map). lia.
    + destruct (dmem n ts) eqn:Dm; [|apply (f_equal snd) in H; cbn in H; subst c'; auto]. split; [|intros x N; rewrite (PutOk _ _ _ _ Old H) in N; destruct x; now exfalso; apply N].
      apply (Put c _ _ _ S Old H); [|intro R; contradiction]. cbn [subs_in]. intros t' Ht'. apply Hts. unfold dmem in Dm. destruct (dget n ts) as [y|] eqn:D; [|discriminate Dm].
      destruct (dget_apart _ _ _ D) as (m1 & m2 & -> & N). rewrite ddel_apart in Ht' by exact N. rewrite map_app in *. apply in_app_iff in Ht'. apply in_app_iff. cbn [map In]. tauto.
Qed.
End Sane.
