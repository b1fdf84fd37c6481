(** The value of a constructed schema, member order included. *)
From Coq Require Import List Lia Permutation.
From Verif Require Export SpecReadBack ReadBackFacts DepsFacts.
Import ListNotations.
Open Scope nat_scope.

Lemma made_arranged E objs : upward objs -> forall n m b u v s up, length objs - s <= n -> jwf v = true -> made E objs m b u v s up ->
  exists x, schema_value n objs s = Some x /\ arranged E m v x.
Proof.
  intros U. induction n as [|n IH]; intros m b u v s up Hn J Md.
  { destruct (made_up _ _ _ _ _ _ _ _ Md) as (o & Ho & _). assert (X : s < length objs) by (apply nth_error_Some; congruence). lia. }
  destruct Md as [m b u x s up o Ho Hd Hup Hu|m b u doc s up o kws Ho Hd Hup Hu Nd Hk Hc Hkeep Hh Hdep Hord]; cbn [schema_value]; rewrite Ho, Hd.
  { exists (JBool x). split; [reflexivity|]. constructor. }
  assert (Sub : forall m b v t ks, jwf v = true -> made E objs m b None v t (Some (s, ks)) -> exists x, schema_value n objs t = Some x /\ arranged E m v x).
  { intros m' b' v' t ks J' M'. apply (IH m' b' None v' t (Some (s, ks))); [|exact J'|exact M']. pose proof (made_later _ _ _ _ _ _ _ _ _ U M').
    assert (X : s < length objs) by (apply nth_error_Some; congruence). lia. }
  apply jwf_obj in J as [Ndoc Wdoc]. rewrite Forall_forall in Wdoc.
  edestruct (all_named_ok (fun kk : pystr * keyword => match kw_json (snd kk) with
                | KJ v => Some v
                | KSub t => schema_value n objs t
                | KSubs ts => option_map JArr (all_some (map (schema_value n objs) ts))
                | KSubm m => option_map JObj (all_named (map (fun nt => (fst nt, schema_value n objs (snd nt))) m))
                end) (fun k x => exists v, dget k doc = Some v /\ part E (applies E m doc) k v x) kws) as (r & Er & Kr & Hr).
  { intros [key k] Hin. cbn [fst snd]. assert (Kin : In key (keys doc)) by (apply Hk; now apply (in_map fst) in Hin).
    apply in_map_iff in Kin. destruct Kin as ([key' v] & Ek & Hv). cbn in Ek. subst key'. pose proof (In_dget key v doc Ndoc Hv) as Dv.
    assert (Jv : jwf v = true) by exact (Wdoc _ Hv). pose proof (Hc key k Hin) as Cf.
    enough (exists x, match kw_json k with KJ v0 => Some v0 | KSub t => schema_value n objs t | KSubs ts => option_map JArr (all_some (map (schema_value n objs) ts))
       | KSubm m0 => option_map JObj (all_named (map (fun nt => (fst nt, schema_value n objs (snd nt))) m0)) end = Some x /\ part E (applies E m doc) key v x) as (x & X1 & X2)
      by (exists x; split; [exact X1|]; exists v; auto).
    pose proof (Hh key k v Hin Dv) as Hold. remember (kw_json k) as j. clear Heqj Hkeep Hc Hdep Hh Hord.
    remember (applies E m doc) as m1. remember (base_of (so_uri o) b) as b1. remember (kw_class k) as c1. clear Heqm1 Heqb1 Heqc1.
    destruct Hold as [m1 b1 s key c v P1 P2 P3|m1 b1 s key c v t P1 M1|m1 b1 s key c l ts P1 Hl M1|m1 b1 s key c x P1|m1 b1 s key c d ts P1 Nd1 K1 M1].
    - exists v. split; [reflexivity|]. exact (part_plain E m1 key c v Cf P1 P2 P3).
    - destruct (Sub _ _ _ _ _ Jv M1) as (x & X1 & X2). exists x. split; [exact X1|]. exact (part_one E m1 key c v x Cf P1 X2).
    - apply jwf_arr in Jv. rewrite Forall_forall in Jv.
      destruct (all_some_ok (schema_value n objs) (fun i x => exists v, nth_error l i = Some v /\ arranged E m1 v x) ts) as (xs & X1 & X2 & X3).
      { intros i t Ht. destruct (nth_error l i) as [v|] eqn:Hvl; [|apply nth_error_None in Hvl; assert (nth_error ts i <> None) as Y by congruence; apply nth_error_Some in Y; lia].
        destruct (Sub _ _ _ _ _ (Jv _ (nth_error_In _ _ Hvl)) (M1 i v t Hvl Ht)) as (x & Y1 & Y2). exists x. split; [exact Y1|]. exists v. auto. }
      rewrite X1. cbn [option_map]. exists (JArr xs). split; [reflexivity|].
      apply (part_many E m1 key c l xs Cf P1); [congruence|]. intros i v x Hv1 Hx. destruct (X3 i x Hx) as (v' & Hvl & Av). assert (v' = v) by congruence. now subst v'.
    - exists (JStr x). split; [reflexivity|]. exact (part_text E m1 key c x Cf P1).
    - apply jwf_obj in Jv as [_ Jv]. rewrite Forall_forall in Jv.
      destruct (all_named_ok (fun nt : pystr * sid => schema_value n objs (snd nt)) (fun k x => exists v, dget k d = Some v /\ arranged E m1 v x) ts) as (xs & X1 & X2 & X3).
      { intros [nm t] Ht. cbn [fst snd]. assert (Kn : In nm (keys d)) by (rewrite <- K1; now apply (in_map fst) in Ht). apply in_map_iff in Kn. destruct Kn as ([nm' v] & En & Hv1). cbn in En. subst nm'.
        pose proof (In_dget nm v d Nd1 Hv1) as D1. assert (D2 : dget nm ts = Some t) by (apply In_dget; [unfold keys in *; now rewrite K1|exact Ht]).
        destruct (Sub _ _ _ _ _ (Jv _ Hv1) (M1 nm v t D1 D2)) as (x & Y1 & Y2). exists x. split; [exact Y1|]. exists v. auto. }
      rewrite X1. cbn [option_map]. exists (JObj xs). split; [reflexivity|]. apply (part_named E m1 key c d xs Cf P1); [unfold keys in *; congruence|].
      intros nm v x Dn Dx. apply dget_In in Dx. destruct (X3 nm x Dx) as (v' & Dv' & Av). assert (v' = v) by congruence. now subst v'. }
  rewrite Er. cbn [option_map]. exists (JObj r). split; [reflexivity|]. apply arr_obj.
  - unfold keys in *. rewrite Kr. exact Hord.
  - intros k' v x Dv Dx. apply dget_In in Dx. destruct (Hr k' x Dx) as (v' & Dv' & P). assert (v' = v) by congruence. now subst v'.
Qed.

(** ** It is one value. *)
Lemma in_turn_perm {K} (W : K -> K -> Prop) l o : in_turn W l o -> Permutation o l.
Proof. induction 1 as [|l1 k l2 o _ _ _ IH]; [constructor|]. apply Permutation_cons_app. exact IH. Qed.
Lemma nodup_join {A} (l l' : list A) : NoDup l -> NoDup l' -> (forall a, In a l -> ~ In a l') -> NoDup (l ++ l').
Proof.
  induction 1 as [|a l Na _ IH]; intros N' D; [exact N'|]. cbn [app]. constructor; [|apply IH; [exact N'|intros b Hb; apply D; now right]].
  intro X. apply in_app_or in X as [X|X]; [contradiction|]. exact (D a (or_introl eq_refl) X).
Qed.
Lemma order_keys E m doc ks : NoDup (keys doc) -> creation_order E m doc ks -> NoDup ks /\ forall key, In key ks <-> In key (keys doc).
Proof.
  intros N (o & -> & T). apply in_turn_perm in T.
  assert (Mo : forall key, In key o <-> In key (keys doc) /\ ~ In key foremost).
  { intro key. assert (X : In key o <-> In key (filter (fun key => negb (mem_str key foremost)) (keys doc))) by (split; apply Permutation_in; [exact T|exact (Permutation_sym T)]).
    rewrite X, filter_In, negb_true_iff. destruct (mem_str key foremost) eqn:Q; [apply mem_str_In in Q; intuition congruence|].
    assert (~ In key foremost) by (intro Y; apply mem_str_In in Y; congruence). intuition congruence. }
  assert (Mf : forall key, In key (filter (fun key => mem_str key (keys doc)) foremost) <-> In key (keys doc) /\ In key foremost).
  { intro key. rewrite filter_In, mem_str_In. tauto. }
  split.
  - apply nodup_join.
    + apply NoDup_filter. apply NoDup_cons; [cbn; intros [X|[X|[]]]; discriminate X|]. apply NoDup_cons; [cbn; intros [X|[]]; discriminate X|]. apply NoDup_cons; [intros []|constructor].
    + apply (Permutation_NoDup (Permutation_sym T)). now apply NoDup_filter.
    + intros key A B. apply Mf in A. apply Mo in B. tauto.
  - intro key. rewrite in_app_iff, Mf, Mo. destruct (mem_str key foremost) eqn:Q; [apply mem_str_In in Q; tauto|].
    assert (~ In key foremost) by (intro Y; apply mem_str_In in Y; congruence). tauto.
Qed.
Lemma order_unique E m doc ks ks' : creation_order E m doc ks -> creation_order E m doc ks' -> ks = ks'.
Proof. intros (o & -> & T) (o' & -> & T'). f_equal. exact (in_turn_unique _ _ _ _ T T'). Qed.
Lemma same_members (ms ms' : list (pystr * json)) : NoDup (keys ms) -> keys ms = keys ms' ->
  (forall key x y, dget key ms = Some x -> dget key ms' = Some y -> x = y) -> ms = ms'.
Proof.
  revert ms'. induction ms as [|[k x] ms IH]; intros [|[k' y] ms'] N K H; try discriminate K; [reflexivity|].
  cbn [keys map fst] in N, K. inversion N as [|? ? N1 N2]; subst. injection K as <- K. f_equal.
  - f_equal. apply (H k x y); cbn [dget]; now rewrite str_eqb_refl.
  - apply IH; [exact N2|exact K|]. intros key a b Ha Hb. assert (Nk : str_eqb key k = false).
    { destruct (str_eqb key k) eqn:Q; [|reflexivity]. apply str_eqb_eq in Q. subst key. apply dget_keys in Ha. contradiction. }
    apply (H key a b); cbn [dget]; now rewrite Nk.
Qed.
Lemma same_items (l l' : list json) : length l = length l' -> (forall i x y, nth_error l i = Some x -> nth_error l' i = Some y -> x = y) -> l = l'.
Proof.
  revert l'. induction l as [|x l IH]; intros [|y l'] L H; try discriminate L; [reflexivity|]. f_equal; [exact (H 0 x y eq_refl eq_refl)|].
  apply IH; [now injection L|]. intros i. exact (H (S i)).
Qed.
Lemma one_not_named c : takes_one c -> ~ takes_named c.
Proof. intros A B. unfold takes_one, takes_named in *. apply in_map_iff in A as (a & <- & A). apply in_map_iff in B as (b & Q & B). injection Q as <-. cbn in A, B.
  repeat (destruct B as [B|B]; [subst b; repeat (destruct A as [A|A]; [discriminate A|]); destruct A|]). destruct B. Qed.
Lemma many_not_named c : takes_many c -> ~ takes_named c.
Proof. intros A B. unfold takes_many, takes_named in *. apply in_map_iff in A as (a & <- & A). apply in_map_iff in B as (b & Q & B). injection Q as <-. cbn in A, B.
  repeat (destruct B as [B|B]; [subst b; repeat (destruct A as [A|A]; [discriminate A|]); destruct A|]). destruct B. Qed.

Theorem arranged_unique E v : jwf v = true -> forall m x y, arranged E m v x -> arranged E m v y -> x = y.
Proof.
  assert (G : forall n v, jsize v < n -> jwf v = true -> forall m x y, arranged E m v x -> arranged E m v y -> x = y).
  { induction n as [|n IH]; intros w Hn Wf m x y A B; [lia|].
    inversion A as [m1 b|m1 doc ms Om Pm]; subst.
    { inversion B; subst; reflexivity. }
    inversion B as [|m1 doc' ms' Om' Pm']; subst. apply jwf_obj in Wf as [Nd Wf]. rewrite Forall_forall in Wf.
    f_equal. destruct (order_keys E _ _ _ Nd Om) as [Nm Km]. apply same_members; [exact Nm|exact (order_unique E _ _ _ _ Om Om')|].
    intros key x y Dx Dy. assert (Kd : In key (keys doc)) by (apply Km; exact (dget_keys _ _ _ Dx)). apply keys_dget in Kd as [v0 Dv].
    pose proof (Pm key v0 x Dv Dx) as P. pose proof (Pm' key v0 y Dv Dy) as P'.
    apply dget_In in Dv. pose proof (jsize_members _ _ Dv) as Sv. cbn [snd] in Sv. pose proof (Wf _ Dv) as Wv. cbn [snd] in Wv. clear Pm Pm' Om Om' Dx Dy Dv A B.
    destruct P as [m1 key c v0 Cf P1 P2 P3|m1 key c v0 x Cf P1 X|m1 key c l xs Cf P1 L X|m1 key c t Cf P1|m1 key c d xs Cf P1 K X];
      inversion P' as [? ? c' ? Cf' Q1 Q2 Q3|? ? c' ? ? Cf' Q1 Y|? ? c' ? ys Cf' Q1 L' Y|? ? c' ? Cf' Q1|? ? c' ? ys Cf' Q1 K' Y]; subst;
      try (assert (c' = c) by congruence; subst c'); try contradiction; try reflexivity.
    - exact (IH v0 ltac:(lia) Wv _ _ _ X Y).
    - inversion X.
    - inversion X.
    - destruct (one_not_named c P1 Q1).
    - inversion Y.
    - f_equal. apply same_items; [congruence|]. intros i a b Ha Hb. assert (Li : i < length l) by (rewrite <- L; apply nth_error_Some; congruence).
      apply nth_error_Some in Li. destruct (nth_error l i) as [vi|] eqn:Hi; [|congruence]. apply jwf_arr in Wv. rewrite Forall_forall in Wv. pose proof (nth_error_In _ _ Hi) as Hin.
      pose proof (jsize_items _ _ Hin). exact (IH vi ltac:(lia) (Wv _ Hin) _ _ _ (X i vi a Hi Ha) (Y i vi b Hi Hb)).
    - inversion Y.
    - destruct (one_not_named c Q1 P1).
    - f_equal. apply jwf_obj in Wv as [Nd' Wv]. rewrite Forall_forall in Wv. apply same_members; [now rewrite K|congruence|]. intros nm a b Ha Hb.
      assert (Kn : In nm (keys d)) by (rewrite <- K; exact (dget_keys _ _ _ Ha)). apply keys_dget in Kn as [vi Di]. pose proof (X nm vi a Di Ha) as Xa. pose proof (Y nm vi b Di Hb) as Yb.
      apply dget_In in Di. pose proof (jsize_members _ _ Di) as Si. cbn [snd] in Si. exact (IH vi ltac:(lia) (Wv _ Di) _ _ _ Xa Yb). }
  exact (G (S (jsize v)) v (Nat.lt_succ_diag_r _)).
Qed.
