(** The value of a constructed schema is the document it was made from. *)
From Coq Require Import List Lia.
From Verif Require Export ReadBack SpecEqual BuildFacts.
From Verif Require Import SchemaEqual.
Import ListNotations.
Open Scope nat_scope.

Lemma all_named_spec {A} (l : list (pystr * option A)) r : all_named l = Some r <-> map fst r = map fst l /\ map (fun kv => Some (snd kv)) r = map snd l.
Proof.
  unfold all_named. revert r. induction l as [|[k o] l IH]; intro r; cbn [map all_some fst snd combine option_map].
  - split; [intros [= <-]; auto|]. intros [H _]. destruct r; [reflexivity|discriminate].
  - destruct o as [x|]; cbn [option_map].
    + destruct (all_some (map snd l)) as [xs|] eqn:E; cbn [option_map].
      * split.
        -- intros [= <-]. cbn [map fst snd combine]. specialize (IH (combine (map fst l) xs)). cbn [option_map] in IH. destruct (proj1 IH eq_refl) as [-> ->]. auto.
        -- intros [H1 H2]. destruct r as [|[k' x'] r]; [discriminate|]. cbn [map fst snd] in *. injection H1 as <- H1. injection H2 as <- H2. specialize (IH r). cbn [option_map] in IH.
           destruct IH as [_ IH]. specialize (IH (conj H1 H2)). injection IH as <-. reflexivity.
      * split; [discriminate|]. intros [H1 H2]. destruct r as [|[k' x'] r]; [discriminate|]. cbn [map fst snd] in *. injection H1 as <- H1. injection H2 as <- H2. specialize (IH r). cbn [option_map] in IH.
        assert (X : None = Some r) by (apply IH; auto). discriminate X.
    + split; [discriminate|]. intros [_ H]. destruct r; discriminate.
Qed.
Lemma all_named_ok {A B} (f : pystr * A -> option B) (Q : pystr -> B -> Prop) l : (forall kv, In kv l -> exists x, f kv = Some x /\ Q (fst kv) x) ->
  exists r, all_named (map (fun kv => (fst kv, f kv)) l) = Some r /\ map fst r = map fst l /\ forall k x, In (k, x) r -> Q k x.
Proof.
  intro H. assert (X : exists r : list (pystr * B), map fst r = map fst l /\ map (fun kv => Some (snd kv)) r = map f l /\ forall k x, In (k, x) r -> Q k x).
  { induction l as [|kv l IH]; [exists []; split; [reflexivity|split; [reflexivity|intros ? ? []]]|]. destruct IH as (r & E1 & E2 & E3); [intros; apply H; now right|]. destruct (H kv) as (x & F & Hq); [now left|].
    exists ((fst kv, x) :: r). cbn [map fst snd]. rewrite E1, E2, F. split; [reflexivity|]. split; [reflexivity|]. intros k y [E|Hy]; [apply pair_equal_spec in E; destruct E as [<- <-]; exact Hq|eauto]. }
  destruct X as (r & E1 & E2 & E3). exists r. split; [|auto]. apply all_named_spec. rewrite !map_map. cbn [fst snd]. rewrite E1, E2. split; reflexivity.
Qed.
Lemma all_some_ok {A B} (f : A -> option B) (Q : nat -> B -> Prop) l : (forall i a, nth_error l i = Some a -> exists x, f a = Some x /\ Q i x) ->
  exists r, all_some (map f l) = Some r /\ length r = length l /\ forall i x, nth_error r i = Some x -> Q i x.
Proof.
  revert Q. induction l as [|a l IH]; intros Q H; cbn [map all_some].
  - exists []. split; [reflexivity|]. split; [reflexivity|]. intros [|i] x X; discriminate.
  - destruct (H 0 a eq_refl) as (x & E & Hq). destruct (IH (fun i => Q (S i))) as (r & E1 & E2 & E3); [intros i b Hb; exact (H (S i) b Hb)|]. rewrite E, E1.
    exists (x :: r). split; [reflexivity|]. split; [cbn; now rewrite E2|]. intros [|i] y Hy; [injection Hy as <-; exact Hq|exact (E3 i y Hy)].
Qed.

Lemma made_value E objs : upward objs -> forall n m b u v s up, length objs - s <= n -> jwf v = true -> made E objs m b u v s up ->
  exists x, schema_value n objs s = Some x /\ looks_like eq x v /\ jwf x = true.
Proof.
  intros U. induction n as [|n IH]; intros m b u v s up Hn J Md.
  { destruct (made_up _ _ _ _ _ _ _ _ Md) as (o & Ho & _). assert (X : s < length objs) by (apply nth_error_Some; congruence). lia. }
  destruct Md as [m b u x s up o Ho Hd Hup Hu|m b u doc s up o kws Ho Hd Hup Hu Nd Hk Hc Hkeep Hh Hdep]; cbn [schema_value]; rewrite Ho, Hd.
  { exists (JBool x). split; [reflexivity|]. split; [constructor|reflexivity]. }
  assert (Sub : forall m b v t ks, jwf v = true -> made E objs m b None v t (Some (s, ks)) -> exists x, schema_value n objs t = Some x /\ looks_like eq x v /\ jwf x = true).
  { intros m' b' v' t ks J' M'. apply (IH m' b' None v' t (Some (s, ks))); [|exact J'|exact M']. pose proof (made_later _ _ _ _ _ _ _ _ _ U M').
    assert (X : s < length objs) by (apply nth_error_Some; congruence). lia. }
  apply jwf_obj in J as [Ndoc Wdoc]. rewrite Forall_forall in Wdoc.
  edestruct (all_named_ok (fun kk : pystr * keyword => match kw_json (snd kk) with
                | KJ v => Some v
                | KSub t => schema_value n objs t
                | KSubs ts => option_map JArr (all_some (map (schema_value n objs) ts))
                | KSubm m => option_map JObj (all_named (map (fun nt => (fst nt, schema_value n objs (snd nt))) m))
                end) (fun k x => exists v, dget k doc = Some v /\ looks_like eq x v /\ jwf x = true) kws) as (r & Er & Kr & Hr).
  { intros [key k] Hin. cbn [fst snd]. assert (Kin : In key (keys doc)) by (apply Hk; now apply (in_map fst) in Hin).
    apply in_map_iff in Kin. destruct Kin as ([key' v] & Ek & Hv). cbn in Ek. subst key'. pose proof (In_dget key v doc Ndoc Hv) as Dv.
    assert (Jv : jwf v = true) by exact (Wdoc _ Hv).
    enough (exists x, match kw_json k with KJ v0 => Some v0 | KSub t => schema_value n objs t | KSubs ts => option_map JArr (all_some (map (schema_value n objs) ts))
       | KSubm m0 => option_map JObj (all_named (map (fun nt => (fst nt, schema_value n objs (snd nt))) m0)) end = Some x /\ looks_like eq x v /\ jwf x = true) as (x & X1 & X2)
      by (exists x; split; [exact X1|]; exists v; auto).
    pose proof (Hh key k v Hin Dv) as Hold. remember (kw_json k) as j. clear Heqj Hkeep Hc Hdep Hh.
    remember (applies E m doc) as m1. remember (base_of (so_uri o) b) as b1. remember (kw_class k) as c1. clear Heqm1 Heqb1 Heqc1.
    destruct Hold as [m1 b1 s key c v _ _ _|m1 b1 s key c v t _ M1|m1 b1 s key c l ts _ Hl M1|m1 b1 s key c x _|m1 b1 s key c d ts _ Nd1 K1 M1].
    - exists v. split; [reflexivity|]. split; [now apply like_refl|exact Jv].
    - exact (Sub _ _ _ _ _ Jv M1).
    - apply jwf_arr in Jv. rewrite Forall_forall in Jv.
      destruct (all_some_ok (schema_value n objs) (fun i x => exists v, nth_error l i = Some v /\ looks_like eq x v /\ jwf x = true) ts) as (xs & X1 & X2 & X3).
      { intros i t Ht. destruct (nth_error l i) as [v|] eqn:Hvl; [|apply nth_error_None in Hvl; assert (nth_error ts i <> None) as Y by congruence; apply nth_error_Some in Y; lia].
        destruct (Sub _ _ _ _ _ (Jv _ (nth_error_In _ _ Hvl)) (M1 i v t Hvl Ht)) as (x & Y1 & Y2). exists x. split; [exact Y1|]. exists v. auto. }
      rewrite X1. cbn [option_map]. exists (JArr xs). split; [reflexivity|]. split.
      + apply like_arr; [congruence|]. intros i x y Hx Hy. destruct (X3 i x Hx) as (v & Hvl & Lv & _). assert (v = y) by congruence. now subst v.
      + apply jwf_arr. apply Forall_forall. intros x Hx. apply In_nth_error in Hx. destruct Hx as (i & Hx). destruct (X3 i x Hx) as (v & _ & _ & W). exact W.
    - exists (JStr x). split; [reflexivity|]. split; [constructor|reflexivity].
    - apply jwf_obj in Jv as [_ Jv]. rewrite Forall_forall in Jv.
      destruct (all_named_ok (fun nt : pystr * sid => schema_value n objs (snd nt)) (fun k x => exists v, dget k d = Some v /\ looks_like eq x v /\ jwf x = true) ts) as (xs & X1 & X2 & X3).
      { intros [nm t] Ht. cbn [fst snd]. assert (Kn : In nm (keys d)) by (rewrite <- K1; now apply (in_map fst) in Ht). apply in_map_iff in Kn. destruct Kn as ([nm' v] & En & Hv1). cbn in En. subst nm'.
        pose proof (In_dget nm v d Nd1 Hv1) as D1. assert (D2 : dget nm ts = Some t) by (apply In_dget; [unfold keys in *; now rewrite K1|exact Ht]).
        destruct (Sub _ _ _ _ _ (Jv _ Hv1) (M1 nm v t D1 D2)) as (x & Y1 & Y2). exists x. split; [exact Y1|]. exists v. auto. }
      rewrite X1. cbn [option_map]. exists (JObj xs). split; [reflexivity|]. unfold keys in *. split.
      + apply like_obj; [intro; now rewrite X2, K1|]. intros k' x y Hx Hy. destruct (X3 k' x Hx) as (v & Dv' & Lv & _). pose proof (In_dget k' y d Nd1 Hy). assert (v = y) by congruence. now subst v.
      + apply jwf_obj. split; [unfold keys; now rewrite X2, K1|]. apply Forall_forall. intros [k' x] Hx. destruct (X3 k' x Hx) as (v & _ & _ & W). exact W. }
  rewrite Er. cbn [option_map]. exists (JObj r). split; [reflexivity|]. unfold keys in *. split.
  - apply like_obj; [intro; rewrite Kr; apply Hk|]. intros k' x y Hx Hy. destruct (Hr k' x Hx) as (v & Dv' & Lv & _). pose proof (In_dget k' y doc Ndoc Hy). assert (v = y) by congruence. now subst v.
  - apply jwf_obj. split; [unfold keys; now rewrite Kr|]. apply Forall_forall. intros [k' x] Hx. destruct (Hr k' x Hx) as (v & _ & _ & W). exact W.
Qed.
