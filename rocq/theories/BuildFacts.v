(** Successful construction as a whole. *)
From Coq Require Import List Lia Bool.
From Verif Require Import SchemaSim QuoteFacts.
From Verif Require Export BuildRefs.
Import ListNotations.
Open Scope nat_scope.

Section Facts.
Variable E : env.

(** ** Every subschema of a made schema is made, and found at its place. *)
Lemma walk_first objs s kws key k p : keywords_at objs s kws -> NoDup (keys kws) -> In (key, k) kws ->
  sn_walk (objs_world objs) (SNSchema s) (key :: p) = sn_walk (objs_world objs) (sn_of (kw_json k)) p.
Proof.
  intros (o & Ho & D) N Hk. cbn [sn_walk sn_child]. unfold schema_keywords, objs_world at 1. cbn [w_schema]. rewrite Ho, D, (In_dget _ _ _ N Hk). reflexivity.
Qed.
Lemma sn_index_nat {A} (l : list A) i x : nth_error l i = Some x -> sn_index (str_of_nat i) l = Ok x.
Proof.
  intro H. unfold sn_index. rewrite py_int_str_of_nat. assert (L : i < length l) by (apply nth_error_Some; congruence). now rewrite norm_index_nat, H by exact L.
Qed.
Lemma holds_sub objs m b s kws key k c v t : keywords_at objs s kws -> NoDup (keys kws) -> In (key, k) kws -> holds E objs m b s key c v (kw_json k) -> subschema_of k t ->
  exists v' ks, made E objs m b None v' t (Some (s, ks)) /\ sn_walk (objs_world objs) (SNSchema s) ks = Ok (SNSchema t).
Proof.
  intros Ha N Hk H Sub. unfold subschema_of in Sub.
  assert (Wk : forall j p, kw_json k = j -> sn_walk (objs_world objs) (SNSchema s) (key :: p) = sn_walk (objs_world objs) (sn_of j) p).
  { intros j p <-. exact (walk_first _ _ _ _ _ p Ha N Hk). }
  remember (kw_json k) as j eqn:Kj. symmetry in Kj.
  destruct H as [m b s key c v T1 T2 T3|m b s key c v t0 Tc Md|m b s key c l ts Tc L Md|m b s key c x Tc|m b s key c doc ts Tc Nd L Md].
  - destruct Sub.
  - subst t0. exists v, [key]. split; [exact Md|]. rewrite (Wk _ [] eq_refl). reflexivity.
  - apply In_nth_error in Sub. destruct Sub as [i Hi]. destruct (nth_error l i) as [v'|] eqn:Hv.
    2:{ apply nth_error_None in Hv. assert (i < length ts) by (apply nth_error_Some; congruence). lia. }
    exists v', [key; str_of_nat i]. split; [exact (Md _ _ _ Hv Hi)|]. rewrite (Wk _ _ eq_refl). cbn [sn_of sn_walk sn_child]. now rewrite (sn_index_nat _ _ _ Hi).
  - destruct Sub.
  - apply in_map_iff in Sub. destruct Sub as ([n t'] & <- & Hin). cbn [snd] in *. assert (Nt : NoDup (keys ts)) by now rewrite L.
    assert (Dt := In_dget _ _ _ Nt Hin). assert (Hn : In n (keys doc)) by (rewrite <- L; exact (dget_keys _ _ _ Dt)). destruct (keys_dget _ _ Hn) as [v' Dv].
    exists v', [key; n]. split; [exact (Md _ _ _ Dv Dt)|]. rewrite (Wk _ _ eq_refl). cbn [sn_of sn_walk sn_child]. now rewrite Dt.
Qed.
Lemma made_within objs m b u v s up t : made E objs m b u v s up -> within objs s t ->
  exists m' b' u' v' up', made E objs m' b' u' v' t up' /\
    (t = s /\ up' = up \/ exists p ks, up' = Some (p, ks) /\ within objs s p /\ sn_walk (objs_world objs) (SNSchema p) ks = Ok (SNSchema t)).
Proof.
  intros Md W. induction W as [|t t' kws key k W (m' & b' & u' & v' & up' & Mt & _) Kt Hk Sub]; [exists m, b, u, v, up; auto|].
  inversion Mt as [? ? ? x ? ? o Ho D _ _|? ? ? doc ? ? o kws0 Ho D Hup Hu N K C Kp Hh Dep]; subst.
  - destruct Kt as (o' & Ho' & D'). congruence.
  - assert (kws0 = kws) by (apply (keywords_fun objs t); [now exists o|exact Kt]). subst kws0.
    assert (Hin : In key (keys doc)) by (apply K; exact (in_map fst _ _ Hk)). destruct (keys_dget _ _ Hin) as [v9 Dv].
    destruct (holds_sub _ _ _ _ _ _ _ _ _ _ Kt N Hk (Hh _ _ _ Hk Dv) Sub) as (v2 & ks & Mt' & Wk).
    exists (applies E m' doc), (base_of (so_uri o) b'), None, v2, (Some (t, ks)). split; [exact Mt'|]. right. exists t, ks. auto.
Qed.
Lemma within_later objs m b u v s up t : upward objs -> made E objs m b u v s up -> within objs s t -> s <= t.
Proof.
  intros U Md W. induction W as [|t t' kws key k W IH Kt Hk Sub]; [lia|].
  destruct (made_within _ _ _ _ _ _ _ _ Md W) as (m' & b' & u' & v' & up' & Mt & _).
  inversion Mt as [? ? ? x ? ? o Ho D _ _|? ? ? doc ? ? o kws0 Ho D Hup Hu N K C Kp Hh Dep]; subst.
  - destruct Kt as (o' & Ho' & D'). congruence.
  - assert (kws0 = kws) by (apply (keywords_fun objs t); [now exists o|exact Kt]). subst kws0.
    assert (Hin : In key (keys doc)) by (apply K; exact (in_map fst _ _ Hk)). destruct (keys_dget _ _ Hin) as [v2 Dv].
    destruct (holds_sub _ _ _ _ _ _ _ _ _ _ Kt N Hk (Hh _ _ _ Hk Dv) Sub) as (v3 & ks & Mt' & Wk). pose proof (made_later _ _ _ _ _ _ _ _ _ U Mt'). lia.
Qed.

(** ** Construction. *)
Hypothesis Docs : forall u doc, load_json (e_lib E) (e_sources E) u = Ok doc -> jwf doc = true.

Lemma sane_build id v u m c s c' : sane c -> build E id v u m None c = (Ok s, c') -> sane c'.
Proof.
  intros S H. assert (Sb : safe 0 (build E id v u m None) (fun s k => s < k)) by (apply safe_build; discriminate). destruct (Sb c S (Nat.le_0_l _)) as (X & _). now rewrite H in X.
Qed.
Lemma construct_parts f id v u m c s c' : construct E f id v u m c = (Ok s, c') ->
  exists cb, build E id v u m None c = (Ok s, cb) /\ (resolve_references E f s cb = (Ok tt, c') \/ (c' = cb /\ forall doc, v <> JObj doc)).
Proof.
  unfold construct, construct_with. intro H. apply bind_ok in H. destruct H as (s0 & cb & H1 & H).
  destruct v; try solve [apply ret_ok in H; destruct H as [<- <-]; exists cb; split; [exact H1|]; right; split; [reflexivity|discriminate]].
  apply bind_ok in H. destruct H as ([] & c1 & H2 & H). apply ret_ok in H. destruct H as [<- <-]. exists cb. auto.
Qed.
Lemma construct_ok f id v u m c s c' : sane c -> jwf v = true -> construct E f id v u m c = (Ok s, c') ->
  sane c' /\ kept c c' /\ s < size c' /\ made E (c_objs c') m None (given_uri E c u None v) v s None /\
  forall t, within (c_objs c') s t -> forall kws key k, keywords_at (c_objs c') t kws -> In (key, k) kws -> is_reference k ->
    resolved_between E c c' t k.
Proof.
  intros S J H. destruct (construct_parts _ _ _ _ _ _ _ _ H) as (cb & B & R). destruct (build_made E id v u m c s cb S J B) as (Es & Ls & Cov & Md).
  pose proof (sane_build _ _ _ _ _ _ _ S B) as Sb. pose proof (framed_build E id v u m None c) as Ob. rewrite B in Ob. cbn [snd] in Ob.
  destruct R as [R|[-> Nb]].
  - pose proof (traces_resolve E Docs f (size cb) s Ls cb Sb (Nat.le_refl _)) as T. rewrite R in T. cbn [snd] in T. pose proof (proj1 T) as K.
    assert (Sc : sane c') by (destruct (safe_resolve E f (size cb) s Ls cb Sb (Nat.le_refl _)) as (X & _); now rewrite R in X).
    split; [exact Sc|]. split; [exact (kept_trans _ _ _ (old_kept _ _ Ob) K)|]. split; [apply kept_size in K; lia|]. split; [exact (kept_made E _ _ _ _ _ _ _ _ K Sb Md)|].
    intros t W kws key k Ha Hk Rk. pose proof (resolve_settles E f s cb tt c' Sb Ls R t W kws key k Ha Hk Rk) as Nn.
    destruct (within_back _ _ _ _ K Sb Ls W) as [Ht W0]. destruct (proj2 T t kws Ht Ha) as (kws0 & Ha0 & F).
    destruct (Forall2_In_r _ _ _ _ F Hk) as ([key0 k0] & Hk0 & _ & J0). cbn [snd] in J0. destruct J0 as [J0|J0].
    + exfalso. apply Nn. rewrite J0. apply (build_unref E _ _ _ _ _ _ _ _ B t) with (kws := kws0) (key := key0); auto.
      pose proof (within_later _ _ _ _ _ _ _ _ (proj1 Sb) Md W0). lia.
    + exact (between_more E _ _ _ _ _ _ (old_kept _ _ Ob) (kept_refl _) J0).
  - split; [exact Sb|]. split; [exact (old_kept _ _ Ob)|]. split; [exact Ls|]. split; [exact Md|]. intros t W kws key k Ha Hk Rk. exfalso.
    inversion Md as [? ? ? x ? ? o Ho D _ _|? ? ? doc ? ? o kws0]; subst; [|exact (Nb doc eq_refl)].
    assert (Q : t = size c). { apply within_first in W. destruct W as [->|(kws1 & _ & _ & _ & (o' & Ho' & D') & _)]; [reflexivity|congruence]. }
    subst t. destruct Ha as (o' & Ho' & D'). congruence.
Qed.

(** ** Canonical URIs. *)
Lemma canonical_found objs m b u v s : upward objs -> made E objs m b u v s None -> forall t, within objs s t -> forall n ks x, t < n ->
  sn_walk (objs_world objs) (SNSchema t) ks = Ok x -> forall r w ks', canonical_base n objs t ks = Some (r, w, ks') ->
  within objs s r /\ (exists o, nth_error objs r = Some o /\ so_uri o = Some w) /\ sn_walk (objs_world objs) (SNSchema r) ks' = Ok x.
Proof.
  intros U Md t W n. revert t W. induction n as [|n IH]; intros t W ks x Hn Wk r w ks' H; [lia|]. cbn [canonical_base] in H.
  destruct (nth_error objs t) as [o|] eqn:Ho; [|discriminate H]. destruct (so_uri o) as [w'|] eqn:Uo.
  - injection H as <- <- <-. split; [exact W|]. split; [eauto|exact Wk].
  - destruct (so_up o) as [[p up]|] eqn:Up; [|discriminate H]. destruct (made_within _ _ _ _ _ _ _ _ Md W) as (m' & b' & u' & v' & up' & Mt & Or).
    apply made_up in Mt. destruct Mt as (o' & Ho' & Up'). assert (o' = o) by congruence. subst o'. rewrite Up in Up'. destruct Or as [[-> ->]|(p' & ks0 & -> & Wp & Wk0)]; [discriminate Up'|].
    injection Up' as <- <-. apply (IH p Wp (up ++ ks) x) in H; [exact H| |].
    + pose proof (U _ _ _ _ Ho Up). lia.
    + rewrite sn_walk_app, Wk0. exact Wk.
Qed.
Lemma canonical_some objs m b u v s : upward objs -> made E objs m b u v s None -> (exists o w, nth_error objs s = Some o /\ so_uri o = Some w) ->
  forall t, within objs s t -> forall n ks, t < n -> canonical_base n objs t ks <> None.
Proof.
  intros U Md (os & ws & Hos & Hws) t W n. revert t W. induction n as [|n IH]; intros t W ks Hn; [lia|]. cbn [canonical_base].
  destruct (made_within _ _ _ _ _ _ _ _ Md W) as (m' & b' & u' & v' & up' & Mt & Or). apply made_up in Mt. destruct Mt as (o & Ho & Up). rewrite Ho.
  destruct (so_uri o) as [w|] eqn:Uo; [discriminate|]. destruct Or as [[-> ->]|(p & ks0 & -> & Wp & Wk0)]; [congruence|]. rewrite Up. apply IH; [exact Wp|]. pose proof (U _ _ _ _ Ho Up). lia.
Qed.
End Facts.

(** ** Histories. *)
Lemma sane_leave id c : sane c -> sane (mkCat (c_objs c) (leave_cache id (c_cache c))).
Proof.
  intros (U & K & T & C). split; [exact U|]. split; [exact K|]. split; [now apply tidy_leave|]. intros id' u s. cbn [c_cache].
  rewrite cached_leave by exact T. destruct (str_eqb id' id); [discriminate|apply C].
Qed.
Lemma reachable_sane c : reachable c -> sane c.
Proof.
  induction 1 as [|E f id v u m c _ IH|E f id u m c _ IH|id c _ IH].
  - split; [intros s o p ks H; now destruct s|]. split; [intros s kws (o & H & _); now destruct s|]. split; [repeat constructor|discriminate].
  - apply (safe_construct E f 0 id v u m c IH (Nat.le_0_l _)).
  - apply (safe_get_schema E f 0 id u m c IH (Nat.le_0_l _)).
  - now apply sane_leave.
Qed.
