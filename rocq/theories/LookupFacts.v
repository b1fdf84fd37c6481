(** Following a JSON pointer from a constructed schema. *)
From Coq Require Import List Lia Bool ZArith.
From Verif Require Import PyIntFacts SpecTreeAny JTreeSim PointerFacts PropsLenient.
From Verif Require Export SpecPyInt EditSane.
Import ListNotations.
Open Scope nat_scope.

Lemma reads_self d p q : reads_as d p q -> reads_as d q q.
Proof.
  induction 1 as [d|m k v p q I R IH|l k z i v p q T P N R IH]; [constructor|econstructor; eauto|].
  assert (L : i < length l) by (apply nth_error_Some; congruence).
  apply (ra_item l (str_of_nat i) (Z.of_nat i) i v q q); [apply int_text_str| |exact N|exact IH].
  unfold position. destruct (Z.leb_spec 0 (Z.of_nat i)); [|lia]. destruct (Z.ltb_spec (Z.of_nat i) (Z.of_nat (length l))); [|lia]. cbn. now rewrite Nat2Z.id.
Qed.

Section Lookup.
Variable E : env.
Variable objs : list sobj.
Notation W := (objs_world objs).

(** Node [n] of a schema document stands for the part [w] of it. *)
Definition some_made (w : json) (t : sid) : Prop := exists m b u up, made E objs m b u w t up.
Definition node_of (n : schemanode) (w : json) : Prop :=
  match n with
  | SNSchema t => some_made w t
  | SNJson (KJ w') => w' = w
  | SNJson (KSub _) => False
  | SNJson (KSubs ts) => exists l, w = JArr l /\ length ts = length l /\ forall i v t, nth_error l i = Some v -> nth_error ts i = Some t -> some_made v t
  | SNJson (KSubm ts) => exists d, w = JObj d /\ keys ts = keys d /\ forall k v t, dget k d = Some v -> dget k ts = Some t -> some_made v t
  end.
Lemma holds_node m b s key c w j : holds E objs m b s key c w j -> node_of (sn_of j) w.
Proof.
  intros H. destruct H as [m b s key c v _ _ _|m b s key c v t _ Md|m b s key c l ts _ L Md|m b s key c x _|m b s key c d ts _ N K Md]; cbn [sn_of node_of]; auto.
  - repeat eexists; eauto.
  - exists l. split; [reflexivity|]. split; [exact L|]. intros i v t Hv Ht. repeat eexists; eauto.
  - exists d. split; [reflexivity|]. split; [exact K|]. intros k v t Hv Ht. repeat eexists; eauto.
Qed.
Lemma keywords_world s o kws : nth_error objs s = Some o -> so_data o = SObj kws -> schema_keywords W s = kws.
Proof. intros Ho Hd. unfold schema_keywords. cbn [objs_world w_schema]. now rewrite Ho, Hd. Qed.
(** The last step, exactly as on the document. *)
Lemma child_reads k n w : node_of n w ->
  match sn_child W n k with
  | Ok n' => exists k' w', node_of n' w' /\ sn_child W n k' = Ok n' /\ (forall p q, reads_as w' p q -> reads_as w (k :: p) (k' :: q)) /\
      (forall p v j, ends_at w' p v j -> ends_at w (k :: p) v j)
  | Exn e => (forall q, ~ reads_as w [k] q) /\ (not_integer w k /\ e = EValue \/ ~ not_integer w k /\ e = EPointerReference)
  | Fuel => False
  end.
Proof.
  assert (Obj : forall d : list (pystr * json), ~ In k (keys d) -> (forall q, ~ reads_as (JObj d) [k] q) /\ (not_integer (JObj d) k /\ EPointerReference = EValue \/ ~ not_integer (JObj d) k /\ EPointerReference = EPointerReference)).
  { intros d Nk. split; [intros q R; inversion R; subst; apply Nk; unfold keys; now apply (in_map fst) in H2|]. right. split; [|reflexivity]. intros ((l & [=]) & _). }
  assert (Idx : forall {A} (l : list A) (d : list json), length l = length d ->
    match sn_index k l with
    | Ok x => exists z i, int_text k z /\ position (length d) z = Some i /\ nth_error l i = Some x
    | Exn e => (forall q, ~ reads_as (JArr d) [k] q) /\ (not_integer (JArr d) k /\ e = EValue \/ ~ not_integer (JArr d) k /\ e = EPointerReference)
    | Fuel => False
    end).
  { intros A l d L. unfold sn_index. destruct (py_int k) as [z|] eqn:Z.
    - apply py_int_iff in Z. rewrite L, <- position_norm. destruct (position (length d) z) as [i|] eqn:P.
      + destruct (nth_error l i) as [x|] eqn:Hx; [eauto 6|]. exfalso. destruct (position_nth d z i P) as (y & Hy). apply nth_error_None in Hx. assert (i < length d) by (apply nth_error_Some; congruence). lia.
      + split; [|right; split; [intros (_ & NI); exact (NI _ Z)|reflexivity]]. intros q R. inversion R as [| |? ? z' ? ? ? ? T P' N' R']; subst. pose proof (int_text_fun _ _ _ Z T). subst z'. congruence.
    - assert (NI : forall z, ~ int_text k z) by (intros z T; apply py_int_iff in T; congruence). split; [|left; split; [split; eauto|reflexivity]].
      intros q R. inversion R as [| |? ? z' ? ? ? ? T P' N' R']; subst. exact (NI _ T). }
  assert (Bad : forall w, (forall l, w <> JArr l) -> (forall d, w <> JObj d) -> (forall q, ~ reads_as w [k] q) /\ (not_integer w k /\ EPointerReference = EValue \/ ~ not_integer w k /\ EPointerReference = EPointerReference)).
  { intros w0 A B. split; [intros q R; inversion R; subst; [now apply (B m)|now apply (A l)]|]. right. split; [|reflexivity]. intros ((l & ->) & _). now apply (A l). }
  assert (Str : forall i d (v : json), nth_error d i = Some v -> forall {A} (l : list A) x, length l = length d -> nth_error l i = Some x -> sn_index (str_of_nat i) l = Ok x).
  { intros i d v Hv A l x L Hx. unfold sn_index. rewrite py_int_str_of_nat. unfold norm_index. assert (i < length l) by (apply nth_error_Some; congruence).
    destruct (Z.ltb_spec (Z.of_nat i) 0); [lia|]. destruct (Z.leb_spec 0 (Z.of_nat i)); [|lia]. destruct (Z.ltb_spec (Z.of_nat i) (Z.of_nat (length l))); [|lia]. cbn [andb]. now rewrite Nat2Z.id, Hx. }
  intro N. destruct n as [s|[w'|t|ts|ts]]; cbn [node_of sn_child] in *.
  - destruct N as (m & b & u & up & Md).
    inversion Md as [m0 b0 u0 x s0 up0 o Ho Hd Hup Hu|m0 b0 u0 doc s0 up0 o kws Ho Hd Hup Hu Nd K C Kp Hh Dep Ord Fo]; subst.
    + unfold schema_keywords. cbn [objs_world w_schema]. rewrite Ho, Hd. cbn [dget]. apply Bad; discriminate.
    + rewrite (keywords_world _ _ _ Ho Hd). destruct (dget k kws) as [kw|] eqn:D.
      * apply dget_In in D as Hin. assert (X : In k (keys doc)) by (apply K; exact (in_map fst _ _ Hin)). destruct (keys_dget _ _ X) as [v Dv].
        exists k, v. split; [exact (holds_node _ _ _ _ _ _ _ (Hh _ _ _ Hin Dv))|]. split; [now rewrite D|]. apply dget_In in Dv. split; intros; econstructor; eauto.
      * apply Obj. intro X. apply K in X. apply dget_None in D. contradiction.
  - subst w'. destruct w as [|z0|z1|z2|l|d]; try (apply Bad; discriminate).
    + pose proof (Idx _ l l eq_refl) as X. destruct (sn_index k l) as [x|e|]; cbn [bind]; [|exact X|exact X]. destruct X as (z & i & T & P & Hx).
      exists (str_of_nat i), x. split; [reflexivity|]. split; [now rewrite (Str i l x Hx _ l x eq_refl Hx)|]. split; intros; econstructor; eauto.
    + destruct (dget k d) as [x|] eqn:D; [|apply Obj; now apply dget_None].
      exists k, x. split; [reflexivity|]. split; [now rewrite D|]. apply dget_In in D. split; intros; econstructor; eauto.
  - contradiction.
  - destruct N as (l & -> & L & Md). pose proof (Idx _ ts l L) as X. destruct (sn_index k ts) as [t|e|]; cbn [bind]; [|exact X|exact X]. destruct X as (z & i & T & P & Ht).
    destruct (position_nth l z i P) as (v & Hv). exists (str_of_nat i), v. split; [exact (Md _ _ _ Hv Ht)|]. split; [now rewrite (Str i l v Hv _ ts t L Ht)|]. split; intros; econstructor; eauto.
  - destruct N as (d & -> & K & Md). destruct (dget k ts) as [t|] eqn:D.
    + assert (X : In k (keys d)) by (rewrite <- K; exact (dget_keys _ _ _ D)). destruct (keys_dget _ _ X) as [v Dv]. exists k, v. split; [exact (Md _ _ _ Dv D)|]. split; [now rewrite D|]. apply dget_In in Dv. split; intros; econstructor; eauto.
    + apply Obj. rewrite <- K. now apply dget_None.
Qed.

Lemma walk_reads p : forall n w, node_of n w ->
  match sn_walk W n p with
  | Ok n' => exists q w', reads_as w p q /\ node_of n' w' /\ sn_walk W n q = Ok n'
  | Exn e => (exists v k, ends_at w p v k /\ (not_integer v k /\ e = EValue \/ ~ not_integer v k /\ e = EPointerReference))
  | Fuel => False
  end.
Proof.
  induction p as [|k p IH]; intros n w N; cbn [sn_walk].
  { exists [], w. split; [constructor|]. auto. }
  pose proof (child_reads k n w N) as X. destruct (sn_child W n k) as [n1|e|]; cbn [bind]; [| |exact X].
  - destruct X as (k' & w1 & N1 & C & R & En). specialize (IH n1 w1 N1). destruct (sn_walk W n1 p) as [n2|e|]; [| |exact IH].
    + destruct IH as (q & w2 & R2 & N2 & Wq). exists (k' :: q), w2. split; [now apply R|]. split; [exact N2|]. cbn [sn_walk]. rewrite C. exact Wq.
    + destruct IH as (v & j & A & B). exists v, j. split; [now apply En|exact B].
  - destruct X as (A & B). exists w, k. split; [now constructor|exact B].
Qed.

(** On canonical keys, the schemas reached are those found. *)
Lemma reached_walk s q t w : some_made w s -> reached objs s q t -> sn_walk W (SNSchema s) q = Ok (SNSchema t).
Proof.
  intros Mw R. revert w Mw. induction R as [s|s kws key k ks t p t' (o & Ho & Hd) Hk F R IH]; intros w (m & b & u & up & Md); [reflexivity|].
  inversion Md as [m0 b0 u0 x s0 up0 o0 Ho0 Hd0 Hup Hu|m0 b0 u0 doc s0 up0 o0 kws0 Ho0 Hd0 Hup Hu N K C Kp Hh Dep Ord Fo]; subst; rewrite Ho in Ho0; injection Ho0 as <-; rewrite Hd in Hd0; [discriminate Hd0|].
  injection Hd0 as <-. assert (X : In key (keys doc)) by (apply K; exact (in_map fst _ _ Hk)). destruct (keys_dget _ _ X) as [v Dv].
  destruct (first_made E _ _ _ _ _ _ _ _ _ _ (Hh _ _ _ Hk Dv) F) as [w' Mt]. cbn [sn_walk sn_child]. rewrite (keywords_world _ _ _ Ho Hd), (In_dget _ _ _ N Hk). cbn [bind].
  assert (Mt' : some_made w' t) by (repeat eexists; eauto). specialize (IH w' Mt'). unfold first_keys in F. destruct (kw_json k) as [v0|t0|l|mm]; cbn [sn_of].
  - contradiction.
  - destruct F as [-> ->]. exact IH.
  - destruct F as (i & -> & Hi). cbn [app sn_walk sn_child]. unfold sn_index. rewrite py_int_str_of_nat. unfold norm_index. assert (i < length l) by (apply nth_error_Some; congruence).
    destruct (Z.ltb_spec (Z.of_nat i) 0); [lia|]. destruct (Z.leb_spec 0 (Z.of_nat i)); [|lia]. destruct (Z.ltb_spec (Z.of_nat i) (Z.of_nat (length l))); [|lia]. cbn [andb]. rewrite Nat2Z.id, Hi. cbn [bind]. exact IH.
  - destruct F as (n & -> & Hn). cbn [app sn_walk sn_child]. rewrite Hn. cbn [bind]. exact IH.
Qed.
(** Inside a plain value there is no schema. *)
Lemma walk_plain q : forall w n, sn_walk W (SNJson (KJ w)) q = Ok n -> exists w', n = SNJson (KJ w').
Proof.
  induction q as [|k q IH]; intros w n H; cbn [sn_walk] in H; [injection H as <-; eauto|].
  destruct w as [|z0|z1|z2|l|d]; cbn [sn_child] in H; try discriminate H.
  - destruct (sn_index k l); cbn [bind] in H; try discriminate H. exact (IH _ _ H).
  - destruct (dget k d); cbn [bind] in H; try discriminate H. exact (IH _ _ H).
Qed.
Lemma walk_reached : forall n q s t w, length q <= n -> some_made w s -> jwf w = true -> reads_as w q q -> sn_walk W (SNSchema s) q = Ok (SNSchema t) -> reached objs s q t.
Proof.
  induction n as [|n IH]; intros q s t w L Mw J R H; (destruct q as [|key q]; [cbn [sn_walk] in H; injection H as <-; constructor|]); [cbn in L; lia|]. cbn [length] in L.
  cbn [sn_walk sn_child] in H. destruct Mw as (m & b & u & up & Md).
  inversion Md as [m0 b0 u0 x s0 up0 o Ho Hd Hup Hu|m0 b0 u0 doc s0 up0 o kws Ho Hd Hup Hu Nd K C Kp Hh Dep Ord Fo]; subst; [inversion R|].
  rewrite (keywords_world _ _ _ Ho Hd) in H. destruct (dget key kws) as [k|] eqn:D; [|discriminate H]. cbn [bind] in H. apply dget_In in D as Hk.
  inversion R as [|? ? v ? ? Hv Rv|]; subst. assert (Dv : dget key doc = Some v) by (apply In_dget; [exact (jwf_NoDup _ J)|exact Hv]). pose proof (jwf_dget _ _ _ J Dv) as Jv.
  pose proof (Hh _ _ _ Hk Dv) as H0. assert (Ka : keywords_at objs s kws) by (exists o; auto).
  assert (Go : forall t0 ks q', q = ks ++ q' -> first_keys k ks t0 -> forall v0, some_made v0 t0 -> jwf v0 = true -> reads_as v0 q' q' -> sn_walk W (SNSchema t0) q' = Ok (SNSchema t) -> reached objs s (key :: q) t).
  { intros t0 ks q' -> F v0 M0 J0 R0 H'. apply (reach_below objs s kws key k ks t0 q' t Ka Hk F). apply (IH q' t0 t v0); auto. rewrite app_length in L. lia. }
  clear IH. unfold first_keys in Go. remember (applies E m doc) as m1. remember (base_of (so_uri o) b) as b1. remember (kw_class k) as c1. remember (kw_json k) as j. clear Heqm1 Heqb1 Heqc1 Heqj.
  clear Md Hh Kp C Dep Ord Fo R K Hu Dv Hv Ka D Hk J. destruct H0 as [m1 b1 s key c1 v _ _ _|m1 b1 s key c1 v t0 _ Mt|m1 b1 s key c1 l ts _ Ll Mt|m1 b1 s key c1 x _|m1 b1 s key c1 d ts _ Nn Kn Mt]; cbn [sn_of] in H.
  - destruct (walk_plain _ _ _ H) as (w' & X). discriminate X.
  - apply (Go t0 [] q eq_refl (conj eq_refl eq_refl) v); auto. repeat eexists; eauto.
  - destruct q as [|k2 q]; [discriminate H|]. inversion Rv as [| |? ? z i v' ? ? T P Hv' R']; subst. cbn [sn_walk sn_child] in H.
    assert (Li : i < length ts) by (rewrite Ll; apply nth_error_Some; congruence). destruct (nth_error ts i) as [t0|] eqn:Ht; [|apply nth_error_None in Ht; lia].
    assert (Ix : sn_index (str_of_nat i) ts = Ok t0).
    { unfold sn_index. rewrite py_int_str_of_nat. unfold norm_index. destruct (Z.ltb_spec (Z.of_nat i) 0); [lia|]. destruct (Z.leb_spec 0 (Z.of_nat i)); [|lia].
      destruct (Z.ltb_spec (Z.of_nat i) (Z.of_nat (length ts))); [|lia]. cbn [andb]. now rewrite Nat2Z.id, Ht. }
    rewrite Ix in H. cbn [bind] in H. apply (Go t0 [str_of_nat i] q eq_refl (ex_intro _ i (conj eq_refl Ht)) v'); auto; [repeat eexists; eauto|exact (jwf_nth _ _ _ Jv Hv')].
  - destruct (walk_plain _ _ _ H) as (w' & X). discriminate X.
  - destruct q as [|k2 q]; [discriminate H|]. inversion Rv as [|? ? v' ? ? Hv' R'|]; subst. cbn [sn_walk sn_child] in H. destruct (dget k2 ts) as [t0|] eqn:Ht; [|discriminate H]. cbn [bind] in H.
    assert (Dv' : dget k2 d = Some v') by (apply In_dget; [exact Nn|exact Hv']).
    apply (Go t0 [k2] q eq_refl (ex_intro _ k2 (conj eq_refl Ht)) v'); auto; [repeat eexists; eauto|exact (jwf_dget _ _ _ Jv Dv')].
Qed.

(** The outcome on a schema, exactly. *)
Lemma walk_exact p s w : some_made w s -> jwf w = true ->
  match sn_walk W (SNSchema s) p with
  | Ok (SNSchema t) => exists q, reads_as w p q /\ reached objs s q t
  | Ok (SNJson _) => exists q, reads_as w p q /\ forall t, ~ reached objs s q t
  | Exn e => (exists v k, ends_at w p v k /\ (not_integer v k /\ e = EValue \/ ~ not_integer v k /\ e = EPointerReference))
  | Fuel => False
  end.
Proof.
  intros Mw J. pose proof (walk_reads p (SNSchema s) w Mw) as X. destruct (sn_walk W (SNSchema s) p) as [[t|j]|e|]; [| |exact X|exact X]; destruct X as (q & w' & R & N & Wq); exists q; (split; [exact R|]).
  - exact (walk_reached _ q s t w (le_n _) Mw J (reads_self _ _ _ R) Wq).
  - intros t Rt. pose proof (reached_walk s q t w Mw Rt). congruence.
Qed.
End Lookup.
