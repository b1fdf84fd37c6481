(** The JSON Patch methods on schemas: the node found, and the edit chosen. *)
From Coq Require Import List Lia Bool ZArith.
From Verif Require Import PyIntFacts SpecTreeAny JTreeSim PointerFacts PropsLenient PatchFacts.
From Verif Require Export SpecSchemaPatch SchemaPatch LookupFacts.
Import ListNotations.
Open Scope nat_scope.

Lemma show_from_nil objs : forall s, show_from [] s objs = objs.
Proof.
  induction objs as [|o objs IH]; intro s; [reflexivity|]. cbn [show_from]. rewrite IH. f_equal. unfold show_one. destruct (so_data o) as [|kws] eqn:D; [reflexivity|].
  assert (F : forall l : list (pystr * keyword), filter (fun kk => negb (is_gone [] s (fst kk))) l = l) by (induction l as [|kk l IHl]; [reflexivity|cbn; now f_equal]). rewrite F.
  destruct o; cbn in *. now subst.
Qed.
Lemma shown_nil objs : shown [] objs = objs. Proof. apply show_from_nil. Qed.

Section Spots.
Variable E : env.
Variable objs : list sobj.
Notation W := (objs_world objs).

(** In step with the walk of Schema.v. *)
Definition sn_spot (n : spot) : schemanode := match n with AtSchema s => SNSchema s | AtValue _ _ _ j => SNJson j end.
Lemma spot_of_sn s key j : sn_spot (spot_of s key j) = sn_of j. Proof. now destruct j. Qed.
Lemma index_sn {A B} (l : list A) k (f : A -> B) : (let* x := sn_index k l in Ok (f x)) =
  (let* i := item_index (length l) k in match nth_error l i with Some x => Ok (f x) | None => Exn EPointerReference end).
Proof. unfold sn_index, item_index. destruct (py_int k) as [z|]; [|reflexivity]. destruct (norm_index (length l) z) as [i|]; [|reflexivity]. cbn [bind]. now destruct (nth_error l i). Qed.
Lemma spot_child_sn n k : sn_child W (sn_spot n) k = match spot_child objs n k with Ok n' => Ok (sn_spot n') | Exn e => Exn e | Fuel => Fuel end.
Proof.
  destruct n as [s|s key q [w|t|ts|ts]]; cbn [sn_spot sn_child spot_child].
  - unfold schema_keywords. cbn [objs_world w_schema]. destruct (nth_error objs s) as [o|]; [|reflexivity]. destruct (so_data o) as [|kws]; [reflexivity|]. destruct (dget k kws) as [kw|]; [now rewrite spot_of_sn|reflexivity].
  - destruct w as [|z0|z1|z2|l|m]; try reflexivity.
    + rewrite (index_sn l k (fun v => SNJson (KJ v))). destruct (item_index (length l) k) as [i| |]; [|reflexivity|reflexivity]. cbn [bind]. now destruct (nth_error l i).
    + now destruct (dget k m).
  - reflexivity.
  - rewrite (index_sn ts k SNSchema). destruct (item_index (length ts) k) as [i| |]; [|reflexivity|reflexivity]. cbn [bind]. now destruct (nth_error ts i).
  - now destruct (dget k ts).
Qed.
Lemma spot_walk_sn p : forall n, sn_walk W (sn_spot n) p = match spot_walk objs n p with Ok n' => Ok (sn_spot n') | Exn e => Exn e | Fuel => Fuel end.
Proof.
  induction p as [|k p IH]; intro n; [reflexivity|]. cbn [sn_walk spot_walk]. rewrite spot_child_sn. destruct (spot_child objs n k) as [n'| |]; cbn [bind]; [apply IH|reflexivity|reflexivity].
Qed.

Lemma reached_trans r p s q t : reached objs r p s -> reached objs s q t -> reached objs r (p ++ q) t.
Proof.
  induction 1 as [s|s kws key k ks t0 p t' Ka Hk F R IH]; intro R2; [exact R2|]. replace ((key :: ks ++ p) ++ q) with (key :: ks ++ (p ++ q)) by (cbn; now rewrite app_assoc). exact (reach_below _ _ kws key k ks t0 _ _ Ka Hk F (IH R2)).
Qed.

(** Where the walk stands: [q] leads from schema [r] to the node, which stands
    for [x]. *)
Definition stands_in (r : sid) (q : list pystr) (n : spot) : Prop :=
  match n with
  | AtSchema s => reached objs r q s
  | AtValue s key w j => exists p kws k, q = p ++ key :: map way_key w /\ reached objs r p s /\ keywords_at objs s kws /\ In (key, k) kws /\ (match j with KJ _ => True | _ => w = [] end) /\ (w = [] -> kw_json k = j) /\ (forall t, j <> KSub t)
  end.
Lemma step_stands r q n k n' w : stands_in r q n -> node_of E objs (sn_spot n) w -> spot_child objs n k = Ok n' ->
  exists k' w', stands_in r (q ++ [k']) n' /\ node_of E objs (sn_spot n') w' /\ SpecPointer.child w k' w' /\ forall p q', reads_as w' p q' -> reads_as w (k :: p) (k' :: q').
Proof.
  intros St N H. destruct n as [s|s key ws j]; cbn [sn_spot node_of spot_child stands_in] in *.
  - destruct N as (m & b & u & up & Md). destruct (nth_error objs s) as [o|] eqn:Ho; [|discriminate H]. destruct (so_data o) as [|kws] eqn:Hd; [discriminate H|]. destruct (dget k kws) as [kw|] eqn:D; [|discriminate H]. injection H as <-.
    inversion Md as [m0 b0 u0 x s0 up0 o0 Ho0 Hd0 Hup Hu|m0 b0 u0 doc s0 up0 o0 kws0 Ho0 Hd0 Hup Hu Nd K C Kp Hh Dep Ord Fo]; subst; rewrite Ho in Ho0; injection Ho0 as <-; rewrite Hd in Hd0; [discriminate Hd0|]. injection Hd0 as <-.
    apply dget_In in D as Hin. assert (X : In k (keys doc)) by (apply K; exact (in_map fst _ _ Hin)). destruct (keys_dget _ _ X) as [v Dv]. pose proof (holds_node _ _ _ _ _ _ _ _ _ (Hh _ _ _ Hin Dv)) as Nv. apply dget_In in Dv.
    exists k, v. split; [|rewrite spot_of_sn; split; [exact Nv|split; [now constructor|intros; econstructor; eauto]]].
    assert (Ka : keywords_at objs s kws) by (exists o; auto).
    assert (Val : forall j0, kw_json kw = j0 -> (forall t, j0 <> KSub t) -> stands_in r (q ++ [k]) (AtValue s k [] j0)).
    { intros j0 Hj Nj. exists q, kws, kw. split; [reflexivity|]. split; [exact St|]. split; [exact Ka|]. split; [exact Hin|]. split; [now destruct j0|auto]. }
    destruct (kw_json kw) as [v0|t0|ts|ts] eqn:Hj; cbn [spot_of]; try (apply Val; [reflexivity|discriminate]).
    cbn [stands_in]. apply (reached_trans r q s [k] t0 St). apply (reach_below objs s kws k kw [] t0 [] t0 Ka Hin); [unfold first_keys; rewrite Hj; auto|constructor].
  - destruct St as (p0 & kws & kw & -> & R & Ka & Hin & Sub & Top & NK). destruct j as [v|t|ts|ts]; [|discriminate H| |].
    + subst v. destruct w as [|z0|z1|z2|l|d]; try discriminate H.
      * unfold item_index in H. destruct (py_int k) as [z|] eqn:T; [|discriminate H]. rewrite <- position_norm in H. destruct (position (length l) z) as [i|] eqn:P; [|discriminate H]. cbn [bind] in H.
        destruct (nth_error l i) as [x|] eqn:Hx; [|discriminate H]. injection H as <-. exists (str_of_nat i), x. split.
        -- cbn [stands_in]. exists p0, kws, kw. split; [rewrite map_app; cbn; now rewrite <- app_assoc|]. split; [exact R|]. split; [exact Ka|]. split; [exact Hin|]. split; [exact I|]. split; [|discriminate]. intro Q. now destruct ws.
        -- cbn [sn_spot node_of]. split; [reflexivity|]. split; [now apply child_nat|]. intros. apply py_int_iff in T. econstructor; eauto.
      * destruct (dget k d) as [x|] eqn:D; [|discriminate H]. injection H as <-. apply dget_In in D. exists k, x. split.
        -- cbn [stands_in]. exists p0, kws, kw. split; [rewrite map_app; cbn; now rewrite <- app_assoc|]. split; [exact R|]. split; [exact Ka|]. split; [exact Hin|]. split; [exact I|]. split; [|discriminate]. intro Q. now destruct ws.
        -- cbn [sn_spot node_of]. split; [reflexivity|]. split; [now constructor|]. intros. econstructor; eauto.
    + destruct N as (l & -> & L & Md). unfold item_index in H. destruct (py_int k) as [z|] eqn:T; [|discriminate H]. rewrite L, <- position_norm in H. destruct (position (length l) z) as [i|] eqn:P; [|discriminate H]. cbn [bind] in H.
      destruct (nth_error ts i) as [t|] eqn:Ht; [|discriminate H]. injection H as <-. destruct (position_nth l z i P) as (v & Hv). subst ws. cbn [map]. exists (str_of_nat i), v. split.
      * cbn [stands_in]. rewrite <- app_assoc. cbn [app]. apply (reached_trans r p0 s _ t R). apply (reach_below objs s kws key kw [str_of_nat i] t [] t Ka Hin); [|constructor]. unfold first_keys. rewrite (Top eq_refl). eauto.
      * cbn [sn_spot node_of]. split; [exact (Md _ _ _ Hv Ht)|]. split; [now apply child_nat|]. intros. apply py_int_iff in T. econstructor; eauto.
    + destruct N as (d & -> & K & Md). destruct (dget k ts) as [t|] eqn:D; [|discriminate H]. injection H as <-. assert (X : In k (keys d)) by (rewrite <- K; exact (dget_keys _ _ _ D)). destruct (keys_dget _ _ X) as [v Dv].
      subst ws. cbn [map]. exists k, v. split.
      * cbn [stands_in]. rewrite <- app_assoc. cbn [app]. apply (reached_trans r p0 s _ t R). apply (reach_below objs s kws key kw [k] t [] t Ka Hin); [|constructor]. unfold first_keys. rewrite (Top eq_refl). eauto.
      * cbn [sn_spot node_of]. split; [exact (Md _ _ _ Dv D)|]. apply dget_In in Dv. split; [now constructor|]. intros. econstructor; eauto.
Qed.
Lemma walk_stands p : forall r q n w n', stands_in r q n -> node_of E objs (sn_spot n) w -> spot_walk objs n p = Ok n' ->
  exists q' w', stands_in r (q ++ q') n' /\ node_of E objs (sn_spot n') w' /\ refers w q' w' /\ reads_as w p q'.
Proof.
  induction p as [|k p IH]; intros r q n w n' St N H; cbn [spot_walk] in H.
  - injection H as <-. exists [], w. rewrite app_nil_r. split; [exact St|]. split; [exact N|]. split; constructor.
  - destruct (spot_child objs n k) as [n1| |] eqn:H1; try discriminate H. cbn [bind] in H. destruct (step_stands _ _ _ _ _ _ St N H1) as (k' & w1 & St1 & N1 & C1 & R1).
    destruct (IH _ _ _ _ _ St1 N1 H) as (q' & w2 & St2 & N2 & F2 & R2). exists (k' :: q'), w2. rewrite <- app_assoc in St2. split; [exact St2|]. split; [exact N2|]. split; [econstructor; eauto|now apply R1].
Qed.
(** The value of a subschema is the part of the document at its place. *)
Lemma reached_value r p s v : some_made E objs v r -> reached objs r p s -> exists w, some_made E objs w s /\ refers v p w.
Proof.
  intros Mv R. revert v Mv. induction R as [r|r kws key k ks t p t' (o & Ho & Hd) Hk F R IH]; intros v Mv; [exists v; split; [exact Mv|constructor]|]. destruct Mv as (m & b & u & up & Md).
  inversion Md as [m0 b0 u0 x s0 up0 o0 Ho0 Hd0 Hup Hu|m0 b0 u0 doc s0 up0 o0 kws0 Ho0 Hd0 Hup Hu Nd K C Kp Hh Dep Ord Fo]; subst; rewrite Ho in Ho0; injection Ho0 as <-; rewrite Hd in Hd0; [discriminate Hd0|]. injection Hd0 as <-.
  assert (X : In key (keys doc)) by (apply K; exact (in_map fst _ _ Hk)). destruct (keys_dget _ _ X) as [x Dv]. pose proof (holds_node _ _ _ _ _ _ _ _ _ (Hh _ _ _ Hk Dv)) as Nv. apply dget_In in Dv.
  unfold first_keys in F. destruct (kw_json k) as [v0|t0|l|mm]; cbn [sn_of node_of] in Nv.
  - contradiction.
  - destruct F as [-> ->]. destruct (IH _ Nv) as (w & Mw & Fw). exists w. split; [exact Mw|]. cbn [app]. econstructor; [constructor; eauto|exact Fw].
  - destruct F as (i & -> & Hi). destruct Nv as (d & -> & L & Md'). assert (i < length d) by (rewrite <- L; apply nth_error_Some; congruence). destruct (nth_error d i) as [y|] eqn:Hy; [|apply nth_error_None in Hy; lia].
    destruct (IH _ (Md' _ _ _ Hy Hi)) as (w & Mw & Fw). exists w. split; [exact Mw|]. cbn [app]. apply (refers_down _ _ (JArr d)); [now constructor|]. apply (refers_down _ _ y); [now apply child_nat|exact Fw].
  - destruct F as (n & -> & Hn). destruct Nv as (d & -> & Kd & Md'). assert (Y : In n (keys d)) by (rewrite <- Kd; exact (dget_keys _ _ _ Hn)). destruct (keys_dget _ _ Y) as [y Dy].
    destruct (IH _ (Md' _ _ _ Dy Hn)) as (w & Mw & Fw). exists w. split; [exact Mw|]. cbn [app]. apply (refers_down _ _ (JObj d)); [now constructor|]. apply dget_In in Dy. apply (refers_down _ _ y); [now constructor|exact Fw].
Qed.
End Spots.

(** From the edit to the operation of RFC 6902. *)
Lemma amended_edited (R : json -> json -> Prop) e q v v' x : jwf v = true -> amended e q v v' -> refers v q x -> (forall x', amends e x x' -> R x x') -> edited R q v v'.
Proof.
  intros J A. revert J. induction A as [v v' A|p l1 y y' l2 A IH|k p y y' m1 m2 N A IH]; intros J F H.
  - inversion F; subst. constructor. now apply H.
  - destruct (index_text_nat (length l1)) as [T V]. inversion F as [|? ? d' ? ? C F']; subst. apply child_nat in C. rewrite nth_error_app2, Nat.sub_diag in C by lia. cbn in C. injection C as <-.
    apply ed_item; [exact T|exact V|]. apply IH; [|exact F'|exact H]. apply jwf_arr in J. rewrite Forall_forall in J. apply J. apply in_elt.
  - inversion F as [|? ? d' ? ? C F']; subst. inversion C as [? ? ? I|]; subst. pose proof (In_dget _ _ _ (jwf_NoDup _ J) I) as D.
    assert (D' : dget k (m1 ++ (k, y) :: m2) = Some y) by (apply In_dget; [exact (jwf_NoDup _ J)|apply in_elt]). assert (d' = y) by congruence. subst d'.
    apply ed_member. apply IH; [exact (jwf_dget _ _ _ J D')|exact F'|exact H].
Qed.
