(** Judging looks only at the schemas it leads to. *)
From Coq Require Import List.
From Verif Require Export SchemaLocal.
Import ListNotations.
Open Scope nat_scope.

Lemma obind_ext {A B} (a : option A) (f g : A -> option B) : (forall x, a = Some x -> f x = g x) -> obind a f = obind a g.
Proof. destruct a; cbn; auto. Qed.
Lemma all_ext {A B} (f g : A -> option B) l : (forall x, In x l -> f x = g x) -> all_some (map f l) = all_some (map g l).
Proof. intro H. now rewrite (map_ext_in _ _ _ H). Qed.

Section Local.
Variables (R : sid -> Prop) (W W' : world).
Hypothesis (C : closed W R) (S : same_on R W W').
Variables (choose choose' : pystr -> list sid -> sid -> sid).
Hypothesis Hch : forall f sc t, Forall R sc -> R t -> choose f sc t = choose' f sc t /\ R (choose f sc t).

Lemma same_declares_dynamic s f : R s -> declares_dynamic W s f = declares_dynamic W' s f.
Proof. intro H. unfold declares_dynamic. now rewrite (proj1 (proj1 S s H)). Qed.
Lemma same_declares_recursive s : R s -> declares_recursive W s = declares_recursive W' s.
Proof. intro H. unfold declares_recursive. now rewrite (proj1 (proj1 S s H)). Qed.
Lemma same_outermost {A} (Q : A -> Prop) (f g : sid -> option A) sc : Forall R sc -> (forall s, R s -> f s = g s /\ forall a, f s = Some a -> Q a) ->
  outermost f sc = outermost g sc /\ forall a, outermost f sc = Some a -> Q a.
Proof.
  intros H F. induction H as [|s sc Hs _ [E IH]]; cbn [outermost]; [split; [auto|discriminate]|]. rewrite <- E. destruct (outermost f sc) as [a|]; [|now apply F].
  split; [auto|]. intros b Hb. apply IH. exact Hb.
Qed.
Lemma same_recursive sc t : Forall R sc -> R t -> recursive_choice W sc t = recursive_choice W' sc t /\ R (recursive_choice W sc t).
Proof.
  intros H Ht. unfold recursive_choice. rewrite <- (same_declares_recursive t Ht). destruct (declares_recursive W t); [|auto].
  destruct (same_outermost R (fun s => if declares_recursive W s then Some s else None) (fun s => if declares_recursive W' s then Some s else None) sc H) as [<- Q].
  - intros s Hs. rewrite (same_declares_recursive s Hs). split; [auto|]. intros a Ha. destruct (declares_recursive W' s); [|discriminate]. now injection Ha as <-.
  - destruct (outermost _ sc) as [a|]; auto.
Qed.
Lemma same_dynamic f sc t : Forall R sc -> R t -> dynamic_choice W f sc t = dynamic_choice W' f sc t /\ R (dynamic_choice W f sc t).
Proof.
  intros H Ht. unfold dynamic_choice. destruct (same_outermost R (anchored W f) (anchored W' f) sc H) as [<- Q]; [|destruct (outermost _ sc); auto].
  intros s Hs. unfold anchored. destruct (proj1 S s Hs) as [_ <-]. destruct (w_base W s) as [b|] eqn:Hb; cbn [obind]; [|split; [auto|discriminate]].
  rewrite <- (proj1 (proj2 S) s b f Hs Hb). destruct (w_anchor W b f) as [a|] eqn:Ha; cbn [obind]; [|split; [auto|discriminate]].
  assert (Ra : R a) by exact (proj2 C _ _ _ _ Hs Hb Ha). rewrite (same_declares_dynamic a f Ra). split; [auto|]. intros a' E. destruct (declares_dynamic W' a f); [|discriminate]. now injection E as <-.
Qed.

Lemma same_is_multiple a b : is_multiple W a b = is_multiple W' a b.
Proof. exact (same_multiple R W W' S a b). Qed.
Lemma same_assertion k c x : assertion W k c x = assertion W' k c x.
Proof.
  unfold assertion. destruct c; try reflexivity; destruct x; try reflexivity.
  all: try (destruct (limit_of (kw_json k)); [now rewrite same_is_multiple|reflexivity]).
  all: try (destruct (kw_json k) as [[]| | |]; try reflexivity; apply S).
  all: destruct (kw_format k); [|reflexivity]; destruct (kw_json k) as [[]| | |]; try reflexivity; now rewrite (proj2 (proj2 (proj2 (proj2 S)))).
Qed.
Lemma same_matches_any p name : matches_any W p name = matches_any W' p name.
Proof. induction p as [|r p IH]; [reflexivity|]. cbn [matches_any]. now rewrite (proj1 (proj2 (proj2 S))), IH. Qed.

Section Judging.
Variables jd jd' : list sid -> sid -> json -> option outcome.
Hypothesis Hj : forall sc s x, Forall R sc -> R s -> jd sc s x = jd' sc s x.

Lemma same_all sc t l : Forall R sc -> R t -> judge_all jd sc t l = judge_all jd' sc t l.
Proof. intros Hs Ht. apply all_ext. auto. Qed.
Lemma same_members sc t l : Forall R sc -> R t -> judge_members jd sc t l = judge_members jd' sc t l.
Proof. intros Hs Ht. unfold judge_members. now rewrite same_all. Qed.
Lemma same_rest sc n t l : Forall R sc -> R t -> judge_rest jd sc n t l = judge_rest jd' sc n t l.
Proof. intros Hs Ht. unfold judge_rest. now rewrite same_all. Qed.
Lemma same_pairs sc ts l : Forall R sc -> Forall R ts -> judge_pairs jd sc ts l = judge_pairs jd' sc ts l.
Proof.
  intros Hs Ht. unfold judge_pairs. f_equal. apply all_ext. intros [t x] H. cbn [fst snd]. apply Hj; [exact Hs|]. rewrite Forall_forall in Ht. exact (Ht _ (in_combine_l _ _ _ _ H)).
Qed.
Definition fine (k : keyword) : Prop := sub_in R (SNJson (kw_json k)) /\ forall t, kw_ref k = Some t -> R t.
Lemma sub_R k t : fine k -> sub_of (Some k) = Some t -> R t.
Proof. intros [H _] E. unfold sub_of in E. cbn [obind] in E. destruct (kw_json k); try discriminate. injection E as <-. exact H. Qed.
Lemma subs_R k l : fine k -> subs_of (Some k) = Some l -> Forall R l.
Proof. intros [H _] E. unfold subs_of in E. cbn [obind] in E. destruct (kw_json k); try discriminate. injection E as <-. exact H. Qed.
Lemma subm_R k m : fine k -> subm_of (Some k) = Some m -> forall name t, In (name, t) m -> R t.
Proof.
  intros [H _] E name t Ht. unfold subm_of in E. cbn [obind] in E. destruct (kw_json k); try discriminate. injection E as <-. cbn in H. rewrite Forall_forall in H. exact (H _ (in_map snd _ _ Ht)).
Qed.

Lemma same_std sc kws k c x : Forall R sc -> fine k -> (forall key k', In (key, k') kws -> fine k') ->
  judge_std W choose jd sc kws k c x = judge_std W' choose' jd' sc kws k c x.
Proof.
  intros Hs Hk Hkws. assert (D : forall name k', dget name kws = Some k' -> fine k') by (intros name k' E; apply dget_In in E; eauto).
  assert (M : forall ts, Forall R ts -> map (fun t => jd sc t x) ts = map (fun t => jd' sc t x) ts). { intros ts Ht. apply map_ext_in. intros t Hin. apply Hj; [exact Hs|]. rewrite Forall_forall in Ht. auto. }
  destruct c; cbn [judge_std]; try reflexivity; try (now rewrite same_assertion).
  - apply obind_ext. intros t Ht. apply Hj; [exact Hs|]. now apply Hk.
  - apply obind_ext. intros t Ht. assert (Rt : R t) by now apply Hk. destruct (kw_dynamic k); [|now apply Hj]. destruct (Hch (kw_fragment k) sc t Hs Rt) as [<- Q]. now apply Hj.
  - apply obind_ext. intros t Ht. assert (Rt : R t) by now apply Hk. destruct (same_recursive sc t Hs Rt) as [<- Q]. now apply Hj.
  - apply obind_ext. intros l Hl. now rewrite (M l (subs_R _ _ Hk Hl)).
  - apply obind_ext. intros l Hl. now rewrite (M l (subs_R _ _ Hk Hl)).
  - apply obind_ext. intros l Hl. now rewrite (M l (subs_R _ _ Hk Hl)).
  - apply obind_ext. intros t Ht. now rewrite (Hj sc t x Hs (sub_R _ _ Hk Ht)).
  - apply obind_ext. intros t Ht. now rewrite (Hj sc t x Hs (sub_R _ _ Hk Ht)).
  - destruct (dget (lit "if") kws) as [ki|] eqn:E; [|reflexivity]. apply obind_ext. intros t Ht. rewrite (Hj sc t x Hs (sub_R _ _ (D _ _ E) Ht)). apply obind_ext. intros o _. destruct (o_ok o); [|reflexivity].
    apply obind_ext. intros u Hu. exact (Hj sc u x Hs (sub_R _ _ Hk Hu)).
  - destruct (dget (lit "if") kws) as [ki|] eqn:E; [|reflexivity]. apply obind_ext. intros t Ht. rewrite (Hj sc t x Hs (sub_R _ _ (D _ _ E) Ht)). apply obind_ext. intros o _. destruct (o_ok o); [reflexivity|].
    apply obind_ext. intros u Hu. exact (Hj sc u x Hs (sub_R _ _ Hk Hu)).
  - apply obind_ext. intros m Hm. f_equal. apply all_ext. intros [name t] Hin. apply filter_In in Hin. apply Hj; [exact Hs|]. exact (subm_R _ _ Hk Hm _ _ (proj1 Hin)).
  - apply obind_ext. intros l Hl. exact (same_pairs _ _ _ Hs (subs_R _ _ Hk Hl)).
  - apply obind_ext. intros t Ht. exact (same_rest _ _ _ _ Hs (sub_R _ _ Hk Ht)).
  - apply obind_ext. intros t Ht. now rewrite (same_all _ _ _ Hs (sub_R _ _ Hk Ht)).
  - apply obind_ext. intros m Hm. cbv zeta. f_equal. apply all_ext. intros [name v] _. cbn [fst snd]. apply obind_ext. intros t Ht. apply Hj; [exact Hs|]. exact (subm_R _ _ Hk Hm _ _ (dget_In _ _ _ Ht)).
  - apply obind_ext. intros m Hm. f_equal. apply all_ext. intros [name v] _. cbn [fst snd].
    rewrite (map_ext_in (fun rt => w_search W (fst rt) name) (fun rt => w_search W' (fst rt) name)) by (intros; apply S).
    apply obind_ext. intros bs _. cbv zeta. f_equal. apply all_ext. intros t Ht. apply Hj; [exact Hs|]. apply in_map_iff in Ht. destruct Ht as ([u b] & <- & Ht). apply filter_In in Ht. destruct Ht as [Ht _]. apply in_combine_l in Ht.
    apply in_map_iff in Ht. destruct Ht as ([r u'] & Eu & Ht). cbn in Eu. subst u'. exact (subm_R _ _ Hk Hm _ _ Ht).
  - apply obind_ext. intros t Ht. cbv zeta. rewrite (map_ext_in (fun kv => matches_any W _ (fst kv)) (fun kv => matches_any W' (names_under (subm_of (dget (lit "patternProperties") kws))) (fst kv))) by (intros; apply same_matches_any).
    apply obind_ext. intros bs _. exact (same_members _ _ _ Hs (sub_R _ _ Hk Ht)).
  - apply obind_ext. intros t Ht. now rewrite (same_all _ _ _ Hs (sub_R _ _ Hk Ht)).
  - destruct (kw_json k) as [v|t|l|m] eqn:E; try reflexivity; [apply same_rest|apply same_pairs]; auto; destruct Hk as [Hk _]; now rewrite E in Hk.
  - destruct (subs_of _) as [l|]; [|reflexivity]. apply obind_ext. intros t Ht. exact (same_rest _ _ _ _ Hs (sub_R _ _ Hk Ht)).
Qed.
Lemma same_unevaluated sc o k c x : Forall R sc -> fine k -> judge_unevaluated jd sc o k c x = judge_unevaluated jd' sc o k c x.
Proof.
  intros Hs Hk. unfold judge_unevaluated. cbv zeta. destruct c; try reflexivity; apply obind_ext; intros t Ht.
  all: try (now rewrite (same_all _ _ _ Hs (sub_R _ _ Hk Ht))).
  all: exact (same_members _ _ _ Hs (sub_R _ _ Hk Ht)).
Qed.
Lemma same_object sc kws x : Forall R sc -> (forall key k, In (key, k) kws -> fine k) -> judge_object W choose jd sc kws x = judge_object W' choose' jd' sc kws x.
Proof.
  intros Hs Hk. assert (F : forall k, In k (map snd kws) -> fine k) by (intros k H; apply in_map_iff in H; destruct H as ([key k'] & E & H); cbn in E; subst k'; eauto).
  unfold judge_object. cbv zeta. rewrite (map_ext_in (judge_keyword W choose jd sc kws x) (judge_keyword W' choose' jd' sc kws x)).
  - destruct (conclude _) as [o|]; [|reflexivity]. destruct (o_ok o); [|reflexivity]. f_equal. f_equal. apply flat_map_ext_in || idtac.
    assert (G : forall l, (forall k, In k l -> fine k) -> flat_map (fun k => match late k with Some c => [judge_unevaluated jd sc o k c x] | None => [] end) l = flat_map (fun k => match late k with Some c => [judge_unevaluated jd' sc o k c x] | None => [] end) l).
    { induction l as [|k l IH]; intro Hl; [reflexivity|]. cbn [flat_map]. rewrite IH by (intros; apply Hl; now right). destruct (late k); [|reflexivity]. rewrite (same_unevaluated sc o k s x Hs); [reflexivity|]. apply Hl. now left. }
    apply G. intros k H. apply filter_In in H. apply F. apply H.
  - intros k H. apply filter_In in H. destruct H as [H _]. apply filter_In in H. destruct H as [H _]. unfold judge_keyword. destruct (kw_class k); [|reflexivity]. apply same_std; auto.
Qed.
End Judging.

Theorem judge_local n : forall sc s x, Forall R sc -> R s -> judge W choose n sc s x = judge W' choose' n sc s x.
Proof.
  induction n as [|n IH]; intros sc s x Hs Ht; [reflexivity|]. cbn [judge]. destruct (proj1 S s Ht) as [<- _]. destruct (w_schema W s) as [b|kws] eqn:Hw; [reflexivity|].
  apply same_object; auto. intros key k Hk. destruct (at_keyword _ _ C _ _ _ _ Ht Hw Hk) as (_ & H1 & H2). split; auto.
Qed.
End Local.

Theorem verdict_local (R : sid -> Prop) W W' s x b : closed W R -> same_on R W W' -> R s -> verdict W s x b <-> verdict W' s x b.
Proof.
  intros C S Hs. unfold verdict. assert (E : forall n, judge W (dynamic_choice W) n [] s x = judge W' (dynamic_choice W') n [] s x).
  { intro n. apply (judge_local R); auto. intros f sc t Hsc Ht. now apply same_dynamic. }
  split; intros (n & o & H & V); exists n, o; rewrite E in * || rewrite <- E; auto.
Qed.
