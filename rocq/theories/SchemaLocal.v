(** Evaluation looks only at the schemas it comes to. *)
From Coq Require Import List Lia Bool.
From Verif Require Export SpecLocal SchemaFine SchemaFacts.
Import ListNotations.
Open Scope nat_scope.

(** Equal outcomes, of which something holds. *)
Definition Both {A} (Q : A -> Prop) (x y : res A) : Prop := x = y /\ Post Q x.
Lemma both_bind {A B} (P : A -> Prop) (Q : B -> Prop) x y f g : Both P x y -> (forall a, P a -> Both Q (f a) (g a)) -> Both Q (bind x f) (bind y g).
Proof. intros [<- H] F. destruct x as [a| |]; cbn [bind]; [exact (F a H)|split; [reflexivity|exact I]|split; [reflexivity|exact I]]. Qed.
Lemma both_same {A B} (Q : B -> Prop) (x : res A) f g : (forall a, Both Q (f a) (g a)) -> Both Q (bind x f) (bind x g).
Proof. intro F. destruct x as [a| |]; cbn [bind]; [exact (F a)|split; [reflexivity|exact I]|split; [reflexivity|exact I]]. Qed.
Lemma both_ok {A} (Q : A -> Prop) a : Q a -> Both Q (Ok a) (Ok a). Proof. split; auto. Qed.
Lemma both_exn {A} (Q : A -> Prop) e : Both Q (Exn e) (Exn e). Proof. split; cbn; auto. Qed.

Section Local.
Variable R : sid -> Prop.
Variables W W' : world.
Hypothesis C : closed W R.
Hypothesis S : same_on R W W'.

(** A node of the result: its schema and those of its children are in [R]. *)
Definition ok (n : rnode) : Prop := R (r_schema n) /\ forall kc, In kc (r_children n) -> R (r_schema (snd kc)).
Definition ok1 {B} (rb : rnode * B) : Prop := ok (fst rb).
Lemma ok_head n n' : r_schema n' = r_schema n -> r_children n' = r_children n -> ok n -> ok n'.
Proof. intros E E' [H H']. split; [now rewrite E|now rewrite E']. Qed.
Lemma cput_In k v m kc : In kc (cput k v m) -> snd kc = v \/ In kc m.
Proof.
  induction m as [|[k' v'] m IH]; cbn [cput]; [intros [<-|[]]; now left|]. destruct (ckey_eqb k k'); [intros [<-|H]; [now left|right; now right]|].
  intros [<-|H]; [right; now left|]. destruct (IH H); [now left|right; now right].
Qed.
Lemma cdrop_In k m kc : In kc (cdrop k m) -> In kc m.
Proof. induction m as [|[k' v'] m IH]; cbn [cdrop]; [auto|]. destruct (ckey_eqb k k'); [now right|]. intros [<-|H]; [now left|right; auto]. Qed.
Lemma cget_In k m v : cget k m = Some v -> exists k', In (k', v) m.
Proof. induction m as [|[k' v'] m IH]; cbn [cget]; [discriminate|]. destruct (ckey_eqb k k'); [intros [= <-]; exists k'; now left|]. intro H. destruct (IH H) as [k2 ?]. exists k2. now right. Qed.
Lemma ok_put n key i c : ok n -> R (r_schema c) -> ok (put_child n key i c).
Proof. intros [H H'] Hc. split; [exact H|]. intros kc I. cbn [put_child with_children r_children] in I. destruct (cput_In _ _ _ _ I) as [->|I']; auto. Qed.
Lemma ok_close n key i c : ok n -> R (r_schema c) -> ok (close_child n key i c).
Proof.
  intros H Hc. unfold close_child. destruct (r_discard c); [|now apply ok_put]. destruct H as [H H']. split; [exact H|]. intros kc I. apply cdrop_In in I. auto.
Qed.
Lemma ok_sibling parent i key n : ok parent -> sibling parent i key = Some n -> R (r_schema n).
Proof. intros [_ H] E. destruct (cget_In _ _ _ E) as [k I]. exact (H _ I). Qed.
Lemma ok_fail n e : ok n -> ok (fail n e). Proof. now apply ok_head. Qed.
Lemma ok_annotate n e : ok n -> ok (annotate n e). Proof. now apply ok_head. Qed.
Lemma ok_pass n : ok n -> ok (pass_ n). Proof. now apply ok_head. Qed.
Lemma ok_noassert n : ok n -> ok (noassert n). Proof. now apply ok_head. Qed.
Lemma ok_discard n : ok n -> ok (discard n). Proof. now apply ok_head. Qed.
Lemma ok_refschema n s : ok n -> ok (refschema n s). Proof. now apply ok_head. Qed.
Lemma ok_check b m n : ok n -> ok (check b m n). Proof. unfold check. destruct b; auto using ok_fail. Qed.
Hint Resolve ok_fail ok_annotate ok_pass ok_noassert ok_discard ok_refschema ok_check : core.
Lemma ok_new n key i s : R s -> ok (new_child n key i s).
Proof. intro H. split; [exact H|]. intros kc []. Qed.

(** ** Looking things up. *)
Definition sub_in (n : schemanode) : Prop :=
  match n with
  | SNSchema s => R s
  | SNJson (KSub s) => R s
  | SNJson (KSubs l) => Forall R l
  | SNJson (KSubm m) => Forall R (map snd m)
  | SNJson (KJ _) => True
  end.
Lemma at_keyword s kws key k : R s -> w_schema W s = SObj kws -> In (key, k) kws -> sub_in (sn_of (kw_json k)) /\ sub_in (SNJson (kw_json k)) /\ forall t, kw_ref k = Some t -> R t.
Proof.
  intros Hs Hw Hk. assert (L : forall t, subschema_of k t \/ kw_ref k = Some t -> R t). { intros t Ht. apply (proj1 C s); [exact Hs|]. exists kws, key, k. auto. }
  unfold subschema_of in L. split; [|split; [|auto]]; destruct (kw_json k) as [v|t|l|m]; cbn; auto; apply Forall_forall; intros t Ht; apply L; left; exact Ht.
Qed.
Lemma sn_index_R (l : list sid) k s : Forall R l -> sn_index k l = Ok s -> R s.
Proof.
  unfold sn_index. intros F H. destruct (py_int k) as [z|]; [|discriminate H]. destruct (norm_index _ z) as [n|]; [|discriminate H]. destruct (nth_error l n) as [x|] eqn:N; [|discriminate H].
  injection H as <-. rewrite Forall_forall in F. apply F. exact (nth_error_In _ _ N).
Qed.
Lemma both_child n k : sub_in n -> Both sub_in (sn_child W n k) (sn_child W' n k).
Proof.
  intro H. destruct n as [s|[v|s|l|m]]; cbn [sn_child].
  - unfold schema_keywords. destruct (proj1 S s H) as [<- _]. destruct (w_schema W s) as [b|kws] eqn:Hw; cbn [dget]; [apply both_exn|].
    destruct (dget k kws) as [kw|] eqn:D; [|apply both_exn]. apply both_ok. exact (proj1 (at_keyword _ _ _ _ H Hw (dget_In _ _ _ D))).
  - destruct v; try apply both_exn; [apply both_same; intro v; now apply both_ok|]. destruct (dget k m); [now apply both_ok|apply both_exn].
  - apply both_exn.
  - cbn in H. destruct (sn_index k l) as [s| |] eqn:E; [|apply both_exn|split; cbn; auto]. apply both_ok. exact (sn_index_R _ _ _ H E).
  - cbn in H. destruct (dget k m) as [s|] eqn:D; [|apply both_exn]. apply both_ok. rewrite Forall_forall in H. apply H. apply dget_In in D. exact (in_map snd _ _ D).
Qed.
Lemma both_walk p : forall n, sub_in n -> Both sub_in (sn_walk W n p) (sn_walk W' n p).
Proof. induction p as [|k p IH]; intros n H; [now apply both_ok|]. cbn [sn_walk]. eapply both_bind; [now apply both_child|exact IH]. Qed.
Lemma both_node n : R (r_schema n) -> Both sub_in (schema_node W n) (schema_node W' n).
Proof. intro H. now apply both_walk. Qed.
Lemma both_dynamic_anchor s f : R s -> has_dynamic_anchor W s f = has_dynamic_anchor W' s f.
Proof. intro H. unfold has_dynamic_anchor. now rewrite (proj1 (proj1 S s H)). Qed.
Lemma both_recursive_anchor s : R s -> has_recursive_anchor W s = has_recursive_anchor W' s.
Proof. intro H. unfold has_recursive_anchor. now rewrite (proj1 (proj1 S s H)). Qed.
Lemma both_dynamic f chain : Forall R chain -> forall checked cur, R cur -> Both R (dynamic_target W f chain checked cur) (dynamic_target W' f chain checked cur).
Proof.
  induction 1 as [|t chain Ht _ IH]; intros checked cur Hc; [now apply both_ok|]. cbn [dynamic_target]. destruct (proj1 S t Ht) as [_ <-]. destruct (w_base W t) as [b|] eqn:Hb; [|auto].
  destruct (mem_str b checked); [auto|]. rewrite <- (proj1 (proj2 S) t b f Ht Hb). destruct (w_anchor W b f) as [found|] eqn:Ha; [|auto].
  assert (Rf : R found) by exact (proj2 C _ _ _ _ Ht Hb Ha). rewrite (both_dynamic_anchor found f Rf). apply both_same. intros [|]; auto.
Qed.
Lemma both_recursive chain : Forall R chain -> forall cur, R cur -> Both R (recursive_target W chain cur) (recursive_target W' chain cur).
Proof.
  induction 1 as [|t chain Ht _ IH]; intros cur Hc; [now apply both_ok|]. cbn [recursive_target]. rewrite (both_recursive_anchor t Ht). apply both_same. intros [|]; auto.
Qed.
Lemma same_search ps x : any_search W ps x = any_search W' ps x.
Proof. destruct S as (_ & _ & H & _). induction ps as [|p ps IH]; [reflexivity|]. cbn [any_search]. rewrite H. now rewrite IH. Qed.
Lemma same_multiple a b : is_multiple W a b = is_multiple W' a b.
Proof. destruct S as (_ & _ & _ & H & _). unfold is_multiple, dec_of. destruct a, b; rewrite ?H; reflexivity. Qed.

Lemma same_writer m e : Text.f_repr (writer W) m e = Text.f_repr (writer W') m e.
Proof. destruct S as (_ & _ & _ & H & _). cbn [writer Text.f_repr]. now rewrite H. Qed.
Lemma same_dumps v : Text.json_dumps (writer W) v = Text.json_dumps (writer W') v.
Proof. apply dumps_ext, same_writer. Qed.
Lemma same_said before v after : said W before v after = said W' before v after.
Proof. unfold said. destruct v; try reflexivity. now rewrite same_dumps. Qed.
Lemma same_invalid a b : invalid_operation W a b = invalid_operation W' a b.
Proof. destruct S as (_ & _ & _ & H & _). unfold invalid_operation, dec_of. destruct a, b; rewrite ?H; reflexivity. Qed.
Lemma same_missing m : repr_missing W m = repr_missing W' m.
Proof.
  induction m as [|[name l] m IH]; [reflexivity|]. cbn [repr_missing]. rewrite IH.
  replace (map (Repr.repr_node (writer W')) l) with (map (Repr.repr_node (writer W)) l); [reflexivity|]. apply map_ext. intro. apply repr_node_ext, same_writer.
Qed.

(** ** Keywords. *)
Section Eval.
Variables ev ev' : sid -> inst -> list sid -> rnode -> res rnode.
Hypothesis Hev : forall s i anc n, R s -> Forall R anc -> ok n -> Both ok (ev s i anc n) (ev' s i anc n).

Lemma both_in_child result anc i key s : R s -> Forall R anc -> ok result -> Both ok1 (in_child ev result anc i key s) (in_child ev' result anc i key s).
Proof.
  intros Hs Ha Hr. unfold in_child. eapply both_bind; [apply Hev; [exact Hs|constructor; [apply Hr|exact Ha]|apply ok_new, Hr]|]. intros c Hc. apply both_ok. apply ok_close; [exact Hr|apply Hc].
Qed.
Lemma both_branches i anc l : Forall R anc -> Forall R l -> forall k result, ok result -> Both ok1 (branches ev i anc k l result) (branches ev' i anc k l result).
Proof.
  intro Ha. induction 1 as [|s l Hs _ IH]; intros k result Hr; [now apply both_ok|]. cbn [branches]. eapply both_bind; [now apply both_in_child|]. intros [r c] Hrc.
  eapply both_bind; [now apply IH|]. intros [r2 bs] H2. now apply both_ok.
Qed.
Lemma both_dependents i anc m : Forall R anc -> Forall R (map snd m) -> forall result, ok result -> Both ok1 (dependents ev i anc m result) (dependents ev' i anc m result).
Proof.
  intro Ha. induction m as [|[name s] m IH]; intros F result Hr; [now apply both_ok|]. inversion F as [|? ? Hs F']; subst. cbn [dependents]. destruct (has_member i name); [|now apply IH].
  eapply both_bind; [now apply both_in_child|]. intros [r c] Hrc. eapply both_bind; [now apply IH|]. intros [r2 [good bad]] H2. now apply both_ok.
Qed.
Lemma both_pairwise anc l : Forall R anc -> Forall R l -> forall items k result, ok result -> Both ok1 (pairwise ev anc k items l result) (pairwise ev' anc k items l result).
Proof.
  intro Ha. induction 1 as [|s l Hs _ IH]; intros items k result Hr; [destruct items; now apply both_ok|]. destruct items as [|i items]; [now apply both_ok|]. cbn [pairwise].
  eapply both_bind; [now apply both_in_child|]. intros [r c] Hrc. eapply both_bind; [now apply IH|]. intros [r2 bs] H2. now apply both_ok.
Qed.
Lemma both_each s anc l : R s -> Forall R anc -> forall result, ok result -> Both ok1 (each ev s anc l result) (each ev' s anc l result).
Proof.
  intros Hs Ha. induction l as [|i l IH]; intros result Hr; [now apply both_ok|]. cbn [each]. eapply both_bind; [now apply Hev|]. intros r Hr'. cbv zeta.
  eapply both_bind; [apply IH; destruct (passed r); auto|]. intros [r2 bs] H2. now apply both_ok.
Qed.
Lemma both_noreset s anc l : R s -> Forall R anc -> forall result, ok result -> Both ok (each_noreset ev s anc l result) (each_noreset ev' s anc l result).
Proof. intros Hs Ha. induction l as [|i l IH]; intros result Hr; [now apply both_ok|]. cbn [each_noreset]. eapply both_bind; [now apply Hev|]. exact IH. Qed.
Lemma both_items_from start s i anc result : R s -> Forall R anc -> ok result -> Both ok (e_items_from ev start s i anc result) (e_items_from ev' start s i anc result).
Proof. intros Hs Ha Hr. unfold e_items_from. eapply both_bind; [now apply both_each|]. intros [r bs] H. apply both_ok. destruct (positions false start bs); auto. Qed.
Lemma both_unevaluated_from last skip s i anc result : R s -> Forall R anc -> ok result -> Both ok (e_unevaluated_from ev last skip s i anc result) (e_unevaluated_from ev' last skip s i anc result).
Proof. intros Hs Ha Hr. unfold e_unevaluated_from. cbv zeta. eapply both_bind; [now apply both_each|]. intros [r bs] H. apply both_ok. destruct (failing _ _ bs); auto. Qed.
Lemma both_members todo s anc result : R s -> Forall R anc -> ok result -> Both ok (e_members ev todo s anc result) (e_members ev' todo s anc result).
Proof. intros Hs Ha Hr. unfold e_members. eapply both_bind; [now apply both_each|]. intros [r bs] H. apply both_ok. destruct (failing _ todo bs); auto. Qed.
Lemma both_named subs anc l : Forall R anc -> Forall R (map snd subs) -> forall result, ok result -> Both ok1 (named ev subs anc l result) (named ev' subs anc l result).
Proof.
  intros Ha F. induction l as [|[name item] l IH]; intros result Hr; [now apply both_ok|]. cbn [named]. destruct (dget name subs) as [s|] eqn:D; [|now apply IH].
  assert (Hs : R s). { rewrite Forall_forall in F. apply F. apply dget_In in D. exact (in_map snd _ _ D). }
  eapply both_bind; [now apply both_in_child|]. intros [r c] Hrc. eapply both_bind; [now apply IH|]. intros [r2 [good bad]] H2. now apply both_ok.
Qed.
Lemma both_matching subs anc name item : Forall R anc -> Forall R (map snd subs) -> forall result, ok result -> Both ok1 (matching W ev subs anc name item result) (matching W' ev' subs anc name item result).
Proof.
  intro Ha. induction subs as [|[regex s] subs IH]; intros F result Hr; [now apply both_ok|]. inversion F as [|? ? Hs F']; subst. cbn [matching]. rewrite <- (proj1 (proj2 (proj2 S))).
  destruct (w_search W regex name) as [[|]|]; [|now apply IH|apply both_exn].
  eapply both_bind; [now apply both_in_child|]. intros [r c] Hrc. eapply both_bind; [now apply IH|]. intros [r2 [good bad]] H2. now apply both_ok.
Qed.
Lemma both_patterned subs anc l : Forall R anc -> Forall R (map snd subs) -> forall result, ok result -> Both ok1 (patterned W ev subs anc l result) (patterned W' ev' subs anc l result).
Proof.
  intros Ha F. induction l as [|[name item] l IH]; intros result Hr; [now apply both_ok|]. cbn [patterned].
  eapply both_bind; [now apply both_matching|]. intros [r [good bad]] Hrc. eapply both_bind; [now apply IH|]. intros [r2 [good' bad']] H2. now apply both_ok.
Qed.
Lemma same_additional known patterns l : additional W known patterns l = additional W' known patterns l.
Proof. induction l as [|[name item] l IH]; [reflexivity|]. cbn [additional]. destruct (mem_str name known); [exact IH|]. now rewrite same_search, IH. Qed.
Lemma same_sibling_names parent i key : ok parent -> sibling_names W parent i key = sibling_names W' parent i key.
Proof.
  intro Hp. unfold sibling_names. destruct (sibling parent i key) as [n|] eqn:Sb; [|reflexivity]. destruct (both_node n (ok_sibling _ _ _ _ Hp Sb)) as [<- _]. reflexivity.
Qed.

Lemma both_tell b msg result : ok result -> Both ok (tell b msg result) (tell b msg result).
Proof. intro H. unfold tell. destruct b; [now apply both_ok|]. apply both_same. intro. apply both_ok. auto. Qed.
Lemma both_limit bad x v before after result : ok result -> Both ok (limit W bad x v before after result) (limit W' bad x v before after result).
Proof. intro H. unfold limit. destruct (num_of v); [rewrite same_said; now apply both_tell|apply both_exn]. Qed.
Lemma both_annotation v result : ok result -> Both ok (e_annotation v result) (e_annotation v result).
Proof. intro H. destruct v; try apply both_exn. apply both_ok; auto. Qed.

Lemma both_std k c i anc parent result : (forall t, kw_ref k = Some t -> R t) -> sub_in (SNJson (kw_json k)) -> Forall R anc -> ok parent -> ok result ->
  Both ok (eval_std W ev k c i anc parent result) (eval_std W' ev' k c i anc parent result).
Proof.
  intros Hr Hj Ha Hp Hn. assert (Hc : Forall R (r_schema result :: anc)) by (constructor; [apply Hn|exact Ha]).
  assert (Sub : forall f f', (forall s, R s -> Both ok (f s) (f' s)) -> Both ok (with_sub (kw_json k) f) (with_sub (kw_json k) f')).
  { intros f f' H. destruct (kw_json k); try apply both_exn. now apply H. }
  assert (Subs : forall f f', (forall l, Forall R l -> Both ok (f l) (f' l)) -> Both ok (with_subs (kw_json k) f) (with_subs (kw_json k) f')).
  { intros f f' H. destruct (kw_json k) as [[| | |[|]| |]| | |]; try apply both_exn; now apply H. }
  assert (Pref : forall f f', (forall l, Forall R l -> Both ok (f l) (f' l)) -> Both ok (with_prefix (kw_json k) i f) (with_prefix (kw_json k) i f')).
  { intros f f' H. unfold with_prefix. destruct (kw_json k) as [[| | |t| |]| | |]; try apply both_exn; try now apply H. destruct t, (items_of i); try apply both_exn; now apply H. }
  assert (Subm : forall f f', (forall m, Forall R (map snd m) -> Both ok (f m) (f' m)) -> Both ok (with_subm (kw_json k) f) (with_subm (kw_json k) f')).
  { intros f f' H. destruct (kw_json k); try apply both_exn. now apply H. }
  destruct c; cbn [eval_std]; try solve [now apply both_ok|now apply both_limit|now apply both_annotation].
  - (* $ref *) unfold e_ref. destruct (kw_ref k) as [t|] eqn:Rf; [|apply both_exn]. eapply both_bind; [apply Hev; auto|]. intros r H. apply both_ok; auto.
  - (* $dynamicRef *) unfold e_dynamicRef. destruct (kw_ref k) as [t|] eqn:Rf; [|apply both_exn]. eapply (both_bind R).
    + destruct (kw_dynamic k); [apply both_dynamic; auto|apply both_ok; auto].
    + intros t' Ht. eapply both_bind; [apply Hev; auto|]. intros r H. apply both_ok; auto.
  - (* $recursiveRef *) unfold e_recursiveRef. destruct (kw_ref k) as [t|] eqn:Rf; [|apply both_exn]. rewrite (both_recursive_anchor t (Hr _ eq_refl)). apply both_same. intro b. eapply (both_bind R).
    + destruct b; [apply both_recursive; auto|apply both_ok; auto].
    + intros t' Ht. eapply both_bind; [apply Hev; auto|]. intros r H. apply both_ok; auto.
  - apply Subs. intros l Hl. unfold e_allOf. eapply both_bind; [now apply both_branches|]. intros [r bs] H. apply both_ok. destruct (forallb id bs); auto.
  - apply Subs. intros l Hl. unfold e_anyOf. eapply both_bind; [now apply both_branches|]. intros [r bs] H. apply both_ok. destruct (existsb id bs); auto.
  - apply Subs. intros l Hl. unfold e_oneOf. eapply both_bind; [now apply both_branches|]. intros [r bs] H. apply both_ok. destruct (Nat.eqb _ 1); auto.
  - apply Sub. intros s Hs. unfold e_not. eapply both_bind; [now apply Hev|]. intros r H. apply both_ok. destruct (passed r); auto.
  - apply Sub. intros s Hs. unfold e_if. eapply both_bind; [now apply Hev|]. intros r H. apply both_ok. auto.
  - apply Sub. intros s Hs. unfold e_branch. destruct (sibling parent i (lit "if")) as [n|]; [|apply both_ok; auto]. destruct (Bool.eqb (r_valid n) true); [now apply Hev|apply both_ok; auto].
  - apply Sub. intros s Hs. unfold e_branch. destruct (sibling parent i (lit "if")) as [n|]; [|apply both_ok; auto]. destruct (Bool.eqb (r_valid n) false); [now apply Hev|apply both_ok; auto].
  - apply Subm. intros m Hm. unfold e_dependentSchemas. eapply both_bind; [now apply both_dependents|]. intros [r [good bad]] H. apply both_ok. destruct bad; auto.
  - apply Pref. intros l Hl. unfold e_prefixItems. eapply both_bind; [now apply both_pairwise|]. intros [r bs] H. apply both_ok. destruct (positions false 0 bs); auto. destruct bs; auto.
  - apply Sub. intros s Hs. unfold e_items. destruct (sibling parent i (lit "prefixItems")) as [n|] eqn:Sb; [|now apply both_items_from].
    eapply both_bind; [exact (both_node n (ok_sibling _ _ _ _ Hp Sb))|]. intros [t|[v|t|l|m]] _; try apply both_exn. now apply both_items_from.
  - apply Sub. intros s Hs. unfold e_unevaluatedItems. cbv zeta. apply both_same. intros [last|]; [|apply both_ok; auto]. destruct (any_true _ || any_true _); [apply both_ok; auto|]. apply both_same. intro skip. now apply both_unevaluated_from.
  - apply Sub. intros s Hs. unfold e_contains. eapply both_bind; [now apply both_each|]. intros [r bs] H. cbv zeta. apply both_ok. destruct (positions true 0 bs); auto.
  - apply Subm. intros m Hm. unfold e_properties. eapply both_bind; [now apply both_named|]. intros [r [good bad]] H. apply both_ok. destruct bad; auto.
  - apply Subm. intros m Hm. unfold e_patternProperties. eapply both_bind; [now apply both_patterned|]. intros [r [good bad]] H. apply both_ok. destruct bad; auto.
  - apply Sub. intros s Hs. unfold e_additionalProperties. rewrite !(same_sibling_names parent) by exact Hp. apply both_same. intro known. apply both_same. intro patterns. rewrite same_additional. apply both_same. intro todo. now apply both_members.
  - apply Sub. intros s Hs. unfold e_unevaluatedProperties. cbv zeta. do 4 (apply both_same; intro). now apply both_members.
  - apply Sub. intros s Hs. unfold e_propertyNames. cbv zeta. eapply both_bind; [now apply both_each|]. intros [r bs] H. apply both_ok. destruct (failing _ _ bs); auto.
  - unfold e_items_2019. destruct (items_of i) as [|it its]; [now apply both_ok|]. destruct (kw_json k) as [v|s|l|m]; try now apply both_ok.
    + cbn in Hj. destruct (proj1 S s Hj) as [<- _]. destruct (w_schema W s); [now apply Hev|]. eapply both_bind; [now apply both_noreset|]. intros r H. apply both_ok. destruct (passed r); auto.
    + eapply both_bind; [now apply both_pairwise|]. intros [r bs] H. apply both_ok. destruct (positions false 0 bs); auto.
  - apply Sub. intros s Hs. unfold e_additionalItems. destruct (sibling parent i (lit "items")) as [n|]; [|apply both_ok; auto]. destruct (r_annot n) as [| |[z| | |]| | |]; try (apply both_ok; auto; fail). now apply both_items_from.
  - apply Sub. intros s Hs. unfold e_unevaluatedItems_2019. cbv zeta. destruct (last_evaluated_2019 _ _) as [last|]; [|apply both_ok; auto]. destruct (any_true _ || any_true _); [apply both_ok; auto|]. now apply both_unevaluated_from.
  - apply Sub. intros s Hs. unfold e_unevaluatedProperties. cbv zeta. do 4 (apply both_same; intro). now apply both_members.
  - unfold e_type. cbv zeta. apply both_same. intro b. rewrite same_said. now apply both_tell.
  - unfold e_enum. apply both_same. intro. apply both_ok; auto.
  - unfold e_const. destruct (kw_json k); try apply both_exn. apply both_ok; auto.
  - unfold e_multipleOf. destruct (kw_json k) as [[]| | |]; try apply both_exn; rewrite ?same_multiple, ?same_invalid, !same_dumps, ?same_said; now apply both_tell.
  - unfold e_pattern. destruct (kw_json k) as [[]| | |]; try apply both_exn. destruct (i_val i); try apply both_exn. rewrite <- (proj1 (proj2 (proj2 S))). rewrite same_said. destruct (w_search W _ _); [now apply both_tell|apply both_exn].
  - unfold e_uniqueItems. destruct (i_val i); try apply both_exn. destruct (truthy _); apply both_ok; auto.
  - unfold e_maxContains. destruct (sibling parent i (lit "contains")) as [n|]; [|now apply both_ok]. destruct (is_null (r_annot n)); [now apply both_ok|]. apply both_same. intro. now apply both_limit.
  - unfold e_required. destruct (kw_json k) as [v| | |]; try apply both_exn. apply both_same. intro. rewrite (map_ext _ _ (repr_value_ext _ _ same_writer)). apply both_ok; auto.
  - unfold e_dependentRequired. destruct (kw_json k) as [v| | |]; try apply both_exn. apply both_same. intro. apply both_same. intro. rewrite same_missing. now apply both_tell.
  - unfold e_format. destruct (kw_json k) as [v| | |]; try apply both_exn. cbv zeta. destruct (kw_format k) as [types|]; [|apply both_ok; auto]. destruct v; try (apply both_ok; auto; fail).
    destruct (mem_type _ types); [|apply both_ok; auto]. rewrite (proj2 (proj2 (proj2 (proj2 S)))). apply both_ok; auto.
  - unfold e_contentSchema. destruct (sibling _ _ _); [now apply both_annotation|apply both_ok; auto].
Qed.
Lemma both_keyword k i anc parent result : (forall t, kw_ref k = Some t -> R t) -> sub_in (SNJson (kw_json k)) -> Forall R anc -> ok parent -> ok result ->
  Both (fun pr => ok (fst pr) /\ ok (snd pr)) (eval_keyword W ev k i anc parent result) (eval_keyword W' ev' k i anc parent result).
Proof.
  intros Hr Hj Ha Hp Hn. assert (G : forall c, Both (fun pr => ok (fst pr) /\ ok (snd pr)) (let* r := eval_std W ev k c i anc parent result in Ok (parent, r)) (let* r := eval_std W' ev' k c i anc parent result in Ok (parent, r))).
  { intro c. eapply both_bind; [now apply both_std|]. intros r H. now apply both_ok. }
  unfold eval_keyword. destruct (kw_class k) as [c|u]; [|eapply both_bind; [now apply both_annotation|]; intros r H; now apply both_ok].
  destruct c; try apply G. unfold e_minContains. destruct (sibling parent i (lit "contains")) as [n|] eqn:Sb; [|now apply both_ok].
  apply both_same. intro len. destruct (num_of (kw_json k)); [|apply both_exn]. cbv zeta. rewrite same_said. eapply both_bind; [now apply both_tell|]. intros r Hr'. apply both_ok. split; [|cbn [snd]; auto]. cbn [fst].
  assert (Pt : ok (put_child parent (lit "contains") i (pass_ n))) by (apply ok_put; [exact Hp|exact (ok_sibling _ _ _ _ Hp Sb)]).
  destruct (num_leb _ _ && _); [|exact Hp]. destruct (sibling parent i (lit "maxContains")) as [x|]; [|exact Pt]. destruct (r_valid x); assumption.
Qed.
Lemma both_keywords s kws i anc : R s -> Forall R anc -> (forall key k, In (key, k) kws -> (forall t, kw_ref k = Some t -> R t) /\ sub_in (SNJson (kw_json k))) ->
  forall node, ok node -> Both ok (eval_keywords W ev s kws i anc node) (eval_keywords W' ev' s kws i anc node).
Proof.
  intros Hs Ha. induction kws as [|[key k] kws IH]; intros Hk node Hn; [now apply both_ok|]. cbn [eval_keywords]. assert (Hk' := fun key0 k0 H => Hk key0 k0 (or_intror H)).
  destruct (applicable k i); [|now apply IH]. cbv zeta. destruct (Hk key k (or_introl eq_refl)) as [H1 H2]. pose proof (ok_new node key i s Hs) as Nw.
  eapply both_bind; [apply both_keyword; [exact H1|exact H2|constructor; [apply Hn|exact Ha]|apply ok_put; [exact Hn|exact Hs]|exact Nw]|].
  intros [parent child] [Op Oc]. apply IH; [exact Hk'|]. apply ok_close; [exact Op|apply Oc].
Qed.
End Eval.

Theorem evaluate_local fuel : forall s i anc n, R s -> Forall R anc -> ok n -> Both ok (evaluate W fuel s i anc n) (evaluate W' fuel s i anc n).
Proof.
  induction fuel as [|fuel IH]; intros s i anc n Hs Ha Hn; [split; cbn; auto|]. cbn [evaluate]. destruct (proj1 S s Hs) as [<- _].
  destruct (w_schema W s) as [[|]|kws] eqn:Hw; [now apply both_ok|apply both_ok; auto|]. eapply both_bind.
  - apply both_keywords; [exact IH|exact Hs|exact Ha| |exact Hn]. intros key k Hk. destruct (at_keyword _ _ _ _ Hs Hw Hk) as (_ & H1 & H2). auto.
  - intros r Hr. apply both_ok. unfold finish. destruct (existsb _ _); auto.
Qed.
Theorem evaluate_root_local fuel s i : R s -> evaluate_root W fuel s i = evaluate_root W' fuel s i.
Proof. intro Hs. apply evaluate_local; [exact Hs|constructor|]. split; [exact Hs|]. intros kc []. Qed.
End Local.
