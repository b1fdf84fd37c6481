(** Schemas that correspond are evaluated alike. *)
From Coq Require Import List Lia Bool.
From Verif Require Export SpecTwin SchemaLocal.
Import ListNotations.
Open Scope nat_scope.

Definition Two {A B} (Q : A -> B -> Prop) (x : res A) (y : res B) : Prop :=
  match x, y with Ok a, Ok b => Q a b | Exn e, Exn e' => e = e' | Fuel, Fuel => True | _, _ => False end.
Lemma two_bind {A A' B B'} (P : A -> A' -> Prop) (Q : B -> B' -> Prop) x y f g : Two P x y -> (forall a b, P a b -> Two Q (f a) (g b)) -> Two Q (bind x f) (bind y g).
Proof. intros H F. destruct x, y; cbn in *; try contradiction; auto. Qed.
Lemma two_same {A B B'} (Q : B -> B' -> Prop) (x : res A) f g : (forall a, Two Q (f a) (g a)) -> Two Q (bind x f) (bind x g).
Proof. intro F. destruct x as [a| |]; cbn; auto. Qed.
Lemma two_ok {A B} (Q : A -> B -> Prop) a b : Q a b -> Two Q (Ok a) (Ok b). Proof. auto. Qed.
Lemma two_exn {A B} (Q : A -> B -> Prop) e : Two Q (@Exn A e) (@Exn B e). Proof. reflexivity. Qed.

Section Twin.
Variable R : sid -> sid -> Prop.
Variables W V : world.
(** The schemas of [V] with the tools of [W]. *)
Notation W' := (mkWorld (w_schema V) (w_base V) (w_anchor V) (w_search W) (w_repr W) (w_format W) (w_uri V)).
Hypothesis T : twins R W V.
Hypothesis Sc : undynamic R W \/ same_scopes R W V.
Notation N := (same_result R).
Notation Rs := (Forall2 R).
Notation Rm := (Forall2 (fun x y : pystr * sid => fst x = fst y /\ R (snd x) (snd y))).
Definition N1 {B} (x y : rnode * B) : Prop := N (fst x) (fst y) /\ snd x = snd y.

(** ** Nodes. *)
Lemma n_schema n n' : N n n' -> R (r_schema n) (r_schema n'). Proof. now intros []. Qed.
Lemma n_valid n n' : N n n' -> r_valid n' = r_valid n. Proof. now intros []. Qed.
Lemma n_passed n n' : N n n' -> passed n' = passed n. Proof. now intros []. Qed.
Lemma n_annot n n' : N n n' -> r_annot n' = r_annot n. Proof. now intros []. Qed.
Lemma n_relpath n n' : N n n' -> r_relpath n' = r_relpath n. Proof. now intros []. Qed.
Lemma n_discard n n' : N n n' -> r_discard n' = r_discard n. Proof. now intros []. Qed.
Definition Nc := Forall2 (fun x y : (pystr * path) * rnode => fst x = fst y /\ N (snd x) (snd y)).
Lemma n_children n n' : N n n' -> Nc (r_children n) (r_children n'). Proof. now intros []. Qed.
Lemma n_with n n' cs cs' : N n n' -> Nc cs cs' -> N (with_children n cs) (with_children n' cs').
Proof. intros X Y. destruct X. now constructor. Qed.
Lemma nc_get k cs cs' : Nc cs cs' -> match cget k cs, cget k cs' with Some n, Some n' => N n n' | None, None => True | _, _ => False end.
Proof. induction 1 as [|[k1 n1] [k2 n2] cs cs' [E H] _ IH]; [exact I|]. cbn in *. subst k2. destruct (ckey_eqb k k1); assumption. Qed.
Lemma nc_put k n n' cs cs' : N n n' -> Nc cs cs' -> Nc (cput k n cs) (cput k n' cs').
Proof.
  intros Hn. induction 1 as [|[k1 n1] [k2 n2] cs cs' [E H] F IH]; [repeat constructor; assumption|]. cbn in *. subst k2. destruct (ckey_eqb k k1); constructor; cbn; auto.
Qed.
Lemma nc_drop k cs cs' : Nc cs cs' -> Nc (cdrop k cs) (cdrop k cs').
Proof. induction 1 as [|[k1 n1] [k2 n2] cs cs' [E H] F IH]; [constructor|]. cbn in *. subst k2. destruct (ckey_eqb k k1); [exact F|constructor; cbn; auto]. Qed.
Lemma n_put n n' key i c c' : N n n' -> N c c' -> N (put_child n key i c) (put_child n' key i c').
Proof. intros H Hc. unfold put_child. apply n_with; [exact H|]. apply nc_put; [exact Hc|now apply n_children]. Qed.
Lemma n_close n n' key i c c' : N n n' -> N c c' -> N (close_child n key i c) (close_child n' key i c').
Proof.
  intros H Hc. unfold close_child. rewrite (n_discard c c' Hc). destruct (r_discard c); [|now apply n_put]. apply n_with; [exact H|]. now apply nc_drop, n_children.
Qed.
Lemma n_sibling n n' i key : N n n' -> match sibling n i key, sibling n' i key with Some a, Some b => N a b | None, None => True | _, _ => False end.
Proof. intro H. unfold sibling. now apply nc_get, n_children. Qed.
Lemma n_fail n n' e : N n n' -> N (fail n e) (fail n' e). Proof. intros []. now constructor. Qed.
Lemma n_annotate n n' e : N n n' -> N (annotate n e) (annotate n' e). Proof. intros []. now constructor. Qed.
Lemma n_pass n n' : N n n' -> N (pass_ n) (pass_ n'). Proof. intros []. now constructor. Qed.
Lemma n_noassert n n' : N n n' -> N (noassert n) (noassert n'). Proof. intros []. now constructor. Qed.
Lemma n_drop n n' : N n n' -> N (discard n) (discard n'). Proof. intros []. now constructor. Qed.
Lemma n_ref n n' s s' : N n n' -> R s s' -> N (refschema n s) (refschema n' s'). Proof. intros X Y. destruct X. now constructor. Qed.
Lemma n_check b m n n' : N n n' -> N (check b m n) (check b m n'). Proof. unfold check. destruct b; auto using n_fail. Qed.
Hint Resolve n_fail n_annotate n_pass n_noassert n_drop n_ref n_check : core.
Lemma n_new n n' key i s s' : N n n' -> R s s' -> N (new_child n key i s) (new_child n' key i s').
Proof.
  intros H Hs. pose proof (n_schema _ _ H) as Hn. destruct (proj1 T _ _ _ _ Hs Hn) as [A B]. unfold new_child.
  replace (Nat.eqb s' (r_schema n')) with (Nat.eqb s (r_schema n)).
  - destruct H. cbn. constructor; [exact Hs|exact I|constructor].
  - destruct (Nat.eqb_spec s (r_schema n)) as [E|E], (Nat.eqb_spec s' (r_schema n')) as [E'|E']; auto; exfalso; auto.
Qed.
Fixpoint n_collect inst key n n' (H : N n n') {struct H} : collect_annotations inst key n' = collect_annotations inst key n.
Proof.
  destruct H as [k p rp s s' i v a d an er rf rf' cs cs' _ _ F]. cbn [collect_annotations r_valid r_discard r_annot r_key r_inst r_children]. destruct (v && negb d); [|reflexivity]. f_equal.
  induction F as [|[k1 n1] [k2 n2] cs cs' [_ A] F IH]; [reflexivity|]. f_equal; [exact (n_collect inst key n1 n2 A)|exact IH].
Qed.

(** ** Looking things up. *)
Definition twin_sn (x y : schemanode) : Prop :=
  match x, y with SNSchema s, SNSchema s' => R s s' | SNJson j, SNJson j' => twin_json R j j' | _, _ => False end.
Lemma twin_sn_of j j' : twin_json R j j' -> twin_sn (sn_of j) (sn_of j').
Proof. intros []; cbn; try constructor; auto. Qed.
Lemma rs_length l l' : Rs l l' -> length l' = length l. Proof. induction 1; cbn; congruence. Qed.
Lemma rm_keys m m' : Rm m m' -> keys m' = keys m.
Proof. induction 1 as [|x y m m' [E _] _ IH]; [reflexivity|]. unfold keys in *. cbn [map]. now rewrite E, IH. Qed.
Lemma rm_dget k m m' : Rm m m' -> both_or_none R (dget k m) (dget k m').
Proof. induction 1 as [|[k1 s1] [k2 s2] m m' [E H] _ IH]; [exact I|]. cbn in *. subst k2. destruct (str_eqb k k1); assumption. Qed.
Lemma rs_nth l l' n : Rs l l' -> both_or_none R (nth_error l n) (nth_error l' n).
Proof. intro H. revert n. induction H as [|s s' l l' Hs _ IH]; intros [|n]; cbn; auto. Qed.
Lemma two_index l l' k : Rs l l' -> Two R (sn_index k l) (sn_index k l').
Proof.
  intro H. unfold sn_index. destruct (py_int k) as [z|]; [|reflexivity]. rewrite (rs_length _ _ H). destruct (norm_index _ z) as [n|]; [|reflexivity].
  pose proof (rs_nth _ _ n H) as X. unfold both_or_none in X. destruct (nth_error l n), (nth_error l' n); try contradiction; auto. reflexivity.
Qed.
Notation twin_kws := (Forall2 (twin_keyword R)).
Lemma kws_dget k kws kws' : twin_kws kws kws' -> match dget k kws, dget k kws' with Some x, Some y => twin_json R (kw_json x) (kw_json y) | None, None => True | _, _ => False end.
Proof.
  induction 1 as [|[k1 x] [k2 y] kws kws' H _ IH]; [exact I|]. unfold twin_keyword in H. cbn in *. destruct H as (E & _ & _ & J & _). subst k2. destruct (str_eqb k k1); assumption.
Qed.
Lemma two_schema s s' : R s s' -> (exists b, w_schema W s = SBool b /\ w_schema V s' = SBool b) \/ (exists kws kws', w_schema W s = SObj kws /\ w_schema V s' = SObj kws' /\ twin_kws kws kws').
Proof.
  intro H. pose proof (proj2 T s s' H) as X. destruct (w_schema W s) as [b|kws], (w_schema V s') as [b'|kws']; try contradiction; [left; exists b; now subst|right; exists kws, kws'; auto].
Qed.
Lemma two_child n n' k : twin_sn n n' -> Two twin_sn (sn_child W n k) (sn_child W' n' k).
Proof.
  intro H. destruct n as [s|j], n' as [s'|j']; cbn in H; try contradiction.
  - cbn [sn_child]. unfold schema_keywords. cbn [w_schema]. destruct (two_schema _ _ H) as [(b & -> & ->)|(kws & kws' & -> & -> & K)]; [reflexivity|].
    pose proof (kws_dget k _ _ K) as X. destruct (dget k kws), (dget k kws'); try contradiction; [|reflexivity]. apply two_ok. now apply twin_sn_of.
  - destruct H as [v|s s' H|l l' H|m m' H]; cbn [sn_child]; try reflexivity.
    + destruct v; try reflexivity; [apply two_same; intro v; apply two_ok; constructor|]. destruct (dget k m); [apply two_ok; constructor|reflexivity].
    + eapply two_bind; [now apply two_index|]. intros a b X. exact X.
    + pose proof (rm_dget k _ _ H) as X. unfold both_or_none in X. destruct (dget k m), (dget k m'); try contradiction; [exact X|reflexivity].
Qed.
Lemma two_walk p : forall n n', twin_sn n n' -> Two twin_sn (sn_walk W n p) (sn_walk W' n' p).
Proof. induction p as [|k p IH]; intros n n' H; [exact H|]. cbn [sn_walk]. eapply two_bind; [now apply two_child|exact IH]. Qed.
Lemma two_node n n' : N n n' -> Two twin_sn (schema_node W n) (schema_node W' n').
Proof. intro H. unfold schema_node. rewrite (n_relpath _ _ H). apply two_walk. exact (n_schema _ _ H). Qed.
Lemma two_anchor s s' : R s s' -> has_recursive_anchor W' s' = has_recursive_anchor W s.
Proof.
  intro H. unfold has_recursive_anchor. cbn [w_schema]. destruct (two_schema _ _ H) as [(b & -> & ->)|(kws & kws' & -> & -> & K)]; [reflexivity|]. f_equal.
  pose proof (kws_dget (lit "$recursiveAnchor") _ _ K) as X. destruct (dget (lit "$recursiveAnchor") kws), (dget (lit "$recursiveAnchor") kws'); try contradiction; [|reflexivity]. now destruct X.
Qed.
Lemma two_recursive chain chain' : Rs chain chain' -> forall cur cur', R cur cur' -> Two R (recursive_target W chain cur) (recursive_target W' chain' cur').
Proof.
  induction 1 as [|t t' chain chain' Ht _ IH]; intros cur cur' Hc; [exact Hc|]. cbn [recursive_target]. rewrite (two_anchor _ _ Ht). apply two_same. intros [|]; auto.
Qed.

Lemma two_dynamic_anchor s s' f : R s s' -> has_dynamic_anchor W' s' f = has_dynamic_anchor W s f.
Proof.
  intro H. unfold has_dynamic_anchor. cbn [w_schema]. destruct (two_schema _ _ H) as [(b & -> & ->)|(kws & kws' & -> & -> & K)]; [reflexivity|]. f_equal.
  pose proof (kws_dget (lit "$dynamicAnchor") _ _ K) as X. destruct (dget (lit "$dynamicAnchor") kws), (dget (lit "$dynamicAnchor") kws'); try contradiction; [|reflexivity]. now destruct X.
Qed.
Definition both_checked (l l' : list pystr) : Prop := Forall2 (fun b b' => exists t t', R t t' /\ w_base W t = Some b /\ w_base V t' = Some b') l l'.
Lemma checked_mem t t' b b' l l' : same_scopes R W V -> R t t' -> w_base W t = Some b -> w_base V t' = Some b' -> both_checked l l' -> mem_str b' l' = mem_str b l.
Proof.
  intros [Sb _] Ht Hb Hb'. induction 1 as [|x x' l l' (s & s' & Hs & Hx & Hx') _ IH]; [reflexivity|]. unfold mem_str in *. cbn [existsb]. rewrite IH. f_equal. pose proof (Sb _ _ _ _ Ht Hs) as [A B]. rewrite Hb, Hb', Hx, Hx' in A, B.
  destruct (str_eqb_spec b x) as [X|X], (str_eqb_spec b' x') as [Y|Y]; try reflexivity; exfalso; [apply Y; specialize (A (f_equal _ X)); congruence|apply X; specialize (B (f_equal _ Y)); congruence].
Qed.
Lemma two_dynamic f chain chain' : same_scopes R W V -> Rs chain chain' -> forall l l' cur cur', both_checked l l' -> R cur cur' -> Two R (dynamic_target W f chain l cur) (dynamic_target W' f chain' l' cur').
Proof.
  intro S. induction 1 as [|t t' chain chain' Ht _ IH]; intros l l' cur cur' Hl Hc; [exact Hc|]. cbn [dynamic_target w_base w_anchor]. pose proof (proj2 S _ _ Ht) as A.
  destruct (w_base W t) as [b|] eqn:Hb, (w_base V t') as [b'|] eqn:Hb'; try contradiction; [|now apply IH]. rewrite (checked_mem _ _ _ _ _ _ S Ht Hb Hb' Hl). destruct (mem_str b l); [now apply IH|].
  assert (Hl' : both_checked (b :: l) (b' :: l')) by (constructor; [exists t, t'; auto|exact Hl]). specialize (A f). unfold both_or_none in A.
  destruct (w_anchor W b f) as [x|], (w_anchor V b' f) as [x'|]; try contradiction; [|now apply IH]. rewrite (two_dynamic_anchor _ _ f A). apply two_same. intros [|]; now apply IH.
Qed.

(** ** Values. *)
Lemma j_num j j' : twin_json R j j' -> num_of j' = num_of j. Proof. now intros []. Qed.
Lemma j_types j j' : twin_json R j j' -> type_names j' = type_names j. Proof. now intros []. Qed.
Lemma j_iterated j j' : twin_json R j j' -> iterated j' = iterated j. Proof. now intros []. Qed.
Lemma j_truthy j j' : twin_json R j j' -> truthy j' = truthy j.
Proof. intros [v|s s' _|l l' H|m m' H]; try reflexivity; now destruct H. Qed.
Lemma j_said j j' a b : twin_json R j j' -> said W a j' b = said W a j b. Proof. now intros []. Qed.
Lemma two_tell b msg n n' : N n n' -> Two N (tell b msg n) (tell b msg n').
Proof. intro H. unfold tell. destruct b; [exact H|]. apply two_same. intro. apply two_ok. auto. Qed.
Lemma two_limit bad x j j' before after n n' : twin_json R j j' -> N n n' -> Two N (limit W bad x j before after n) (limit W' bad x j' before after n').
Proof. intros Hj H. unfold limit. rewrite (j_num _ _ Hj). destruct (num_of j); [|reflexivity]. change (said W' before j' after) with (said W before j' after). rewrite (j_said _ _ _ _ Hj). now apply two_tell. Qed.
Lemma two_annotation j j' n n' : twin_json R j j' -> N n n' -> Two N (e_annotation j n) (e_annotation j' n').
Proof. intros X Y. destruct X; cbn; auto. Qed.

Lemma same_any ps x : any_search W' ps x = any_search W ps x.
Proof. induction ps as [|p ps IH]; [reflexivity|]. cbn [any_search w_search]. now rewrite IH. Qed.
Lemma same_addl known patterns l : additional W' known patterns l = additional W known patterns l.
Proof. induction l as [|[name item] l IH]; [reflexivity|]. cbn [additional]. now rewrite same_any, IH. Qed.

(** ** Keywords. *)
Section Eval.
Variables ev ev' : sid -> inst -> list sid -> rnode -> res rnode.
Hypothesis Hev : forall s s' i anc anc' n n', R s s' -> Rs anc anc' -> N n n' -> Two N (ev s i anc n) (ev' s' i anc' n').

Lemma two_in_child n n' anc anc' i key s s' : R s s' -> Rs anc anc' -> N n n' ->
  Two (fun x y => N (fst x) (fst y) /\ N (snd x) (snd y)) (in_child ev n anc i key s) (in_child ev' n' anc' i key s').
Proof.
  intros Hs Ha Hn. unfold in_child. pose proof (n_schema _ _ Hn). eapply two_bind; [apply Hev; [exact Hs|constructor; assumption|now apply n_new]|]. intros c c' Hc. apply two_ok. split; [now apply n_close|exact Hc].
Qed.
Lemma two_branches i anc anc' l l' : Rs anc anc' -> Rs l l' -> forall k n n', N n n' -> Two N1 (branches ev i anc k l n) (branches ev' i anc' k l' n').
Proof.
  intro Ha. induction 1 as [|s s' l l' Hs _ IH]; intros k n n' Hn; [now split|]. cbn [branches]. eapply two_bind; [now apply two_in_child|]. intros [r c] [r' c'] [Hr Hc].
  eapply two_bind; [now apply IH|]. intros [r2 bs] [r2' bs'] [H2 E]. cbn [fst snd] in *. subst bs'. apply two_ok. split; [exact H2|]. cbn [snd]. now rewrite (n_passed _ _ Hc).
Qed.
Lemma two_dependents i anc anc' m m' : Rs anc anc' -> Rm m m' -> forall n n', N n n' -> Two N1 (dependents ev i anc m n) (dependents ev' i anc' m' n').
Proof.
  intro Ha. induction 1 as [|[k1 s] [k2 s'] m m' [E Hs] _ IH]; intros n n' Hn; [now split|]. cbn [fst snd] in *. subst k2. cbn [dependents]. destruct (has_member i k1); [|now apply IH].
  eapply two_bind; [now apply two_in_child|]. intros [r c] [r' c'] [Hr Hc]. eapply two_bind; [now apply IH|]. intros [r2 [g b]] [r2' [g' b']] [H2 E]. cbn [fst snd] in *. injection E as <- <-. apply two_ok. split; [exact H2|].
  cbn [snd]. now rewrite (n_passed _ _ Hc).
Qed.
Lemma two_pairwise anc anc' l l' : Rs anc anc' -> Rs l l' -> forall items k n n', N n n' -> Two N1 (pairwise ev anc k items l n) (pairwise ev' anc' k items l' n').
Proof.
  intro Ha. induction 1 as [|s s' l l' Hs _ IH]; intros items k n n' Hn; [destruct items; now split|]. destruct items as [|i items]; [now split|]. cbn [pairwise].
  eapply two_bind; [now apply two_in_child|]. intros [r c] [r' c'] [Hr Hc]. eapply two_bind; [now apply IH|]. intros [r2 bs] [r2' bs'] [H2 E]. cbn [fst snd] in *. subst bs'. apply two_ok. split; [exact H2|]. cbn [snd]. now rewrite (n_passed _ _ Hc).
Qed.
Lemma two_each s s' anc anc' l : R s s' -> Rs anc anc' -> forall n n', N n n' -> Two N1 (each ev s anc l n) (each ev' s' anc' l n').
Proof.
  intros Hs Ha. induction l as [|i l IH]; intros n n' Hn; [now split|]. cbn [each]. eapply two_bind; [now apply Hev|]. intros r r' Hr. cbv zeta. rewrite (n_passed _ _ Hr).
  eapply two_bind; [apply IH; destruct (passed r); auto|]. intros [r2 bs] [r2' bs'] [H2 E]. cbn [fst snd] in *. subst bs'. now split.
Qed.
Lemma two_noreset s s' anc anc' l : R s s' -> Rs anc anc' -> forall n n', N n n' -> Two N (each_noreset ev s anc l n) (each_noreset ev' s' anc' l n').
Proof. intros Hs Ha. induction l as [|i l IH]; intros n n' Hn; [exact Hn|]. cbn [each_noreset]. eapply two_bind; [now apply Hev|]. exact IH. Qed.
Ltac pairs := intros [? ?] [? ?] [? ?]; cbn [fst snd] in *; subst; apply two_ok.
Lemma two_items_from start s s' i anc anc' n n' : R s s' -> Rs anc anc' -> N n n' -> Two N (e_items_from ev start s i anc n) (e_items_from ev' start s' i anc' n').
Proof. intros Hs Ha Hn. unfold e_items_from. eapply two_bind; [now apply two_each|]. pairs. destruct (positions false start _); auto. Qed.
Lemma two_unevaluated_from last skip s s' i anc anc' n n' : R s s' -> Rs anc anc' -> N n n' -> Two N (e_unevaluated_from ev last skip s i anc n) (e_unevaluated_from ev' last skip s' i anc' n').
Proof. intros Hs Ha Hn. unfold e_unevaluated_from. cbv zeta. eapply two_bind; [now apply two_each|]. pairs. destruct (failing _ _ _); auto. Qed.
Lemma two_members todo s s' anc anc' n n' : R s s' -> Rs anc anc' -> N n n' -> Two N (e_members ev todo s anc n) (e_members ev' todo s' anc' n').
Proof. intros Hs Ha Hn. unfold e_members. eapply two_bind; [now apply two_each|]. pairs. destruct (failing _ todo _); auto. Qed.
Lemma two_named m m' anc anc' l : Rs anc anc' -> Rm m m' -> forall n n', N n n' -> Two N1 (named ev m anc l n) (named ev' m' anc' l n').
Proof.
  intros Ha Hm. induction l as [|[name item] l IH]; intros n n' Hn; [now split|]. cbn [named]. pose proof (rm_dget name _ _ Hm) as X. unfold both_or_none in X.
  destruct (dget name m) as [s|], (dget name m') as [s'|]; try contradiction; [|now apply IH].
  eapply two_bind; [now apply two_in_child|]. intros [r c] [r' c'] [Hr Hc]. eapply two_bind; [now apply IH|]. intros [r2 [g b]] [r2' [g' b']] [H2 E]. cbn [fst snd] in *. injection E as <- <-. apply two_ok. split; [exact H2|].
  cbn [snd]. now rewrite (n_passed _ _ Hc).
Qed.
Lemma two_matching m m' anc anc' name item : Rs anc anc' -> Rm m m' -> forall n n', N n n' -> Two N1 (matching W ev m anc name item n) (matching W' ev' m' anc' name item n').
Proof.
  intro Ha. induction 1 as [|[k1 s] [k2 s'] m m' [E Hs] _ IH]; intros n n' Hn; [now split|]. cbn [fst snd] in *. subst k2. cbn [matching w_search]. destruct (w_search W k1 name) as [[|]|]; [|now apply IH|reflexivity].
  eapply two_bind; [now apply two_in_child|]. intros [r c] [r' c'] [Hr Hc]. eapply two_bind; [now apply IH|]. intros [r2 [g b]] [r2' [g' b']] [H2 E]. cbn [fst snd] in *. injection E as <- <-. apply two_ok. split; [exact H2|].
  cbn [snd]. now rewrite (n_passed _ _ Hc).
Qed.
Lemma two_patterned m m' anc anc' l : Rs anc anc' -> Rm m m' -> forall n n', N n n' -> Two N1 (patterned W ev m anc l n) (patterned W' ev' m' anc' l n').
Proof.
  intros Ha Hm. induction l as [|[name item] l IH]; intros n n' Hn; [now split|]. cbn [patterned].
  eapply two_bind; [now apply two_matching|]. intros [r [g b]] [r' [g' b']] [Hr E]. cbn [fst snd] in *. injection E as <- <-. eapply two_bind; [now apply IH|]. intros [r2 [g2 b2]] [r2' [g2' b2']] [H2 E]. cbn [fst snd] in *. injection E as <- <-. now split.
Qed.
Lemma two_sibling_names n n' i key : N n n' -> sibling_names W' n' i key = sibling_names W n i key.
Proof.
  intro H. unfold sibling_names. pose proof (n_sibling _ _ i key H) as X. destruct (sibling n i key) as [a|], (sibling n' i key) as [b|]; try contradiction; [|reflexivity].
  pose proof (two_node _ _ X) as Y. destruct (schema_node W a) as [x| |], (schema_node W' b) as [y| |]; cbn in Y; try contradiction; [|subst; reflexivity|reflexivity]. cbn [bind].
  destruct x as [s|j], y as [s'|j']; cbn in Y; try contradiction; [reflexivity|]. destruct Y as [v|s s' _|l l' _|m m' Hm]; try reflexivity. now rewrite (rm_keys _ _ Hm).
Qed.

Lemma two_std k k' c i anc anc' p p' n n' : (undynamic R W -> c = KDynamicRef -> kw_dynamic (snd k) = false) -> kw_class (snd k) = Std c -> twin_keyword R k k' -> Rs anc anc' -> N p p' -> N n n' ->
  Two N (eval_std W ev (snd k) c i anc p n) (eval_std W' ev' (snd k') c i anc' p' n').
Proof.
  unfold twin_keyword. destruct k as [key k], k' as [key' k']. cbv zeta. cbn [fst snd]. intros Un Ec (_ & _ & Ef & J & Rf & D) Ha Hp Hn. unfold is_reference in Rf. rewrite Ec in Rf, D.
  assert (Hc : Rs (r_schema n :: anc) (r_schema n' :: anc')) by (constructor; [exact (n_schema _ _ Hn)|exact Ha]).
  assert (Sub : forall f f', (forall s s', R s s' -> Two N (f s) (f' s')) -> Two N (with_sub (kw_json k) f) (with_sub (kw_json k') f')).
  { intros f f' H. destruct J; try reflexivity. now apply H. }
  assert (Subs : forall f f', (forall l l', Rs l l' -> Two N (f l) (f' l')) -> Two N (with_subs (kw_json k) f) (with_subs (kw_json k') f')).
  { intros f f' H. destruct J as [[| | |[|]| |]| | |]; try reflexivity; cbn [with_subs]; apply H; [constructor|assumption]. }
  assert (Pref : forall f f', (forall l l', Rs l l' -> Two N (f l) (f' l')) -> Two N (with_prefix (kw_json k) i f) (with_prefix (kw_json k') i f')).
  { intros f f' H. unfold with_prefix. destruct J as [[| | |t| |]| | |]; try reflexivity; [|now apply H]. destruct t, (items_of i); try reflexivity; apply H; constructor. }
  assert (Subm : forall f f', (forall m m', Rm m m' -> Two N (f m) (f' m')) -> Two N (with_subm (kw_json k) f) (with_subm (kw_json k') f')).
  { intros f f' H. destruct J; try reflexivity. now apply H. }
  assert (Sib : forall key, match sibling p i key, sibling p' i key with Some a, Some b => N a b | None, None => True | _, _ => False end) by (intro; now apply n_sibling).
  destruct c; cbn [eval_std]; try solve [exact Hn|now apply two_limit|now apply two_annotation].
  - (* $ref *) unfold e_ref. specialize (Rf ltac:(auto)). unfold both_or_none in Rf. destruct (kw_ref k) as [t|], (kw_ref k') as [t'|]; try contradiction; [|reflexivity]. eapply two_bind; [now apply Hev|]. intros a b H. apply two_ok; auto.
  - (* $dynamicRef *) unfold e_dynamicRef. specialize (Rf ltac:(auto)). destruct (D eq_refl) as [D1 D2]. unfold both_or_none in Rf. rewrite <- D1, <- D2. destruct (kw_ref k) as [t|], (kw_ref k') as [t'|]; try contradiction; [|reflexivity]. eapply (two_bind R).
    + destruct Sc as [S|S]; [rewrite (Un S eq_refl); exact Rf|]. destruct (kw_dynamic k); [apply two_dynamic; auto; constructor|exact Rf].
    + intros u u' Hu. eapply two_bind; [now apply Hev|]. intros a b H. apply two_ok; auto.
  - (* $recursiveRef *) unfold e_recursiveRef. specialize (Rf ltac:(auto)). unfold both_or_none in Rf. destruct (kw_ref k) as [t|], (kw_ref k') as [t'|]; try contradiction; [|reflexivity]. rewrite (two_anchor _ _ Rf). apply two_same. intro b. eapply (two_bind R).
    + destruct b; [now apply two_recursive|exact Rf].
    + intros u u' Hu. eapply two_bind; [now apply Hev|]. intros a b' H. apply two_ok; auto.
  - apply Subs. intros l l' Hl. unfold e_allOf. eapply two_bind; [now apply two_branches|]. pairs. destruct (forallb id _); auto.
  - apply Subs. intros l l' Hl. unfold e_anyOf. eapply two_bind; [now apply two_branches|]. pairs. destruct (existsb id _); auto.
  - apply Subs. intros l l' Hl. unfold e_oneOf. eapply two_bind; [now apply two_branches|]. pairs. destruct (Nat.eqb _ 1); auto.
  - apply Sub. intros s s' Hs. unfold e_not. eapply two_bind; [now apply Hev|]. intros a b H. apply two_ok. rewrite (n_passed _ _ H). destruct (passed a); auto.
  - apply Sub. intros s s' Hs. unfold e_if. eapply two_bind; [now apply Hev|]. intros a b H. apply two_ok. auto.
  - apply Sub. intros s s' Hs. unfold e_branch. specialize (Sib (lit "if")). destruct (sibling p i (lit "if")) as [a|], (sibling p' i (lit "if")) as [b|]; try contradiction; [|apply two_ok; auto]. rewrite (n_valid _ _ Sib). destruct (Bool.eqb (r_valid a) true); [now apply Hev|apply two_ok; auto].
  - apply Sub. intros s s' Hs. unfold e_branch. specialize (Sib (lit "if")). destruct (sibling p i (lit "if")) as [a|], (sibling p' i (lit "if")) as [b|]; try contradiction; [|apply two_ok; auto]. rewrite (n_valid _ _ Sib). destruct (Bool.eqb (r_valid a) false); [now apply Hev|apply two_ok; auto].
  - apply Subm. intros m m' Hm. unfold e_dependentSchemas. eapply two_bind; [now apply two_dependents|]. intros [r [g b]] [r' [g' b']] [H E]. cbn [fst snd] in *. injection E as <- <-. apply two_ok. destruct b; auto.
  - apply Pref. intros l l' Hl. unfold e_prefixItems. eapply two_bind; [now apply two_pairwise|]. intros [r bs] [r' bs'] [H E]. cbn [fst snd] in *. subst bs'. apply two_ok. destruct (positions false 0 bs); auto. destruct bs; auto.
  - apply Sub. intros s s' Hs. unfold e_items. specialize (Sib (lit "prefixItems")). destruct (sibling p i (lit "prefixItems")) as [a|], (sibling p' i (lit "prefixItems")) as [b|]; try contradiction; [|now apply two_items_from].
    eapply two_bind; [now apply two_node|]. intros [t|j] [t'|j'] X; cbn in X; try contradiction; [reflexivity|]. destruct X as [v|t t' _|l l' Hl|m m' _]; try reflexivity. rewrite (rs_length _ _ Hl). now apply two_items_from.
  - apply Sub. intros s s' Hs. unfold e_unevaluatedItems. cbv zeta. rewrite !(n_collect _ _ _ _ Hp). apply two_same. intros [last|]; [|apply two_ok; auto]. destruct (any_true _ || any_true _); [apply two_ok; auto|]. apply two_same. intro skip. now apply two_unevaluated_from.
  - apply Sub. intros s s' Hs. unfold e_contains. eapply two_bind; [now apply two_each|]. pairs. destruct (positions true 0 _); auto.
  - apply Subm. intros m m' Hm. unfold e_properties. eapply two_bind; [now apply two_named|]. intros [r [g b]] [r' [g' b']] [H E]. cbn [fst snd] in *. injection E as <- <-. apply two_ok. destruct b; auto.
  - apply Subm. intros m m' Hm. unfold e_patternProperties. eapply two_bind; [now apply two_patterned|]. intros [r [g b]] [r' [g' b']] [H E]. cbn [fst snd] in *. injection E as <- <-. apply two_ok. destruct b; auto.
  - apply Sub. intros s s' Hs. unfold e_additionalProperties. rewrite !(two_sibling_names p p') by exact Hp. apply two_same. intro known. apply two_same. intro patterns. rewrite same_addl. apply two_same. intro todo. now apply two_members.
  - apply Sub. intros s s' Hs. unfold e_unevaluatedProperties. cbv zeta. rewrite !(n_collect _ _ _ _ Hp). do 4 (apply two_same; intro). now apply two_members.
  - apply Sub. intros s s' Hs. unfold e_propertyNames. cbv zeta. eapply two_bind; [now apply two_each|]. pairs. destruct (failing _ _ _); auto.
  - unfold e_items_2019. destruct (items_of i) as [|it its]; [exact Hn|]. destruct J as [v|s s' Hs|l l' Hl|m m' Hm]; try exact Hn.
    + cbn [w_schema]. destruct (two_schema _ _ Hs) as [(b & -> & ->)|(kws & kws' & -> & -> & K)]; [now apply Hev|]. eapply two_bind; [now apply two_noreset|]. intros a b H. apply two_ok. rewrite (n_passed _ _ H). destruct (passed a); auto.
    + eapply two_bind; [now apply two_pairwise|]. pairs. destruct (positions false 0 _); auto.
  - apply Sub. intros s s' Hs. unfold e_additionalItems. specialize (Sib (lit "items")). destruct (sibling p i (lit "items")) as [a|], (sibling p' i (lit "items")) as [b|]; try contradiction; [|apply two_ok; auto].
    rewrite (n_annot _ _ Sib). destruct (r_annot a) as [| |[z| | |]| | |]; try (apply two_ok; auto; fail). now apply two_items_from.
  - apply Sub. intros s s' Hs. unfold e_unevaluatedItems_2019. cbv zeta. rewrite !(n_collect _ _ _ _ Hp). destruct (last_evaluated_2019 _ _) as [last|]; [|apply two_ok; auto]. destruct (any_true _ || any_true _); [apply two_ok; auto|]. now apply two_unevaluated_from.
  - apply Sub. intros s s' Hs. unfold e_unevaluatedProperties. cbv zeta. rewrite !(n_collect _ _ _ _ Hp). do 4 (apply two_same; intro). now apply two_members.
  - unfold e_type. cbv zeta. rewrite (j_types _ _ J). apply two_same. intro b. change (said W') with (said W). rewrite (j_said _ _ _ _ J). now apply two_tell.
  - unfold e_enum. rewrite (j_iterated _ _ J). apply two_same. intro. apply two_ok; auto.
  - unfold e_const. destruct J; try reflexivity. apply two_ok; auto.
  - unfold e_multipleOf. destruct J as [[]| | |]; try reflexivity; now apply two_tell.
  - unfold e_pattern. destruct J as [[]| | |]; try reflexivity. destruct (i_val i); try reflexivity. cbn [w_search]. destruct (w_search W _ _); [now apply two_tell|reflexivity].
  - unfold e_uniqueItems. destruct (i_val i); try reflexivity. rewrite (j_truthy _ _ J). destruct (truthy _); apply two_ok; auto.
  - unfold e_maxContains. specialize (Sib (lit "contains")). destruct (sibling p i (lit "contains")) as [a|], (sibling p' i (lit "contains")) as [b|]; try contradiction; [|exact Hn]. rewrite (n_annot _ _ Sib). destruct (is_null (r_annot a)); [exact Hn|]. apply two_same. intro. now apply two_limit.
  - unfold e_required. destruct J as [v| | |]; try reflexivity. apply two_same. intro. apply two_ok. now apply n_check.
  - unfold e_dependentRequired. destruct J as [v| | |]; try reflexivity. apply two_same. intro. apply two_same. intro. now apply two_tell.
  - unfold e_format. rewrite <- Ef. destruct J as [v| | |]; try reflexivity. cbv zeta. destruct (kw_format k) as [types|]; [|apply two_ok; auto]. destruct v; try (apply two_ok; auto; fail).
    destruct (mem_type _ types); apply two_ok; auto.
  - unfold e_contentSchema. specialize (Sib (lit "contentMediaType")). destruct (sibling p i (lit "contentMediaType")), (sibling p' i (lit "contentMediaType")); try contradiction; [now apply two_annotation|apply two_ok; auto].
Qed.
Lemma two_keyword k k' i anc anc' p p' n n' : (undynamic R W -> kw_class (snd k) = Std KDynamicRef -> kw_dynamic (snd k) = false) -> twin_keyword R k k' -> Rs anc anc' -> N p p' -> N n n' ->
  Two (fun x y => N (fst x) (fst y) /\ N (snd x) (snd y)) (eval_keyword W ev (snd k) i anc p n) (eval_keyword W' ev' (snd k') i anc' p' n').
Proof.
  intros Un K Ha Hp Hn. assert (G : forall c, kw_class (snd k) = Std c -> Two (fun x y => N (fst x) (fst y) /\ N (snd x) (snd y)) (let* r := eval_std W ev (snd k) c i anc p n in Ok (p, r)) (let* r := eval_std W' ev' (snd k') c i anc' p' n' in Ok (p', r))).
  { intros c Hc. eapply two_bind; [apply two_std; auto; intros U ->; now apply Un|]. intros a b H. now apply two_ok. }
  unfold eval_keyword. pose proof K as K0. unfold twin_keyword in K0. cbv zeta in K0. destruct K0 as (_ & Ec & _ & J & _). rewrite <- Ec.
  destruct (kw_class (snd k)) as [c|u] eqn:Hk; [|eapply two_bind; [now apply two_annotation|]; intros a b H; now apply two_ok].
  destruct c; try exact (G _ eq_refl). unfold e_minContains. pose proof (n_sibling _ _ i (lit "contains") Hp) as Sib. destruct (sibling p i (lit "contains")) as [a|], (sibling p' i (lit "contains")) as [b|]; try contradiction; [|apply two_ok; now split].
  rewrite (n_annot _ _ Sib), (n_valid _ _ Sib), (j_num _ _ J). apply two_same. intro len. destruct (num_of (kw_json (snd k))); [|reflexivity]. cbv zeta. change (said W') with (said W). rewrite (j_said _ _ _ _ J).
  eapply two_bind; [now apply two_tell|]. intros r r' Hr. apply two_ok. split; [|exact Hr]. cbn [fst].
  assert (Pt : N (put_child p (lit "contains") i (pass_ a)) (put_child p' (lit "contains") i (pass_ b))) by (apply n_put; auto).
  destruct (num_leb _ _ && _); [|exact Hp]. pose proof (n_sibling _ _ i (lit "maxContains") Hp) as Sm. destruct (sibling p i (lit "maxContains")) as [x|], (sibling p' i (lit "maxContains")) as [y|]; try contradiction; [|exact Pt].
  rewrite (n_valid _ _ Sm). destruct (r_valid x); assumption.
Qed.
Lemma two_keywords s s' i anc anc' kws kws' : R s s' -> Rs anc anc' -> twin_kws kws kws' -> (undynamic R W -> forall key k, In (key, k) kws -> kw_class k = Std KDynamicRef -> kw_dynamic k = false) ->
  forall n n', N n n' -> Two N (eval_keywords W ev s kws i anc n) (eval_keywords W' ev' s' kws' i anc' n').
Proof.
  intros Hs Ha. induction 1 as [|[key k] [key' k'] kws kws' K _ IH]; intros Un n n' Hn; [exact Hn|]. cbn [eval_keywords].
  specialize (IH (fun U key0 k0 H0 => Un U key0 k0 (or_intror H0))).
  assert (Ek : key = key' /\ kw_class k = kw_class k') by (unfold twin_keyword in K; cbn in K; destruct K as (X & Y & _); auto). destruct Ek as [<- Ec].
  assert (Ap : applicable k' i = applicable k i) by (unfold applicable; now rewrite Ec). rewrite Ap. destruct (applicable k i); [|now apply IH]. cbv zeta.
  pose proof (n_new n n' key i s s' Hn Hs) as Nw. eapply two_bind; [apply (two_keyword (key, k) (key, k')); [intro U; exact (Un U key k (or_introl eq_refl))|exact K|constructor; [exact (n_schema _ _ Hn)|exact Ha]|apply n_put; assumption|exact Nw]|].
  intros [a b] [a' b'] [Hp Hc]. apply IH. now apply n_close.
Qed.
End Eval.

Lemma nc_exists f f' cs cs' : (forall n n', N n n' -> f' n' = f n) -> Nc cs cs' -> existsb (fun kc => f' (snd kc)) cs' = existsb (fun kc : (pystr * path) * rnode => f (snd kc)) cs.
Proof. intros H. induction 1 as [|x y cs cs' [_ A] _ IH]; [reflexivity|]. cbn. now rewrite IH, (H _ _ A). Qed.
Theorem evaluate_twin fuel : forall s s' i anc anc' n n', R s s' -> Rs anc anc' -> N n n' -> Two N (evaluate W fuel s i anc n) (evaluate W' fuel s' i anc' n').
Proof.
  induction fuel as [|fuel IH]; intros s s' i anc anc' n n' Hs Ha Hn; [exact I|]. cbn [evaluate w_schema]. destruct (two_schema _ _ Hs) as [(b & -> & ->)|(kws & kws' & Hw & Hw' & K)]; [destruct b; [exact Hn|apply two_ok; auto]|]. rewrite Hw, Hw'.
  eapply two_bind; [apply (two_keywords _ _ IH); try eassumption; intros U key k Hk; exact (U _ _ _ _ _ Hs Hw Hk)|]. intros r r' Hr. apply two_ok. unfold finish.
  pose (bad := fun c => negb (passed c) && strs_eqb (r_inst c) (i_path i)).
  assert (E : existsb (fun kc => bad (snd kc)) (r_children r') = existsb (fun kc => bad (snd kc)) (r_children r)) by (apply nc_exists; [intros a b X; unfold bad; now destruct X|now apply n_children]).
  unfold bad in E. rewrite E. clear E bad. match goal with |- context [if ?e then _ else _] => destruct e end; auto.
Qed.
Theorem evaluate_root_twin fuel s s' i : same_tools W V -> R s s' -> same_outcome R (evaluate_root W fuel s i) (evaluate_root V fuel s' i).
Proof.
  intros (T1 & T2 & T3) Hs. assert (E : evaluate_root W' fuel s' i = evaluate_root V fuel s' i).
  { apply (evaluate_root_local (fun _ => True)); [split; auto| |exact I]. split; [cbn; auto|]. split; [cbn; auto|]. split; [exact T1|]. split; [exact T2|exact T3]. }
  rewrite <- E. apply evaluate_twin; [exact Hs|constructor|]. constructor; [exact Hs|exact I|constructor].
Qed.
End Twin.
