(** The trees that evaluation returns: a valid node has no error. *)
From Coq Require Import List.
From Verif Require Export SchemaFine.
Import ListNotations.
Open Scope nat_scope.

Inductive quiet : rnode -> Prop :=
| quiet_i n : (r_valid n = true -> r_error n = JNull) -> Forall (fun kc => quiet (snd kc)) (r_children n) -> quiet n.

Lemma quiet_new parent key i s : quiet (new_child parent key i s).
Proof. constructor; [reflexivity|constructor]. Qed.
Lemma quiet_with n cs : quiet n -> Forall (fun kc => quiet (snd kc)) cs -> quiet (with_children n cs).
Proof. intros [m V C] H. now constructor. Qed.
Lemma quiet_kids n : quiet n -> Forall (fun kc => quiet (snd kc)) (r_children n). Proof. now intros [m V C]. Qed.
Lemma quiet_put n key i c : quiet n -> quiet c -> quiet (put_child n key i c).
Proof. intros Q Qc. apply quiet_with; [exact Q|]. apply Forall_cput; [exact Qc|now apply quiet_kids]. Qed.
Lemma quiet_close n key i c : quiet n -> quiet c -> quiet (close_child n key i c).
Proof.
  intros Q Qc. unfold close_child. destruct (r_discard c); [|now apply quiet_put].
  apply quiet_with; [exact Q|]. apply Forall_cdrop. now apply quiet_kids.
Qed.
Lemma quiet_fail n e : quiet n -> quiet (fail n e). Proof. intros [m V C]. constructor; [discriminate|exact C]. Qed.
Lemma quiet_pass n : quiet n -> quiet (pass_ n). Proof. intros [m V C]. constructor; [reflexivity|exact C]. Qed.
Lemma quiet_annotate n v : quiet n -> quiet (annotate n v). Proof. intros [m V C]. now constructor. Qed.
Lemma quiet_noassert n : quiet n -> quiet (noassert n). Proof. intros [m V C]. now constructor. Qed.
Lemma quiet_discard n : quiet n -> quiet (discard n). Proof. intros [m V C]. now constructor. Qed.
Lemma quiet_refschema n s : quiet n -> quiet (refschema n s). Proof. intros [m V C]. now constructor. Qed.
Lemma quiet_check b msg n : quiet n -> quiet (check b msg n).
Proof. intro Q. unfold check. destruct b; [exact Q|now apply quiet_fail]. Qed.
Lemma quiet_sibling n i key c : quiet n -> sibling n i key = Some c -> quiet c.
Proof. intros Q E. apply quiet_kids in Q. apply cget_In in E. rewrite Forall_forall in Q. exact (Q _ E). Qed.
Create HintDb quiet.
#[export] Hint Resolve quiet_new quiet_fail quiet_pass quiet_annotate quiet_noassert quiet_discard quiet_refschema quiet_check quiet_close : quiet.

Section Quiet.
Variable W : world.
Variable ev : sid -> inst -> list sid -> rnode -> res rnode.
Hypothesis Hev : forall s i anc n, quiet n -> Post quiet (ev s i anc n).
Definition on_fst {B} (rb : rnode * B) : Prop := quiet (fst rb).

Lemma quiet_in_child result anc i key s : quiet result -> Post on_fst (in_child ev result anc i key s).
Proof. intro Q. unfold in_child. eapply post_bind; [apply Hev, quiet_new|]. intros c Qc. cbn [Post on_fst fst]. now apply quiet_close. Qed.
Lemma quiet_branches i anc l : forall k result, quiet result -> Post on_fst (branches ev i anc k l result).
Proof.
  induction l as [|s l IH]; intros k result Q; cbn [branches]; [exact Q|].
  eapply post_bind; [apply quiet_in_child, Q|]. intros [r c] Q1. eapply post_bind; [apply IH, Q1|]. now intros [r2 bs] Q2.
Qed.
Lemma quiet_dependents i anc m : forall result, quiet result -> Post on_fst (dependents ev i anc m result).
Proof.
  induction m as [|[name s] m IH]; intros result Q; cbn [dependents]; [exact Q|]. destruct (has_member i name); [|auto].
  eapply post_bind; [apply quiet_in_child, Q|]. intros [r c] Q1. eapply post_bind; [apply IH, Q1|]. now intros [r2 [g b]] Q2.
Qed.
Lemma quiet_pairwise anc : forall js l k result, quiet result -> Post on_fst (pairwise ev anc k js l result).
Proof.
  induction js as [|j js IH]; intros l k result Q; cbn [pairwise]; [exact Q|]. destruct l as [|s l]; [exact Q|].
  eapply post_bind; [apply quiet_in_child, Q|]. intros [r c] Q1. eapply post_bind; [apply IH, Q1|]. now intros [r2 bs] Q2.
Qed.
Lemma quiet_named subs anc : forall l result, quiet result -> Post on_fst (named ev subs anc l result).
Proof.
  induction l as [|[name j] l IH]; intros result Q; cbn [named]; [exact Q|]. destruct (dget name subs) as [s|]; [|auto].
  eapply post_bind; [apply quiet_in_child, Q|]. intros [r c] Q1. eapply post_bind; [apply IH, Q1|]. now intros [r2 [g b]] Q2.
Qed.
Lemma quiet_matching anc name j : forall subs result, quiet result -> Post on_fst (matching W ev subs anc name j result).
Proof.
  induction subs as [|[r s] subs IH]; intros result Q; cbn [matching]; [exact Q|]. destruct (w_search W r name) as [[|]|]; [|auto|exact I].
  eapply post_bind; [apply quiet_in_child, Q|]. intros [r1 c] Q1. eapply post_bind; [apply IH, Q1|]. now intros [r2 [g b]] Q2.
Qed.
Lemma quiet_patterned subs anc : forall l result, quiet result -> Post on_fst (patterned W ev subs anc l result).
Proof.
  induction l as [|[name j] l IH]; intros result Q; cbn [patterned]; [exact Q|].
  eapply post_bind; [apply quiet_matching, Q|]. intros [r1 [g b]] Q1. eapply post_bind; [apply IH, Q1|]. now intros [r2 [g' b']] Q2.
Qed.
Lemma quiet_each s anc : forall l result, quiet result -> Post on_fst (each ev s anc l result).
Proof.
  induction l as [|j l IH]; intros result Q; cbn [each]; [exact Q|]. eapply post_bind; [apply Hev, Q|]. intros n Qn. cbv zeta.
  eapply post_bind; [apply IH; destruct (passed n); auto with quiet|]. now intros [r bs] Q2.
Qed.
Lemma quiet_each_noreset s anc : forall l result, quiet result -> Post quiet (each_noreset ev s anc l result).
Proof.
  induction l as [|j l IH]; intros result Q; cbn [each_noreset]; [exact Q|]. eapply post_bind; [apply Hev, Q|]. intros n Qn. now apply IH.
Qed.
Lemma quiet_items_from start_ s i anc result : quiet result -> Post quiet (e_items_from ev start_ s i anc result).
Proof.
  intro Q. unfold e_items_from. eapply post_bind; [apply quiet_each, Q|]. intros [r bs] Q1. unfold on_fst in Q1. cbn [Post fst] in *.
  destruct (positions false start_ bs); auto with quiet.
Qed.
Lemma quiet_unevaluated_from last skip s i anc result : quiet result -> Post quiet (e_unevaluated_from ev last skip s i anc result).
Proof.
  intro Q. unfold e_unevaluated_from. cbv zeta. eapply post_bind; [apply quiet_each, Q|]. intros [r bs] Q1. unfold on_fst in Q1. cbn [Post fst] in *.
  destruct (failing _ _ _); auto with quiet.
Qed.
Lemma quiet_members todo s anc result : quiet result -> Post quiet (e_members ev todo s anc result).
Proof.
  intro Q. unfold e_members. eapply post_bind; [apply quiet_each, Q|]. intros [r bs] Q1. unfold on_fst in Q1. cbn [Post fst] in *.
  destruct (failing _ _ _); auto with quiet.
Qed.

Lemma quiet_std k c i anc parent result : quiet result -> Post quiet (eval_std W ev k c i anc parent result).
Proof.
  intros Q.
  assert (Sub : forall g, (forall t, Post quiet (g t)) -> Post quiet (with_sub (kw_json k) g)).
  { intros g H. unfold with_sub. destruct (kw_json k); try exact I. apply H. }
  assert (Subs : forall g, (forall t, Post quiet (g t)) -> Post quiet (with_subs (kw_json k) g)).
  { intros g H. unfold with_subs. destruct (kw_json k) as [[| | |[|]| |]| | |]; try exact I; apply H. }
  assert (Pref : forall g, (forall t, Post quiet (g t)) -> Post quiet (with_prefix (kw_json k) i g)).
  { intros g H. unfold with_prefix. destruct (kw_json k) as [[| | |t| |]| | |]; try exact I; try apply H. destruct t, (items_of i); try exact I; apply H. }
  assert (Subm : forall g, (forall t, Post quiet (g t)) -> Post quiet (with_subm (kw_json k) g)).
  { intros g H. unfold with_subm. destruct (kw_json k); try exact I. apply H. }
  assert (L : forall bad x before after, Post quiet (limit W bad x (kw_json k) before after result)) by (intros; apply post_limit; intros; auto with quiet).
  assert (Te : forall b msg, Post quiet (tell b msg result)) by (intros; apply post_tell; intros; auto with quiet).
  assert (An : Post quiet (e_annotation (kw_json k) result)).
  { unfold e_annotation. destruct (kw_json k); try exact I. cbn [Post]. auto with quiet. }
  assert (E : forall t, Post quiet (ev t i anc result)) by (intro t; now apply Hev).
  assert (Er : forall t, Post quiet (let* r := ev t i anc result in Ok (refschema r t))).
  { intro t. eapply post_bind; [apply E|]. intros r O. cbn [Post]. auto with quiet. }
  assert (Dis : Post quiet (Ok (discard result))) by (cbn [Post]; auto with quiet).
  destruct c; cbn [eval_std]; try exact Q; try apply L; try exact An.
  - unfold e_ref. destruct (kw_ref k); [apply Er|exact I].
  - unfold e_dynamicRef. destruct (kw_ref k); [|exact I]. apply post_any. intro t. apply Er.
  - unfold e_recursiveRef. destruct (kw_ref k); [|exact I]. apply post_any. intro a. apply post_any. intro t. apply Er.
  - apply Subs. intro l. unfold e_allOf. eapply post_bind; [apply quiet_branches, Q|]. intros [r bs] Q1. unfold on_fst in Q1. cbn [Post fst] in *.
    destruct (forallb _ _); auto with quiet.
  - apply Subs. intro l. unfold e_anyOf. eapply post_bind; [apply quiet_branches, Q|]. intros [r bs] Q1. unfold on_fst in Q1. cbn [Post fst] in *.
    destruct (existsb _ _); auto with quiet.
  - apply Subs. intro l. unfold e_oneOf. eapply post_bind; [apply quiet_branches, Q|]. intros [r bs] Q1. unfold on_fst in Q1. cbn [Post fst] in *.
    destruct (Nat.eqb _ _); auto with quiet.
  - apply Sub. intro t. unfold e_not. eapply post_bind; [apply E|]. intros r Q1. cbn [Post]. destruct (passed r); auto with quiet.
  - apply Sub. intro t. unfold e_if. eapply post_bind; [apply E|]. intros r Q1. cbn [Post]. auto with quiet.
  - apply Sub. intro t. unfold e_branch. destruct (sibling _ _ _); [|exact Dis]. destruct (Bool.eqb _ _); [apply E|exact Dis].
  - apply Sub. intro t. unfold e_branch. destruct (sibling _ _ _); [|exact Dis]. destruct (Bool.eqb _ _); [apply E|exact Dis].
  - apply Subm. intro m. unfold e_dependentSchemas. eapply post_bind; [apply quiet_dependents, Q|]. intros [r [g b]] Q1. unfold on_fst in Q1. cbn [Post fst] in *.
    destruct b; auto with quiet.
  - apply Pref. intro l. unfold e_prefixItems. eapply post_bind; [apply quiet_pairwise, Q|]. intros [r bs] Q1. unfold on_fst in Q1. cbn [Post fst] in *.
    destruct (positions false 0 bs); [|auto with quiet]. destruct bs; auto with quiet.
  - apply Sub. intro t. unfold e_items. destruct (sibling _ _ _); [|now apply quiet_items_from]. apply post_any. intros [|[]]; try exact I. now apply quiet_items_from.
  - apply Sub. intro t. unfold e_unevaluatedItems. cbv zeta. apply post_any. intros [z|]; [|exact Dis]. destruct (_ || _); [exact Dis|]. apply post_any. intro sk.
    now apply quiet_unevaluated_from.
  - apply Sub. intro t. unfold e_contains. eapply post_bind; [apply quiet_each, Q|]. intros [r bs] Q1. unfold on_fst in Q1. cbv zeta. cbn [Post fst] in *.
    destruct (positions true 0 bs); auto with quiet.
  - apply Subm. intro m. unfold e_properties. eapply post_bind; [apply quiet_named, Q|]. intros [r [g b]] Q1. unfold on_fst in Q1. cbn [Post fst] in *.
    destruct b; auto with quiet.
  - apply Subm. intro m. unfold e_patternProperties. eapply post_bind; [apply quiet_patterned, Q|]. intros [r [g b]] Q1. unfold on_fst in Q1. cbn [Post fst] in *.
    destruct b; auto with quiet.
  - apply Sub. intro t. unfold e_additionalProperties. apply post_any. intro a. apply post_any. intro b. apply post_any. intro todo. now apply quiet_members.
  - apply Sub. intro t. unfold e_unevaluatedProperties. cbv zeta. do 4 (apply post_any; intro). now apply quiet_members.
  - apply Sub. intro t. unfold e_propertyNames. cbv zeta. eapply post_bind; [apply quiet_each, Q|]. intros [r bs] Q1. unfold on_fst in Q1. cbn [Post fst] in *.
    destruct (failing _ _ _); auto with quiet.
  - unfold e_items_2019. destruct (items_of i) as [|j js] eqn:J; [exact Q|]. rewrite <- J. destruct (kw_json k) as [|t|l|]; try exact Q.
    + destruct (w_schema W t); [apply E|]. eapply post_bind; [apply quiet_each_noreset, Q|]. intros r Q1. cbn [Post]. destruct (passed r); auto with quiet.
    + eapply post_bind; [apply quiet_pairwise, Q|]. intros [r bs] Q1. unfold on_fst in Q1. cbn [Post fst] in *.
      destruct (positions false 0 bs); auto with quiet.
  - apply Sub. intro t. unfold e_additionalItems. destruct (sibling _ _ _) as [n|]; [|exact Dis]. destruct (r_annot n) as [| |[]| | |]; try exact Dis. now apply quiet_items_from.
  - apply Sub. intro t. unfold e_unevaluatedItems_2019. cbv zeta. destruct (last_evaluated_2019 _ _); [|exact Dis]. destruct (_ || _); [exact Dis|]. now apply quiet_unevaluated_from.
  - apply Sub. intro t. unfold e_unevaluatedProperties. cbv zeta. do 4 (apply post_any; intro). now apply quiet_members.
  - unfold e_type. cbv zeta. apply post_any. intro b. apply Te.
  - unfold e_enum. apply post_any. intro l. cbn [Post]. auto with quiet.
  - unfold e_const. destruct (kw_json k); try exact I. cbn [Post]. auto with quiet.
  - unfold e_multipleOf. destruct (kw_json k) as [[]| | |]; try exact I; apply Te.
  - unfold e_pattern. destruct (kw_json k) as [[]| | |]; try exact I. destruct (i_val i); try exact I. destruct (w_search _ _ _); [|exact I]. apply Te.
  - unfold e_uniqueItems. destruct (i_val i); try exact I. destruct (truthy _); [|exact Q]. cbn [Post]. auto with quiet.
  - unfold e_maxContains. destruct (sibling _ _ _); [|exact Q]. destruct (is_null _); [exact Q|]. apply post_any. intro n. apply L.
  - unfold e_required. destruct (kw_json k) as [v| | |]; try exact I. apply post_any. intro l. cbn [Post]. auto with quiet.
  - unfold e_dependentRequired. destruct (kw_json k) as [v| | |]; try exact I. apply post_any. intro m. apply post_any. intro. apply Te.
  - unfold e_format. destruct (kw_json k) as [v| | |]; try exact I. cbv zeta.
    assert (N : Post quiet (Ok (noassert (annotate result v)))) by (cbn [Post]; auto with quiet).
    destruct (kw_format k); [|exact N]. destruct v; try exact N. destruct (mem_type _ _); [|exact N]. cbn [Post]. auto with quiet.
  - unfold e_contentSchema. destruct (sibling _ _ _); [exact An|exact Dis].
Qed.

Lemma quiet_keyword k i anc parent result : quiet parent -> quiet result ->
  Post (fun pr => quiet (fst pr) /\ quiet (snd pr)) (eval_keyword W ev k i anc parent result).
Proof.
  intros Qp Q. unfold eval_keyword.
  assert (X : forall e, Post quiet e -> Post (fun pr => quiet (fst pr) /\ quiet (snd pr)) (let* r := e in Ok (parent, r))).
  { intros e H. eapply post_bind; [exact H|]. intros r O. now split. }
  destruct (kw_class k) as [c|].
  - destruct c; try (apply X; now apply quiet_std). unfold e_minContains. destruct (sibling parent i (lit "contains")) as [cn|] eqn:Sc.
    + apply post_any. intro n. destruct (num_of (kw_json k)); [|exact I]. cbv zeta. apply post_told. intro t. cbn [Post fst snd]. split; [|auto with quiet].
      assert (Put : quiet (put_child parent (lit "contains") i (pass_ cn))) by (apply quiet_put; [exact Qp|apply quiet_pass; exact (quiet_sibling _ _ _ _ Qp Sc)]).
      destruct (_ && _); [|exact Qp]. destruct (sibling parent i (lit "maxContains")) as [m|]; [|exact Put]. destruct (r_valid m); [exact Put|exact Qp].
    + now split.
  - apply X. unfold e_annotation. destruct (kw_json k); try exact I. cbn [Post]. auto with quiet.
Qed.

Lemma quiet_keywords s i anc : forall kws node, quiet node -> Post quiet (eval_keywords W ev s kws i anc node).
Proof.
  induction kws as [|[key k] kws IH]; intros node Q; cbn [eval_keywords]; [exact Q|].
  destruct (applicable k i); [|auto]. cbv zeta.
  eapply post_bind; [apply quiet_keyword; [apply quiet_put; [exact Q|]|]; apply quiet_new|].
  intros [p c] [Q1 Q2]. cbn [fst snd] in *. apply IH. auto with quiet.
Qed.
End Quiet.

Theorem evaluate_quiet W fuel : forall s i anc n, quiet n -> Post quiet (evaluate W fuel s i anc n).
Proof.
  induction fuel as [|f IH]; intros s i anc n Q; [exact I|]. cbn [evaluate]. destruct (w_schema W s) as [[|]|kws].
  - exact Q.
  - cbn [Post]. auto with quiet.
  - eapply post_bind; [apply (quiet_keywords W _ IH), Q|]. intros n' Q'. cbn [Post]. unfold finish. destruct (existsb _ _); auto with quiet.
Qed.
Theorem evaluate_root_quiet W fuel s i r : evaluate_root W fuel s i = Ok r -> quiet r.
Proof.
  intro E. unfold evaluate_root in E. pose proof (evaluate_quiet W fuel s i [] (new_root s i)) as H. rewrite E in H.
  apply H. constructor; [reflexivity|constructor].
Qed.
Lemma quiet_below n m : quiet n -> linked_by (fun _ => true) n m -> r_valid m = true -> r_error m = JNull.
Proof.
  intros Q L. induction L as [n _|n key c m _ Hc _ IH]; [now destruct Q|]. apply IH. apply quiet_kids in Q. rewrite Forall_forall in Q. exact (Q _ Hc).
Qed.
