(** Evaluation of guarded schemas comes to an end. *)
From Coq Require Import List Relations Wellfounded.
From Verif Require Export SpecTerm SchemaFacts.
Import ListNotations.
Open Scope nat_scope.

(** A computation that settles on an answer once the fuel suffices. *)
Definition conv {A} (e : nat -> res A) : Prop := exists N r, r <> Fuel /\ forall f, N <= f -> e f = r.

Lemma conv_const {A} (r : res A) : r <> Fuel -> conv (fun _ => r).
Proof. intro H. exists 0, r. auto. Qed.
Lemma conv_ext {A} (e e' : nat -> res A) : (forall f, e f = e' f) -> conv e -> conv e'.
Proof. intros H (N & r & Hr & E). exists N, r. split; [exact Hr|]. intros f Hf. rewrite <- H. auto. Qed.
Lemma conv_bind {A B} (e : nat -> res A) (g : nat -> A -> res B) :
  conv e -> (forall a, conv (fun f => g f a)) -> conv (fun f => bind (e f) (g f)).
Proof.
  intros (N & r & Hr & E) G. destruct r as [a|x|]; [|exists N, (Exn x); split; [discriminate|intros f Hf; now rewrite E]|congruence].
  destruct (G a) as (M & r' & Hr' & E'). exists (max N M), r'. split; [exact Hr'|]. intros f Hf. rewrite E by lia. cbn [bind]. apply E'. lia.
Qed.
Lemma conv_ok {A} (x : A) : conv (fun _ => Ok x).
Proof. now apply conv_const. Qed.
Lemma conv_exn {A} e : conv (fun _ => @Exn A e).
Proof. now apply conv_const. Qed.

(** The size of a value: going down makes it smaller, and the name of a member
    is smaller than the object. *)
Fixpoint jsize (v : json) : nat :=
  match v with
  | JArr l => S (fold_right (fun x n => jsize x + n) 0 l)
  | JObj m => S (fold_right (fun kv n => jsize (snd kv) + n) 0 m)
  | _ => 1
  end.
Lemma jsize_pos v : 1 <= jsize v.
Proof. destruct v; cbn [jsize]; lia. Qed.
Lemma jsize_items l x : In x l -> jsize x < jsize (JArr l).
Proof.
  cbn [jsize]. induction l as [|y l IH]; intros H; [destruct H|]. cbn [fold_right]. destruct H as [->|H]; [lia|]. specialize (IH H). lia.
Qed.
Lemma jsize_members m kv : In kv m -> jsize (snd kv) < jsize (JObj m).
Proof.
  cbn [jsize]. induction m as [|y l IH]; intros H; [destruct H|]. cbn [fold_right]. destruct H as [->|H]; [lia|]. specialize (IH H). lia.
Qed.
Lemma items_from_In p l j : forall k, In j (items_from p k l) -> In (i_val j) l.
Proof. induction l as [|x l IH]; intros k H; [destruct H|]. cbn [items_from] in H. destruct H as [<-|H]; [now left|right; eauto]. Qed.
Lemma items_of_smaller i j : In j (items_of i) -> jsize (i_val j) < jsize (i_val i).
Proof. unfold items_of. destruct (i_val i) eqn:E; intro H; try destruct H. apply items_from_In in H. now apply jsize_items. Qed.
Lemma members_of_smaller i nj : In nj (members_of i) -> jsize (i_val (snd nj)) < jsize (i_val i).
Proof.
  unfold members_of. destruct (i_val i) eqn:E; intro H; try destruct H. apply in_map_iff in H. destruct H as (kv & <- & H). cbn [snd i_val].
  now apply jsize_members.
Qed.
Lemma member_name_smaller i nj s : In nj (members_of i) -> jsize (JStr s) < jsize (i_val i).
Proof. intro H. apply members_of_smaller in H. pose proof (jsize_pos (i_val (snd nj))). cbn [jsize]. lia. Qed.

Section Ends.
Variable W : world.
Notation ev := (evaluate W).
Definition ends (t : sid) (i : inst) : Prop := forall anc n, conv (fun f => ev f t i anc n).

Lemma ends_bool t b i : w_schema W t = SBool b -> ends t i.
Proof.
  intros H anc n. destruct b.
  - exists 1, (Ok n). split; [discriminate|]. intros [|f] Hf; [lia|]. cbn [evaluate]. now rewrite H.
  - exists 1. eexists. split; [|intros [|f] Hf; [lia|]; cbn [evaluate]; rewrite H; reflexivity]. discriminate.
Qed.

Lemma conv_in_child t j result anc key : ends t j -> conv (fun f => in_child (ev f) result anc j key t).
Proof. intro H. unfold in_child. apply conv_bind; [apply H|]. intro c. apply conv_ok. Qed.

Lemma conv_branches i anc l : (forall t, In t l -> ends t i) -> forall k result, conv (fun f => branches (ev f) i anc k l result).
Proof.
  induction l as [|t l IH]; intros H k result; cbn [branches]; [apply conv_ok|].
  apply conv_bind; [apply conv_in_child, H; now left|]. intros [result' c].
  apply conv_bind; [apply IH; intros; apply H; now right|]. intros [r' bs]. apply conv_ok.
Qed.
Lemma conv_dependents i anc m : (forall name t, In (name, t) m -> ends t i) -> forall result, conv (fun f => dependents (ev f) i anc m result).
Proof.
  induction m as [|[name t] m IH]; intros H result; cbn [dependents]; [apply conv_ok|].
  destruct (has_member i name); [|apply IH; intros n u Hu; apply (H n); now right].
  apply conv_bind; [apply conv_in_child, (H name); now left|]. intros [result' c].
  apply conv_bind; [apply IH; intros n u Hu; apply (H n); now right|]. intros [r' [g b]]. apply conv_ok.
Qed.
Lemma conv_pairwise anc : forall js l k result, (forall t j, In t l -> In j js -> ends t j) -> conv (fun f => pairwise (ev f) anc k js l result).
Proof.
  induction js as [|j js IH]; intros l k result H; cbn [pairwise]; [apply conv_ok|]. destruct l as [|t l]; [apply conv_ok|].
  apply conv_bind; [apply conv_in_child, H; now left|]. intros [result' c].
  apply conv_bind; [apply IH; intros; apply H; now right|]. intros [r' bs]. apply conv_ok.
Qed.
Lemma conv_each t anc js : (forall j, In j js -> ends t j) -> forall result, conv (fun f => each (ev f) t anc js result).
Proof.
  induction js as [|j js IH]; intros H result; cbn [each]; [apply conv_ok|].
  apply conv_bind; [apply H; now left|]. intros result'. cbv zeta.
  apply conv_bind; [apply IH; intros; apply H; now right|]. intros [r' bs]. apply conv_ok.
Qed.
Lemma conv_each_noreset t anc js : (forall j, In j js -> ends t j) -> forall result, conv (fun f => each_noreset (ev f) t anc js result).
Proof.
  induction js as [|j js IH]; intros H result; cbn [each_noreset]; [apply conv_ok|].
  apply conv_bind; [apply H; now left|]. intros result'. apply IH; intros; apply H; now right.
Qed.
Lemma conv_named subs anc : forall l result, (forall name t nj, dget name subs = Some t -> In nj l -> ends t (snd nj)) ->
  conv (fun f => named (ev f) subs anc l result).
Proof.
  induction l as [|[name j] l IH]; intros result H; cbn [named]; [apply conv_ok|]. destruct (dget name subs) as [t|] eqn:D.
  - apply conv_bind; [apply conv_in_child, (H name t (name, j) D); now left|]. intros [result' c].
    apply conv_bind; [apply IH; intros n u nj Hu Hj; apply (H n u nj Hu); now right|]. intros [r' [g b]]. apply conv_ok.
  - apply IH. intros n u nj Hu Hj. apply (H n u nj Hu). now right.
Qed.
Lemma conv_matching anc name j : forall subs result, (forall r t, In (r, t) subs -> ends t j) ->
  conv (fun f => matching W (ev f) subs anc name j result).
Proof.
  induction subs as [|[r t] subs IH]; intros result H; cbn [matching]; [apply conv_ok|]. destruct (w_search W r name) as [[|]|].
  - apply conv_bind; [apply conv_in_child, (H r); now left|]. intros [result' c].
    apply conv_bind; [apply IH; intros n u Hu; apply (H n); now right|]. intros [r' [g b]]. apply conv_ok.
  - apply IH. intros n u Hu. apply (H n). now right.
  - apply conv_exn.
Qed.
Lemma conv_patterned subs anc : forall l result, (forall r t nj, In (r, t) subs -> In nj l -> ends t (snd nj)) ->
  conv (fun f => patterned W (ev f) subs anc l result).
Proof.
  induction l as [|[name j] l IH]; intros result H; cbn [patterned]; [apply conv_ok|].
  apply conv_bind; [apply conv_matching; intros r t Hr; apply (H r t (name, j) Hr); now left|]. intros [r1 [g b]].
  apply conv_bind; [apply IH; intros r t nj Hr Hj; apply (H r t nj Hr); now right|]. intros [r2 [g' b']]. apply conv_ok.
Qed.

(** Computations that do not evaluate anything never run out of fuel. *)
Lemma nf_bind {A B} (e : res A) (g : A -> res B) : e <> Fuel -> (forall a, g a <> Fuel) -> bind e g <> Fuel.
Proof. intros He Hg. destruct e; cbn [bind]; [apply Hg|discriminate|congruence]. Qed.
Lemma nf_limit bad x v before after result : limit W bad x v before after result <> Fuel.
Proof. unfold limit. destruct (num_of v); [apply tell_fuel, said_fuel|discriminate]. Qed.
Lemma nf_walk n p : sn_walk W n p <> Fuel.
Proof.
  revert n. induction p as [|k p IH]; intro n; cbn [sn_walk]; [discriminate|]. apply nf_bind; [|intro; apply IH].
  unfold sn_child, sn_index. destruct n as [s|[[]| | |]]; try discriminate.
  all: repeat (match goal with |- context [match ?x with _ => _ end] => destruct x end; cbn [bind]; try discriminate).
Qed.
Lemma nf_node n : schema_node W n <> Fuel.
Proof. apply nf_walk. Qed.
Lemma nf_dynamic f chain : forall checked cur, dynamic_target W f chain checked cur <> Fuel.
Proof.
  induction chain as [|t chain IH]; intros checked cur; cbn [dynamic_target]; [discriminate|]. destruct (w_base W t); [|apply IH].
  destruct (mem_str _ _); [apply IH|]. destruct (w_anchor _ _ _); [|apply IH]. apply nf_bind; [|intro; apply IH].
  unfold has_dynamic_anchor. destruct (w_schema W _); discriminate.
Qed.
Lemma nf_recursive chain : forall cur, recursive_target W chain cur <> Fuel.
Proof.
  induction chain as [|t chain IH]; intros cur; cbn [recursive_target]; [discriminate|]. apply nf_bind; [|intro; apply IH].
  unfold has_recursive_anchor. destruct (w_schema W _); discriminate.
Qed.
Lemma nf_last l : forall z, last_evaluated z l <> Fuel.
Proof. induction l as [|a l IH]; intro z; [discriminate|]. destruct a as [|[]|[]| | |]; cbn [last_evaluated]; try discriminate; apply IH. Qed.
Lemma nf_union l : union_annots l <> Fuel.
Proof. induction l as [|[] l IH]; cbn [union_annots]; try discriminate. apply nf_bind; [exact IH|discriminate]. Qed.
Lemma nf_any patterns name : any_search W patterns name <> Fuel.
Proof. induction patterns as [|r rs IH]; cbn [any_search]; [discriminate|]. destruct (w_search W r name) as [[|]|]; try discriminate; auto. Qed.
Lemma nf_additional known patterns l : additional W known patterns l <> Fuel.
Proof.
  induction l as [|[name j] l IH]; cbn [additional]; [discriminate|]. destruct (mem_str name known); [exact IH|].
  apply nf_bind; [apply nf_any|]. intro m. apply nf_bind; [exact IH|discriminate].
Qed.
Lemma nf_names parent i key : sibling_names W parent i key <> Fuel.
Proof.
  unfold sibling_names. destruct (sibling parent i key); [|discriminate]. apply nf_bind; [apply nf_node|].
  intros [|[]]; discriminate.
Qed.
Lemma nf_iterated v : iterated v <> Fuel.
Proof. destruct v as [[]| | |]; discriminate. Qed.
Lemma nf_nodes v : iterated_nodes v <> Fuel.
Proof. destruct v as [| | |[]| |[]]; discriminate. Qed.
Lemma nf_items v : iterated_items v <> Fuel.
Proof. destruct v as [| | |[]|[]|]; discriminate. Qed.
Lemma nf_dependents i m : missing_dependents i m <> Fuel.
Proof.
  induction m as [|[name l] m IH]; cbn [missing_dependents]; [discriminate|]. destruct (has_member i name); [|exact IH].
  apply nf_bind; [apply nf_nodes|]. intro. apply nf_bind; [exact IH|discriminate].
Qed.
Lemma nf_len a : annot_len a <> Fuel.
Proof. destruct a; discriminate. Qed.
Lemma additional_In known patterns l l' : additional W known patterns l = Ok l' -> forall nj, In nj l' -> In nj l.
Proof.
  revert l'. induction l as [|[name j] l IH]; intros l' E nj Hj; cbn [additional] in E; [injection E as <-; exact Hj|].
  destruct (mem_str name known); [right; eauto|]. destruct (any_search W patterns name) as [m| |]; cbn [bind] in E; try discriminate.
  destruct (additional W known patterns l) as [rest| |]; cbn [bind] in E; try discriminate. injection E as <-.
  destruct m; [right; eauto|]. destruct Hj as [<-|Hj]; [now left|right; eauto].
Qed.
Lemma unskipped_In skip l : forall k kj, In kj (unskipped skip k l) -> In (snd kj) l.
Proof.
  induction l as [|j l IH]; intros k kj H; cbn [unskipped] in H; [destruct H|]. destruct (mem_json _ _); [right; eauto|].
  destruct H as [<-|H]; [now left|right; eauto].
Qed.
Lemma skipn_In {A} n (l : list A) a : In a (skipn n l) -> In a l.
Proof. intro H. rewrite <- (firstn_skipn n l). apply in_or_app. now right. Qed.

(** The choices that dynamic references can make. *)
Lemma dynamic_target_In f chain t : forall checked cur, dynamic_target W f chain checked cur = Ok t ->
  t = cur \/ exists b, w_anchor W b f = Some t /\ declares_dynamic W t f = true.
Proof.
  induction chain as [|u chain IH]; intros checked cur E; cbn [dynamic_target] in E; [injection E as <-; now left|].
  destruct (w_base W u) as [b|]; [|eauto]. destruct (mem_str b checked); [eauto|]. destruct (w_anchor W b f) as [found|] eqn:Ha; [|eauto].
  destruct (has_dynamic_anchor W found f) as [yes| |] eqn:Hy; cbn [bind] in E; try discriminate.
  destruct (IH _ _ E) as [->|H]; [|now right]. destruct yes; [|now left]. right. exists b. split; [exact Ha|].
  exact (has_dynamic_anchor_declares _ _ _ _ Hy).
Qed.
Lemma recursive_target_In chain t : forall cur, recursive_target W chain cur = Ok t -> t = cur \/ declares_recursive W t = true.
Proof.
  induction chain as [|u chain IH]; intros cur E; cbn [recursive_target] in E; [injection E as <-; now left|].
  destruct (has_recursive_anchor W u) as [yes| |] eqn:Hy; cbn [bind] in E; try discriminate.
  destruct (IH _ E) as [->|H]; [|now right]. destruct yes; [|now left]. right. exact (has_recursive_anchor_declares _ _ _ Hy).
Qed.

Section Keyword.
Variable s : sid.
Variable kws : list (pystr * keyword).
Variable i : inst.
Hypothesis Hs : w_schema W s = SObj kws.
Hypothesis Here : forall t, in_place W s t -> ends t i.
Hypothesis Below : forall t j, jsize (i_val j) < jsize (i_val i) -> ends t j.

Lemma conv_items_from start t anc result : conv (fun f => e_items_from (ev f) start t i anc result).
Proof.
  unfold e_items_from. apply conv_bind; [|intros [r bs]; apply conv_ok]. apply conv_each. intros j Hj. apply Below, items_of_smaller.
  exact (skipn_In _ _ _ Hj).
Qed.
Lemma conv_unevaluated_from last skip t anc result : conv (fun f => e_unevaluated_from (ev f) last skip t i anc result).
Proof.
  unfold e_unevaluated_from. cbv zeta. apply conv_bind; [|intros [r bs]; apply conv_ok]. apply conv_each. intros j Hj.
  apply in_map_iff in Hj. destruct Hj as (kj & <- & Hj). apply Below, items_of_smaller. apply unskipped_In in Hj. exact (skipn_In _ _ _ Hj).
Qed.
Lemma conv_members todo t anc result : (forall nj, In nj todo -> In nj (members_of i)) -> conv (fun f => e_members (ev f) todo t anc result).
Proof.
  intro H. unfold e_members. apply conv_bind; [|intros [r bs]; apply conv_ok]. apply conv_each. intros j Hj.
  apply in_map_iff in Hj. destruct Hj as (nj & <- & Hj). apply Below, members_of_smaller, H, Hj.
Qed.

Lemma conv_std key k c anc parent result : In (key, k) kws -> kw_class k = Std c ->
  conv (fun f => eval_std W (ev f) k c i anc parent result).
Proof.
  intros Hk Hc. assert (Sub : forall g, (forall t, kw_json k = KSub t -> conv (fun f => g f t)) -> conv (fun f => with_sub (kw_json k) (g f))).
  { intros g H. unfold with_sub. destruct (kw_json k) as [| t | |]; try apply conv_exn. now apply H. }
  assert (Subs : forall g, (forall t, (forall x, In x t -> kw_json k = KSubs t) -> conv (fun f => g f t)) -> conv (fun f => with_subs (kw_json k) (g f))).
  { intros g H. unfold with_subs. destruct (kw_json k) as [[| | |[|]| |]| | t |] eqn:E; try apply conv_exn; apply H; [intros x []|auto]. }
  assert (Pref : forall g, (forall t, conv (fun f => g f t)) -> conv (fun f => with_prefix (kw_json k) i (g f))).
  { intros g H. unfold with_prefix. destruct (kw_json k) as [[| | |t| |]| | t |]; try apply conv_exn; try apply H. destruct t, (items_of i); try apply conv_exn; apply H. }
  assert (Subm : forall g, (forall t, kw_json k = KSubm t -> conv (fun f => g f t)) -> conv (fun f => with_subm (kw_json k) (g f))).
  { intros g H. unfold with_subm. destruct (kw_json k) as [| | | t]; try apply conv_exn. now apply H. }
  assert (L : forall bad x before after, conv (fun _ => limit W bad x (kw_json k) before after result)).
  { intros. apply conv_const. apply nf_limit. }
  assert (An : conv (fun _ => e_annotation (kw_json k) result)) by (apply conv_const; destruct (kw_json k); discriminate).
  destruct c; cbn [eval_std]; try apply conv_ok; try apply L; try apply An.
  - (* $ref *) unfold e_ref. destruct (kw_ref k) as [t|] eqn:Hr; [|apply conv_exn]. apply conv_bind; [|intro; apply conv_ok].
    apply Here. eapply ip_ref; eauto.
  - (* $dynamicRef *) unfold e_dynamicRef. destruct (kw_ref k) as [t|] eqn:Hr; [|apply conv_exn].
    assert (St : in_place W s t) by (eapply ip_ref; eauto).
    destruct (kw_dynamic k) eqn:D.
    + destruct (dynamic_target W (kw_fragment k) (r_schema result :: anc) [] t) as [u|e|] eqn:T; cbn [bind]; [|apply conv_exn|exfalso; exact (nf_dynamic _ _ _ _ T)].
      apply conv_bind; [|intro; apply conv_ok]. apply Here. destruct (dynamic_target_In _ _ _ _ _ T) as [->|(b & Ha & Hd)]; [exact St|].
      eapply ip_dynamic; eauto.
    + cbn [bind]. apply conv_bind; [|intro; apply conv_ok]. now apply Here.
  - (* $recursiveRef *) unfold e_recursiveRef. destruct (kw_ref k) as [t|] eqn:Hr; [|apply conv_exn].
    assert (St : in_place W s t) by (eapply ip_ref; eauto).
    destruct (has_recursive_anchor W t) as [a|e|] eqn:A; cbn [bind]; [|apply conv_exn|unfold has_recursive_anchor in A; destruct (w_schema W t); discriminate].
    destruct a.
    + destruct (recursive_target W (r_schema result :: anc) t) as [u|e|] eqn:T; cbn [bind]; [|apply conv_exn|exfalso; exact (nf_recursive _ _ T)].
      apply conv_bind; [|intro; apply conv_ok]. apply Here. destruct (recursive_target_In _ _ _ T) as [->|Hd]; [exact St|].
      eapply ip_recursive; eauto.
    + cbn [bind]. apply conv_bind; [|intro; apply conv_ok]. now apply Here.
  - (* allOf *) apply Subs. intros l Hl. unfold e_allOf. apply conv_bind; [|intros [r bs]; apply conv_ok].
    apply conv_branches. intros t Ht. apply Here. eapply ip_list; eauto.
  - apply Subs. intros l Hl. unfold e_anyOf. apply conv_bind; [|intros [r bs]; apply conv_ok].
    apply conv_branches. intros t Ht. apply Here. eapply ip_list; eauto.
  - apply Subs. intros l Hl. unfold e_oneOf. apply conv_bind; [|intros [r bs]; apply conv_ok].
    apply conv_branches. intros t Ht. apply Here. eapply ip_list; eauto.
  - (* not *) apply Sub. intros t Ht. unfold e_not. apply conv_bind; [|intro; apply conv_ok]. apply Here. eapply ip_single; eauto.
  - apply Sub. intros t Ht. unfold e_if. apply conv_bind; [|intro; apply conv_ok]. apply Here. eapply ip_single; eauto.
  - apply Sub. intros t Ht. unfold e_branch. destruct (sibling parent i _) as [n|]; [|apply conv_ok]. destruct (Bool.eqb _ _); [|apply conv_ok].
    apply Here. eapply ip_single; eauto.
  - apply Sub. intros t Ht. unfold e_branch. destruct (sibling parent i _) as [n|]; [|apply conv_ok]. destruct (Bool.eqb _ _); [|apply conv_ok].
    apply Here. eapply ip_single; eauto 6.
  - apply Subm. intros m Hm. unfold e_dependentSchemas. apply conv_bind; [|intros [r [g b]]; apply conv_ok].
    apply conv_dependents. intros name t Ht. apply Here. eapply ip_dependent; eauto.
  - apply Pref. intro l. unfold e_prefixItems. apply conv_bind; [|intros [r bs]; apply conv_ok].
    apply conv_pairwise. intros t j _ Hj. now apply Below, items_of_smaller.
  - apply Sub. intros t Ht. unfold e_items. destruct (sibling parent i _) as [n|]; [|apply conv_items_from].
    destruct (schema_node W n) as [sn|e|] eqn:N; cbn [bind]; [|apply conv_exn|exfalso; exact (nf_node _ N)].
    destruct sn as [|[]]; try apply conv_exn. apply conv_items_from.
  - apply Sub. intros t Ht. unfold e_unevaluatedItems. cbv zeta.
    destruct (last_evaluated _ _) as [[z|]|e|] eqn:N; cbn [bind]; [|apply conv_ok|apply conv_exn|exfalso; exact (nf_last _ _ N)].
    destruct (_ || _); [apply conv_ok|]. destruct (union_annots _) as [sk|e|] eqn:U; cbn [bind]; [|apply conv_exn|exfalso; exact (nf_union _ U)].
    apply conv_unevaluated_from.
  - apply Sub. intros t Ht. unfold e_contains. apply conv_bind; [|intros [r bs]; apply conv_ok]. apply conv_each. intros j Hj. now apply Below, items_of_smaller.
  - apply Subm. intros m Hm. unfold e_properties. apply conv_bind; [|intros [r [g b]]; apply conv_ok]. apply conv_named.
    intros name t nj _ Hj. now apply Below, members_of_smaller.
  - apply Subm. intros m Hm. unfold e_patternProperties. apply conv_bind; [|intros [r [g b]]; apply conv_ok]. apply conv_patterned.
    intros name t nj _ Hj. now apply Below, members_of_smaller.
  - apply Sub. intros t Ht. unfold e_additionalProperties.
    destruct (sibling_names W parent i _) as [a|e|] eqn:N; cbn [bind]; [|apply conv_exn|exfalso; exact (nf_names _ _ _ N)]. clear N.
    destruct (sibling_names W parent i _) as [b|e|] eqn:N; cbn [bind]; [|apply conv_exn|exfalso; exact (nf_names _ _ _ N)].
    destruct (additional _ _ _ _) as [todo|e|] eqn:A; cbn [bind]; [|apply conv_exn|exfalso; exact (nf_additional _ _ _ A)].
    apply conv_members. exact (additional_In _ _ _ _ A).
  - apply Sub. intros t Ht. unfold e_unevaluatedProperties. cbv zeta.
    do 4 (destruct (union_annots _) as [?|?|] eqn:?U; cbn [bind]; [|apply conv_exn|exfalso; eapply nf_union; eassumption]; clear U).
    apply conv_members. intros nj Hj. apply filter_In in Hj. tauto.
  - apply Sub. intros t Ht. unfold e_propertyNames. cbv zeta. apply conv_bind; [|intros [r bs]; apply conv_ok]. apply conv_each. intros j Hj.
    apply in_map_iff in Hj. destruct Hj as (nj & <- & Hj). apply in_map_iff in Hj. destruct Hj as (nj' & <- & Hj). apply Below.
    cbn [snd i_val]. exact (member_name_smaller _ _ _ Hj).
  - (* items, 2019 *) unfold e_items_2019. destruct (items_of i) as [|j js] eqn:J; [apply conv_ok|]. rewrite <- J.
    destruct (kw_json k) as [|t|l|]; try apply conv_ok.
    + destruct (w_schema W t) eqn:Ht; [exact (ends_bool _ _ _ Ht _ _)|]. apply conv_bind; [|intro; apply conv_ok].
      apply conv_each_noreset. intros j' Hj. now apply Below, items_of_smaller.
    + apply conv_bind; [|intros [r bs]; apply conv_ok]. apply conv_pairwise. intros t j' _ Hj. now apply Below, items_of_smaller.
  - apply Sub. intros t Ht. unfold e_additionalItems. destruct (sibling _ _ _) as [n|]; [|apply conv_ok]. destruct (r_annot n) as [| |[]| | |]; try apply conv_ok.
    apply conv_items_from.
  - apply Sub. intros t Ht. unfold e_unevaluatedItems_2019. cbv zeta. destruct (last_evaluated_2019 _ _); [|apply conv_ok].
    destruct (_ || _); [apply conv_ok|]. apply conv_unevaluated_from.
  - apply Sub. intros t Ht. unfold e_unevaluatedProperties. cbv zeta.
    do 4 (destruct (union_annots _) as [?|?|] eqn:?U; cbn [bind]; [|apply conv_exn|exfalso; eapply nf_union; eassumption]; clear U).
    apply conv_members. intros nj Hj. apply filter_In in Hj. tauto.
  - (* type *) apply conv_const. unfold e_type. cbv zeta. apply nf_bind; [|intro; apply tell_fuel, said_fuel]. destruct (mem_str _ _); [discriminate|].
    destruct (i_val i) as [| |n| | |]; try discriminate. destruct (mem_str _ _); [|discriminate]. destruct n; discriminate.
  - apply conv_const. unfold e_enum. apply nf_bind; [apply nf_iterated|discriminate].
  - apply conv_const. unfold e_const. destruct (kw_json k) as [[]| | |]; discriminate.
  - apply conv_const. unfold e_multipleOf. assert (D : forall v, (let* a := Text.json_dumps (writer W) (i_val i) in let* b := Text.json_dumps (writer W) v in Ok (lit "Invalid operation: " ++ a ++ lit " % " ++ b)) <> Fuel) by (intro; apply nf_bind; [apply dumps_fuel|intro; apply nf_bind; [apply dumps_fuel|discriminate]]).
    destruct (kw_json k) as [[]| | |]; try discriminate; try apply tell_fuel, D. apply tell_fuel. destruct (invalid_operation _ _ _); [|apply said_fuel]. apply nf_bind; [apply dumps_fuel|]. intro. apply nf_bind; [apply dumps_fuel|discriminate].
  - apply conv_const. unfold e_pattern. destruct (kw_json k) as [[]| | |]; try discriminate. destruct (i_val i); try discriminate. destruct (w_search _ _ _); [apply tell_fuel, said_fuel|discriminate].
  - apply conv_const. unfold e_uniqueItems. destruct (i_val i); try discriminate. destruct (truthy _); discriminate.
  - apply conv_const. unfold e_maxContains. destruct (sibling _ _ _); [|discriminate]. destruct (is_null _); [discriminate|].
    apply nf_bind; [apply nf_len|]. intro. apply nf_limit.
  - apply conv_const. unfold e_required. destruct (kw_json k) as [v| | |]; try discriminate. apply nf_bind; [apply nf_nodes|discriminate].
  - apply conv_const. unfold e_dependentRequired. destruct (kw_json k) as [v| | |]; try discriminate. apply nf_bind; [apply nf_items|]. intro. apply nf_bind; [apply nf_dependents|]. intro. apply tell_fuel, nf_bind; [apply missing_fuel|discriminate].
  - apply conv_const. unfold e_format. destruct (kw_json k) as [v| | |]; try discriminate. cbv zeta. destruct (kw_format k); [|discriminate].
    destruct v; try discriminate. destruct (mem_type _ _); discriminate.
  - unfold e_contentSchema. destruct (sibling _ _ _); [exact An|apply conv_ok].
Qed.

Lemma conv_keyword key k anc parent result : In (key, k) kws -> conv (fun f => eval_keyword W (ev f) k i anc parent result).
Proof.
  intro Hk. unfold eval_keyword. destruct (kw_class k) as [c|] eqn:Hc.
  - assert (X : conv (fun f => let* r := eval_std W (ev f) k c i anc parent result in Ok (parent, r))).
    { apply conv_bind; [exact (conv_std key k c anc parent result Hk Hc)|intro; apply conv_ok]. }
    destruct c; try exact X. apply conv_const. unfold e_minContains. destruct (sibling _ _ _); [|discriminate].
    apply nf_bind; [destruct (is_null _); [discriminate|apply nf_len]|]. intro. destruct (num_of _); [|discriminate]. cbv zeta. apply nf_bind; [apply tell_fuel, said_fuel|discriminate].
  - apply conv_bind; [|intro; apply conv_ok]. apply conv_const. destruct (kw_json k); discriminate.
Qed.

Lemma conv_keywords anc : forall l node, incl l kws -> conv (fun f => eval_keywords W (ev f) s l i anc node).
Proof.
  induction l as [|[key k] l IH]; intros node H; cbn [eval_keywords]; [apply conv_ok|].
  assert (Hl : incl l kws) by (intros x Hx; apply H; now right).
  destruct (applicable k i); [|now apply IH]. cbv zeta. apply conv_bind; [apply (conv_keyword key), H; now left|].
  intros [p c]. now apply IH.
Qed.
End Keyword.

Lemma conv_S {A} (e : nat -> res A) : conv (fun f => e (S f)) -> conv e.
Proof. intros (N & r & Hr & E). exists (S N), r. split; [exact Hr|]. intros [|f] Hf; [lia|]. apply E. lia. Qed.

Theorem evaluate_ends : (forall s, Acc (fun t s => in_place W s t) s) -> forall s i, ends s i.
Proof.
  intro Hacc. assert (X : forall z i, jsize (i_val i) < z -> forall s, ends s i).
  { induction z as [|z IHz]; intros i Hz; [lia|]. intro s. induction (Hacc s) as [s _ IHs]. intros anc n.
    apply conv_S. cbn [evaluate]. destruct (w_schema W s) as [b|kws] eqn:Hs; [destruct b; apply conv_ok|].
    apply conv_bind; [|intro; apply conv_ok]. apply (conv_keywords s kws i Hs).
    - intros t Ht. apply IHs. exact Ht.
    - intros t j Hj. apply IHz. lia.
    - apply incl_refl. }
  intros s i. exact (X (S (jsize (i_val i))) i (Nat.lt_succ_diag_r _) s).
Qed.

(** In a finite world without cycles every chain of references ends. *)
Lemma guarded_Acc : finite_world W -> guarded W -> forall s, Acc (fun t s => in_place W s t) s.
Proof.
  intros [N Hf] Hg.
  assert (Out : forall s t, in_place W s t -> s < N).
  { intros s t H. destruct (Nat.lt_ge_cases s N) as [L|L]; [exact L|]. destruct (Hf s L) as [b Hb]. destruct H; congruence. }
  assert (X : forall k seen s, NoDup seen -> (forall u, In u seen -> u < N /\ clos_trans _ (in_place W) u s) -> N <= length seen + k ->
              Acc (fun t s => in_place W s t) s).
  { induction k as [|k IH]; intros seen s Hn Hu Hl; constructor; intros t Ht; pose proof (Out _ _ Ht) as Hs.
    - exfalso. assert (Hn' : NoDup (s :: seen)).
      { constructor; [|exact Hn]. intro I. destruct (Hu _ I) as [_ C]. exact (Hg s C). }
      assert (L : length (s :: seen) <= length (seq 0 N)).
      { apply NoDup_incl_length; [exact Hn'|]. intros u [<-|I]; apply in_seq; [lia|]. destruct (Hu _ I). lia. }
      rewrite seq_length in L. cbn [length] in L. unfold sid in *. lia.
    - apply (IH (s :: seen)).
      + constructor; [|exact Hn]. intro I. destruct (Hu _ I) as [_ C]. exact (Hg s C).
      + intros u [<-|I]; [split; [exact Hs|now apply t_step]|]. destruct (Hu _ I) as [L C]. split; [exact L|].
        eapply t_trans; [exact C|now apply t_step].
      + cbn [length]. lia. }
  intro s. apply (X N [] s); [constructor|intros u []|cbn; lia].
Qed.
End Ends.

(** ** References that lead round in circles. *)
Lemma eval_keywords_each W ev s i : forall kws anc n n', eval_keywords W ev s kws i anc n = Ok n' ->
  forall key k, In (key, k) kws -> applicable k i = true -> exists anc' p c r, eval_keyword W ev k i anc' p c = Ok r.
Proof.
  induction kws as [|[key' k'] kws IH]; intros anc n n' E key k Hk Ha; [destruct Hk|]. cbn [eval_keywords] in E. destruct Hk as [[= -> ->]|Hk].
  - rewrite Ha in E. cbv zeta in E. destruct (eval_keyword W ev k i _ _ _) as [r| |] eqn:Ek; cbn [bind] in E; try discriminate. eauto.
  - destruct (applicable k' i); [|eauto]. cbv zeta in E. destruct (eval_keyword W ev k' i _ _ _) as [[p c]| |]; cbn [bind] in E; try discriminate. eauto.
Qed.

(** If every schema of [P] has a $ref to a schema of [P], none of them ever
    gives a result. *)
Theorem circular_never W (P : sid -> Prop) :
  (forall s, P s -> exists kws key k t, w_schema W s = SObj kws /\ In (key, k) kws /\ kw_class k = Std KRef /\ kw_ref k = Some t /\ P t) ->
  forall fuel s i anc n r, P s -> evaluate W fuel s i anc n <> Ok r.
Proof.
  intros H. induction fuel as [|f IH]; intros s i anc n r Hp; [discriminate|]. cbn [evaluate].
  destruct (H s Hp) as (kws & key & k & t & Hs & Hk & Hc & Hr & Ht). rewrite Hs.
  destruct (eval_keywords W (evaluate W f) s kws i anc n) as [n'| |] eqn:E; cbn [bind]; try discriminate. exfalso.
  assert (Ha : applicable k i = true) by (unfold applicable; rewrite Hc; cbn; now destruct (type_of (i_val i))).
  destruct (eval_keywords_each _ _ _ _ _ _ _ _ E key k Hk Ha) as (anc' & p & c & r' & Ek). unfold eval_keyword in Ek. rewrite Hc in Ek. cbn [eval_std] in Ek.
  unfold e_ref in Ek. rewrite Hr in Ek. destruct (evaluate W f t i anc' c) as [c'| |] eqn:Ec; cbn [bind] in Ek; try discriminate.
  exact (IH t i anc' c c' Ht Ec).
Qed.
(** If in addition that reference comes first, evaluation goes on for ever. *)
Theorem circular_forever W (P : sid -> Prop) :
  (forall s, P s -> exists kws key k t, w_schema W s = SObj ((key, k) :: kws) /\ kw_class k = Std KRef /\ kw_ref k = Some t /\ P t) ->
  forall fuel s i anc n, P s -> evaluate W fuel s i anc n = Fuel.
Proof.
  intros H. induction fuel as [|f IH]; intros s i anc n Hp; [reflexivity|]. cbn [evaluate].
  destruct (H s Hp) as (kws & key & k & t & Hs & Hc & Hr & Ht). rewrite Hs. cbn [eval_keywords].
  assert (Ha : applicable k i = true) by (unfold applicable; rewrite Hc; cbn; now destruct (type_of (i_val i))). rewrite Ha. cbv zeta.
  unfold eval_keyword. rewrite Hc. cbn [eval_std]. unfold e_ref. rewrite Hr, IH by exact Ht. reflexivity.
Qed.
