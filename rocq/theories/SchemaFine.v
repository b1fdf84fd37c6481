(** The trees that evaluation returns: no node is marked as discarded, and
    every invalid node has an error or an invalid child. *)
From Coq Require Import List Lia.
From Verif Require Export SchemaFacts SpecOutput.
Import ListNotations.
Open Scope nat_scope.

Definition Post {A} (P : A -> Prop) (e : res A) : Prop := match e with Ok a => P a | _ => True end.
Lemma post_bind {A B} (P : A -> Prop) (Q : B -> Prop) e g : Post P e -> (forall a, P a -> Post Q (g a)) -> Post Q (bind e g).
Proof. destruct e; cbn; auto. Qed.
Lemma post_any {A B} (Q : B -> Prop) (e : res A) g : (forall a, Post Q (g a)) -> Post Q (bind e g).
Proof. destruct e; cbn; auto. Qed.
Lemma post_weaken {A} (P Q : A -> Prop) e : (forall a, P a -> Q a) -> Post P e -> Post Q e.
Proof. destruct e; cbn; auto. Qed.

Lemma post_told {A} (P : A -> Prop) b msg r g : (forall t, Post P (g (check b t r))) -> Post P (bind (tell b msg r) g).
Proof. intro H. destruct (tell b msg r) as [r'| |] eqn:E; cbn [bind]; try exact I. apply tell_ok in E. destruct E as [t ->]. apply H. Qed.
Lemma post_tell (P : rnode -> Prop) b msg r : (forall t, P (check b t r)) -> Post P (tell b msg r).
Proof. intro H. destruct (tell b msg r) as [r'| |] eqn:E; try exact I. apply tell_ok in E. destruct E as [t ->]. apply H. Qed.
Lemma post_limit (P : rnode -> Prop) W bad x v before after r : (forall b t, P (check b t r)) -> Post P (limit W bad x v before after r).
Proof. intro H. destruct (limit W bad x v before after r) as [r'| |] eqn:E; try exact I. apply limit_tells in E. destruct E as (y & t & _ & ->). apply H. Qed.

(** Valid, or with an error, or with an invalid child at a path in [Q]. *)
Definition explP (Q : path -> Prop) (n : rnode) : Prop :=
  r_valid n = true \/ r_error n <> JNull \/ Exists (fun kc => Q (snd (fst kc)) /\ r_valid (snd kc) = false) (r_children n).
Definition anywhere (p : path) : Prop := True.
Inductive fine : rnode -> Prop :=
| fine_i n : r_discard n = false -> explP anywhere n ->
    Forall (fun kc => fine (snd kc) /\ r_inst (snd kc) = snd (fst kc)) (r_children n) -> fine n.
Definition kids (n : rnode) : Prop := Forall (fun kc => fine (snd kc) /\ r_inst (snd kc) = snd (fst kc)) (r_children n).

Lemma fine_pass c : fine c -> fine (pass_ c).
Proof. intros [n D X C]. constructor; [exact D|now left|exact C]. Qed.

(** The fields that evaluating into a node leaves alone. *)
Definition kept (n n' : rnode) : Prop := r_discard n' = r_discard n /\ r_inst n' = r_inst n /\ r_assert n' = r_assert n /\ r_relpath n' = r_relpath n.
Definition untouched (n n' : rnode) : Prop := kept n n' /\ r_valid n' = r_valid n /\ r_error n' = r_error n.
Lemma kept_refl n : kept n n. Proof. repeat split. Qed.
Lemma kept_trans a b c : kept a b -> kept b c -> kept a c.
Proof. intros (A & B & C & D) (A' & B' & C' & D'). repeat split; congruence. Qed.
Lemma untouched_refl n : untouched n n. Proof. repeat split. Qed.
Lemma untouched_trans a b c : untouched a b -> untouched b c -> untouched a c.
Proof. intros (A & B & C) (A' & B' & C'). split; [exact (kept_trans _ _ _ A A')|]. split; congruence. Qed.

Lemma expl_valid Q n : r_valid n = true -> explP Q n. Proof. now left. Qed.
Lemma expl_more (Q Q' : path -> Prop) n : (forall p, Q p -> Q' p) -> explP Q n -> explP Q' n.
Proof. intros H [A|[A|A]]; [now left|right; now left|]. right. right. eapply Exists_impl; [|exact A]. intros kc [B C]. auto. Qed.
Lemma expl_anywhere Q n : explP Q n -> explP anywhere n.
Proof. apply expl_more. constructor. Qed.

Lemma kids_put n key p c : kids n -> fine c -> r_inst c = p -> kids (with_children n (cput (key, p) c (r_children n))).
Proof. intros H F E. unfold kids. cbn [with_children r_children]. apply Forall_cput; [|exact H]. now split. Qed.
Lemma Forall_cdrop (P : (pystr * path) * rnode -> Prop) k m : Forall P m -> Forall P (cdrop k m).
Proof. induction 1 as [|[k' v] m H F IH]; cbn [cdrop]; [constructor|]. destruct (ckey_eqb k k'); [exact F|now constructor]. Qed.

Lemma In_cdrop_other k p k' p' c m : p <> p' -> In ((k, p), c) m -> In ((k, p), c) (cdrop (k', p') m).
Proof.
  intros N. induction m as [|[k2 v] m IH]; intro H; [destruct H|]. cbn [cdrop]. destruct (ckey_eqb_spec (k', p') k2) as [<-|].
  - destruct H as [[= -> -> _]|H]; [congruence|exact H].
  - destruct H as [H|H]; [now left|right; auto].
Qed.
Lemma In_cput_other k p k' p' c v m : p <> p' -> In ((k, p), c) m -> In ((k, p), c) (cput (k', p') v m).
Proof.
  intros N. induction m as [|[k2 v2] m IH]; intro H; [destruct H|]. cbn [cput]. destruct (ckey_eqb_spec (k', p') k2) as [<-|].
  - destruct H as [[= -> -> _]|H]; [congruence|now right].
  - destruct H as [H|H]; [now left|right; auto].
Qed.

(** What evaluating a keyword leaves in its own result node. *)
Definition over (n n' : rnode) : Prop := kids n' /\ r_inst n' = r_inst n /\ (r_discard n' = true \/ explP anywhere n').
Lemma kids_close n key i c0 c : kids n -> over c0 c -> r_inst c0 = i_path i -> kids (close_child n key i c).
Proof.
  intros H (K & E & D) E0. unfold close_child. destruct (r_discard c) eqn:Dc.
  - unfold kids. cbn [with_children r_children]. now apply Forall_cdrop.
  - unfold put_child. apply kids_put; [exact H| |congruence]. constructor; [exact Dc| |exact K]. destruct D as [D|D]; [congruence|exact D].
Qed.
Lemma close_untouched n key i c : untouched n (close_child n key i c).
Proof. unfold close_child. destruct (r_discard c); repeat split. Qed.

Section Fine.
Variable W : world.
Variable ev : sid -> inst -> list sid -> rnode -> res rnode.
Hypothesis Hev : forall s i anc n Q, kids n -> explP Q n -> ~ Q (i_path i) ->
  Post (fun n' => kids n' /\ kept n n' /\ explP (fun p => Q p \/ p = i_path i) n') (ev s i anc n).

Lemma ev_valid s i anc n : kids n -> r_valid n = true -> Post (fun n' => kids n' /\ kept n n' /\ explP anywhere n') (ev s i anc n).
Proof.
  intros K V. eapply post_weaken; [|apply (Hev s i anc n (fun _ => False) K (expl_valid _ _ V)); auto].
  intros n' (A & B & C). split; [exact A|]. split; [exact B|]. exact (expl_anywhere _ _ C).
Qed.

Lemma fine_in_child result anc i key s : kids result ->
  Post (fun rc => kids (fst rc) /\ untouched result (fst rc)) (in_child ev result anc i key s).
Proof.
  intro K. unfold in_child. set (c0 := new_child result key i (r_schema result)).
  apply (post_bind (fun c => over c0 c)); [|intros c O; cbn [Post fst]; split; [exact (kids_close _ _ _ c0 c K O eq_refl)|apply close_untouched]].
  eapply post_weaken; [|apply ev_valid; [constructor|reflexivity]]. intros c (A & (D & I & _) & X). split; [exact A|]. split; [exact I|now right].
Qed.

Lemma fine_branches i anc l : forall k result, kids result -> Post (fun rb => kids (fst rb) /\ untouched result (fst rb)) (branches ev i anc k l result).
Proof.
  induction l as [|s l IH]; intros k result K; cbn [branches]; [split; [exact K|apply untouched_refl]|].
  eapply post_bind; [apply fine_in_child, K|]. intros [r c] [K1 U1]. eapply post_bind; [apply IH, K1|]. intros [r2 bs] [K2 U2]. cbn [Post fst] in *.
  split; [exact K2|exact (untouched_trans _ _ _ U1 U2)].
Qed.
Lemma fine_dependents i anc m : forall result, kids result -> Post (fun rb => kids (fst rb) /\ untouched result (fst rb)) (dependents ev i anc m result).
Proof.
  induction m as [|[name s] m IH]; intros result K; cbn [dependents]; [split; [exact K|apply untouched_refl]|]. destruct (has_member i name); [|auto].
  eapply post_bind; [apply fine_in_child, K|]. intros [r c] [K1 U1]. eapply post_bind; [apply IH, K1|]. intros [r2 [g b]] [K2 U2]. cbn [Post fst] in *.
  split; [exact K2|exact (untouched_trans _ _ _ U1 U2)].
Qed.
Lemma fine_pairwise anc : forall js l k result, kids result -> Post (fun rb => kids (fst rb) /\ untouched result (fst rb)) (pairwise ev anc k js l result).
Proof.
  induction js as [|j js IH]; intros l k result K; cbn [pairwise]; [split; [exact K|apply untouched_refl]|]. destruct l as [|s l]; [split; [exact K|apply untouched_refl]|].
  eapply post_bind; [apply fine_in_child, K|]. intros [r c] [K1 U1]. eapply post_bind; [apply IH, K1|]. intros [r2 bs] [K2 U2]. cbn [Post fst] in *.
  split; [exact K2|exact (untouched_trans _ _ _ U1 U2)].
Qed.
Lemma fine_named subs anc : forall l result, kids result -> Post (fun rb => kids (fst rb) /\ untouched result (fst rb)) (named ev subs anc l result).
Proof.
  induction l as [|[name j] l IH]; intros result K; cbn [named]; [split; [exact K|apply untouched_refl]|]. destruct (dget name subs) as [s|]; [|auto].
  eapply post_bind; [apply fine_in_child, K|]. intros [r c] [K1 U1]. eapply post_bind; [apply IH, K1|]. intros [r2 [g b]] [K2 U2]. cbn [Post fst] in *.
  split; [exact K2|exact (untouched_trans _ _ _ U1 U2)].
Qed.
Lemma fine_matching anc name j : forall subs result, kids result -> Post (fun rb => kids (fst rb) /\ untouched result (fst rb)) (matching W ev subs anc name j result).
Proof.
  induction subs as [|[r s] subs IH]; intros result K; cbn [matching]; [split; [exact K|apply untouched_refl]|]. destruct (w_search W r name) as [[|]|]; [|auto|exact I].
  eapply post_bind; [apply fine_in_child, K|]. intros [r1 c] [K1 U1]. eapply post_bind; [apply IH, K1|]. intros [r2 [g b]] [K2 U2]. cbn [Post fst] in *.
  split; [exact K2|exact (untouched_trans _ _ _ U1 U2)].
Qed.
Lemma fine_patterned subs anc : forall l result, kids result -> Post (fun rb => kids (fst rb) /\ untouched result (fst rb)) (patterned W ev subs anc l result).
Proof.
  induction l as [|[name j] l IH]; intros result K; cbn [patterned]; [split; [exact K|apply untouched_refl]|].
  eapply post_bind; [apply fine_matching, K|]. intros [r1 [g b]] [K1 U1]. eapply post_bind; [apply IH, K1|]. intros [r2 [g' b']] [K2 U2]. cbn [Post fst] in *.
  split; [exact K2|exact (untouched_trans _ _ _ U1 U2)].
Qed.
Lemma fine_each s anc : forall l result, kids result -> r_valid result = true -> r_assert result = true ->
  Post (fun rb => kids (fst rb) /\ kept result (fst rb) /\ r_valid (fst rb) = true) (each ev s anc l result).
Proof.
  induction l as [|j l IH]; intros result K V A; cbn [each]; [split; [exact K|]; split; [apply kept_refl|exact V]|].
  eapply post_bind; [apply ev_valid; [exact K|exact V]|]. intros n (K1 & T1 & X1). cbv zeta.
  assert (Y : kids (if passed n then n else pass_ n) /\ kept result (if passed n then n else pass_ n) /\ r_valid (if passed n then n else pass_ n) = true).
  { destruct (passed n) eqn:P; [|repeat split; try apply T1; exact K1]. split; [exact K1|]. split; [exact T1|].
    unfold passed in P. destruct T1 as (_ & _ & E & _). rewrite E, A in P. now rewrite orb_false_r in P. }
  destruct Y as (K2 & T2 & V2). eapply post_bind; [apply IH; [exact K2|exact V2|]|].
  - destruct T2 as (_ & _ & E & _). congruence.
  - intros [r bs] (K3 & T3 & V3). cbn [Post fst] in *. split; [exact K3|]. split; [exact (kept_trans _ _ _ T2 T3)|exact V3].
Qed.
Lemma fine_each_noreset s anc : forall l result (Q : path -> Prop), kids result -> explP Q result ->
  NoDup (map i_path l) -> (forall j, In j l -> ~ Q (i_path j)) ->
  Post (fun r => kids r /\ kept result r /\ explP anywhere r) (each_noreset ev s anc l result).
Proof.
  induction l as [|j l IH]; intros result Q K X N D; cbn [each_noreset]; [split; [exact K|]; split; [apply kept_refl|exact (expl_anywhere _ _ X)]|].
  eapply post_bind; [apply (Hev s j anc result Q K X), D; now left|]. intros n (K1 & T1 & X1).
  inversion N as [|? ? Nj Nl]; subst. eapply post_weaken; [|apply (IH n _ K1 X1 Nl)].
  - intros r (K2 & T2 & X2). split; [exact K2|]. split; [exact (kept_trans _ _ _ T1 T2)|exact X2].
  - intros j' Hj [H|H]; [exact (D j' (or_intror Hj) H)|]. apply Nj. rewrite <- H. now apply in_map.
Qed.

(** A node as a keyword gets it. *)
Definition start (n : rnode) : Prop := kids n /\ r_valid n = true /\ r_assert n = true.

Lemma over_untouched result r : start result -> kids r -> untouched result r -> over result r.
Proof. intros (_ & V & _) K (T & E & _). split; [exact K|]. split; [apply T|]. right. apply expl_valid. congruence. Qed.
Lemma over_fail result r e : e <> JNull -> kids r -> r_inst r = r_inst result -> over result (fail r e).
Proof. intros He K E. split; [exact K|]. split; [exact E|]. right. right. now left. Qed.
Lemma over_valid result r : kids r -> r_inst r = r_inst result -> r_valid r = true -> over result r.
Proof. intros K E V. split; [exact K|]. split; [exact E|]. right. now apply expl_valid. Qed.
Lemma over_discard result r : kids r -> r_inst r = r_inst result -> over result (discard r).
Proof. intros K E. split; [exact K|]. split; [exact E|]. now left. Qed.
Lemma over_ev result r : kids r /\ kept result r /\ explP anywhere r -> over result r.
Proof. intros (K & (_ & E & _) & X). split; [exact K|]. split; [exact E|now right]. Qed.
Lemma over_check result b msg : start result -> over result (check b msg result).
Proof.
  intros S. unfold check. destruct b; [apply over_untouched; [exact S|apply S|apply untouched_refl]|]. apply over_fail; [discriminate|apply S|reflexivity].
Qed.
Lemma over_self result : start result -> over result result.
Proof. intro S. apply over_untouched; [exact S|apply S|apply untouched_refl]. Qed.

Lemma fine_items_from start_ s i anc result : start result -> Post (over result) (e_items_from ev start_ s i anc result).
Proof.
  intros (K & V & A). unfold e_items_from. eapply post_bind; [apply fine_each; assumption|]. intros [r bs] (K1 & (_ & E & _) & V1). cbn [Post fst] in *.
  destruct (positions false start_ bs); [apply over_valid; assumption|apply over_fail; [discriminate|assumption|assumption]].
Qed.
Lemma fine_unevaluated_from last skip s i anc result : start result -> Post (over result) (e_unevaluated_from ev last skip s i anc result).
Proof.
  intros (K & V & A). unfold e_unevaluated_from. cbv zeta. eapply post_bind; [apply fine_each; assumption|]. intros [r bs] (K1 & (_ & E & _) & V1). cbn [Post fst] in *.
  destruct (failing _ _ _); [apply over_valid; assumption|apply over_fail; [discriminate|assumption|assumption]].
Qed.
Lemma fine_members todo s anc result : start result -> Post (over result) (e_members ev todo s anc result).
Proof.
  intros (K & V & A). unfold e_members. eapply post_bind; [apply fine_each; assumption|]. intros [r bs] (K1 & (_ & E & _) & V1). cbn [Post fst] in *.
  destruct (failing _ _ _); [apply over_valid; assumption|apply over_fail; [discriminate|assumption|assumption]].
Qed.
Lemma items_from_paths p l : forall k, NoDup (map i_path (items_from p k l)) /\ forall q, In q (map i_path (items_from p k l)) -> exists m, k <= m /\ q = p ++ [str_of_nat m].
Proof.
  induction l as [|v l IH]; intro k; cbn [items_from map i_path]; [split; [constructor|intros q []]|].
  destruct (IH (S k)) as [N H]. split.
  - constructor; [|exact N]. intro X. destruct (H _ X) as (m & Hm & E). apply app_inv_head in E. injection E as E. apply str_of_nat_inj in E. lia.
  - intros q [<-|X]; [exists k; auto|]. destruct (H _ X) as (m & Hm & E). exists m. split; [lia|exact E].
Qed.

Lemma fine_std k c i anc parent result : start result -> Post (over result) (eval_std W ev k c i anc parent result).
Proof.
  intros S. pose proof S as (K & V & A).
  assert (Sub : forall g, (forall t, Post (over result) (g t)) -> Post (over result) (with_sub (kw_json k) g)).
  { intros g H. unfold with_sub. destruct (kw_json k); try exact I. apply H. }
  assert (Subs : forall g, (forall t, Post (over result) (g t)) -> Post (over result) (with_subs (kw_json k) g)).
  { intros g H. unfold with_subs. destruct (kw_json k) as [[| | |[|]| |]| | |]; try exact I; apply H. }
  assert (Pref : forall g, (forall t, Post (over result) (g t)) -> Post (over result) (with_prefix (kw_json k) i g)).
  { intros g H. unfold with_prefix. destruct (kw_json k) as [[| | |t| |]| | |]; try exact I; try apply H. destruct t, (items_of i); try exact I; apply H. }
  assert (Subm : forall g, (forall t, Post (over result) (g t)) -> Post (over result) (with_subm (kw_json k) g)).
  { intros g H. unfold with_subm. destruct (kw_json k); try exact I. apply H. }
  assert (L : forall bad x before after, Post (over result) (limit W bad x (kw_json k) before after result)).
  { intros. apply post_limit. intros. apply over_check, S. }
  assert (Te : forall b msg, Post (over result) (tell b msg result)) by (intros; apply post_tell; intros; apply over_check, S).
  assert (An : Post (over result) (e_annotation (kw_json k) result)).
  { unfold e_annotation. destruct (kw_json k); try exact I. cbn [Post]. apply over_valid; [exact K|reflexivity|exact V]. }
  assert (E : forall t, Post (fun r => kids r /\ kept result r /\ explP anywhere r) (ev t i anc result)) by (intro t; now apply ev_valid).
  assert (Eo : forall t, Post (over result) (ev t i anc result)) by (intro t; eapply post_weaken; [apply over_ev|apply E]).
  assert (Er : forall t, Post (over result) (let* r := ev t i anc result in Ok (refschema r t))).
  { intro t. eapply post_bind; [apply Eo|]. intros r O. exact O. }
  assert (Self : Post (over result) (Ok result)) by (apply over_self, S).
  assert (Dis : Post (over result) (Ok (discard result))) by (apply over_discard; [exact K|reflexivity]).
  assert (Br : forall l (f : rnode * list bool -> rnode), (forall r bs, kids r -> untouched result r -> over result (f (r, bs))) ->
     Post (over result) (let* rb := branches ev i anc 0 l result in Ok (f rb))).
  { intros l f H. eapply post_bind; [apply fine_branches, K|]. intros [r bs] [K1 U1]. cbn [Post]. now apply H. }
  destruct c; cbn [eval_std]; try exact Self; try apply L; try exact An.
  - unfold e_ref. destruct (kw_ref k); [apply Er|exact I].
  - unfold e_dynamicRef. destruct (kw_ref k); [|exact I]. apply post_any. intro t. apply Er.
  - unfold e_recursiveRef. destruct (kw_ref k); [|exact I]. apply post_any. intro a. apply post_any. intro t. apply Er.
  - apply Subs. intro l. unfold e_allOf. eapply post_bind; [apply fine_branches, K|]. intros [r bs] [K1 U1]. cbn [Post fst] in *.
    destruct (forallb _ _); [now apply over_untouched|apply over_fail; [discriminate|exact K1|apply U1]].
  - apply Subs. intro l. unfold e_anyOf. eapply post_bind; [apply fine_branches, K|]. intros [r bs] [K1 U1]. cbn [Post fst] in *.
    destruct (existsb _ _); [now apply over_untouched|apply over_fail; [discriminate|exact K1|apply U1]].
  - apply Subs. intro l. unfold e_oneOf. eapply post_bind; [apply fine_branches, K|]. intros [r bs] [K1 U1]. cbn [Post fst] in *.
    destruct (Nat.eqb _ _); [now apply over_untouched|apply over_fail; [discriminate|exact K1|apply U1]].
  - apply Sub. intro t. unfold e_not. eapply post_bind; [apply E|]. intros r (K1 & (_ & I1 & _) & X1). cbn [Post]. destruct (passed r).
    + apply over_fail; [discriminate|exact K1|exact I1].
    + apply over_valid; [exact K1|exact I1|reflexivity].
  - apply Sub. intro t. unfold e_if. eapply post_bind; [apply Eo|]. intros r O. exact O.
  - apply Sub. intro t. unfold e_branch. destruct (sibling _ _ _); [|exact Dis]. destruct (Bool.eqb _ _); [apply Eo|exact Dis].
  - apply Sub. intro t. unfold e_branch. destruct (sibling _ _ _); [|exact Dis]. destruct (Bool.eqb _ _); [apply Eo|exact Dis].
  - apply Subm. intro m. unfold e_dependentSchemas. eapply post_bind; [apply fine_dependents, K|]. intros [r [g b]] [K1 U1]. cbn [Post fst] in *.
    destruct b; [|apply over_fail; [discriminate|exact K1|apply U1]]. apply over_valid; [exact K1|apply U1|]. cbn. destruct U1 as (_ & X & _). congruence.
  - apply Pref. intro l. unfold e_prefixItems. eapply post_bind; [apply fine_pairwise, K|]. intros [r bs] [K1 U1]. cbn [Post fst] in *.
    destruct (positions false 0 bs); [|apply over_fail; [discriminate|exact K1|apply U1]]. destruct bs; [now apply over_untouched|].
    apply over_valid; [exact K1|apply U1|]. cbn. destruct U1 as (_ & X & _). congruence.
  - apply Sub. intro t. unfold e_items. destruct (sibling _ _ _); [|now apply fine_items_from]. apply post_any. intros [|[]]; try exact I. now apply fine_items_from.
  - apply Sub. intro t. unfold e_unevaluatedItems. cbv zeta. apply post_any. intros [z|]; [|exact Dis]. destruct (_ || _); [exact Dis|]. apply post_any. intro sk.
    now apply fine_unevaluated_from.
  - apply Sub. intro t. unfold e_contains. eapply post_bind; [apply fine_each; assumption|]. intros [r bs] (K1 & (_ & E1 & _) & V1). cbv zeta. cbn [Post fst] in *.
    destruct (positions true 0 bs); [apply over_fail; [discriminate|exact K1|exact E1]|apply over_valid; [exact K1|exact E1|exact V1]].
  - apply Subm. intro m. unfold e_properties. eapply post_bind; [apply fine_named, K|]. intros [r [g b]] [K1 U1]. cbn [Post fst] in *.
    destruct b; [|apply over_fail; [discriminate|exact K1|apply U1]]. apply over_valid; [exact K1|apply U1|]. cbn. destruct U1 as (_ & X & _). congruence.
  - apply Subm. intro m. unfold e_patternProperties. eapply post_bind; [apply fine_patterned, K|]. intros [r [g b]] [K1 U1]. cbn [Post fst] in *.
    destruct b; [|apply over_fail; [discriminate|exact K1|apply U1]]. apply over_valid; [exact K1|apply U1|]. cbn. destruct U1 as (_ & X & _). congruence.
  - apply Sub. intro t. unfold e_additionalProperties. apply post_any. intro a. apply post_any. intro b. apply post_any. intro todo. now apply fine_members.
  - apply Sub. intro t. unfold e_unevaluatedProperties. cbv zeta. do 4 (apply post_any; intro). now apply fine_members.
  - apply Sub. intro t. unfold e_propertyNames. cbv zeta. eapply post_bind; [apply fine_each; assumption|]. intros [r bs] (K1 & (_ & E1 & _) & V1). cbn [Post fst] in *.
    destruct (failing _ _ _); [apply over_valid; assumption|apply over_fail; [discriminate|assumption|assumption]].
  - unfold e_items_2019. destruct (items_of i) as [|j js] eqn:J; [exact Self|]. rewrite <- J. destruct (kw_json k) as [|t|l|]; try exact Self.
    + destruct (w_schema W t); [apply Eo|]. eapply post_bind.
      * apply (fine_each_noreset t anc (items_of i) result (fun _ => False) K (expl_valid _ _ V)); [|auto].
        unfold items_of. destruct (i_val i); try constructor. apply items_from_paths.
      * intros r O. cbn [Post]. apply over_ev in O. destruct (passed r); exact O.
    + eapply post_bind; [apply fine_pairwise, K|]. intros [r bs] [K1 U1]. cbn [Post fst] in *.
      destruct (positions false 0 bs); [|apply over_fail; [discriminate|exact K1|apply U1]].
      apply over_valid; [exact K1|apply U1|]. cbn. destruct U1 as (_ & X & _). congruence.
  - apply Sub. intro t. unfold e_additionalItems. destruct (sibling _ _ _) as [n|]; [|exact Dis]. destruct (r_annot n) as [| |[]| | |]; try exact Dis. now apply fine_items_from.
  - apply Sub. intro t. unfold e_unevaluatedItems_2019. cbv zeta. destruct (last_evaluated_2019 _ _); [|exact Dis]. destruct (_ || _); [exact Dis|]. now apply fine_unevaluated_from.
  - apply Sub. intro t. unfold e_unevaluatedProperties. cbv zeta. do 4 (apply post_any; intro). now apply fine_members.
  - unfold e_type. cbv zeta. apply post_any. intro b. apply Te.
  - unfold e_enum. apply post_any. intro l. apply over_check, S.
  - unfold e_const. destruct (kw_json k); try exact I. apply over_check, S.
  - unfold e_multipleOf. destruct (kw_json k) as [[]| | |]; try exact I; apply Te.
  - unfold e_pattern. destruct (kw_json k) as [[]| | |]; try exact I. destruct (i_val i); try exact I. destruct (w_search _ _ _); [|exact I]. apply Te.
  - unfold e_uniqueItems. destruct (i_val i); try exact I. destruct (truthy _); [apply over_check, S|exact Self].
  - unfold e_maxContains. destruct (sibling _ _ _); [|exact Self]. destruct (is_null _); [exact Self|]. apply post_any. intro n. apply L.
  - unfold e_required. destruct (kw_json k) as [v| | |]; try exact I. apply post_any. intro l. apply over_check, S.
  - unfold e_dependentRequired. destruct (kw_json k) as [v| | |]; try exact I. apply post_any. intro m. apply post_any. intro. apply Te.
  - unfold e_format. destruct (kw_json k) as [v| | |]; try exact I. cbv zeta.
    assert (S' : start (annotate result v)) by (split; [exact K|split; [exact V|exact A]]).
    assert (N : Post (over result) (Ok (noassert (annotate result v)))) by (apply over_valid; [exact K|reflexivity|exact V]).
    destruct (kw_format k); [|exact N]. destruct v; try exact N. destruct (mem_type _ _); [|exact N]. exact (over_check _ _ _ S').
  - unfold e_contentSchema. destruct (sibling _ _ _); [exact An|exact Dis].
Qed.

Lemma fine_keyword k i anc parent result : kids parent -> start result ->
  Post (fun pr => (kids (fst pr) /\ untouched parent (fst pr) /\
                   forall k0 p c, p <> i_path i -> In ((k0, p), c) (r_children parent) -> In ((k0, p), c) (r_children (fst pr))) /\ over result (snd pr))
       (eval_keyword W ev k i anc parent result).
Proof.
  intros Kp S. unfold eval_keyword.
  assert (X : forall e, Post (over result) e -> Post (fun pr => (kids (fst pr) /\ untouched parent (fst pr) /\
                   forall k0 p c, p <> i_path i -> In ((k0, p), c) (r_children parent) -> In ((k0, p), c) (r_children (fst pr))) /\ over result (snd pr))
                   (let* r := e in Ok (parent, r))).
  { intros e H. eapply post_bind; [exact H|]. intros r O. cbn [Post fst snd]. split; [|exact O]. split; [exact Kp|]. split; [apply untouched_refl|auto]. }
  destruct (kw_class k) as [c|].
  - destruct c; try (apply X; now apply fine_std). unfold e_minContains. destruct (sibling parent i (lit "contains")) as [cn|] eqn:Sc.
    + apply post_any. intro n. destruct (num_of (kw_json k)); [|exact I]. cbv zeta. apply post_told. intro t. cbn [Post fst snd]. split; [|apply over_check, S].
      assert (Same : kids parent /\ untouched parent parent /\
        forall k0 p c, p <> i_path i -> In ((k0, p), c) (r_children parent) -> In ((k0, p), c) (r_children parent)).
      { split; [exact Kp|]. split; [apply untouched_refl|auto]. }
      assert (Put : kids (put_child parent (lit "contains") i (pass_ cn)) /\ untouched parent (put_child parent (lit "contains") i (pass_ cn)) /\
        forall k0 p c, p <> i_path i -> In ((k0, p), c) (r_children parent) -> In ((k0, p), c) (r_children (put_child parent (lit "contains") i (pass_ cn)))).
      { unfold sibling in Sc. apply cget_In in Sc. destruct (proj1 (Forall_forall _ _) Kp _ Sc) as [F E]. cbn [fst snd] in F, E.
        split; [|split; [repeat split|]].
        - apply kids_put; [exact Kp|exact (fine_pass _ F)|exact E].
        - intros k0 p c Hp H. unfold put_child. cbn [with_children r_children]. now apply In_cput_other. }
      destruct (_ && _); [|exact Same]. destruct (sibling parent i (lit "maxContains")) as [m|]; [|exact Put]. destruct (r_valid m); [exact Put|exact Same].
    + cbn [Post fst snd]. split; [|apply over_self, S]. split; [exact Kp|]. split; [apply untouched_refl|auto].
  - apply X. unfold e_annotation. destruct (kw_json k); try exact I. destruct S as (K & V & A). apply over_valid; [exact K|reflexivity|exact V].
Qed.

Lemma fine_keywords s i anc : forall kws node, kids node ->
  Post (fun n' => kids n' /\ untouched node n' /\
                  forall k0 p c, p <> i_path i -> In ((k0, p), c) (r_children node) -> In ((k0, p), c) (r_children n'))
       (eval_keywords W ev s kws i anc node).
Proof.
  induction kws as [|[key k] kws IH]; intros node K; cbn [eval_keywords]; [split; [exact K|]; split; [apply untouched_refl|auto]|].
  destruct (applicable k i); [|auto]. cbv zeta. set (c0 := new_child node key i s).
  assert (F0 : fine c0) by (constructor; [reflexivity|now left|constructor]).
  assert (Kp : kids (put_child node key i c0)) by (apply kids_put; [exact K|exact F0|reflexivity]).
  eapply post_bind; [apply (fine_keyword k i (r_schema node :: anc) _ c0 Kp); repeat split; constructor|].
  intros [p c] [(K1 & U1 & P1) O]. cbn [fst snd] in *. eapply post_weaken; [|apply IH, (kids_close _ _ _ c0 c K1 O eq_refl)].
  intros n' (K2 & U2 & P2). split; [exact K2|]. split.
  - apply (untouched_trans _ _ _ (untouched_trans node (put_child node key i c0) p ltac:(repeat split) U1)).
    exact (untouched_trans _ _ _ (close_untouched p key i c) U2).
  - intros k0 q c' Hq H. apply P2; [exact Hq|].
    assert (H' : In ((k0, q), c') (r_children p)).
    { apply P1; [exact Hq|]. unfold put_child. cbn [with_children r_children]. now apply In_cput_other. }
    unfold close_child. destruct (r_discard c); cbn [with_children put_child r_children]; [now apply In_cdrop_other|now apply In_cput_other].
Qed.
End Fine.

Theorem evaluate_fine W fuel : forall s i anc n Q, kids n -> explP Q n -> ~ Q (i_path i) ->
  Post (fun n' => kids n' /\ kept n n' /\ explP (fun p => Q p \/ p = i_path i) n') (evaluate W fuel s i anc n).
Proof.
  induction fuel as [|f IH]; intros s i anc n Q K X D; [exact I|]. cbn [evaluate]. destruct (w_schema W s) as [[|]|kws].
  - cbn [Post]. split; [exact K|]. split; [apply kept_refl|]. eapply expl_more; [|exact X]. auto.
  - cbn [Post]. split; [exact K|]. split; [repeat split|]. right. left. discriminate.
  - eapply post_bind; [apply (fine_keywords W _ IH), K|]. intros n' (K' & (T & V & E) & P). cbn [Post]. unfold finish.
    destruct (existsb _ (r_children n')) eqn:Ex.
    + split; [exact K'|]. split; [exact T|]. right. right. apply existsb_exists in Ex. destruct Ex as ([[k0 p] c] & Hc & H). cbn [snd] in H.
      apply andb_true_iff in H. destruct H as [H1 H2]. apply Exists_exists. exists ((k0, p), c). split; [exact Hc|]. cbn [fst snd].
      unfold kids in K'. rewrite Forall_forall in K'. destruct (K' _ Hc) as [_ L]. cbn [fst snd] in L. split.
      * right. destruct (strs_eqb_spec (r_inst c) (i_path i)); [congruence|discriminate].
      * unfold passed in H1. destruct (r_valid c); [discriminate|reflexivity].
    + split; [exact K'|]. split; [exact T|]. destruct X as [X|[X|X]]; [left; congruence|right; left; congruence|]. right. right.
      apply Exists_exists in X. destruct X as ([[k0 p] c] & Hc & H1 & H2). cbn [fst snd] in *. apply Exists_exists. exists ((k0, p), c). cbn [fst snd]. split; [|auto].
      apply P; [|exact Hc]. intros ->. auto.
Qed.

Theorem evaluate_root_fine W fuel s i r : evaluate_root W fuel s i = Ok r -> fine r.
Proof.
  intro E. unfold evaluate_root in E. pose proof (evaluate_fine W fuel s i [] (new_root s i) (fun _ => False)) as H. rewrite E in H.
  destruct H as (K & (D & _) & X); [constructor|now left|auto|]. constructor; [exact D|exact (expl_anywhere _ _ X)|exact K].
Qed.

(** The tree in the terms of SpecOutput. *)
Lemma fine_below n m : fine n -> linked_by (fun _ => true) n m -> fine m.
Proof.
  intros F L. induction L as [|n key c m _ Hc _ IH]; [exact F|]. apply IH. inversion F as [? _ _ C]; subst. rewrite Forall_forall in C. exact (proj1 (C _ Hc)).
Qed.
Lemma fine_undiscarded n : fine n -> undiscarded n.
Proof. intros F m L. apply (fine_below _ _ F) in L. now inversion L. Qed.
Lemma fine_explained n : fine n -> explained n.
Proof.
  intros F m L. apply (fine_below _ _ F) in L. clear F n. induction m as [m IH] using rnode_induction. intro V.
  inversion L as [? _ X C]; subst. destruct X as [X|[X|X]]; [congruence| |].
  - exists m. split; [|exact X]. constructor. now rewrite V.
  - apply Exists_exists in X. destruct X as ([key c] & Hc & _ & Vc). cbn [snd] in Vc. rewrite Forall_forall in IH, C.
    destruct (IH _ Hc (proj1 (C _ Hc)) Vc) as (e & Le & He). exists e. split; [|exact He]. eapply lb_below; [|exact Hc|exact Le]. now rewrite V.
Qed.

Lemma evaluate_root_relpath W fuel s i r : evaluate_root W fuel s i = Ok r -> r_relpath r = [].
Proof.
  intro E. unfold evaluate_root in E. pose proof (evaluate_fine W fuel s i [] (new_root s i) (fun _ => False)) as H. rewrite E in H.
  destruct H as (_ & (_ & _ & _ & R) & _); [constructor|now left|auto|]. exact R.
Qed.

(** An object schema is invalid only
    through one of its keywords. *)
Lemma evaluate_root_child W fuel s i r kws : evaluate_root W fuel s i = Ok r -> w_schema W s = SObj kws -> r_valid r = false ->
  exists key c, In (key, c) (r_children r) /\ r_valid c = false.
Proof.
  intros E Hs V. pose proof (evaluate_root_fine W fuel s i r E) as F. unfold evaluate_root in E. destruct fuel as [|f]; [discriminate|].
  cbn [evaluate] in E. rewrite Hs in E.
  assert (K0 : kids (new_root s i)) by constructor.
  pose proof (fine_keywords W (evaluate W f) (evaluate_fine W f) s i [] kws (new_root s i) K0) as P.
  destruct (eval_keywords W (evaluate W f) s kws i [] (new_root s i)) as [n'| |]; cbn [bind] in E; [|discriminate|discriminate].
  destruct P as (_ & (_ & _ & Er) & _). cbn in Er. injection E as <-. inversion F as [? _ X _]; subst. unfold finish in *.
  destruct X as [X|[X|X]]; [congruence|exfalso; apply X; destruct (existsb _ _); [reflexivity|exact Er]|].
  apply Exists_exists in X. destruct X as ([key c] & Hc & _ & Vc). exists key, c. split; [exact Hc|exact Vc].
Qed.
