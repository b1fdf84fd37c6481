(** The trees that evaluation returns: every node stands for a place in the
    schema it belongs to. *)
From Coq Require Import List Lia.
From Verif Require Export SchemaFine SchemaSim ValueFacts.
Import ListNotations.
Open Scope nat_scope.

(** ** What evaluating into a node leaves alone, whatever the schemas. *)
Definition same (n n' : rnode) : Prop :=
  r_key n' = r_key n /\ r_path n' = r_path n /\ r_relpath n' = r_relpath n /\ r_schema n' = r_schema n /\ r_inst n' = r_inst n.
Lemma same_refl n : same n n. Proof. repeat split. Qed.
Lemma same_trans a b c : same a b -> same b c -> same a c.
Proof. intros (A & B & C & D & E) (A' & B' & C' & D' & E'). repeat split; congruence. Qed.

Section Same.
Variable W : world.
Variable ev : sid -> inst -> list sid -> rnode -> res rnode.
Hypothesis Hev : forall s i anc n, Post (same n) (ev s i anc n).
Definition same1 {B} n (rb : rnode * B) : Prop := same n (fst rb).

Lemma same_close n key i c : same n (close_child n key i c).
Proof. unfold close_child. destruct (r_discard c); repeat split. Qed.
Lemma same_op n n' n'' : same n n' -> same n' n'' -> same n n''. Proof. apply same_trans. Qed.
Lemma same_then {A} n n' (f : A -> rnode) e : same n n' -> Post (fun a => same n' (f a)) e -> Post (fun a => same n (f a)) e.
Proof. intros S. apply post_weaken. intro a. now apply same_trans. Qed.
Lemma same_in_child result anc i key s : Post (same1 result) (in_child ev result anc i key s).
Proof. unfold in_child. apply post_any. intro c. apply same_close. Qed.
Lemma same_branches i anc l : forall k result, Post (same1 result) (branches ev i anc k l result).
Proof.
  induction l as [|s l IH]; intros k result; cbn [branches]; [apply same_refl|].
  eapply post_bind; [apply same_in_child|]. intros [r c] S1. eapply post_bind; [apply IH|]. intros [r2 bs] S2. exact (same_trans _ _ _ S1 S2).
Qed.
Lemma same_dependents i anc m : forall result, Post (same1 result) (dependents ev i anc m result).
Proof.
  induction m as [|[name s] m IH]; intros result; cbn [dependents]; [apply same_refl|]. destruct (has_member i name); [|auto].
  eapply post_bind; [apply same_in_child|]. intros [r c] S1. eapply post_bind; [apply IH|]. intros [r2 [g b]] S2. exact (same_trans _ _ _ S1 S2).
Qed.
Lemma same_pairwise anc : forall js l k result, Post (same1 result) (pairwise ev anc k js l result).
Proof.
  induction js as [|j js IH]; intros l k result; cbn [pairwise]; [apply same_refl|]. destruct l as [|s l]; [apply same_refl|].
  eapply post_bind; [apply same_in_child|]. intros [r c] S1. eapply post_bind; [apply IH|]. intros [r2 bs] S2. exact (same_trans _ _ _ S1 S2).
Qed.
Lemma same_named subs anc : forall l result, Post (same1 result) (named ev subs anc l result).
Proof.
  induction l as [|[name j] l IH]; intros result; cbn [named]; [apply same_refl|]. destruct (dget name subs) as [s|]; [|auto].
  eapply post_bind; [apply same_in_child|]. intros [r c] S1. eapply post_bind; [apply IH|]. intros [r2 [g b]] S2. exact (same_trans _ _ _ S1 S2).
Qed.
Lemma same_matching anc name j : forall subs result, Post (same1 result) (matching W ev subs anc name j result).
Proof.
  induction subs as [|[r s] subs IH]; intros result; cbn [matching]; [apply same_refl|]. destruct (w_search W r name) as [[|]|]; [|auto|exact I].
  eapply post_bind; [apply same_in_child|]. intros [r1 c] S1. eapply post_bind; [apply IH|]. intros [r2 [g b]] S2. exact (same_trans _ _ _ S1 S2).
Qed.
Lemma same_patterned subs anc : forall l result, Post (same1 result) (patterned W ev subs anc l result).
Proof.
  induction l as [|[name j] l IH]; intros result; cbn [patterned]; [apply same_refl|].
  eapply post_bind; [apply same_matching|]. intros [r1 [g b]] S1. eapply post_bind; [apply IH|]. intros [r2 [g' b']] S2. exact (same_trans _ _ _ S1 S2).
Qed.
Lemma same_each s anc : forall l result, Post (same1 result) (each ev s anc l result).
Proof.
  induction l as [|j l IH]; intros result; cbn [each]; [apply same_refl|]. eapply post_bind; [apply Hev|]. intros n S1. cbv zeta.
  eapply post_bind; [apply IH|]. intros [r bs] S2. refine (same_trans _ _ _ S1 (same_trans _ _ _ _ S2)). destruct (passed n); repeat split.
Qed.
Lemma same_each_noreset s anc : forall l result, Post (same result) (each_noreset ev s anc l result).
Proof.
  induction l as [|j l IH]; intros result; cbn [each_noreset]; [apply same_refl|]. eapply post_bind; [apply Hev|]. intros n S1.
  eapply post_weaken; [|apply IH]. intros r S2. exact (same_trans _ _ _ S1 S2).
Qed.
Lemma same_items_from start_ s i anc result : Post (same result) (e_items_from ev start_ s i anc result).
Proof. unfold e_items_from. eapply post_bind; [apply same_each|]. intros [r bs] S1. cbn [Post]. destruct (positions false start_ bs); exact S1. Qed.
Lemma same_unevaluated_from last skip s i anc result : Post (same result) (e_unevaluated_from ev last skip s i anc result).
Proof. unfold e_unevaluated_from. cbv zeta. eapply post_bind; [apply same_each|]. intros [r bs] S1. cbn [Post]. destruct (failing _ _ _); exact S1. Qed.
Lemma same_members todo s anc result : Post (same result) (e_members ev todo s anc result).
Proof. unfold e_members. eapply post_bind; [apply same_each|]. intros [r bs] S1. cbn [Post]. destruct (failing _ _ _); exact S1. Qed.
Lemma same_check b msg n : same n (check b msg n). Proof. destruct b; repeat split. Qed.

Lemma same_std k c i anc parent result : Post (same result) (eval_std W ev k c i anc parent result).
Proof.
  assert (Q : same result result) by apply same_refl.
  assert (Sub : forall g, (forall t, Post (same result) (g t)) -> Post (same result) (with_sub (kw_json k) g)).
  { intros g H. unfold with_sub. destruct (kw_json k); try exact I. apply H. }
  assert (Subs : forall g, (forall t, Post (same result) (g t)) -> Post (same result) (with_subs (kw_json k) g)).
  { intros g H. unfold with_subs. destruct (kw_json k) as [[| | |[|]| |]| | |]; try exact I; apply H. }
  assert (Pref : forall g, (forall t, Post (same result) (g t)) -> Post (same result) (with_prefix (kw_json k) i g)).
  { intros g H. unfold with_prefix. destruct (kw_json k) as [[| | |t| |]| | |]; try exact I; try apply H. destruct t, (items_of i); try exact I; apply H. }
  assert (Subm : forall g, (forall t, Post (same result) (g t)) -> Post (same result) (with_subm (kw_json k) g)).
  { intros g H. unfold with_subm. destruct (kw_json k); try exact I. apply H. }
  assert (L : forall bad x before after, Post (same result) (limit W bad x (kw_json k) before after result)) by (intros; apply post_limit; intros; apply same_check).
  assert (Te : forall b msg, Post (same result) (tell b msg result)) by (intros; apply post_tell; intros; apply same_check).
  assert (An : Post (same result) (e_annotation (kw_json k) result)).
  { unfold e_annotation. destruct (kw_json k); try exact I. repeat split. }
  assert (E : forall t, Post (same result) (ev t i anc result)) by (intro t; now apply Hev).
  assert (Er : forall t, Post (same result) (let* r := ev t i anc result in Ok (refschema r t))).
  { intro t. eapply post_bind; [apply E|]. intros r O. exact O. }
  assert (Dis : Post (same result) (Ok (discard result))) by (repeat split).
  destruct c; cbn [eval_std]; try exact Q; try apply L; try exact An.
  - unfold e_ref. destruct (kw_ref k); [apply Er|exact I].
  - unfold e_dynamicRef. destruct (kw_ref k); [|exact I]. apply post_any. intro t. apply Er.
  - unfold e_recursiveRef. destruct (kw_ref k); [|exact I]. apply post_any. intro a. apply post_any. intro t. apply Er.
  - apply Subs. intro l. unfold e_allOf. eapply post_bind; [apply same_branches|]. intros [r bs] Q1. cbn [Post]. destruct (forallb _ _); exact Q1.
  - apply Subs. intro l. unfold e_anyOf. eapply post_bind; [apply same_branches|]. intros [r bs] Q1. cbn [Post]. destruct (existsb _ _); exact Q1.
  - apply Subs. intro l. unfold e_oneOf. eapply post_bind; [apply same_branches|]. intros [r bs] Q1. cbn [Post]. destruct (Nat.eqb _ _); exact Q1.
  - apply Sub. intro t. unfold e_not. eapply post_bind; [apply E|]. intros r Q1. cbn [Post]. destruct (passed r); exact Q1.
  - apply Sub. intro t. unfold e_if. eapply post_bind; [apply E|]. intros r Q1. exact Q1.
  - apply Sub. intro t. unfold e_branch. destruct (sibling _ _ _); [|exact Dis]. destruct (Bool.eqb _ _); [apply E|exact Dis].
  - apply Sub. intro t. unfold e_branch. destruct (sibling _ _ _); [|exact Dis]. destruct (Bool.eqb _ _); [apply E|exact Dis].
  - apply Subm. intro m. unfold e_dependentSchemas. eapply post_bind; [apply same_dependents|]. intros [r [g b]] Q1. cbn [Post]. destruct b; exact Q1.
  - apply Pref. intro l. unfold e_prefixItems. eapply post_bind; [apply same_pairwise|]. intros [r bs] Q1. cbn [Post].
    destruct (positions false 0 bs); [|exact Q1]. destruct bs; exact Q1.
  - apply Sub. intro t. unfold e_items. destruct (sibling _ _ _); [|now apply same_items_from]. apply post_any. intros [|[]]; try exact I. now apply same_items_from.
  - apply Sub. intro t. unfold e_unevaluatedItems. cbv zeta. apply post_any. intros [z|]; [|exact Dis]. destruct (_ || _); [exact Dis|]. apply post_any. intro sk.
    now apply same_unevaluated_from.
  - apply Sub. intro t. unfold e_contains. eapply post_bind; [apply same_each|]. intros [r bs] Q1. cbv zeta. cbn [Post]. destruct (positions true 0 bs); exact Q1.
  - apply Subm. intro m. unfold e_properties. eapply post_bind; [apply same_named|]. intros [r [g b]] Q1. cbn [Post]. destruct b; exact Q1.
  - apply Subm. intro m. unfold e_patternProperties. eapply post_bind; [apply same_patterned|]. intros [r [g b]] Q1. cbn [Post]. destruct b; exact Q1.
  - apply Sub. intro t. unfold e_additionalProperties. apply post_any. intro a. apply post_any. intro b. apply post_any. intro todo. now apply same_members.
  - apply Sub. intro t. unfold e_unevaluatedProperties. cbv zeta. do 4 (apply post_any; intro). now apply same_members.
  - apply Sub. intro t. unfold e_propertyNames. cbv zeta. eapply post_bind; [apply same_each|]. intros [r bs] Q1. cbn [Post]. destruct (failing _ _ _); exact Q1.
  - unfold e_items_2019. destruct (items_of i) as [|j js] eqn:J; [exact Q|]. rewrite <- J. destruct (kw_json k) as [|t|l|]; try exact Q.
    + destruct (w_schema W t); [apply E|]. eapply post_bind; [apply same_each_noreset|]. intros r Q1. cbn [Post]. destruct (passed r); exact Q1.
    + eapply post_bind; [apply same_pairwise|]. intros [r bs] Q1. cbn [Post]. destruct (positions false 0 bs); exact Q1.
  - apply Sub. intro t. unfold e_additionalItems. destruct (sibling _ _ _) as [n|]; [|exact Dis]. destruct (r_annot n) as [| |[]| | |]; try exact Dis. now apply same_items_from.
  - apply Sub. intro t. unfold e_unevaluatedItems_2019. cbv zeta. destruct (last_evaluated_2019 _ _); [|exact Dis]. destruct (_ || _); [exact Dis|]. now apply same_unevaluated_from.
  - apply Sub. intro t. unfold e_unevaluatedProperties. cbv zeta. do 4 (apply post_any; intro). now apply same_members.
  - unfold e_type. cbv zeta. apply post_any. intro b. apply Te.
  - unfold e_enum. apply post_any. intro l. apply same_check.
  - unfold e_const. destruct (kw_json k); try exact I. apply same_check.
  - unfold e_multipleOf. destruct (kw_json k) as [[]| | |]; try exact I; apply Te.
  - unfold e_pattern. destruct (kw_json k) as [[]| | |]; try exact I. destruct (i_val i); try exact I. destruct (w_search _ _ _); [|exact I]. apply Te.
  - unfold e_uniqueItems. destruct (i_val i); try exact I. destruct (truthy _); [|exact Q]. apply same_check.
  - unfold e_maxContains. destruct (sibling _ _ _); [|exact Q]. destruct (is_null _); [exact Q|]. apply post_any. intro n. apply L.
  - unfold e_required. destruct (kw_json k) as [v| | |]; try exact I. apply post_any. intro l. apply same_check.
  - unfold e_dependentRequired. destruct (kw_json k) as [v| | |]; try exact I. apply post_any. intro m. apply post_any. intro. apply Te.
  - unfold e_format. destruct (kw_json k) as [v| | |]; try exact I. cbv zeta.
    assert (N : Post (same result) (Ok (noassert (annotate result v)))) by (repeat split).
    destruct (kw_format k); [|exact N]. destruct v; try exact N. destruct (mem_type _ _); [|exact N]. cbn [Post]. exact (same_check _ _ (annotate result _)).
  - unfold e_contentSchema. destruct (sibling _ _ _); [exact An|exact Dis].
Qed.

Lemma same_keyword k i anc parent result :
  Post (fun pr => same parent (fst pr) /\ same result (snd pr)) (eval_keyword W ev k i anc parent result).
Proof.
  unfold eval_keyword.
  assert (X : forall e, Post (same result) e -> Post (fun pr => same parent (fst pr) /\ same result (snd pr)) (let* r := e in Ok (parent, r))).
  { intros e H. eapply post_bind; [exact H|]. intros r O. split; [apply same_refl|exact O]. }
  destruct (kw_class k) as [c|].
  - destruct c; try (apply X; now apply same_std). unfold e_minContains. destruct (sibling parent i (lit "contains")) as [cn|] eqn:Sc.
    + apply post_any. intro n. destruct (num_of (kw_json k)); [|exact I]. cbv zeta. apply post_told. intro t. cbn [Post fst snd]. split; [|apply same_check].
      destruct (_ && _); [|apply same_refl]. destruct (sibling parent i (lit "maxContains")) as [m|]; [|repeat split]. destruct (r_valid m); repeat split.
    + split; apply same_refl.
  - apply X. unfold e_annotation. destruct (kw_json k); try exact I. repeat split.
Qed.
Lemma same_keywords s i anc : forall kws node, Post (same node) (eval_keywords W ev s kws i anc node).
Proof.
  induction kws as [|[key k] kws IH]; intros node; cbn [eval_keywords]; [apply same_refl|].
  destruct (applicable k i); [|auto]. cbv zeta.
  eapply post_bind; [apply same_keyword|]. intros [p c] [Q1 Q2]. cbn [fst snd] in *. eapply post_weaken; [|apply IH].
  intros n' S. refine (same_trans _ _ _ (same_trans _ (put_child node key i (new_child node key i s)) _ _ Q1) (same_trans _ _ _ (same_close p key i c) S)). repeat split.
Qed.
End Same.

Theorem evaluate_same W fuel : forall s i anc n, Post (same n) (evaluate W fuel s i anc n).
Proof.
  induction fuel as [|f IH]; intros s i anc n; [exact I|]. cbn [evaluate]. destruct (w_schema W s) as [[|]|kws].
  - apply same_refl.
  - repeat split.
  - eapply post_bind; [apply (same_keywords W _ IH)|]. intros n' Q'. cbn [Post]. unfold finish. destruct (existsb _ _); exact Q'.
Qed.

(** ** A reference of a schema to itself is never done. *)
Definition by_reference (c : stdclass) : bool := match c with KRef | KDynamicRef | KRecursiveRef => true | _ => false end.
(** Where a reference leads. *)
Definition goes (W : world) (k : keyword) (c : stdclass) (chain : list sid) (t : sid) : Prop :=
  exists t0, kw_ref k = Some t0 /\
  match c with
  | KRef => t = t0
  | KDynamicRef => (if kw_dynamic k then dynamic_target W (kw_fragment k) chain [] t0 else Ok t0) = Ok t
  | KRecursiveRef => exists a, has_recursive_anchor W t0 = Ok a /\ (if a then recursive_target W chain t0 else Ok t0) = Ok t
  | _ => False
  end.
Lemma dynamic_twice W f t r : forall checked cur, dynamic_target W f (t :: t :: r) checked cur = dynamic_target W f (t :: r) checked cur.
Proof.
  intros checked cur. cbn [dynamic_target]. destruct (w_base W t) as [b|]; [|reflexivity]. destruct (mem_str b checked) eqn:M; [reflexivity|].
  assert (B : mem_str b (b :: checked) = true) by (unfold mem_str; cbn [existsb]; now rewrite str_eqb_refl).
  destruct (w_anchor W b f) as [found|]; [|now rewrite B]. destruct (has_dynamic_anchor W found f); cbn [bind]; [now rewrite B|reflexivity|reflexivity].
Qed.
Lemma recursive_twice W t r cur : recursive_target W (t :: t :: r) cur = recursive_target W (t :: r) cur.
Proof. cbn [recursive_target]. destruct (has_recursive_anchor W t) as [[|]| |]; reflexivity. Qed.
Lemma goes_twice W k c s r t : goes W k c (s :: r) t -> goes W k c (s :: s :: r) t.
Proof.
  intros (t0 & R & G). exists t0. split; [exact R|]. destruct c; try exact G.
  - now rewrite dynamic_twice.
  - destruct G as (a & A & G). exists a. split; [exact A|]. now rewrite recursive_twice.
Qed.
Lemma goes_fun W k c ch t t' : goes W k c ch t -> goes W k c ch t' -> t = t'.
Proof.
  intros (t0 & R & G) (t0' & R' & G'). assert (t0' = t0) by congruence. subst t0'. destruct c; try contradiction; try congruence.
  destruct G as (a & A & G), G' as (a' & A' & G'). assert (a' = a) by congruence. subst a'. congruence.
Qed.

Section Reference.
Variable W : world.
Variable ev : sid -> inst -> list sid -> rnode -> res rnode.
Lemma reference_post (P : rnode -> Prop) k c i anc parent result : by_reference c = true ->
  (forall t, goes W k c (r_schema result :: anc) t -> Post (fun r => P (refschema r t)) (ev t i anc result)) ->
  Post P (eval_std W ev k c i anc parent result).
Proof.
  intros C H.
  assert (X : forall t, goes W k c (r_schema result :: anc) t -> Post P (let* r := ev t i anc result in Ok (refschema r t))).
  { intros t G. eapply post_bind; [exact (H t G)|]. intros r O. exact O. }
  destruct c; try discriminate; cbn [eval_std].
  - unfold e_ref. destruct (kw_ref k) as [t0|] eqn:R; [|exact I]. apply X. now exists t0.
  - unfold e_dynamicRef. destruct (kw_ref k) as [t0|] eqn:R; [|exact I].
    destruct (if kw_dynamic k then _ else _) as [t| |] eqn:T; cbn [bind]; [|exact I|exact I]. apply X. now exists t0.
  - unfold e_recursiveRef. destruct (kw_ref k) as [t0|] eqn:R; [|exact I]. destruct (has_recursive_anchor W t0) as [a| |] eqn:A; cbn [bind]; [|exact I|exact I].
    destruct (if a then _ else _) as [t| |] eqn:T; cbn [bind]; [|exact I|exact I]. apply X. exists t0. split; [exact R|]. now exists a.
Qed.
End Reference.

Lemma keywords_reach W ev s key k i anc : (forall s i anc n, Post (same n) (ev s i anc n)) -> applicable k i = true ->
  forall kws node, In (key, k) kws ->
  (forall node', same node node' -> Post (fun _ => False) (eval_keyword W ev k i (r_schema node' :: anc) (put_child node' key i (new_child node' key i s)) (new_child node' key i s))) ->
  Post (fun _ => False) (eval_keywords W ev s kws i anc node).
Proof.
  intros Hev A. induction kws as [|[key' k'] kws IH]; intros node H F; [destruct H|]. cbn [eval_keywords]. destruct H as [[= -> ->]|H].
  - rewrite A. cbv zeta. eapply post_bind; [apply F, same_refl|]. intros a [].
  - destruct (applicable k' i); [|auto]. cbv zeta. eapply post_bind; [apply (same_keyword W ev Hev)|]. intros [p c] [S1 S2]. cbn [fst snd] in *.
    apply IH; [exact H|]. intros node' S. apply F.
    refine (same_trans _ _ _ (same_trans _ (put_child node key' i (new_child node key' i s)) _ _ S1) (same_trans _ _ _ (same_close p key' i c) S)). repeat split.
Qed.

Lemma self_reference W key k c kws s : by_reference c = true -> kw_class k = Std c -> w_schema W s = SObj kws -> In (key, k) kws ->
  forall f i anc n, applicable k i = true -> goes W k c (s :: r_schema n :: anc) s -> Post (fun _ => False) (evaluate W f s i anc n).
Proof.
  intros C K Ws H. induction f as [|f IH]; intros i anc n A G; [exact I|]. cbn [evaluate]. rewrite Ws.
  eapply post_bind with (P := fun _ => False); [|intros a []]. eapply keywords_reach; [apply evaluate_same|exact A|exact H|]. intros n' S. unfold eval_keyword. rewrite K.
  assert (E : Post (fun _ => False) (eval_std W (evaluate W f) k c i (r_schema n' :: anc) (put_child n' key i (new_child n' key i s)) (new_child n' key i s))).
  { apply reference_post; [exact C|]. intros t Gt. cbn [r_schema new_child] in Gt. destruct S as (_ & _ & _ & S & _). rewrite S in Gt. rewrite S.
    assert (t = s) by exact (goes_fun _ _ _ _ _ _ Gt G). subst t. apply IH; [exact A|]. cbn [r_schema new_child]. exact (goes_twice _ _ _ _ _ _ G). }
  destruct c; try discriminate C; (eapply post_bind; [exact E|intros a []]).
Qed.

(** ** Places. *)
Section Placed.
Variable W : world.
Definition at_ (n : rnode) (sn : schemanode) : Prop := schema_node W n = Ok sn.
Inductive placed : rnode -> Prop :=
| placed_i n sn : at_ n sn -> Forall (fun kc => placed (snd kc)) (r_children n) -> placed n.
Definition kin (n : rnode) : Prop := Forall (fun kc => placed (snd kc)) (r_children n).
Definition done (n n' : rnode) : Prop := kin n' /\ same n n'.

Lemma at_same n n' sn : same n n' -> at_ n sn -> at_ n' sn.
Proof. intros (_ & _ & A & B & _). unfold at_, schema_node. now rewrite A, B. Qed.
Lemma done_refl n : kin n -> done n n. Proof. intro K. split; [exact K|apply same_refl]. Qed.
Lemma done_trans a b c : same a b -> done b c -> done a c. Proof. intros S [K S']. split; [exact K|exact (same_trans _ _ _ S S')]. Qed.
Lemma kin_close n key i c : kin n -> placed c -> kin (close_child n key i c).
Proof.
  intros K P. unfold close_child. destruct (r_discard c); unfold kin; cbn [put_child with_children r_children]; [now apply Forall_cdrop|now apply Forall_cput].
Qed.
Lemma placed_kin n : placed n -> kin n. Proof. now intros [m sn A C]. Qed.

Variable ev : sid -> inst -> list sid -> rnode -> res rnode.
Hypothesis Hev : forall s i anc n, kin n -> (r_schema n = s -> at_ n (SNSchema s)) -> Post (done n) (ev s i anc n).
Definition done1 {B} n (rb : rnode * B) : Prop := done n (fst rb).

Lemma placed_in_child sn result anc i key s : kin result -> at_ result sn -> sn_child W sn key = Ok (SNSchema s) ->
  Post (done1 result) (in_child ev result anc i key s).
Proof.
  intros K A L. unfold in_child.
  assert (A0 : at_ (new_child result key i (r_schema result)) (SNSchema s)).
  { unfold at_, schema_node, new_child in *. cbn [r_schema r_relpath]. rewrite Nat.eqb_refl, sn_walk_app, A. cbn [bind sn_walk]. now rewrite L. }
  eapply post_bind; [apply Hev; [constructor|intros _; exact A0]|]. intros c [Kc Sc]. split; [|apply same_close].
  apply kin_close; [exact K|]. econstructor; [exact (at_same _ _ _ Sc A0)|exact Kc].
Qed.
Definition leads_to (sn : schemanode) (key : pystr) (s : sid) : Prop := sn_child W sn key = Ok (SNSchema s).
Lemma placed_branches sn i anc l : forall k result, kin result -> at_ result sn -> (forall j s, nth_error l j = Some s -> leads_to sn (str_of_nat (k + j)) s) ->
  Post (done1 result) (branches ev i anc k l result).
Proof.
  induction l as [|s l IH]; intros k result K A L; cbn [branches]; [now apply done_refl|].
  eapply post_bind; [apply (placed_in_child sn); [exact K|exact A|rewrite <- (Nat.add_0_r k); now apply L]|]. intros [r c] [K1 S1]. cbn [fst] in *.
  eapply post_bind; [apply IH; [exact K1|exact (at_same _ _ _ S1 A)|]|].
  - intros j s' H. replace (S k + j) with (k + S j) by lia. now apply L.
  - intros [r2 bs] D. exact (done_trans _ _ _ S1 D).
Qed.
Lemma placed_pairwise sn anc : forall js l k result, kin result -> at_ result sn -> (forall j s, nth_error l j = Some s -> leads_to sn (str_of_nat (k + j)) s) ->
  Post (done1 result) (pairwise ev anc k js l result).
Proof.
  induction js as [|j js IH]; intros l k result K A L; cbn [pairwise]; [now apply done_refl|]. destruct l as [|s l]; [now apply done_refl|].
  eapply post_bind; [apply (placed_in_child sn); [exact K|exact A|rewrite <- (Nat.add_0_r k); now apply L]|]. intros [r c] [K1 S1]. cbn [fst] in *.
  eapply post_bind; [apply IH; [exact K1|exact (at_same _ _ _ S1 A)|]|].
  - intros j' s' H. replace (S k + j') with (k + S j') by lia. now apply L.
  - intros [r2 bs] D. exact (done_trans _ _ _ S1 D).
Qed.
Lemma placed_dependents sn i anc m : forall result, kin result -> at_ result sn -> (forall name s, In (name, s) m -> leads_to sn name s) ->
  Post (done1 result) (dependents ev i anc m result).
Proof.
  induction m as [|[name s] m IH]; intros result K A L; cbn [dependents]; [now apply done_refl|].
  destruct (has_member i name); [|apply IH; [exact K|exact A|intros; apply L; now right]].
  eapply post_bind; [apply (placed_in_child sn); [exact K|exact A|apply L; now left]|]. intros [r c] [K1 S1]. cbn [fst] in *.
  eapply post_bind; [apply IH; [exact K1|exact (at_same _ _ _ S1 A)|intros; apply L; now right]|]. intros [r2 [g b]] D. exact (done_trans _ _ _ S1 D).
Qed.
Lemma placed_named sn subs anc : (forall name s, dget name subs = Some s -> leads_to sn name s) -> forall l result, kin result -> at_ result sn ->
  Post (done1 result) (named ev subs anc l result).
Proof.
  intros L. induction l as [|[name j] l IH]; intros result K A; cbn [named]; [now apply done_refl|]. destruct (dget name subs) as [s|] eqn:E; [|auto].
  eapply post_bind; [apply (placed_in_child sn); [exact K|exact A|now apply L]|]. intros [r c] [K1 S1]. cbn [fst] in *.
  eapply post_bind; [apply IH; [exact K1|exact (at_same _ _ _ S1 A)]|]. intros [r2 [g b]] D. exact (done_trans _ _ _ S1 D).
Qed.
Lemma placed_matching sn anc name j : forall subs result, kin result -> at_ result sn -> (forall r s, In (r, s) subs -> leads_to sn r s) ->
  Post (done1 result) (matching W ev subs anc name j result).
Proof.
  induction subs as [|[r s] subs IH]; intros result K A L; cbn [matching]; [now apply done_refl|].
  destruct (w_search W r name) as [[|]|]; [|apply IH; [exact K|exact A|intros; apply L; now right]|exact I].
  eapply post_bind; [apply (placed_in_child sn); [exact K|exact A|apply L; now left]|]. intros [r1 c] [K1 S1]. cbn [fst] in *.
  eapply post_bind; [apply IH; [exact K1|exact (at_same _ _ _ S1 A)|intros; apply L; now right]|]. intros [r2 [g b]] D. exact (done_trans _ _ _ S1 D).
Qed.
Lemma placed_patterned sn subs anc : (forall r s, In (r, s) subs -> leads_to sn r s) -> forall l result, kin result -> at_ result sn ->
  Post (done1 result) (patterned W ev subs anc l result).
Proof.
  intro L. induction l as [|[name j] l IH]; intros result K A; cbn [patterned]; [now apply done_refl|].
  eapply post_bind; [apply (placed_matching sn); assumption|]. intros [r1 [g b]] [K1 S1]. cbn [fst] in *.
  eapply post_bind; [apply IH; [exact K1|exact (at_same _ _ _ S1 A)]|]. intros [r2 [g' b']] D. exact (done_trans _ _ _ S1 D).
Qed.
Lemma placed_each s anc : forall l result, kin result -> at_ result (SNSchema s) -> Post (done1 result) (each ev s anc l result).
Proof.
  induction l as [|j l IH]; intros result K A; cbn [each]; [now apply done_refl|].
  eapply post_bind; [apply Hev; [exact K|auto]|]. intros n [K1 S1]. cbv zeta.
  assert (D1 : done result (if passed n then n else pass_ n)) by (destruct (passed n); split; assumption). destruct D1 as [K2 S2].
  eapply post_bind; [apply IH; [exact K2|exact (at_same _ _ _ S2 A)]|]. intros [r bs] D. exact (done_trans _ _ _ S2 D).
Qed.
Lemma placed_each_noreset s anc : forall l result, kin result -> at_ result (SNSchema s) -> Post (done result) (each_noreset ev s anc l result).
Proof.
  induction l as [|j l IH]; intros result K A; cbn [each_noreset]; [now apply done_refl|].
  eapply post_bind; [apply Hev; [exact K|auto]|]. intros n [K1 S1]. eapply post_weaken; [|apply IH; [exact K1|exact (at_same _ _ _ S1 A)]]. intros r D. exact (done_trans _ _ _ S1 D).
Qed.
Lemma placed_items_from start_ s i anc result : kin result -> at_ result (SNSchema s) -> Post (done result) (e_items_from ev start_ s i anc result).
Proof. intros K A. unfold e_items_from. eapply post_bind; [apply placed_each; assumption|]. intros [r bs] D. cbn [Post]. destruct (positions false start_ bs); exact D. Qed.
Lemma placed_unevaluated_from last skip s i anc result : kin result -> at_ result (SNSchema s) -> Post (done result) (e_unevaluated_from ev last skip s i anc result).
Proof. intros K A. unfold e_unevaluated_from. cbv zeta. eapply post_bind; [apply placed_each; assumption|]. intros [r bs] D. cbn [Post]. destruct (failing _ _ _); exact D. Qed.
Lemma placed_members todo s anc result : kin result -> at_ result (SNSchema s) -> Post (done result) (e_members ev todo s anc result).
Proof. intros K A. unfold e_members. eapply post_bind; [apply placed_each; assumption|]. intros [r bs] D. cbn [Post]. destruct (failing _ _ _); exact D. Qed.

Lemma leads_nth l j s : nth_error l j = Some s -> leads_to (SNJson (KSubs l)) (str_of_nat (0 + j)) s.
Proof.
  intros H. unfold leads_to. cbn [sn_child Nat.add]. unfold sn_index. rewrite py_int_str_of_nat.
  assert (L : j < length l) by (apply nth_error_Some; congruence). rewrite norm_index_nat by exact L. now rewrite H.
Qed.
Lemma leads_in m name s : NoDup (keys m) -> In (name, s) m -> leads_to (SNJson (KSubm m)) name s.
Proof. intros N H. unfold leads_to. cbn [sn_child]. now rewrite (In_dget name s m N H). Qed.

Lemma placed_std k c i anc parent result : value_ok k = true -> kw_class k = Std c -> kin result -> at_ result (sn_of (kw_json k)) ->
  (forall t, goes W k c (r_schema result :: anc) t -> Post (done result) (ev t i anc result)) ->
  Post (done result) (eval_std W ev k c i anc parent result).
Proof.
  intros V KC K A G. destruct (by_reference c) eqn:Rc.
  { apply reference_post; [exact Rc|]. intros t Gt. eapply post_weaken; [|exact (G t Gt)]. intros r D. exact D. }
  assert (Q : done result result) by (now apply done_refl).
  assert (Sub : forall g, (forall t, at_ result (SNSchema t) -> Post (done result) (g t)) -> Post (done result) (with_sub (kw_json k) g)).
  { intros g H. unfold with_sub. destruct (kw_json k); try exact I. apply H, A. }
  assert (Subs : forall g, many_subs c = true -> (forall l, at_ result (SNJson (KSubs l)) -> Post (done result) (g l)) -> Post (done result) (with_subs (kw_json k) g)).
  { intros g Mc H. pose proof (value_subs k c V KC Mc) as N. unfold with_subs. destruct (kw_json k) as [w| | |]; try exact I; [now elim (N w)|]. apply H, A. }
  assert (Pref : forall g, many_subs c = true -> (forall l, at_ result (SNJson (KSubs l)) -> Post (done result) (g l)) -> Post (done result) (with_prefix (kw_json k) i g)).
  { intros g Mc H. pose proof (value_subs k c V KC Mc) as N. unfold with_prefix. destruct (kw_json k) as [w| | |]; try exact I; [now elim (N w)|]. apply H, A. }
  assert (Subm : forall g, (forall m, at_ result (SNJson (KSubm m)) -> NoDup (keys m) -> Post (done result) (g m)) -> Post (done result) (with_subm (kw_json k) g)).
  { intros g H. unfold with_subm. unfold value_ok in V. apply andb_true_iff in V. destruct V as [V _]. destruct (kw_json k); try exact I. apply H; [exact A|now apply nodup_keysb_NoDup]. }
  assert (D : forall n', same result n' -> r_children n' = r_children result -> done result n').
  { intros n' S E. split; [|exact S]. unfold kin. now rewrite E. }
  assert (Ck : forall b msg, done result (check b msg result)) by (intros b msg; destruct b; exact Q).
  assert (L : forall bad x before after, Post (done result) (limit W bad x (kw_json k) before after result)) by (intros; apply post_limit; intros; apply Ck).
  assert (Te : forall b msg, Post (done result) (tell b msg result)) by (intros; apply post_tell; intros; apply Ck).
  assert (An : Post (done result) (e_annotation (kw_json k) result)).
  { unfold e_annotation. destruct (kw_json k); try exact I. exact Q. }
  assert (E : forall t, at_ result (SNSchema t) -> Post (done result) (ev t i anc result)) by (intros t At; apply Hev; auto).
  assert (Dis : Post (done result) (Ok (discard result))) by exact Q.
  destruct c; try discriminate Rc; cbn [eval_std]; try exact Q; try apply L; try exact An; clear Rc.
  - apply Subs; [reflexivity|]. intros l Al. unfold e_allOf. eapply post_bind; [apply (placed_branches _ i anc l 0 result K Al), leads_nth|]. intros [r bs] Q1. cbn [Post]. destruct (forallb _ _); exact Q1.
  - apply Subs; [reflexivity|]. intros l Al. unfold e_anyOf. eapply post_bind; [apply (placed_branches _ i anc l 0 result K Al), leads_nth|]. intros [r bs] Q1. cbn [Post]. destruct (existsb _ _); exact Q1.
  - apply Subs; [reflexivity|]. intros l Al. unfold e_oneOf. eapply post_bind; [apply (placed_branches _ i anc l 0 result K Al), leads_nth|]. intros [r bs] Q1. cbn [Post]. destruct (Nat.eqb _ _); exact Q1.
  - apply Sub. intros t At. unfold e_not. eapply post_bind; [apply E, At|]. intros r Q1. cbn [Post]. destruct (passed r); exact Q1.
  - apply Sub. intros t At. unfold e_if. eapply post_bind; [apply E, At|]. intros r Q1. exact Q1.
  - apply Sub. intros t At. unfold e_branch. destruct (sibling _ _ _); [|exact Dis]. destruct (Bool.eqb _ _); [apply E, At|exact Dis].
  - apply Sub. intros t At. unfold e_branch. destruct (sibling _ _ _); [|exact Dis]. destruct (Bool.eqb _ _); [apply E, At|exact Dis].
  - apply Subm. intros m Am N. unfold e_dependentSchemas. eapply post_bind; [apply (placed_dependents _ i anc m result K Am); intros; now apply leads_in|].
    intros [r [g b]] Q1. cbn [Post]. destruct b; exact Q1.
  - apply Pref; [reflexivity|]. intros l Al. unfold e_prefixItems. eapply post_bind; [apply (placed_pairwise _ anc (items_of i) l 0 result K Al), leads_nth|]. intros [r bs] Q1. cbn [Post].
    destruct (positions false 0 bs); [|exact Q1]. destruct bs; exact Q1.
  - apply Sub. intros t At. unfold e_items. destruct (sibling _ _ _); [|now apply placed_items_from]. apply post_any. intros [|[]]; try exact I. now apply placed_items_from.
  - apply Sub. intros t At. unfold e_unevaluatedItems. cbv zeta. apply post_any. intros [z|]; [|exact Dis]. destruct (_ || _); [exact Dis|]. apply post_any. intro sk.
    now apply placed_unevaluated_from.
  - apply Sub. intros t At. unfold e_contains. eapply post_bind; [apply placed_each; assumption|]. intros [r bs] Q1. cbv zeta. cbn [Post]. destruct (positions true 0 bs); exact Q1.
  - apply Subm. intros m Am N. unfold e_properties. eapply post_bind; [apply (placed_named (SNJson (KSubm m)))|].
    + intros name s H. apply leads_in; [exact N|now apply dget_In].
    + exact K.
    + exact Am.
    + intros [r [g b]] Q1. cbn [Post]. destruct b; exact Q1.
  - apply Subm. intros m Am N. unfold e_patternProperties. eapply post_bind; [apply (placed_patterned (SNJson (KSubm m))); [intros; now apply leads_in|exact K|exact Am]|].
    intros [r [g b]] Q1. cbn [Post]. destruct b; exact Q1.
  - apply Sub. intros t At. unfold e_additionalProperties. apply post_any. intro a. apply post_any. intro b. apply post_any. intro todo. now apply placed_members.
  - apply Sub. intros t At. unfold e_unevaluatedProperties. cbv zeta. do 4 (apply post_any; intro). now apply placed_members.
  - apply Sub. intros t At. unfold e_propertyNames. cbv zeta. eapply post_bind; [apply placed_each; assumption|]. intros [r bs] Q1. cbn [Post]. destruct (failing _ _ _); exact Q1.
  - unfold e_items_2019. destruct (items_of i) as [|j js] eqn:J; [exact Q|]. rewrite <- J. destruct (kw_json k) as [|t|l|]; try exact Q.
    + destruct (w_schema W t); [apply E, A|]. eapply post_bind; [apply placed_each_noreset; [exact K|exact A]|]. intros r Q1. cbn [Post]. destruct (passed r); exact Q1.
    + eapply post_bind; [apply (placed_pairwise _ anc (items_of i) l 0 result K A), leads_nth|]. intros [r bs] Q1. cbn [Post]. destruct (positions false 0 bs); exact Q1.
  - apply Sub. intros t At. unfold e_additionalItems. destruct (sibling _ _ _) as [n|]; [|exact Dis]. destruct (r_annot n) as [| |[]| | |]; try exact Dis. now apply placed_items_from.
  - apply Sub. intros t At. unfold e_unevaluatedItems_2019. cbv zeta. destruct (last_evaluated_2019 _ _); [|exact Dis]. destruct (_ || _); [exact Dis|]. now apply placed_unevaluated_from.
  - apply Sub. intros t At. unfold e_unevaluatedProperties. cbv zeta. do 4 (apply post_any; intro). now apply placed_members.
  - unfold e_type. cbv zeta. apply post_any. intro b. apply Te.
  - unfold e_enum. apply post_any. intro l. apply Ck.
  - unfold e_const. destruct (kw_json k); try exact I. apply Ck.
  - unfold e_multipleOf. destruct (kw_json k) as [[]| | |]; try exact I; apply Te.
  - unfold e_pattern. destruct (kw_json k) as [[]| | |]; try exact I. destruct (i_val i); try exact I. destruct (w_search _ _ _); [|exact I]. apply Te.
  - unfold e_uniqueItems. destruct (i_val i); try exact I. destruct (truthy _); [|exact Q]. apply Ck.
  - unfold e_maxContains. destruct (sibling _ _ _); [|exact Q]. destruct (is_null _); [exact Q|]. apply post_any. intro n. apply L.
  - unfold e_required. destruct (kw_json k) as [v| | |]; try exact I. apply post_any. intro l. apply Ck.
  - unfold e_dependentRequired. destruct (kw_json k) as [v| | |]; try exact I. apply post_any. intro m. apply post_any. intro. apply Te.
  - unfold e_format. destruct (kw_json k) as [v| | |]; try exact I. cbv zeta.
    assert (N : Post (done result) (Ok (noassert (annotate result v)))) by exact Q.
    destruct (kw_format k); [|exact N]. destruct v; try exact N. destruct (mem_type _ _); [|exact N]. cbn [Post]. destruct (w_format W s (i_val i)); exact Q.
  - unfold e_contentSchema. destruct (sibling _ _ _); [exact An|exact Dis].
Qed.

Lemma placed_keyword k i anc parent result : value_ok k = true -> kin parent -> kin result -> at_ result (sn_of (kw_json k)) ->
  (forall c t, kw_class k = Std c -> by_reference c = true -> goes W k c (r_schema result :: anc) t -> Post (done result) (ev t i anc result)) ->
  Post (fun pr => done parent (fst pr) /\ done result (snd pr)) (eval_keyword W ev k i anc parent result).
Proof.
  intros V Kp K A G. unfold eval_keyword.
  assert (X : forall e, Post (done result) e -> Post (fun pr => done parent (fst pr) /\ done result (snd pr)) (let* r := e in Ok (parent, r))).
  { intros e H. eapply post_bind; [exact H|]. intros r O. split; [now apply done_refl|exact O]. }
  destruct (kw_class k) as [c|] eqn:KC.
  - assert (Y : Post (done result) (eval_std W ev k c i anc parent result)).
    { apply placed_std; try assumption. intros t Gt. apply (G c t eq_refl); [|exact Gt]. destruct Gt as (t0 & _ & Gt). destruct c; try contradiction; reflexivity. }
    destruct c; try (apply X, Y). unfold e_minContains. destruct (sibling parent i (lit "contains")) as [cn|] eqn:Sc.
    + apply post_any. intro n. destruct (num_of (kw_json k)); [|exact I]. cbv zeta. apply post_told. intro t. cbn [Post fst snd]. split; [|destruct (num_leb _ _); (split; [exact K|repeat split])].
      assert (Put : done parent (put_child parent (lit "contains") i (pass_ cn))).
      { split; [|repeat split]. unfold kin, put_child. cbn [with_children r_children]. apply Forall_cput; [|exact Kp].
        unfold sibling in Sc. apply cget_In in Sc. pose proof (proj1 (Forall_forall _ _) Kp _ Sc) as Pc. cbn [snd] in *. inversion Pc as [m sn Am Cm]; subst. econstructor; [exact Am|exact Cm]. }
      destruct (_ && _); [|now apply done_refl]. destruct (sibling parent i (lit "maxContains")) as [m|]; [|exact Put]. destruct (r_valid m); [exact Put|now apply done_refl].
    + split; now apply done_refl.
  - apply X. unfold e_annotation. destruct (kw_json k); try exact I. split; [exact K|repeat split].
Qed.
End Placed.

Lemma placed_keywords W f s kws0 : w_schema W s = SObj kws0 -> NoDup (keys kws0) -> (forall key k, In (key, k) kws0 -> value_ok k = true) ->
  (forall s i anc n, kin W n -> (r_schema n = s -> at_ W n (SNSchema s)) -> Post (done W n) (evaluate W f s i anc n)) ->
  forall i anc kws node, (forall key k, In (key, k) kws -> In (key, k) kws0) -> kin W node -> (r_schema node = s -> at_ W node (SNSchema s)) ->
  Post (done W node) (eval_keywords W (evaluate W f) s kws i anc node).
Proof.
  intros Ws N Vs Hev i anc. induction kws as [|[key k] kws IH]; intros node Sub K A; cbn [eval_keywords]; [now apply done_refl|].
  assert (Hk : In (key, k) kws0) by (apply Sub; now left).
  destruct (applicable k i) eqn:Ap; [|apply IH; [intros; apply Sub; now right|exact K|exact A]]. cbv zeta. set (c0 := new_child node key i s).
  assert (A0 : at_ W c0 (sn_of (kw_json k))).
  { unfold at_, schema_node, c0, new_child. cbn [r_schema r_relpath].
    assert (B : sn_child W (SNSchema s) key = Ok (sn_of (kw_json k))) by (cbn [sn_child]; unfold schema_keywords; rewrite Ws; now rewrite (In_dget _ _ _ N Hk)).
    destruct (Nat.eqb_spec s (r_schema node)) as [E|E].
    - rewrite sn_walk_app. specialize (A (eq_sym E)). unfold at_, schema_node in A. rewrite <- E in A. rewrite A. cbn [bind sn_walk]. now rewrite B.
    - cbn [sn_walk]. now rewrite B. }
  assert (Kp : kin W (put_child node key i c0)).
  { unfold kin, put_child. cbn [with_children r_children]. apply Forall_cput; [|exact K]. econstructor; [exact A0|constructor]. }
  eapply post_bind; [apply (placed_keyword W _ Hev k i (r_schema node :: anc) _ c0 (Vs _ _ Hk) Kp); [constructor|exact A0|]|].
  - intros c t KC Rc G. cbn [r_schema c0 new_child] in G. destruct (Nat.eq_dec t s) as [->|Ne].
    + eapply (post_weaken (fun _ => False)); [intros a []|]. eapply self_reference; [exact Rc|exact KC|exact Ws|exact Hk|exact Ap|]. cbn [r_schema c0 new_child]. now apply goes_twice.
    + apply Hev; [constructor|]. intro E. exfalso. apply Ne. symmetry. exact E.
  - intros [p c] [[K1 S1] [K2 S2]]. cbn [fst snd] in *.
    assert (S0 : same node (close_child p key i c)).
    { refine (same_trans _ _ _ (same_trans _ (put_child node key i c0) _ _ S1) (same_close p key i c)). repeat split. }
    eapply post_weaken; [|apply IH].
    + intros n' D. exact (done_trans _ _ _ _ S0 D).
    + intros; apply Sub; now right.
    + apply kin_close; [exact K1|]. econstructor; [exact (at_same _ _ _ _ S2 A0)|exact K2].
    + intro E. apply (at_same _ _ _ _ S0). apply A. destruct S0 as (_ & _ & _ & S0 & _). congruence.
Qed.

Theorem evaluate_placed d W fuel : good_world d W -> forall s i anc n, kin W n -> (r_schema n = s -> at_ W n (SNSchema s)) ->
  Post (done W n) (evaluate W fuel s i anc n).
Proof.
  intros G. induction fuel as [|f IH]; intros s i anc n K A; [exact I|]. cbn [evaluate]. destruct (w_schema W s) as [[|]|kws] eqn:Ws.
  - now apply done_refl.
  - split; [exact K|repeat split].
  - destruct (G s kws Ws) as [N V]. eapply post_bind; [apply (placed_keywords W f s kws Ws N); [intros key k H; apply (V key k H)|exact IH|auto|exact K|exact A]|].
    intros n' D. cbn [Post]. unfold finish. destruct (existsb _ _); exact D.
Qed.
Theorem evaluate_root_placed d W fuel s i r : good_world d W -> evaluate_root W fuel s i = Ok r -> placed W r.
Proof.
  intros G E. unfold evaluate_root in E. assert (A : at_ W (new_root s i) (SNSchema s)) by reflexivity.
  pose proof (evaluate_placed d W fuel G s i [] (new_root s i)) as H. rewrite E in H.
  destruct H as [K S]; [constructor|intros _; exact A|]. econstructor; [exact (at_same _ _ _ _ S A)|exact K].
Qed.
