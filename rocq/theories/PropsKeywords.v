(** C31-C33, C36-C38, C41, C44, C53: what the keywords mean, one by one.
    [accepts W scope s x b]: the verdict on [x] by schema [s] met within
    [scope]; [kw_accepts]: the same for one keyword of a schema object.
    C27_keywords_conjoin ties the verdicts of the keywords to evaluation. *)
From Coq Require Import String QArith List.
From Verif Require Import SchemaLaws SchemaAssert SchemaCases.
Import ListNotations.
Open Scope string_scope.
Open Scope list_scope.
Open Scope nat_scope.

(** Evaluating a schema object finds the instance valid exactly when each
    keyword that concerns the instance accepts it. *)
Theorem C27_keywords_conjoin : forall W fuel s kws i r,
  fit W -> jwf (i_val i) = true -> w_schema W s = SObj kws -> (forall key k, In (key, k) kws -> late k = None) ->
  evaluate_root W fuel s i = Ok r ->
  (r_valid r = true <->
   forall key k, In (key, k) kws -> concerns (i_val i) k = true -> kw_accepts W [s] kws k (i_val i) true).
Proof. intros W fuel s kws i r F Hw Hs Hl E. rewrite (evaluate_iff W fuel s i r F Hw E). exact (law_object W [] s kws (i_val i) Hs Hl). Qed.
Print Assumptions C27_keywords_conjoin.

(** ** C31 *)
Lemma Forall2_exists {A B} (P : A -> B -> Prop) l : (forall a, In a l -> exists b, P a b) -> exists bs, Forall2 P l bs.
Proof.
  induction l as [|a l IH]; intro H; [exists []; constructor|]. destruct (H a (or_introl eq_refl)) as [b Hb].
  destruct IH as [bs Hbs]; [intros; apply H; now right|]. exists (b :: bs). now constructor.
Qed.
Lemma Forall2_left {A B} (P : A -> B -> Prop) l bs : Forall2 P l bs -> forall a, In a l -> exists b, In b bs /\ P a b.
Proof.
  induction 1 as [|a b l bs H F IH]; intros c Hc; [destruct Hc|]. destruct Hc as [<-|Hc]; [exists b; split; [now left|exact H]|].
  destruct (IH c Hc) as (b' & Hb & Hp). exists b'. split; [now right|exact Hp].
Qed.
Lemma Forall2_right {A B} (P : A -> B -> Prop) l bs : Forall2 P l bs -> forall b, In b bs -> exists a, In a l /\ P a b.
Proof.
  induction 1 as [|a b l bs H F IH]; intros c Hc; [destruct Hc|]. destruct Hc as [<-|Hc]; [exists a; split; [now left|exact H]|].
  destruct (IH c Hc) as (b' & Hb & Hp). exists b'. split; [now right|exact Hp].
Qed.

Theorem C31_allOf : forall W sc kws k ts x, is_kw k KAllOf (KSubs ts) ->
  (kw_accepts W sc kws k x true <-> forall t, In t ts -> accepts W sc t x true).
Proof. exact law_allOf. Qed.
Print Assumptions C31_allOf.

Theorem C31_anyOf : forall W sc kws k ts x, is_kw k KAnyOf (KSubs ts) ->
  (kw_accepts W sc kws k x true <->
   (forall t, In t ts -> exists b, accepts W sc t x b) /\ exists t, In t ts /\ accepts W sc t x true).
Proof.
  intros W sc kws k ts x Hk. rewrite (law_anyOf W sc kws k ts x Hk). split.
  - intros (bs & F & E). split.
    + intros t Ht. destruct (Forall2_left _ _ _ F t Ht) as (b & _ & H). eauto.
    + apply existsb_exists in E. destruct E as (b & Hb & ->). exact (Forall2_right _ _ _ F true Hb).
  - intros [D (t & Ht & A)]. destruct (Forall2_exists _ ts D) as [bs F]. exists bs. split; [exact F|].
    destruct (Forall2_left _ _ _ F t Ht) as (b & Hb & H). apply existsb_exists. exists b. split; [exact Hb|]. exact (accepts_unique _ _ _ _ _ _ H A).
Qed.
Print Assumptions C31_anyOf.

(** Exactly one position of the list accepts. *)
Theorem C31_oneOf : forall W sc kws k ts x, is_kw k KOneOf (KSubs ts) ->
  (kw_accepts W sc kws k x true <->
   exists ts1 t ts2, ts = ts1 ++ t :: ts2 /\ accepts W sc t x true /\ forall u, In u (ts1 ++ ts2) -> accepts W sc u x false).
Proof.
  intros W sc kws k ts x Hk. rewrite (law_oneOf W sc kws k ts x Hk). clear Hk. split.
  - intros (bs & F & E). induction F as [|t b ts bs H F IH]; [discriminate|]. cbn [filter] in E. destruct b; cbn [length] in E.
    + exists [], t, ts. split; [reflexivity|]. split; [exact H|]. intros u Hu. cbn in Hu. destruct (Forall2_left _ _ _ F u Hu) as (b & Hb & Hp).
      destruct b; [|exact Hp]. exfalso. injection E as E. apply length_zero_iff_nil in E.
      assert (X : In true (filter (fun b : bool => b) bs)) by (apply filter_In; auto). rewrite E in X. destruct X.
    + destruct (IH E) as (ts1 & u & ts2 & -> & A & N). exists (t :: ts1), u, ts2. split; [reflexivity|]. split; [exact A|].
      intros v [<-|Hv]; [exact H|auto].
  - intros (ts1 & t & ts2 & -> & A & N). exists (map (fun _ => false) ts1 ++ true :: map (fun _ => false) ts2). split.
    + apply Forall2_app; [|constructor; [exact A|]].
      * assert (N1 : forall u, In u ts1 -> accepts W sc u x false) by (intros; apply N, in_or_app; auto). clear - N1. induction ts1; constructor; [apply N1; now left|apply IHts1; intros; apply N1; now right].
      * assert (N1 : forall u, In u ts2 -> accepts W sc u x false) by (intros; apply N, in_or_app; auto). clear - N1. induction ts2; constructor; [apply N1; now left|apply IHts2; intros; apply N1; now right].
    + assert (Z : forall l : list sid, filter (fun b : bool => b) (map (fun _ => false) l) = []) by (induction l; auto).
      rewrite filter_app. cbn [filter]. rewrite !Z. reflexivity.
Qed.
Print Assumptions C31_oneOf.

Theorem C31_not : forall W sc kws k t x b, is_kw k KNot (KSub t) ->
  (kw_accepts W sc kws k x b <-> accepts W sc t x (negb b)).
Proof. exact law_not. Qed.
Print Assumptions C31_not.

(** [then] ([want] true) and [else] ([want] false) beside an [if] with
    subschema [c]; without an [if] they always accept. *)
Theorem C31_then_else : forall W (want : bool) sc kws k kc c t x,
  kw_class k = Std (if want then KThen else KElse) -> kw_json k = KSub t ->
  dget (lit "if") kws = Some kc -> kw_json kc = KSub c ->
  (kw_accepts W sc kws k x true <->
   accepts W sc c x (negb want) \/ (accepts W sc c x want /\ accepts W sc t x true)).
Proof. exact law_branch. Qed.
Print Assumptions C31_then_else.
Theorem C31_then_else_alone : forall W (want : bool) sc kws k x,
  kw_class k = Std (if want then KThen else KElse) -> dget (lit "if") kws = None -> kw_accepts W sc kws k x true.
Proof. exact law_branch_alone. Qed.
Print Assumptions C31_then_else_alone.
(** [if] itself only needs an answer from its subschema. *)
Theorem C31_if : forall W sc kws k t x, is_kw k KIf (KSub t) ->
  (kw_accepts W sc kws k x true <-> exists b, accepts W sc t x b).
Proof. exact law_if. Qed.
Print Assumptions C31_if.
Theorem C31_dependentSchemas : forall W sc kws k m x, is_kw k KDependentSchemas (KSubm m) ->
  (kw_accepts W sc kws k x true <-> forall name t, In (name, t) m -> has x name = true -> accepts W sc t x true).
Proof. exact law_dependentSchemas. Qed.
Print Assumptions C31_dependentSchemas.

(** The connectives in the results of evaluation themselves: [s] has a single
    keyword, and its subschemas are evaluated on their own. *)
Definition only (W : world) (s : sid) (key : string) (c : stdclass) (v : kjson) : Prop :=
  exists k, w_schema W s = SObj [(lit key, k)] /\ is_kw k c v.
(** [r] is the result of evaluating [s]. *)
Definition result (W : world) (i : inst) (s : sid) (r : rnode) : Prop := exists fuel, evaluate_root W fuel s i = Ok r.

Lemma only_law W s key c v x b k : fit W -> w_schema W s = SObj [(lit key, k)] -> is_kw k c v ->
  (forall y, concerns y k = true) -> late k = None -> accepts W [] s x b ->
  b = true <-> kw_accepts W [s] [(lit key, k)] k x true.
Proof.
  intros F Hs Hk Hc Hl A. transitivity (accepts W [] s x true).
  - split; [intros <-; exact A|intro A'; exact (accepts_unique _ _ _ _ _ _ A A')].
  - rewrite (law_object W [] s _ x Hs).
    + split; [intro H; apply (H (lit key)); [now left|apply Hc]|]. intros H key' k' [E|[]] _. injection E as <- <-. exact H.
    + intros key' k' [E|[]]. injection E as <- <-. exact Hl.
Qed.
Lemma result_accepts W i s r : fit W -> static_world W -> jwf (i_val i) = true -> result W i s r ->
  forall sc, accepts W sc s (i_val i) (r_valid r).
Proof. intros F S Hw [f E] sc. apply (accepts_scope W []); [exact S|]. exact (evaluate_accepts W f s i r F Hw E). Qed.
Lemma iff_bool a b : (a = true <-> b = true) -> a = b.
Proof. destruct a, b; intuition congruence. Qed.

Ltac only_open := match goal with H : only _ _ _ _ _ |- _ => destruct H as (k & Hs & Hk) end.
Ltac concerned := match goal with Hk : is_kw _ _ _ |- _ => let y := fresh in destruct Hk as [Hc0 _]; unfold concerns; rewrite Hc0; intro y; destruct y; reflexivity end.
Ltac not_late := match goal with Hk : is_kw _ _ _ |- _ => destruct Hk as [Hc0 _]; unfold late; rewrite Hc0; reflexivity end.

Lemma results_bools W i ts rs sc : fit W -> static_world W -> jwf (i_val i) = true -> Forall2 (result W i) ts rs ->
  Forall2 (fun t b => accepts W sc t (i_val i) b) ts (map r_valid rs).
Proof. intros F S Hw. induction 1 as [|t r ts rs H _ IH]; constructor; [exact (result_accepts W i t r F S Hw H sc)|exact IH]. Qed.
Lemma bools_unique W sc x ts bs bs' : Forall2 (fun t b => accepts W sc t x b) ts bs -> Forall2 (fun t b => accepts W sc t x b) ts bs' -> bs = bs'.
Proof.
  intro H. revert bs'. induction H as [|t b ts bs A _ IH]; intros bs' H'; inversion H'; subst; [reflexivity|].
  f_equal; [eapply accepts_unique; eassumption|now apply IH].
Qed.

Theorem C31_results_allOf : forall W i s ts r rs, fit W -> static_world W -> jwf (i_val i) = true ->
  only W s "allOf" KAllOf (KSubs ts) -> result W i s r -> Forall2 (result W i) ts rs ->
  r_valid r = forallb r_valid rs.
Proof.
  intros W i s ts r rs F S Hw Ho Hr Hrs. only_open. apply iff_bool.
  rewrite (only_law W s "allOf" KAllOf (KSubs ts) (i_val i) _ k F Hs Hk) by (concerned || not_late || exact (result_accepts W i s r F S Hw Hr [])).
  rewrite (law_allOf W _ _ _ _ _ Hk). pose proof (results_bools W i ts rs [s] F S Hw Hrs) as B. rewrite forallb_forall. split.
  - intros H x Hx. destruct (Forall2_right _ _ _ B (r_valid x)) as (t & Ht & A); [now apply in_map|]. exact (accepts_unique _ _ _ _ _ _ A (H t Ht)).
  - intros H t Ht. destruct (Forall2_left _ _ _ B t Ht) as (b & Hb & A). apply in_map_iff in Hb. destruct Hb as (x & <- & Hx). rewrite (H x Hx) in A. exact A.
Qed.
Print Assumptions C31_results_allOf.
Theorem C31_results_anyOf : forall W i s ts r rs, fit W -> static_world W -> jwf (i_val i) = true ->
  only W s "anyOf" KAnyOf (KSubs ts) -> result W i s r -> Forall2 (result W i) ts rs ->
  r_valid r = existsb r_valid rs.
Proof.
  intros W i s ts r rs F S Hw Ho Hr Hrs. only_open. apply iff_bool.
  rewrite (only_law W s "anyOf" KAnyOf (KSubs ts) (i_val i) _ k F Hs Hk) by (concerned || not_late || exact (result_accepts W i s r F S Hw Hr [])).
  rewrite (law_anyOf W _ _ _ _ _ Hk). pose proof (results_bools W i ts rs [s] F S Hw Hrs) as B.
  assert (E : existsb r_valid rs = existsb (fun b => b) (map r_valid rs)) by (clear; induction rs; cbn; congruence). rewrite E. split.
  - intros (bs & F2 & H). now rewrite <- (bools_unique _ _ _ _ _ _ F2 B).
  - intro H. eauto.
Qed.
Print Assumptions C31_results_anyOf.
Theorem C31_results_oneOf : forall W i s ts r rs, fit W -> static_world W -> jwf (i_val i) = true ->
  only W s "oneOf" KOneOf (KSubs ts) -> result W i s r -> Forall2 (result W i) ts rs ->
  r_valid r = Nat.eqb (length (filter r_valid rs)) 1.
Proof.
  intros W i s ts r rs F S Hw Ho Hr Hrs. only_open. apply iff_bool.
  rewrite (only_law W s "oneOf" KOneOf (KSubs ts) (i_val i) _ k F Hs Hk) by (concerned || not_late || exact (result_accepts W i s r F S Hw Hr [])).
  rewrite (law_oneOf W _ _ _ _ _ Hk). pose proof (results_bools W i ts rs [s] F S Hw Hrs) as B. rewrite Nat.eqb_eq.
  assert (E : length (filter r_valid rs) = length (filter (fun b => b) (map r_valid rs))).
  { clear. induction rs as [|a rs IH]; [reflexivity|]. cbn. destruct (r_valid a); cbn; congruence. }
  rewrite E. split.
  - intros (bs & F2 & H). now rewrite <- (bools_unique _ _ _ _ _ _ F2 B).
  - intro H. eauto.
Qed.
Print Assumptions C31_results_oneOf.
Theorem C31_results_not : forall W i s t r rt, fit W -> static_world W -> jwf (i_val i) = true ->
  only W s "not" KNot (KSub t) -> result W i s r -> result W i t rt ->
  r_valid r = negb (r_valid rt).
Proof.
  intros W i s t r rt F S Hw Ho Hr Hrt. only_open. apply iff_bool.
  rewrite (only_law W s "not" KNot (KSub t) (i_val i) _ k F Hs Hk) by (concerned || not_late || exact (result_accepts W i s r F S Hw Hr [])).
  rewrite (law_not W _ _ _ _ _ true Hk). pose proof (result_accepts W i t rt F S Hw Hrt [s]) as A. cbn [negb]. split.
  - intro H. rewrite (accepts_unique _ _ _ _ _ _ A H). reflexivity.
  - intro H. apply negb_true_iff in H. rewrite H in A. exact A.
Qed.
Print Assumptions C31_results_not.

(** Hence double negation and De Morgan's laws. *)
Theorem C31_double_negation : forall W i s s' t r r' rt, fit W -> static_world W -> jwf (i_val i) = true ->
  only W s "not" KNot (KSub s') -> only W s' "not" KNot (KSub t) ->
  result W i s r -> result W i s' r' -> result W i t rt -> r_valid r = r_valid rt.
Proof.
  intros W i s s' t r r' rt F S Hw O O' Hr Hr' Hrt.
  rewrite (C31_results_not W i s s' r r'), (C31_results_not W i s' t r' rt) by assumption. apply negb_involutive.
Qed.
Print Assumptions C31_double_negation.
Theorem C31_de_morgan : forall W i s u ts v ns r ru rv rs rns, fit W -> static_world W -> jwf (i_val i) = true ->
  (* s = not u, u = anyOf ts; v = allOf ns, each of ns the negation of one of ts *)
  only W s "not" KNot (KSub u) -> only W u "anyOf" KAnyOf (KSubs ts) ->
  only W v "allOf" KAllOf (KSubs ns) -> Forall2 (fun n t => only W n "not" KNot (KSub t)) ns ts ->
  result W i s r -> result W i u ru -> result W i v rv -> Forall2 (result W i) ts rs -> Forall2 (result W i) ns rns ->
  r_valid r = r_valid rv.
Proof.
  intros W i s u ts v ns r ru rv rs rns F S Hw Os Ou Ov On Hr Hu Hv Hts Hns.
  rewrite (C31_results_not W i s u r ru), (C31_results_anyOf W i u ts ru rs), (C31_results_allOf W i v ns rv rns) by assumption.
  clear - F S Hw On Hts Hns. revert rs rns Hts Hns. induction On as [|n t ns ts O _ IH]; intros rs rns Hts Hns; inversion Hts; inversion Hns; subst; [reflexivity|].
  cbn [existsb forallb]. rewrite negb_orb, (IH _ _ H3 H8). f_equal. symmetry. apply (C31_results_not W i n t); assumption.
Qed.
Print Assumptions C31_de_morgan.

(** {"not": {"anyOf": [{"type": "string"}, {"minimum": 3}]}} and
    {"allOf": [{"not": ...}, {"not": ...}]}, both accepting 2. *)
Definition morgan : list snode :=
  let k := kw_in dialect_2020_12 in
  [ SObj [k "not" (KSub 1)]; SObj [k "anyOf" (KSubs [2; 3])];
    SObj [k "type" (KJ (text "string"))]; SObj [k "minimum" (KJ (int 3))];
    SObj [k "allOf" (KSubs [5; 6])]; SObj [k "not" (KSub 2)]; SObj [k "not" (KSub 3)] ].
Lemma fit_small d legacy l : dialect legacy d -> forallb (good_nodeb d) l = true -> static_refs l = true ->
  no_unevaluated (small l) \/ no_misjudged (small l) -> fit (small l).
Proof. intros D G R U. exists d, legacy. split; [exact D|]. split; [now apply good_small|]. split; [exact U|now apply plain_small]. Qed.
Lemma static_small l : static_refs l = true -> uses_none KRecursiveRef l = true -> static_world (small l).
Proof.
  intros H U s kws key k Hs Hk. split.
  - cbn in Hs. unfold static_refs in H. rewrite forallb_forall in H.
    destruct (nth_in_or_default s l (SBool true)) as [I|I]; [|rewrite I in Hs; discriminate].
    rewrite Hs in I. specialize (H _ I). cbn in H. rewrite forallb_forall in H. specialize (H _ Hk). now apply negb_true_iff.
  - intro C. apply (uses_small KRecursiveRef l U). exists s, kws, key, k. auto.
Qed.
Example C31_case : fit (small morgan) /\ static_world (small morgan)
  /\ valid_of (evaluate_root (small morgan) 9 0 (root (int 2))) = Some true
  /\ valid_of (evaluate_root (small morgan) 9 4 (root (int 2))) = Some true
  /\ valid_of (evaluate_root (small morgan) 9 0 (root (int 4))) = Some false
  /\ valid_of (evaluate_root (small morgan) 9 4 (root (int 4))) = Some false.
Proof.
  split.
  - apply (fit_small dialect_2020_12 false); [now left|vm_compute; reflexivity|vm_compute; reflexivity|].
    left. apply no_unevaluated_small. vm_compute. reflexivity.
  - split; [apply static_small; vm_compute; reflexivity|]. repeat split; vm_compute; reflexivity.
Qed.

(** ** C32 *)
Theorem C32_properties : forall W sc kws k m x, is_kw k KProperties (KSubm m) ->
  (kw_accepts W sc kws k x true <->
   forall name t y, In (name, y) (members x) -> dget name m = Some t -> accepts W sc t y true).
Proof. exact law_properties. Qed.
Print Assumptions C32_properties.
Theorem C32_patternProperties : forall W sc kws k m x, is_kw k KPatternProperties (KSubm m) -> regular W (map fst m) ->
  (kw_accepts W sc kws k x true <->
   forall name y r t, In (name, y) (members x) -> In (r, t) m -> matches W r name = true -> accepts W sc t y true).
Proof. exact law_patternProperties. Qed.
Print Assumptions C32_patternProperties.
Theorem C32_additionalProperties : forall W sc kws k t x, is_kw k KAdditionalProperties (KSub t) ->
  regular W (sub_names (lit "patternProperties") kws) ->
  (kw_accepts W sc kws k x true <->
   forall name y, In (name, y) (members x) -> ~ In name (sub_names (lit "properties") kws) ->
     (forall r, In r (sub_names (lit "patternProperties") kws) -> matches W r name = false) -> accepts W sc t y true).
Proof. exact law_additionalProperties. Qed.
Print Assumptions C32_additionalProperties.
Theorem C32_propertyNames : forall W sc kws k t x, is_kw k KPropertyNames (KSub t) ->
  (kw_accepts W sc kws k x true <-> forall name y, In (name, y) (members x) -> accepts W sc t (JStr name) true).
Proof. exact law_propertyNames. Qed.
Print Assumptions C32_propertyNames.

(** The three together, in the result of evaluation: every member [y] is
    checked by the subschema for its name, by those of all matching patterns,
    and, if there are none, by that of additionalProperties. *)
Theorem C32_partition : forall W fuel s kp mp kq mq ka ta x m r,
  fit W -> jwf x = true -> x = JObj m ->
  w_schema W s = SObj [(lit "properties", kp); (lit "patternProperties", kq); (lit "additionalProperties", ka)] ->
  is_kw kp KProperties (KSubm mp) -> is_kw kq KPatternProperties (KSubm mq) -> is_kw ka KAdditionalProperties (KSub ta) ->
  regular W (map fst mq) ->
  evaluate_root W fuel s (root x) = Ok r ->
  (r_valid r = true <-> forall name y, In (name, y) m ->
     (forall t, dget name mp = Some t -> accepts W [s] t y true) /\
     (forall re t, In (re, t) mq -> matches W re name = true -> accepts W [s] t y true) /\
     (dget name mp = None -> (forall re t, In (re, t) mq -> matches W re name = false) -> accepts W [s] ta y true)).
Proof.
  intros W fuel s kp mp kq mq ka ta x m r F Hw -> Hs Hp Hq Ha R E. set (kws := [(lit "properties", kp); (lit "patternProperties", kq); (lit "additionalProperties", ka)]) in *.
  rewrite (C27_keywords_conjoin W fuel s kws (root (JObj m)) r F Hw Hs); [|intros key k Hin|exact E].
  2:{ unfold kws in Hin. cbn [In] in Hin. unfold late. destruct Hp as [Cp _], Hq as [Cq _], Ha as [Ca _].
      destruct Hin as [X|[X|[X|[]]]]; injection X as <- <-; [rewrite Cp|rewrite Cq|rewrite Ca]; reflexivity. }
  cbn [i_val root].
  pose proof (C32_properties W [s] kws kp mp (JObj m) Hp) as Lp. pose proof (C32_patternProperties W [s] kws kq mq (JObj m) Hq R) as Lq.
  assert (Np : sub_names (lit "properties") kws = map fst mp).
  { unfold sub_names, kws. cbn [dget]. rewrite str_eqb_refl. destruct Hp as [_ ->]. reflexivity. }
  assert (Nq : sub_names (lit "patternProperties") kws = map fst mq).
  { unfold sub_names, kws. replace (dget (lit "patternProperties") _) with (Some kq) by reflexivity. destruct Hq as [_ ->]. reflexivity. }
  assert (Ra : regular W (sub_names (lit "patternProperties") kws)) by now rewrite Nq.
  pose proof (C32_additionalProperties W [s] kws ka ta (JObj m) Ha Ra) as La. rewrite Np, Nq in La. cbn [members] in Lp, Lq, La.
  assert (Cn : forall k, In k [kp; kq; ka] -> concerns (JObj m) k = true).
  { intros k [<-|[<-|[<-|[]]]]; unfold concerns; [destruct Hp as [-> _]|destruct Hq as [-> _]|destruct Ha as [-> _]]; reflexivity. }
  split.
  - intros H name y Hin. split; [|split].
    + intros t Ht. apply (proj1 Lp (H (lit "properties") kp (or_introl eq_refl) (Cn kp (or_introl eq_refl))) name t y Hin Ht).
    + intros re t Hr Hm. apply (proj1 Lq (H (lit "patternProperties") kq (or_intror (or_introl eq_refl)) (Cn kq (or_intror (or_introl eq_refl)))) name y re t Hin Hr Hm).
    + intros Hn Hm. apply (proj1 La (H (lit "additionalProperties") ka (or_intror (or_intror (or_introl eq_refl))) (Cn ka (or_intror (or_intror (or_introl eq_refl))))) name y Hin).
      * intro X. apply dget_None in Hn. exact (Hn X).
      * intros re Hre. apply in_map_iff in Hre. destruct Hre as ([re' t] & <- & Hre). exact (Hm _ _ Hre).
  - intros H key k Hin _. cbn [In kws] in Hin. destruct Hin as [X|[X|[X|[]]]]; injection X as <- <-.
    + apply Lp. intros name t y Hin. apply (H name y Hin).
    + apply Lq. intros name y re t Hin. apply (H name y Hin).
    + apply La. intros name y Hin Hn Hm. apply (H name y Hin); [now apply dget_None|]. intros re t Hre. apply Hm. apply in_map_iff. now exists (re, t).
Qed.
Print Assumptions C32_partition.
(** {"properties": {"a": {"type": "string"}}, "patternProperties": {"x": {"type": "null"}}, "additionalProperties": false} *)
Definition partition_schema : list snode :=
  let k := kw_in dialect_2020_12 in
  [ SObj [k "properties" (KSubm [(lit "a", 1)]); k "patternProperties" (KSubm [(lit "x", 2)]); k "additionalProperties" (KSub 3)];
    SObj [k "type" (KJ (text "string"))]; SObj [k "type" (KJ (text "null"))]; SBool false ].
Example C32_case : fit (small partition_schema) /\ regular (small partition_schema) [lit "x"]
  /\ valid_of (evaluate_root (small partition_schema) 9 0 (root (obj [("a", text "t"); ("ax", JNull)]))) = Some true
  /\ valid_of (evaluate_root (small partition_schema) 9 0 (root (obj [("a", text "t"); ("ax", text "t")]))) = Some false
  /\ valid_of (evaluate_root (small partition_schema) 9 0 (root (obj [("b", text "t")]))) = Some false.
Proof.
  split; [|split; [intros r Hr s; discriminate|repeat split; vm_compute; reflexivity]].
  apply (fit_small dialect_2020_12 false); [now left|vm_compute; reflexivity|vm_compute; reflexivity|].
  left. apply no_unevaluated_small. vm_compute. reflexivity.
Qed.

(** ** C33 *)
Theorem C33_prefixItems : forall W sc kws k ts x, is_kw k KPrefixItems (KSubs ts) ->
  (kw_accepts W sc kws k x true <->
   forall n t y, nth_error ts n = Some t -> nth_error (items x) n = Some y -> accepts W sc t y true).
Proof. exact law_prefixItems. Qed.
Print Assumptions C33_prefixItems.
Theorem C33_items : forall W sc kws k t x, is_kw k KItems (KSub t) ->
  (kw_accepts W sc kws k x true <->
   forall n y, prefix_length kws <= n -> nth_error (items x) n = Some y -> accepts W sc t y true).
Proof. exact law_items. Qed.
Print Assumptions C33_items.

Theorem C33_partition : forall W fuel s kp ts ki t l r,
  fit W -> jwf (JArr l) = true ->
  w_schema W s = SObj [(lit "prefixItems", kp); (lit "items", ki)] ->
  is_kw kp KPrefixItems (KSubs ts) -> is_kw ki KItems (KSub t) ->
  evaluate_root W fuel s (root (JArr l)) = Ok r ->
  (r_valid r = true <-> forall n y, nth_error l n = Some y ->
     accepts W [s] (match nth_error ts n with Some u => u | None => t end) y true).
Proof.
  intros W fuel s kp ts ki t l r F Hw Hs Hp Hi E. set (kws := [(lit "prefixItems", kp); (lit "items", ki)]) in *.
  rewrite (C27_keywords_conjoin W fuel s kws (root (JArr l)) r F Hw Hs); [|intros key k Hin|exact E].
  2:{ unfold kws in Hin. cbn [In] in Hin. unfold late. destruct Hp as [Cp _], Hi as [Ci _].
      destruct Hin as [X|[X|[]]]; injection X as <- <-; [rewrite Cp|rewrite Ci]; reflexivity. }
  cbn [i_val root].
  pose proof (C33_prefixItems W [s] kws kp ts (JArr l) Hp) as Lp. pose proof (C33_items W [s] kws ki t (JArr l) Hi) as Li. cbn [items] in Lp, Li.
  assert (Np : prefix_length kws = length ts).
  { unfold prefix_length, kws. cbn [dget]. rewrite str_eqb_refl. destruct Hp as [_ ->]. reflexivity. }
  rewrite Np in Li.
  assert (Cn : forall k, In k [kp; ki] -> concerns (JArr l) k = true).
  { intros k [<-|[<-|[]]]; unfold concerns; [destruct Hp as [-> _]|destruct Hi as [-> _]]; reflexivity. }
  split.
  - intros H n y Hn. destruct (nth_error ts n) as [u|] eqn:Hu.
    + exact (proj1 Lp (H (lit "prefixItems") kp (or_introl eq_refl) (Cn kp (or_introl eq_refl))) n u y Hu Hn).
    + apply (proj1 Li (H (lit "items") ki (or_intror (or_introl eq_refl)) (Cn ki (or_intror (or_introl eq_refl)))) n y); [now apply nth_error_None|exact Hn].
  - intros H key k Hin _. cbn [In kws] in Hin. destruct Hin as [X|[X|[]]]; injection X as <- <-.
    + apply Lp. intros n u y Hu Hn. specialize (H n y Hn). now rewrite Hu in H.
    + apply Li. intros n y Hl Hn. specialize (H n y Hn). now rewrite (proj2 (nth_error_None ts n) Hl) in H.
Qed.
Print Assumptions C33_partition.
Definition tuple_schema : list snode :=
  let k := kw_in dialect_2020_12 in
  [ SObj [k "prefixItems" (KSubs [1; 2]); k "items" (KSub 3)];
    SObj [k "type" (KJ (text "string"))]; SObj [k "type" (KJ (text "null"))]; SObj [k "type" (KJ (text "integer"))] ].
Example C33_case : fit (small tuple_schema)
  /\ valid_of (evaluate_root (small tuple_schema) 9 0 (root (JArr [text "t"; JNull; int 1; int 2]))) = Some true
  /\ valid_of (evaluate_root (small tuple_schema) 9 0 (root (JArr [text "t"; int 1]))) = Some false
  /\ valid_of (evaluate_root (small tuple_schema) 9 0 (root (JArr [text "t"; JNull; int 1; JNull]))) = Some false.
Proof.
  split; [|repeat split; vm_compute; reflexivity].
  apply (fit_small dialect_2020_12 false); [now left|vm_compute; reflexivity|vm_compute; reflexivity|].
  left. apply no_unevaluated_small. vm_compute. reflexivity.
Qed.

(** ** C36 *)
(** [low] is minContains, 1 if absent; [high] is maxContains, if present. *)
Theorem C36_contains : forall W sc kws k t x (low : Z) (high : option Z), is_kw k KContains (KSub t) ->
  (dget (lit "minContains") kws = None /\ low = 1%Z \/ int_limit (lit "minContains") kws low) ->
  match high with Some h => int_limit (lit "maxContains") kws h | None => dget (lit "maxContains") kws = None end ->
  (kw_accepts W sc kws k x true <->
   exists bs, Forall2 (fun y b => accepts W sc t y b) (items x) bs /\
     let n := Z.of_nat (length (filter (fun b => b) bs)) in (low <= n)%Z /\ match high with Some h => (n <= h)%Z | None => True end).
Proof. exact law_contains. Qed.
Print Assumptions C36_contains.
(** minContains and maxContains have no say of their own. *)
Theorem C36_bounds_alone : forall W sc kws k x, kw_class k = Std KMinContains \/ kw_class k = Std KMaxContains -> kw_accepts W sc kws k x true.
Proof. exact law_min_max_contains. Qed.
Print Assumptions C36_bounds_alone.
Definition contains_schema (low high : Z) : list snode :=
  let k := kw_in dialect_2020_12 in
  [ SObj [k "contains" (KSub 1); k "maxContains" (KJ (int high)); k "minContains" (KJ (int low))]; SObj [k "type" (KJ (text "string"))] ].
Example C36_case : fit (small (contains_schema 0 1))
  /\ (forall low high l, In (low, high, l) [(0, 1, [int 1]); (0, 1, [int 1; text "a"]); (2, 2, [text "a"; JNull; text "b"])]%Z ->
        valid_of (evaluate_root (small (contains_schema low high)) 9 0 (root (JArr l))) = Some true)
  /\ (forall low high l, In (low, high, l) [(0, 1, [text "b"; text "a"]); (1, 1, [int 1]); (2, 3, [text "a"; JNull])]%Z ->
        valid_of (evaluate_root (small (contains_schema low high)) 9 0 (root (JArr l))) = Some false).
Proof.
  split; [|split; intros low high l [H|[H|[H|[]]]]; injection H as <- <- <-; vm_compute; reflexivity].
  apply (fit_small dialect_2020_12 false); [now left|vm_compute; reflexivity|vm_compute; reflexivity|].
  left. apply no_unevaluated_small. vm_compute. reflexivity.
Qed.

(** ** C37: evaluating the keyword itself, with no condition on the world. *)
Theorem C37_assertions : forall W ev i k c anc parent n n',
  kw_class k = Std c -> asserts c = true -> value_ok k = true ->
  jwf (i_val i) = true -> finite (i_val i) = true -> plain_value (kw_json k) (fun u => jwf u = true /\ finite u = true) ->
  applicable k i = true -> r_valid n = true ->
  eval_std W ev k c i anc parent n = Ok n' -> (r_valid n' = true <-> holds c (kw_json k) (i_val i)).
Proof. exact eval_holds. Qed.
Print Assumptions C37_assertions.
(** exclusiveMinimum with the float 2^53 accepts the integer 2^53 + 1, which
    would equal it once rounded to a float; and the float 5.0 is an integer. *)
Example C37_case :
  let k key v := snd (kw_in dialect_2020_12 key (KJ v)) in
  let run k c x := valid_of (eval_std (small []) (fun _ _ _ n => Ok n) k c (root x) [] (new_root 0 (root x)) (new_root 0 (root x))) in
  run (k "exclusiveMinimum" (JNum (NDyad 1 53))) KExclusiveMinimum (int (2 ^ 53 + 1)) = Some true
  /\ run (k "exclusiveMinimum" (JNum (NDyad 1 53))) KExclusiveMinimum (int (2 ^ 53)) = Some false
  /\ run (k "type" (text "integer")) KType_ (JNum (NDyad 10 (-1))) = Some true
  /\ run (k "uniqueItems" (JBool true)) KUniqueItems (JArr [int 1; text "1"; JNum (NDyad 2 (-1))]) = Some false.
Proof. vm_compute. auto. Qed.
