(** What a single keyword demands, in terms of what its subschemas accept. *)
From Coq Require Import List.
From Verif Require Export SchemaStrict.
Import ListNotations.
Open Scope nat_scope.

Lemma ext_trans {A} (a b c : option A) : ext a b -> ext b c -> ext a c.
Proof. intros [->| ->]; [now left|auto]. Qed.

Lemma filter_all {A} (f : A -> bool) l : (forall a, In a l -> f a = true) -> filter f l = l.
Proof. induction l as [|a l IH]; intro H; [reflexivity|]. cbn. rewrite (H a (or_introl eq_refl)), IH; [reflexivity|]. intros. apply H. now right. Qed.

(** ** Judging several things with one depth. *)
Section Deep.
Context {A B : Type}.
Variable f : nat -> A -> option B.
Hypothesis Hf : forall n a, ext (f n a) (f (S n) a).

Lemma deep_more n m a b : n <= m -> f n a = Some b -> f m a = Some b.
Proof. induction 1 as [|m _ IH]; [auto|]. intro E. exact (ext_some _ _ _ (Hf m a) (IH E)). Qed.
Lemma deep_unique n m a b c : f n a = Some b -> f m a = Some c -> b = c.
Proof.
  intros E E'. destruct (Nat.le_ge_cases n m) as [L|L].
  - rewrite (deep_more _ _ _ _ L E) in E'. congruence.
  - rewrite (deep_more _ _ _ _ L E') in E. congruence.
Qed.
Lemma deep_all l os : (exists n, all_some (map (f n) l) = Some os) <-> Forall2 (fun a b => exists n, f n a = Some b) l os.
Proof.
  split.
  - intros [n E]. revert os E. induction l as [|a l IH]; intros os E; cbn [map all_some] in E; [injection E as <-; constructor|].
    destruct (f n a) as [b|] eqn:Fa; [|discriminate]. destruct (all_some (map (f n) l)) as [bs|]; [|discriminate]. injection E as <-.
    constructor; [now exists n|now apply IH].
  - induction 1 as [|a b l bs [n E] _ [m IH]]; [now exists 0|]. exists (max n m). cbn [map all_some].
    rewrite (deep_more n (max n m) a b (Nat.le_max_l _ _) E).
    replace (all_some (map (f (max n m)) l)) with (Some bs); [reflexivity|]. symmetry.
    assert (M : forall k, m <= k -> all_some (map (f k) l) = Some bs).
    { intros k Hk. clear E. revert bs IH. induction l as [|c l IHl]; intros bs IH; [exact IH|]. cbn [map all_some] in IH |- *.
      destruct (f m c) as [d|] eqn:Fc; [|discriminate]. rewrite (deep_more _ _ _ _ Hk Fc).
      destruct (all_some (map (f m) l)) as [ds|]; [|discriminate]. now rewrite (IHl _ eq_refl). }
    apply M, Nat.le_max_r.
Qed.
End Deep.

Section Laws.
Variable W : world.
Notation choose := (dynamic_choice W).
Notation jd := (judge W choose).
Definition gives (sc : list sid) (s : sid) (x : json) (o : outcome) : Prop := exists n, jd n sc s x = Some o.

Lemma accepts_gives sc s x b : accepts W sc s x b <-> exists o, gives sc s x o /\ o_ok o = b.
Proof. split; [intros (n & o & E & V); exists o; split; [now exists n|exact V]|intros (o & [n E] & V); now exists n, o]. Qed.
Lemma gives_unique sc s x o o' : gives sc s x o -> gives sc s x o' -> o = o'.
Proof. intros [n E] [m E']. exact (judge_unique _ _ _ _ _ _ _ _ _ E E'). Qed.
Lemma accepts_unique sc s x b b' : accepts W sc s x b -> accepts W sc s x b' -> b = b'.
Proof. rewrite !accepts_gives. intros (o & G & <-) (o' & G' & <-). f_equal. exact (gives_unique _ _ _ _ _ G G'). Qed.

Definition kw_gives sc kws x k o := exists n, judge_keyword W choose (jd n) sc kws x k = Some o.
Lemma ext_kw n sc kws x k : ext (judge_keyword W choose (jd n) sc kws x k) (judge_keyword W choose (jd (S n)) sc kws x k).
Proof.
  unfold judge_keyword. destruct (kw_class k); [|apply ext_refl]. apply ext_judge_std; [intros; apply judge_mono|]. intros _ sc' t. reflexivity.
Qed.
Lemma kw_accepts_unique sc kws k x b b' : kw_accepts W sc kws k x b -> kw_accepts W sc kws k x b' -> b = b'.
Proof.
  intros (n & o & E & <-) (m & o' & E' & <-). f_equal.
  exact (deep_unique (fun n k => judge_keyword W choose (jd n) sc kws x k) (fun n k => ext_kw n sc kws x k) n m k o o' E E').
Qed.

(** ** Lists of judgements. *)
Lemma deep_gives {A} (sc : A -> list sid) (t : A -> sid) (y : A -> json) l os :
  (exists n, all_some (map (fun a => jd n (sc a) (t a) (y a)) l) = Some os) <-> Forall2 (fun a o => gives (sc a) (t a) (y a) o) l os.
Proof. exact (deep_all (fun n a => jd n (sc a) (t a) (y a)) (fun n a => judge_mono W choose n _ _ _) l os). Qed.

Lemma Forall2_accepts {A} (P : A -> outcome -> Prop) (Q : A -> bool -> Prop) l :
  (forall a b, Q a b <-> exists o, P a o /\ o_ok o = b) ->
  (exists os, Forall2 P l os /\ all_accept os = true) <-> (forall a, In a l -> Q a true).
Proof.
  intro H. split.
  - intros (os & F & Ha) a Hin. apply H. unfold all_accept in Ha. rewrite forallb_forall in Ha.
    induction F as [|c o l os Hp F IH]; [destruct Hin|]. destruct Hin as [<-|Hin].
    + exists o. split; [exact Hp|]. apply Ha. now left.
    + apply IH; [|exact Hin]. intros o' Ho'. apply Ha. now right.
  - induction l as [|a l IH]; intro Hq; [exists []; split; [constructor|reflexivity]|].
    destruct IH as (os & F & Ha); [intros; apply Hq; now right|]. destruct (proj1 (H a true) (Hq a (or_introl eq_refl))) as (o & P1 & O).
    exists (o :: os). split; [now constructor|]. cbn. now rewrite O.
Qed.
Lemma Forall2_bools {A} (P : A -> outcome -> Prop) (Q : A -> bool -> Prop) l (p : list bool -> bool) :
  (forall a b, Q a b <-> exists o, P a o /\ o_ok o = b) ->
  (exists os, Forall2 P l os /\ p (map o_ok os) = true) <-> (exists bs, Forall2 Q l bs /\ p bs = true).
Proof.
  intro H. split.
  - intros (os & F & E). exists (map o_ok os). split; [|exact E]. clear E. induction F; [constructor|]. constructor; [apply H; eauto|assumption].
  - intros (bs & F & E). assert (X : exists os, Forall2 P l os /\ map o_ok os = bs).
    { clear E. induction F as [|a b l bs Hq F IH]; [exists []; split; constructor|]. destruct IH as (os & F' & <-). apply H in Hq.
      destruct Hq as (o & Ho & <-). exists (o :: os). split; [now constructor|reflexivity]. }
    destruct X as (os & F' & <-). now exists os.
Qed.

Definition is_kw (k : keyword) (c : stdclass) (v : kjson) : Prop := kw_class k = Std c /\ kw_json k = v.

Ltac open_kw Hk := destruct Hk as [Hc Hv]; unfold kw_accepts, judge_keyword; rewrite Hc; cbn [judge_std]; rewrite ?Hv; cbn [obind sub_of subs_of subm_of]; rewrite ?Hv; cbn [obind].

Lemma kw_all_law {A} (t : A -> sid) (y : A -> json) sc l (g : list outcome -> outcome) :
  (forall os, o_ok (g os) = all_accept os) ->
  (exists n o, obind (all_some (map (fun a => jd n sc (t a) (y a)) l)) (fun os => Some (g os)) = Some o /\ o_ok o = true)
  <-> (forall a, In a l -> accepts W sc (t a) (y a) true).
Proof.
  intro Hg. rewrite <- (Forall2_accepts (fun a o => gives sc (t a) (y a) o) (fun a b => accepts W sc (t a) (y a) b));
    [|intros; apply accepts_gives].
  split.
  - intros (n & o & E & V). destruct (all_some _) as [os|] eqn:A1 in E; [|discriminate]. injection E as <-. exists os.
    split; [apply (deep_gives (fun _ => sc) t y); now exists n|]. now rewrite <- Hg.
  - intros (os & F & V). apply (deep_gives (fun _ => sc) t y) in F. destruct F as [n F]. exists n, (g os). rewrite F. split; [reflexivity|]. now rewrite Hg.
Qed.
Lemma kw_bools_law {A} (t : A -> sid) (y : A -> json) sc l (g : list outcome -> option outcome) (p : list bool -> bool) :
  (forall os, exists o, g os = Some o /\ o_ok o = p (map o_ok os)) ->
  (exists n o, obind (all_some (map (fun a => jd n sc (t a) (y a)) l)) g = Some o /\ o_ok o = true)
  <-> (exists bs, Forall2 (fun a b => accepts W sc (t a) (y a) b) l bs /\ p bs = true).
Proof.
  intro Hg. rewrite <- (Forall2_bools (fun a o => gives sc (t a) (y a) o) (fun a b => accepts W sc (t a) (y a) b));
    [|intros; apply accepts_gives].
  split.
  - intros (n & o & E & V). destruct (all_some _) as [os|] eqn:A1 in E; [|discriminate]. cbn [obind] in E. exists os.
    split; [apply (deep_gives (fun _ => sc) t y); now exists n|]. destruct (Hg os) as (o' & E' & V'). congruence.
  - intros (os & F & V). apply (deep_gives (fun _ => sc) t y) in F. destruct F as [n F]. destruct (Hg os) as (o & E' & V').
    exists n, o. rewrite F. split; [exact E'|congruence].
Qed.

(** ** In-place applicators. *)
Lemma law_ref sc kws k t x b : kw_class k = Std KRef -> kw_ref k = Some t -> kw_accepts W sc kws k x b <-> accepts W sc t x b.
Proof. intros Hc Hr. unfold kw_accepts, judge_keyword. rewrite Hc. cbn [judge_std]. rewrite Hr. reflexivity. Qed.
Lemma law_dynamicRef sc kws k t x b : kw_class k = Std KDynamicRef -> kw_ref k = Some t ->
  kw_accepts W sc kws k x b <-> accepts W sc (if kw_dynamic k then dynamic_choice W (kw_fragment k) sc t else t) x b.
Proof. intros Hc Hr. unfold kw_accepts, judge_keyword. rewrite Hc. cbn [judge_std]. rewrite Hr. reflexivity. Qed.
Lemma law_recursiveRef sc kws k t x b : kw_class k = Std KRecursiveRef -> kw_ref k = Some t ->
  kw_accepts W sc kws k x b <-> accepts W sc (recursive_choice W sc t) x b.
Proof. intros Hc Hr. unfold kw_accepts, judge_keyword. rewrite Hc. cbn [judge_std]. rewrite Hr. reflexivity. Qed.

Lemma law_allOf sc kws k ts x : is_kw k KAllOf (KSubs ts) ->
  kw_accepts W sc kws k x true <-> (forall t, In t ts -> accepts W sc t x true).
Proof. intro Hk. open_kw Hk. apply (kw_all_law (fun t => t) (fun _ => x) sc ts (fun os => gather (all_accept os) os)). reflexivity. Qed.

Lemma existsb_ok os : existsb o_ok os = existsb (fun b => b) (map o_ok os).
Proof. induction os as [|o os IH]; [reflexivity|]. cbn. now rewrite IH. Qed.
Lemma count_ok os : count os = length (filter (fun b => b) (map o_ok os)).
Proof. unfold count. induction os as [|o os IH]; [reflexivity|]. cbn. destruct (o_ok o); cbn; congruence. Qed.

Lemma law_anyOf sc kws k ts x : is_kw k KAnyOf (KSubs ts) ->
  kw_accepts W sc kws k x true <->
  (exists bs, Forall2 (fun t b => accepts W sc t x b) ts bs /\ existsb (fun b => b) bs = true).
Proof.
  intro Hk. open_kw Hk. apply (kw_bools_law (fun t => t) (fun _ => x) sc ts (fun os => Some (gather (existsb o_ok os) os)) (existsb (fun b => b))).
  intro os. eexists. split; [reflexivity|]. apply existsb_ok.
Qed.
Lemma law_oneOf sc kws k ts x : is_kw k KOneOf (KSubs ts) ->
  kw_accepts W sc kws k x true <->
  (exists bs, Forall2 (fun t b => accepts W sc t x b) ts bs /\ length (filter (fun b => b) bs) = 1).
Proof.
  intro Hk. open_kw Hk.
  rewrite (kw_bools_law (fun t => t) (fun _ => x) sc ts (fun os => Some (gather (Nat.eqb (count os) 1) os))
             (fun bs => Nat.eqb (length (filter (fun b => b) bs)) 1)).
  - split; intros (bs & F & E); exists bs; (split; [exact F|]); now apply Nat.eqb_eq.
  - intro os. eexists. split; [reflexivity|]. cbn. now rewrite count_ok.
Qed.
Lemma law_not sc kws k t x b : is_kw k KNot (KSub t) -> kw_accepts W sc kws k x b <-> accepts W sc t x (negb b).
Proof.
  intro Hk. open_kw Hk. split.
  - intros (n & o & E & V). destruct (jd n sc t x) as [o'|] eqn:J; [|discriminate]. injection E as <-. exists n, o'. split; [exact J|].
    cbn in V. destruct (o_ok o'), b; discriminate || reflexivity.
  - intros (n & o & E & V). exists n. rewrite E. eexists. split; [reflexivity|]. cbn. rewrite V. apply negb_involutive.
Qed.
Lemma law_if sc kws k t x : is_kw k KIf (KSub t) -> kw_accepts W sc kws k x true <-> (exists b, accepts W sc t x b).
Proof.
  intro Hk. open_kw Hk. split.
  - intros (n & o & E & V). destruct (jd n sc t x) as [o'|] eqn:J; [|discriminate]. now exists (o_ok o'), n, o'.
  - intros (b & n & o & E & V). exists n. rewrite E. now eexists.
Qed.
Lemma both_depths sc t u x o o' : gives sc t x o -> gives sc u x o' -> exists n, jd n sc t x = Some o /\ jd n sc u x = Some o'.
Proof.
  intros [n E] [m E']. exists (max n m). split; [apply (judge_more W choose n)|apply (judge_more W choose m)]; auto using Nat.le_max_l, Nat.le_max_r.
Qed.
Lemma law_branch (want : bool) sc kws k kc c t x :
  kw_class k = Std (if want then KThen else KElse) -> kw_json k = KSub t ->
  dget (lit "if") kws = Some kc -> kw_json kc = KSub c ->
  kw_accepts W sc kws k x true <->
  (accepts W sc c x (negb want) \/ (accepts W sc c x want /\ accepts W sc t x true)).
Proof.
  intros Hc Hv Hi Hj. unfold kw_accepts, judge_keyword. rewrite Hc. destruct want; cbn [judge_std]; rewrite Hi; cbn [obind sub_of]; rewrite Hj, Hv; cbn [obind negb].
  - split.
    + intros (n & o & E & V). destruct (jd n sc c x) as [oc|] eqn:J; [|discriminate]. cbn [obind] in E. destruct (o_ok oc) eqn:O.
      * right. split; [now exists n, oc|now exists n, o].
      * left. now exists n, oc.
    + intros [(n & oc & J & O)|[H1 H2]].
      * exists n, (plain true). rewrite J. cbn [obind]. now rewrite O.
      * apply accepts_gives in H1, H2. destruct H1 as (oc & G1 & O1), H2 as (o & G2 & O2). destruct (both_depths _ _ _ _ _ _ G1 G2) as (n & E1 & E2).
        exists n, o. rewrite E1. cbn [obind]. rewrite O1. auto.
  - split.
    + intros (n & o & E & V). destruct (jd n sc c x) as [oc|] eqn:J; [|discriminate]. cbn [obind] in E. destruct (o_ok oc) eqn:O.
      * left. now exists n, oc.
      * right. split; [now exists n, oc|now exists n, o].
    + intros [(n & oc & J & O)|[H1 H2]].
      * exists n, (plain true). rewrite J. cbn [obind]. now rewrite O.
      * apply accepts_gives in H1, H2. destruct H1 as (oc & G1 & O1), H2 as (o & G2 & O2). destruct (both_depths _ _ _ _ _ _ G1 G2) as (n & E1 & E2).
        exists n, o. rewrite E1. cbn [obind]. rewrite O1. auto.
Qed.
Lemma law_branch_alone (want : bool) sc kws k x :
  kw_class k = Std (if want then KThen else KElse) -> dget (lit "if") kws = None -> kw_accepts W sc kws k x true.
Proof.
  intros Hc Hi. unfold kw_accepts, judge_keyword. rewrite Hc. exists 0, (plain true). destruct want; cbn [judge_std]; rewrite Hi; auto.
Qed.
Lemma law_dependentSchemas sc kws k m x : is_kw k KDependentSchemas (KSubm m) ->
  kw_accepts W sc kws k x true <-> (forall name t, In (name, t) m -> has x name = true -> accepts W sc t x true).
Proof.
  intro Hk. open_kw Hk.
  rewrite (kw_all_law snd (fun _ => x) sc (filter (fun nt => has x (fst nt)) m) (fun os => gather (all_accept os) os)) by reflexivity.
  split.
  - intros H name t Hin Hh. apply (H (name, t)). apply filter_In. auto.
  - intros H [name t] Hin. apply filter_In in Hin. destruct Hin as [Hin Hh]. exact (H _ _ Hin Hh).
Qed.

(** ** Arrays. *)
Lemma in_combine_nth {A B} (l : list A) (r : list B) a b :
  In (a, b) (combine l r) <-> exists n, nth_error l n = Some a /\ nth_error r n = Some b.
Proof.
  revert r. induction l as [|c l IH]; intros [|d r]; cbn [combine].
  1-3: (split; [intros []|intros ([|n] & H1 & H2); discriminate]).
  split.
  - intros [H|H]; [injection H as <- <-; now exists 0|]. apply IH in H. destruct H as (n & H1 & H2). now exists (S n).
  - intros ([|n] & H1 & H2); cbn in H1, H2; [left; congruence|]. right. apply IH. now exists n.
Qed.
Lemma skipn_nth {A} (l : list A) k a : In a (skipn k l) <-> exists n, k <= n /\ nth_error l n = Some a.
Proof.
  revert l. induction k as [|k IH]; intros l.
  - cbn [skipn]. split; [intro H; apply In_nth_error in H; destruct H as [n H]; exists n; split; [lia|exact H]|].
    intros (n & _ & H). exact (nth_error_In _ _ H).
  - destruct l as [|c l]; cbn [skipn]; [split; [intros []|intros ([|n] & _ & H); discriminate]|]. rewrite IH. split.
    + intros (n & H1 & H2). exists (S n). split; [lia|exact H2].
    + intros ([|n] & H1 & H2); [lia|]. exists n. split; [lia|exact H2].
Qed.

Lemma law_pairs sc ts l :
  (exists n o, judge_pairs (jd n) sc ts l = Some o /\ o_ok o = true) <->
  (forall n t y, nth_error ts n = Some t -> nth_error l n = Some y -> accepts W sc t y true).
Proof.
  unfold judge_pairs. rewrite (kw_all_law fst snd sc (combine ts l) (fun os => mkO (all_accept os) [] (seq 0 (min (length ts) (length l))) [])) by reflexivity.
  split.
  - intros H n t y H1 H2. apply (H (t, y)). apply in_combine_nth. eauto.
  - intros H [t y] Hin. apply in_combine_nth in Hin. destruct Hin as (n & H1 & H2). exact (H n t y H1 H2).
Qed.
Lemma law_rest sc start t l :
  (exists n o, judge_rest (jd n) sc start t l = Some o /\ o_ok o = true) <->
  (forall n y, start <= n -> nth_error l n = Some y -> accepts W sc t y true).
Proof.
  unfold judge_rest, judge_all.
  rewrite (kw_all_law (fun _ => t) (fun y => y) sc (skipn start l) (fun os => mkO (all_accept os) [] (seq start (length l - start)) [])) by reflexivity.
  split.
  - intros H n y H1 H2. apply H. apply skipn_nth. eauto.
  - intros H y Hin. apply skipn_nth in Hin. destruct Hin as (n & H1 & H2). exact (H n y H1 H2).
Qed.
Lemma law_prefixItems sc kws k ts x : is_kw k KPrefixItems (KSubs ts) ->
  kw_accepts W sc kws k x true <->
  (forall n t y, nth_error ts n = Some t -> nth_error (items x) n = Some y -> accepts W sc t y true).
Proof. intro Hk. open_kw Hk. apply law_pairs. Qed.
(** The number of items that prefixItems covers. *)
Definition prefix_length (kws : list (pystr * keyword)) : nat :=
  match dget (lit "prefixItems") kws with
  | Some k => match kw_json k with KSubs ts => length ts | _ => 0 end
  | None => 0
  end.
Lemma law_items sc kws k t x : is_kw k KItems (KSub t) ->
  kw_accepts W sc kws k x true <->
  (forall n y, prefix_length kws <= n -> nth_error (items x) n = Some y -> accepts W sc t y true).
Proof.
  intro Hk. open_kw Hk. rewrite law_rest. unfold subs_of, prefix_length.
  destruct (dget (lit "prefixItems") kws) as [kp|]; [|reflexivity]. cbn [obind]. destruct (kw_json kp); reflexivity.
Qed.
Lemma law_items_2019_sub sc kws k t x : is_kw k KItems2019 (KSub t) ->
  kw_accepts W sc kws k x true <-> (forall y, In y (items x) -> accepts W sc t y true).
Proof.
  intro Hk. open_kw Hk. rewrite law_rest. split.
  - intros H y Hin. apply In_nth_error in Hin. destruct Hin as [n Hn]. exact (H n y (Nat.le_0_l _) Hn).
  - intros H n y _ Hn. exact (H y (nth_error_In _ _ Hn)).
Qed.
Lemma law_items_2019_subs sc kws k ts x : is_kw k KItems2019 (KSubs ts) ->
  kw_accepts W sc kws k x true <->
  (forall n t y, nth_error ts n = Some t -> nth_error (items x) n = Some y -> accepts W sc t y true).
Proof. intro Hk. open_kw Hk. apply law_pairs. Qed.
Lemma law_additionalItems sc kws k t x ki ts : is_kw k KAdditionalItems (KSub t) ->
  dget (lit "items") kws = Some ki -> kw_json ki = KSubs ts ->
  kw_accepts W sc kws k x true <->
  (forall n y, length ts <= n -> nth_error (items x) n = Some y -> accepts W sc t y true).
Proof.
  intros Hk Hi Hj. destruct Hk as [Hc Hv]. unfold kw_accepts, judge_keyword. rewrite Hc. cbn [judge_std]. unfold subs_of, sub_of. cbn [obind].
  rewrite Hi. cbn [obind]. rewrite Hj, Hv. cbn [obind]. apply law_rest.
Qed.
Lemma law_additionalItems_alone sc kws k x : kw_class k = Std KAdditionalItems ->
  (forall ki ts, dget (lit "items") kws = Some ki -> kw_json ki <> KSubs ts) -> kw_accepts W sc kws k x true.
Proof.
  intros Hc Hn. unfold kw_accepts, judge_keyword. rewrite Hc. exists 0, (plain true). cbn [judge_std]. unfold subs_of.
  destruct (dget (lit "items") kws) as [ki|]; [|auto]. cbn [obind]. destruct (kw_json ki) eqn:Hj; auto. exfalso. exact (Hn _ _ eq_refl Hj).
Qed.

(** The bounds of contains, where minContains and maxContains are integers. *)
Definition int_limit (key : pystr) (kws : list (pystr * keyword)) (z : Z) : Prop :=
  exists k, dget key kws = Some k /\ kw_json k = KJ (JNum (NInt z)).
Lemma law_contains sc kws k t x (low : Z) (high : option Z) : is_kw k KContains (KSub t) ->
  (dget (lit "minContains") kws = None /\ low = 1%Z \/ int_limit (lit "minContains") kws low) ->
  match high with Some h => int_limit (lit "maxContains") kws h | None => dget (lit "maxContains") kws = None end ->
  kw_accepts W sc kws k x true <->
  (exists bs, Forall2 (fun y b => accepts W sc t y b) (items x) bs /\
    let n := Z.of_nat (length (filter (fun b => b) bs)) in (low <= n)%Z /\ match high with Some h => (n <= h)%Z | None => True end).
Proof.
  intros Hk Hlow Hhigh. open_kw Hk. unfold judge_all.
  rewrite (kw_bools_law (fun _ => t) (fun y => y) sc (items x) _
    (fun bs => let n := Z.of_nat (length (filter (fun b => b) bs)) in (low <=? n)%Z && match high with Some h => (n <=? h)%Z | None => true end)).
  - split; intros (bs & F & E); exists bs; (split; [exact F|]); cbv zeta in *.
    + apply andb_true_iff in E. destruct E as [E1 E2]. split; [lia|]. destruct high; [lia|exact I].
    + destruct E as [E1 E2]. apply andb_true_iff. split; [lia|]. destruct high; [lia|reflexivity].
  - intro os. cbv zeta. rewrite count_ok. set (c := length _).
    clearbody c.
    assert (L : match dget (lit "minContains") kws with
                | Some k' => limit_ok (fun a b => num_leb b a) (size c) (kw_json k')
                | None => Some (negb (Nat.eqb c 0)) end = Some (low <=? Z.of_nat c)%Z).
    { destruct Hlow as [[-> ->]|(k' & -> & Hj)].
      - f_equal. destruct c; [reflexivity|]. cbn [Nat.eqb negb]. symmetry. apply Z.leb_le. lia.
      - unfold limit_ok. rewrite Hj. reflexivity. }
    rewrite L. cbn [obind].
    assert (Hi : match dget (lit "maxContains") kws with
                 | Some k' => limit_ok (fun a b => negb (num_gtb a b)) (size c) (kw_json k')
                 | None => Some true end = Some match high with Some h => (Z.of_nat c <=? h)%Z | None => true end).
    { destruct high as [h|].
      - destruct Hhigh as (k' & -> & Hj). unfold limit_ok. rewrite Hj. cbn [limit_of obind]. f_equal. unfold num_gtb, num_ltb, size. cbn [num_compare]. unfold Z.leb. rewrite (Z.compare_antisym (Z.of_nat c) h). now destruct (Z.of_nat c ?= h)%Z.
      - now rewrite Hhigh. }
    rewrite Hi. cbn [obind]. eexists. split; [reflexivity|]. reflexivity.
Qed.
Lemma law_min_max_contains sc kws k x : kw_class k = Std KMinContains \/ kw_class k = Std KMaxContains -> kw_accepts W sc kws k x true.
Proof. intro H. unfold kw_accepts, judge_keyword. exists 0, (plain true). destruct H as [-> | ->]; auto. Qed.

(** ** Objects. *)
Lemma law_properties sc kws k m x : is_kw k KProperties (KSubm m) ->
  kw_accepts W sc kws k x true <->
  (forall name t y, In (name, y) (members x) -> dget name m = Some t -> accepts W sc t y true).
Proof.
  intro Hk. open_kw Hk. set (present := filter (fun kv => dmem (fst kv) m) (members x)).
  assert (E : forall n, map (fun kv => obind (dget (fst kv) m) (fun t => jd n sc t (snd kv))) present
                        = map (fun kv => jd n sc (match dget (fst kv) m with Some t => t | None => 0 end) (snd kv)) present).
  { intro n. apply map_ext_in. intros [name y] Hin. apply filter_In in Hin. destruct Hin as [_ Hin]. cbn [fst snd] in *. unfold dmem in Hin.
    destruct (dget name m); [reflexivity|discriminate]. }
  transitivity (exists n o, obind (all_some (map (fun kv => jd n sc (match dget (fst kv) m with Some t => t | None => 0 end) (snd kv)) present))
                  (fun os => Some (mkO (all_accept os) (map fst present) [] [])) = Some o /\ o_ok o = true).
  { split; intros (n & o & H); exists n, o; [rewrite <- E|rewrite E]; exact H. }
  rewrite (kw_all_law (fun kv => match dget (fst kv) m with Some t => t | None => 0 end) snd sc present
             (fun os => mkO (all_accept os) (map fst present) [] [])) by reflexivity.
  split.
  - intros H name t y Hin Hd. specialize (H (name, y)). cbn [fst snd] in H. rewrite Hd in H. apply H. apply filter_In. split; [exact Hin|].
    unfold dmem. cbn [fst]. now rewrite Hd.
  - intros H [name y] Hin. apply filter_In in Hin. destruct Hin as [Hin Hd]. cbn [fst snd] in *. unfold dmem in Hd.
    destruct (dget name m) as [t|] eqn:D; [|discriminate]. exact (H _ _ _ Hin D).
Qed.

(** Every name can be matched against every regular expression of the list. *)
Definition regular (rs : list pystr) : Prop := forall r, In r rs -> forall s, w_search W r s <> None.
Definition matches (r name : pystr) : bool := match w_search W r name with Some b => b | None => false end.

Lemma search_all m name : regular (map fst m) ->
  all_some (map (fun rt : pystr * sid => w_search W (fst rt) name) m) = Some (map (fun rt => matches (fst rt) name) m).
Proof.
  intro R. induction m as [|[r t] m IH]; [reflexivity|]. cbn [map all_some fst]. unfold matches at 1.
  destruct (w_search W r name) as [b|] eqn:E; [|exfalso; exact (R r (or_introl eq_refl) name E)].
  rewrite IH; [reflexivity|]. intros r' Hr'. apply R. now right.
Qed.
Lemma hits_eq (m : list (pystr * sid)) name :
  map fst (filter snd (combine (map snd m) (map (fun rt => matches (fst rt) name) m))) = map snd (filter (fun rt => matches (fst rt) name) m).
Proof. induction m as [|[r t] m IH]; [reflexivity|]. cbn [map combine filter fst snd]. destruct (matches r name); cbn [map fst snd]; now rewrite IH. Qed.

Lemma law_patternProperties sc kws k m x : is_kw k KPatternProperties (KSubm m) -> regular (map fst m) ->
  kw_accepts W sc kws k x true <->
  (forall name y r t, In (name, y) (members x) -> In (r, t) m -> matches r name = true -> accepts W sc t y true).
Proof.
  intros Hk R. open_kw Hk.
  set (one := fun n (kv : pystr * json) => obind (all_some (map (fun t => jd n sc t (snd kv)) (map snd (filter (fun rt => matches (fst rt) (fst kv)) m))))
    (fun os => Some (mkO (all_accept os) (match map snd (filter (fun rt => matches (fst rt) (fst kv)) m) with [] => [] | _ => [fst kv] end) [] []))).
  assert (E : forall n, map (fun kv => obind (all_some (map (fun rt => w_search W (fst rt) (fst kv)) m)) (fun bs =>
      let hits := map fst (filter snd (combine (map snd m) bs)) in
      obind (all_some (map (fun t => jd n sc t (snd kv)) hits)) (fun os =>
      Some (mkO (all_accept os) (match hits with [] => [] | _ => [fst kv] end) [] [])))) (members x) = map (one n) (members x)).
  { intro n. apply map_ext. intro kv. rewrite search_all by exact R. cbn [obind]. cbv zeta. rewrite hits_eq. reflexivity. }
  assert (M : forall n kv, ext (one n kv) (one (S n) kv)).
  { intros n kv. apply ext_bind; [|intro; apply ext_refl]. apply ext_map. intro. apply judge_mono. }
  transitivity (exists n o, obind (all_some (map (one n) (members x))) (fun os => Some (mkO (all_accept os) (flat_map o_names os) [] [])) = Some o /\ o_ok o = true).
  { split; intros (n & o & H); exists n, o; [rewrite <- E|rewrite E]; exact H. }
  assert (A1 : (exists n o, obind (all_some (map (one n) (members x))) (fun os => Some (mkO (all_accept os) (flat_map o_names os) [] [])) = Some o /\ o_ok o = true)
    <-> exists os, Forall2 (fun kv o => exists n, one n kv = Some o) (members x) os /\ all_accept os = true).
  { split.
    - intros (n & o & H & V). destruct (all_some _) as [os|] eqn:A in H; [|discriminate]. injection H as <-. exists os. split; [|exact V].
      apply (deep_all one M). now exists n.
    - intros (os & F & V). apply (deep_all one M) in F. destruct F as [n F]. exists n. rewrite F. now eexists. }
  rewrite A1. rewrite (Forall2_accepts _ (fun kv b => exists o, (exists n, one n kv = Some o) /\ o_ok o = b)) by reflexivity.
  assert (B : forall kv, (exists o, (exists n, one n kv = Some o) /\ o_ok o = true) <->
                         (forall t, In t (map snd (filter (fun rt => matches (fst rt) (fst kv)) m)) -> accepts W sc t (snd kv) true)).
  { intro kv. rewrite <- (kw_all_law (fun t => t) (fun _ => snd kv) sc (map snd (filter (fun rt => matches (fst rt) (fst kv)) m))
      (fun os => mkO (all_accept os) (match map snd (filter (fun rt => matches (fst rt) (fst kv)) m) with [] => [] | _ => [fst kv] end) [] [])) by reflexivity.
    split; [intros (o & (n & H) & V)|intros (n & o & H & V)]; eauto. }
  split.
  - intros H name y r t Hin Hr Hm. apply (proj1 (B (name, y)) (H _ Hin)). apply in_map_iff. exists (r, t). split; [reflexivity|]. now apply filter_In.
  - intros H [name y] Hin. apply B. intros t Ht. apply in_map_iff in Ht. destruct Ht as ([r t'] & <- & Hr). apply filter_In in Hr.
    destruct Hr as [Hr Hm]. exact (H _ _ _ _ Hin Hr Hm).
Qed.

Lemma matches_any_regular rs name : regular rs -> matches_any W rs name = Some (existsb (fun r => matches r name) rs).
Proof.
  intro R. induction rs as [|r rs IH]; [reflexivity|]. cbn [matches_any existsb]. unfold matches at 1.
  destruct (w_search W r name) as [[]|] eqn:E; [reflexivity| |exfalso; exact (R r (or_introl eq_refl) name E)].
  apply IH. intros r' Hr'. apply R. now right.
Qed.
Definition sub_names (key : pystr) (kws : list (pystr * keyword)) : list pystr :=
  match dget key kws with
  | Some k => match kw_json k with KSubm m => map fst m | _ => [] end
  | None => []
  end.
Lemma names_under_eq key kws : names_under (subm_of (dget key kws)) = sub_names key kws.
Proof. unfold subm_of, sub_names. destruct (dget key kws) as [k|]; [|reflexivity]. cbn [obind]. destruct (kw_json k); reflexivity. Qed.

Lemma law_additionalProperties sc kws k t x : is_kw k KAdditionalProperties (KSub t) -> regular (sub_names (lit "patternProperties") kws) ->
  kw_accepts W sc kws k x true <->
  (forall name y, In (name, y) (members x) -> ~ In name (sub_names (lit "properties") kws) ->
    (forall r, In r (sub_names (lit "patternProperties") kws) -> matches r name = false) -> accepts W sc t y true).
Proof.
  intros Hk R. open_kw Hk. cbv zeta. rewrite !names_under_eq. set (known := sub_names (lit "properties") kws) in *.
  set (ps := sub_names (lit "patternProperties") kws) in *. set (rest := filter (fun kv => negb (mem_str (fst kv) known)) (members x)).
  assert (E : all_some (map (fun kv : pystr * json => matches_any W ps (fst kv)) rest) = Some (map (fun kv => existsb (fun r => matches r (fst kv)) ps) rest)).
  { clear - R. induction rest as [|kv l IH]; [reflexivity|]. cbn [map all_some]. rewrite (matches_any_regular ps _ R), IH. reflexivity. }
  rewrite E. cbn [obind]. unfold judge_members, judge_all.
  set (todo := map fst (filter (fun kb => negb (snd kb)) (combine rest (map (fun kv => existsb (fun r => matches r (fst kv)) ps) rest)))).
  assert (T : todo = filter (fun kv => negb (existsb (fun r => matches r (fst kv)) ps)) rest).
  { unfold todo. clear. induction rest as [|kv l IH]; [reflexivity|]. cbn [map combine filter snd]. destruct (negb _); cbn [map fst]; now rewrite IH. }
  rewrite (kw_all_law (fun _ => t) (fun y => y) sc (map snd todo) (fun os => mkO (all_accept os) (map fst todo) [] [])) by reflexivity.
  rewrite T. clear T todo E. unfold rest. split.
  - intros H name y Hin Hk Hp. apply H. apply in_map_iff. exists (name, y). split; [reflexivity|]. apply filter_In. split.
    + apply filter_In. split; [exact Hin|]. cbn [fst]. apply negb_true_iff. apply not_true_is_false. intro M. apply Hk. now apply mem_str_In.
    + cbn [fst]. apply negb_true_iff, not_true_is_false. intro X. apply existsb_exists in X. destruct X as (r & Hr & Hm). rewrite (Hp r Hr) in Hm. discriminate.
  - intros H y Hin. apply in_map_iff in Hin. destruct Hin as ([name y'] & <- & Hin). apply filter_In in Hin. destruct Hin as [Hin Hp].
    apply filter_In in Hin. destruct Hin as [Hin Hk]. cbn [fst snd] in *. apply (H name y' Hin).
    + intro X. apply mem_str_In in X. rewrite X in Hk. discriminate.
    + intros r Hr. apply not_true_is_false. intro X. apply negb_true_iff, not_true_iff_false in Hp. apply Hp. apply existsb_exists. eauto.
Qed.
Lemma law_propertyNames sc kws k t x : is_kw k KPropertyNames (KSub t) ->
  kw_accepts W sc kws k x true <-> (forall name y, In (name, y) (members x) -> accepts W sc t (JStr name) true).
Proof.
  intro Hk. open_kw Hk. unfold judge_all.
  rewrite (kw_all_law (fun _ => t) (fun y => y) sc (map (fun kv => JStr (fst kv)) (members x)) (fun os => plain (all_accept os))) by reflexivity.
  split.
  - intros H name y Hin. apply H. apply in_map_iff. now exists (name, y).
  - intros H y Hin. apply in_map_iff in Hin. destruct Hin as ([name y'] & <- & Hin). exact (H _ _ Hin).
Qed.

(** ** Assertions. *)
Lemma law_assertion sc kws k c x b : kw_class k = Std c ->
  (forall jd', judge_std W choose jd' sc kws k c x = obind (assertion W k c x) (fun b => Some (plain b))) ->
  kw_accepts W sc kws k x b <-> assertion W k c x = Some b.
Proof.
  intros Hc Hj. unfold kw_accepts, judge_keyword. rewrite Hc. split.
  - intros (n & o & E & V). rewrite Hj in E. destruct (assertion W k c x) as [b'|]; [|discriminate]. injection E as <-. cbn in V. congruence.
  - intro E. exists 0, (plain b). rewrite Hj, E. auto.
Qed.

(** ** Whole schema objects. *)
Definition early_part (x : json) (kws : list (pystr * keyword)) : list keyword :=
  filter (fun k => match late k with None => true | Some _ => false end) (filter (concerns x) (map snd kws)).

Lemma conclude_ok l : (exists o, conclude l = Some o /\ o_ok o = true) <-> (exists os, all_some l = Some os /\ all_accept os = true).
Proof.
  unfold conclude. destruct (existsb rejects l) eqn:E.
  - apply existsb_exists in E. destruct E as (o & Hin & R). split; [intros (o' & [= <-] & V); discriminate|].
    intros (os & A & V). exfalso. destruct o as [o|]; [|discriminate]. apply (all_some_In _ _ A) in Hin. unfold all_accept in V. rewrite forallb_forall in V.
    cbn in R. rewrite (V _ Hin) in R. discriminate.
  - destruct (all_some l) as [os|] eqn:A; [|split; [intros (o & H & _)|intros (o & H & _)]; discriminate].
    split; [|intros _; now exists (gather true os)]. intros _. exists os. split; [reflexivity|]. unfold all_accept. apply forallb_forall. intros o Ho.
    apply (all_some_In _ _ A) in Ho. apply not_true_iff_false in E. destruct (o_ok o) eqn:O; [reflexivity|]. exfalso. apply E.
    apply existsb_exists. exists (Some o). split; [exact Ho|]. cbn. now rewrite O.
Qed.

(** An object without unevaluated keywords accepts exactly when each of its
    keywords does. *)
Lemma law_object sc s kws x : w_schema W s = SObj kws -> (forall key k, In (key, k) kws -> late k = None) ->
  accepts W sc s x true <->
  (forall key k, In (key, k) kws -> concerns x k = true -> kw_accepts W (s :: sc) kws k x true).
Proof.
  intros Hs Hl. assert (E : early_part x kws = filter (concerns x) (map snd kws)).
  { unfold early_part. apply filter_all. intros k Hk. apply filter_In in Hk. destruct Hk as [Hk _]. apply in_map_iff in Hk.
    destruct Hk as ([key k'] & <- & Hk). cbn [snd]. now rewrite (Hl _ _ Hk). }
  assert (J : forall n, jd (S n) sc s x = match conclude (map (judge_keyword W choose (jd n) (s :: sc) kws x) (early_part x kws)) with
                                          | Some o => if o_ok o then conclude [Some o] else Some o
                                          | None => None end).
  { intro n. cbn [judge]. rewrite Hs. unfold judge_object. cbv zeta. fold (early_part x kws).
    destruct (conclude _) as [o|]; [|reflexivity]. destruct (o_ok o); [|reflexivity].
    replace (flat_map _ _) with (@nil (option outcome)); [reflexivity|]. symmetry.
    assert (F : forall l, (forall k, In k l -> late k = None) -> flat_map (fun k => match late k with
                Some c => [judge_unevaluated (jd n) (s :: sc) o k c x] | None => [] end) l = []).
    { clear. induction l as [|k l IH]; intro H; [reflexivity|]. cbn [flat_map]. rewrite (H k (or_introl eq_refl)). apply IH. intros. apply H. now right. }
    apply F. intros k Hk. apply filter_In in Hk. destruct Hk as [Hk _]. apply in_map_iff in Hk. destruct Hk as ([key k'] & <- & Hk). exact (Hl _ _ Hk). }
  assert (A1 : accepts W sc s x true <-> exists n o, conclude (map (judge_keyword W choose (jd n) (s :: sc) kws x) (early_part x kws)) = Some o /\ o_ok o = true).
  { split.
    - intros ([|n] & o & H & V); [discriminate|]. rewrite J in H. exists n.
      destruct (conclude (map _ _)) as [o'|]; [|discriminate]. exists o'. split; [reflexivity|]. destruct (o_ok o') eqn:O; [reflexivity|]. congruence.
    - intros (n & o & H & V). exists (S n). rewrite J, H, V. eexists. split; [unfold conclude; cbn; rewrite V; reflexivity|reflexivity]. }
  rewrite A1. clear A1 J.
  transitivity (exists os, Forall2 (fun k o => kw_gives (s :: sc) kws x k o) (early_part x kws) os /\ all_accept os = true).
  { split.
    - intros (n & H). apply conclude_ok in H. destruct H as (os & A & V). exists os. split; [|exact V].
      apply (deep_all (fun n k => judge_keyword W choose (jd n) (s :: sc) kws x k) (fun n k => ext_kw n _ _ _ k)). now exists n.
    - intros (os & F & V). apply (deep_all (fun n k => judge_keyword W choose (jd n) (s :: sc) kws x k) (fun n k => ext_kw n _ _ _ k)) in F.
      destruct F as [n A]. exists n. apply conclude_ok. eauto. }
  rewrite (Forall2_accepts _ (fun k b => kw_accepts W (s :: sc) kws k x b)).
  - rewrite E. split.
    + intros H key k Hk Hc. apply H. apply filter_In. split; [|exact Hc]. apply in_map_iff. now exists (key, k).
    + intros H k Hk. apply filter_In in Hk. destruct Hk as [Hk Hc]. apply in_map_iff in Hk. destruct Hk as ([key k'] & <- & Hk). exact (H _ _ Hk Hc).
  - intros k b. split; [intros (n & o & H & V); exists o; split; [now exists n|exact V]|intros (o & [n H] & V); now exists n, o].
Qed.

(** With unevaluated keywords: the others accept, together giving [o], and
    each unevaluated keyword accepts what they have left. *)
Definition late_accepts (sc : list sid) (o : outcome) (k : keyword) (c : stdclass) (x : json) : Prop :=
  exists n o', judge_unevaluated (jd n) sc o k c x = Some o' /\ o_ok o' = true.
Lemma law_object_late sc s kws x : w_schema W s = SObj kws ->
  accepts W sc s x true <->
  (exists os, Forall2 (fun k o => kw_gives (s :: sc) kws x k o) (early_part x kws) os /\ all_accept os = true /\
     forall key k c, In (key, k) kws -> concerns x k = true -> late k = Some c -> late_accepts (s :: sc) (gather true os) k c x).
Proof.
  intro Hs.
  pose (lates := fun n o => flat_map (fun k => match late k with Some c => [judge_unevaluated (jd n) (s :: sc) o k c x] | None => [] end) (filter (concerns x) (map snd kws))).
  assert (J : forall n, jd (S n) sc s x = match conclude (map (judge_keyword W choose (jd n) (s :: sc) kws x) (early_part x kws)) with
                                          | Some o => if o_ok o then conclude (Some o :: lates n o) else Some o
                                          | None => None end).
  { intro n. cbn [judge]. rewrite Hs. reflexivity. }
  assert (M : forall n o k, ext (match late k with Some c => judge_unevaluated (jd n) (s :: sc) o k c x | None => Some (plain true) end)
                                (match late k with Some c => judge_unevaluated (jd (S n)) (s :: sc) o k c x | None => Some (plain true) end)).
  { intros n o k. destruct (late k); [|apply ext_refl]. apply ext_judge_unevaluated. intros. apply judge_mono. }
  pose (mk := fun n => judge_keyword W choose (jd n) (s :: sc) kws x).
  assert (Mk : forall n k, ext (mk n k) (mk (S n) k)) by (intros; apply ext_kw).
  (* the late ones, in any list *)
  assert (L1 : forall n o l os', all_some (flat_map (fun k => match late k with Some c => [judge_unevaluated (jd n) (s :: sc) o k c x] | None => [] end) l) = Some os' ->
             all_accept os' = true -> forall k c, In k l -> late k = Some c -> late_accepts (s :: sc) o k c x).
  { clear. intros n o l os' A V k c Hk Hc. unfold all_accept in V. rewrite forallb_forall in V.
    assert (I : In (judge_unevaluated (jd n) (s :: sc) o k c x) (flat_map (fun k => match late k with Some c => [judge_unevaluated (jd n) (s :: sc) o k c x] | None => [] end) l)).
    { apply in_flat_map. exists k. split; [exact Hk|]. rewrite Hc. now left. }
    destruct (judge_unevaluated (jd n) (s :: sc) o k c x) as [o'|] eqn:E.
    - exists n, o'. split; [exact E|]. apply V. now apply (all_some_In _ _ A).
    - exfalso. clear - A I. revert os' A I. generalize (flat_map (fun k => match late k with Some c => [judge_unevaluated (jd n) (s :: sc) o k c x] | None => [] end) l).
      induction l0 as [|a l0 IH]; intros os' A I; [destruct I|]. cbn [all_some] in A. destruct a as [b|]; [|discriminate].
      destruct (all_some l0) as [bs|]; [|discriminate]. destruct I as [I|I]; [discriminate|]. exact (IH _ eq_refl I). }
  assert (L2 : forall o l, (forall k c, In k l -> late k = Some c -> late_accepts (s :: sc) o k c x) ->
     exists n, forall m, n <= m -> exists os', all_some (flat_map (fun k => match late k with Some c => [judge_unevaluated (jd m) (s :: sc) o k c x] | None => [] end) l) = Some os' /\ all_accept os' = true).
  { clear - M. intros o l H. induction l as [|k l IH]; [exists 0; intros; exists []; split; reflexivity|].
    destruct IH as [n IH]; [intros; apply (H k0); auto; now right|]. destruct (late k) as [c|] eqn:Hc.
    - destruct (H k c (or_introl eq_refl) Hc) as (n1 & o1 & E1 & V1). exists (max n n1). intros m Hm. destruct (IH m) as (os' & A & V); [lia|].
      exists (o1 :: os'). cbn [flat_map]. rewrite Hc. cbn [app all_some].
      assert (E2 : judge_unevaluated (jd m) (s :: sc) o k c x = Some o1).
      { pose proof (deep_more (fun n k => match late k with Some c => judge_unevaluated (jd n) (s :: sc) o k c x | None => Some (plain true) end)
                      (fun n k => M n o k) n1 m k o1) as D. cbv beta in D. rewrite Hc in D. apply D; [lia|exact E1]. }
      rewrite E2, A. split; [reflexivity|]. cbn. now rewrite V1.
    - exists n. intros m Hm. cbn [flat_map]. rewrite Hc. exact (IH m Hm). }
  split.
  - intros ([|n] & o & H & V); [discriminate|]. rewrite J in H. destruct (conclude (map _ _)) as [o1|] eqn:C1; [|discriminate].
    destruct (o_ok o1) eqn:O1; [|congruence].
    assert (C1' : exists o, conclude (map (mk n) (early_part x kws)) = Some o /\ o_ok o = true) by (exists o1; auto).
    apply conclude_ok in C1'. destruct C1' as (os & A & Va). exists os. split; [apply (deep_all mk Mk); now exists n|]. split; [exact Va|].
    assert (E1 : o1 = gather true os).
    { unfold conclude in C1. destruct (existsb rejects _); [injection C1 as <-; discriminate|]. unfold mk in A. cbv beta in A. rewrite A in C1. congruence. }
    assert (C2 : exists o, conclude (Some o1 :: lates n o1) = Some o /\ o_ok o = true) by eauto.
    apply conclude_ok in C2. destruct C2 as (os2 & A2 & V2). cbn [all_some] in A2. destruct (all_some (lates n o1)) as [os3|] eqn:A3; [|discriminate].
    injection A2 as <-. cbn in V2. apply andb_true_iff in V2. destruct V2 as [_ V2].
    intros key k c Hk Hc Hl. rewrite <- E1. apply (L1 n o1 _ os3 A3 V2); [|exact Hl]. apply filter_In. split; [|exact Hc]. apply in_map_iff. now exists (key, k).
  - intros (os & F & V & HL). apply (deep_all mk Mk) in F. destruct F as [n1 A1].
    destruct (L2 (gather true os) (filter (concerns x) (map snd kws))) as [n2 H2].
    { intros k c Hk Hc. apply filter_In in Hk. destruct Hk as [Hk Hk2]. apply in_map_iff in Hk. destruct Hk as ([key k'] & <- & Hk). exact (HL _ _ _ Hk Hk2 Hc). }
    destruct (H2 (max n1 n2) (Nat.le_max_r _ _)) as (os' & A2 & V2). exists (S (max n1 n2)). rewrite J.
    assert (A1' : all_some (map (mk (max n1 n2)) (early_part x kws)) = Some os).
    { pose proof (ext_some (all_some (map (mk n1) (early_part x kws))) (all_some (map (mk (max n1 n2)) (early_part x kws))) os) as X. apply X; [|exact A1].
      apply ext_map. intro k. destruct (mk n1 k) as [b|] eqn:Eb; [|now left]. right. symmetry. apply (deep_more mk Mk n1); [lia|exact Eb]. }
    assert (C : conclude (map (mk (max n1 n2)) (early_part x kws)) = Some (gather true os)).
    { unfold conclude. rewrite A1'. destruct (existsb rejects _) eqn:Ex; [|reflexivity]. exfalso. apply existsb_exists in Ex. destruct Ex as (o & Ho & R).
      destruct o as [o|]; [|discriminate]. apply (all_some_In _ _ A1') in Ho. unfold all_accept in V. rewrite forallb_forall in V. cbn in R. rewrite (V _ Ho) in R. discriminate. }
    change (map (judge_keyword W choose (jd (max n1 n2)) (s :: sc) kws x) (early_part x kws)) with (map (mk (max n1 n2)) (early_part x kws)). rewrite C. cbn [gather o_ok].
    apply conclude_ok. exists (gather true os :: os'). cbn [all_some]. unfold lates. rewrite A2. split; [reflexivity|]. cbn. exact V2.
Qed.

Lemma law_unevaluatedProperties sc o k c x t : kw_json k = KSub t -> c = KUnevaluatedProperties \/ c = KUnevaluatedProperties2019 ->
  late_accepts sc o k c x <-> (forall name y, In (name, y) (members x) -> ~ In name (o_names o) -> accepts W sc t y true).
Proof.
  intros Hv Hc. unfold late_accepts.
  assert (E : forall n, judge_unevaluated (jd n) sc o k c x = judge_members (jd n) sc t (filter (fun kv => negb (mem_str (fst kv) (o_names o))) (members x))).
  { intro n. destruct Hc as [-> | ->]; cbn [judge_unevaluated sub_of obind]; now rewrite Hv. }
  transitivity (exists n o', judge_members (jd n) sc t (filter (fun kv => negb (mem_str (fst kv) (o_names o))) (members x)) = Some o' /\ o_ok o' = true).
  { split; intros (n & o' & H); exists n, o'; [rewrite <- E|rewrite E]; exact H. }
  clear E. unfold judge_members, judge_all. set (todo := filter _ _).
  rewrite (kw_all_law (fun _ => t) (fun y => y) sc (map snd todo) (fun os => mkO (all_accept os) (map fst todo) [] [])) by reflexivity.
  unfold todo. split.
  - intros H name y Hin Hn. apply H. apply in_map_iff. exists (name, y). split; [reflexivity|]. apply filter_In. split; [exact Hin|].
    apply negb_true_iff, not_true_is_false. intro M. apply Hn. now apply mem_str_In.
  - intros H y Hin. apply in_map_iff in Hin. destruct Hin as ([name y'] & <- & Hin). apply filter_In in Hin. destruct Hin as [Hin Hn]. cbn [fst snd] in *.
    apply (H name y' Hin). intro M. apply mem_str_In in M. rewrite M in Hn. discriminate.
Qed.
Lemma law_unevaluatedItems sc o k c x t : kw_json k = KSub t -> c = KUnevaluatedItems \/ c = KUnevaluatedItems2019 ->
  late_accepts sc o k c x <->
  (forall n y, nth_error (items x) n = Some y -> ~ In n (o_places o) -> (c = KUnevaluatedItems -> ~ In n (o_found o)) -> accepts W sc t y true).
Proof.
  intros Hv Hc. unfold late_accepts. set (ev := match c with KUnevaluatedItems => o_places o ++ o_found o | _ => o_places o end).
  set (todo := filter (fun n => negb (existsb (Nat.eqb n) ev)) (seq 0 (length (items x)))).
  assert (E : forall n, judge_unevaluated (jd n) sc o k c x = obind (all_some (map (fun m => jd n sc t (nth m (items x) JNull)) todo)) (fun os => Some (mkO (all_accept os) [] todo []))).
  { intro n. unfold todo, ev. destruct Hc as [-> | ->]; cbn [judge_unevaluated sub_of obind]; rewrite Hv; cbn [obind]; unfold judge_all; now rewrite map_map. }
  transitivity (exists n o', obind (all_some (map (fun m => jd n sc t (nth m (items x) JNull)) todo)) (fun os => Some (mkO (all_accept os) [] todo [])) = Some o' /\ o_ok o' = true).
  { split; intros (n & o' & H); exists n, o'; [rewrite <- E|rewrite E]; exact H. }
  rewrite (kw_all_law (fun _ => t) (fun m => nth m (items x) JNull) sc todo (fun os => mkO (all_accept os) [] todo [])) by reflexivity.
  assert (T : forall n, In n todo <-> n < length (items x) /\ ~ In n ev).
  { intro n. unfold todo. rewrite filter_In, in_seq, negb_true_iff, <- not_true_iff_false, existsb_exists. split.
    - intros [H1 H2]. split; [lia|]. intro Hi. apply H2. exists n. split; [exact Hi|apply Nat.eqb_refl].
    - intros [H1 H2]. split; [lia|]. intros (m & Hm & Q). apply Nat.eqb_eq in Q. subst m. contradiction. }
  assert (V : forall n, In n ev <-> In n (o_places o) \/ (c = KUnevaluatedItems /\ In n (o_found o))).
  { intro n. unfold ev. destruct Hc as [-> | ->]; [rewrite in_app_iff; split; [intros [H|H]; auto|intros [H|[_ H]]; auto]|].
    split; [now left|]. intros [H|[H _]]; [exact H|discriminate]. }
  split.
  - intros H n y Hn Hp Hf. replace y with (nth n (items x) JNull) by (now apply nth_error_nth). apply H. apply T. split.
    + apply nth_error_Some. congruence.
    + rewrite V. intros [X|[X1 X2]]; [exact (Hp X)|exact (Hf X1 X2)].
  - intros H n Hn. apply T in Hn. destruct Hn as [H1 H2]. rewrite V in H2. apply (H n).
    + now apply nth_error_nth'.
    + intro X. apply H2. now left.
    + intros Hk X. apply H2. now right.
Qed.
End Laws.

(** ** Evaluation. *)
Theorem evaluate_accepts W fuel s i r : fit W -> jwf (i_val i) = true -> evaluate_root W fuel s i = Ok r -> accepts W [] s (i_val i) (r_valid r).
Proof.
  intros (d & legacy & Hd & Hg & Ht & Hp) Hw E.
  assert (X : exists o, judge W (code_choice W) fuel [] s (i_val i) = Some o /\ r_valid r = o_ok o).
  { destruct Ht as [Ht|Ht].
    - exact (evaluate_root_judge W d legacy false Hd Hg Ht fuel s i r Hw E).
    - exact (evaluate_root_judge W d legacy true Hd Hg Ht fuel s i r Hw E). }
  destruct X as (o & J & V). rewrite (judge_prescribed W Hp) in J. exists fuel, o. auto.
Qed.
Lemma evaluate_iff W fuel s i r : fit W -> jwf (i_val i) = true -> evaluate_root W fuel s i = Ok r ->
  r_valid r = true <-> accepts W [] s (i_val i) true.
Proof.
  intros F Hw E. pose proof (evaluate_accepts W fuel s i r F Hw E) as A. split; [intros <-; exact A|]. intro A'. exact (accepts_unique _ _ _ _ _ _ A A').
Qed.

(** ** Worlds without dynamic references. *)
Lemma judge_object_scope W choose jd sc sc' kws x :
  (forall key k, In (key, k) kws -> kw_dynamic k = false /\ kw_class k <> Std KRecursiveRef) ->
  (forall t y, jd sc t y = jd sc' t y) ->
  judge_object W choose jd sc kws x = judge_object W choose jd sc' kws x.
Proof.
  intros Hst Hj.
  assert (A : forall sc1, judge_object W choose jd sc1 kws x = judge_object W choose (fun _ => jd sc1) sc1 kws x) by reflexivity.
  rewrite (A sc), (A sc'). clear A.
  transitivity (judge_object W choose (fun _ => jd sc) sc' kws x).
  - unfold judge_object. cbv zeta. set (early := filter (fun k => match late k with None => true | Some _ => false end) _).
    assert (E : map (judge_keyword W choose (fun _ => jd sc) sc kws x) early = map (judge_keyword W choose (fun _ => jd sc) sc' kws x) early).
    { apply map_ext_in. intros k Hk. unfold early in Hk. rewrite !filter_In, in_map_iff in Hk. destruct Hk as [[([key k'] & <- & Hk) _] _].
      destruct (Hst _ _ Hk) as [D N]. unfold judge_keyword. cbn [snd]. destruct (kw_class k') as [c|]; [|reflexivity].
      destruct c; try reflexivity; [|congruence]. cbn [judge_std]. rewrite D. reflexivity. }
    rewrite E. reflexivity.
  - assert (X : forall jd1 jd2, (forall sc t y, jd1 sc t y = jd2 sc t y) -> ext (judge_object W choose jd1 sc' kws x) (judge_object W choose jd2 sc' kws x)).
    { intros jd1 jd2 H. apply ext_judge_object; [intros; rewrite H; apply ext_refl|]. intros key k _ _ sc0 t. reflexivity. }
    destruct (X (fun _ => jd sc) (fun _ => jd sc')) as [E|E]; [auto| |exact E].
    destruct (X (fun _ => jd sc') (fun _ => jd sc)) as [E'|E']; [auto|congruence|congruence].
Qed.
Lemma judge_scope W choose : static_world W -> forall n sc sc' s x, judge W choose n sc s x = judge W choose n sc' s x.
Proof.
  intro Hst. induction n as [|n IH]; intros sc sc' s x; [reflexivity|]. cbn [judge]. destruct (w_schema W s) as [|kws] eqn:Hs; [reflexivity|].
  apply judge_object_scope; [intros key k Hk; exact (Hst _ _ _ _ Hs Hk)|]. intros. apply IH.
Qed.
Lemma accepts_scope W sc sc' s x b : static_world W -> accepts W sc s x b -> accepts W sc' s x b.
Proof. intros Hst (n & o & J & V). exists n, o. rewrite (judge_scope W _ Hst n sc' sc). auto. Qed.
