(** Where neither unevaluated keywords occur, nor [not] and the boolean form
    of [items] of 2019-09, the code judgement gives the verdict that the
    specification prescribes. *)
From Verif Require Export SchemaMain.
Open Scope nat_scope.

(** Whenever there is an answer on the left, there is a like one on the right. *)
Definition follows {A} (R : A -> A -> Prop) (a b : option A) : Prop :=
  forall y, a = Some y -> exists z, b = Some z /\ R y z.

Lemma follows_refl {A} (R : A -> A -> Prop) a : (forall y, R y y) -> follows R a a.
Proof. intros H y ->. eauto. Qed.
Lemma follows_bind {A B} (R : A -> A -> Prop) (S : B -> B -> Prop) a b f g : follows R a b ->
  (forall y z, R y z -> follows S (f y) (g z)) -> follows S (obind a f) (obind b g).
Proof.
  intros H F y. destruct a as [v|]; cbn [obind]; [|discriminate]. intro E. destruct (H v eq_refl) as (z & -> & HR).
  cbn [obind]. exact (F _ _ HR _ E).
Qed.
Lemma follows_same {A B} (S : B -> B -> Prop) (a : option A) f g : (forall y, follows S (f y) (g y)) -> follows S (obind a f) (obind a g).
Proof. intros F y. destruct a as [v|]; cbn [obind]; [apply F|discriminate]. Qed.
Lemma follows_all {A B} (R : A -> A -> Prop) (f g : B -> option A) l : (forall y, In y l -> follows R (f y) (g y)) ->
  follows (Forall2 R) (all_some (map f l)) (all_some (map g l)).
Proof.
  induction l as [|y l IH]; intros H xs; cbn [map all_some].
  - intros [= <-]. exists []. split; [reflexivity|constructor].
  - destruct (f y) as [v|] eqn:E; [|discriminate]. destruct (H y (or_introl eq_refl) v E) as (z & -> & HR).
    destruct (all_some (map f l)) as [vs|] eqn:Es; [|discriminate]. intros [= <-].
    destruct (IH (fun y Hy => H y (or_intror Hy)) vs eq_refl) as (zs & -> & HF). eexists. split; [reflexivity|]. now constructor.
Qed.

Definition same_ok (o o' : outcome) : Prop := o_ok o = o_ok o'.
Lemma same_all os os' : Forall2 same_ok os os' -> all_accept os = all_accept os'.
Proof. induction 1 as [|a b l l' H _ IH]; [reflexivity|]. unfold all_accept in *. cbn [forallb]. now rewrite H, IH. Qed.
Lemma same_exists os os' : Forall2 same_ok os os' -> existsb o_ok os = existsb o_ok os'.
Proof. induction 1 as [|a b l l' H _ IH]; [reflexivity|]. cbn [existsb]. now rewrite H, IH. Qed.
Lemma same_count os os' : Forall2 same_ok os os' -> count os = count os'.
Proof. unfold count. induction 1 as [|a b l l' H _ IH]; [reflexivity|]. cbn [filter]. rewrite H. destruct (o_ok b); cbn [length]; now rewrite IH. Qed.
Lemma same_accepted os os' : Forall2 same_ok os os' -> forall k, accepted k os = accepted k os'.
Proof. induction 1 as [|a b l l' H _ IH]; intro k; [reflexivity|]. cbn [accepted]. rewrite H. destruct (o_ok b); now rewrite IH. Qed.

Lemma dialect_finds legacy d : dialect legacy d ->
  find_class d (lit "contains") = Some KContains /\ find_class d (lit "minContains") = Some KMinContains /\
  find_class d (lit "maxContains") = Some KMaxContains /\
  (legacy = true -> find_class d (lit "items") = Some KItems2019) /\
  (legacy = false -> find_class d (lit "prefixItems") = Some KPrefixItems).
Proof.
  destruct legacy; cbn [dialect]; [intros -> |intros [-> | ->]]; repeat split; intros; try discriminate; vm_compute; reflexivity.
Qed.

Section Strict.
Variable W : world.
Variable d : list stdclass.
Variable legacy track : bool.
Hypothesis Hd : dialect legacy d.
Hypothesis Hgood : good_world d W.
Hypothesis Htrack : if track then no_misjudged W else no_unevaluated W.
Variable choose : pystr -> list sid -> sid -> sid.

(** The same verdict; and the same members and items evaluated, where that
    matters. *)
Definition matched (x : json) (o o' : outcome) : Prop :=
  o_ok o = o_ok o' /\
  (track = true -> o_ok o = true ->
    (forall n, In n (o_names o) <-> In n (o_names o')) /\
    (forall m, m < length (items x) -> (In m (evaluated_at legacy o) <-> In m (evaluated_at legacy o')))).

Lemma matched_refl x o : matched x o o.
Proof. split; [reflexivity|]. intros _ _. split; [reflexivity|]. intros m _. reflexivity. Qed.
Lemma matched_ok x o o' : matched x o o' -> same_ok o o'.
Proof. now intros [H _]. Qed.
Lemma matched_oks x os os' : Forall2 (matched x) os os' -> Forall2 same_ok os os'.
Proof. induction 1; constructor; auto. eapply matched_ok; eauto. Qed.

Lemma matched_gather x b b' os os' : b = b' -> Forall2 (matched x) os os' -> matched x (gather b os) (gather b' os').
Proof.
  intros <- F. split; [reflexivity|]. intros T _.
  assert (G : forall (B : Type) (f : outcome -> list B) (n : B),
    (forall o o', matched x o o' -> o_ok o = true -> (In n (f o) <-> In n (f o'))) ->
    (In n (flat_map f (filter o_ok os)) <-> In n (flat_map f (filter o_ok os')))).
  { intros B f n Hf. induction F as [|a a' l l' M F IH]; [reflexivity|]. cbn [filter]. pose proof (proj1 M) as E.
    destruct (o_ok a) eqn:O; rewrite <- E; [|exact IH]. cbn [flat_map]. rewrite !in_app_iff, IH. now rewrite (Hf a a' M O). }
  split.
  - intro n. apply G. intros o o' [_ M] O. now apply M.
  - intros m Hm. rewrite !evaluated_gather. apply G. intros o o' [_ M] O. now apply M.
Qed.

Section Kw.
Variable jd jd' : list sid -> sid -> json -> option outcome.
Hypothesis Hj : forall sc t y, follows (matched y) (jd sc t y) (jd' sc t y).

Lemma follows_ok sc t y : follows same_ok (jd sc t y) (jd' sc t y).
Proof. intros o E. destruct (Hj sc t y o E) as (o' & E' & M). exists o'. split; [exact E'|exact (matched_ok _ _ _ M)]. Qed.
Lemma follows_judge_all sc t l : follows (Forall2 same_ok) (judge_all jd sc t l) (judge_all jd' sc t l).
Proof. apply follows_all. intros y _. apply follows_ok. Qed.
Lemma follows_members sc t x todo : follows (matched x) (judge_members jd sc t todo) (judge_members jd' sc t todo).
Proof.
  eapply follows_bind; [apply follows_judge_all|]. intros os os' F y [= <-]. eexists. split; [reflexivity|]. rewrite (same_all _ _ F). apply matched_refl.
Qed.
Lemma follows_pairs sc x ts l : follows (matched x) (judge_pairs jd sc ts l) (judge_pairs jd' sc ts l).
Proof.
  eapply follows_bind; [apply (follows_all same_ok); intros; apply follows_ok|]. intros os os' F y [= <-]. eexists. split; [reflexivity|]. rewrite (same_all _ _ F). apply matched_refl.
Qed.
Lemma follows_rest sc x start t l : follows (matched x) (judge_rest jd sc start t l) (judge_rest jd' sc start t l).
Proof.
  eapply follows_bind; [apply follows_judge_all|]. intros os os' F y [= <-]. eexists. split; [reflexivity|]. rewrite (same_all _ _ F). apply matched_refl.
Qed.

Definition as_is (c : stdclass) : bool :=
  match c with KNot | KItems | KItems2019 | KAdditionalItems | KContains | KMinContains | KMaxContains => false | _ => true end.

Lemma follows_std sc kws k c x : as_is c = true ->
  follows (matched x) (judge_std W choose jd sc kws k c x) (judge_std W choose jd' sc kws k c x).
Proof.
  intro A. assert (R : forall o, follows (matched x) o o) by (intro; apply follows_refl, matched_refl).
  assert (G : forall ts (v : list outcome -> bool), (forall os os', Forall2 same_ok os os' -> v os = v os') -> follows (matched x)
    (obind (all_some (map (fun t => jd sc t x) ts)) (fun os => Some (gather (v os) os)))
    (obind (all_some (map (fun t => jd' sc t x) ts)) (fun os => Some (gather (v os) os)))).
  { intros ts v Hv. eapply follows_bind; [apply (follows_all (matched x)); intros; apply Hj|]. intros os os' F y [= <-]. eexists. split; [reflexivity|].
    apply matched_gather; [|exact F]. apply Hv. exact (matched_oks _ _ _ F). }
  destruct c; try discriminate A; cbn [judge_std]; try apply R.
  - apply follows_same. auto.
  - apply follows_same. auto.
  - apply follows_same. auto.
  - apply follows_same. intro. apply G. exact same_all.
  - apply follows_same. intro. apply G. exact same_exists.
  - apply follows_same. intro. apply (G _ (fun os => Nat.eqb (count os) 1)). intros os os' F. now rewrite (same_count _ _ F).
  - apply follows_same. intro t. eapply follows_bind; [apply Hj|]. intros o o' M y [= <-]. eexists. split; [reflexivity|]. apply matched_gather; auto.
  - destruct (dget (lit "if") kws); [|apply R]. apply follows_same. intro t. eapply follows_bind; [apply Hj|]. intros o o' M. rewrite (proj1 M).
    destruct (o_ok o'); [|apply R]. apply follows_same. auto.
  - destruct (dget (lit "if") kws); [|apply R]. apply follows_same. intro t. eapply follows_bind; [apply Hj|]. intros o o' M. rewrite (proj1 M).
    destruct (o_ok o'); [apply R|]. apply follows_same. auto.
  - apply follows_same. intro m. rewrite <- !(map_map snd (fun t => jd sc t x)), <- !(map_map snd (fun t => jd' sc t x)). apply G. exact same_all.
  - apply follows_same. intro. apply follows_pairs.
  - apply follows_same. intro m. cbv zeta. eapply follows_bind; [apply (follows_all same_ok); intros; apply follows_same; intro; apply follows_ok|].
    intros os os' F y [= <-]. eexists. split; [reflexivity|]. rewrite (same_all _ _ F). apply matched_refl.
  - apply follows_same. intro m. eapply follows_bind.
    + apply (follows_all (fun o o' => same_ok o o' /\ o_names o = o_names o')). intros kv _. apply follows_same. intro bs. cbv zeta.
      eapply follows_bind; [apply (follows_all same_ok); intros; apply follows_ok|]. intros os os' F y [= <-]. eexists. split; [reflexivity|]. split; [|reflexivity].
      unfold same_ok. cbn [o_ok]. exact (same_all _ _ F).
    + intros os os' F y [= <-]. eexists. split; [reflexivity|].
      assert (F' : Forall2 same_ok os os') by (clear - F; induction F; constructor; tauto).
      replace (flat_map o_names os') with (flat_map o_names os) by (clear - F; induction F as [|a b l l' [_ E] _ IH]; cbn [flat_map]; [reflexivity|now rewrite E, IH]).
      rewrite (same_all _ _ F'). apply matched_refl.
  - apply follows_same. intro t. cbv zeta. apply follows_same. intro bs. apply follows_members.
  - apply follows_same. intro t. eapply follows_bind; [apply follows_judge_all|]. intros os os' F y [= <-]. eexists. split; [reflexivity|].
    rewrite (same_all _ _ F). apply matched_refl.
Qed.

(** ** One schema object. *)
Variable s : sid.
Variable kws : list (pystr * keyword).
Hypothesis Hkws : w_schema W s = SObj kws.
Hypothesis Hbool : forall sc t b y o, w_schema W t = SBool b -> jd sc t y = Some o -> o_ok o = b /\ forall y', jd' sc t y' = Some (plain b).
Variable sc : list sid.
Variable x : json.
Notation ck := (code_keyword W choose jd sc kws x).
Notation jk := (judge_keyword W choose jd' sc kws x).
Notation Hs := (Hgood s kws Hkws).

Definition slack (m : nat) : Prop := exists ts, subs_of (dget (tuple_key legacy) kws) = Some ts /\ m < length ts.

(** As [matched], but items in [slack] may be counted in on the left. *)
Definition nearly (extra : nat -> Prop) (o o' : outcome) : Prop :=
  o_ok o = o_ok o' /\
  (track = true -> o_ok o = true ->
    (forall n, In n (o_names o) <-> In n (o_names o')) /\
    (forall m, m < length (items x) -> (In m (evaluated_at legacy o') -> In m (evaluated_at legacy o)) /\
                                       (In m (evaluated_at legacy o) -> In m (evaluated_at legacy o') \/ extra m))).
Lemma matched_nearly extra o o' : matched x o o' -> nearly extra o o'.
Proof.
  intros [E M]. split; [exact E|]. intros T O. destruct (M T O) as [M1 M2]. split; [exact M1|]. intros m Hm. rewrite (M2 m Hm). tauto.
Qed.

Definition early_kws : list keyword :=
  filter (fun k => match late k with None => true | Some _ => false end) (filter (concerns x) (map snd kws)).
Lemma early_kws_In k : In k early_kws <-> exists key, In (key, k) kws /\ concerns x k = true /\ late k = None.
Proof.
  unfold early_kws. rewrite !filter_In, in_map_iff. split.
  - intros [[(kk & E & H) H1] H2]. destruct kk as [key k']. cbn [snd] in E. subst k'. exists key. split; [exact H|]. split; [exact H1|].
    now destruct (late k).
  - intros (key & H & H1 & H2). split; [split; [exists (key, k); now split|exact H1]|]. now rewrite H2.
Qed.

Definition code_rejects : Prop := exists k ko, In k early_kws /\ ck k = Some ko /\ o_ok ko = false.
Definition strict_rejects : Prop := exists k ko, In k early_kws /\ jk k = Some ko /\ o_ok ko = false.

Lemma uses_kw key k c : In (key, k) kws -> kw_class k = Std c -> uses W c.
Proof. intros H E. exists s, kws, key, k. auto. Qed.

Lemma rest_nearly start t : (forall m, m < start -> slack m) ->
  follows (nearly slack) (code_rest jd sc start t (items x)) (judge_rest jd' sc start t (items x)).
Proof.
  intros Hsl. unfold code_rest, judge_rest. intros y E. destruct (judge_all jd sc t (skipn start (items x))) as [os|] eqn:J; cbn [obind] in E; [|discriminate].
  injection E as <-. destruct (follows_judge_all sc t _ os J) as (os' & -> & F). cbn [obind]. eexists. split; [reflexivity|].
  assert (Ln : length os = length (items x) - start).
  { rewrite <- (skipn_length start (items x)). apply all_some_length in J. now rewrite map_length in J. }
  split; cbn [o_ok]; [exact (same_all _ _ F)|]. intros _ _. cbn [o_names]. split; [reflexivity|]. intros m Hm.
  assert (E1 : forall b l, evaluated_at legacy (mkO b [] l []) = l) by (intros; unfold evaluated_at; cbn [o_places o_found]; destruct legacy; now rewrite ?app_nil_r).
  rewrite !E1. rewrite in_seq. destruct os as [|o os]; cbn [all_or_none length] in *; [split; [lia|intros []]|]. rewrite in_seq. split; [lia|]. intros _.
  destruct (Nat.lt_ge_cases m start) as [L|L]; [right; auto|left; lia].
Qed.

(** The keywords of the kinds [contains], [minContains], [maxContains]. *)
Definition trio (k : keyword) : bool := match kw_class k with Std (KContains | KMinContains | KMaxContains) => true | _ => false end.

(** Any other keyword is judged alike, unless the array form of items of
    2019-09 rejects. *)
Lemma kw_strict k ko : In k early_kws -> trio k = false -> ck k = Some ko ->
  (exists ko', jk k = Some ko' /\ nearly slack ko ko') \/ (o_ok ko = true /\ code_rejects /\ strict_rejects).
Proof.
  intros Hk Tr E. apply early_kws_In in Hk. destruct Hk as (key & HIn & Co & La). unfold code_keyword in E. unfold judge_keyword. unfold trio in Tr.
  destruct (kw_class k) as [c|u] eqn:C.
  2: { left. exists ko. split; [exact E|]. apply matched_nearly, matched_refl. }
  destruct (as_is c) eqn:As.
  { left. assert (E' : judge_std W choose jd sc kws k c x = Some ko) by (destruct c; try discriminate As; exact E).
    destruct (follows_std sc kws k c x As ko E') as (ko' & J & M). exists ko'. split; [exact J|]. now apply matched_nearly. }
  destruct (class_key _ _ Hs _ _ _ HIn C) as [Hkey _]. pose proof (class_legacy _ _ Hd _ Hs _ _ _ HIn C) as Lg.
  pose proof (kws_value _ _ Hs _ _ HIn) as V.
  destruct (dialect_finds legacy d Hd) as (_ & _ & _ & Fi & Fp).
  destruct c; try discriminate As; try discriminate Tr; clear Tr As; cbn [code_std judge_std] in E |- *.
  - left. destruct (sub_of (Some k)) as [t|]; cbn [obind] in E |- *; [|discriminate]. destruct (jd sc t x) as [o|] eqn:J; cbn [obind] in E; [|discriminate].
    destruct (Hj sc t x o J) as (o' & -> & M). cbn [obind]. eexists. split; [reflexivity|]. injection E as <-. split; cbn [plain o_ok]; [now rewrite (proj1 M)|].
    intros T. exfalso. rewrite T in Htrack. destruct Htrack as [X _]. apply X. exact (uses_kw _ _ _ HIn C).
  - left. assert (Hl : legacy = false) by (destruct legacy; [discriminate Lg|reflexivity]).
    destruct (sub_of (Some k)) as [t|]; cbn [obind] in E |- *; [|discriminate]. apply (rest_nearly _ t) in E; [exact E|].
    intros m Hm. unfold slack. rewrite Hl. cbn [tuple_key]. destruct (subs_of _) as [ts|]; [|lia]. eauto.
  - left. destruct (kw_json k) as [v|t|ts|m] eqn:Kj; try discriminate E.
    + destruct (w_schema W t) as [b|kws'] eqn:Wt.
      * assert (Tn : track = true -> False).
        { intro T. rewrite T in Htrack. destruct Htrack as [_ X]. exact (X s kws key k t b Hkws HIn C Kj Wt). }
        unfold judge_rest. cbn [skipn]. destruct (items x) as [|y0 l0] eqn:Ix.
        { injection E as <-. eexists. split; [reflexivity|]. split; [reflexivity|]. intro T. destruct (Tn T). }
        destruct (Hbool sc t b x ko Wt E) as [O B]. rewrite (judge_bools jd' sc t b _ B). cbn [obind]. eexists. split; [reflexivity|].
        split; [|intro T; destruct (Tn T)]. rewrite O. cbn [o_ok]. unfold all_accept.
        destruct b; cbn [map forallb plain o_ok andb]; [|reflexivity]. symmetry. apply forallb_forall. intros o Ho. apply in_map_iff in Ho. now destruct Ho as (? & <- & _).
      * destruct (follows_rest sc x 0 t (items x) ko E) as (ko' & J & M). exists ko'. split; [exact J|now apply matched_nearly].
    + destruct (follows_pairs sc x ts (items x) ko E) as (ko' & J & M). exists ko'. split; [exact J|now apply matched_nearly].
  - assert (Hl : legacy = true) by (destruct legacy; [reflexivity|discriminate Lg]).
    destruct (subs_of (dget (lit "items") kws)) as [ts|] eqn:Si; [|left; exists ko; split; [exact E|apply matched_nearly, matched_refl]].
    destruct (sub_of (Some k)) as [t|]; cbn [obind] in E |- *; [|discriminate]. destruct (judge_pairs jd sc ts (items x)) as [o|] eqn:Jp; cbn [obind] in E; [|discriminate].
    destruct (o_ok o) eqn:Oo.
    + left. apply (rest_nearly _ t) in E; [exact E|]. intros m Hm. unfold slack. rewrite Hl. cbn [tuple_key]. rewrite Si. eauto.
    + right. injection E as <-. split; [reflexivity|]. destruct (dget (lit "items") kws) as [k'|] eqn:G; [|discriminate Si].
      apply (dget_kws _ _ Hs) in G. pose proof (class_found _ _ Hs _ _ _ G (Fi Hl)) as C'. cbn [subs_of obind] in Si.
      destruct (kw_json k') as [| |ts'|] eqn:Kj'; try discriminate Si. injection Si as ->.
      assert (Hk' : In k' early_kws).
      { apply early_kws_In. exists (lit "items"). split; [exact G|]. unfold concerns, late in *. rewrite C' in *. rewrite C in Co. split; [exact Co|reflexivity]. }
      split.
      * exists k', o. split; [exact Hk'|]. split; [|exact Oo]. unfold code_keyword. rewrite C'. cbn [code_std]. now rewrite Kj'.
      * destruct (follows_pairs sc x ts (items x) o Jp) as (o' & J' & M). exists k', o'. split; [exact Hk'|]. split; [|now rewrite <- (proj1 M)].
        unfold judge_keyword. rewrite C'. cbn [judge_std]. now rewrite Kj'.
Qed.

(** The limits are numbers. *)
Lemma limits os :
  (exists lo, match dget (lit "minContains") kws with
              | Some k' => limit_ok (fun a b => num_leb b a) (size (count os)) (kw_json k')
              | None => Some (negb (Nat.eqb (count os) 0))
              end = Some lo) /\
  (exists hi, match dget (lit "maxContains") kws with
              | Some k' => limit_ok (fun a b => negb (num_gtb a b)) (size (count os)) (kw_json k')
              | None => Some true
              end = Some hi).
Proof.
  destruct (dialect_finds legacy d Hd) as (_ & Fm & FM & _). split.
  - destruct (dget (lit "minContains") kws) as [k'|] eqn:G; [|eauto]. apply (dget_kws _ _ Hs) in G.
    destruct (limit_value _ _ Hs _ _ _ G (class_found _ _ Hs _ _ _ G Fm) (or_intror eq_refl)) as (n & ->). cbn. eauto.
  - destruct (dget (lit "maxContains") kws) as [k'|] eqn:G; [|eauto]. apply (dget_kws _ _ Hs) in G.
    destruct (limit_value _ _ Hs _ _ _ G (class_found _ _ Hs _ _ _ G FM) (or_introl eq_refl)) as (n & ->). cbn. eauto.
Qed.

(** contains and its companions: together they judge alike. *)
Lemma trio_contains k ko : In k early_kws -> kw_class k = Std KContains -> ck k = Some ko ->
  exists ko', jk k = Some ko' /\ o_names ko = [] /\ o_names ko' = [] /\ (o_ok ko = true -> evaluated_at legacy ko = evaluated_at legacy ko') /\
    (o_ok ko' = true -> o_ok ko = true) /\
    (forall k2, In k2 early_kws -> kw_class k2 = Std KMinContains \/ kw_class k2 = Std KMaxContains ->
       exists ko2, ck k2 = Some ko2 /\ (o_ok ko' = true -> o_ok ko2 = true)) /\
    (o_ok ko' = false -> o_ok ko = true -> exists k2 ko2, In k2 early_kws /\ ck k2 = Some ko2 /\ o_ok ko2 = false).
Proof.
  intros Hk C E. apply early_kws_In in Hk. destruct Hk as (key & HIn & Co & La). unfold code_keyword in E. unfold judge_keyword. rewrite C in E |- *.
  cbn [code_std judge_std] in E |- *. destruct (class_key _ _ Hs _ _ _ HIn C) as [Hkey _]. cbn [std_key] in Hkey. subst key.
  pose proof (proj2 (dget_kws _ _ Hs _ _) HIn) as Gk.
  destruct (dialect_finds legacy d Hd) as (_ & Fm & FM & _).
  destruct (sub_of (Some k)) as [t|] eqn:Sk; cbn [obind] in E |- *; [|discriminate]. destruct (judge_all jd sc t (items x)) as [os|] eqn:J; cbn [obind] in E; [|discriminate].
  destruct (follows_judge_all sc t _ os J) as (os' & -> & F). cbn [obind]. cbv zeta in E |- *. rewrite <- (same_count _ _ F), <- (same_accepted _ _ F).
  destruct (limits os) as [(lo & Hlo) (hi & Hhi)]. rewrite Hlo, Hhi. cbn [obind].
  assert (Cn : code_count jd sc kws x = Some (Some (count os))).
  { unfold code_count. rewrite Gk. rewrite Sk. cbn [obind]. rewrite J. reflexivity. }
  assert (Cmin : forall k2, dget (lit "minContains") kws = Some k2 -> kw_class k2 = Std KMinContains -> ck k2 = Some (plain lo)).
  { intros k2 G C2. unfold code_keyword. rewrite C2. cbn [code_std]. unfold code_limit. rewrite Cn. cbn [obind]. rewrite G in Hlo. now rewrite Hlo. }
  assert (Cmax : forall k2, dget (lit "maxContains") kws = Some k2 -> kw_class k2 = Std KMaxContains -> ck k2 = Some (plain hi)).
  { intros k2 G C2. unfold code_keyword. rewrite C2. cbn [code_std]. unfold code_limit. rewrite Cn. cbn [obind]. rewrite G in Hhi. now rewrite Hhi. }
  assert (Ea : forall k2 c key2, In (key2, k2) kws -> kw_class k2 = Std c -> c = KMinContains \/ c = KMaxContains -> In k2 early_kws).
  { intros k2 c key2 H2 C2 Hc. apply early_kws_In. exists key2. split; [exact H2|]. unfold concerns, late in *. rewrite C2. rewrite C in Co. destruct Hc as [-> | ->]; (split; [exact Co|reflexivity]). }
  rewrite Hhi in E. eexists. split; [reflexivity|]. cbn [o_names o_ok].
  assert (Ek : exists lo', ko = mkO (negb (Nat.eqb (count os) 0) || (lo' && hi)) [] [] (accepted 0 os) /\
                 match dget (lit "minContains") kws with Some _ => lo' = lo | None => lo' = false end).
  { destruct (dget (lit "minContains") kws) as [k2|] eqn:G; [rewrite Hlo in E|]; cbn [obind] in E; injection E as <-; [exists lo|exists false]; split; reflexivity. }
  destruct Ek as (lo' & -> & Hlo'). cbn [o_names o_ok]. split; [reflexivity|]. split; [reflexivity|]. split; [reflexivity|].
  assert (Lo : lo = true -> negb (Nat.eqb (count os) 0) || lo' = true).
  { intro X. destruct (dget (lit "minContains") kws); [subst lo'; rewrite X; apply orb_true_r|]. injection Hlo as <-. now rewrite X. }
  split; [|split].
  - rewrite andb_true_iff. intros [X1 ->]. rewrite andb_true_r. auto.
  - intros k2 H2 C2. apply early_kws_In in H2. destruct H2 as (key2 & H2 & _). destruct C2 as [C2|C2].
    + destruct (class_key _ _ Hs _ _ _ H2 C2) as [Hk2 _]. cbn [std_key] in Hk2. subst key2. apply (dget_kws _ _ Hs) in H2.
      exists (plain lo). split; [auto|]. rewrite andb_true_iff. now intros [-> _].
    + destruct (class_key _ _ Hs _ _ _ H2 C2) as [Hk2 _]. cbn [std_key] in Hk2. subst key2. apply (dget_kws _ _ Hs) in H2.
      exists (plain hi). split; [auto|]. rewrite andb_true_iff. now intros [_ ->].
  - intros X Y. destruct hi.
    + rewrite andb_true_r in X. subst lo. destruct (dget (lit "minContains") kws) as [k2|] eqn:G.
      * pose proof (proj1 (dget_kws _ _ Hs _ _) G) as H2. pose proof (class_found _ _ Hs _ _ _ H2 Fm) as C2. exists k2, (plain false).
        split; [exact (Ea k2 _ _ H2 C2 (or_introl eq_refl))|]. split; [auto|reflexivity].
      * exfalso. subst lo'. injection Hlo as Hlo. rewrite Hlo in Y. discriminate Y.
    + destruct (dget (lit "maxContains") kws) as [k2|] eqn:G; [|discriminate Hhi].
      pose proof (proj1 (dget_kws _ _ Hs _ _) G) as H2. pose proof (class_found _ _ Hs _ _ _ H2 FM) as C2. exists k2, (plain false).
      split; [exact (Ea k2 _ _ H2 C2 (or_intror eq_refl))|]. split; [auto|reflexivity].
Qed.

(** Without contains its companions have no say. *)
Lemma trio_limit k ko : In k early_kws -> kw_class k = Std KMinContains \/ kw_class k = Std KMaxContains -> ck k = Some ko ->
  jk k = Some (plain true) /\ (exists b, ko = plain b) /\
  (o_ok ko = true \/ exists kc, In kc early_kws /\ kw_class kc = Std KContains).
Proof.
  intros Hk C E. apply early_kws_In in Hk. destruct Hk as (key & HIn & Co & La). unfold code_keyword in E. unfold judge_keyword.
  assert (E' : exists rel, code_limit jd sc kws rel k x = Some ko) by (destruct C as [C|C]; rewrite C in E; cbn [code_std] in E; eauto).
  clear E. destruct E' as (rel & E). split; [destruct C as [C|C]; now rewrite C|]. split.
  { unfold code_limit in E. destruct (code_count jd sc kws x) as [[n|]|]; cbn [obind] in E; [|injection E as <-; eauto|discriminate].
    destruct (limit_ok rel (size n) (kw_json k)); [|discriminate E]. injection E as <-. eauto. }
  unfold code_limit, code_count in E. destruct (dget (lit "contains") kws) as [kc|] eqn:G.
  - right. apply (dget_kws _ _ Hs) in G. destruct (dialect_finds legacy d Hd) as (Fc & _). pose proof (class_found _ _ Hs _ _ _ G Fc) as Cc.
    exists kc. split; [|exact Cc]. apply early_kws_In. exists (lit "contains"). split; [exact G|]. unfold concerns, late in *. rewrite Cc.
    destruct C as [C|C]; rewrite C in Co; (split; [exact Co|reflexivity]).
  - left. cbn [obind] in E. now injection E as <-.
Qed.

(** ** The whole object. *)
Variable os : list outcome.
Hypothesis Eos : all_some (map ck early_kws) = Some os.

Lemma ck_some k : In k early_kws -> exists ko, ck k = Some ko /\ In ko os.
Proof.
  intro H. destruct (ck k) as [ko|] eqn:E.
  - exists ko. split; [reflexivity|]. apply (all_some_In _ _ Eos). rewrite <- E. now apply in_map.
  - exfalso. assert (X : In (ck k) (map ck early_kws)) by now apply in_map. rewrite E in X. revert X Eos. clear. intros X Eos. revert os Eos X.
    induction (map ck early_kws) as [|[a|] l IH]; intros os E X; [destruct X| |discriminate E]. cbn [all_some] in E.
    destruct (all_some l) as [l'|]; [|discriminate]. destruct X as [X|X]; [discriminate|]. exact (IH l' eq_refl X).
Qed.
Lemma os_from ko : In ko os -> exists k, In k early_kws /\ ck k = Some ko.
Proof. intro H. apply (all_some_In _ _ Eos) in H. apply in_map_iff in H. destruct H as (k & E & H). eauto. Qed.

Lemma rejects_alike : strict_rejects -> code_rejects.
Proof.
  intros (k & ko' & Hk & J & O). destruct (ck_some k Hk) as (ko & E & _). destruct (trio k) eqn:Tr.
  - unfold trio in Tr. destruct (kw_class k) as [c|] eqn:C; [|discriminate]. destruct c; try discriminate Tr.
    + destruct (trio_contains k ko Hk C E) as (ko2 & J2 & _ & _ & _ & _ & _ & X). rewrite J in J2. injection J2 as <-.
      destruct (o_ok ko) eqn:Oo; [|exists k, ko; auto]. destruct (X O eq_refl) as (k2 & ko2 & H1 & H2 & H3). exists k2, ko2. auto.
    + destruct (trio_limit k ko Hk (or_intror C) E) as (J2 & _). rewrite J in J2. injection J2 as ->. discriminate O.
    + destruct (trio_limit k ko Hk (or_introl C) E) as (J2 & _). rewrite J in J2. injection J2 as ->. discriminate O.
  - destruct (kw_strict k ko Hk Tr E) as [(ko2 & J2 & N & _)|(_ & X & _)]; [|exact X]. rewrite J in J2. injection J2 as <-. exists k, ko. rewrite N. auto.
Qed.

(** When the specification has no early keyword reject, all early keywords
    accept on both sides, alike. *)
Lemma accepts_alike : ~ strict_rejects ->
  forall k, In k early_kws -> exists ko ko', ck k = Some ko /\ jk k = Some ko' /\ o_ok ko = true /\ o_ok ko' = true /\ nearly slack ko ko'.
Proof.
  intros NR k Hk. destruct (ck_some k Hk) as (ko & E & _). exists ko. destruct (trio k) eqn:Tr.
  - assert (Ct : forall kc, In kc early_kws -> kw_class kc = Std KContains -> exists ko ko', ck kc = Some ko /\ jk kc = Some ko' /\ o_ok ko = true /\ o_ok ko' = true /\ nearly slack ko ko' /\
        forall k2, In k2 early_kws -> kw_class k2 = Std KMinContains \/ kw_class k2 = Std KMaxContains -> exists ko2, ck k2 = Some ko2 /\ o_ok ko2 = true).
    { intros kc Hkc C. destruct (ck_some kc Hkc) as (kc' & Ec & _). destruct (trio_contains kc kc' Hkc C Ec) as (ko' & J & N1 & N2 & Ev & O1 & O2 & _).
      assert (O : o_ok ko' = true). { destruct (o_ok ko') eqn:O; [reflexivity|]. exfalso. apply NR. exists kc, ko'. auto. }
      exists kc', ko'. split; [exact Ec|]. split; [exact J|]. split; [auto|]. split; [exact O|]. split.
      - split; [rewrite O; auto|]. intros _ Oc. rewrite N1, N2, (Ev Oc). split; [reflexivity|]. intros m _. tauto.
      - intros k2 H2 C2. destruct (O2 k2 H2 C2) as (ko2 & X1 & X2). exists ko2. auto. }
    unfold trio in Tr. destruct (kw_class k) as [c|] eqn:C; [|discriminate].
    assert (Lim : kw_class k = Std KMinContains \/ kw_class k = Std KMaxContains ->
      exists ko', ck k = Some ko /\ jk k = Some ko' /\ o_ok ko = true /\ o_ok ko' = true /\ nearly slack ko ko').
    { intro C'. destruct (trio_limit k ko Hk C' E) as (J & (b & ->) & Hc). exists (plain true). split; [exact E|]. split; [exact J|].
      assert (B : b = true).
      { destruct Hc as [Hc|(kc & Hkc & Cc)]; [exact Hc|]. destruct (Ct kc Hkc Cc) as (_ & _ & _ & _ & _ & _ & _ & X). destruct (X k Hk C') as (ko2 & E2 & O2). rewrite E in E2. now injection E2 as <-. }
      subst b. split; [reflexivity|]. split; [reflexivity|]. apply matched_nearly, matched_refl. }
    destruct c; try discriminate Tr.
    + destruct (Ct k Hk C) as (ko1 & ko' & E1 & J & O1 & O2 & N & _). rewrite E in E1. injection E1 as <-. exists ko'. auto 6.
    + apply Lim. auto.
    + apply Lim. auto.
  - destruct (kw_strict k ko Hk Tr E) as [(ko' & J & N)|(_ & _ & X)]; [|contradiction]. exists ko'. split; [exact E|]. split; [exact J|].
    assert (O : o_ok ko' = true). { destruct (o_ok ko') eqn:O; [reflexivity|]. exfalso. apply NR. exists k, ko'. auto. }
    split; [now rewrite (proj1 N)|]. split; [exact O|exact N].
Qed.

Lemma strict_some : ~ strict_rejects -> exists os', all_some (map jk early_kws) = Some os' /\ (forall o, In o os' -> o_ok o = true) /\
  (forall o, In o os -> o_ok o = true) /\ Forall2 (nearly slack) os os'.
Proof.
  intro NR. assert (A := accepts_alike NR). revert A Eos. clear. generalize early_kws as l. intros l A. revert os.
  induction l as [|k l IH]; intros os E; cbn [map all_some] in E |- *.
  - injection E as <-. exists []. repeat split; try constructor; intros o [].
  - destruct (A k (or_introl eq_refl)) as (ko & ko' & E1 & J1 & O1 & O2 & N). rewrite E1 in E. rewrite J1.
    destruct (all_some (map ck l)) as [os1|] eqn:El; [|discriminate]. injection E as <-.
    destruct (IH (fun k H => A k (or_intror H)) os1 eq_refl) as (os' & -> & H1 & H2 & H3). exists (ko' :: os').
    split; [reflexivity|]. split; [intros o [<-|H]; auto|]. split; [intros o [<-|H]; auto|]. now constructor.
Qed.

(** The items in [slack] are evaluated. *)
Lemma slack_in m os' : all_some (map jk early_kws) = Some os' -> (forall o, In o os' -> o_ok o = true) ->
  m < length (items x) -> slack m -> In m (evaluated_at legacy (gather true os')).
Proof.
  intros A O Hm (ts & Hts & L). destruct (dget (tuple_key legacy) kws) as [k|] eqn:G; [|discriminate Hts].
  cbn [subs_of obind] in Hts. destruct (kw_json k) as [| |l|] eqn:Kj; try discriminate. injection Hts as ->.
  apply (dget_kws _ _ Hs) in G. destruct (dialect_finds legacy d Hd) as (_ & _ & _ & Fi & Fp).
  assert (Cx : exists c, kw_class k = Std c /\ c = if legacy then KItems2019 else KPrefixItems).
  { unfold tuple_key in G. destruct (bool_dec legacy true) as [B|B]; [|apply not_true_is_false in B]; rewrite B in G |- *; eexists; (split; [|reflexivity]).
    - exact (class_found _ _ Hs _ _ _ G (Fi B)).
    - exact (class_found _ _ Hs _ _ _ G (Fp B)). }
  destruct Cx as (c & C & Hc).
  assert (Tx : existsb (jtype_eqb (type_of x)) [TArray] = true) by (destruct x; cbn [items length] in Hm; try lia; reflexivity).
  assert (Hk : In k early_kws).
  { apply early_kws_In. exists (tuple_key legacy). split; [exact G|]. unfold concerns, late. rewrite C, Hc. destruct legacy; (split; [exact Tx|reflexivity]). }
  assert (J : jk k = judge_pairs jd' sc ts (items x)).
  { unfold judge_keyword. rewrite C, Hc. destruct legacy; cbn [judge_std]; [now rewrite Kj|]. unfold subs_of. cbn [obind]. now rewrite Kj. }
  unfold judge_pairs in J. assert (X : In (jk k) (map jk early_kws)) by now apply in_map.
  destruct (all_some (map (fun tx => jd' sc (fst tx) (snd tx)) (combine ts (items x)))) as [ps|]; cbn [obind] in J; rewrite J in X.
  - apply (all_some_In _ _ A) in X. rewrite evaluated_gather, in_flat_map. eexists. split; [apply filter_In; split; [exact X|exact (O _ X)]|].
    unfold evaluated_at. cbn [o_places o_found]. replace (if legacy then _ else _) with (seq 0 (min (length ts) (length (items x)))) by (destruct legacy; now rewrite ?app_nil_r).
    apply in_seq. lia.
  - exfalso. revert X A. clear. revert os'. induction (map jk early_kws) as [|[a|] l IH]; intros os' X A; [destruct X| |discriminate A].
    cbn [all_some] in A. destruct (all_some l) as [l'|]; [|discriminate]. destruct X as [X|X]; [discriminate|]. exact (IH l' X eq_refl).
Qed.

Definition late_code (o : outcome) : list (option outcome) :=
  flat_map (fun k => match late k with Some c => [code_unevaluated jd sc o k c x] | None => [] end) (filter (concerns x) (map snd kws)).
Definition late_strict (o : outcome) : list (option outcome) :=
  flat_map (fun k => match late k with Some c => [judge_unevaluated jd' sc o k c x] | None => [] end) (filter (concerns x) (map snd kws)).

Lemma late_track k c : In k (filter (concerns x) (map snd kws)) -> late k = Some c -> track = true.
Proof.
  intros H La. apply filter_In in H. destruct H as [H _]. apply in_map_iff in H. destruct H as ([key k'] & <- & H). cbn [snd] in La.
  destruct track eqn:T; [reflexivity|]. exfalso. destruct Htrack as (X1 & X2 & X3 & X4). unfold late in La.
  destruct (kw_class k') as [c'|] eqn:C; [|discriminate]. pose proof (uses_kw _ _ _ H C) as U. destruct c'; try discriminate La; auto.
Qed.

(** An unevaluated keyword looks at the same members or items. *)
Lemma late_alike o o' k c : matched x o o' -> o_ok o = true -> track = true -> In k (filter (concerns x) (map snd kws)) -> late k = Some c ->
  follows (nearly (fun m => In m (evaluated_at legacy o'))) (code_unevaluated jd sc o k c x) (judge_unevaluated jd' sc o' k c x).
Proof.
  intros [_ M] O T H La. destruct (M T O) as [M1 M2]. apply filter_In in H. destruct H as [H _]. apply in_map_iff in H. destruct H as ([key k'] & <- & H). cbn [snd] in *.
  assert (C : kw_class k' = Std c) by (unfold late in La; destruct (kw_class k') as [c'|]; [|discriminate]; destruct c'; try discriminate La; injection La as <-; reflexivity).
  pose proof (class_legacy _ _ Hd _ Hs _ _ _ H C) as Lg.
  assert (Ex : forall l n, existsb (Nat.eqb n) l = true <-> In n l).
  { intros l n. rewrite existsb_exists. split; [intros (m & Hm & Q); apply Nat.eqb_eq in Q; now subst|intro Hn; exists n; split; [exact Hn|apply Nat.eqb_refl]]. }
  assert (I : forall e e', (forall m, m < length (items x) -> (In m e <-> In m e')) -> (forall m, In m e' <-> In m (evaluated_at legacy o')) ->
    follows (nearly (fun m => In m (evaluated_at legacy o')))
     (obind (sub_of (Some k')) (fun t => obind (judge_all jd sc t (map (fun n => nth n (items x) JNull) (filter (fun n => negb (existsb (Nat.eqb n) e)) (seq 0 (length (items x))))))
        (fun os => Some (mkO (all_accept os) [] (all_or_none os (length (items x))) []))))
     (obind (sub_of (Some k')) (fun t => obind (judge_all jd' sc t (map (fun n => nth n (items x) JNull) (filter (fun n => negb (existsb (Nat.eqb n) e')) (seq 0 (length (items x))))))
        (fun os => Some (mkO (all_accept os) [] (filter (fun n => negb (existsb (Nat.eqb n) e')) (seq 0 (length (items x)))) []))))).
  { intros e e' He He'. replace (filter (fun n => negb (existsb (Nat.eqb n) e)) (seq 0 (length (items x)))) with (filter (fun n => negb (existsb (Nat.eqb n) e')) (seq 0 (length (items x)))).
    2: { apply filter_ext_in. intros m Hm. apply in_seq in Hm. f_equal. apply eq_true_iff_eq. rewrite !Ex. symmetry. apply He. lia. }
    apply follows_same. intro t. intros y E. destruct (judge_all jd sc t _) as [ys|] eqn:J; cbn [obind] in E; [|discriminate]. injection E as <-.
    destruct (follows_judge_all sc t _ ys J) as (ys' & -> & F). cbn [obind]. eexists. split; [reflexivity|]. split; cbn [o_ok]; [exact (same_all _ _ F)|].
    intros _ _. cbn [o_names]. split; [reflexivity|]. intros m Hm.
    assert (E1 : forall b l, evaluated_at legacy (mkO b [] l []) = l) by (intros; unfold evaluated_at; cbn [o_places o_found]; destruct legacy; now rewrite ?app_nil_r).
    rewrite !E1. apply all_some_length in J. rewrite map_length, map_length in J.
    rewrite filter_In, in_seq, negb_true_iff, <- not_true_iff_false, Ex, He'. destruct ys as [|y0 ys]; cbn [all_or_none].
    - split; [|intros []]. intros [A B]. exfalso. assert (Z : In m (filter (fun n => negb (existsb (Nat.eqb n) e')) (seq 0 (length (items x))))).
      { rewrite filter_In, in_seq, negb_true_iff, <- not_true_iff_false, Ex, He'. now split. }
      destruct (filter _ _); [destruct Z|discriminate J].
    - rewrite in_seq. split; [tauto|]. intros _. destruct (in_dec Nat.eq_dec m (evaluated_at legacy o')) as [D|D]; [now right|left]. split; [lia|exact D]. }
  assert (P : follows (nearly (fun m => In m (evaluated_at legacy o')))
     (obind (sub_of (Some k')) (fun t => judge_members jd sc t (filter (fun kv => negb (mem_str (fst kv) (o_names o))) (members x))))
     (obind (sub_of (Some k')) (fun t => judge_members jd' sc t (filter (fun kv => negb (mem_str (fst kv) (o_names o'))) (members x))))).
  { replace (filter (fun kv => negb (mem_str (fst kv) (o_names o))) (members x)) with (filter (fun kv => negb (mem_str (fst kv) (o_names o'))) (members x)).
    2: { apply filter_ext. intros kv. f_equal. apply eq_true_iff_eq. rewrite !mem_str_In. symmetry. apply M1. }
    apply follows_same. intros t y E. destruct (follows_members sc t x _ y E) as (z & Z & Mz). exists z. split; [exact Z|now apply matched_nearly]. }
  unfold late in La. rewrite C in La. destruct c; try discriminate La; cbn [code_unevaluated judge_unevaluated]; cbv zeta; try exact P.
  - assert (Hl : legacy = false) by (destruct legacy; [discriminate Lg|reflexivity]). unfold evaluated_at in *. rewrite Hl in *. apply I; [exact M2|reflexivity].
  - assert (Hl : legacy = true) by (destruct legacy; [reflexivity|discriminate Lg]). unfold evaluated_at in *. rewrite Hl in *. apply I; [exact M2|reflexivity].
Qed.

Lemma late_both o o' us : matched x o o' -> o_ok o = true -> all_some (late_code o) = Some us ->
  exists us', all_some (late_strict o') = Some us' /\ Forall2 (nearly (fun m => In m (evaluated_at legacy o'))) us us' /\ (us <> [] -> track = true).
Proof.
  intros M O. unfold late_code, late_strict.
  assert (A : forall k c, In k (filter (concerns x) (map snd kws)) -> late k = Some c -> track = true /\
    follows (nearly (fun m => In m (evaluated_at legacy o'))) (code_unevaluated jd sc o k c x) (judge_unevaluated jd' sc o' k c x)).
  { intros k c H La. pose proof (late_track k c H La) as T. split; [exact T|]. now apply late_alike. }
  revert us A. induction (filter (concerns x) (map snd kws)) as [|k l IH]; intros us A E; cbn [flat_map] in E |- *.
  - injection E as <-. exists []. repeat split; [constructor|congruence].
  - destruct (late k) as [c|] eqn:La; [|apply IH; [intros; apply A; [now right|assumption]|exact E]].
    destruct (A k c (or_introl eq_refl) La) as [T F]. cbn [app all_some] in E |- *.
    destruct (code_unevaluated jd sc o k c x) as [u|]; [|discriminate]. destruct (F u eq_refl) as (u' & -> & N).
    destruct (all_some (flat_map _ l)) as [us1|]; [|discriminate]. injection E as <-.
    destruct (IH us1 (fun k c H => A k c (or_intror H)) eq_refl) as (us' & -> & H1 & _). exists (u' :: us'). split; [reflexivity|]. split; [now constructor|auto].
Qed.
End Kw.

Lemma nearly_oks x extra os os' : Forall2 (nearly x extra) os os' -> Forall2 same_ok os os'.
Proof. induction 1 as [|a b l l' [E _] _ IH]; constructor; auto. Qed.

(** Accepting outcomes gathered: the extra items are evaluated on the right
    as well. *)
Lemma nearly_gather x (extra : nat -> Prop) os os' : Forall2 (nearly x extra) os os' -> (forall o, In o os -> o_ok o = true) ->
  (track = true -> forall m, m < length (items x) -> extra m -> In m (evaluated_at legacy (gather true os'))) ->
  matched x (gather true os) (gather true os').
Proof.
  intros F O S. split; [reflexivity|]. intros T _.
  assert (O' : forall o, In o os' -> o_ok o = true).
  { intros o Ho. clear - F O Ho. induction F as [|a b l l' [E _] _ IH]; [destruct Ho|]. destruct Ho as [<-|Ho]; [rewrite <- E; apply O; now left|].
    apply IH; [intros; apply O; now right|exact Ho]. }
  split.
  - intro n. unfold gather. cbn [o_names]. rewrite !filter_ok_all by assumption. clear - F O T.
    induction F as [|a b l l' [_ N] _ IH]; [reflexivity|]. cbn [flat_map]. rewrite !in_app_iff, IH by (intros; apply O; now right).
    destruct (N T (O a (or_introl eq_refl))) as [N1 _]. now rewrite N1.
  - intros m Hm. rewrite !evaluated_gather. rewrite !filter_ok_all by assumption. specialize (S T m Hm). rewrite evaluated_gather, filter_ok_all in S by assumption.
    split.
    + intro H. assert (H' : In m (flat_map (evaluated_at legacy) os') \/ extra m); [|destruct H'; auto]. clear S. revert H. clear - F O T Hm.
      induction F as [|a b l l' [_ N] _ IH]; [intros []|]. cbn [flat_map]. rewrite !in_app_iff. destruct (N T (O a (or_introl eq_refl))) as [_ N2].
      intros [H|H]; [apply (N2 m Hm) in H; tauto|]. destruct (IH (fun o Ho => O o (or_intror Ho)) H); tauto.
    + clear S. revert O. clear - F T Hm. induction F as [|a b l l' [_ N] _ IH]; [intros _ []|]. intro O. cbn [flat_map]. rewrite !in_app_iff.
      destruct (N T (O a (or_introl eq_refl))) as [_ N2]. intros [H|H]; [left; now apply N2|right; apply IH; [intros; apply O; now right|exact H]].
Qed.

Theorem strict_judge n : forall sc s x, follows (matched x) (code_judge W choose n sc s x) (judge W choose n sc s x).
Proof.
  induction n as [|n IH]; intros sc s x o E; [discriminate|]. cbn [code_judge] in E. cbn [judge]. destruct (w_schema W s) as [b|kws] eqn:Hs.
  { injection E as <-. exists (plain b). split; [reflexivity|apply matched_refl]. }
  set (jd := code_judge W choose n) in *. set (jd' := judge W choose n) in *.
  assert (Hb : forall sc t b y o, w_schema W t = SBool b -> jd sc t y = Some o -> o_ok o = b /\ forall y', jd' sc t y' = Some (plain b)).
  { intros sc' t b y o' Ht Ej. unfold jd, jd' in *. destruct n as [|n']; [discriminate Ej|]. cbn [code_judge judge] in *. rewrite Ht in *. injection Ej as <-. auto. }
  unfold code_object in E. cbv zeta in E. fold (early_kws kws x) in E.
  destruct (all_some (map (code_keyword W choose jd (s :: sc) kws x) (early_kws kws x))) as [os|] eqn:Eos; cbn [obind] in E; [|discriminate].
  fold (late_code jd kws (s :: sc) x (gather true os)) in E. destruct (all_some (late_code jd kws (s :: sc) x (gather true os))) as [us|] eqn:Eus; cbn [obind] in E; [|discriminate].
  injection E as <-. unfold judge_object. cbv zeta. fold (early_kws kws x).
  destruct (existsb rejects (map (judge_keyword W choose jd' (s :: sc) kws x) (early_kws kws x))) eqn:Rj.
  - apply existsb_exists in Rj. destruct Rj as (a & Ha & Rj). apply rejects_true in Rj. destruct Rj as (ko' & -> & O').
    rewrite (conclude_rejects _ _ Ha O'). cbn [plain o_ok]. eexists. split; [reflexivity|]. apply in_map_iff in Ha. destruct Ha as (k & J & Hk).
    destruct (rejects_alike jd jd' IH s kws Hs Hb (s :: sc) x os Eos) as (k2 & ko & Hk2 & E2 & O2); [exists k, ko'; auto|].
    assert (Z : all_accept (os ++ us) = false).
    { apply not_true_is_false. intro Z. unfold all_accept in Z. rewrite forallb_forall in Z. rewrite (Z ko) in O2; [discriminate|].
      apply in_or_app. left. apply (all_some_In _ _ Eos). rewrite <- E2. now apply in_map. }
    rewrite Z. split; [reflexivity|]. intros _ X. discriminate X.
  - assert (NR : ~ strict_rejects jd' kws (s :: sc) x).
    { intros (k & ko' & Hk & J & O'). apply not_true_iff_false in Rj. apply Rj. apply existsb_exists. exists (Some ko'). split; [rewrite <- J; now apply in_map|].
      cbn. now rewrite O'. }
    destruct (strict_some jd jd' IH s kws Hs Hb (s :: sc) x os Eos NR) as (os' & Eos' & O' & O & F).
    rewrite (conclude_accepts _ _ Eos' O'). cbn [gather o_ok].
    assert (M : matched x (gather true os) (gather true os')).
    { apply (nearly_gather x (slack kws)); [exact F|exact O|]. intros _ m Hm Sm. eapply slack_in; eassumption. }
    destruct (late_both jd jd' IH s kws Hs (s :: sc) x (gather true os) (gather true os') us M eq_refl Eus) as (us' & Eus' & Fu & Tu).
    fold (late_strict jd' kws (s :: sc) x (gather true os')).
    assert (Al : all_some (Some (gather true os') :: late_strict jd' kws (s :: sc) x (gather true os')) = Some (gather true os' :: us')) by (cbn [all_some]; now rewrite Eus').
    assert (Za : all_accept os = true) by (unfold all_accept; now apply forallb_forall).
    destruct (all_accept us) eqn:Zu.
    + assert (Ou : forall o, In o us -> o_ok o = true) by (unfold all_accept in Zu; now rewrite forallb_forall in Zu).
      assert (Ou' : forall o, In o us' -> o_ok o = true).
      { assert (Z' : all_accept us' = true) by (rewrite <- (same_all _ _ (nearly_oks _ _ _ _ Fu)); exact Zu). unfold all_accept in Z'. now rewrite forallb_forall in Z'. }
      change (mkO true _ _ _) with (gather true os'). rewrite (conclude_accepts _ _ Al) by (intros o [<-|Ho]; auto). eexists. split; [reflexivity|].
      assert (Zx : all_accept (os ++ us) = true) by (unfold all_accept in *; now rewrite forallb_app, Za, Zu). rewrite Zx.
      assert (M2 : matched x (gather true (gather true os :: us)) (gather true (gather true os' :: us'))).
      { apply (nearly_gather x (fun m => In m (evaluated_at legacy (gather true os')))).
        - constructor; [now apply matched_nearly|exact Fu].
        - intros o [<-|Ho]; auto.
        - intros _ m Hm Sm. rewrite evaluated_gather. cbn [filter gather o_ok flat_map]. apply in_or_app. now left. }
      assert (Eq : gather true (gather true os :: us) = gather true (os ++ us)).
      { unfold gather. cbn [filter o_ok flat_map o_names o_places o_found]. now rewrite !filter_app, !flat_map_app. }
      rewrite <- Eq. exact M2.
    + assert (Zx : all_accept (os ++ us) = false) by (unfold all_accept in *; now rewrite forallb_app, Zu, andb_false_r). rewrite Zx.
      assert (Z' : all_accept us' = false) by (rewrite <- (same_all _ _ (nearly_oks _ _ _ _ Fu)); exact Zu).
      assert (X : exists ko, In ko us' /\ o_ok ko = false).
      { clear - Z'. unfold all_accept in Z'. induction us' as [|a l IHl]; [discriminate|]. cbn [forallb] in Z'. destruct (o_ok a) eqn:Oa; [|exists a; split; [now left|exact Oa]].
        destruct (IHl Z') as (ko & H & O). exists ko. split; [now right|exact O]. }
      destruct X as (ko & Hko & Oko). change (mkO true _ _ _) with (gather true os').
      rewrite (conclude_rejects _ ko); [|right; now apply (all_some_In _ _ Eus')|exact Oko]. eexists. split; [reflexivity|]. split; [reflexivity|]. intros _ Y. discriminate Y.
Qed.
End Strict.

(** Evaluation agrees with judging. *)
Theorem evaluate_root_judge W d legacy (track : bool) : dialect legacy d -> good_world d W -> (if track then no_misjudged W else no_unevaluated W) ->
  forall f s i r, jwf (i_val i) = true -> evaluate_root W f s i = Ok r ->
  exists o, judge W (code_choice W) f [] s (i_val i) = Some o /\ r_valid r = o_ok o.
Proof.
  intros Hd Hg Ht f s i r Hw E. destruct (evaluate_root_code W d legacy Hd Hg f s i r Hw E) as (o & J & V).
  destruct (strict_judge W d legacy track Hd Hg Ht (code_choice W) f [] s (i_val i) o J) as (o' & J' & M & _).
  exists o'. split; [exact J'|]. now rewrite <- M.
Qed.
