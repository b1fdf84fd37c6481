(** Proofs about the ordering of keywords. *)
From Coq Require Import Permutation.
From Verif Require Export BaseFacts Deps SpecDeps.
Open Scope nat_scope.

Lemma before_cons {C} (d c x : C) l : before d c l -> before d c (x :: l).
Proof. intros (l1 & l2 & l3 & ->). now exists (x :: l1), l2, l3. Qed.

Lemma before_head {C} (d c : C) l : In c l -> before d c (d :: l).
Proof. intro H. apply in_split in H as (l2 & l3 & ->). now exists [], l2, l3. Qed.

Section Facts.
Context {C : Type} (eqb : C -> C -> bool) (deps_of : C -> list pystr).
Hypothesis eqb_spec : forall a b, reflect (a = b) (eqb a b).

Lemma eq_dec_C (a b : C) : {a = b} + {a <> b}.
Proof. destruct (eqb_spec a b); [left|right]; assumption. Qed.

Lemma cset_new c v t : ~ In c (map fst t) -> cset eqb c v t = t ++ [(c, v)].
Proof.
  induction t as [|[d w] t IH]; cbn [cset map fst app]; intro H; [reflexivity|].
  destruct (eqb_spec c d) as [->|N]; [destruct H; now left|].
  f_equal. apply IH. intro HI. apply H. now right.
Qed.

(** The dict comprehension, for distinct classes. *)
Lemma fold_cset (f : C -> list C) kw t :
  NoDup (map fst t ++ map snd kw) ->
  fold_left (fun t (kc : pystr * C) => cset eqb (snd kc) (f (snd kc)) t) kw t
  = t ++ map (fun kc => (snd kc, f (snd kc))) kw.
Proof.
  revert t. induction kw as [|[k c] kw IH]; intros t H; cbn [fold_left map snd].
  - now rewrite app_nil_r.
  - rewrite cset_new.
    2:{ intro HI. apply NoDup_remove_2 in H. apply H. apply in_or_app. now left. }
    rewrite IH.
    + now rewrite <- app_assoc.
    + rewrite map_app. cbn [map fst]. rewrite <- app_assoc. exact H.
Qed.

Lemma dep_table_eq kw : NoDup (map snd kw) ->
  dep_table eqb deps_of kw = map (fun kc => (snd kc, present_deps kw (deps_of (snd kc)))) kw.
Proof. intro H. unfold dep_table. exact (fold_cset (fun c => present_deps kw (deps_of c)) kw [] H). Qed.

Lemma in_present (kw : list (pystr * C)) names d :
  In d (present_deps kw names) <-> exists n, In n names /\ dget n kw = Some d.
Proof.
  induction names as [|n r IH]; cbn [present_deps].
  - split; [intros []|intros (n & [] & _)].
  - destruct (dget n kw) as [e|] eqn:E.
    + split.
      * intros [->|H]; [exists n; split; [now left|exact E]|].
        apply IH in H as (m & H & F). exists m. split; [now right|exact F].
      * intros (m & [->|H] & F); [left; congruence|right; apply IH; now exists m].
    + rewrite IH. split; intros (m & H & F).
      * exists m. split; [now right|exact F].
      * destruct H as [->|H]; [congruence|now exists m].
Qed.

Lemma NoDup_present (kw : list (pystr * C)) names : NoDup (keys kw) -> NoDup (map snd kw) ->
  (NoDup (present_deps kw names) <->
   NoDup (filter (fun n => match dget n kw with Some _ => true | None => false end) names)).
Proof.
  intros NK NC. induction names as [|n r IH]; cbn [present_deps filter]; [split; intros _; constructor|].
  destruct (dget n kw) as [e|] eqn:E; [|exact IH].
  rewrite !NoDup_cons_iff, IH.
  assert (K : In e (present_deps kw r) <->
              In n (filter (fun n => match dget n kw with Some _ => true | None => false end) r)).
  { rewrite in_present, filter_In, E. split.
    - intros (m & Hm & F). split; [|reflexivity].
      assert (m = n) as ->; [|exact Hm].
      apply dget_In in E, F. revert E F. revert NC NK. clear.
      induction kw as [|[k c] kw IH]; intros NC NK A B; [destruct A|].
      cbn in NC, NK. inversion NC as [|? ? N1 N2]; inversion NK as [|? ? N3 N4]; subst.
      destruct A as [A|A], B as [B|B].
      + congruence.
      + inversion A; subst. destruct N1. now apply (in_map snd) in B.
      + inversion B; subst. destruct N1. now apply (in_map snd) in A.
      + now apply IH.
    - intros [Hn _]. now exists n. }
  tauto.
Qed.

Lemma in_lremove c d l : In d (lremove eqb c l) -> In d l.
Proof.
  induction l as [|x l IH]; cbn [lremove]; [auto|].
  destruct (eqb_spec x c); cbn [In]; tauto.
Qed.

Lemma in_lremove_other c d l : d <> c -> In d l -> In d (lremove eqb c l).
Proof.
  intros N. induction l as [|x l IH]; cbn [lremove]; [auto|].
  destruct (eqb_spec x c) as [->|N2]; cbn [In]; [intros [<-|H]; [congruence|exact H]|tauto].
Qed.

Lemma lremove_NoDup c l : NoDup l -> NoDup (lremove eqb c l) /\ ~ In c (lremove eqb c l).
Proof.
  induction l as [|x l IH]; cbn [lremove]; intro H; [split; [constructor|tauto]|].
  inversion H as [|? ? HN HD]; subst. destruct (eqb_spec x c) as [->|N]; [now split|].
  destruct (IH HD) as [A B]. split; [constructor; [|exact A]|].
  - intro F. apply in_lremove in F. now apply HN.
  - intros [F|F]; [congruence|now apply B].
Qed.

Lemma find_free_In (t : list (C * list C)) c : find_free t = Some c -> In (c, []) t.
Proof.
  induction t as [|[d v] t IH]; cbn [find_free]; [discriminate|].
  destruct v as [|x v]; [injection 1 as ->; now left|]. intro H. right. now apply IH.
Qed.

Lemma find_free_None (t : list (C * list C)) c : find_free t = None -> ~ In (c, []) t.
Proof.
  induction t as [|[d v] t IH]; cbn [find_free]; [auto|].
  destruct v as [|x v]; [discriminate|]. intros H [F|F]; [congruence|now apply IH in H].
Qed.

Lemma cdel_spec c t e : NoDup (map fst t) -> In c (map fst t) ->
  (In e (cdel eqb c t) <-> In e t /\ fst e <> c) /\
  Permutation (map fst t) (c :: map fst (cdel eqb c t)).
Proof.
  induction t as [|[d v] t IH]; cbn [cdel map fst]; intros H HI; [destruct HI|].
  destruct HI as [HI|HI]; cbn [In] in *.
  - subst d. inversion H as [|? ? HN HD]; subst. destruct (eqb_spec c c); [|congruence].
    split; [|reflexivity]. split.
    + intro F. split; [now right|]. intro E. apply HN. rewrite <- E. now apply in_map.
    + intros [[F|F] N]; [subst e; now destruct N|exact F].
  - inversion H as [|? ? HN HD]; subst. destruct (eqb_spec c d) as [->|N]; [tauto|].
    destruct (IH HD HI) as [A B]. cbn [In map fst]. split.
    + rewrite A. split; [intros [<-|[F G]]; [split; [now left|cbn; congruence]|split; [now right|exact G]]|].
      intros [[F|F] G]; [now left|right; now split].
    + rewrite B. apply perm_swap.
Qed.

Definition step (c : C) (t : list (C * list C)) := map (fun e => (fst e, lremove eqb c (snd e))) (cdel eqb c t).

Lemma map_fst_step c t : map fst (step c t) = map fst (cdel eqb c t).
Proof. unfold step. rewrite map_map. now apply map_ext. Qed.

Lemma step_perm c t : NoDup (map fst t) -> In c (map fst t) ->
  Permutation (map fst t) (c :: map fst (step c t)).
Proof. intros H1 H2. rewrite map_fst_step. now apply (cdel_spec c t (c, []) H1 H2). Qed.

Lemma in_step c t d ws : NoDup (map fst t) -> In c (map fst t) -> In (d, ws) (step c t) ->
  d <> c /\ exists vs, In (d, vs) t /\ ws = lremove eqb c vs.
Proof.
  intros H1 H2 H. unfold step in H. apply in_map_iff in H as ([d' vs] & E & H).
  cbn [fst snd] in E. inversion E; subst. apply (cdel_spec c t _ H1 H2) in H as [H N].
  cbn [fst] in N. split; [exact N|]. exists vs. now split.
Qed.

Lemma resolve_loop_cons f t : t <> [] -> resolve_loop eqb (S f) t =
  match find_free t with
  | None => resolve_loop eqb f t
  | Some c => let* r := resolve_loop eqb f (step c t) in Ok (c :: r)
  end.
Proof. destruct t; [congruence|reflexivity]. Qed.

(** Whatever the loop yields is a permutation in which every class follows
    its outstanding dependencies, and there were no repeated ones. *)
Lemma before_In {C'} (d c : C') l : before d c l -> In d l /\ In c l.
Proof.
  intros (l1 & l2 & l3 & ->). split; apply in_or_app; right; [now left|].
  right. apply in_or_app. right. now left.
Qed.

Lemma NoDup_of_lremove c l : NoDup (lremove eqb c l) -> ~ In c (lremove eqb c l) -> NoDup l.
Proof.
  induction l as [|x l IH]; cbn [lremove]; intros H N; [constructor|].
  destruct (eqb_spec x c) as [->|E]; [now constructor|].
  inversion H as [|? ? HN HD]; subst. constructor.
  - intro F. apply HN. now apply in_lremove_other.
  - apply IH; [exact HD|]. intro F. apply N. now right.
Qed.

Lemma in_step_of c t d vs : NoDup (map fst t) -> In c (map fst t) -> d <> c -> In (d, vs) t ->
  In (d, lremove eqb c vs) (step c t).
Proof.
  intros H1 H2 N H. unfold step. apply in_map_iff. exists (d, vs). split; [reflexivity|].
  apply (cdel_spec c t _ H1 H2). now split.
Qed.

Lemma resolve_loop_sound f t l :
  NoDup (map fst t) ->
  resolve_loop eqb f t = Ok l ->
  Permutation l (map fst t) /\
  (forall c ds d, In (c, ds) t -> In d ds -> before d c l) /\
  (forall c ds, In (c, ds) t -> NoDup ds).
Proof.
  revert t l. induction f as [|f IH]; intros t l HN H.
  { destruct t; [|discriminate]. injection H as <-. cbn. split; [auto|].
    split; [intros ? ? ? []|intros ? ? []]. }
  destruct t as [|e t]; [cbn in H; injection H as <-; split; [auto|split; [intros ? ? ? []|intros ? ? []]]|].
  set (tt := e :: t) in *. rewrite resolve_loop_cons in H by discriminate.
  destruct (find_free tt) as [c|] eqn:FF; [|now apply IH].
  pose proof (find_free_In _ _ FF) as HI.
  assert (HIf : In c (map fst tt)) by (apply (in_map fst) in HI; exact HI).
  destruct (resolve_loop eqb f (step c tt)) as [r| |] eqn:ER; try discriminate.
  cbn in H. injection H as <-.
  pose proof (step_perm c tt HN HIf) as P.
  assert (HN' : NoDup (c :: map fst (step c tt))) by now apply (Permutation_NoDup P).
  inversion HN' as [|? ? HcN HN2]; subst.
  destruct (IH _ _ HN2 ER) as (PR & BR & DR).
  assert (HF : forall ds, In (c, ds) tt -> ds = []).
  { intros ds Hds. clear - HN HI Hds. revert HN HI Hds. generalize tt. intro t0.
    induction t0 as [|[x v] t0 IHt]; intros HN A B; [destruct A|].
    destruct A as [A|A], B as [B|B]; cbn [map fst] in HN; inversion HN; subst.
    - congruence.
    - inversion A; subst. destruct H1. now apply (in_map fst) in B.
    - inversion B; subst. destruct H1. now apply (in_map fst) in A.
    - now apply IHt. }
  split; [|split].
  - rewrite P. now constructor.
  - intros c' vs d Hc' Hd. destruct (eq_dec_C c' c) as [->|N].
    { rewrite (HF _ Hc') in Hd. destruct Hd. }
    pose proof (in_step_of c tt c' vs HN HIf N Hc') as Hs.
    destruct (eq_dec_C d c) as [->|N2].
    + apply before_head. apply (Permutation_in _ (Permutation_sym PR)).
      apply (in_map fst) in Hs. exact Hs.
    + apply before_cons. apply (BR _ _ _ Hs). now apply in_lremove_other.
  - intros c' vs Hc'. destruct (eq_dec_C c' c) as [->|N].
    { rewrite (HF _ Hc'). constructor. }
    pose proof (in_step_of c tt c' vs HN HIf N Hc') as Hs.
    apply (NoDup_of_lremove c); [now apply (DR c')|]. intro F.
    apply (BR _ _ _ Hs), before_In in F as [F _]. apply HcN.
    now apply (Permutation_in _ PR).
Qed.

(** If an order exists and nothing is repeated, the loop makes progress at
    every turn. *)
Lemma resolve_loop_complete g f t :
  NoDup (map fst t) -> NoDup g ->
  (forall c, In c (map fst t) -> In c g) ->
  (forall c ds, In (c, ds) t -> NoDup ds) ->
  (forall c ds d, In (c, ds) t -> In d ds -> In d (map fst t) /\ before d c g) ->
  length t <= f ->
  exists l, resolve_loop eqb f t = Ok l.
Proof.
  revert t. induction f as [|f IH]; intros t HN NG HG HD HB HL.
  { destruct t; [now exists []|cbn in HL; lia]. }
  destruct t as [|e t]; [now exists []|].
  set (tt := e :: t) in *. rewrite resolve_loop_cons by discriminate.
  assert (HX : exists c, In (c, []) tt).
  { (* the earliest class of the order that is still waiting is free *)
    assert (K : forall g1 g2, g = g1 ++ g2 -> (forall x, In x g1 -> ~ In x (map fst tt)) ->
                exists c, In (c, []) tt).
    { intros g1 g2. revert g1. induction g2 as [|x g2 IHg]; intros g1 Eg N1.
      - exfalso. destruct e as [c0 ds0]. apply (N1 c0); [|now left].
        rewrite app_nil_r in Eg. rewrite <- Eg. apply HG. now left.
      - destruct (in_dec eq_dec_C x (map fst tt)) as [Hx|Hx].
        + apply in_map_iff in Hx as ([x' ds] & E & Hx). cbn in E. subst x'.
          exists x. destruct ds as [|d ds]; [exact Hx|]. exfalso.
          destruct (HB _ _ d Hx (or_introl eq_refl)) as [Hd Bd].
          apply (N1 d); [|exact Hd]. destruct Bd as (l1 & l2 & l3 & E).
          (* the position of x in g is unique *)
          assert (Epos : g1 = l1 ++ d :: l2).
          { rewrite E in NG. rewrite Eg in E. clear - NG E.
            replace (l1 ++ d :: l2 ++ x :: l3) with ((l1 ++ d :: l2) ++ x :: l3) in * by (rewrite <- app_assoc; reflexivity).
            revert E NG. generalize (l1 ++ d :: l2). intro m. revert g1.
            induction m as [|y m IHm]; intros [|z g1] E NG; cbn [app] in *.
            - reflexivity.
            - inversion E; subst. inversion NG; subst. destruct H1. apply in_or_app. right. now left.
            - inversion E; subst. inversion NG; subst. destruct H1. apply in_or_app. right. now left.
            - inversion E; subst. inversion NG; subst. f_equal. now apply IHm. }
          rewrite Epos. apply in_or_app. right. now left.
        + apply (IHg (g1 ++ [x])); [now rewrite <- app_assoc|].
          intros y Hy. apply in_app_or in Hy as [Hy|[<-|[]]]; auto. }
    apply (K [] g eq_refl). intros x []. }
  destruct (find_free tt) as [c|] eqn:FF.
  2:{ destruct HX as [c Hc]. now destruct (find_free_None _ c FF). }
  pose proof (find_free_In _ _ FF) as HI.
  assert (HIf : In c (map fst tt)) by (apply (in_map fst) in HI; exact HI).
  pose proof (step_perm c tt HN HIf) as P.
  assert (HN' : NoDup (c :: map fst (step c tt))) by now apply (Permutation_NoDup P).
  inversion HN' as [|? ? HcN HN2]; subst.
  destruct (IH (step c tt)) as [l El].
  - exact HN2.
  - exact NG.
  - intros x Hx. apply HG. apply (Permutation_in _ (Permutation_sym P)). now right.
  - intros x ws Hx. apply in_step in Hx as (N & vs & Hvs & ->); auto.
    now apply lremove_NoDup, (HD x).
  - intros x ws d Hx Hd. apply in_step in Hx as (N & vs & Hvs & ->); auto.
    pose proof (in_lremove _ _ _ Hd) as Hd'. destruct (HB _ _ _ Hvs Hd') as [A B].
    split; [|exact B]. apply (Permutation_in _ P) in A as [<-|A]; [|exact A].
    exfalso. revert Hd. apply lremove_NoDup, (HD _ _ Hvs).
  - apply Permutation_length in P. rewrite !map_length in P. cbn [length] in P.
    rewrite map_length in P. fold tt in HL. lia.
  - rewrite El. now eexists.
Qed.

(** ** The property. *)
Lemma resolve_sound fuel kw l : NoDup (keys kw) -> NoDup (map snd kw) ->
  resolve_dependencies eqb deps_of fuel kw = Ok l ->
  good_order deps_of kw l /\ no_repeats deps_of kw.
Proof.
  intros NK NC H. unfold resolve_dependencies in H. rewrite dep_table_eq in H by exact NC.
  assert (E : map fst (map (fun kc : pystr * C => (snd kc, present_deps kw (deps_of (snd kc)))) kw) = map snd kw)
    by now rewrite map_map.
  apply resolve_loop_sound in H as (P & B & D); rewrite E in *; [|exact NC].
  assert (T : forall c, In c (map snd kw) ->
            In (c, present_deps kw (deps_of c)) (map (fun kc => (snd kc, present_deps kw (deps_of (snd kc)))) kw)).
  { intros c Hc. apply in_map_iff in Hc as (kc & <- & Hc). apply in_map_iff. now exists kc. }
  split; [split|].
  - exact P.
  - intros c d Hc Hd. apply (Permutation_in _ P) in Hc. apply (B _ _ d (T c Hc)).
    now apply in_present.
  - intros k c Hc. apply NoDup_present; [exact NK|exact NC|]. apply (D c), T.
    now apply (in_map snd) in Hc.
Qed.

Lemma resolve_complete kw g : NoDup (keys kw) -> NoDup (map snd kw) ->
  good_order deps_of kw g -> no_repeats deps_of kw ->
  exists l, resolve_dependencies eqb deps_of (length kw) kw = Ok l.
Proof.
  intros NK NC [P B] R. unfold resolve_dependencies. rewrite dep_table_eq by exact NC.
  assert (E : map fst (map (fun kc : pystr * C => (snd kc, present_deps kw (deps_of (snd kc)))) kw) = map snd kw)
    by now rewrite map_map.
  apply (resolve_loop_complete g); rewrite ?E.
  - exact NC.
  - now apply (Permutation_NoDup (Permutation_sym P)).
  - intros c Hc. now apply (Permutation_in _ (Permutation_sym P)).
  - intros c ds H. apply in_map_iff in H as ([k c'] & Ec & H). cbn in Ec. inversion Ec; subst.
    apply NoDup_present; [exact NK|exact NC|]. now apply (R k).
  - intros c ds d H Hd. apply in_map_iff in H as ([k c'] & Ec & H). cbn in Ec. inversion Ec; subst.
    apply in_present in Hd as (n & Hn & Hd). split.
    + apply dget_In in Hd. now apply (in_map snd) in Hd.
    + apply B; [|now exists n]. apply (Permutation_in _ (Permutation_sym P)).
      now apply (in_map snd) in H.
  - now rewrite map_length.
Qed.

(** The loop never raises. *)
Lemma resolve_loop_no_exn f t e : resolve_loop eqb f t <> Exn e.
Proof.
  revert t. induction f as [|f IH]; intros [|x t]; try discriminate.
  rewrite resolve_loop_cons by discriminate. destruct (find_free (x :: t)) as [c|]; [|apply IH].
  specialize (IH (step c (x :: t))). destruct (resolve_loop eqb f (step c (x :: t))); cbn; congruence.
Qed.

Lemma resolve_diverges kw : NoDup (keys kw) -> NoDup (map snd kw) ->
  ~ ((exists g, good_order deps_of kw g) /\ no_repeats deps_of kw) ->
  forall fuel, resolve_dependencies eqb deps_of fuel kw = Fuel.
Proof.
  intros NK NC H fuel. destruct (resolve_dependencies eqb deps_of fuel kw) as [l|e|] eqn:E.
  - destruct H. apply resolve_sound in E as [G R]; auto. split; [now exists l|exact R].
  - now apply resolve_loop_no_exn in E.
  - reflexivity.
Qed.

(** More turns do not change the answer. *)
Lemma resolve_loop_mono f f' t l : f <= f' -> resolve_loop eqb f t = Ok l -> resolve_loop eqb f' t = Ok l.
Proof.
  revert f' t l. induction f as [|f IH]; intros f' t l Hf H.
  { destruct t; [|discriminate]. destruct f'; exact H. }
  destruct f' as [|f']; [lia|]. destruct t as [|x t]; [exact H|].
  rewrite resolve_loop_cons in * by discriminate.
  destruct (find_free (x :: t)) as [c|].
  - destruct (resolve_loop eqb f (step c (x :: t))) as [r| |] eqn:E; try discriminate.
    rewrite (IH f' _ r) by (auto; lia). exact H.
  - apply IH; [lia|exact H].
Qed.
(** ** The exact order. *)
Lemma find_free_split (t : list (C * list C)) c : find_free t = Some c ->
  exists t1 t2, t = t1 ++ (c, []) :: t2 /\ forall d ds, In (d, ds) t1 -> ds <> [].
Proof.
  induction t as [|[d v] t IH]; cbn [find_free]; [discriminate|].
  destruct v as [|x v]; [injection 1 as ->; exists [], t; split; [reflexivity|intros ? ? []]|].
  intro H. destruct (IH H) as (t1 & t2 & -> & N). exists ((d, x :: v) :: t1), t2. split; [reflexivity|].
  intros e es [E|E]; [injection E as <- <-; discriminate|exact (N _ _ E)].
Qed.
Lemma map_fst_cdel c (t1 : list (C * list C)) v t2 : ~ In c (map fst t1) -> map fst (cdel eqb c (t1 ++ (c, v) :: t2)) = map fst t1 ++ map fst t2.
Proof.
  induction t1 as [|[d w] t1 IH]; cbn [app map fst cdel In]; intro N.
  - destruct (eqb_spec c c); [reflexivity|congruence].
  - destruct (eqb_spec c d) as [->|Nd]; [tauto|]. cbn [map fst]. f_equal. apply IH. tauto.
Qed.
Lemma resolve_loop_turns (W : C -> C -> Prop) f : forall t l, NoDup (map fst t) ->
  (forall c ds, In (c, ds) t -> NoDup ds) ->
  (forall c ds d, In (c, ds) t -> (In d ds <-> W c d /\ In d (map fst t))) ->
  resolve_loop eqb f t = Ok l -> in_turn W (map fst t) l.
Proof.
  induction f as [|f IH]; intros t l HN HD HW H.
  { destruct t; [|discriminate]. injection H as <-. constructor. }
  destruct t as [|e t]; [injection H as <-; constructor|].
  remember (e :: t) as t0 eqn:E0. rewrite resolve_loop_cons in H by (subst; discriminate). clear E0.
  destruct (find_free t0) as [c|] eqn:FF; [|now apply IH].
  destruct (find_free_split _ _ FF) as (t1 & t2 & E & N1).
  assert (HI : In (c, []) t0) by now apply find_free_In.
  assert (HIf : In c (map fst t0)) by (apply (in_map fst) in HI; exact HI).
  destruct (resolve_loop eqb f (step c t0)) as [r| |] eqn:ER; try discriminate. cbn in H. injection H as <-.
  pose proof (step_perm c t0 HN HIf) as P.
  assert (HN' : NoDup (c :: map fst (step c t0))) by now apply (Permutation_NoDup P).
  inversion HN' as [|? ? HcN HN2]; subst x l.
  assert (T : in_turn W (map fst (step c t0)) r).
  { apply IH; [exact HN2| | |exact ER].
    - intros d ws Hd. apply in_step in Hd as (Nd & vs & Hvs & ->); auto. now apply lremove_NoDup, (HD d).
    - intros d ws x Hd. apply in_step in Hd as (Nd & vs & Hvs & ->); auto.
      pose proof (lremove_NoDup c vs (HD _ _ Hvs)) as [_ Nc].
      assert (Q : In x (map fst t0) <-> c = x \/ In x (map fst (step c t0))).
      { split; intro X; [exact (Permutation_in _ P X)|exact (Permutation_in _ (Permutation_sym P) X)]. }
      split.
      + intro Hx. pose proof (in_lremove _ _ _ Hx) as Hx'. apply (HW _ _ _ Hvs) in Hx' as [W1 W2]. split; [exact W1|].
        apply Q in W2 as [<-|W2]; [contradiction|exact W2].
      + intros [W1 W2]. apply in_lremove_other; [intros ->; contradiction|]. apply (HW _ _ _ Hvs). split; [exact W1|]. apply Q. now right. }
  rewrite map_fst_step in T. rewrite E in T |- *. rewrite map_fst_cdel in T.
  2:{ rewrite E, map_app in HN. apply NoDup_remove_2 in HN. intro X. apply HN. apply in_or_app. now left. }
  rewrite map_app. cbn [map fst]. assert (Ef : map fst t0 = map fst t1 ++ c :: map fst t2) by now rewrite E, map_app.
  apply turn_next; [| |exact T].
  - intros x Hx Wx. rewrite <- Ef in Hx. apply (HW _ _ x HI). now split.
  - intros y Hy. apply in_map_iff in Hy as ([y' ds] & <- & Hy). cbn [fst]. pose proof (N1 _ _ Hy) as Nd. destruct ds as [|x ds]; [congruence|].
    assert (Hy0 : In (y', x :: ds) t0) by (rewrite E; apply in_or_app; now left).
    exists x. rewrite <- Ef. apply and_comm. apply (HW _ _ x Hy0). now left.
Qed.
Lemma resolve_turns fuel kw l : NoDup (keys kw) -> NoDup (map snd kw) ->
  resolve_dependencies eqb deps_of fuel kw = Ok l -> in_turn (depends deps_of kw) (map snd kw) l.
Proof.
  intros NK NC H. pose proof (resolve_sound fuel kw l NK NC H) as [_ R].
  unfold resolve_dependencies in H. rewrite dep_table_eq in H by exact NC.
  assert (E : map fst (map (fun kc : pystr * C => (snd kc, present_deps kw (deps_of (snd kc)))) kw) = map snd kw)
    by now rewrite map_map.
  rewrite <- E. apply (resolve_loop_turns _ fuel); [now rewrite E| | |exact H].
  - intros c ds X. apply in_map_iff in X as ([k c'] & Ec & X). cbn in Ec. inversion Ec; subst. apply NoDup_present; [exact NK|exact NC|]. now apply (R k).
  - intros c ds d X. apply in_map_iff in X as ([k c'] & Ec & X). cbn in Ec. inversion Ec; subst. rewrite in_present, E. unfold depends. split; [|tauto].
    intros (n & Hn & D). split; [now exists n|]. apply dget_In in D. now apply (in_map snd) in D.
Qed.
Lemma in_turn_unique {K} (W : K -> K -> Prop) l o o' : in_turn W l o -> in_turn W l o' -> o = o'.
Proof.
  intro H. revert o'. induction H as [|l1 k l2 o F N _ IH]; intros o' H'; inversion H' as [E E'|m1 k' m2 p F' N' T E E']; try reflexivity.
  - destruct m1; discriminate.
  - destruct l1; discriminate.
  - subst o'. assert (Q : l1 = m1 /\ k = k' /\ l2 = m2).
    { enough (A : l1 = m1) by (subst m1; apply app_inv_head in E; injection E as -> ->; auto).
      assert (X1 : ~ In k m1). { intro X. destruct (N' _ X) as (x & Hx & Wx). rewrite E in Hx. exact (F _ Hx Wx). }
      assert (X2 : ~ In k' l1). { intro X. destruct (N _ X) as (x & Hx & Wx). rewrite <- E in Hx. exact (F' _ Hx Wx). }
      clear -E X1 X2. revert m1 E X1. induction l1 as [|a l1 IH]; intros [|b m1] E X1; cbn [app] in E; [reflexivity| | |].
      - injection E as -> _. destruct X1. now left.
      - injection E as -> _. destruct X2. now left.
      - injection E as -> E. f_equal. apply IH; [intro Y; apply X2; now right|exact E|intro Y; apply X1; now right]. }
    destruct Q as (-> & -> & ->). f_equal. now apply IH.
Qed.
Lemma in_turn_map {K K'} (g : K -> K') (W : K -> K -> Prop) (W' : K' -> K' -> Prop) l o :
  (forall x y, In x l -> In y l -> (W x y <-> W' (g x) (g y))) -> in_turn W l o -> in_turn W' (map g l) (map g o).
Proof.
  intros Q H. induction H as [|l1 k l2 o F N T IH]; [constructor|]. rewrite map_app. cbn [map].
  assert (K0 : In k (l1 ++ k :: l2)) by (apply in_or_app; right; now left).
  assert (Em : map g l1 ++ g k :: map g l2 = map g (l1 ++ k :: l2)) by now rewrite map_app.
  apply turn_next.
  - intros x Hx Wx. rewrite Em in Hx. apply in_map_iff in Hx as (y & <- & Hy). apply (F _ Hy). now apply Q.
  - intros y Hy. apply in_map_iff in Hy as (y' & <- & Hy). destruct (N _ Hy) as (x & Hx & Wx). exists (g x). rewrite Em. split; [now apply in_map|].
    apply Q; [apply in_or_app; now left|exact Hx|exact Wx].
  - rewrite <- map_app. apply IH. intros x y Hx Hy. apply Q; apply in_app_or in Hx, Hy; apply in_or_app; cbn [In]; tauto.
Qed.
End Facts.

(** ** The standard classes. *)
Definition untag (n : N) : option stdclass :=
  nth_error
   [KSchema_; KVocabulary_; KId_; KIdNext; KRef; KAnchor; KDynamicRef; KDynamicAnchor; KDefs; KComment_; KRecursiveRef;
    KRecursiveAnchor; KAllOf; KAnyOf; KOneOf; KNot; KIf; KThen; KElse; KDependentSchemas; KPrefixItems; KItems;
    KUnevaluatedItems; KContains; KProperties; KPatternProperties; KAdditionalProperties; KUnevaluatedProperties;
    KPropertyNames; KItems2019; KAdditionalItems; KUnevaluatedItems2019; KUnevaluatedProperties2019; KType_; KEnum;
    KConst; KMultipleOf; KMaximum; KExclusiveMaximum; KMinimum; KExclusiveMinimum; KMaxLength; KMinLength; KPattern;
    KMaxItems; KMinItems; KUniqueItems; KMaxContains; KMinContains; KMaxProperties; KMinProperties; KRequired;
    KDependentRequired; KFormat; KTitle; KDescription; KDefault; KDeprecated; KReadOnly; KWriteOnly; KExamples;
    KContentMediaType; KContentEncoding; KContentSchema] (N.to_nat n).

Lemma untag_tag c : untag (tag c) = Some c.
Proof. destruct c; reflexivity. Qed.

Lemma tag_inj a b : tag a = tag b -> a = b.
Proof. intro H. apply (f_equal untag) in H. rewrite !untag_tag in H. now injection H. Qed.

Lemma kwclass_eqb_spec a b : reflect (a = b) (kwclass_eqb a b).
Proof.
  destruct a as [c|k], b as [d|l]; cbn [kwclass_eqb]; try (constructor; discriminate).
  - destruct (N.eqb_spec (tag c) (tag d)) as [E|E]; constructor; [f_equal; now apply tag_inj|congruence].
  - destruct (str_eqb_spec k l); constructor; congruence.
Qed.

(** A rank that strictly increases from a keyword name to the classes that
    depend on it. *)
Definition rank_name (n : pystr) : nat :=
  if mem_str n [lit "unevaluatedItems"; lit "unevaluatedProperties"] then 4
  else if mem_str n [lit "additionalItems"; lit "minContains"] then 3
  else if mem_str n [lit "items"; lit "then"; lit "else"; lit "maxContains"; lit "additionalProperties"; lit "contentSchema"] then 2
  else 1.

Definition rank (c : kwclass) : nat := rank_name (key_of c).

Lemma rank_depends c n : In n (depends_on c) -> rank_name n < rank c.
Proof.
  destruct c as [c|k]; [|intros []].
  assert (H : forallb (fun n => rank_name n <? rank (Std c)) (depends_on (Std c)) = true)
    by (destruct c; vm_compute; reflexivity).
  rewrite forallb_forall in H. intros Hn. apply H in Hn. now apply Nat.ltb_lt.
Qed.

Lemma depends_nodup c : NoDup (depends_on c).
Proof.
  destruct c as [c|k]; [|constructor].
  assert (H : nodup_keysb (map (fun n => (n, tt)) (std_depends c)) = true)
    by (destruct c; vm_compute; reflexivity).
  apply nodup_keysb_NoDup in H. unfold keys in H. rewrite map_map, map_id in H. exact H.
Qed.

Lemma depends_keep_nodup (kw : list (pystr * kwclass)) c : NoDup (filter (fun n => match dget n kw with Some _ => true | None => false end) (depends_on c)).
Proof. apply NoDup_filter, depends_nodup. Qed.

(** Sorting by rank gives a good order. *)
Lemma ranked_order (kw : list (pystr * kwclass)) :
  (forall k c, In (k, c) kw -> key_of c = k) -> NoDup (map snd kw) ->
  exists g, good_order depends_on kw g.
Proof.
  intros HK NC.
  set (at_rank r := filter (fun c => rank c =? r) (map snd kw)).
  assert (HR : forall c : kwclass, 1 <= rank c <= 4).
  { intro c. unfold rank, rank_name. repeat destruct (mem_str _ _); lia. }
  exists (at_rank 1 ++ at_rank 2 ++ at_rank 3 ++ at_rank 4). split.
  - subst at_rank. cbn beta. generalize (map snd kw). intro l.
    induction l as [|c l IH]; [reflexivity|]. cbn [filter].
    assert (H : rank c = 1 \/ rank c = 2 \/ rank c = 3 \/ rank c = 4) by (specialize (HR c); lia).
    destruct H as [H|[H|[H|H]]]; rewrite H; cbn [Nat.eqb app].
    + now constructor.
    + etransitivity; [symmetry; apply Permutation_middle|]. now constructor.
    + rewrite app_assoc. etransitivity; [symmetry; apply Permutation_middle|].
      constructor. now rewrite <- app_assoc.
    + rewrite !app_assoc. etransitivity; [symmetry; apply Permutation_middle|].
      constructor. now rewrite <- !app_assoc.
  - intros c d Hc (n & Hn & Hd).
    pose proof (rank_depends c n Hn) as HL. apply dget_In in Hd. pose proof (HK _ _ Hd) as Ek.
    assert (HRd : rank d < rank c) by (unfold rank at 1; now rewrite Ek).
    assert (Hind : In d (map snd kw)) by now apply (in_map snd) in Hd.
    assert (Hinc : In c (map snd kw)).
    { rewrite !in_app_iff in Hc. unfold at_rank in Hc. rewrite !filter_In in Hc. tauto. }
    assert (A : forall x, In x (map snd kw) -> In x (at_rank (rank x))).
    { intros x Hx. unfold at_rank. apply filter_In. split; [exact Hx|apply Nat.eqb_refl]. }
    pose proof (A _ Hind) as Ad. pose proof (A _ Hinc) as Ac.
    assert (B : forall l1 l2 : list kwclass, In d l1 -> In c l2 -> before d c (l1 ++ l2)).
    { intros l1 l2 H1 H2. apply in_split in H1 as (a & b & ->). apply in_split in H2 as (a' & b' & ->).
      exists a, (b ++ a'), b'. rewrite <- !app_assoc. reflexivity. }
    pose proof (HR c) as R1. pose proof (HR d) as R2.
    assert (D : rank d = 1 \/ rank d = 2 \/ rank d = 3) by lia.
    destruct D as [D|[D|D]]; rewrite D in *.
    + apply B; [exact Ad|]. rewrite !in_app_iff.
      assert (rank c = 2 \/ rank c = 3 \/ rank c = 4) as [E|[E|E]] by lia; rewrite E in Ac; tauto.
    + rewrite app_assoc. apply B; [apply in_or_app; now right|]. rewrite in_app_iff.
      assert (rank c = 3 \/ rank c = 4) as [E|E] by lia; rewrite E in Ac; tauto.
    + rewrite !app_assoc. apply B; [apply in_or_app; now right|].
      assert (E : rank c = 4) by lia. now rewrite E in Ac.
Qed.

Lemma resolve_standard kw : NoDup (keys kw) -> (forall k c, In (k, c) kw -> key_of c = k) ->
  exists l, resolve_dependencies kwclass_eqb depends_on (length kw) kw = Ok l.
Proof.
  intros NK HK.
  assert (NC : NoDup (map snd kw)).
  { assert (E : keys kw = map key_of (map snd kw)).
    { clear NK. induction kw as [|[k c] kw IH]; [reflexivity|]. cbn. f_equal.
      - symmetry. apply HK. now left.
      - apply IH. intros k' c' H. apply HK. now right. }
    rewrite E in NK. clear - NK. induction (map snd kw) as [|c l IH]; [constructor|].
    cbn in NK. inversion NK; subst. constructor; [|auto]. intro H. apply H1. now apply in_map. }
  destruct (ranked_order kw HK NC) as [g G].
  apply (resolve_complete kwclass_eqb depends_on kwclass_eqb_spec kw g); auto.
  intros k c _. apply depends_keep_nodup.
Qed.
