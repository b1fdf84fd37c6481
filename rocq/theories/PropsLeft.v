(** C78, C86: the unevaluated keywords, in terms of what the specification says
    about the other keywords of the schema and about the subschemas. *)
From Coq Require Import String List Bool Lia.
From Verif Require Import SchemaNotes SchemaStrict SchemaMain SchemaCases SchemaLaws PropsErrors PropsAnnot PropsNotes.
Import ListNotations.
Open Scope string_scope.
Open Scope list_scope.
Open Scope nat_scope.

Lemma keyword_prescribed W s kws n sc x key k : plain_dynamics W -> w_schema W s = SObj kws -> In (key, k) kws ->
  judge_keyword W (code_choice W) (judge W (code_choice W) n) sc kws x k = judge_keyword W (dynamic_choice W) (judge W (dynamic_choice W) n) sc kws x k.
Proof.
  intros Hp Hs HIn. unfold judge_keyword. destruct (kw_class k) as [c|u]; [|reflexivity].
  assert (J : forall sc t y, judge W (code_choice W) n sc t y = judge W (dynamic_choice W) n sc t y) by exact (fun sc t y => judge_prescribed W Hp n sc t y).
  assert (Sc : kw_dynamic k = true -> forall sc t, code_choice W (kw_fragment k) sc t = dynamic_choice W (kw_fragment k) sc t).
  { intros D sc' t. apply code_choice_single. exact (Hp _ _ _ _ Hs HIn D). }
  destruct (ext_judge_std W (code_choice W) (dynamic_choice W) (judge W (code_choice W) n) (judge W (dynamic_choice W) n)
    (fun sc t y => or_intror (J sc t y)) sc kws k c x Sc) as [E|E]; [|exact E].
  destruct (ext_judge_std W (dynamic_choice W) (code_choice W) (judge W (dynamic_choice W) n) (judge W (code_choice W) n)
    (fun sc t y => or_intror (eq_sym (J sc t y))) sc kws k c x (fun D sc t => eq_sym (Sc D sc t))) as [E'|E']; congruence.
Qed.

Lemma others_In kws x k : In k (others kws x) -> exists key, In (key, k) kws.
Proof.
  unfold others. rewrite !filter_In, in_map_iff. intros [[([key k'] & E & H) _] _]. cbn [snd] in E. subst k'. now exists key.
Qed.

(** Where the others accept, what the code takes for evaluated is what the
    specification does. *)
Lemma prescribed_others W legacy d fuel s kws x os : dialect legacy d -> good_world d W -> no_misjudged W -> plain_dynamics W ->
  w_schema W s = SObj kws ->
  all_some (map (code_keyword W (code_choice W) (code_judge W (code_choice W) fuel) [s] kws x) (others kws x)) = Some os ->
  (forall k, In k (others kws x) -> ~ kw_accepts W [s] kws k x false) ->
  exists os', all_some (map (judge_keyword W (dynamic_choice W) (judge W (dynamic_choice W) fuel) [s] kws x) (others kws x)) = Some os' /\
    (forall n, In n (o_names (gather true os)) <-> In n (o_names (gather true os'))) /\
    (forall m, m < length (items x) -> (In m (evaluated_at legacy (gather true os)) <-> In m (evaluated_at legacy (gather true os')))).
Proof.
  intros Hd Hg Hm Hp Hs A Acc. set (jd := code_judge W (code_choice W) fuel) in *. set (jd' := judge W (code_choice W) fuel).
  assert (IH : forall sc t y, follows (matched legacy true y) (jd sc t y) (jd' sc t y)) by exact (fun sc t y => strict_judge W d legacy true Hd Hg Hm (code_choice W) fuel sc t y).
  assert (Hb : forall sc t b y o, w_schema W t = SBool b -> jd sc t y = Some o -> o_ok o = b /\ forall y', jd' sc t y' = Some (plain b)).
  { intros sc' t b y o' Ht Ej. unfold jd, jd' in *. destruct fuel as [|n']; [discriminate Ej|]. cbn [code_judge judge] in *. rewrite Ht in *. injection Ej as <-. auto. }
  assert (Q : map (judge_keyword W (code_choice W) jd' [s] kws x) (others kws x) =
    map (judge_keyword W (dynamic_choice W) (judge W (dynamic_choice W) fuel) [s] kws x) (others kws x)).
  { apply map_ext_in. intros k Hk. destruct (others_In _ _ _ Hk) as (key & HIn). exact (keyword_prescribed W s kws fuel [s] x key k Hp Hs HIn). }
  assert (NR : ~ strict_rejects W (code_choice W) jd' kws [s] x).
  { intros (k & ko & Hk & J & O). apply (Acc k Hk). exists fuel, ko. split; [|exact O]. destruct (others_In _ _ _ Hk) as (key & HIn).
    rewrite <- (keyword_prescribed W s kws fuel [s] x key k Hp Hs HIn). exact J. }
  destruct (strict_some W d legacy true Hd Hg Hm (code_choice W) jd jd' IH s kws Hs Hb [s] x os A NR) as (os' & A' & O' & O & F).
  exists os'. split; [rewrite <- Q; exact A'|].
  assert (M : matched legacy true x (gather true os) (gather true os')).
  { apply (nearly_gather legacy true x (slack legacy kws)); [exact F|exact O|]. intros _ m Lm Sm.
    exact (slack_in W d legacy Hd Hg (code_choice W) jd jd' s kws Hs [s] x os A m os' A' O' Lm Sm). }
  exact (proj2 M eq_refl eq_refl).
Qed.

Lemma says_prescribed W legacy d fuel s t y b : dialect legacy d -> good_world d W -> no_misjudged W -> plain_dynamics W ->
  (exists o, code_judge W (code_choice W) fuel [s] t y = Some o /\ o_ok o = b) -> accepts W [s] t y b.
Proof.
  intros Hd Hg Hm Hp (o & J & O). destruct (strict_judge W d legacy true Hd Hg Hm (code_choice W) fuel [s] t y o J) as (o' & J' & M & _).
  exists fuel, o'. rewrite <- (judge_prescribed W Hp). split; [exact J'|congruence].
Qed.

Lemma unlisted_same l l' : (forall n, In n l <-> In n l') -> forall n, negb (listed n l) = negb (listed n l').
Proof.
  intros H n. f_equal. apply eq_true_iff_eq. unfold listed. rewrite !existsb_exists.
  split; intros (m & Hm & Q); exists m; (split; [now apply H|exact Q]).
Qed.
Lemma unmarked_same w l l' : (forall m, m < w -> (In m l <-> In m l')) -> forall m, m < w -> negb (existsb (Nat.eqb m) l) = negb (existsb (Nat.eqb m) l').
Proof. intros H m Hm. f_equal. apply eq_true_iff_eq. rewrite !existsb_nat. now apply H. Qed.
Lemma left_same w l l' : (forall m, m < w -> (In m l <-> In m l')) ->
  filter (fun m => negb (existsb (Nat.eqb m) l)) (seq 0 w) = filter (fun m => negb (existsb (Nat.eqb m) l')) (seq 0 w).
Proof. intro H. apply filter_ext_in. intros m Hm. apply in_seq in Hm. apply (unmarked_same w l l' H). lia. Qed.
Lemma any_same w l l' : (forall m, m < w -> (In m l <-> In m l')) ->
  existsb (fun m => negb (existsb (Nat.eqb m) l)) (seq 0 w) = existsb (fun m => negb (existsb (Nat.eqb m) l')) (seq 0 w).
Proof.
  intro H. apply eq_true_iff_eq. rewrite !existsb_exists. split; intros (m & Hm & Q); exists m; (split; [exact Hm|]); apply in_seq in Hm.
  - rewrite <- (unmarked_same w l l' H m ltac:(lia)). exact Q.
  - rewrite (unmarked_same w l l' H m ltac:(lia)). exact Q.
Qed.

Theorem C86_unevaluated_prescribed : forall W legacy d fuel s kws i r key k c, dialect legacy d -> good_world d W -> jwf (i_val i) = true ->
  no_misjudged W -> plain_dynamics W -> w_schema W s = SObj kws -> evaluate_root W (S fuel) s i = Ok r ->
  (forall k', In k' (others kws (i_val i)) -> ~ kw_accepts W [s] kws k' (i_val i) false) ->
  In (key, k) kws -> late k <> None -> cget (key, i_path i) (r_children r) = Some c -> r_valid c = false ->
  exists os, all_some (map (judge_keyword W (dynamic_choice W) (judge W (dynamic_choice W) fuel) [s] kws (i_val i)) (others kws (i_val i))) = Some os /\
    grumbles (accepts W [s]) os k (i_val i) (r_error c).
Proof.
  intros W legacy d fuel s kws i r key k c Hd Hg Hw Hm Hp Hs E Acc HIn La G V.
  destruct (C86_unevaluated W legacy d fuel s kws i r key k c Hd Hg Hw Hs E HIn La G V) as (os & A & Gr).
  destruct (prescribed_others W legacy d fuel s kws (i_val i) os Hd Hg Hm Hp Hs A Acc) as (os' & A' & N & P). exists os'. split; [exact A'|].
  pose proof (fun t y b => says_prescribed W legacy d fuel s t y b Hd Hg Hm Hp) as Sy. unfold grumbles in *.
  assert (Mb : forall t e, members_refused (fun t y b => exists o, code_judge W (code_choice W) fuel [s] t y = Some o /\ o_ok o = b) t
      (filter (fun kv => negb (listed (fst kv) (flat_map o_names (filter o_ok os)))) (members (i_val i))) e ->
    members_refused (accepts W [s]) t (filter (fun kv => negb (listed (fst kv) (flat_map o_names (filter o_ok os')))) (members (i_val i))) e).
  { intros t e (bs & F & Q). assert (X : forall kv : pystr * json, negb (listed (fst kv) (flat_map o_names (filter o_ok os))) = negb (listed (fst kv) (flat_map o_names (filter o_ok os'))))
      by exact (fun kv => unlisted_same _ _ N (fst kv)).
    rewrite (filter_ext _ _ X) in F, Q. exists bs. split; [|exact Q]. revert F. apply Forall2_weaken. intros kv b. apply Sy. }
  assert (It : forall t l l' e, (forall m, m < length (items (i_val i)) -> (In m l <-> In m l')) ->
    places_refused (fun t y b => exists o, code_judge W (code_choice W) fuel [s] t y = Some o /\ o_ok o = b) t (i_val i) l e -> places_refused (accepts W [s]) t (i_val i) l' e).
  { intros t l l' e H (bs & F & Q). rewrite (left_same _ _ _ H) in F, Q. exists bs. split; [|exact Q]. revert F. apply Forall2_weaken. intros m b. apply Sy. }
  destruct (kw_class k) as [cl|u] eqn:C; [|exact I]. pose proof (class_legacy d legacy Hd kws (Hg _ _ Hs) _ _ _ HIn C) as Lg.
  destruct cl; try exact I; destruct (kw_json k) as [v|t|ts|m]; try exact I; try (apply Mb; exact Gr).
  - assert (Hl : legacy = false) by (destruct legacy; [discriminate Lg|reflexivity]). unfold evaluated_at in P. rewrite Hl in P. exact (It t _ _ _ P Gr).
  - assert (Hl : legacy = true) by (destruct legacy; [reflexivity|discriminate Lg]). unfold evaluated_at in P. rewrite Hl in P. exact (It t _ _ _ P Gr).
Qed.
Print Assumptions C86_unevaluated_prescribed.

Theorem C78_unevaluated_prescribed : forall W legacy d fuel s kws i r key k c, dialect legacy d -> good_world d W -> jwf (i_val i) = true ->
  no_misjudged W -> plain_dynamics W -> w_schema W s = SObj kws -> evaluate_root W (S fuel) s i = Ok r ->
  (forall k', In k' (others kws (i_val i)) -> ~ kw_accepts W [s] kws k' (i_val i) false) ->
  In (key, k) kws -> late k <> None -> cget (key, i_path i) (r_children r) = Some c -> r_valid c = true ->
  exists os, all_some (map (judge_keyword W (dynamic_choice W) (judge W (dynamic_choice W) fuel) [s] kws (i_val i)) (others kws (i_val i))) = Some os /\
    remarks os k (i_val i) (r_annot c).
Proof.
  intros W legacy d fuel s kws i r key k c Hd Hg Hw Hm Hp Hs E Acc HIn La G V.
  destruct (C78_unevaluated W legacy d fuel s kws i r key k c Hd Hg Hw Hs E HIn La G V) as (os & A & Gr).
  destruct (prescribed_others W legacy d fuel s kws (i_val i) os Hd Hg Hm Hp Hs A Acc) as (os' & A' & N & P). exists os'. split; [exact A'|].
  unfold remarks in *. cbn zeta in *.
  assert (X : filter (fun n => negb (listed n (flat_map o_names (filter o_ok os)))) (own_names (i_val i)) =
    filter (fun n => negb (listed n (flat_map o_names (filter o_ok os')))) (own_names (i_val i))) by exact (filter_ext _ _ (unlisted_same _ _ N) _).
  destruct (kw_class k) as [cl|u] eqn:C; [|exact I]. pose proof (class_legacy d legacy Hd kws (Hg _ _ Hs) _ _ _ HIn C) as Lg.
  destruct cl; try exact I; try (rewrite <- X; exact Gr).
  - assert (Hl : legacy = false) by (destruct legacy; [discriminate Lg|reflexivity]). unfold evaluated_at in P. rewrite Hl in P. cbn [gather o_places o_found] in P.
    refine (eq_trans Gr _). now rewrite <- (any_same _ _ _ P).
  - assert (Hl : legacy = true) by (destruct legacy; [reflexivity|discriminate Lg]). unfold evaluated_at in P. rewrite Hl in P. cbn [gather o_places o_found] in P.
    refine (eq_trans Gr _). now rewrite <- (any_same _ _ _ P).
Qed.
Print Assumptions C78_unevaluated_prescribed.

(** The schemas of C78_unevaluated_case and C86_unevaluated_case meet the
    conditions, and the other keywords accept the instances. *)
Definition others_fine (l : list snode) (x : json) : bool :=
  match nth_error l 0 with
  | Some (SObj kws) =>
      forallb (fun k => match judge_keyword (small l) (dynamic_choice (small l)) (judge (small l) (dynamic_choice (small l)) 9) [0] kws x k with
                        | Some o => o_ok o | None => false end) (others kws x)
  | _ => false
  end.
Lemma others_fine_ok l x kws : nth_error l 0 = Some (SObj kws) -> others_fine l x = true ->
  forall k, In k (others kws x) -> ~ kw_accepts (small l) [0] kws k x false.
Proof.
  unfold others_fine. intros -> H k Hk A. rewrite forallb_forall in H. specialize (H k Hk).
  destruct (judge_keyword _ _ _ _ _ _ _) as [o|] eqn:J; [|discriminate].
  assert (T : kw_accepts (small l) [0] kws k x true) by (exists 9, o; auto).
  pose proof (kw_accepts_unique (small l) [0] kws k x _ _ T A). discriminate.
Qed.
Example C86_unevaluated_prescribed_case : forall l x, In (l, x)
    [(grumble_left, case86u); (grumble_items, JArr [int 1; JNull; int 2; text "x"; JBool true]); (noted_left, case78u); (noted_items, JArr [int 1; JNull; int 2])] ->
  no_misjudged (small l) /\ plain_dynamics (small l) /\
  exists kws, w_schema (small l) 0 = SObj kws /\ forall k, In k (others kws x) -> ~ kw_accepts (small l) [0] kws k x false.
Proof.
  assert (H : forall l x, existsb (fun n => match n with SObj _ => true | _ => false end) (firstn 1 l) = true -> others_fine l x = true ->
    no_misjudged (small l) -> plain_dynamics (small l) -> no_misjudged (small l) /\ plain_dynamics (small l) /\
    exists kws, w_schema (small l) 0 = SObj kws /\ forall k, In k (others kws x) -> ~ kw_accepts (small l) [0] kws k x false).
  { intros l x H F A B. split; [exact A|]. split; [exact B|]. destruct l as [|[b|kws] l]; try discriminate H. exists kws. split; [reflexivity|].
    exact (others_fine_ok (SObj kws :: l) x kws eq_refl F). }
  intros l x [E|[E|[E|[E|[]]]]]; injection E as <- <-; (apply H; [reflexivity|vm_compute; reflexivity|apply no_misjudged_small; vm_compute; reflexivity|apply plain_small; vm_compute; reflexivity]).
Qed.
