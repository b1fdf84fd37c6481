(** The invariants of catalogs with metaschemas. *)
From Coq Require Import List Lia Bool.
From Verif Require Export BuildClosed.
Import ListNotations.
Open Scope nat_scope.

Lemma same_old_refl c : same_old c c. Proof. split; [unfold size; lia|auto]. Qed.
Lemma same_old_trans a b c : same_old a b -> same_old b c -> same_old a c.
Proof. intros [L H] [L' H']. split; [lia|]. intros i Hi. rewrite H' by lia. now apply H. Qed.

(** What one step in cache [id] does. *)
Definition step (id : pystr) (c c' : cat) : Prop := sane c' /\ same_old c c' /\ alone id c c' /\ (shut id c -> shut id c').
Lemma step_refl id c : sane c -> step id c c.
Proof. intro S. split; [exact S|]. split; [apply same_old_refl|]. split; [apply pre_alone|auto]. Qed.

Lemma step_construct E f id v u m c : reads_json E -> jwf v = true -> sane c -> step id c (snd (construct E f id v u m c)).
Proof.
  intros R J S. split; [destruct (safe_construct E f 0 id v u m c S (Nat.le_0_l _)) as [H _]; exact H|]. split; [now apply construct_stays|]. split; [now apply construct_alone|].
  intro H. now destruct (construct_shuts id E f v u m c c (more_refl _ _) H).
Qed.
Lemma step_get E f id u m c : reads_json E -> sane c -> step id c (snd (get_schema E f id u m c)).
Proof.
  intros R S. split; [destruct (safe_get_schema E f 0 id u m c S (Nat.le_0_l _)) as [H _]; exact H|]. split; [now apply get_stays|]. split; [now apply get_alone|].
  intro H. now destruct (get_shuts id E f u m c c (more_refl _ _) H).
Qed.
Lemma step_leave id c : sane c -> step id c (mkCat (c_objs c) (leave_cache id (c_cache c))).
Proof.
  intro S. split; [now apply sane_leave|]. split; [split; [unfold size; cbn; lia|reflexivity]|]. split.
  - apply alone_same. intro T. split; [now apply tidy_leave|]. intros id' u D. rewrite cached_leave by exact T. destruct (str_eqb_spec id' id); [contradiction|reflexivity].
  - intros (T & C & K & U). split; [now apply tidy_leave|]. split; [|split; [exact K|exact U]]. intros u s. cbn [c_cache]. rewrite cached_leave by exact T. destruct (str_eqb id id); [discriminate|apply C].
Qed.
(** The part of a metaschema that is made when the VocabularyKeyword raises. *)
Lemma step_aborted E id u v e c : sane c ->
  step id c (snd ((do s <- new_schema id (Some u) None None (SObj []);
                   do _ <- match v with
                           | Some x => add_keyword E s [(lit "$schema", mkMember x (fun _ => throw EOther) [])] (lit "$schema") (Std KSchema_)
                           | None => ret tt
                           end;
                   @throw sid e) c)).
Proof.
  intro S. set (x := fun s : sid => match v with
     | Some x => add_keyword E s [(lit "$schema", mkMember x (fun _ => throw EOther) [])] (lit "$schema") (Std KSchema_) | None => ret tt end).
  change (step id c (snd ((do s <- new_schema id (Some u) None None (SObj []); do _ <- x s; @throw sid e) c))). unfold bindM at 1.
  assert (SN : sane (snd (new_schema id (Some u) None None (SObj []) c)) /\ forall s, fst (new_schema id (Some u) None None (SObj []) c) = Ok s -> s < size (snd (new_schema id (Some u) None None (SObj []) c))).
  { destruct (safe_new 0 id (Some u) None None (SObj []) ltac:(discriminate) ltac:(split; [constructor|intros ? ? []]) c S (Nat.le_0_l _)) as (S1 & _ & N1). split; [exact S1|exact N1]. }
  destruct SN as [S1 N1].
  pose proof (framed_new id (Some u) None None (SObj []) c) as O1. pose proof (alone_new id (Some u) None None (SObj []) c) as A1.
  pose proof (shuts_new id c (Some u) None None (SObj []) ltac:(discriminate) I c (more_refl _ _)) as C1.
  pose proof (new_schema_eq id (Some u) None None (SObj []) c) as Eq. destruct (new_schema id (Some u) None None (SObj []) c) as [[s| |] c1]; cbn [fst snd] in *; try discriminate Eq. injection Eq as -> Eq.
  set (s := length (c_objs c)) in *. assert (B1 : belongs id c1 s). { subst c1. exists (mkObj (Some u) None None id (SObj [])). cbn [c_objs]. split; [apply nth_last|reflexivity]. } clear Eq.
  specialize (N1 s eq_refl).
  assert (Tm : forall mb : member, mb = mkMember (mb_value mb) (fun _ => throw EOther) [] -> calm mb /\ tame mb /\ lone_member id mb /\ member_in id mb).
  { intros mb ->. cbn [mb_value]. split; [split; [intro; apply (framed_throw _ pre_old)|intros ? ? ? []]|]. split; [split; [intros ? ? ? ?; apply safe_throw|intros ? ? []]|].
    split; [split; [intro; apply (framed_throw _ (pre_alone id))|intros ? ? ? []]|]. split; [intros ? ? ? ?; apply shuts_throw|intros ? ? []]. }
  assert (Ad : sane (snd (x s c1)) /\ same_but s c1 (snd (x s c1)) /\ alone id c1 (snd (x s c1)) /\ (shut id c1 -> shut id (snd (x s c1)))).
  { unfold x. destruct v as [y|]; [|split; [exact S1|]; split; [apply pre_but|]; split; [apply pre_alone|auto]].
    assert (Mm : forall k mb, In (k, mb) [(lit "$schema", mkMember y (fun _ => throw EOther) [])] -> calm mb /\ tame mb /\ lone_member id mb /\ member_in id mb).
    { intros k mb [Q|[]]. apply pair_equal_spec in Q. destruct Q as [_ <-]. now apply Tm. }
    split; [destruct (safe_add_keyword E (size c1) s _ (lit "$schema") (Std KSchema_) N1 (fun k mb H => proj1 (proj2 (Mm k mb H))) c1 S1 (Nat.le_refl _)) as [H _]; exact H|].
    split; [apply framed_add_keyword; intros k mb H; exact (proj1 (Mm k mb H))|].
    split; [apply (lone_add_keyword E id s); [intros k mb H; exact (proj1 (proj2 (proj2 (Mm k mb H))))|exact B1]|].
    intro Sh. destruct (shuts_add_keyword id E c1 s _ (lit "$schema") (Std KSchema_) B1 (fun k mb H => proj2 (proj2 (proj2 (Mm k mb H)))) c1 (more_refl _ _) Sh) as [H _]. exact H. }
  destruct Ad as (S2 & O2 & A2 & C2).
  assert (G : step id c (snd (x s c1))).
  { split; [exact S2|]. split; [|split; [exact (proj2 (pre_alone id) _ _ _ A1 A2)|intro Sh; apply C2, C1, Sh]].
    destruct O1 as [L1 O1], O2 as [L2 O2]. split; [unfold size in *; lia|]. intros i Hi. rewrite O2; [now apply O1|unfold s, size in *; lia|unfold s, size in *; lia]. }
  unfold bindM. destruct (x s c1) as [[y| |] c2]; exact G.
Qed.
Lemma reads_with E d : reads_json E -> reads_json (with_dialects E d).
Proof. intros R u doc H. exact (R u doc H). Qed.
Lemma step_new_metaschema E fuel u v core defaults st : reads_json E -> jwf v = true -> sane (mc_cat st) -> step meta_id (mc_cat st) (mc_cat (snd (new_metaschema E fuel u v core defaults st))).
Proof.
  intros R J S. unfold new_metaschema. destruct v as [|b|n|t|l|ms]; try exact (step_refl _ _ S). destruct (core_vocabulary _ _ _ _) as [vc|ex|]; [|exact (step_refl _ _ S)|exact (step_refl _ _ S)].
  destruct (match dget (lit "$vocabulary") ms with Some x => vocabulary_keyword E (mc_vocabs st) vc x | None => ([], None) end) as [d [ex|]].
  - match goal with |- step _ _ (mc_cat (snd (let '(r, c) := ?y in _))) => pose proof (step_aborted E meta_id u (dget (lit "$schema") ms) ex (mc_cat st) S) as G; change (step meta_id (mc_cat st) (snd y)) in G; destruct y as [r c] end.
    exact G.
  - destruct (same_id E u ms); [|exact (step_refl _ _ S)]. cbv zeta.
    match goal with |- context [construct ?E0 fuel meta_id (JObj ms) (Some u) None (mc_cat st)] => pose proof (step_construct E0 fuel meta_id (JObj ms) (Some u) None (mc_cat st) (reads_with E _ R) J S) as G; destruct (construct E0 fuel meta_id (JObj ms) (Some u) None (mc_cat st)) as [r c] end.
    exact G.
Qed.
Lemma step_metaschema E see f u core defaults st : reads_json E -> sane (mc_cat st) -> step meta_id (mc_cat st) (mc_cat (snd (create_metaschema E see f u core defaults st))).
Proof.
  intros R S. unfold create_metaschema. destruct (load_json (e_lib E) (e_sources E) u) as [v| |] eqn:Ld; [|exact (step_refl _ _ S)|exact (step_refl _ _ S)]. cbn [bind].
  destruct (default_core _ _) as [vc| |]; [|exact (step_refl _ _ S)|exact (step_refl _ _ S)]. cbn [bind]. destruct (all_vocabularies _ _) as [vs| |]; [|exact (step_refl _ _ S)|exact (step_refl _ _ S)]. cbn [bind].
  pose proof (step_new_metaschema E f u v vc vs st R (R _ _ Ld) S) as G. destruct (new_metaschema E f u v vc vs st) as [[s| |] st']; exact G.
Qed.

(** ** Histories. *)
Lemma belongs_old id c c' s : same_old c c' -> belongs id c s -> belongs id c' s.
Proof. intros [_ H] (o & Ho & Hc). exists o. split; [|exact Hc]. rewrite H; [exact Ho|]. apply nth_error_Some. congruence. Qed.
Lemma belongs_back id id' c c' s : id' <> id -> same_old c c' -> alone id' c c' -> belongs id c' s -> belongs id c s.
Proof.
  intros N [L H] (_ & _ & New) (o & Ho & Hc). destruct (Nat.lt_ge_cases s (size c)) as [X|X]; [exists o; split; [rewrite <- H by exact X; exact Ho|exact Hc]|].
  exfalso. apply N. rewrite <- Hc. symmetry. exact (New s o X Ho).
Qed.
Lemma shut_other id id' c c' : id' <> id -> step id' c c' -> shut id c -> shut id c'.
Proof.
  intros N (S & O & A & _) (T & C & K & U). destruct (proj1 A T) as [T' C'].
  assert (Old : forall s, belongs id c' s -> nth_error (c_objs c') s = nth_error (c_objs c) s).
  { intros s Hs. apply (belongs_back id id' c c' s N O A) in Hs. destruct Hs as (o & Ho & _). apply (proj2 O). apply nth_error_Some. congruence. }
  split; [exact T'|]. split; [|split].
  - intros u s Hs. rewrite C' in Hs by congruence. apply (belongs_old id c); [exact O|exact (C _ _ Hs)].
  - intros s kws key k Hs (o & Ho & D) Hin. rewrite (Old s Hs) in Ho. destruct (K s kws key k) as [K1 K2]; [exact (belongs_back id id' c c' s N O A Hs)|exists o; auto|exact Hin|].
    split; intros t Ht; apply (belongs_old id c); auto.
  - intros s o p ks Ho Hc Hu. rewrite Old in Ho by (exists o; auto). apply (belongs_old id c); [exact O|]. exact (U _ _ _ _ Ho Hc Hu).
Qed.
Lemma steps_ind_step (ok : pystr -> Prop) (P : cat -> Prop) st st' : sane (mc_cat st) -> P (mc_cat st) ->
  (forall id c c', ok id -> sane c -> step id c c' -> P c -> P c') -> steps ok st st' -> sane (mc_cat st') /\ P (mc_cat st').
Proof.
  intros S0 P0 H. induction 1 as [|E f id v u m st' Hid R J _ [IS IP]|E f id u m st' Hid R _ [IS IP]|id st' Hid _ [IS IP]|u cs st' _ [IS IP]|E see f u core defaults st' Hid R _ [IS IP]].
  - auto.
  - pose proof (step_construct E f id v u m _ R J IS) as G. exact (conj (proj1 G) (H id _ _ Hid IS G IP)).
  - pose proof (step_get E f id u m _ R IS) as G. exact (conj (proj1 G) (H id _ _ Hid IS G IP)).
  - pose proof (step_leave id _ IS) as G. exact (conj (proj1 G) (H id _ _ Hid IS G IP)).
  - auto.
  - pose proof (step_metaschema E see f u core defaults _ R IS) as G. exact (conj (proj1 G) (H meta_id _ _ Hid IS G IP)).
Qed.
Lemma sane_empty : sane (mkCat [] []).
Proof. apply reachable_sane, reach_empty. Qed.
Lemma shut_empty id : shut id (mkCat [] []).
Proof.
  split; [exact (proj1 (proj2 (proj2 sane_empty)))|]. split; [discriminate|]. split; [intros s ? ? ? (o & Ho & _); destruct s; discriminate Ho|intros s ? ? ? Ho; destruct s; discriminate Ho].
Qed.
Theorem grown_shut id st : grown st -> sane (mc_cat st) /\ shut id (mc_cat st).
Proof.
  intro H. refine (steps_ind_step (fun _ => True) (shut id) empty_catalog st sane_empty (shut_empty id) _ H). intros id' c c' _ S G Sh.
  destruct (str_eqb_spec id' id) as [->|N]; [now apply G|]. exact (shut_other id id' c c' N G Sh).
Qed.
Theorem elsewhere_same id st st' : sane (mc_cat st) -> elsewhere id st st' ->
  (sane (mc_cat st') /\ same_old (mc_cat st) (mc_cat st')) /\ (forall u, cached id u (c_cache (mc_cat st')) = cached id u (c_cache (mc_cat st))) /\
  forall s, belongs id (mc_cat st') s <-> belongs id (mc_cat st) s.
Proof.
  intros S H. pose proof (steps_ind_step (fun id' => id' <> id) (fun c => same_old (mc_cat st) c /\ (forall u, cached id u (c_cache c) = cached id u (c_cache (mc_cat st))) /\
    forall s, belongs id c s <-> belongs id (mc_cat st) s) st st' S) as G. destruct G as (G1 & G2 & G3 & G4); [split; [apply same_old_refl|split; [reflexivity|tauto]]| |exact H|auto].
  intros id' c c' N Sc (S' & O & A & _) (P1 & P2 & P3). split; [exact (same_old_trans _ _ _ P1 O)|]. split.
  - intro u. destruct (proj1 A (proj1 (proj2 (proj2 Sc)))) as [_ X]. rewrite X by congruence. apply P2.
  - intro s. rewrite <- P3. split; [exact (belongs_back id id' c c' s N O A)|exact (belongs_old id c c' s O)].
Qed.
