(** Catalogs completed from strict documents hold sound schemas. *)
From Coq Require Import List Lia Bool.
From Verif Require Export SpecStrict BuildGood BuildSettled.
Import ListNotations.
Open Scope nat_scope.

Lemma proper_mono d (ok ok' : pystr -> json -> bool) : (forall key v, ok key v = true -> ok' key v = true) -> forall v, proper_with d ok v = true -> proper_with d ok' v = true.
Proof.
  intro H. assert (G : forall n v, jsize v < n -> proper_with d ok v = true -> proper_with d ok' v = true).
  { induction n as [|n IH]; intros v Hn P; [lia|]. destruct v as [| | | | |ms]; try reflexivity. cbn [proper_with] in *. rewrite forallb_forall in *. intros [key v] Hv. specialize (P _ Hv). cbn [fst snd] in *.
    apply andb_true_iff in P. destruct P as [P1 P2]. apply andb_true_iff. split; [now apply H|].
    destruct (find_class d key) as [c|]; [|reflexivity]. apply andb_true_iff in P2. destruct P2 as [P2 P3]. apply andb_true_iff. split; [exact P2|]. pose proof (jsize_members _ _ Hv) as Sz. cbn [snd] in Sz. destruct v as [| | | |l|m]; try reflexivity.
    - destruct (many_schemas c); [|reflexivity]. rewrite forallb_forall in *. intros w Hw. pose proof (jsize_items _ _ Hw). apply IH; [lia|exact (P3 _ Hw)].
    - destruct (one_schema c); [apply IH; [lia|exact P3]|]. destruct (named_schemas c); [|reflexivity]. rewrite forallb_forall in *. intros kv Hw. pose proof (jsize_members _ _ Hw). apply IH; [lia|exact (P3 _ Hw)]. }
  intro v. exact (G (S (jsize v)) v (Nat.lt_succ_diag_r _)).
Qed.

Section Strict.
Variables (re : pystr -> bool) (id : pystr) (ms : uri -> bool) (d : list stdclass) (avoid : list pystr).
Hypothesis Boot : find_class d (lit "$schema") = Some KSchema_ /\ find_class d (lit "$vocabulary") = Some KVocabulary_ /\
  (find_class d (lit "$id") = Some KId_ \/ find_class d (lit "$id") = Some KIdNext).

Lemma demands_both lib key v : demands re lib ms d avoid key v = true -> declares lib ms avoid key v = true /\ strict re d key v = true.
Proof. apply andb_true_iff. Qed.
Lemma strictly_speaks E : speaks_strictly re E ms d avoid -> speaks_in E ms d avoid.
Proof. intros [H1 H2]. split; [exact H1|]. intros u doc L. destruct (H2 u doc L) as [J P]. split; [exact J|]. refine (proper_mono d _ _ _ doc P). intros key v X. exact (proj1 (demands_both _ _ _ X)). Qed.
Lemma strictly_reads E : speaks_strictly re E ms d avoid -> reads_json E.
Proof. intros [_ H] u doc L. exact (proj1 (H u doc L)). Qed.
Theorem completed_written st : completed re id ms d avoid st -> written_in id ms d avoid st.
Proof.
  induction 1 as [|E f v u m st s Sp J P Hm _ _ IH|E f u m st s Sp Hm _ _ IH|st _ IH|st st' _ IH H].
  - apply wi_empty.
  - apply wi_construct; auto; [now apply strictly_speaks|]. refine (proper_mono d _ _ _ v P). intros key w X. exact (proj1 (demands_both _ _ _ X)).
  - apply wi_get; auto. now apply strictly_speaks.
  - now apply wi_leave.
  - exact (wi_elsewhere _ _ _ _ st st' IH H).
Qed.
(** All references of the cache are resolved, and subschemas come later. *)
Definition resolved (c : cat) : Prop := forall s, belongs id c s -> kw_resolved (c_objs c) s /\ ordered (c_objs c) s.
Lemma resolved_lively c c' : kept c c' -> lively c c' -> resolved c -> resolved c'.
Proof.
  intros K L R s Hs. destruct (Nat.lt_ge_cases s (size c)) as [X|X].
  - assert (Hb : belongs id c s); [|destruct (R s Hb); split; [now apply (resolved_kept c)|now apply (ordered_kept c)]]. destruct (nth_error (c_objs c) s) as [o|] eqn:Ho; [|apply nth_error_None in Ho; unfold size in X; lia].
    destruct (K _ _ Ho) as (o' & Ho' & _ & _ & _ & Hc & _). destruct Hs as (o2 & Ho2 & Hc2). exists o. split; [exact Ho|congruence].
  - destruct Hs as (o & Ho & _). apply L; [exact X|]. apply nth_error_Some. congruence.
Qed.
Lemma resolved_other id' c c' : id' <> id -> BuildSteps.step id' c c' -> resolved c -> resolved c'.
Proof.
  intros N (S & O & A & _) R s Hs. pose proof (belongs_back id id' c c' s N O A Hs) as Hb. assert (Old : forall kws, keywords_at (c_objs c') s kws -> keywords_at (c_objs c) s kws).
  2:{ destruct (R s Hb) as [R1 R2]. split; [intros kws key k Ha; apply R1; auto|intros kws key k t Ha; apply R2; auto]. }
  intros kws (o & Ho & D). exists o. split; [|exact D]. rewrite <- Ho. symmetry. apply (proj2 O). destruct Hb as (o' & Ho' & _). apply nth_error_Some. unfold sid in *. congruence.
Qed.
Theorem completed_inv st : completed re id ms d avoid st -> sane (mc_cat st) /\ Inv id ms d avoid (strict re d) (mc_cat st) /\ resolved (mc_cat st).
Proof.
  induction 1 as [|E f v u m st s Sp J P Hm Os _ (S & IH & R)|E f u m st s Sp Hm Os _ (S & IH & R)|st _ (S & IH & R)|st st' _ (S & IH & R) H].
  - split; [exact sane_empty|]. split; [apply inv_empty|]. intros s (o & Ho & _). destruct s; discriminate Ho.
  - split; [exact (proj1 (step_construct E f id v u m _ (strictly_reads E Sp) J S))|]. split.
    + exact (proj1 (run_construct id ms d avoid (strict re d) Boot E _ Sp (demands_both _) f v u m J P Hm (mc_cat st) IH I)).
    + cbn [upon mc_cat]. apply (resolved_lively (mc_cat st)); [apply kept_construct_with, kept_resolve| |exact R].
      destruct (construct E f id v u m (mc_cat st)) as [r c'] eqn:H. cbn in Os. subst r. exact (clears_construct E (strictly_reads E Sp) f 0 id v u m J (mc_cat st) s c' S (Nat.le_0_l _) H).
  - split; [exact (proj1 (step_get E f id u m _ (strictly_reads E Sp) S))|]. split.
    + exact (proj1 (run_get id ms d avoid (strict re d) Boot E _ Sp (demands_both _) f u m Hm (mc_cat st) IH I)).
    + cbn [upon mc_cat]. apply (resolved_lively (mc_cat st)); [apply kept_get_schema_with, kept_resolve| |exact R].
      destruct (get_schema E f id u m (mc_cat st)) as [r c'] eqn:H. cbn in Os. subst r. exact (clears_get E (strictly_reads E Sp) f 0 id u m (mc_cat st) s c' S (Nat.le_0_l _) H).
  - split; [now apply sane_leave|]. split; [now apply inv_leave|exact R].
  - refine (let X := steps_ind_step (fun id' => id' <> id) (fun c => Inv id ms d avoid (strict re d) c /\ resolved c) st st' S (conj IH R) _ H in conj (proj1 X) (proj2 X)).
    intros id' c c' N _ G [A1 A2]. split; [exact (inv_other id ms d avoid (strict re d) id' c c' N G A1)|exact (resolved_other id' c c' N G A2)].
Qed.

(** The values are of the types that evaluation relies on. *)
Lemma typed_kw key k : good_kw d avoid (strict re d) key k -> (is_reference k -> kw_ref k <> None) -> typed k = true.
Proof using.
  clear id Boot. intros (_ & Kc & _ & _ & v & Sv & Jv) R. unfold typed. unfold is_reference in R. rewrite Kc in *. unfold strict in Sv. unfold cls in *. destruct (find_class d key) as [c|].
  - assert (Rf : (c = KRef \/ c = KDynamicRef \/ c = KRecursiveRef) -> match kw_ref k with Some _ => true | None => false end = true).
    { intro X. assert (Y : kw_ref k <> None) by (apply R; destruct X as [->|[->| ->]]; auto). destruct (kw_ref k); [reflexivity|congruence]. }
    destruct k as [kc kj kr kd kf ko]; cbn [kw_class kw_json kw_ref] in *. inversion Jv as [c0 v0 Mx|c0 v0 t Mx|c0 l ts Mx Hl|c0 t Mx|c0 m ts Mx Hk]; subst; clear Jv R; destruct c; cbn in Mx; try reflexivity; try (apply Rf; tauto); try discriminate Mx; try (destruct Mx; fail); try (destruct v as [| |[]| | |]; try discriminate Sv; reflexivity);
      try discriminate Sv; try solve [destruct Mx as [Mx|Mx]; [discriminate Mx|destruct Mx]]; try solve [destruct Mx as [Mx|[Mx|[]]]; discriminate Mx].
  - inversion Jv as [c0 v0 Mx|c0 v0 t Mx|c0 l ts Mx Hl|c0 t Mx|c0 m ts Mx Hk]; subst; cbn in Mx; try reflexivity; destruct Mx.
Qed.
Lemma compiles_kw W key k : (forall r x, re r = true -> w_search W r x <> None) -> good_kw d avoid (strict re d) key k -> compiles W k.
Proof using.
  clear Boot. intros Hre (_ & Kc & _ & _ & v & Sv & Jv). unfold strict in Sv. unfold cls in *. split.
  - intros r x C J. rewrite Kc in C. destruct (find_class d key) as [c|]; [|discriminate C]. injection C as ->. rewrite J in Jv. inversion Jv; subst; [|cbn in *; tauto]. apply Hre. exact Sv.
  - intros m r t x C J Hin. rewrite Kc in C. destruct (find_class d key) as [c|]; [|discriminate C]. injection C as ->. rewrite J in Jv. inversion Jv as [| | | |c0 doc ts Mx Hk]; subst.
    apply Hre. rewrite forallb_forall in Sv. apply (in_map fst) in Hin. cbn [fst] in Hin. change (map fst m) with (keys m) in Hin. rewrite Hk in Hin. unfold keys in Hin. apply in_map_iff in Hin.
    destruct Hin as ([r' w] & Q & Hin). cbn in Q. subst r'. exact (Sv _ Hin).
Qed.
End Strict.
