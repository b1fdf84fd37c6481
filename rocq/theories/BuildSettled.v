(** Where construction succeeds, the references of all schemas that it makes
    are resolved, also those of the documents it loads; and subschemas come
    later than the schemas they are part of. *)
From Coq Require Import List Lia Bool.
From Verif Require Export BuildRefs BuildFacts.
Import ListNotations.
Open Scope nat_scope.

Lemma Forall2_In_l {A B} (R : A -> B -> Prop) l l' a : Forall2 R l l' -> In a l -> exists b, In b l' /\ R a b.
Proof. induction 1; intros []; [subst; eexists; split; [now left|eassumption]|]. destruct (IHForall2 H1) as (b & ? & ?). exists b. split; [now right|assumption]. Qed.

Section Settled.
Variable E : env.
Hypothesis Docs : reads_json E.

Definition ordered (objs : list sobj) (s : sid) : Prop := forall kws key k t, keywords_at objs s kws -> In (key, k) kws -> subschema_of k t -> s < t.
Definition lively (c c' : cat) : Prop := forall i, size c <= i -> i < size c' -> kw_resolved (c_objs c') i /\ ordered (c_objs c') i.
Lemma resolved_kept c c' i : kept c c' -> i < size c -> kw_resolved (c_objs c) i -> kw_resolved (c_objs c') i.
Proof.
  intros K L H kws key k Ha Hk R. destruct (kept_keywords_back _ _ _ _ K L Ha) as (kws0 & Ha0 & F).
  destruct (Forall2_In_r _ _ _ _ F Hk) as ([key0 k0] & Hk0 & (_ & St & Rf)). cbn [snd] in *. apply Rf. apply (H _ _ _ Ha0 Hk0). now apply (later_reference _ _ St).
Qed.
Lemma ordered_kept c c' i : kept c c' -> i < size c -> ordered (c_objs c) i -> ordered (c_objs c') i.
Proof.
  intros K L H kws key k t Ha Hk R. destruct (kept_keywords_back _ _ _ _ K L Ha) as (kws0 & Ha0 & F).
  destruct (Forall2_In_r _ _ _ _ F Hk) as ([key0 k0] & Hk0 & (_ & St & Rf)). cbn [snd] in *. apply (H _ _ _ _ Ha0 Hk0). now apply (later_sub _ _ t St).
Qed.
Lemma made_ordered objs m b u v s up t : upward objs -> made E objs m b u v s up -> within objs s t -> ordered objs t.
Proof.
  intros Up Md W kws key k t' Ha Hk Sub. destruct (made_within E _ _ _ _ _ _ _ _ Md W) as (m' & b' & u' & v' & up' & Mt & _).
  inversion Mt as [? ? ? x ? ? o Ho Dd _ _|? ? ? doc ? ? o kws0 Ho Dd Hup Hu N K Cl Kp Hh Dep]; subst.
  { destruct Ha as (o' & Ho' & D'). congruence. }
  assert (kws0 = kws) by (apply (keywords_fun objs t); [now exists o|exact Ha]). subst kws0.
  assert (Hin : In key (keys doc)) by (apply K; exact (in_map fst _ _ Hk)). destruct (keys_dget _ _ Hin) as [w Dw].
  pose proof (Hh _ _ _ Hk Dw) as Hj. assert (X : exists m1 b1 v1 ks, made E objs m1 b1 None v1 t' (Some (t, ks))).
  { unfold subschema_of in Sub. inversion Hj as [|? ? ? ? ? ? t1 T M1 Q1 Q2 Q3 Q4 Q5 Q6 Q7|? ? ? ? ? l ts T Ln M1|? ? ? ? ? ? T|? ? ? ? ? doc1 ts T Nd Kk M1]; subst;
      match goal with X : _ = kw_json k |- _ => rewrite <- X in Sub end; try (destruct Sub; fail).
    - subst t1. eauto 6.
    - apply In_nth_error in Sub. destruct Sub as (j & Hjj). destruct (nth_error l j) as [w1|] eqn:Hl; [eauto 6|]. exfalso. apply nth_error_None in Hl. assert (j < length ts) by (apply nth_error_Some; congruence). lia.
    - apply in_map_iff in Sub. destruct Sub as ([n1 t1] & Q & Hts). cbn in Q. subst t1. assert (Nt : NoDup (keys ts)) by now rewrite Kk. pose proof (In_dget _ _ _ Nt Hts) as D1.
      assert (Hn : In n1 (keys doc1)) by (rewrite <- Kk; exact (in_map fst _ _ Hts)). destruct (keys_dget _ _ Hn) as [w1 Dw1]. eauto 6. }
  destruct X as (m1 & b1 & v1 & ks & M1). apply made_up in M1. destruct M1 as (o1 & Ho1 & Hup1). exact (Up _ _ _ _ Ho1 Hup1).
Qed.
Lemma lively_trans a b c : kept b c -> lively a b -> lively b c -> lively a c.
Proof.
  intros K H1 H2 i L1 L2. destruct (Nat.lt_ge_cases i (size b)) as [X|X]; [|now apply H2]. destruct (H1 i L1 X). split; [now apply (resolved_kept b)|now apply (ordered_kept b)].
Qed.
Lemma lively_size c c' : size c' = size c -> lively c c'.
Proof. intros H i L1 L2. lia. Qed.

Definition clears {A} (n : nat) (x : M A) : Prop := forall c a c', sane c -> n <= size c -> x c = (Ok a, c') -> lively c c'.
Definition flat {A} (x : M A) : Prop := forall c, size (snd (x c)) = size c.
Lemma clears_flat {A} n (x : M A) : flat x -> clears n x.
Proof. intros H c a c' _ _ X. apply lively_size. specialize (H c). rewrite X in H. exact H. Qed.
Lemma flat_ret {A} (a : A) : flat (ret a). Proof. intro c. reflexivity. Qed.
Lemma flat_lift {A} (r : res A) : flat (lift r). Proof. intro c. reflexivity. Qed.
Lemma flat_read {A} (f : cat -> A) : flat (read f). Proof. intro c. reflexivity. Qed.
Lemma flat_throw {A} e : flat (@throw A e). Proof. intro c. reflexivity. Qed.
Lemma flat_bind {A B} (x : M A) (f : A -> M B) : flat x -> (forall a, flat (f a)) -> flat (bindM x f).
Proof. intros Hx Hf c. unfold bindM. specialize (Hx c). destruct (x c) as [[a| |] c1]; cbn [snd] in *; auto. now rewrite Hf. Qed.
Lemma flat_set_ref s key t d : flat (set_ref s key t d).
Proof.
  intro c. unfold set_ref, update, modify, size. cbn [snd]. destruct (nth_error (c_objs c) s); [|reflexivity]. unfold put_obj. cbn [c_objs]. apply length_set_nth.
Qed.
Ltac flatten :=
  repeat lazymatch goal with
    | |- flat (bindM _ _) => apply flat_bind; [|intro]
    | |- flat (ret _) => apply flat_ret
    | |- flat (throw _) => apply flat_throw
    | |- flat (lift _) => apply flat_lift
    | |- flat (read _) => apply flat_read
    | |- flat (set_ref _ _ _ _) => apply flat_set_ref
    end.
Lemma clears_bind {A B} n (x : M A) (f : A -> M B) Q : safe n x Q -> clears n x -> (forall a, framed kept (f a)) ->
  (forall a n', n <= n' -> Q a n' -> clears n' (f a)) -> clears n (bindM x f).
Proof.
  intros Sx Cx Kf Cf c b c' S L H. apply bind_ok in H. destruct H as (a & c1 & H1 & H). destruct (Sx c S L) as (S1 & L1 & Q1). rewrite H1 in S1, L1, Q1. cbn [fst snd] in *.
  pose proof (Kf a c1) as K. rewrite H in K. apply (lively_trans c c1 c' K); [exact (Cx c a c1 S L H1)|]. exact (Cf a (size c1) ltac:(lia) (Q1 a eq_refl) c1 b c' S1 (Nat.le_refl _) H).
Qed.
Lemma clears_each {A} n (f : A -> M unit) l : (forall a, framed kept (f a)) -> (forall a n', In a l -> n <= n' -> safe n' (f a) any) ->
  (forall a n', In a l -> n <= n' -> clears n' (f a)) -> clears n (each_ f l).
Proof.
  intros K. revert n. induction l as [|a l IH]; intros n Sf Cf; [apply clears_flat, flat_ret|]. cbn [each_].
  apply (clears_bind _ _ _ any); [apply Sf; [now left|lia]|apply Cf; [now left|lia]|intro; now apply (framed_each _ pre_kept)|].
  intros _ n' L _. apply IH; intros a' n2 Ha L2; [apply Sf|apply Cf]; try (now right); lia.
Qed.

Section Refs.
Variable resolve : sid -> M unit.
Hypothesis Hkept : forall s, framed kept (resolve s).
Hypothesis Hsafe : forall n s, s < n -> safe n (resolve s) any.
Hypothesis Hsettles : forall s c r c', sane c -> s < size c -> resolve s c = (Ok r, c') -> settles c' s.
Hypothesis Hclears : forall n s, s < n -> clears n (resolve s).

Lemma clears_construct_with n id v u m : jwf v = true -> clears n (construct_with E resolve id v u m).
Proof.
  intros J c s c' S L H. unfold construct_with in H. apply bind_ok in H. destruct H as (s0 & c1 & H1 & H).
  destruct (build_made E id v u m c s0 c1 S J H1) as (-> & L1 & W & Md).
  assert (S1 : sane c1). { assert (Sb : safe 0 (build E id v u m None) (fun s k => s < k)) by (apply safe_build; discriminate). destruct (Sb c S (Nat.le_0_l _)) as (X & _). rewrite H1 in X. exact X. }
  destruct v as [|b| | | |doc]; try (inversion Md; fail).
  - apply ret_ok in H. destruct H as [_ <-]. intros i A B. split; [|exact (made_ordered _ _ _ _ _ _ _ _ (proj1 S1) Md (W i (conj A B)))]. intros kws key k Ha. assert (i = size c).
    { specialize (W i (conj A B)). apply within_first in W. destruct W as [->|(kws1 & key1 & k1 & t1 & (o & Ho & D) & _)]; [reflexivity|]. inversion Md; subst; congruence. }
    subst i. destruct Ha as (o & Ho & D). inversion Md; subst; congruence.
  - apply bind_ok in H. destruct H as (r & c2 & H2 & H). apply ret_ok in H. destruct H as [_ <-].
    pose proof (Hsettles _ _ _ _ S1 L1 H2) as St. pose proof (Hkept (size c) c1) as K. rewrite H2 in K. cbn [snd] in K.
    intros i A B. destruct (Nat.lt_ge_cases i (size c1)) as [X|X].
    + split; [|apply (ordered_kept c1); [exact K|exact X|exact (made_ordered _ _ _ _ _ _ _ _ (proj1 S1) Md (W i (conj A X)))]].
      apply St. specialize (W i (conj A X)). clear -W K. induction W as [|t t' kws key k _ IH Ha Hk Sub]; [constructor|]. destruct (kept_keywords _ _ _ _ K Ha) as (kws' & Ha' & F).
      destruct (Forall2_In_l _ _ _ _ F Hk) as ([key' k'] & Hk' & R). apply (within_step _ _ t t' kws' key' k' IH Ha' Hk'). apply (later_sub k k' t' (proj1 (proj2 R))). exact Sub.
    + exact (Hclears (size c1) (size c) L1 c1 r c2 S1 (Nat.le_refl _) H2 i X B).
Qed.
Lemma clears_get_schema_with n id u m : clears n (get_schema_with E resolve id u m).
Proof.
  unfold get_schema_with. apply (clears_bind _ _ _ hit_ok); [apply safe_hit; eauto|apply clears_flat; flatten| |].
  { intros [s|]; framing pre_kept; [destruct a as [s|]; framing pre_kept; now apply kept_construct_with|].
    destruct a0 as [s [s'|]]; framing pre_kept. destruct (u_frag u) as [[|ch f]|]; framing pre_kept. destruct a1; framing pre_kept. }
  intros hit n1 L1 Hh. destruct hit as [s|]; [apply clears_flat; flatten|].
  cbv zeta. apply (clears_bind _ _ _ hit_ok); [apply safe_hit; intros c s; destruct (u_frag u); [eauto|discriminate]|apply clears_flat; flatten| |].
  { intro known. framing pre_kept; [destruct known as [s|]; framing pre_kept; now apply kept_construct_with|].
    destruct a as [s [s'|]]; framing pre_kept. destruct (u_frag u) as [[|ch f]|]; framing pre_kept. destruct a0; framing pre_kept. }
  intros known n2 L2 Hk. apply (clears_bind _ _ _ any).
  - destruct known as [s|]; [safety|]. safety. eapply safe_any. now apply safe_construct_with.
  - destruct known as [s|]; [apply clears_flat; flatten|]. intros c p c' S L H. apply bind_ok in H. destruct H as (doc & c1 & H1 & H). apply lift_ok in H1. destruct H1 as [Hd <-].
    apply bind_ok in H. destruct H as (s & c2 & H2 & H). apply bind_ok in H. destruct H as (again & c3 & H3 & H). apply read_ok in H3. destruct H3 as [_ <-]. apply ret_ok in H. destruct H as [_ <-].
    exact (clears_construct_with n2 id doc (Some (no_fragment u)) m (Docs _ _ Hd) c s c2 S L H2).
  - intros [s [s'|]]; framing pre_kept. destruct (u_frag u) as [[|ch f]|]; framing pre_kept. destruct a0; framing pre_kept.
  - intros [s [s'|]] n3 L3 _; apply clears_flat; flatten. destruct (u_frag u) as [[|ch f]|]; flatten. destruct a0; flatten.
Qed.
Lemma flat_absolute s j : flat (absolute_reference E s j).
Proof. unfold absolute_reference. flatten. destruct (ul_absolute (e_lib E) (no_fragment a)); [flatten|]. destruct (base_uri a0 s); flatten. Qed.
Lemma clears_resolve_keyword n s key k : clears n (resolve_keyword E resolve s key k).
Proof.
  intros c r c' S L H. unfold resolve_keyword in H. apply bind_ok in H. destruct H as (objs & c0 & H0 & H). apply read_ok in H0. destruct H0 as [-> <-]. cbv zeta in H.
  set (id := match nth_error (c_objs c) s with Some o => so_cache o | None => [] end) in *. set (m := metaschema_uri (c_objs c) s) in *.
  assert (Get : forall u t c2 c3 (y : M unit) r', size c2 = size c -> sane c2 -> get_schema_with E resolve id u m c2 = (Ok t, c3) -> flat y -> framed kept y -> y c3 = (Ok r', c') -> lively c c').
  { intros u t c2 c3 y r' Hz S2 G Fy Ky Y. pose proof (Ky c3) as K. pose proof (Fy c3) as Z. rewrite Y in K, Z. cbn [snd] in K, Z. apply (lively_trans c c3 c' K); [|now apply lively_size].
    intros i A B. exact (clears_get_schema_with n id u m c2 t c3 S2 ltac:(lia) G i ltac:(lia) B). }
  assert (Std : (do u <- absolute_reference E s (kw_json k); do t <- get_schema_with E resolve id u m; set_ref s key t false) c = (Ok r, c') -> lively c c').
  { intro X. apply bind_ok in X. destruct X as (u & c2 & X1 & X). pose proof (absolute_still E s (kw_json k) c) as Q. rewrite X1 in Q. cbn in Q. subst c2.
    apply bind_ok in X. destruct X as (t & c3 & X2 & X). exact (Get u t c c3 _ _ eq_refl S X2 (flat_set_ref _ _ _ _) (kept_set_ref _ _ _ _) X). }
  destruct (kw_class k) as [x|]; [|exact (Std H)]. destruct x; try exact (Std H).
  - apply bind_ok in H. destruct H as (u & c2 & X1 & X). pose proof (absolute_still E s (kw_json k) c) as Q. rewrite X1 in Q. cbn in Q. subst c2.
    apply bind_ok in X. destruct X as (t & c3 & X2 & X). refine (Get u t c c3 _ _ eq_refl S X2 _ _ X).
    + flatten. destruct a1; flatten.
    + framing pre_kept; [apply kept_set_ref|]. destruct a1; [apply kept_set_ref|framing pre_kept].
  - destruct (base_uri (c_objs c) s) as [b|]; [|discriminate H]. apply bind_ok in H. destruct H as (t & c3 & X2 & X).
    exact (Get b t c c3 _ _ eq_refl S X2 (flat_set_ref _ _ _ _) (kept_set_ref _ _ _ _) X).
Qed.
End Refs.

Lemma clears_resolve f : forall n s, s < n -> clears n (resolve_references E f s).
Proof.
  induction f as [|f IH]; intros n s Hs; [intros c a c' _ _ H; discriminate H|]. intros c r c' S L H. cbn [resolve_references] in H. apply bind_ok in H. destruct H as (kws & c0 & H0 & H).
  apply read_ok in H0. destruct H0 as [-> <-].
  assert (Ok0 : forall kk, In kk (schema_keywords (objs_world (c_objs c)) s) -> kw_ok (size c) (snd kk)).
  { intros [key k] Hk. apply keywords_in in Hk. destruct Hk as (kws & Ha & Hk). destruct S as (_ & K & _). exact (proj2 (K _ _ Ha) _ _ Hk). }
  revert H. apply (clears_each (size c)); [| | |exact S|lia].
  - intro kk. destruct (reference_class (kw_class (snd kk))); [apply kept_resolve_keyword, kept_resolve|]. pose proof (kept_resolve E f) as X.
    destruct (kw_json (snd kk)); framing pre_kept; auto; apply (framed_each _ pre_kept); auto.
  - intros kk n' Hkk Hn. destruct (reference_class (kw_class (snd kk))); [apply safe_resolve_keyword, safe_resolve|]. destruct (Ok0 _ Hkk) as (A & _).
    unfold subschema_of in A. destruct (kw_json (snd kk)) as [v|t|l|m].
    + safety.
    + apply safe_resolve. specialize (A t eq_refl). lia.
    + apply safe_each. intros t n3 Ht L3. apply safe_resolve. specialize (A t Ht). lia.
    + apply safe_each. intros kt n3 Ht L3. apply safe_resolve. specialize (A _ (in_map snd _ _ Ht)). lia.
  - intros kk n' Hkk Hn. destruct (reference_class (kw_class (snd kk))).
    { apply clears_resolve_keyword; [apply kept_resolve|apply safe_resolve| |exact IH]. intros t c1 r1 c2 S1 Ht X. exact (resolve_settles E f t c1 r1 c2 S1 Ht X). }
    destruct (Ok0 _ Hkk) as (A & _). unfold subschema_of in A. destruct (kw_json (snd kk)) as [v|t|l|m].
    + apply clears_flat, flat_ret.
    + apply IH. specialize (A t eq_refl). lia.
    + apply clears_each; [apply kept_resolve| |]; intros t n3 Ht L3; [apply safe_resolve|apply IH]; specialize (A t Ht); lia.
    + apply clears_each; [intro; apply kept_resolve| |]; intros kt n3 Ht L3; [apply safe_resolve|apply IH]; specialize (A _ (in_map snd _ _ Ht)); lia.
Qed.
Lemma clears_construct f n id v u m : jwf v = true -> clears n (construct E f id v u m).
Proof.
  intro J. apply clears_construct_with; [apply kept_resolve| |apply clears_resolve|exact J]. intros t c1 r1 c2 S1 Ht X. exact (resolve_settles E f t c1 r1 c2 S1 Ht X).
Qed.
Lemma clears_get f n id u m : clears n (get_schema E f id u m).
Proof.
  apply clears_get_schema_with; [apply kept_resolve|apply safe_resolve| |apply clears_resolve]. intros t c1 r1 c2 S1 Ht X. exact (resolve_settles E f t c1 r1 c2 S1 Ht X).
Qed.
End Settled.
