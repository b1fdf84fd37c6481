(** C76: from strict documents to a verdict, without exceptions. *)
From Coq Require Import String List Bool Relations Lia.
From Verif Require Import SchemaCases PropsSchema PropsBuild PropsMeta SchemaLocal JudgeLocal SchemaMain BuildSteps BuildStrict PropsWritten PropsCaches PropsMixed PropsCode PropsWhole PropsSafe.
Import ListNotations.
Open Scope string_scope.
Open Scope list_scope.
Open Scope nat_scope.

Section Total.
Variables (re : pystr -> bool) (lib : urilib) (id : pystr) (W0 : world) (ms : uri -> bool) (d : list stdclass) (avoid : list pystr) (legacy : bool).
Local Notation see c := (cache_world lib id W0 c).
Local Notation own c := (own_world lib id W0 c).
(** The expressions [re] compile. *)
Hypothesis Hre : forall r x, re r = true -> w_search W0 r x <> None.

Lemma own_finite c : finite_world (own c).
Proof. exists (length (c_objs c)). intros s L. exists true. cbn [w_schema own_world]. apply nth_error_None in L. now rewrite L. Qed.
Lemma own_strict st s kws key k : dialect legacy d -> completed re id ms d avoid st -> w_schema (own (mc_cat st)) s = SObj kws -> In (key, k) kws ->
  good_kw d avoid (strict re d) key k /\ (is_reference k -> kw_ref k <> None) /\ forall t, subschema_of k t -> s < t.
Proof.
  intros Hd Hc Hs Hk. apply own_object in Hs. destruct Hs as [B K]. destruct (completed_inv re id ms d avoid (dialect_boot _ _ Hd) st Hc) as (_ & [_ [F _]] & R).
  destruct (R s B) as [R1 R2]. split; [exact (proj1 (proj2 (F s kws B K)) _ _ Hk)|]. split; [exact (R1 kws key k K Hk)|]. intros t. exact (R2 kws key k t K Hk).
Qed.

(** The schemas of the cache are sound. *)
Theorem C76_sound : forall st, dialect legacy d -> completed re id ms d avoid st -> guarded (own (mc_cat st)) -> well_aimed (own (mc_cat st)) ->
  sound_world (own (mc_cat st)).
Proof.
  intros st Hd Hc G A. split; [|intros s X; apply (G s); now constructor]. intros s kws key k Hs Hk. destruct (own_strict st s kws key k Hd Hc Hs Hk) as (Gk & R & _).
  split; [exact (typed_kw re d avoid key k Gk R)|]. split; [exact (compiles_kw re d avoid _ key k Hre Gk)|exact (A s kws key k Hs Hk)].
Qed.

(** So evaluation of a schema of the cache returns a result, *)
Theorem C76_returns : forall st s x, dialect legacy d -> completed re id ms d avoid st -> belongs id (mc_cat st) s ->
  guarded (own (mc_cat st)) -> well_aimed (own (mc_cat st)) -> finite_numbers x = true ->
  exists r, returns (see (mc_cat st)) s (root x) r.
Proof.
  intros st s x Hd Hc B G A F. pose proof (completed_written re id ms d avoid st Hc) as Hw.
  destruct (C75_returns (own (mc_cat st)) d legacy s (root x) Hd (C73_good_world _ _ _ _ _ _ _ st Hd Hw) (C76_sound st Hd Hc G A) G (own_finite _) F) as (r & N & H).
  exists r, N. intros fuel L. rewrite (proj1 (C73_own lib id W0 ms d avoid legacy st s fuel (root x) x true Hd Hw B)). exact (H fuel L).
Qed.
(** and its verdict is the prescribed one. *)
Theorem C76_decides : forall st s x, dialect legacy d -> completed re id ms d avoid st -> belongs id (mc_cat st) s ->
  guarded (own (mc_cat st)) -> well_aimed (own (mc_cat st)) -> no_unevaluated (own (mc_cat st)) \/ no_misjudged (own (mc_cat st)) -> plain_dynamics (own (mc_cat st)) ->
  finite_numbers x = true -> jwf x = true ->
  exists r, returns (see (mc_cat st)) s (root x) r /\ forall b, verdict (see (mc_cat st)) s x b <-> b = r_valid r.
Proof.
  intros st s x Hd Hc B G A Hu Hp F J. pose proof (completed_written re id ms d avoid st Hc) as Hw.
  destruct (C76_returns st s x Hd Hc B G A F) as (r & N & H). exists r. split; [now exists N|].
  pose proof (C73_verdict lib id W0 ms d avoid legacy st s N x r Hd Hw B Hu Hp J (H N (le_n N))) as V.
  intro b. split; [|now intros ->]. intro V'. exact (verdict_unique _ _ _ _ _ V' V).
Qed.

(** ** Documents without references. *)
Definition without_references : Prop := In (lit "$ref") avoid /\ In (lit "$dynamicRef") avoid /\ In (lit "$recursiveRef") avoid.
Lemma own_no_references st s kws key k : without_references -> dialect legacy d -> completed re id ms d avoid st -> w_schema (own (mc_cat st)) s = SObj kws -> In (key, k) kws ->
  ~ is_reference k.
Proof.
  intros (A1 & A2 & A3) Hd Hc Hs Hk R. pose proof (completed_written re id ms d avoid st Hc) as Hw.
  assert (U : forall c, kw_class k = Std c -> In (std_key c) avoid -> False).
  { intros c Kc Ha. apply (own_unused lib id W0 ms d avoid legacy st c Hd Hw Ha). exists s, kws, key, k. auto. }
  destruct R as [R|[R|R]]; apply (U _ R); assumption.
Qed.
Lemma own_in_place st s t : without_references -> dialect legacy d -> completed re id ms d avoid st -> in_place (own (mc_cat st)) s t -> s < t.
Proof.
  intros Hn Hd Hc H.
  assert (Sub : forall kws key k, w_schema (own (mc_cat st)) s = SObj kws -> In (key, k) kws -> subschema_of k t -> s < t).
  { intros kws key k Hs Hk. exact (proj2 (proj2 (own_strict st s kws key k Hd Hc Hs Hk)) t). }
  destruct H as [kws key k t Hs Hk R _|kws key k b t Hs Hk R _ _|kws key k t Hs Hk R _|kws key k c ts t Hs Hk _ _ J Ht|kws key k c t Hs Hk _ _ J|kws key k m name t Hs Hk _ J Ht].
  - destruct (own_no_references st s kws key k Hn Hd Hc Hs Hk R).
  - destruct (own_no_references st s kws key k Hn Hd Hc Hs Hk (or_intror (or_introl R))).
  - destruct (own_no_references st s kws key k Hn Hd Hc Hs Hk (or_intror (or_intror R))).
  - apply (Sub kws key k Hs Hk). unfold subschema_of. now rewrite J.
  - apply (Sub kws key k Hs Hk). unfold subschema_of. now rewrite J.
  - apply (Sub kws key k Hs Hk). unfold subschema_of. rewrite J. exact (in_map snd _ _ Ht).
Qed.
(** These need no condition on what is in the catalog. *)
Theorem C76_plain_documents : forall E f v u m st s c' x, dialect legacy d -> without_references -> plain_enough legacy avoid ->
  completed re id ms d avoid st -> speaks_strictly re E ms d avoid -> jwf v = true -> proper_with d (demands re (e_lib E) ms d avoid) v = true ->
  (forall m', m = Some m' -> ms m' = true) -> construct E f id v u m (mc_cat st) = (Ok s, c') ->
  finite_numbers x = true -> jwf x = true ->
  exists r, returns (see c') s (root x) r /\ forall b, verdict (see c') s x b <-> b = r_valid r.
Proof.
  intros E f v u m st s c' x Hd Hn Hp Hc Sp J P Hm H F Jx.
  assert (Os : fst (construct E f id v u m (mc_cat st)) = Ok s) by now rewrite H.
  pose proof (co_construct re id ms d avoid E f v u m st s Sp J P Hm Os Hc) as Hc'. pose proof (completed_written re id ms d avoid _ Hc') as Hw'.
  set (st' := upon (construct E f id v u m) st) in *. assert (Q : c' = mc_cat st') by (cbn; now rewrite H). rewrite Q.
  assert (Bs : belongs id (mc_cat st') s).
  { destruct (completed_inv re id ms d avoid (dialect_boot _ _ Hd) st Hc) as (_ & Iv & _).
    destruct (run_construct id ms d avoid (strict re d) (dialect_boot _ _ Hd) E _ Sp (demands_both re ms d avoid _) f v u m J P Hm (mc_cat st) Iv I) as (_ & _ & X).
    rewrite <- Q. rewrite H in X. exact (X s eq_refl). }
  pose proof (fun k => own_unused lib id W0 ms d avoid legacy st' k Hd Hw') as U.
  assert (G : guarded (own (mc_cat st'))).
  { intros t X. assert (L : forall a b, clos_trans sid (in_place (own (mc_cat st'))) a b -> a < b).
    { intros a b Y. induction Y as [a b Y|a b c _ IH1 _ IH2]; [exact (own_in_place st' a b Hn Hd Hc' Y)|exact (Nat.lt_trans _ _ _ IH1 IH2)]. }
    apply L in X. lia. }
  apply C76_decides; auto.
  - intros t kws key k Hs Hk. pose proof (own_no_references st' t kws key k Hn Hd Hc' Hs Hk) as R. split; intros; exfalso; apply R; unfold is_reference; auto.
  - destruct Hp as [[H1 H2]|[H1 H2]].
    + left. repeat split; apply U; assumption.
    + right. split; [apply U; exact H1|]. intros t kws key k t' b Hk Hin Kc _ _. assert (X : uses (own (mc_cat st')) KItems2019) by (exists t, kws, key, k; auto).
      pose proof (own_outside lib id W0 ms d avoid legacy st' KItems2019 Hd Hw') as O. destruct legacy; [exact (U KItems2019 H2 X)|].
      apply O; [|exact X]. destruct Hd as [->| ->]; vm_compute; intuition discriminate.
  - intros t kws key k Hs Hk Kd. exfalso. apply (own_no_references st' t kws key k Hn Hd Hc' Hs Hk).
    destruct (own_strict st' t kws key k Hd Hc' Hs Hk) as ((_ & _ & _ & X & _) & _). right. left. exact (X Kd).
Qed.
(** Documents with $ref only, provided references do not lead round in place. *)
Theorem C76_documents : forall E f v u m st s c' x, dialect legacy d -> In (lit "$dynamicRef") avoid -> In (lit "$recursiveRef") avoid -> plain_enough legacy avoid ->
  completed re id ms d avoid st -> speaks_strictly re E ms d avoid -> jwf v = true -> proper_with d (demands re (e_lib E) ms d avoid) v = true ->
  (forall m', m = Some m' -> ms m' = true) -> construct E f id v u m (mc_cat st) = (Ok s, c') -> guarded (own c') ->
  finite_numbers x = true -> jwf x = true ->
  exists r, returns (see c') s (root x) r /\ forall b, verdict (see c') s x b <-> b = r_valid r.
Proof.
  intros E f v u m st s c' x Hd A1 A2 Hp Hc Sp J P Hm H G F Jx.
  assert (Os : fst (construct E f id v u m (mc_cat st)) = Ok s) by now rewrite H.
  pose proof (co_construct re id ms d avoid E f v u m st s Sp J P Hm Os Hc) as Hc'. pose proof (completed_written re id ms d avoid _ Hc') as Hw'.
  set (st' := upon (construct E f id v u m) st) in *. assert (Q : c' = mc_cat st') by (cbn; now rewrite H). rewrite Q in *.
  assert (Bs : belongs id (mc_cat st') s).
  { destruct (completed_inv re id ms d avoid (dialect_boot _ _ Hd) st Hc) as (_ & Iv & _).
    destruct (run_construct id ms d avoid (strict re d) (dialect_boot _ _ Hd) E _ Sp (demands_both re ms d avoid _) f v u m J P Hm (mc_cat st) Iv I) as (_ & _ & X).
    rewrite H in X. exact (X s eq_refl). }
  pose proof (fun k => own_unused lib id W0 ms d avoid legacy st' k Hd Hw') as U.
  assert (Un : forall t kws key k c, w_schema (own (mc_cat st')) t = SObj kws -> In (key, k) kws -> kw_class k = Std c -> In (std_key c) avoid -> False).
  { intros t kws key k c Hs Hk Kc Ha. apply (U c Ha). exists t, kws, key, k. auto. }
  apply C76_decides; auto.
  - intros t kws key k Hs Hk. split; intros; exfalso; eapply Un; eauto.
  - destruct Hp as [[H1 H2]|[H1 H2]].
    + left. repeat split; apply U; assumption.
    + right. split; [apply U; exact H1|]. intros t kws key k t' b Hk Hin Kc _ _. assert (X : uses (own (mc_cat st')) KItems2019) by (exists t, kws, key, k; auto).
      pose proof (own_outside lib id W0 ms d avoid legacy st' KItems2019 Hd Hw') as O. destruct legacy; [exact (U KItems2019 H2 X)|].
      apply O; [|exact X]. destruct Hd as [->| ->]; vm_compute; intuition discriminate.
  - intros t kws key k Hs Hk Kd. exfalso. destruct (own_strict st' t kws key k Hd Hc' Hs Hk) as ((_ & _ & _ & X & _) & _). exact (Un _ _ _ _ _ Hs Hk (X Kd) A1).
Qed.
End Total.
Print Assumptions C76_sound.
Print Assumptions C76_returns.
Print Assumptions C76_decides.
Print Assumptions C76_plain_documents.
Print Assumptions C76_documents.

(** The catalog of C73, with a document of another dialect in another cache;
    the document that is constructed loads a further one. *)
Lemma guarded_like W rank l : (forall s, w_schema W s = nth s l (SBool true)) -> ranked rank l = true -> uses_none KRecursiveRef l = true -> uses_none KDynamicRef l = true -> guarded W.
Proof.
  intros Q H U U'. pose proof (guarded_small rank l H U) as G.
  assert (Un : forall c s kws key k, uses_none c l = true -> w_schema W s = SObj kws -> In (key, k) kws -> kw_class k = Std c -> False).
  { intros c s kws key k V Hs Hk Kc. apply (uses_small c l V). exists s, kws, key, k. rewrite Q in Hs. auto. }
  assert (Step : forall s t, in_place W s t -> in_place (small l) s t).
  { intros s t E. assert (Qs : w_schema (small l) s = w_schema W s) by now rewrite Q.
    destruct E as [kws key k t Hs Hk Hc Hr|kws key k b t Hs Hk Hc Hd Ha|kws key k t Hs Hk Hc Hr|kws key k c ts t Hs Hk Hc Hor Hj Ht|kws key k c t Hs Hk Hc Hor Hj|kws key k m name t Hs Hk Hc Hj Ht].
    - apply (ip_ref _ _ kws key k t); congruence || auto.
    - destruct (Un _ _ _ _ _ U' Hs Hk Hc).
    - destruct (Un _ _ _ _ _ U Hs Hk Hc).
    - apply (ip_list _ _ kws key k c ts t); congruence || auto.
    - apply (ip_single _ _ kws key k c t); congruence || auto.
    - apply (ip_dependent _ _ kws key k m name t); congruence || auto. }
  intros s C. apply (G s). revert C. generalize s at 1 3. intros a C. induction C as [a b C|a b c _ IH1 _ IH2]; [constructor; auto|exact (t_trans _ _ _ _ _ IH1 IH2)].
Qed.
Definition own_data (id : pystr) (c : cat) : list snode := map (fun o => if str_eqb (so_cache o) id then so_data o else SBool true) (c_objs c).
Lemma own_nth lib id W0 c s : w_schema (own_world lib id W0 c) s = nth s (own_data id c) (SBool true).
Proof.
  cbn [w_schema own_world]. unfold own_data. destruct (nth_error (c_objs c) s) as [o|] eqn:Ho.
  - apply (map_nth_error (fun o => if str_eqb (so_cache o) id then so_data o else SBool true)) in Ho. symmetry. exact (nth_error_nth _ _ _ Ho).
  - symmetry. apply nth_overflow. rewrite map_length. now apply nth_error_None.
Qed.
Definition avoided76 : list pystr := lit "$recursiveRef" :: avoided.
Lemma docs_strict re l ms d avoid st : (forall u d', ms u = true -> known_dialects st u = Some d' -> d' = d) ->
  forallb (fun kv => jwf (snd kv) && proper_with d (demands re secure ms d avoid) (snd kv)) l = true -> speaks_strictly re (env_in (env_docs l) st) ms d avoid.
Proof.
  intros K F. split; [exact K|].
  intros u doc H. unfold load_json in H. cbn [e_lib env_in with_dialects env_docs] in H. destruct (or_catalog_error _) as [[]| |]; [|discriminate H|discriminate H]. cbn [bind e_sources env_in with_dialects env_docs shelf filter fst prefixb] in H.
  cbn [sort_longest insert_longest length skipn] in H.
  destruct (dget (uri_str u) (map (fun kv => (lit (fst kv), snd kv)) l)) as [v|] eqn:D; [|discriminate H]. injection H as <-.
  apply dget_In in D. apply in_map_iff in D. destruct D as ([k v'] & X & Hin). apply pair_equal_spec in X. destruct X as [_ <-]. rewrite forallb_forall in F. apply andb_true_iff. exact (F _ Hin).
Qed.
Lemma only2020_known u d' : only2020 u = true -> known_dialects st73 u = Some d' -> d' = dialect_2020_12.
Proof.
  unfold only2020. destruct (uri_eqb_spec u (mkUri (draft V2020 "schema") None)) as [->|]; [|intro X; discriminate X].
  intros _. assert (K : known_dialects st73 (mkUri (draft V2020 "schema") None) = Some dialect_2020_12) by (vm_compute; reflexivity). rewrite K. now intros [= <-].
Qed.
Lemma completed73 avoid : completed (fun _ => true) default only2020 dialect_2020_12 avoid st73.
Proof.
  apply (co_elsewhere _ default only2020 dialect_2020_12 avoid empty_catalog); [apply co_empty|]. apply st_construct; [vm_compute; discriminate| |reflexivity|apply steps2020; vm_compute; discriminate].
  intros u doc H. apply (env_docs_reads [] eq_refl u doc). exact H.
Qed.
Example C76_case :
  let r := construct E73 20 default userdoc None None (mc_cat st73) in
  let accepted x := match evaluate_root (cache_world secure default (small []) (snd r)) 60 19 (root x) with Ok n => Some (r_valid n) | _ => None end in
  (forall e x, (fun _ => true) e = true -> w_search (small []) e x <> None) /\
  dialect false dialect_2020_12 /\ In (lit "$dynamicRef") avoided76 /\ In (lit "$recursiveRef") avoided76 /\ plain_enough false avoided76 /\
  completed (fun _ => true) default only2020 dialect_2020_12 avoided76 st73 /\ speaks_strictly (fun _ => true) E73 only2020 dialect_2020_12 avoided76 /\
  jwf userdoc = true /\ proper_with dialect_2020_12 (demands (fun _ => true) (e_lib E73) only2020 dialect_2020_12 avoided76) userdoc = true /\
  fst r = Ok 19 /\ guarded (own_world secure default (small []) (snd r)) /\
  accepted (obj [("list", JArr [text "a"; JArr [text "b"; JArr []]])]) = Some true /\
  accepted (obj [("list", JArr [text "a"; JArr [int 1]])]) = Some false.
Proof.
  cbv zeta. split; [intros; discriminate|]. split; [now left|]. split; [cbn; tauto|]. split; [cbn; tauto|]. split; [left; cbn; tauto|]. split; [apply completed73|].
  split; [apply docs_strict; [exact only2020_known|vm_compute; reflexivity]|]. split; [reflexivity|]. split; [vm_compute; reflexivity|]. split; [vm_compute; reflexivity|]. split; [|vm_compute; auto].
  apply (guarded_like _ [0;0;0;0;0;0;0;0;0;0;0;0;0;0;0;0;0;0;0; 0;1;2;1;0;0;1] (own_data default (snd (construct E73 20 default userdoc None None (mc_cat st73))))); [apply own_nth|vm_compute; reflexivity|vm_compute; reflexivity|vm_compute; reflexivity].
Qed.
(** A document without references, with keywords of every kind. *)
Definition form : json :=
  obj [("$schema", std_uri "schema"); ("$id", text "http://a/form"); ("type", text "object"); ("required", JArr [text "name"]);
       ("patternProperties", obj [("^x-", obj [("type", text "string")])]);
       ("properties", obj [("name", obj [("pattern", text "^[A-Z]"); ("minLength", int 2)]); ("age", obj [("allOf", JArr [obj [("minimum", int 0)]; obj [("not", obj [("enum", JArr [int 13])])]])])]);
       ("additionalProperties", JBool false)].
Definition avoided76r : list pystr := lit "$ref" :: avoided76.
Example C76_plain_case :
  let r := construct E73 20 default form None None (mc_cat st73) in
  let accepted x := match evaluate_root (cache_world secure default (small []) (snd r)) 60 19 (root x) with Ok n => Some (r_valid n) | _ => None end in
  without_references avoided76r /\ plain_enough false avoided76r /\
  completed (fun _ => true) default only2020 dialect_2020_12 avoided76r st73 /\
  jwf form = true /\ proper_with dialect_2020_12 (demands (fun _ => true) (e_lib E73) only2020 dialect_2020_12 avoided76r) form = true /\
  fst r = Ok 19 /\ accepted (obj [("name", text "^[A-Z]"); ("age", int 14)]) = Some true /\ accepted (obj [("name", text "^[A-Z]"); ("age", int 13)]) = Some false /\
  accepted (obj [("age", int 14)]) = Some false /\ accepted (obj [("name", text "^[A-Z]"); ("^x-", int 14)]) = Some false.
Proof.
  cbv zeta. split; [unfold without_references; cbn; tauto|]. split; [left; cbn; tauto|]. split; [apply completed73|]. split; [reflexivity|]. split; [vm_compute; reflexivity|]. vm_compute. auto 10.
Qed.

(** ** The condition that everything was constructed successfully is needed.
    A document whose reference leads nowhere is not constructed, but it stays
    in the cache; a document that refers to it is then constructed without
    complaint, and cannot be evaluated: core.py:102 raises AttributeError. *)
Definition dangling : json := obj [("$schema", std_uri "schema"); ("$id", text "http://a/broken"); ("$ref", text "http://a/missing")].
Definition trusting : json := obj [("$schema", std_uri "schema"); ("$id", text "http://a/user"); ("$ref", text "http://a/broken")].
Theorem C76_success_needed : exists E st v1 v2 e s c1 c2,
  completed (fun _ => true) default only2020 dialect_2020_12 avoided76 st /\ speaks_strictly (fun _ => true) E only2020 dialect_2020_12 avoided76 /\
  jwf v1 && proper_with dialect_2020_12 (demands (fun _ => true) (e_lib E) only2020 dialect_2020_12 avoided76) v1 = true /\
  jwf v2 && proper_with dialect_2020_12 (demands (fun _ => true) (e_lib E) only2020 dialect_2020_12 avoided76) v2 = true /\
  construct E 20 default v1 None None (mc_cat st) = (Exn e, c1) /\ construct E 20 default v2 None None c1 = (Ok s, c2) /\
  guarded (own_world secure default (small []) c2) /\
  forall fuel x, 2 <= fuel -> evaluate_root (cache_world secure default (small []) c2) fuel s (root x) = Exn EAttribute.
Proof.
  set (r1 := construct E73 20 default dangling None None (mc_cat st73)). set (r2 := construct E73 20 default trusting None None (snd r1)).
  exists E73, st73, dangling, trusting. eexists. exists 20, (snd r1), (snd r2). split; [apply completed73|]. split; [apply docs_strict; [exact only2020_known|vm_compute; reflexivity]|].
  split; [vm_compute; reflexivity|]. split; [vm_compute; reflexivity|]. split.
  { rewrite (surjective_pairing (construct E73 20 default dangling None None (mc_cat st73))). fold r1. apply pair_equal_spec. split; [vm_compute; reflexivity|reflexivity]. }
  split. { rewrite (surjective_pairing (construct E73 20 default trusting None None (snd r1))). fold r2. apply pair_equal_spec. split; [vm_compute; reflexivity|reflexivity]. }
  split.
  { apply (guarded_like _ [0;0;0;0;0;0;0;0;0;0;0;0;0;0;0;0;0;0;0; 0;1] (own_data default (snd r2))); [apply own_nth|vm_compute; reflexivity|vm_compute; reflexivity|vm_compute; reflexivity]. }
  intros fuel x L. destruct fuel as [|[|fuel]]; [lia|lia|]. destruct x as [| |[| | |]| | |]; vm_compute; reflexivity.
Qed.
Print Assumptions C76_success_needed.
