(** What construction that loads metaschemas on the way leaves as it was, and
    what the metaschemas it loads provide. *)
From Coq Require Import List Lia Bool.
From Verif Require Import Late CatalogFacts BuildFrame SchemaTerm MetaFacts LateFacts.
Import ListNotations.
Open Scope nat_scope.

(** ** Vocabularies and metaschemas. *)
Definition object_at (c : cat) (s : sid) : Prop := exists o kws, nth_error (c_objs c) s = Some o /\ so_data o = SObj kws.
Definition more (c c' : cat) : Prop := length (c_objs c) <= length (c_objs c') /\ (forall s, object_at c s -> object_at c' s) /\
  forall s key, has_keyword c s key = true -> has_keyword c' s key = true.
Lemma more_refl c : more c c. Proof. repeat split; auto. Qed.
Lemma more_trans c1 c2 c3 : more c1 c2 -> more c2 c3 -> more c1 c3.
Proof. intros (A & B & C) (A' & B' & C'). split; [lia|]. split; auto. Qed.
Record later (st st' : mcat) : Prop := {
  la_vocabs : mc_vocabs st' = mc_vocabs st;
  la_more : more (mc_cat st) (mc_cat st');
  la_metas : forall i, i < length (c_objs (mc_cat st)) -> meta_at st' i = meta_at st i
}.
Lemma later_refl st : later st st.
Proof. constructor; auto using more_refl. Qed.
Lemma la_size st st' : later st st' -> length (c_objs (mc_cat st)) <= length (c_objs (mc_cat st')).
Proof. intros [_ [H _] _]. exact H. Qed.
Lemma later_trans st1 st2 st3 : later st1 st2 -> later st2 st3 -> later st1 st3.
Proof. intros [A B C] [A' B' C']. constructor; [congruence|exact (more_trans _ _ _ B B')|]. intros i Hi. rewrite C' by (destruct B; lia). now apply C. Qed.
Definition grows {A} (x : M A) : Prop := forall c, more c (snd (x c)).
Definition advances {A} (x : ML A) : Prop := forall st, later st (snd (x st)).
Lemma g_ret {A} (a : A) : grows (ret a). Proof. intro c. apply more_refl. Qed.
Lemma g_throw {A} e : grows (@throw A e). Proof. intro c. apply more_refl. Qed.
Lemma g_lift {A} (r : res A) : grows (lift r). Proof. intro c. apply more_refl. Qed.
Lemma g_read {A} (f : cat -> A) : grows (read f). Proof. intro c. apply more_refl. Qed.
Lemma g_bind {A B} (x : M A) (k : A -> M B) : grows x -> (forall a, grows (k a)) -> grows (bindM x k).
Proof. intros H K c. specialize (H c). unfold bindM. destruct (x c) as [[a|e|] c1]; cbn [fst snd] in *; [exact (more_trans _ _ _ H (K a c1))|exact H|exact H]. Qed.
Definition key_keeping (f : sobj -> sobj) : Prop := forall o, match so_data o with SObj kws => exists kws', so_data (f o) = SObj kws' /\ forall key, dmem key kws = true -> dmem key kws' = true | SBool _ => True end.
Lemma g_update s f : key_keeping f -> grows (update s f).
Proof.
  intros F c. unfold update, modify. cbn [snd]. destruct (nth_error (c_objs c) s) as [o|] eqn:Ho; [|apply more_refl].
  assert (Ls : s < length (c_objs c)) by (apply nth_error_Some; congruence). specialize (F o). split; [cbn [put_obj c_objs]; rewrite length_set_nth; lia|]. split.
  - intros t (o' & kws & H1 & H2). unfold object_at. cbn [put_obj c_objs]. destruct (Nat.eq_dec s t) as [<-|X]; [|rewrite nth_set_nth_other by exact X; eauto].
    rewrite nth_set_nth_same by exact Ls. rewrite H1 in Ho. injection Ho as ->. rewrite H2 in F. destruct F as (kws' & F & _). eauto.
  - intros t key. unfold has_keyword. cbn [put_obj c_objs]. destruct (Nat.eq_dec s t) as [<-|X]; [|now rewrite nth_set_nth_other by exact X].
    rewrite nth_set_nth_same, Ho by exact Ls. destruct (so_data o) as [b|kws]; [discriminate|]. destruct F as (kws' & -> & F). apply F.
Qed.
Lemma g_cache id u s : grows (cache_schema id u s). Proof. intro c. exact (more_refl c). Qed.
Lemma g_uncache id u : grows (uncache_schema id u). Proof. intro c. exact (more_refl c). Qed.
Lemma new_size id u m up d c : length (c_objs (snd (new_schema id u m up d c))) = S (length (c_objs c)).
Proof. rewrite new_schema_eq. cbn [snd c_objs]. rewrite app_length. cbn. lia. Qed.
Lemma g_new id u m up d : grows (new_schema id u m up d).
Proof.
  intro c. split; [rewrite new_size; lia|]. rewrite new_schema_eq. cbn [snd]. split.
  - intros t (o' & kws & H1 & H2). exists o', kws. split; [|exact H2]. cbn [c_objs]. rewrite nth_error_app1; [exact H1|]. apply nth_error_Some. congruence.
  - intros t key. unfold has_keyword. cbn [c_objs]. destruct (nth_error (c_objs c) t) as [o|] eqn:Ho; [|discriminate]. rewrite nth_error_app1, Ho; [auto|]. apply nth_error_Some. congruence.
Qed.
Lemma kk_uri u : key_keeping (with_uri u). Proof. intro o. cbn [with_uri so_data]. destruct (so_data o); eauto. Qed.
Lemma kk_meta m : key_keeping (with_meta m). Proof. intro o. cbn [with_meta so_data]. destruct (so_data o); eauto. Qed.
Lemma kk_keep key k : key_keeping (fun o => with_data (match so_data o with SObj kws => SObj (dset key k kws) | d => d end) o).
Proof.
  intro o. cbn [with_data so_data]. destruct (so_data o) as [|kws]; [exact I|]. eexists. split; [reflexivity|]. intros key' H. unfold dmem in *. rewrite dget_dset. now destruct (str_eqb key' key).
Qed.
Ltac grow := repeat first
  [ apply g_ret | apply g_throw | apply g_lift | apply g_read | apply g_cache | apply g_uncache | apply g_update; first [apply kk_uri|apply kk_meta] | apply g_new
  | apply g_bind; [|intro] | match goal with |- grows (match ?x with _ => _ end) => destruct x end ].
Lemma g_set_uri L s u : grows (set_uri L s u). Proof. unfold set_uri. grow. Qed.
Lemma g_init_id E next s v : grows (init_id E next s v).
Proof. unfold init_id. do 4 (apply g_bind; [grow|intro]). apply g_set_uri. Qed.
Lemma g_init_anchor E s v : grows (init_anchor E s v). Proof. unfold init_anchor. grow. Qed.
Lemma g_init_schema E s v : grows (init_schema E s v). Proof. unfold init_schema. grow. Qed.
Lemma g_rest E s c v j : grows (rest_of_keyword E s c v j).
Proof. unfold rest_of_keyword. destruct c as [c|k]; [|grow]. destruct c; grow; first [apply g_init_schema|apply g_init_id|apply g_init_anchor]. Qed.
Lemma g_keep s key k : grows (keep_keyword s key k). Proof. apply g_update, kk_keep. Qed.
Lemma g_set_ref s key t d : grows (set_ref s key t d).
Proof.
  apply g_update. intro o. cbn [with_data so_data]. destruct (so_data o) as [|kws]; [exact I|]. eexists. split; [reflexivity|]. intros key' H.
  apply dmem_In in H. apply dmem_In. unfold keys in *. rewrite map_map. replace (map _ kws) with (map fst kws); [exact H|].
  apply map_ext. intros [k x]. cbn [fst snd]. now destruct (str_eqb k key).
Qed.
Lemma g_absolute E s j : grows (absolute_reference E s j). Proof. unfold absolute_reference. grow. Qed.

Lemma a_on {A} (x : M A) : grows x -> advances (on_cat x).
Proof. intros H st. specialize (H (mc_cat st)). unfold on_cat. destruct (x (mc_cat st)) as [r c]. cbn [snd] in *. constructor; auto. Qed.
Lemma a_ret {A} (a : A) : advances (retL a). Proof. intro st. apply later_refl. Qed.
Lemma a_throw {A} e : advances (@throwL A e). Proof. intro st. apply later_refl. Qed.
Lemma a_lift {A} (r : res A) : advances (liftL r). Proof. intro st. apply later_refl. Qed.
Lemma a_bind {A B} (x : ML A) (k : A -> ML B) : advances x -> (forall a, advances (k a)) -> advances (bindL x k).
Proof. intros H K st. specialize (H st). unfold bindL. destruct (x st) as [[a|e|] st1]; cbn [snd] in *; [exact (later_trans _ _ _ H (K a st1))|exact H|exact H]. Qed.
Lemma a_each {A} (f : A -> ML unit) l : (forall x, In x l -> advances (f x)) -> advances (eachL f l).
Proof. induction l as [|x l IH]; intro H; [apply a_ret|]. cbn [eachL]. apply a_bind; [apply H; now left|]. intros _. apply IH. intros. apply H. now right. Qed.
Lemma a_map {A B} (f : A -> ML B) l : (forall x, In x l -> advances (f x)) -> advances (mapL f l).
Proof. induction l as [|x l IH]; intro H; [apply a_ret|]. cbn [mapL]. apply a_bind; [apply H; now left|]. intro. apply a_bind; [apply IH; intros; apply H; now right|]. intro. apply a_ret. Qed.

Section Advance.
Variable E : env.
Variable consult : uri -> ML (list stdclass).
Hypothesis Consult : forall u, advances (consult u).
Definition adv_member (x : memberL) : Prop := (forall up, advances (ml_schema x up)) /\ Forall (fun kb => forall up, advances (snd kb up)) (ml_items x).
Definition adv_members := Forall (fun kx : pystr * memberL => adv_member (snd kx)).
Lemma a_keyword_json s key c x : adv_member x -> advances (keyword_jsonL s key c x).
Proof.
  intros [Hs Hi]. rewrite Forall_forall in Hi. assert (T : forall ms, advances (try_mixinsL s key x ms)).
  { induction ms as [|m ms IH]; [apply a_throw|]. cbn [try_mixinsL]. unfold jsonifyL. destruct m, (ml_value x); try exact IH;
    try solve [apply a_bind; [apply Hs|intro; apply a_ret]]; try apply a_ret.
    - apply a_bind; [|intro; apply a_ret]. apply a_map. intros kb Hk. now apply Hi.
    - apply a_bind; [|intro; apply a_ret]. apply a_map. intros kb Hk. apply a_bind; [now apply Hi|]. intro. apply a_ret. }
  unfold keyword_jsonL. destruct (mixins c) as [|m ms]; [apply a_ret|apply T].
Qed.
Lemma dget_adv key l x : adv_members l -> dget key l = Some x -> adv_member x.
Proof. induction 1 as [|[k y] l Hy F IH]; cbn [dget]; [discriminate|]. destruct (str_eqb key k); [|exact IH]. intros [= <-]. exact Hy. Qed.
Lemma a_add s l key c : adv_members l -> advances (add_keywordL E s l key c).
Proof.
  intro H. unfold add_keywordL. destruct (dget key l) as [x|] eqn:Hx; [|apply a_ret]. apply a_bind; [apply a_keyword_json; exact (dget_adv _ _ _ H Hx)|]. intro j.
  apply a_bind; [apply a_on, g_rest|]. intro k. apply a_on, g_keep.
Qed.
Lemma a_metaschema s : advances (metaschemaL consult s).
Proof. unfold metaschemaL. apply a_bind; [apply a_on, g_read|]. intro o. destruct (metaschema_uri o s); [apply Consult|apply a_throw]. Qed.
Lemma a_bootstrap s l : adv_members l -> advances (bootstrapL E consult s l).
Proof.
  intro H. unfold bootstrapL. apply a_bind; [now apply a_add|]. intros _. apply a_bind; [now apply a_add|]. intros _. destruct (dmem (lit "$id") l); [|apply a_ret].
  apply a_bind; [apply a_metaschema|]. intro d. apply a_bind; [now apply a_add|]. intro. apply a_ret.
Qed.
Lemma a_kwclasses s ks : forall found, advances (classesL consult s found ks).
Proof.
  induction ks as [|k r IH]; intro found; [apply a_ret|]. cbn [classesL]. apply a_bind; [destruct found; [apply a_ret|apply a_metaschema]|]. intro d. apply a_bind; [apply a_lift|]. intro.
  apply a_bind; [apply IH|]. intro. apply a_ret.
Qed.
Lemma a_build_object s l : adv_members l -> advances (build_objectL E consult s l).
Proof.
  intro H. unfold build_objectL. apply a_bind; [apply a_on, g_read|]. intro o. apply a_bind; [destruct o as [[[u|] m [up|] ch d]|]; first [apply a_ret|apply a_on, g_set_uri]|]. intros _.
  apply a_bind; [now apply a_bootstrap|]. intro found. apply a_bind; [apply a_kwclasses|].
  intro cs. apply a_bind; [apply a_lift|]. intro order. apply a_each. intros c _. now apply a_add.
Qed.
Lemma adv_of id ms n : (forall v, jsize v < n -> forall u m up, advances (buildL E consult id v u m up)) ->
  Forall (fun kv => jsize (snd kv) < n) ms -> adv_members (map (fun kv => (fst kv, member_ofL E consult id (snd kv))) ms).
Proof.
  intros IH F. apply Forall_map. revert F. apply Forall_impl. intros [k v] Hk. cbn [fst snd] in *. split; [intro up; now apply IH|].
  cbn [ml_items member_ofL]. destruct v as [|b|x|x|l|m']; try constructor.
  - assert (Fl : Forall (fun x => jsize x < n) l). { apply Forall_forall. intros x Hx. apply jsize_items in Hx. lia. }
    clear Hk. generalize 0. induction Fl as [|x l Hx Fl IHl]; intro k0; [constructor|]. cbn [numberedL]. constructor; [|apply IHl]. intro up. now apply IH.
  - apply Forall_map. apply Forall_forall. intros kv Hv up. apply IH. apply jsize_members in Hv. lia.
Qed.
Lemma a_build id v u m up : advances (buildL E consult id v u m up).
Proof.
  assert (G : forall n v, jsize v < n -> forall u m up, advances (buildL E consult id v u m up)).
  { clear v u m up. induction n as [|n IH]; intros v Hn u m up; [lia|]. destruct v as [|b|x|x|l|ms]; try solve [apply a_bind; [apply a_on, g_new|intro; apply a_throw]].
    - apply a_on, g_new.
    - rewrite buildL_object_eq. apply a_bind; [apply a_on, g_new|]. intro s. apply a_bind; [|intro; apply a_ret]. apply a_build_object. apply (adv_of id ms n IH).
      apply Forall_forall. intros kv Hk. apply jsize_members in Hk. lia. }
  apply (G (S (jsize v))). lia.
Qed.
Section References.
Variable resolve : sid -> ML unit.
Hypothesis Resolve : forall s, advances (resolve s).
Lemma a_construct id v u m : advances (construct_withL E consult resolve id v u m).
Proof. unfold construct_withL. apply a_bind; [apply a_build|]. intro s. destruct v; try apply a_ret. apply a_bind; [apply Resolve|]. intro. apply a_ret. Qed.
Lemma a_get id u m : advances (get_schema_withL E consult resolve id u m).
Proof.
  unfold get_schema_withL. apply a_bind; [apply a_on, g_read|]. intros [s|]; [apply a_ret|]. cbv zeta. apply a_bind; [apply a_on, g_read|]. intro known.
  apply a_bind.
  - destruct known; [apply a_ret|]. apply a_bind; [apply a_lift|]. intro. apply a_bind; [apply a_construct|]. intro. apply a_bind; [apply a_on, g_read|]. intro. apply a_ret.
  - intros [s [t|]]; [apply a_ret|]. destruct (u_frag u) as [[|x f]|]; try apply a_ret. apply a_bind; [apply a_on, g_read|]. intro. apply a_bind; [apply a_lift|]. intros [t|v]; [apply a_ret|apply a_throw].
Qed.
Lemma a_resolve_keyword s key k : advances (resolve_keywordL E consult resolve s key k).
Proof.
  unfold resolve_keywordL. apply a_bind; [apply a_on, g_read|]. intro o. cbv zeta.
  assert (P : forall id m, advances (mdo u <- on_cat (absolute_reference E s (kw_json k)); mdo t <- get_schema_withL E consult resolve id u m; on_cat (set_ref s key t false))).
  { intros id m. apply a_bind; [apply a_on, g_absolute|]. intro u. apply a_bind; [apply a_get|]. intro t. apply a_on, g_set_ref. }
  destruct (kw_class k) as [c|x]; [|apply P]. destruct c; try apply P.
  - apply a_bind; [apply a_on, g_absolute|]. intro u. apply a_bind; [apply a_get|]. intro t. apply a_bind; [apply a_on, g_set_ref|]. intros _. apply a_bind; [apply a_on, g_read|]. intro.
    apply a_bind; [apply a_lift|]. intros [|]; [apply a_on, g_set_ref|apply a_ret].
  - destruct (base_uri o s); [|apply a_throw]. apply a_bind; [apply a_get|]. intro. apply a_on, g_set_ref.
Qed.
End References.
Lemma a_resolve fuel : forall s, advances (resolve_referencesL E consult fuel s).
Proof.
  induction fuel as [|f IH]; intro s; [intro st; apply later_refl|]. cbn [resolve_referencesL]. apply a_bind; [apply a_on, g_read|]. intro kws. apply a_each. intros kk _.
  destruct (reference_class (kw_class (snd kk))); [now apply a_resolve_keyword|]. destruct (kw_json (snd kk)); [apply a_ret|apply IH|apply a_each; intros; apply IH|apply a_each; intros; apply IH].
Qed.
(** ** Metaschemas. *)
Lemma meta_at_cons st c vs s m i : i <> s -> meta_at (mkMcat c vs ((s, m) :: mc_metas st)) i = meta_at st i.
Proof. intro H. unfold meta_at. cbn [mc_metas find fst]. destruct (Nat.eqb_spec s i); [congruence|reflexivity]. Qed.
Lemma meta_at_first c vs s m l : meta_at (mkMcat c vs ((s, m) :: l)) s = Some m.
Proof. unfold meta_at. cbn [mc_metas find fst]. now rewrite Nat.eqb_refl. Qed.
Lemma a_new fuel u v core defaults : advances (new_metaschemaL E consult fuel u v core defaults).
Proof.
  intro st. unfold new_metaschemaL. destruct v as [|b|x|x|l|ms]; try apply later_refl. destruct (core_vocabulary E (mc_vocabs st) (dget (lit "$vocabulary") ms) core) as [vc|e|] eqn:Hc; try apply later_refl.
  destruct (match dget (lit "$vocabulary") ms with Some x => vocabulary_keyword E (mc_vocabs st) vc x | None => ([], None) end) as [d [e|]] eqn:Hv.
  - unfold new_metaschema. rewrite Hc. cbv zeta. rewrite Hv.
    match goal with |- context [let '(r, c) := ?X (mc_cat st) in _] => assert (G : grows X) end.
    { apply g_bind; [apply g_new|]. intro s. apply g_bind; [|intro; apply g_throw]. destruct (dget (lit "$schema") ms) as [x|]; [|apply g_ret].
      unfold add_keyword. cbn [dget]. rewrite str_eqb_refl. unfold make_keyword. apply g_bind; [|intro; apply g_keep]. cbn [kwclass_eqb keyword_json mixins mb_value]. apply g_bind; [apply g_ret|]. intro j.
      apply g_bind; [apply g_init_schema|]. intro. apply g_ret. }
    specialize (G (mc_cat st)). destruct (bindM _ _ (mc_cat st)) as [r c]. cbn [snd] in *. constructor; cbn [mc_vocabs mc_cat]; [reflexivity|exact G|]. intros i Hi. apply meta_at_cons. lia.
  - set (st1 := mkMcat (mc_cat st) (mc_vocabs st) _). cbv zeta. pose proof (a_construct (resolve_referencesL E consult fuel) (a_resolve fuel) meta_id (JObj ms) (Some u) None st1) as [A B C].
    destruct (construct_withL E consult (resolve_referencesL E consult fuel) meta_id (JObj ms) (Some u) None st1) as [r st']. cbn [snd] in *.
    assert (L : later st st'). { constructor; [exact A|exact B|]. intros i Hi. rewrite C by exact Hi. unfold st1. apply meta_at_cons. lia. }
    destruct (negb (dmem (lit "$id") ms) || has_keyword (mc_cat st') (length (c_objs (mc_cat st))) (lit "$id")); [exact L|].
    destruct L as [A' B' C']. constructor; cbn [mc_vocabs mc_cat]; [exact A'|exact B'|]. intros i Hi. rewrite meta_at_cons by lia. now apply C'.
Qed.
Lemma a_create see fuel u core defaults : advances (create_metaschemaL E consult see fuel u core defaults).
Proof.
  intro st. unfold create_metaschemaL. destruct (let* v := load_json _ _ _ in _) as [[[v vc] vs]|e|]; try apply later_refl.
  pose proof (a_new fuel u v vc vs st) as L. destruct (new_metaschemaL E consult fuel u v vc vs st) as [[s|e|] st']; exact L.
Qed.
End Advance.
Lemma a_find E see fuel : forall u, advances (find_metaschema E see fuel u).
Proof.
  induction fuel as [|f IH]; intros u st; cbn [find_metaschema]; destruct (cached_metaschema st u) as [r|]; try apply later_refl.
  match goal with |- later st (snd (?X st)) => assert (G : advances X) end; [|apply G].
  apply a_bind; [apply a_create; intro w; apply a_bind; [apply IH|intro; apply a_ret]|]. intros s st1. apply later_refl.
Qed.
Lemma a_consult E see fuel u : advances (consult_late E see fuel u).
Proof. apply a_bind; [apply a_find|]. intro. apply a_ret. Qed.

(** ** Schema objects and caches. *)
Section Stays.
Variable E : env.
Variable st0 : mcat.
Variable apart : pystr.
Hypothesis Apart : apart <> [].
Hypothesis Apart_meta : apart <> meta_id.
Variable consult : uri -> ML (list stdclass).
Notation n0 := (length (c_objs (mc_cat st0))).
Definition stays {A} (x : ML A) (Q : A -> Prop) : Prop :=
  forall st, onward st0 apart (mc_cat st) -> onward st0 apart (mc_cat (snd (x st))) /\ forall a, fst (x st) = Ok a -> Q a.
Hypothesis Consult : forall u, stays (consult u) (fun _ => True).
Lemma s_on {A} (x : M A) Q : keeps_on st0 apart x Q -> stays (on_cat x) Q.
Proof. intros H st Hst. destruct (H _ Hst) as [H1 H2]. unfold on_cat. destruct (x (mc_cat st)) as [r c]. cbn [fst snd with_cat mc_cat] in *. now split. Qed.
Lemma s_ret {A} (a : A) (Q : A -> Prop) : Q a -> stays (retL a) Q.
Proof. intros H st Hst. split; [exact Hst|]. now intros b [= <-]. Qed.
Lemma s_throw {A} e (Q : A -> Prop) : stays (throwL e) Q.
Proof. intros st Hst. split; [exact Hst|]. intros b X; discriminate X. Qed.
Lemma s_lift {A} (r : res A) : stays (liftL r) (fun _ => True).
Proof. intros st Hst. now split. Qed.
Lemma s_bind {A B} (x : ML A) (k : A -> ML B) Q Q' : stays x Q -> (forall a, Q a -> stays (k a) Q') -> stays (bindL x k) Q'.
Proof.
  intros H K st Hst. destruct (H st Hst) as [H1 H2]. unfold bindL. destruct (x st) as [[a|e|] st1]; cbn [fst snd] in *.
  - exact (K a (H2 a eq_refl) st1 H1).
  - split; [exact H1|]. intros b X; discriminate X.
  - split; [exact H1|]. intros b X; discriminate X.
Qed.
Lemma s_weaken {A} (x : ML A) (Q Q' : A -> Prop) : stays x Q -> (forall a, Q a -> Q' a) -> stays x Q'.
Proof. intros H K st Hst. destruct (H st Hst) as [H1 H2]. split; [exact H1|]. intros a Ha. apply K, H2, Ha. Qed.
Lemma s_each {A} (f : A -> ML unit) l : (forall x, In x l -> stays (f x) (fun _ => True)) -> stays (eachL f l) (fun _ => True).
Proof. induction l as [|x l IH]; intro H; [now apply s_ret|]. cbn [eachL]. apply s_bind with (Q := fun _ => True); [apply H; now left|]. intros _ _. apply IH. intros. apply H. now right. Qed.
Lemma s_map {A B} (f : A -> ML B) Q l : (forall x, In x l -> stays (f x) Q) -> stays (mapL f l) (Forall Q).
Proof.
  induction l as [|x l IH]; intro H; [now apply s_ret|]. cbn [mapL]. apply s_bind with (Q := Q); [apply H; now left|]. intros y Hy.
  apply s_bind with (Q := Forall Q); [apply IH; intros; apply H; now right|]. intros ys Hys. apply s_ret. now constructor.
Qed.
Lemma s_read {A} (f : cat -> A) : stays (on_cat (read f)) (fun _ => True).
Proof. now apply s_on, k_read. Qed.
Notation new_sid := (fun s : sid => n0 <= s).
Definition sty_member (x : memberL) : Prop := (forall up, stays (ml_schema x up) new_sid) /\ Forall (fun kb => forall up, stays (snd kb up) new_sid) (ml_items x).
Definition sty_members := Forall (fun kx : pystr * memberL => sty_member (snd kx)).
Lemma s_keyword_json s key c x : sty_member x -> stays (keyword_jsonL s key c x) (subs_from st0).
Proof.
  intros [Hs Hi]. rewrite Forall_forall in Hi. assert (T : forall ms, stays (try_mixinsL s key x ms) (subs_from st0)).
  { induction ms as [|m ms IH]; [apply s_throw|]. cbn [try_mixinsL]. unfold jsonifyL. destruct m, (ml_value x); try exact IH;
    try solve [apply s_bind with (Q := new_sid); [apply Hs|intros; now apply s_ret]]; try now apply s_ret.
    - apply s_bind with (Q := Forall new_sid); [|intros; now apply s_ret]. apply s_map. intros kb Hk. now apply Hi.
    - apply s_bind with (Q := Forall (fun kt : pystr * sid => n0 <= snd kt)); [|intros; now apply s_ret]. apply s_map. intros kb Hk. apply s_bind with (Q := new_sid); [now apply Hi|]. intros. now apply s_ret. }
  unfold keyword_jsonL. destruct (mixins c) as [|m ms]; [now apply s_ret|apply T].
Qed.
Lemma dget_sty key l x : sty_members l -> dget key l = Some x -> sty_member x.
Proof. induction 1 as [|[k y] l Hy F IH]; cbn [dget]; [discriminate|]. destruct (str_eqb key k); [|exact IH]. intros [= <-]. exact Hy. Qed.
Lemma s_add s l key c : n0 <= s -> sty_members l -> stays (add_keywordL E s l key c) (fun _ => True).
Proof.
  intros Hs H. unfold add_keywordL. destruct (dget key l) as [x|] eqn:Hx; [|now apply s_ret]. apply s_bind with (Q := subs_from st0); [apply s_keyword_json; exact (dget_sty _ _ _ H Hx)|]. intros j Hj.
  apply s_bind with (Q := fun k => subs_from st0 (kw_json k)); [now apply s_on, k_rest|]. intros k Hk. now apply s_on, k_keep.
Qed.
Lemma s_metaschema s : stays (metaschemaL consult s) (fun _ => True).
Proof. unfold metaschemaL. apply s_bind with (Q := fun _ => True); [apply s_read|]. intros o _. destruct (metaschema_uri o s); [apply Consult|apply s_throw]. Qed.
Lemma s_kwclasses s ks : forall found, stays (classesL consult s found ks) (fun _ => True).
Proof.
  induction ks as [|k r IH]; intro found; [now apply s_ret|]. cbn [classesL]. apply s_bind with (Q := fun _ => True); [destruct found; [now apply s_ret|apply s_metaschema]|]. intros d _.
  apply s_bind with (Q := fun _ => True); [apply s_lift|]. intros c _. apply s_bind with (Q := fun _ => True); [apply IH|]. intros. now apply s_ret.
Qed.
Lemma s_build_object s l : n0 <= s -> sty_members l -> stays (build_objectL E consult s l) (fun _ => True).
Proof.
  intros Hs H. unfold build_objectL. apply s_bind with (Q := fun _ => True); [apply s_read|]. intros o _.
  apply s_bind with (Q := fun _ => True); [destruct o as [[[u|] m [up|] ch d]|]; first [now apply s_ret|now apply s_on, k_set_uri]|]. intros _ _.
  apply s_bind with (Q := fun _ => True).
  { unfold bootstrapL. apply s_bind with (Q := fun _ => True); [now apply s_add|]. intros _ _. apply s_bind with (Q := fun _ => True); [now apply s_add|]. intros _ _. destruct (dmem (lit "$id") l); [|now apply s_ret].
    apply s_bind with (Q := fun _ => True); [apply s_metaschema|]. intros d _. apply s_bind with (Q := fun _ => True); [now apply s_add|]. intros. now apply s_ret. }
  intros found _. apply s_bind with (Q := fun _ => True); [apply s_kwclasses|].
  intros cs _. apply s_bind with (Q := fun _ => True); [apply s_lift|]. intros order _. apply s_each. intros c _. now apply s_add.
Qed.
Lemma s_build id : id <> apart -> forall v u m up, stays (buildL E consult id v u m up) new_sid.
Proof.
  intro Hid. assert (N : forall u m up d, match d with SObj [] | SBool _ => True | _ => False end -> stays (on_cat (new_schema id u m up d)) new_sid).
  { intros u m up d Hd. apply s_on, k_new; [exact Hid|]. split; [exact Hid|]. destruct d as [b|[|]]; [exact I|constructor|contradiction]. }
  assert (G : forall n v, jsize v < n -> forall u m up, stays (buildL E consult id v u m up) new_sid).
  { induction n as [|n IH]; intros v Hn u m up; [lia|].
    destruct v as [|b|x|x|l|ms]; try solve [apply s_bind with (Q := new_sid); [now apply N|intros; apply s_throw]].
    - now apply N.
    - rewrite buildL_object_eq. apply s_bind with (Q := new_sid); [now apply N|]. intros s Hs. apply s_bind with (Q := fun _ => True); [|intros; now apply s_ret].
      apply s_build_object; [exact Hs|]. apply Forall_map. apply Forall_forall. intros [k v] Hk. apply jsize_members in Hk. cbn [fst snd] in *. split; [intro up'; apply IH; lia|].
      cbn [ml_items member_ofL]. destruct v as [|b|x|x|l|m']; try constructor.
      + assert (Fl : Forall (fun x => jsize x < n) l). { apply Forall_forall. intros x Hx. apply jsize_items in Hx. lia. }
        clear Hk. generalize 0. induction Fl as [|x l Hx Fl IHl]; intro k0; [constructor|]. cbn [numberedL]. constructor; [|apply IHl]. intro up'. now apply IH.
      + apply Forall_map. apply Forall_forall. intros kv Hv up'. apply IH. apply jsize_members in Hv. lia. }
  intros v. apply (G (S (jsize v))). lia.
Qed.
Section References.
Variable resolve : sid -> ML unit.
Hypothesis Resolve : forall s, n0 <= s -> stays (resolve s) (fun _ => True).
Lemma s_construct id v u m : id <> apart -> stays (construct_withL E consult resolve id v u m) new_sid.
Proof.
  intro Hid. unfold construct_withL. apply s_bind with (Q := new_sid); [now apply s_build|]. intros s Hs. destruct v; try now apply s_ret.
  apply s_bind with (Q := fun _ => True); [now apply Resolve|]. intros. now apply s_ret.
Qed.
Lemma s_get id u m : id <> apart -> stays (get_schema_withL E consult resolve id u m) (fun _ => True).
Proof.
  intro Hid. unfold get_schema_withL. apply s_bind with (Q := fun _ => True); [apply s_read|]. intros [s|] _; [now apply s_ret|]. cbv zeta. apply s_bind with (Q := fun _ => True); [apply s_read|]. intros known _.
  apply s_bind with (Q := fun _ => True).
  - destruct known; [now apply s_ret|]. apply s_bind with (Q := fun _ => True); [apply s_lift|]. intros v _. apply s_bind with (Q := fun _ => True); [eapply s_weaken; [now apply s_construct|auto]|]. intros s _.
    apply s_bind with (Q := fun _ => True); [apply s_read|]. intros. now apply s_ret.
  - intros [s [t|]] _; [now apply s_ret|]. destruct (u_frag u) as [[|x f]|]; try now apply s_ret. apply s_bind with (Q := fun _ => True); [apply s_read|]. intros o _.
    apply s_bind with (Q := fun _ => True); [apply s_lift|]. intros [t|v] _; [now apply s_ret|apply s_throw].
Qed.
Lemma s_resolve_keyword s key k : n0 <= s -> stays (resolve_keywordL E consult resolve s key k) (fun _ => True).
Proof.
  intro Hs. unfold resolve_keywordL. apply s_bind with (Q := fun objs => match nth_error objs s with Some o => so_cache o | None => [] end <> apart).
  { apply s_on, k_read. intros c Hc. destruct (nth_error (c_objs c) s) as [o|] eqn:Ho; [exact (proj1 (on_new _ _ c Hc _ _ Hs Ho))|]. congruence. }
  intros objs Hid. cbv zeta. set (id := match nth_error objs s with Some o => so_cache o | None => [] end) in *.
  assert (Abs : stays (on_cat (absolute_reference E s (kw_json k))) (fun _ => True)).
  { apply s_on. unfold absolute_reference. apply k_bind with (Q := fun _ => True); [apply k_lift|]. intros u _. apply k_bind with (Q := fun _ => True); [now apply k_read|].
    intros o _. destruct (ul_absolute (e_lib E) (no_fragment u)); [now apply k_ret|]. destruct (base_uri o s); [now apply k_ret|apply k_throw]. }
  assert (P : stays (mdo u <- on_cat (absolute_reference E s (kw_json k)); mdo t <- get_schema_withL E consult resolve id u (metaschema_uri objs s); on_cat (set_ref s key t false)) (fun _ => True)).
  { apply s_bind with (Q := fun _ => True); [exact Abs|]. intros u _. apply s_bind with (Q := fun _ => True); [now apply s_get|]. intros t _. now apply s_on, k_set_ref. }
  destruct (kw_class k) as [c|x]; [|exact P]. destruct c; try exact P.
  - apply s_bind with (Q := fun _ => True); [exact Abs|]. intros u _. apply s_bind with (Q := fun _ => True); [now apply s_get|]. intros t _.
    apply s_bind with (Q := fun _ => True); [now apply s_on, k_set_ref|]. intros _ _. apply s_bind with (Q := fun _ => True); [apply s_read|]. intros o _.
    apply s_bind with (Q := fun _ => True); [apply s_lift|]. intros [|] _; [now apply s_on, k_set_ref|now apply s_ret].
  - destruct (base_uri objs s) as [b|]; [|apply s_throw]. apply s_bind with (Q := fun _ => True); [now apply s_get|]. intros t _. now apply s_on, k_set_ref.
Qed.
End References.
Lemma s_resolve fuel : forall s, n0 <= s -> stays (resolve_referencesL E consult fuel s) (fun _ => True).
Proof.
  induction fuel as [|f IH]; intros s Hs.
  - intros st Hst. cbn. split; [exact Hst|]. intros a X; discriminate X.
  - cbn [resolve_referencesL]. apply s_bind with (Q := Forall (fun kk => subs_from st0 (kw_json (snd kk)))).
    + apply s_on, k_read. intros c Hc. unfold schema_keywords, objs_world. cbn [w_schema]. destruct (nth_error (c_objs c) s) as [o|] eqn:Ho; [|constructor].
      destruct (on_new _ _ c Hc _ _ Hs Ho) as [_ X]. destruct (so_data o); [constructor|exact X].
    + intros kws Hk. apply s_each. intros [key k] Hin. cbn [fst snd]. rewrite Forall_forall in Hk. specialize (Hk _ Hin). cbn [snd] in Hk.
      destruct (reference_class (kw_class k)); [now apply s_resolve_keyword|]. destruct (kw_json k) as [v|t|ts|ts]; cbn [subs_from] in Hk; [now apply s_ret|now apply IH| |].
      * apply s_each. rewrite Forall_forall in Hk. intros t Ht. apply IH. now apply Hk.
      * apply s_each. rewrite Forall_forall in Hk. intros t Ht. apply IH. now apply Hk.
Qed.
Lemma s_new fuel u v core defaults : stays (new_metaschemaL E consult fuel u v core defaults) (fun _ => True).
Proof.
  intros st Hst. split; [|auto]. unfold new_metaschemaL. destruct v as [|b|x|x|l|ms]; try exact Hst. destruct (core_vocabulary E (mc_vocabs st) (dget (lit "$vocabulary") ms) core) as [vc|e|] eqn:Hc; try exact Hst.
  destruct (match dget (lit "$vocabulary") ms with Some x => vocabulary_keyword E (mc_vocabs st) vc x | None => ([], None) end) as [d [e|]] eqn:Hv.
  - unfold new_metaschema. rewrite Hc. cbv zeta. rewrite Hv.
    match goal with |- context [let '(r, c) := ?X (mc_cat st) in _] => assert (G : keeps_on st0 apart X (fun _ => True)) end.
    { apply k_bind with (Q := new_sid); [apply k_new; [exact (not_eq_sym Apart_meta)|split; [exact (not_eq_sym Apart_meta)|constructor]]|]. intros s Hs. apply k_bind with (Q := fun _ => True); [|intros; apply k_throw].
      destruct (dget (lit "$schema") ms) as [x|]; [|now apply k_ret].
      unfold add_keyword. cbn [dget]. rewrite str_eqb_refl. unfold make_keyword. apply k_bind with (Q := fun k => subs_from st0 (kw_json k)); [|intros; now apply k_keep].
      cbn [kwclass_eqb keyword_json mixins mb_value]. apply k_bind with (Q := subs_from st0); [now apply k_ret|]. intros j Hj.
      apply k_bind with (Q := fun _ => True); [now apply k_init_schema|]. intros. now apply k_ret. }
    destruct (G (mc_cat st) Hst) as [G1 _]. destruct (bindM _ _ (mc_cat st)) as [r c]. exact G1.
  - set (st1 := mkMcat (mc_cat st) (mc_vocabs st) _). cbv zeta.
    destruct (s_construct (resolve_referencesL E consult fuel) (s_resolve fuel) meta_id (JObj ms) (Some u) None (not_eq_sym Apart_meta) st1 Hst) as [G1 _].
    destruct (construct_withL E consult (resolve_referencesL E consult fuel) meta_id (JObj ms) (Some u) None st1) as [r st']. cbn [snd] in *.
    now destruct (negb (dmem (lit "$id") ms) || has_keyword (mc_cat st') (length (c_objs (mc_cat st))) (lit "$id")).
Qed.
Lemma s_create see fuel u core defaults : stays (create_metaschemaL E consult see fuel u core defaults) (fun _ => True).
Proof.
  intros st Hst. split; [|auto]. unfold create_metaschemaL. destruct (let* v := load_json _ _ _ in _) as [[[v vc] vs]|e|]; try exact Hst.
  destruct (s_new fuel u v vc vs st Hst) as [L _]. destruct (new_metaschemaL E consult fuel u v vc vs st) as [[s|e|] st']; exact L.
Qed.
End Stays.
Lemma s_find E see st0 apart : apart <> [] -> apart <> meta_id -> forall fuel u, stays st0 apart (find_metaschema E see fuel u) (fun _ => True).
Proof.
  intros A1 A2. induction fuel as [|f IH]; intros u st Hst; split; auto; cbn [find_metaschema]; destruct (cached_metaschema st u) as [r|]; try exact Hst.
  match goal with |- onward _ _ (mc_cat (snd (?X st))) => assert (G : stays st0 apart X (fun _ => True)) end; [|now apply G].
  apply s_bind with (Q := fun _ => True); [apply s_create; auto; intro w; apply s_bind with (Q := fun _ => True); [apply IH|intros; now apply s_ret]|]. intros s _ st1 H1. now split.
Qed.
Lemma s_consult E see st0 apart fuel u : apart <> [] -> apart <> meta_id -> stays st0 apart (consult_late E see fuel u) (fun _ => True).
Proof. intros A1 A2. apply s_bind with (Q := fun _ => True); [now apply s_find|]. intros. now apply s_ret. Qed.

(** ** A metaschema that has been made. *)
Lemma bindL_ok {A B} (x : ML A) (k : A -> ML B) st b st' : bindL x k st = (Ok b, st') -> exists a st1, x st = (Ok a, st1) /\ k a st1 = (Ok b, st').
Proof. unfold bindL. destruct (x st) as [[a|e|] st1]; intro H; [exists a, st1; auto|discriminate H|discriminate H]. Qed.
Lemma adv_step {A} (x : ML A) st r st' : advances x -> x st = (r, st') -> later st st'.
Proof. intros H E. specialize (H st). now rewrite E in H. Qed.
Section Made.
Variable E : env.
Variable consult : uri -> ML (list stdclass).
Hypothesis Consult : forall u, advances (consult u).
Lemma add_ok s l key c st st' x : adv_members l -> dget key l = Some x -> object_at (mc_cat st) s ->
  add_keywordL E s l key c st = (Ok tt, st') -> has_keyword (mc_cat st') s key = true.
Proof.
  intros Hl Hx Ho H. unfold add_keywordL in H. rewrite Hx in H. apply bindL_ok in H. destruct H as (j & st1 & H1 & H). apply bindL_ok in H. destruct H as (k & st2 & H2 & H).
  apply (adv_step _ _ _ _ (a_keyword_json s key c x (dget_adv _ _ _ Hl Hx))) in H1. apply (adv_step _ _ _ _ (a_on _ (g_rest E s c (ml_value x) j))) in H2.
  assert (O : object_at (mc_cat st2) s). { apply (proj1 (proj2 (la_more _ _ H2))). apply (proj1 (proj2 (la_more _ _ H1))). exact Ho. }
  destruct O as (o & kws & O1 & O2). unfold on_cat, keep_keyword, update, modify in H. rewrite O1 in H. injection H as <-. unfold has_keyword. cbn [mc_cat with_cat put_obj c_objs].
  rewrite nth_set_nth_same by (apply nth_error_Some; congruence). cbn [with_data so_data]. rewrite O2. unfold dmem. now rewrite dget_dset, str_eqb_refl.
Qed.
Lemma bootstrap_id s l st st' : adv_members l -> dmem (lit "$id") l = true -> object_at (mc_cat st) s ->
  forall found, bootstrapL E consult s l st = (Ok found, st') -> has_keyword (mc_cat st') s (lit "$id") = true.
Proof.
  intros Hl Hd Ho found H. unfold bootstrapL in H. rewrite Hd in H. apply bindL_ok in H. destruct H as ([] & st1 & H1 & H). apply bindL_ok in H. destruct H as ([] & st2 & H2 & H). apply bindL_ok in H. destruct H as (d & st3 & H3 & H). apply bindL_ok in H. destruct H as ([] & st4 & H & H5). injection H5 as _ <-.
  apply (adv_step _ _ _ _ (a_add E s l _ _ Hl)) in H1. apply (adv_step _ _ _ _ (a_add E s l _ _ Hl)) in H2. apply (adv_step _ _ _ _ (a_metaschema consult Consult s)) in H3.
  pose proof (later_trans _ _ _ (later_trans _ _ _ H1 H2) H3) as L. apply (proj1 (proj2 (la_more _ _ L))) in Ho.
  unfold dmem in Hd. destruct (dget (lit "$id") l) as [x|] eqn:Hx; [|discriminate Hd]. exact (add_ok _ _ _ _ _ _ _ Hl Hx Ho H).
Qed.
Lemma members_adv id ms : adv_members (map (fun kv => (fst kv, member_ofL E consult id (snd kv))) ms).
Proof.
  apply (adv_of E consult id ms (S (jsize (JObj ms)))); [intros; now apply a_build|]. apply Forall_forall. intros kv Hk. apply jsize_members in Hk. lia.
Qed.
Lemma construct_made resolve id ms u m st s st' : (forall t, advances (resolve t)) -> construct_withL E consult resolve id (JObj ms) u m st = (Ok s, st') ->
  s = length (c_objs (mc_cat st)) /\ later st st' /\ (forall m, meta_at st s = Some m -> meta_at st' s = Some m) /\ (dmem (lit "$id") ms = true -> has_keyword (mc_cat st') s (lit "$id") = true).
Proof.
  intros Rs H. assert (L : later st st') by exact (adv_step _ _ _ _ (a_construct E consult Consult resolve Rs id (JObj ms) u m) H).
  unfold construct_withL in H. rewrite buildL_object_eq in H. apply bindL_ok in H. destruct H as (s1 & st2 & H & H2). apply bindL_ok in H. destruct H as (s2 & st1 & H1 & H).
  unfold on_cat in H1. rewrite new_schema_eq in H1. injection H1 as <- <-. apply bindL_ok in H. destruct H as ([] & st3 & H3 & H). injection H as <- <-.
  apply bindL_ok in H2. destruct H2 as ([] & st4 & H4 & H2). injection H2 as <- <-. split; [reflexivity|]. split; [exact L|].
  pose proof (adv_step _ _ _ _ (Rs _) H4) as L4.
  set (st1 := with_cat _ st) in H3. set (s := length (c_objs (mc_cat st))) in *. pose proof (members_adv id ms) as Ad.
  pose proof (adv_step _ _ _ _ (a_build_object E consult Consult s _ Ad) H3) as L3.
  assert (Ln : s < length (c_objs (mc_cat st1))). { unfold st1. cbn [mc_cat with_cat c_objs]. rewrite app_length. cbn. unfold s. lia. }
  assert (O1 : object_at (mc_cat st1) s). { unfold object_at, st1. cbn [mc_cat with_cat c_objs]. eexists _, []. split; [unfold s; rewrite nth_error_app2, Nat.sub_diag by lia; reflexivity|reflexivity]. }
  split.
  - intros x Hx. rewrite (la_metas _ _ (later_trans _ _ _ L3 L4)) by exact Ln. exact Hx.
  - intro Hd. apply (proj2 (proj2 (la_more _ _ L4))). unfold build_objectL in H3. apply bindL_ok in H3. destruct H3 as (o & sa & Ha & H3). apply bindL_ok in H3. destruct H3 as ([] & sb & Hb & H3). apply bindL_ok in H3. destruct H3 as (found & sc & Hc & H3).
    apply (adv_step _ _ _ _ (a_on _ (g_read _))) in Ha.
    assert (Lb : later sa sb). { refine (adv_step _ _ _ _ _ Hb). destruct o as [[[w|] m' [up|] ch d]|]; first [apply a_ret|apply a_on, g_set_uri]. }
    assert (Ld : later sc st3).
    { refine (adv_step _ _ _ _ _ H3). apply a_bind; [now apply a_kwclasses|].
      intro cs. apply a_bind; [apply a_lift|]. intro order. apply a_each. intros c _. now apply a_add. }
    apply (proj2 (proj2 (la_more _ _ Ld))). refine (bootstrap_id _ _ _ _ Ad _ _ _ Hc).
    + apply dmem_In. apply dmem_In in Hd. unfold keys in *. now rewrite map_map.
    + apply (proj1 (proj2 (la_more _ _ (later_trans _ _ _ Ha Lb)))). exact O1.
Qed.
Lemma new_ok_late fuel u v core defaults st s st' : new_metaschemaL E consult fuel u v core defaults st = (Ok s, st') ->
  exists ms vc d, v = JObj ms /\ s = length (c_objs (mc_cat st)) /\
    core_vocabulary E (mc_vocabs st) (dget (lit "$vocabulary") ms) core = Ok vc /\
    match dget (lit "$vocabulary") ms with Some x => vocabulary_keyword E (mc_vocabs st) vc x | None => ([], None) end = (d, None) /\
    meta_at st' s = Some (mkMeta (v_uri vc) (complete_classes (match dget (lit "$vocabulary") ms with Some _ => true | None => false end) vc defaults d)).
Proof.
  intro H. unfold new_metaschemaL in H. destruct v as [| | | | |ms]; try discriminate H.
  destruct (core_vocabulary E (mc_vocabs st) (dget (lit "$vocabulary") ms) core) as [vc| |] eqn:Cv; try discriminate H.
  destruct (match dget (lit "$vocabulary") ms with Some x => vocabulary_keyword E (mc_vocabs st) vc x | None => ([], None) end) as [d [e|]] eqn:Vk.
  - exfalso. destruct (new_ok E 0 u (JObj ms) core defaults st s st' H) as (ms' & vc' & d' & X & _ & Cv' & Vk' & _). injection X as <-. rewrite Cv in Cv'. injection Cv' as <-. rewrite Vk in Vk'. discriminate Vk'.
  - cbv zeta in H. set (st1 := mkMcat (mc_cat st) (mc_vocabs st) _) in H.
    destruct (construct_withL E consult (resolve_referencesL E consult fuel) meta_id (JObj ms) (Some u) None st1) as [r st2] eqn:C. apply pair_equal_spec in H. destruct H as [-> H].
    destruct (construct_made _ _ _ _ _ _ _ _ (a_resolve E consult Consult fuel) C) as (Es & L & Mt & Id). change (length (c_objs (mc_cat st1))) with (length (c_objs (mc_cat st))) in Es.
    exists ms, vc, d. split; [reflexivity|]. split; [exact Es|]. split; [exact Cv|]. split; [exact Vk|]. rewrite <- Es in H.
    assert (R : negb (dmem (lit "$id") ms) || has_keyword (mc_cat st2) s (lit "$id") = true) by (destruct (dmem (lit "$id") ms); [now apply Id|reflexivity]).
    rewrite R in H. subst st'. apply Mt. unfold st1. rewrite <- Es. apply meta_at_first.
Qed.
Lemma create_ok_late see fuel u core defaults st s st' : create_metaschemaL E consult see fuel u core defaults st = (Ok s, st') ->
  exists ms vc d dc dv, load_json (e_lib E) (e_sources E) u = Ok (JObj ms) /\ default_core (mc_vocabs st) core = Ok dc /\ all_vocabularies (mc_vocabs st) defaults = Ok dv /\
    core_vocabulary E (mc_vocabs st) (dget (lit "$vocabulary") ms) dc = Ok vc /\
    match dget (lit "$vocabulary") ms with Some x => vocabulary_keyword E (mc_vocabs st) vc x | None => ([], None) end = (d, None) /\
    meta_at st' s = Some (mkMeta (v_uri vc) (complete_classes (match dget (lit "$vocabulary") ms with Some _ => true | None => false end) vc dv d)).
Proof.
  intro H. unfold create_metaschemaL in H. destruct (load_json (e_lib E) (e_sources E) u) as [v| |]; cbn [bind] in H; try discriminate H.
  destruct (default_core (mc_vocabs st) core) as [dc| |]; cbn [bind] in H; try discriminate H. destruct (all_vocabularies (mc_vocabs st) defaults) as [dv| |]; cbn [bind] in H; try discriminate H.
  destruct (new_metaschemaL E consult fuel u v dc dv st) as [[s0| |] st1] eqn:N; try discriminate H.
  assert (s0 = s /\ st1 = st') as [-> ->]. { apply pair_equal_spec in H. destruct H as [H ->]. destruct (validate _ _ _ _) as [[|]| |]; try discriminate H. injection H as ->. auto. }
  destruct (new_ok_late _ _ _ _ _ _ _ _ N) as (ms & vc & d & -> & Es & Cv & Vk & Mt). exists ms, vc, d, dc, dv. repeat (split; [first [reflexivity|assumption]|]). exact Mt.
Qed.
End Made.
