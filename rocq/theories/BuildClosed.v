(** The schemas of one cache lead to schemas of that cache only. *)
From Coq Require Import List Lia Bool.
From Verif Require Export BuildCaches.
Import ListNotations.
Open Scope nat_scope.

Section Cache.
Variable id : pystr.
Notation B := (belongs id).

(** Keyword [k] leads to schemas of the cache. *)
Definition kw_in (c : cat) (k : keyword) : Prop := (forall t, subschema_of k t -> B c t) /\ forall t, kw_ref k = Some t -> B c t.
Definition shut (c : cat) : Prop :=
  tidy (c_cache c) /\ (forall u s, cached id u (c_cache c) = Some s -> B c s) /\
  (forall s kws key k, B c s -> keywords_at (c_objs c) s kws -> In (key, k) kws -> kw_in c k) /\
  (forall s o p ks, nth_error (c_objs c) s = Some o -> so_cache o = id -> so_up o = Some (p, ks) -> B c p).
Definition more (c c' : cat) : Prop := forall s, B c s -> B c' s.
Lemma more_refl c : more c c. Proof. intros s H. exact H. Qed.
Lemma more_trans a b c : more a b -> more b c -> more a c. Proof. intros H H' s Hs. apply H', H, Hs. Qed.
Lemma kw_in_more c c' k : more c c' -> kw_in c k -> kw_in c' k.
Proof. intros M [H1 H2]. split; intros t Ht; apply M; auto. Qed.

(** From any catalog after [c0]. *)
Definition shuts {A} (c0 : cat) (x : M A) (Q : A -> cat -> Prop) : Prop :=
  forall c, more c0 c -> shut c -> shut (snd (x c)) /\ more c (snd (x c)) /\ forall a, fst (x c) = Ok a -> Q a (snd (x c)).
Definition whatever {A} (a : A) (c : cat) : Prop := True.
Lemma shuts_bind {A X} c0 (x : M A) (f : A -> M X) Q R : shuts c0 x Q -> (forall a c1, more c0 c1 -> Q a c1 -> shuts c1 (f a) R) -> shuts c0 (bindM x f) R.
Proof.
  intros Hx Hf c L S. destruct (Hx c L S) as (S1 & L1 & Q1). unfold bindM. destruct (x c) as [[a| |] c1]; cbn [fst snd] in *; try (split; [exact S1|split; [exact L1|discriminate]]).
  destruct (Hf a c1 (more_trans _ _ _ L L1) (Q1 a eq_refl) c1 (more_refl _) S1) as (S2 & L2 & Q2). split; [exact S2|]. split; [exact (more_trans _ _ _ L1 L2)|exact Q2].
Qed.
Lemma shuts_ret {A} c0 (a : A) (Q : A -> cat -> Prop) : (forall c, more c0 c -> shut c -> Q a c) -> shuts c0 (ret a) Q.
Proof. intros H c L S. split; [exact S|]. split; [apply more_refl|]. cbn. intros ? [= <-]. auto. Qed.
Lemma shuts_throw {A} c0 e (Q : A -> cat -> Prop) : shuts c0 (throw e) Q.
Proof. intros c L S. split; [exact S|]. split; [apply more_refl|discriminate]. Qed.
Lemma shuts_lift {A} c0 (r : res A) (Q : A -> cat -> Prop) : (forall a c, more c0 c -> shut c -> r = Ok a -> Q a c) -> shuts c0 (lift r) Q.
Proof. intros H c L S. split; [exact S|]. split; [apply more_refl|]. cbn. intros a Ha. auto. Qed.
Lemma shuts_read {A} c0 (f : cat -> A) (Q : A -> cat -> Prop) : (forall c, more c0 c -> shut c -> Q (f c) c) -> shuts c0 (read f) Q.
Proof. intros H c L S. split; [exact S|]. split; [apply more_refl|]. cbn. intros ? [= <-]. auto. Qed.
Lemma shuts_weaken {A} c0 c1 (x : M A) (Q R : A -> cat -> Prop) : more c0 c1 -> (forall a c, Q a c -> R a c) -> shuts c0 x Q -> shuts c1 x R.
Proof. intros L H Hx c L' S. destruct (Hx c (more_trans _ _ _ L L') S) as (A1 & A2 & A3). split; [exact A1|]. split; [exact A2|]. intros a Ha. apply H, A3, Ha. Qed.
Lemma shuts_each {A} c0 (f : A -> M unit) l : (forall a c1, In a l -> more c0 c1 -> shuts c1 (f a) whatever) -> shuts c0 (each_ f l) whatever.
Proof.
  revert c0. induction l as [|a l IH]; intros c0 H; [apply shuts_ret; intros; exact I|]. cbn [each_]. apply (shuts_bind _ _ _ whatever); [apply H; [now left|apply more_refl]|].
  intros _ c1 L _. apply IH. intros a' c2 Ha L2. apply H; [now right|exact (more_trans _ _ _ L L2)].
Qed.
Lemma shuts_mapM {A X} c0 (f : A -> M X) (Q : X -> cat -> Prop) l : (forall b k k', more k k' -> Q b k -> Q b k') -> (forall a c1, In a l -> more c0 c1 -> shuts c1 (f a) Q) ->
  shuts c0 (mapM f l) (fun bs k => forall b, In b bs -> Q b k).
Proof.
  intro Mono. revert c0. induction l as [|a l IH]; intros c0 H; [apply shuts_ret; intros ? ? ? ? []|]. cbn [mapM]. apply (shuts_bind _ _ _ Q); [apply H; [now left|apply more_refl]|].
  intros b c1 L1 Qb. apply (shuts_bind _ _ _ (fun bs k => more c1 k /\ forall b, In b bs -> Q b k)).
  - intros c L S. destruct (IH c1 (fun a' c2 Ha L2 => H a' c2 (or_intror Ha) (more_trans _ _ _ L1 L2)) c L S) as (S1 & S2 & S3).
    split; [exact S1|]. split; [exact S2|]. intros bs Hbs. split; [exact (more_trans _ _ _ L S2)|exact (S3 bs Hbs)].
  - intros bs c2 _ [L2 Qbs]. apply shuts_ret. intros c3 L3 _ b' [<-|Hb]; [apply (Mono _ c1); [exact (more_trans _ _ _ L2 L3)|exact Qb]|]. apply (Mono _ c2); [exact L3|auto].
Qed.

(** ** The changes to the catalog. *)
Definition node_in (c : cat) (d : snode) : Prop := match d with SBool _ => True | SObj kws => forall key k, In (key, k) kws -> kw_in c k end.
Lemma shut_at c s o : shut c -> nth_error (c_objs c) s = Some o -> so_cache o = id -> node_in c (so_data o).
Proof. intros (_ & _ & H & _) Ho Hc. unfold node_in. destruct (so_data o) as [|kws] eqn:D; [exact I|]. intros key k. apply (H s kws); [exists o; auto|exists o; auto]. Qed.
Lemma shuts_update c0 s f : (forall o, so_up (f o) = so_up o /\ so_cache (f o) = so_cache o) -> (forall o c, more c0 c -> node_in c (so_data o) -> node_in c (so_data (f o))) -> shuts c0 (update s f) whatever.
Proof.
  intros F H c L S. unfold update, modify. cbn [fst snd]. destruct (nth_error (c_objs c) s) as [o|] eqn:Ho; [|split; [exact S|split; [apply more_refl|intros; exact I]]].
  assert (Hs : s < length (c_objs c)) by (apply nth_error_Some; congruence). destruct (F o) as [Fu Fc].
  assert (Bb : forall i, B (put_obj s (f o) c) i <-> B c i).
  { intro i. unfold belongs, put_obj. cbn [c_objs]. destruct (Nat.eq_dec s i) as [<-|N].
    - rewrite nth_set_nth_same by exact Hs. rewrite Ho. split; intros (x & [= <-] & <-); eexists; (split; [reflexivity|]); congruence.
    - rewrite nth_set_nth_other by exact N. tauto. }
  assert (Mo : more c (put_obj s (f o) c)) by (intros i; apply Bb). pose proof (shut_at c s o S Ho) as Sn. destruct S as (T & C & K & U). split; [|split; [exact Mo|intros; exact I]].
  split; [exact T|]. split; [|split].
  - intros u i Hi. apply Bb. exact (C u i Hi).
  - intros i kws key k Hb (x & Hi & Hx) Hin. apply (kw_in_more c); [exact Mo|]. unfold put_obj in Hi. cbn [c_objs] in Hi. apply Bb in Hb. destruct (Nat.eq_dec s i) as [<-|N].
    + rewrite nth_set_nth_same in Hi by exact Hs. injection Hi as <-. assert (Ni : node_in c (so_data (f o))) by (apply H; [exact L|]; apply Sn; destruct Hb as (y & Hy & <-); congruence). rewrite Hx in Ni. exact (Ni _ _ Hin).
    + rewrite nth_set_nth_other in Hi by exact N. apply (K i kws key k Hb); [exists x; auto|exact Hin].
  - intros i x p ks Hi Hc Hu. apply Bb. unfold put_obj in Hi. cbn [c_objs] in Hi. destruct (Nat.eq_dec s i) as [<-|N].
    + rewrite nth_set_nth_same in Hi by exact Hs. injection Hi as <-. rewrite Fu in Hu. rewrite Fc in Hc. exact (U _ _ _ _ Ho Hc Hu).
    + rewrite nth_set_nth_other in Hi by exact N. exact (U _ _ _ _ Hi Hc Hu).
Qed.
Lemma shuts_cache c0 u s : B c0 s -> shuts c0 (cache_schema id u s) whatever.
Proof.
  intros Hs c L (T & C & K & U). split; [|split; [exact (more_refl c)|intros; exact I]]. split; [now apply tidy_add|]. split; [|split; [exact K|exact U]].
  intros u' s'. cbn [c_cache snd cache_schema modify]. rewrite cached_add. destruct (str_eqb id id && uri_eqb u' u); [intros [= <-]; exact (L _ Hs)|apply C].
Qed.
Lemma shuts_uncache c0 u : shuts c0 (uncache_schema id u) whatever.
Proof.
  intros c L (T & C & K & U). split; [|split; [exact (more_refl c)|intros; exact I]]. split; [now apply tidy_del|]. split; [|split; [exact K|exact U]].
  intros u' s'. cbn [c_cache snd uncache_schema modify]. rewrite cached_del by exact T. destruct (str_eqb id id && uri_eqb u' u); [discriminate|apply C].
Qed.
Lemma shuts_new c0 u m up d : (forall p ks, up = Some (p, ks) -> B c0 p) -> (match d with SObj (_ :: _) => False | _ => True end) -> shuts c0 (new_schema id u m up d) (fun s c => B c s).
Proof.
  intros Hup Hd c L S. pose proof S as (T & C & K & U). rewrite new_schema_eq. cbn [fst snd]. set (c1 := mkCat _ _).
  assert (Bn : B c1 (length (c_objs c))). { exists (mkObj u m up id d). split; [|reflexivity]. unfold c1. cbn [c_objs]. apply nth_last. }
  assert (Mo : more c c1). { intros i (o & Ho & Hc). exists o. split; [|exact Hc]. unfold c1. cbn [c_objs]. rewrite nth_error_app1; [exact Ho|]. apply nth_error_Some. congruence. }
  assert (Old : forall i o, nth_error (c_objs c1) i = Some o -> nth_error (c_objs c) i = Some o \/ (i = length (c_objs c) /\ o = mkObj u m up id d)).
  { intros i o Hi. unfold c1 in Hi. cbn [c_objs] in Hi. destruct (Nat.lt_ge_cases i (length (c_objs c))) as [X|X]; [left; now rewrite nth_error_app1 in Hi|].
    rewrite nth_error_app2 in Hi by exact X. right. destruct (i - length (c_objs c)) as [|j] eqn:J; [|destruct j; discriminate Hi]. injection Hi as <-. split; [lia|reflexivity]. }
  split; [|split; [exact Mo|intros ? [= <-]; exact Bn]]. split; [|split; [|split]].
  - unfold c1. cbn [c_cache]. destruct u; [now apply tidy_add|exact T].
  - intros u' s'. unfold c1 at 1. cbn [c_cache]. destruct u as [u|]; [rewrite cached_add; destruct (str_eqb id id && uri_eqb u' u); [intros [= <-]; exact Bn|]|]; intro H; apply Mo; exact (C _ _ H).
  - intros s kws key k (o & Ho & Hc) (x & Hx & D) Hin. rewrite Ho in Hx. injection Hx as <-. destruct (Old _ _ Ho) as [X|[_ ->]].
    + apply (kw_in_more c); [exact Mo|]. apply (K s kws key k); [exists o; auto|exists o; auto|exact Hin].
    + cbn in D. subst d. destruct kws; [destruct Hin|destruct Hd].
  - intros s o p ks Ho Hc Hu. destruct (Old _ _ Ho) as [X|[_ ->]]; [apply Mo; exact (U _ _ _ _ X Hc Hu)|]. cbn in Hu. apply Mo, L. exact (Hup _ _ Hu).
Qed.

Ltac shutting :=
  repeat lazymatch goal with
    | |- shuts _ (bindM _ _) _ => apply (shuts_bind _ _ _ whatever); [|intros ? ? ? _]
    | |- shuts _ (ret _) _ => apply shuts_ret; intros; exact I
    | |- shuts _ (throw _) _ => apply shuts_throw
    | |- shuts _ (lift _) _ => apply shuts_lift; intros; exact I
    | |- shuts _ (read _) _ => apply shuts_read; intros; exact I
    end.
Lemma shuts_head c0 s f : (forall o, so_up (f o) = so_up o /\ so_cache (f o) = so_cache o /\ so_data (f o) = so_data o) -> shuts c0 (update s f) whatever.
Proof. intro H. apply shuts_update; [intro o; destruct (H o) as (? & ? & ?); auto|]. intros o c _ N. now destruct (H o) as (_ & _ & ->). Qed.
(** The cache of [s] is the one at hand. *)
Lemma shuts_set_uri Lb c0 s u : B c0 s -> shuts c0 (set_uri Lb s u) whatever.
Proof.
  intro Hs. unfold set_uri. apply (shuts_bind _ _ _ (fun o c => forall x, o = Some x -> so_cache x = id)).
  { apply shuts_read. intros c L _ x Hx. destruct (L _ Hs) as (y & Hy & Hc). congruence. }
  intros [o|] c1 L1 Hc; [|shutting]. rewrite (Hc o eq_refl). destruct (match so_uri o with Some u' => uri_same Lb u' u | None => false end); [shutting|].
  apply (shuts_bind _ _ _ whatever); [destruct (so_uri o); [apply shuts_uncache|shutting]|]. intros _ c2 L2 _. apply (shuts_bind _ _ _ whatever); [apply shuts_head; intro; auto|]. intros _ c3 L3 _.
  apply shuts_cache. apply L3, L2, L1, Hs.
Qed.

Section Env.
Variable E : env.
Lemma shuts_init_id c0 next s v : B c0 s -> shuts c0 (init_id E next s v) whatever.
Proof.
  intro Hs. unfold init_id. shutting; [|apply shuts_set_uri; auto]. destruct (ul_absolute (e_lib E) a); [shutting|]. destruct (base_uri a1 s); shutting.
Qed.
Lemma shuts_init_anchor c0 s v : B c0 s -> shuts c0 (init_anchor E s v) whatever.
Proof.
  intro Hs. unfold init_anchor. apply (shuts_bind _ _ _ (fun objs c => forall x, nth_error objs s = Some x -> so_cache x = id)).
  { apply shuts_read. intros c L _ x Hx. destruct (L _ Hs) as (y & Hy & Hc). congruence. }
  intros objs c1 L1 Hc. destruct v, (base_uri objs s), (nth_error objs s) as [o|]; try solve [shutting]. rewrite (Hc o eq_refl). apply shuts_cache. auto.
Qed.
Lemma shuts_init_schema c0 s v : shuts c0 (init_schema E s v) whatever.
Proof. unfold init_schema. shutting. apply shuts_head. intro; auto. Qed.

Definition makes_in (b : builder) : Prop := forall c0 p ks, B c0 p -> shuts c0 (b (p, ks)) (fun s c => B c s).
Definition member_in (x : member) : Prop := makes_in (mb_schema x) /\ forall k b, In (k, b) (mb_items x) -> makes_in b.
Definition kj_in (c : cat) (j : kjson) : Prop := forall t, kj_subs j t -> B c t.
Lemma shuts_keyword_json c0 s key c x : B c0 s -> member_in x -> shuts c0 (keyword_json s key c x) (fun j k => kj_in k j).
Proof.
  intros Hs [H1 H2]. unfold keyword_json.
  assert (T : forall ms, shuts c0 (try_mixins s key x ms) (fun j k => kj_in k j)).
  { induction ms as [|m ms IH]; [apply shuts_throw|]. cbn [try_mixins]. destruct (jsonify s key x m) as [j|] eqn:J; [|exact IH].
    assert (One : shuts c0 (do t <- mb_schema x (s, [key]); ret (KSub t)) (fun j k => kj_in k j)).
    { apply (shuts_bind _ _ _ (fun t k => B k t)); [now apply H1|]. intros t c1 L1 Ht. apply shuts_ret. intros c2 L2 _ t' [= <-]. auto. }
    unfold jsonify in J. destruct m, (mb_value x); try discriminate J; injection J as <-; try exact One; try (apply shuts_ret; intros ? ? ? ? []).
    - apply (shuts_bind _ _ _ (fun ts k => forall t, In t ts -> B k t)).
      + apply (shuts_mapM c0 _ (fun t k => B k t)); [intros b k k' M; apply M|]. intros [k b] c1 Hb L1. cbn [fst snd]. apply (H2 _ _ Hb). auto.
      + intros ts c1 L1 Hts. apply shuts_ret. intros c2 L2 _ t Ht. apply L2. exact (Hts t Ht).
    - apply (shuts_bind _ _ _ (fun ts k => forall t, In t ts -> B k (snd t))).
      + apply (shuts_mapM c0 _ (fun t k => B k (snd t))); [intros b k k' M; apply M|]. intros [k b] c1 Hb L1. cbn [fst snd].
        apply (shuts_bind _ _ _ (fun t k => B k t)); [apply (H2 _ _ Hb); auto|]. intros t c2 L2 Ht. apply shuts_ret. intros c3 L3 _. cbn. auto.
      + intros ts c1 L1 Hts. apply shuts_ret. intros c2 L2 _ t Ht. cbn [kj_subs] in Ht. apply in_map_iff in Ht. destruct Ht as (y & <- & Hy). apply L2. exact (Hts y Hy). }
  destruct (mixins c) as [|m ms]; [apply shuts_ret; intros ? ? ? ? []|apply (T (m :: ms))].
Qed.
Lemma shuts_make_keyword c0 s key c x : B c0 s -> member_in x -> shuts c0 (make_keyword E s key c x) (fun k l => kw_in l k).
Proof.
  intros Hs H. unfold make_keyword. eapply shuts_bind; [apply shuts_keyword_json; assumption|]. cbv beta. intros j c1 L1 Hj. pose proof (L1 _ Hs) as Hs1.
  assert (Kr : forall fr fo c2, more c1 c2 -> shuts c2 (ret (mkKw c j None false fr fo)) (fun k l => kw_in l k)).
  { intros fr fo c2 L2. apply shuts_ret. intros c3 L3 _. split; [intros t Ht; apply L3, L2; exact (Hj t Ht)|discriminate]. }
  assert (Kb : forall (X : M unit), shuts c1 X whatever -> shuts c1 (do _ <- X; ret (mkKw c j None false [] None)) (fun k l => kw_in l k)).
  { intros X HX. apply (shuts_bind _ _ _ whatever); [exact HX|]. intros _ c2 L2 _. now apply Kr. }
  assert (R := more_refl c1). destruct c as [c|k]; [|now apply Kr].
  destruct c; try solve [now apply Kr]; try solve [apply Kb; first [apply shuts_init_schema|now apply shuts_init_id|now apply shuts_init_anchor]].
  - apply (shuts_bind _ _ _ whatever); [shutting|]. intros u c2 L2 _. now apply Kr.
  - destruct (mb_value x); try solve [shutting]. destruct (str_eqb s0 (lit "#")); [now apply Kr|shutting].
  - destruct (mb_value x); try solve [shutting]. destruct (e_regex E s0); [now apply Kr|shutting].
  - apply (shuts_bind _ _ _ whatever); [shutting|]. intros u c2 L2 _. now apply Kr.
Qed.
Lemma shuts_keep_keyword c0 s key k : kw_in c0 k -> shuts c0 (keep_keyword s key k) whatever.
Proof.
  intro Hk. unfold keep_keyword. apply shuts_update; [auto|]. intros o c L N. cbn [with_data so_data]. destruct (so_data o); [exact I|]. intros key' k' Hin. apply In_dset_inv in Hin.
  destruct Hin as [X|X]; [exact (N _ _ X)|]. apply pair_equal_spec in X. destruct X as [_ ->]. exact (kw_in_more _ _ _ L Hk).
Qed.
Lemma shuts_add_keyword c0 s members key c : B c0 s -> (forall k x, In (k, x) members -> member_in x) -> shuts c0 (add_keyword E s members key c) whatever.
Proof.
  intros Hs H. unfold add_keyword. destruct (dget key members) as [x|] eqn:D; [|shutting]. apply dget_In in D.
  eapply shuts_bind; [apply shuts_make_keyword; [exact Hs|exact (H _ _ D)]|]. cbv beta. intros k c1 L1 Hk. now apply shuts_keep_keyword.
Qed.
Lemma shuts_metaschema c0 s : shuts c0 (metaschema E s) whatever.
Proof. unfold metaschema. shutting. destruct (metaschema_uri a s) as [u|]; [destruct (e_dialect E u)|]; shutting. Qed.
Lemma shuts_classes c0 s ks : shuts c0 (classes E s ks) whatever.
Proof.
  unfold classes. eapply shuts_weaken; [apply more_refl| |apply (shuts_mapM c0 _ whatever); [intros; exact I|]]; [intros; exact I|]. intros key c1 _ L1. shutting. apply shuts_metaschema.
Qed.
Lemma shuts_build_object c0 s members : B c0 s -> (forall k x, In (k, x) members -> member_in x) -> shuts c0 (build_object E s members) whatever.
Proof.
  intros Hs H. unfold build_object. apply (shuts_bind _ _ _ whatever); [shutting|]. intros o c1 L1 _. apply (shuts_bind _ _ _ whatever); [|intros _ c2 L2 _; apply (shuts_bind _ _ _ whatever); [|intros _ c3 L3 _]].
  - destruct o as [[[u|] m [up|] ch d]|]; try solve [shutting]. apply shuts_set_uri. auto.
  - unfold bootstrap. apply (shuts_bind _ _ _ whatever); [apply shuts_add_keyword; auto|]. intros _ c3 L3 _. apply (shuts_bind _ _ _ whatever); [apply shuts_add_keyword; auto|]. intros _ c4 L4 _.
    destruct (dmem (lit "$id") members); [|shutting]. apply (shuts_bind _ _ _ whatever); [apply shuts_metaschema|]. intros d c5 L5 _. apply shuts_add_keyword; auto 6.
  - apply (shuts_bind _ _ _ whatever); [apply shuts_classes|]. intros cs c4 L4 _. apply (shuts_bind _ _ _ whatever); [shutting|]. intros order c5 L5 _.
    apply shuts_each. intros c c6 _ L6. apply shuts_add_keyword; [auto 8|exact H].
Qed.
Lemma shuts_build v : forall c0 u m up, (forall p ks, up = Some (p, ks) -> B c0 p) -> shuts c0 (build E id v u m up) (fun s c => B c s).
Proof.
  assert (G : forall k v, jsize v < k -> forall c0 u m up, (forall p ks, up = Some (p, ks) -> B c0 p) -> shuts c0 (build E id v u m up) (fun s c => B c s)).
  { induction k as [|k IH]; intros w Hk c0 u m up Hup; [lia|]. destruct w as [|b|x|x|l|ms];
      try solve [cbn [build]; apply (shuts_bind _ _ _ (fun s c => B c s)); [now apply shuts_new|intros ? ? ? ?; apply shuts_throw]].
    - cbn [build]. now apply shuts_new.
    - rewrite build_object_eq. apply (shuts_bind _ _ _ (fun s c => B c s)); [now apply shuts_new|]. intros s c1 L1 Hs.
      apply (shuts_bind _ _ _ whatever); [|intros _ c2 L2 _; apply shuts_ret; auto]. apply shuts_build_object; [exact Hs|].
      intros key x Hx. apply in_map_iff in Hx. destruct Hx as ([k' v'] & [= <- <-] & Hv). cbn [snd]. apply jsize_members in Hv. cbn [snd] in Hv. split.
      + intros c2 p ks Hp. apply IH; [lia|]. intros ? ? [= <- <-]. exact Hp.
      + intros key' b Hb c2 p ks Hp. cbn [mb_items member_of] in Hb. destruct v' as [|?|?|?|l|m']; try destruct Hb.
        * apply in_numbered in Hb. destruct Hb as (i & w & Hi & [= _ ->]). apply nth_error_In, jsize_items in Hi. apply IH; [lia|]. intros ? ? [= <- <-]. exact Hp.
        * apply in_map_iff in Hb. destruct Hb as ([k1 v1] & [= <- <-] & Hv1). apply jsize_members in Hv1. cbn [snd] in *. apply IH; [lia|]. intros ? ? [= <- <-]. exact Hp. }
  exact (G (S (jsize v)) v (Nat.lt_succ_diag_r _)).
Qed.

(** ** Pointers into schemas. *)
Definition sn_in (c : cat) (x : schemanode) : Prop := match x with SNSchema s => B c s | SNJson j => kj_in c j end.
Lemma walk_in c p : shut c -> forall x y, sn_in c x -> sn_walk (objs_world (c_objs c)) x p = Ok y -> sn_in c y.
Proof.
  intro S. induction p as [|k p IH]; intros x y Hx H; cbn [sn_walk] in H; [now injection H as <-|].
  destruct (sn_child (objs_world (c_objs c)) x k) as [z| |] eqn:Hz; cbn [bind] in H; try discriminate H. apply (IH z y); [|exact H]. clear H IH.
  unfold sn_child in Hz. destruct x as [s|j].
  - destruct (dget k (schema_keywords (objs_world (c_objs c)) s)) as [kw|] eqn:D; [|discriminate Hz]. injection Hz as <-. apply dget_In, keywords_in in D.
    destruct D as (kws & Ha & Hk). destruct S as (_ & _ & K & _). destruct (K _ _ _ _ Hx Ha Hk) as (A & _). unfold sn_of, subschema_of in *.
    destruct (kw_json kw); try exact A. exact (A _ eq_refl).
  - destruct j as [v|t|l|m]; [|discriminate Hz| |].
    + destruct v as [| | | |l|m]; try discriminate Hz.
      * destruct (sn_index k l); cbn [bind] in Hz; try discriminate Hz. injection Hz as <-. intros ? [].
      * destruct (dget k m); [|discriminate Hz]. injection Hz as <-. intros ? [].
    + destruct (sn_index k l) as [t| |] eqn:Hi; cbn [bind] in Hz; try discriminate Hz. injection Hz as <-. apply (Hx t). exact (sn_index_In _ _ _ Hi).
    + destruct (dget k m) as [t|] eqn:D; [|discriminate Hz]. injection Hz as <-. apply (Hx t). apply dget_In in D. exact (in_map snd _ _ D).
Qed.

(** ** References. *)
Section Refs.
Variable resolve : sid -> M unit.
Hypothesis Hres : forall c0 s, B c0 s -> shuts c0 (resolve s) whatever.

Lemma shuts_construct_with c0 v u m : shuts c0 (construct_with E resolve id v u m) (fun s c => B c s).
Proof.
  unfold construct_with. apply (shuts_bind _ _ _ (fun s c => B c s)); [apply shuts_build; discriminate|]. intros s c1 L1 Hs.
  assert (R : shuts c1 (ret s) (fun s c => B c s)) by (apply shuts_ret; auto). destruct v; try exact R.
  apply (shuts_bind _ _ _ whatever); [now apply Hres|]. intros _ c2 L2 _. apply shuts_ret; auto.
Qed.
Definition hit_in (r : option sid) (c : cat) : Prop := forall s, r = Some s -> B c s.
Lemma shuts_hit c0 (f : cat -> option sid) : (forall c s, f c = Some s -> exists u, cached id u (c_cache c) = Some s) -> shuts c0 (read f) hit_in.
Proof. intro H. apply shuts_read. intros c _ (_ & C & _) s Hs. destruct (H _ _ Hs) as (u & X). exact (C _ _ X). Qed.
Lemma shuts_get_schema_with c0 u m : shuts c0 (get_schema_with E resolve id u m) (fun s c => B c s).
Proof.
  unfold get_schema_with. apply (shuts_bind _ _ _ hit_in); [apply shuts_hit; eauto|]. intros hit c1 L1 Hh. destruct hit as [s|]; [specialize (Hh s eq_refl); apply shuts_ret; auto|].
  cbv zeta. apply (shuts_bind _ _ _ hit_in); [apply shuts_hit; intros c s; destruct (u_frag u); [eauto|discriminate]|]. intros known c2 L2 Hk.
  apply (shuts_bind _ _ _ (fun r k => B k (fst r) /\ hit_in (snd r) k)).
  - destruct known as [s|]; [specialize (Hk s eq_refl); apply shuts_ret; intros; split; [cbn; auto|intros ? [=]]|].
    apply (shuts_bind _ _ _ whatever); [shutting|]. intros doc c3 L3 _. apply (shuts_bind _ _ _ (fun s k => B k s)); [apply shuts_construct_with|]. intros s c4 L4 Hs.
    apply (shuts_bind _ _ _ hit_in); [apply shuts_hit; eauto|]. intros again c5 L5 Ha. apply shuts_ret. intros c6 L6 _. split; [cbn; auto|]. intros x Hx. specialize (Ha x Hx). auto.
  - intros [s [s'|]] c3 L3 [H1 H2]; cbn [fst snd] in *; [specialize (H2 s' eq_refl); apply shuts_ret; auto|].
    destruct (u_frag u) as [[|ch f]|]; try (apply shuts_ret; auto).
    apply (shuts_bind _ _ _ (fun objs k => shut k /\ objs = c_objs k)); [apply shuts_read; auto|].
    intros objs c4 L4 (S & ->).
    apply (shuts_bind _ _ _ (fun x k => sn_in k x)).
    + apply shuts_lift. intros x c5 L5 _ Hx. unfold pointer_to_catalog in Hx.
      assert (W : (let* p := parse_uri_fragment (ch :: f) in sn_walk (objs_world (c_objs c4)) (SNSchema s) p) = Ok x).
      { destruct (let* p := parse_uri_fragment (ch :: f) in sn_walk (objs_world (c_objs c4)) (SNSchema s) p); try congruence. destruct (is_pointer_error e); discriminate. }
      destruct (parse_uri_fragment (ch :: f)) as [p| |]; cbn [bind] in W; try discriminate W.
      assert (Ok0 : sn_in c4 (SNSchema s)) by (cbn [sn_in]; auto). assert (Ok1 := walk_in c4 p S _ _ Ok0 W). unfold sn_in in *. destruct x; [auto|]. intros t Ht. specialize (Ok1 t Ht). auto.
    + intros x c5 L5 Hx. destruct x as [t|]; [|shutting]. apply shuts_ret. auto.
Qed.
Lemma shuts_set_ref c0 s key t d : B c0 t -> shuts c0 (set_ref s key t d) whatever.
Proof.
  intro Ht. unfold set_ref. apply shuts_update; [auto|]. intros o c L N. cbn [with_data so_data]. destruct (so_data o) as [|kws]; [exact I|].
  intros key' k' Hk. apply in_map_iff in Hk. destruct Hk as ([k1 v1] & Q & H1). cbn [fst snd] in Q. specialize (N _ _ H1). destruct (str_eqb k1 key).
  - apply pair_equal_spec in Q. destruct Q as [<- <-]. destruct N as (A & X). split; [exact A|]. cbn. intros ? [= <-]. auto.
  - apply pair_equal_spec in Q. destruct Q as [<- <-]. exact N.
Qed.
Lemma shuts_absolute c0 s j : shuts c0 (absolute_reference E s j) whatever.
Proof. unfold absolute_reference. shutting. destruct (ul_absolute (e_lib E) (no_fragment a)); [shutting|]. destruct (base_uri a0 s); shutting. Qed.
Lemma shuts_resolve_keyword c0 s key k : B c0 s -> shuts c0 (resolve_keyword E resolve s key k) whatever.
Proof.
  intro Hs. unfold resolve_keyword. apply (shuts_bind _ _ _ (fun objs c => exists o, nth_error objs s = Some o /\ so_cache o = id)).
  { apply shuts_read. intros c L _. exact (L _ Hs). }
  intros objs c1 L1 (o & Ho & Hc). cbv zeta. rewrite Ho, Hc. clear o Ho Hc.
  assert (Std : shuts c1 (do u <- absolute_reference E s (kw_json k); do t <- get_schema_with E resolve id u (metaschema_uri objs s); set_ref s key t false) whatever).
  { apply (shuts_bind _ _ _ whatever); [apply shuts_absolute|]. intros u c2 L2 _. apply (shuts_bind _ _ _ (fun s k => B k s)); [apply shuts_get_schema_with|]. intros t c3 L3 Ht. now apply shuts_set_ref. }
  destruct (kw_class k) as [c|]; [|exact Std]. destruct c; try exact Std.
  - apply (shuts_bind _ _ _ whatever); [apply shuts_absolute|]. intros u c2 L2 _. apply (shuts_bind _ _ _ (fun s k => B k s)); [apply shuts_get_schema_with|]. intros t c3 L3 Ht.
    apply (shuts_bind _ _ _ whatever); [now apply shuts_set_ref|]. intros _ c4 L4 _. shutting. destruct a0; [apply shuts_set_ref; auto|shutting].
  - destruct (base_uri objs s) as [b|]; [|shutting]. apply (shuts_bind _ _ _ (fun s k => B k s)); [apply shuts_get_schema_with|]. intros t c3 L3 Ht. now apply shuts_set_ref.
Qed.
End Refs.
Lemma shuts_resolve f : forall c0 s, B c0 s -> shuts c0 (resolve_references E f s) whatever.
Proof.
  induction f as [|f IH]; intros c0 s Hs.
  - intros c L S. cbn. split; [exact S|]. split; [apply more_refl|discriminate].
  - cbn [resolve_references]. apply (shuts_bind _ _ _ (fun kws c => forall kk, In kk kws -> kw_in c (snd kk))).
    { apply shuts_read. intros c L (_ & _ & K & _) [key k] Hk. apply keywords_in in Hk. destruct Hk as (kws & Ha & Hk). exact (K _ _ _ _ (L _ Hs) Ha Hk). }
    intros kws c1 L1 Hk. apply shuts_each. intros kk c2 Hkk L2. specialize (Hk _ Hkk). destruct Hk as (A & _).
    destruct (reference_class (kw_class (snd kk))); [apply shuts_resolve_keyword; auto|]. unfold subschema_of in A. destruct (kw_json (snd kk)) as [v|t|l|m].
    + shutting.
    + apply IH. auto.
    + apply shuts_each. intros t c3 Ht L3. apply IH. auto.
    + apply shuts_each. intros kt c3 Ht L3. apply IH. apply L3, L2, A. exact (in_map snd _ _ Ht).
Qed.
Theorem construct_shuts f v u m c0 : shuts c0 (construct E f id v u m) (fun s c => B c s).
Proof. apply shuts_construct_with. apply shuts_resolve. Qed.
Theorem get_shuts f u m c0 : shuts c0 (get_schema E f id u m) (fun s c => B c s).
Proof. apply shuts_get_schema_with. apply shuts_resolve. Qed.
End Env.
End Cache.
