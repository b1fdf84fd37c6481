(** What holds in every catalog: schemas refer to existing schemas only. *)
From Coq Require Import List Lia Bool.
From Verif Require Export BuildOk.
Import ListNotations.
Open Scope nat_scope.

Definition size (c : cat) : nat := length (c_objs c).
(** The schemas a keyword leads to are among the first [n]; those of a
    reference come from resolution only. *)
Definition kw_ok (n : nat) (k : keyword) : Prop :=
  (forall t, subschema_of k t -> t < n) /\ (forall t, kw_ref k = Some t -> t < n) /\ (is_reference k -> forall t, ~ subschema_of k t).
Definition sane (c : cat) : Prop :=
  upward (c_objs c) /\
  (forall s kws, keywords_at (c_objs c) s kws -> NoDup (keys kws) /\ forall key k, In (key, k) kws -> kw_ok (size c) k) /\
  tidy (c_cache c) /\ (forall id u s, cached id u (c_cache c) = Some s -> s < size c).
Lemma kw_ok_le n n' k : n <= n' -> kw_ok n k -> kw_ok n' k.
Proof. intros L (A & B & C). split; [|split; [|exact C]]; intros t Ht; [specialize (A t Ht)|specialize (B t Ht)]; lia. Qed.

Definition safe {A} (n : nat) (x : M A) (Q : A -> nat -> Prop) : Prop :=
  forall c, sane c -> n <= size c -> sane (snd (x c)) /\ size c <= size (snd (x c)) /\ forall a, fst (x c) = Ok a -> Q a (size (snd (x c))).
Definition any {A} (a : A) (n : nat) : Prop := True.

Ltac lia' := cbv beta in *; lia.
Lemma safe_bind {A B} n (x : M A) (f : A -> M B) Q R : safe n x Q -> (forall a n', n <= n' -> Q a n' -> safe n' (f a) R) -> safe n (bindM x f) R.
Proof.
  intros Hx Hf c S L. destruct (Hx c S L) as (S1 & L1 & Q1). unfold bindM. destruct (x c) as [[a| |] c1]; cbn [fst snd] in *; try (split; [exact S1|split; [exact L1|discriminate]]).
  destruct (Hf a (size c1) ltac:(lia) (Q1 a eq_refl) c1 S1 (Nat.le_refl _)) as (S2 & L2 & Q2). split; [exact S2|]. split; [lia|exact Q2].
Qed.
Lemma safe_ret {A} n (a : A) (Q : A -> nat -> Prop) : (forall n', n <= n' -> Q a n') -> safe n (ret a) Q.
Proof. intros H c S L. split; [exact S|]. split; [cbn; lia|]. cbn. intros ? [= <-]. now apply H. Qed.
Lemma safe_throw {A} n e (Q : A -> nat -> Prop) : safe n (throw e) Q.
Proof. intros c S L. split; [exact S|]. split; [cbn; lia|discriminate]. Qed.
Lemma safe_lift {A} n (r : res A) (Q : A -> nat -> Prop) : (forall a n', n <= n' -> r = Ok a -> Q a n') -> safe n (lift r) Q.
Proof. intros H c S L. split; [exact S|]. split; [cbn; lia|]. cbn. intros a Ha. now apply H. Qed.
Lemma safe_read {A} n (f : cat -> A) (Q : A -> nat -> Prop) : (forall c, sane c -> n <= size c -> Q (f c) (size c)) -> safe n (read f) Q.
Proof. intros H c S L. split; [exact S|]. split; [cbn; lia|]. cbn. intros ? [= <-]. now apply H. Qed.
Lemma safe_weaken {A} n n' (x : M A) (Q R : A -> nat -> Prop) : n <= n' -> (forall a k, Q a k -> R a k) -> safe n x Q -> safe n' x R.
Proof. intros L H Hx c S L'. destruct (Hx c S ltac:(lia)) as (A1 & A2 & A3). split; [exact A1|]. split; [exact A2|]. intros a Ha. apply H, A3, Ha. Qed.
Lemma safe_any {A} n (x : M A) Q : safe n x Q -> safe n x any.
Proof. apply safe_weaken; [lia|]. intros; exact I. Qed.
Lemma safe_each {A} n (f : A -> M unit) l : (forall a n', In a l -> n <= n' -> safe n' (f a) any) -> safe n (each_ f l) any.
Proof.
  revert n. induction l as [|a l IH]; intros n H; [apply safe_ret; intros; exact I|]. cbn [each_]. apply (safe_bind _ _ _ any); [apply H; [now left|lia]|].
  intros _ n' L _. apply IH. intros a' n2 Ha L2. apply H; [now right|lia].
Qed.
Lemma safe_mapM {A B} n (f : A -> M B) (Q : B -> nat -> Prop) l : (forall b k k', k <= k' -> Q b k -> Q b k') -> (forall a n', In a l -> n <= n' -> safe n' (f a) Q) ->
  safe n (mapM f l) (fun bs k => forall b, In b bs -> Q b k).
Proof.
  intro Mono. revert n. induction l as [|a l IH]; intros n H; [apply safe_ret; intros ? ? ? []|]. cbn [mapM]. apply (safe_bind _ _ _ Q); [apply H; [now left|lia]|].
  intros b n1 L1 Qb. apply (safe_bind _ _ _ (fun bs k => n1 <= k /\ forall b, In b bs -> Q b k)).
  - intros c S L. destruct (IH n1 (fun a' n2 Ha L2 => H a' n2 (or_intror Ha) (Nat.le_trans _ _ _ L1 L2)) c S L) as (S1 & S2 & S3).
    split; [exact S1|]. split; [exact S2|]. intros bs Hbs. split; [lia|exact (S3 bs Hbs)].
  - intros bs n2 _ [L2 Qbs]. apply safe_ret. intros n3 L3 b' [<-|Hb]; [apply (Mono _ n1); [lia|exact Qb]|]. apply (Mono _ n2); [lia|auto].
Qed.

(** ** The changes to the catalog. *)
Definition node_ok (n : nat) (d : snode) : Prop := match d with SBool _ => True | SObj kws => NoDup (keys kws) /\ forall key k, In (key, k) kws -> kw_ok n k end.
Lemma sane_at c s o : sane c -> nth_error (c_objs c) s = Some o -> node_ok (size c) (so_data o).
Proof. intros (_ & H & _) Ho. unfold node_ok. destruct (so_data o) as [|kws] eqn:D; [exact I|]. apply (H s kws). now exists o. Qed.
Lemma safe_update n s f : (forall o k, n <= k -> node_ok k (so_data o) -> so_up (f o) = so_up o /\ node_ok k (so_data (f o))) -> safe n (update s f) any.
Proof.
  intros H c S L. unfold update, modify. cbn [fst snd]. split; [|split; [|intros; exact I]].
  - destruct (nth_error (c_objs c) s) as [o|] eqn:Ho; [|exact S]. destruct (H o (size c) L (sane_at _ _ _ S Ho)) as [Hu Hn]. destruct S as (U & K & T & C).
    assert (Hs : s < length (c_objs c)) by (apply nth_error_Some; congruence).
    unfold sane, size, put_obj. cbn [c_objs c_cache]. rewrite length_set_nth. split; [|split; [|split; [exact T|exact C]]].
    + intros i x p ks Hi Hx. destruct (Nat.eq_dec i s) as [->|N].
      * rewrite nth_set_nth_same in Hi by exact Hs. injection Hi as <-. rewrite Hu in Hx. exact (U _ _ _ _ Ho Hx).
      * rewrite nth_set_nth_other in Hi by congruence. exact (U _ _ _ _ Hi Hx).
    + intros i kws (x & Hi & Hx). destruct (Nat.eq_dec i s) as [->|N].
      * rewrite nth_set_nth_same in Hi by exact Hs. injection Hi as <-. rewrite Hx in Hn. exact Hn.
      * rewrite nth_set_nth_other in Hi by congruence. apply (K i kws). now exists x.
  - unfold size. destruct (nth_error (c_objs c) s); [|lia]. cbn. rewrite length_set_nth. lia.
Qed.
Lemma safe_cache n id u s : s < n -> safe n (cache_schema id u s) any.
Proof.
  intros H c (U & K & T & C) L. split; [|split; [unfold size; cbn; lia|intros; exact I]]. split; [exact U|]. split; [exact K|]. split; [now apply tidy_add|].
  intros id' u' s'. cbn [c_cache snd cache_schema modify]. rewrite cached_add. destruct (str_eqb id' id && uri_eqb u' u); [intros [= <-]; change (s < size c); lia|apply C].
Qed.
Lemma safe_uncache n id u : safe n (uncache_schema id u) any.
Proof.
  intros c (U & K & T & C) L. split; [|split; [unfold size; cbn; lia|intros; exact I]]. split; [exact U|]. split; [exact K|]. split; [now apply tidy_del|].
  intros id' u' s'. cbn [c_cache snd uncache_schema modify]. rewrite cached_del by exact T. destruct (str_eqb id' id && uri_eqb u' u); [discriminate|apply C].
Qed.
Lemma safe_new n id u m up d : (forall p ks, up = Some (p, ks) -> p < n) -> node_ok 0 d -> safe n (new_schema id u m up d) (fun s k => s < k).
Proof.
  intros Hup Hd c S L. pose proof S as (U & K & T & C). rewrite new_schema_eq. cbn [fst snd]. unfold size in *. cbn [c_objs]. rewrite app_length. cbn [length].
  split; [|split; [lia|intros ? [= <-]; lia]]. unfold sane, size. cbn [c_objs c_cache]. rewrite app_length. cbn [length]. split; [|split; [|split]].
  - apply upward_app; [exact U|]. cbn. intros p ks H. specialize (Hup p ks H). lia.
  - intros s kws (x & Hi & Hx). destruct (Nat.lt_ge_cases s (length (c_objs c))) as [X|X].
    + rewrite nth_error_app1 in Hi by exact X. destruct (K s kws (ex_intro _ x (conj Hi Hx))) as [N1 K1]. split; [exact N1|]. intros key k Hk.
      apply (kw_ok_le (size c)); [unfold size; lia|exact (K1 _ _ Hk)].
    + rewrite nth_error_app2 in Hi by exact X. destruct (s - length (c_objs c)) as [|j]; [|destruct j; discriminate Hi]. injection Hi as <-. cbn in Hx. rewrite Hx in Hd. destruct Hd as [N1 K1].
      split; [exact N1|]. intros key k Hk. apply (kw_ok_le 0); [lia|exact (K1 _ _ Hk)].
  - destruct u; [now apply tidy_add|exact T].
  - intros id' u' s'. destruct u as [u|]; [rewrite cached_add; destruct (str_eqb id' id && uri_eqb u' u); [intros [= <-]; lia|]|]; intro H; apply C in H; unfold size in H; lia.
Qed.

Ltac safety :=
  repeat lazymatch goal with
    | |- safe _ (bindM _ _) _ => apply (safe_bind _ _ _ any); [|intros ? ? ? _]
    | |- safe _ (ret _) _ => apply safe_ret; intros; exact I
    | |- safe _ (throw _) _ => apply safe_throw
    | |- safe _ (lift _) _ => apply safe_lift; intros; exact I
    | |- safe _ (read _) _ => apply safe_read; intros; exact I
    | |- safe _ (cache_schema _ _ _) _ => apply safe_cache; lia
    | |- safe _ (uncache_schema _ _) _ => apply safe_uncache
    end.

Lemma safe_head n s f : (forall o, so_up (f o) = so_up o /\ so_data (f o) = so_data o) -> safe n (update s f) any.
Proof. intro H. apply safe_update. intros o k _ N. destruct (H o) as [-> ->]. auto. Qed.
Lemma safe_set_uri L n s u : s < n -> safe n (set_uri L s u) any.
Proof.
  intro Hs. unfold set_uri. safety. destruct a as [o|]; [|safety]. destruct (match so_uri o with Some u' => uri_same L u' u | None => false end); [safety|].
  apply (safe_bind _ _ _ any); [destruct (so_uri o); safety|]. intros _ n1 L1 _. apply (safe_bind _ _ _ any); [apply safe_head; intro; auto|]. intros _ n2 L2 _. safety.
Qed.

Section Safe.
Variable E : env.

Lemma safe_init_id n next s v : s < n -> safe n (init_id E next s v) any.
Proof.
  intro Hs. unfold init_id. safety; [|apply safe_set_uri; lia']. destruct (ul_absolute (e_lib E) a); [safety|].
  destruct (base_uri a1 s); safety.
Qed.
Lemma safe_init_anchor n s v : s < n -> safe n (init_anchor E s v) any.
Proof. intro Hs. unfold init_anchor. safety. destruct v, (base_uri a s), (nth_error a s); safety. Qed.
Lemma safe_init_schema n s v : safe n (init_schema E s v) any.
Proof. unfold init_schema. safety. apply safe_head. intro; auto. Qed.

Definition below (b : builder) : Prop := forall n p ks, p < n -> safe n (b (p, ks)) (fun s k => s < k).
Definition tame (x : member) : Prop := below (mb_schema x) /\ forall k b, In (k, b) (mb_items x) -> below b.
Definition kj_subs (j : kjson) (t : sid) : Prop :=
  match j with KSub t' => t' = t | KSubs l => In t l | KSubm m => In t (map snd m) | KJ _ => False end.
Definition kj_ok (n : nat) (j : kjson) : Prop := forall t, kj_subs j t -> t < n.

Lemma safe_keyword_json n s key c x : s < n -> tame x -> safe n (keyword_json s key c x) (fun j k => kj_ok k j /\ (mixins c = [] -> forall t, ~ kj_subs j t)).
Proof.
  intros Hs [H1 H2]. unfold keyword_json.
  assert (T : forall ms, safe n (try_mixins s key x ms) (fun j k => kj_ok k j)).
  { induction ms as [|m ms IH]; [apply safe_throw|]. cbn [try_mixins]. destruct (jsonify s key x m) as [j|] eqn:J; [|exact IH].
    assert (One : safe n (do t <- mb_schema x (s, [key]); ret (KSub t)) (fun j k => kj_ok k j)).
    { apply (safe_bind _ _ _ (fun t k => t < k)); [now apply H1|]. intros t n1 L1 Ht. apply safe_ret. intros n2 L2 t' [= <-]. lia'. }
    unfold jsonify in J. destruct m, (mb_value x); try discriminate J; injection J as <-; try exact One; try (apply safe_ret; intros ? ? ? []).
    - apply (safe_bind _ _ _ (fun ts k => forall t, In t ts -> t < k)).
      + apply (safe_mapM n _ (fun t k => t < k)); [intros; lia'|]. intros [k b] n1 Hb L1. cbn [fst snd]. apply (H2 _ _ Hb). lia'.
      + intros ts n1 L1 Hts. apply safe_ret. intros n2 L2 t Ht. cbn in Ht. specialize (Hts t Ht). lia'.
    - apply (safe_bind _ _ _ (fun ts k => forall t, In t ts -> snd t < k)).
      + apply (safe_mapM n _ (fun t k => snd t < k)); [intros; lia'|]. intros [k b] n1 Hb L1. cbn [fst snd].
        apply (safe_bind _ _ _ (fun t k => t < k)); [apply (H2 _ _ Hb); lia'|]. intros t n2 L2 Ht. apply safe_ret. intros n3 L3. cbn. lia'.
      + intros ts n1 L1 Hts. apply safe_ret. intros n2 L2 t Ht. cbn [kj_subs] in Ht. apply in_map_iff in Ht. destruct Ht as (y & <- & Hy). specialize (Hts y Hy). exact (Nat.lt_le_trans _ _ _ Hts L2). }
  destruct (mixins c) as [|m ms]; [apply safe_ret; intros k L; split; [intros ? []|intros _ ? []]|].
  eapply safe_weaken; [apply Nat.le_refl| |apply (T (m :: ms))]. intros j k Hj. split; [exact Hj|discriminate].
Qed.
Lemma safe_make_keyword n s key c x : s < n -> tame x -> safe n (make_keyword E s key c x) (fun k l => kw_ok l k).
Proof.
  intros Hs H. unfold make_keyword. eapply safe_bind; [apply safe_keyword_json; assumption|]. cbv beta. intros j n1 L1 [Hj Hm].
  assert (K : forall r, kw_ref r = None -> kw_class r = c -> kw_json r = j -> forall n2, n1 <= n2 -> kw_ok n2 r).
  { intros r R1 R2 R3 n2 L2. split; [|split].
    - intros t Ht. unfold subschema_of in Ht. rewrite R3 in Ht. specialize (Hj t Ht). lia'.
    - rewrite R1. discriminate.
    - intros R t Ht. unfold subschema_of in Ht. rewrite R3 in Ht. apply (Hm (ltac:(unfold is_reference in R; rewrite R2 in R; destruct R as [->|[->| ->]]; reflexivity)) t Ht). }
  assert (Kr : forall fr fo n2, n1 <= n2 -> safe n2 (ret (mkKw c j None false fr fo)) (fun k l => kw_ok l k)).
  { intros fr fo n2 L2. apply safe_ret. intros n3 L3. apply K; try reflexivity. lia'. }
  assert (Kb : forall (X : M unit), safe n1 X any -> safe n1 (do _ <- X; ret (mkKw c j None false [] None)) (fun k l => kw_ok l k)).
  { intros X HX. apply (safe_bind _ _ _ any); [exact HX|]. intros _ n2 L2 _. now apply Kr. }
  destruct c as [c|k]; [|now apply Kr].
  destruct c; try solve [now apply Kr]; try solve [apply Kb; first [apply safe_init_schema|apply safe_init_id; lia'|apply safe_init_anchor; lia']].
  - apply (safe_bind _ _ _ any); [safety|]. intros u n2 L2 _. now apply Kr.
  - destruct (mb_value x); try solve [safety]. destruct (str_eqb s0 (lit "#")); [now apply Kr|safety].
  - destruct (mb_value x); try solve [safety]. destruct (e_regex E s0); [now apply Kr|safety].
  - apply (safe_bind _ _ _ any); [safety|]. intros u n2 L2 _. now apply Kr.
Qed.
Lemma In_dset_inv {A} key (v : A) m x : In x (dset key v m) -> In x m \/ x = (key, v).
Proof.
  induction m as [|[k' v'] m IH]; cbn; [intros [<-|[]]; now right|]. destruct (str_eqb_spec key k') as [<-|N]; cbn; intros [<-|H]; auto. destruct (IH H); auto.
Qed.
Lemma node_dset n key k kws : kw_ok n k -> node_ok n (SObj kws) -> node_ok n (SObj (dset key k kws)).
Proof.
  intros Hk [N H]. split; [now apply NoDup_dset|]. intros key' k' Hin. apply In_dset_inv in Hin. destruct Hin as [X|X]; [exact (H _ _ X)|]. apply pair_equal_spec in X. destruct X as [_ ->]. exact Hk.
Qed.
Lemma safe_add_keyword n s members key c : s < n -> (forall k x, In (k, x) members -> tame x) -> safe n (add_keyword E s members key c) any.
Proof.
  intros Hs H. unfold add_keyword. destruct (dget key members) as [x|] eqn:D; [|safety]. apply dget_In in D.
  eapply safe_bind; [apply safe_make_keyword; [exact Hs|exact (H _ _ D)]|]. cbv beta. intros k n1 L1 Hk. unfold keep_keyword. apply safe_update. intros o n2 L2 N.
  split; [reflexivity|]. cbn [with_data so_data]. destruct (so_data o); [exact I|]. apply node_dset; [exact (kw_ok_le _ _ _ L2 Hk)|exact N].
Qed.
Lemma safe_metaschema n s : safe n (metaschema E s) any.
Proof. unfold metaschema. safety. destruct (metaschema_uri a s) as [u|]; [destruct (e_dialect E u)|]; safety. Qed.
Lemma safe_classes n s ks : safe n (classes E s ks) any.
Proof. unfold classes. eapply safe_any. apply (safe_mapM n _ any); [intros; exact I|]. intros key n1 _ L1. safety. apply safe_metaschema. Qed.
Lemma safe_build_object n s members : s < n -> (forall k x, In (k, x) members -> tame x) -> safe n (build_object E s members) any.
Proof.
  intros Hs H. unfold build_object. safety.
  - destruct a as [[[u|] m [up|] ch d]|]; try solve [safety]. apply safe_set_uri. lia'.
  - unfold bootstrap. apply (safe_bind _ _ _ any); [apply safe_add_keyword; [lia'|exact H]|]. intros _ n1 L1 _. apply (safe_bind _ _ _ any); [apply safe_add_keyword; [lia'|exact H]|]. intros _ n2 L2 _.
    destruct (dmem (lit "$id") members); [|safety]. apply (safe_bind _ _ _ any); [apply safe_metaschema|]. intros d n3 L3 _. apply safe_add_keyword; [lia'|exact H].
  - apply safe_classes.
  - apply safe_each. intros c n1 _ L1. apply safe_add_keyword; [lia'|exact H].
Qed.

(** Construction keeps the catalog sane, even if it fails. *)
Lemma safe_build id v : forall n u m up, (forall p ks, up = Some (p, ks) -> p < n) -> safe n (build E id v u m up) (fun s k => s < k).
Proof.
  assert (G : forall k v, jsize v < k -> forall n u m up, (forall p ks, up = Some (p, ks) -> p < n) -> safe n (build E id v u m up) (fun s k => s < k)).
  { induction k as [|k IH]; intros w Hk n u m up Hup; [lia'|]. destruct w as [|b|x|x|l|ms];
      try solve [cbn [build]; apply (safe_bind _ _ _ (fun s k => s < k)); [apply safe_new; [exact Hup|split; [constructor|intros ? ? []]]|intros ? ? ? ?; apply safe_throw]].
    - cbn [build]. now apply safe_new.
    - rewrite build_object_eq. apply (safe_bind _ _ _ (fun s k => s < k)); [apply safe_new; [exact Hup|split; [constructor|intros ? ? []]]|]. intros s n1 L1 Hs.
      apply (safe_bind _ _ _ any); [|intros _ n2 L2 _; apply safe_ret; intros; lia']. apply safe_build_object; [exact Hs|].
      intros key x Hx. apply in_map_iff in Hx. destruct Hx as ([k' v'] & [= <- <-] & Hv). cbn [snd]. apply jsize_members in Hv. cbn [snd] in Hv. split.
      + intros n2 p ks Hp. apply IH; [lia'|]. intros ? ? [= <- <-]. exact Hp.
      + intros key' b Hb n2 p ks Hp. cbn [mb_items member_of] in Hb. destruct v' as [|?|?|?|l|m']; try destruct Hb.
        * apply in_numbered in Hb. destruct Hb as (i & w & Hi & [= _ ->]). apply nth_error_In, jsize_items in Hi. apply IH; [lia'|]. intros ? ? [= <- <-]. exact Hp.
        * apply in_map_iff in Hb. destruct Hb as ([k1 v1] & [= <- <-] & Hv1). apply jsize_members in Hv1. cbn [snd] in *. apply IH; [lia'|]. intros ? ? [= <- <-]. exact Hp. }
  exact (G (S (jsize v)) v (Nat.lt_succ_diag_r _)).
Qed.

(** ** Pointers into schemas. *)
Definition sn_ok (n : nat) (x : schemanode) : Prop := match x with SNSchema s => s < n | SNJson j => kj_ok n j end.
Lemma keywords_in objs s kk : In kk (schema_keywords (objs_world objs) s) -> exists kws, keywords_at objs s kws /\ In kk kws.
Proof.
  unfold schema_keywords, objs_world. cbn [w_schema]. destruct (nth_error objs s) as [o|] eqn:Ho; [|intros []]. destruct (so_data o) as [|kws] eqn:D; [intros []|].
  intro H. exists kws. split; [now exists o|exact H].
Qed.
Lemma sn_index_In {A} k (l : list A) x : sn_index k l = Ok x -> In x l.
Proof.
  unfold sn_index. destruct (py_int k); [|discriminate]. destruct (norm_index (length l) z) as [n|]; [|discriminate]. destruct (nth_error l n) eqn:N; [|discriminate].
  intros [= <-]. exact (nth_error_In _ _ N).
Qed.
Lemma walk_ok c p : sane c -> forall x y, sn_ok (size c) x -> sn_walk (objs_world (c_objs c)) x p = Ok y -> sn_ok (size c) y.
Proof.
  intro S. induction p as [|k p IH]; intros x y Hx H; cbn [sn_walk] in H; [now injection H as <-|].
  destruct (sn_child (objs_world (c_objs c)) x k) as [z| |] eqn:Hz; cbn [bind] in H; try discriminate H. apply (IH z y); [|exact H]. clear H IH.
  unfold sn_child in Hz. destruct x as [s|j].
  - destruct (dget k (schema_keywords (objs_world (c_objs c)) s)) as [kw|] eqn:D; [|discriminate Hz]. injection Hz as <-. apply dget_In, keywords_in in D.
    destruct D as (kws & Ha & Hk). destruct S as (_ & K & _). destruct (proj2 (K _ _ Ha) _ _ Hk) as (A & _). unfold sn_of, subschema_of in *.
    destruct (kw_json kw); try exact A. exact (A _ eq_refl).
  - destruct j as [v|t|l|m]; [|discriminate Hz| |].
    + destruct v as [| | | |l|m]; try discriminate Hz.
      * destruct (sn_index k l); cbn [bind] in Hz; try discriminate Hz. injection Hz as <-. intros ? [].
      * destruct (dget k m); [|discriminate Hz]. injection Hz as <-. intros ? [].
    + destruct (sn_index k l) as [t| |] eqn:Hi; cbn [bind] in Hz; try discriminate Hz. injection Hz as <-. apply (Hx t). exact (sn_index_In _ _ _ Hi).
    + destruct (dget k m) as [t|] eqn:D; [|discriminate Hz]. injection Hz as <-. apply (Hx t). apply dget_In in D. exact (in_map snd _ _ D).
Qed.

(** ** References. *)
Section Refs.
Variable resolve : sid -> M unit.
Hypothesis Hres : forall n s, s < n -> safe n (resolve s) any.

Lemma safe_construct_with n id v u m : safe n (construct_with E resolve id v u m) (fun s k => s < k).
Proof.
  unfold construct_with. apply (safe_bind _ _ _ (fun s k => s < k)); [apply safe_build; discriminate|]. intros s n1 L1 Hs.
  assert (R : safe n1 (ret s) (fun s k => s < k)) by (apply safe_ret; intros; lia'). destruct v; try exact R.
  apply (safe_bind _ _ _ any); [now apply Hres|]. intros _ n2 L2 _. apply safe_ret; intros; lia'.
Qed.
Definition hit_ok (r : option sid) (k : nat) : Prop := forall s, r = Some s -> s < k.
Lemma safe_hit n (f : cat -> option sid) : (forall c s, f c = Some s -> exists id u, cached id u (c_cache c) = Some s) -> safe n (read f) hit_ok.
Proof. intro H. apply safe_read. intros c (_ & _ & _ & C) _ s Hs. destruct (H _ _ Hs) as (id & u & X). exact (C _ _ _ X). Qed.
Lemma safe_get_schema_with n id u m : safe n (get_schema_with E resolve id u m) (fun s k => s < k).
Proof.
  unfold get_schema_with. apply (safe_bind _ _ _ hit_ok); [apply safe_hit; eauto|]. intros hit n1 L1 Hh. destruct hit as [s|]; [specialize (Hh s eq_refl); apply safe_ret; intros; lia'|].
  cbv zeta. apply (safe_bind _ _ _ hit_ok); [apply safe_hit; intros c s; destruct (u_frag u); [eauto|discriminate]|]. intros known n2 L2 Hk.
  apply (safe_bind _ _ _ (fun r k => fst r < k /\ hit_ok (snd r) k)).
  - destruct known as [s|]; [specialize (Hk s eq_refl); apply safe_ret; intros; split; [cbn; lia'|intros ? [=]]|].
    apply (safe_bind _ _ _ any); [safety|]. intros doc n3 L3 _. apply (safe_bind _ _ _ (fun s k => s < k)); [apply safe_construct_with|]. intros s n4 L4 Hs.
    apply (safe_bind _ _ _ hit_ok); [apply safe_hit; eauto|]. intros again n5 L5 Ha. apply safe_ret. intros n6 L6. split; [cbn; lia'|]. intros x Hx. specialize (Ha x Hx). lia'.
  - intros [s [s'|]] n3 L3 [H1 H2]; cbn [fst snd] in *; [specialize (H2 s' eq_refl); apply safe_ret; intros; lia'|].
    destruct (u_frag u) as [[|ch f]|]; try (apply safe_ret; intros; lia').
    apply (safe_bind _ _ _ (fun objs k => n3 <= k /\ exists c, sane c /\ c_objs c = objs /\ size c = k)); [apply safe_read; intros c S L; split; [exact L|eauto]|].
    intros objs n4 L4 (_ & c & S & <- & <-).
    apply (safe_bind _ _ _ (fun x k => sn_ok k x)).
    + apply safe_lift. intros x n5 L5 Hx. unfold pointer_to_catalog in Hx.
      assert (W : (let* p := parse_uri_fragment (ch :: f) in sn_walk (objs_world (c_objs c)) (SNSchema s) p) = Ok x).
      { destruct (let* p := parse_uri_fragment (ch :: f) in sn_walk (objs_world (c_objs c)) (SNSchema s) p); try congruence. destruct (is_pointer_error e); discriminate. }
      destruct (parse_uri_fragment (ch :: f)) as [p| |]; cbn [bind] in W; try discriminate W.
      assert (Ok0 : sn_ok (size c) (SNSchema s)) by (cbn [sn_ok]; lia'). assert (Ok1 := walk_ok c p S _ _ Ok0 W). unfold sn_ok in *. destruct x; [lia'|]. intros t Ht. specialize (Ok1 t Ht). lia'.
    + intros x n5 L5 Hx. destruct x as [t|]; [|safety]. apply safe_ret. intros n6 L6. cbn in Hx. lia'.
Qed.
Lemma safe_set_ref n s key t d : t < n -> safe n (set_ref s key t d) any.
Proof.
  intro Ht. unfold set_ref. apply safe_update. intros o k L N. split; [reflexivity|]. cbn [with_data so_data]. destruct (so_data o) as [|kws]; [exact I|].
  destruct N as [N0 N]. split.
  { unfold keys in *. rewrite map_map. erewrite map_ext; [exact N0|]. intros [k1 v1]. cbn. now destruct (str_eqb k1 key). }
  intros key' k' Hk. apply in_map_iff in Hk. destruct Hk as ([k1 v1] & Q & H1). cbn [fst snd] in Q. specialize (N _ _ H1). destruct (str_eqb k1 key).
  - apply pair_equal_spec in Q. destruct Q as [<- <-]. destruct N as (A & B & C). split; [exact A|]. split; [cbn; intros ? [= <-]; lia'|exact C].
  - apply pair_equal_spec in Q. destruct Q as [<- <-]. exact N.
Qed.
Lemma safe_absolute n s j : safe n (absolute_reference E s j) any.
Proof. unfold absolute_reference. safety. destruct (ul_absolute (e_lib E) (no_fragment a)); [safety|]. destruct (base_uri a0 s); safety. Qed.
Lemma safe_resolve_keyword n s key k : safe n (resolve_keyword E resolve s key k) any.
Proof.
  unfold resolve_keyword. apply (safe_bind _ _ _ any); [safety|]. intros objs n1 L1 _. cbv zeta. set (id := match nth_error objs s with Some o => so_cache o | None => [] end). clearbody id.
  assert (Std : safe n1 (do u <- absolute_reference E s (kw_json k); do t <- get_schema_with E resolve id u (metaschema_uri objs s); set_ref s key t false) any).
  { apply (safe_bind _ _ _ any); [apply safe_absolute|]. intros u n2 L2 _. apply (safe_bind _ _ _ (fun s k => s < k)); [apply safe_get_schema_with|]. intros t n3 L3 Ht. now apply safe_set_ref. }
  destruct (kw_class k) as [c|]; [|exact Std]. destruct c; try exact Std.
  - apply (safe_bind _ _ _ any); [apply safe_absolute|]. intros u n2 L2 _. apply (safe_bind _ _ _ (fun s k => s < k)); [apply safe_get_schema_with|]. intros t n3 L3 Ht.
    apply (safe_bind _ _ _ any); [now apply safe_set_ref|]. intros _ n4 L4 _. safety. destruct a0; [apply safe_set_ref; lia'|safety].
  - destruct (base_uri objs s) as [b|]; [|safety]. apply (safe_bind _ _ _ (fun s k => s < k)); [apply safe_get_schema_with|]. intros t n3 L3 Ht. now apply safe_set_ref.
Qed.
End Refs.

Lemma safe_resolve f : forall n s, s < n -> safe n (resolve_references E f s) any.
Proof.
  induction f as [|f IH]; intros n s Hs.
  - intros c S L. cbn. split; [exact S|]. split; [lia'|discriminate].
  - cbn [resolve_references]. apply (safe_bind _ _ _ (fun kws k => forall kk, In kk kws -> kw_ok k (snd kk))).
    { apply safe_read. intros c S L [key k] Hk. apply keywords_in in Hk. destruct Hk as (kws & Ha & Hk). destruct S as (_ & K & _). exact (proj2 (K _ _ Ha) _ _ Hk). }
    intros kws n1 L1 Hk. apply safe_each. intros kk n2 Hkk L2. specialize (Hk _ Hkk). destruct Hk as (A & _).
    destruct (reference_class (kw_class (snd kk))); [now apply safe_resolve_keyword|]. unfold subschema_of in A. destruct (kw_json (snd kk)) as [v|t|l|m].
    + safety.
    + apply IH. specialize (A t eq_refl). lia'.
    + apply safe_each. intros t n3 Ht L3. apply IH. specialize (A t Ht). lia'.
    + apply safe_each. intros kt n3 Ht L3. apply IH. specialize (A _ (in_map snd _ _ Ht)). lia'.
Qed.
Lemma safe_construct f n id v u m : safe n (construct E f id v u m) (fun s k => s < k).
Proof. apply safe_construct_with. apply safe_resolve. Qed.
Lemma safe_get_schema f n id u m : safe n (get_schema E f id u m) (fun s k => s < k).
Proof. apply safe_get_schema_with. apply safe_resolve. Qed.
End Safe.
