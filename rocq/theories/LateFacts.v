(** Where no metaschema has to be loaded, construction that could load some
    (Late.v) does what construction with a table of metaschemas does (Build.v). *)
From Coq Require Import List Lia Bool.
From Verif Require Import Late CatalogFacts BuildFrame SchemaTerm MetaFacts.
Import ListNotations.
Open Scope nat_scope.

Section Late.
Variable E : env.
Variable st0 : mcat.
(** A cache that is left alone. *)
Variable apart : pystr.
Hypothesis Apart : apart <> [].
(** The lookup of metaschemas, which finds those cached in [st0]. *)
Variable consult : uri -> ML (list stdclass).

Notation c0 := (mc_cat st0).
Notation n0 := (length (c_objs (mc_cat st0))).
Notation D := (env_in E st0).

(** Catalogs that construction with other caches can come to from [st0]. *)
Definition subs_from (k : kjson) : Prop :=
  match k with KSub t => n0 <= t | KSubs ts => Forall (fun t => n0 <= t) ts | KSubm ts => Forall (fun kt => n0 <= snd kt) ts | KJ _ => True end.
Definition new_obj (o : sobj) : Prop :=
  so_cache o <> apart /\ match so_data o with SObj kws => Forall (fun kk => subs_from (kw_json (snd kk))) kws | SBool _ => True end.
Record onward (c : cat) : Prop := {
  on_old : forall i, i < n0 -> nth_error (c_objs c) i = nth_error (c_objs c0) i;
  on_size : n0 <= length (c_objs c);
  on_new : forall i o, n0 <= i -> nth_error (c_objs c) i = Some o -> new_obj o;
  on_tidy : tidy (c_cache c);
  on_cache : forall u, cached apart u (c_cache c) = cached apart u (c_cache c0)
}.
Definition emb (c : cat) : mcat := with_cat c st0.

Hypothesis Consult : forall c u d, onward c -> known_dialects st0 u = Some d -> consult u (emb c) = (Ok d, emb c).

(** [y] does what [x] does, unless [x] raises CatalogError. *)
Definition matches {A} (x : M A) (y : ML A) (Q : A -> Prop) : Prop :=
  forall c, onward c -> onward (snd (x c)) /\ (forall a, fst (x c) = Ok a -> Q a) /\
    (fst (x c) <> Exn ECatalog -> y (emb c) = (fst (x c), emb (snd (x c)))).
Definition keeps_on {A} (x : M A) (Q : A -> Prop) : Prop :=
  forall c, onward c -> onward (snd (x c)) /\ (forall a, fst (x c) = Ok a -> Q a).

Lemma m_on {A} (x : M A) Q : keeps_on x Q -> matches x (on_cat x) Q.
Proof.
  intros H c Hc. destruct (H c Hc) as [H1 H2]. split; [exact H1|]. split; [exact H2|]. intros _. unfold on_cat, emb, with_cat. cbn [mc_cat mc_vocabs mc_metas].
  now destruct (x c) as [r c'].
Qed.
Lemma m_bind {A B} (x : M A) y (k : A -> M B) k' Q Q' : matches x y Q -> (forall a, Q a -> matches (k a) (k' a) Q') -> matches (bindM x k) (bindL y k') Q'.
Proof.
  intros H K c Hc. destruct (H c Hc) as (H1 & H2 & H3). unfold bindM, bindL. destruct (x c) as [[a|e|] c1]; cbn [fst snd] in *.
  - rewrite H3 by discriminate. cbn. exact (K a (H2 a eq_refl) c1 H1).
  - split; [exact H1|]. split; [intros a X; discriminate X|]. intro X. rewrite H3 by congruence. reflexivity.
  - split; [exact H1|]. split; [intros a X; discriminate X|]. intro X. rewrite H3 by congruence. reflexivity.
Qed.
Lemma k_bind {A B} (x : M A) (k : A -> M B) Q Q' : keeps_on x Q -> (forall a, Q a -> keeps_on (k a) Q') -> keeps_on (bindM x k) Q'.
Proof.
  intros H K c Hc. destruct (H c Hc) as (H1 & H2). unfold bindM. destruct (x c) as [[a|e|] c1]; cbn [fst snd] in *.
  - exact (K a (H2 a eq_refl) c1 H1).
  - split; [exact H1|]. intros a X; discriminate X.
  - split; [exact H1|]. intros a X; discriminate X.
Qed.
Lemma m_weaken {A} (x : M A) y (Q Q' : A -> Prop) : matches x y Q -> (forall a, Q a -> Q' a) -> matches x y Q'.
Proof. intros H K c Hc. destruct (H c Hc) as (H1 & H2 & H3). split; [exact H1|]. split; [intros a Ha; apply K, H2, Ha|exact H3]. Qed.
Lemma m_ret {A} (a : A) (Q : A -> Prop) : Q a -> matches (ret a) (retL a) Q.
Proof. intros H c Hc. cbn. split; [exact Hc|]. split; [intros b [= <-]; exact H|reflexivity]. Qed.
Lemma m_throw {A} e (Q : A -> Prop) : matches (throw e) (throwL e) Q.
Proof. intros c Hc. cbn. split; [exact Hc|]. split; [intros b X; discriminate X|reflexivity]. Qed.
Lemma m_lift {A} (r : res A) : matches (lift r) (liftL r) (fun _ => True).
Proof. intros c Hc. cbn. split; [exact Hc|]. split; [auto|reflexivity]. Qed.
Lemma k_ret {A} (a : A) (Q : A -> Prop) : Q a -> keeps_on (ret a) Q.
Proof. intros H c Hc. cbn. split; [exact Hc|]. intros b [= <-]. exact H. Qed.
Lemma k_throw {A} e (Q : A -> Prop) : keeps_on (throw e) Q.
Proof. intros c Hc. cbn. split; [exact Hc|]. intros b X; discriminate X. Qed.
Lemma k_lift {A} (r : res A) : keeps_on (lift r) (fun _ => True).
Proof. intros c Hc. cbn. auto. Qed.
Lemma k_read {A} (f : cat -> A) (Q : A -> Prop) : (forall c, onward c -> Q (f c)) -> keeps_on (read f) Q.
Proof. intros H c Hc. cbn. split; [exact Hc|]. intros b [= <-]. now apply H. Qed.
Lemma m_each {A} (f : A -> M unit) g l : (forall x, In x l -> matches (f x) (g x) (fun _ => True)) -> matches (each_ f l) (eachL g l) (fun _ => True).
Proof.
  induction l as [|x l IH]; intro H; [now apply m_ret|]. cbn [each_ eachL]. apply m_bind with (Q := fun _ => True); [apply H; now left|]. intros _ _. apply IH. intros. apply H. now right.
Qed.
Lemma m_map {A A' B} (R : A -> A' -> Prop) (f : A -> M B) (g : A' -> ML B) (Q : B -> Prop) l l' : Forall2 R l l' ->
  (forall x y, R x y -> matches (f x) (g y) Q) -> matches (mapM f l) (mapL g l') (Forall Q).
Proof.
  intros F H. induction F as [|x y l l' Hx F IH]; [apply m_ret; constructor|]. cbn [mapM mapL].
  apply m_bind with (Q := Q); [now apply H|]. intros a Ha. apply m_bind with (Q := Forall Q); [exact IH|]. intros ys Hys. apply m_ret. now constructor.
Qed.

(** ** Steps that read and change the catalog. *)
Lemma k_update s f : n0 <= s -> (forall o, so_cache (f o) = so_cache o) ->
  (forall o, new_obj o -> new_obj (f o)) -> keeps_on (update s f) (fun _ => True).
Proof.
  intros L F N c Hc. split; [|auto]. unfold update, modify. cbn [snd]. destruct (nth_error (c_objs c) s) as [o|] eqn:Ho; [|exact Hc].
  assert (Ls : s < length (c_objs c)) by (apply nth_error_Some; congruence). destruct Hc as [A B C T K]. constructor; cbn [put_obj c_objs c_cache]; auto.
  - intros i Hi. rewrite nth_set_nth_other by lia. now apply A.
  - now rewrite length_set_nth.
  - intros i o' Hi. destruct (Nat.eq_dec s i) as [<-|X]; [rewrite nth_set_nth_same by exact Ls; intros [= <-]; apply N; exact (C _ _ L Ho)|].
    rewrite nth_set_nth_other by exact X. now apply C.
Qed.
Lemma k_cache id u s : id <> apart -> keeps_on (cache_schema id u s) (fun _ => True).
Proof.
  intros Hid c [A B C T K]. split; [|auto]. constructor; cbn [snd cache_schema modify c_objs c_cache]; auto; [now apply tidy_add|].
  intro w. rewrite cached_add. destruct (str_eqb_spec apart id); [congruence|]. apply K.
Qed.
Lemma k_uncache id u : id <> apart -> keeps_on (uncache_schema id u) (fun _ => True).
Proof.
  intros Hid c [A B C T K]. split; [|auto]. constructor; cbn [snd uncache_schema modify c_objs c_cache]; auto; [now apply tidy_del|].
  intro w. rewrite cached_del by exact T. destruct (str_eqb_spec apart id); [congruence|]. apply K.
Qed.
Lemma k_new id u m up d : id <> apart -> new_obj (mkObj u m up id d) -> keeps_on (new_schema id u m up d) (fun s => n0 <= s).
Proof.
  intros Hid Nd c Hc. rewrite new_schema_eq. cbn [fst snd]. destruct Hc as [A B C T K]. split; [|now intros a [= <-]].
  constructor; cbn [c_objs c_cache].
  - intros i Hi. rewrite nth_error_app1 by lia. now apply A.
  - rewrite app_length. lia.
  - intros i o Hi Ho. destruct (Nat.lt_ge_cases i (length (c_objs c))) as [L|L]; [rewrite nth_error_app1 in Ho by exact L; exact (C _ _ Hi Ho)|].
    rewrite nth_error_app2 in Ho by exact L. destruct (i - length (c_objs c)) as [|n]; [cbn in Ho; injection Ho as <-; exact Nd|]. destruct n; discriminate Ho.
  - destruct u; [now apply tidy_add|exact T].
  - intro w. destruct u as [u|]; [|apply K]. rewrite cached_add. destruct (str_eqb_spec apart id); [congruence|]. apply K.
Qed.
Lemma k_set_uri L s u : n0 <= s -> keeps_on (set_uri L s u) (fun _ => True).
Proof.
  intros Hs. unfold set_uri. apply k_bind with (Q := fun o => match o with Some o => so_cache o <> apart | None => True end).
  - apply k_read. intros c Hc. destruct (nth_error (c_objs c) s) as [o|] eqn:Ho; [|exact I]. exact (proj1 (on_new c Hc _ _ Hs Ho)).
  - intros [o|] Ho; [|now apply k_ret]. destruct (match so_uri o with Some u' => uri_same L u' u | None => false end); [now apply k_ret|].
    apply k_bind with (Q := fun _ => True); [destruct (so_uri o); [now apply k_uncache|now apply k_ret]|]. intros _ _.
    apply k_bind with (Q := fun _ => True); [|intros _ _; now apply k_cache]. apply k_update; auto.
Qed.
Lemma k_init_id next s v : n0 <= s -> keeps_on (init_id E next s v) (fun _ => True).
Proof.
  intro Hs. unfold init_id. apply k_bind with (Q := fun _ => True); [apply k_lift|]. intros u _. apply k_bind with (Q := fun _ => True); [apply k_lift|]. intros _ _.
  apply k_bind with (Q := fun _ => True); [now apply k_read|]. intros c _. apply k_bind with (Q := fun _ => True); [|intros w _; now apply k_set_uri].
  destruct (ul_absolute (e_lib E) u); [now apply k_ret|]. destruct (base_uri c s); [now apply k_ret|apply k_throw].
Qed.
Lemma k_init_anchor s v : n0 <= s -> keeps_on (init_anchor E s v) (fun _ => True).
Proof.
  intro Hs. unfold init_anchor. apply k_bind with (Q := fun c => match nth_error c s with Some o => so_cache o <> apart | None => True end).
  - apply k_read. intros c Hc. destruct (nth_error (c_objs c) s) as [o|] eqn:Ho; [|exact I]. exact (proj1 (on_new c Hc _ _ Hs Ho)).
  - intros c Hc. destruct v; try apply k_throw. destruct (base_uri c s); [|apply k_throw]. destruct (nth_error c s); [now apply k_cache|apply k_throw].
Qed.
Lemma k_init_schema s v : n0 <= s -> keeps_on (init_schema E s v) (fun _ => True).
Proof.
  intro Hs. unfold init_schema. apply k_bind with (Q := fun _ => True); [apply k_lift|]. intros u _. apply k_bind with (Q := fun _ => True); [apply k_lift|]. intros _ _.
  apply k_update; auto.
Qed.
Lemma k_rest s c v j : n0 <= s -> subs_from j -> keeps_on (rest_of_keyword E s c v j) (fun k => subs_from (kw_json k)).
Proof.
  intros Hs Hj. unfold rest_of_keyword. destruct c as [c|k]; [|now apply k_ret].
  destruct c; try solve [now apply k_ret];
    try solve [apply k_bind with (Q := fun _ => True); [first [now apply k_init_schema|now apply k_init_id|now apply k_init_anchor|apply k_lift]|intros; now apply k_ret]].
  - destruct v; try apply k_throw. destruct (str_eqb s0 (lit "#")); [now apply k_ret|apply k_throw].
  - destruct v; try apply k_throw. destruct (e_regex E s0); [now apply k_ret|apply k_throw].
Qed.
Lemma Forall_dset_kw key (k : keyword) kws : subs_from (kw_json k) -> Forall (fun kk => subs_from (kw_json (snd kk))) kws -> Forall (fun kk => subs_from (kw_json (snd kk))) (dset key k kws).
Proof. intros Hk F. apply Forall_dset; [exact F|]. intros k' _. exact Hk. Qed.
Lemma k_keep s key k : n0 <= s -> subs_from (kw_json k) -> keeps_on (keep_keyword s key k) (fun _ => True).
Proof.
  intros Hs Hk. apply k_update; [exact Hs|reflexivity|]. intros o [A B]. split; [exact A|]. cbn [so_data with_data]. destruct (so_data o); [exact I|]. now apply Forall_dset_kw.
Qed.
Lemma k_set_ref s key t d : n0 <= s -> keeps_on (set_ref s key t d) (fun _ => True).
Proof.
  intros Hs. apply k_update; [exact Hs|reflexivity|]. intros o [A B]. split; [exact A|]. cbn [so_data with_data]. destruct (so_data o) as [|kws]; [exact I|].
  apply Forall_map. revert B. apply Forall_impl. intros [k' kw] H. cbn [fst snd] in *. destruct (str_eqb k' key); exact H.
Qed.

(** ** Keywords. *)
Definition same_parts (a : pystr * builder) (b : pystr * builderL) : Prop := fst a = fst b /\ forall up, matches (snd a up) (snd b up) (fun s => n0 <= s).
Definition same_member (x : member) (y : memberL) : Prop :=
  mb_value x = ml_value y /\ (forall up, matches (mb_schema x up) (ml_schema y up) (fun s => n0 <= s)) /\ Forall2 same_parts (mb_items x) (ml_items y).
Definition same_members := Forall2 (fun (a : pystr * member) (b : pystr * memberL) => fst a = fst b /\ same_member (snd a) (snd b)).
Lemma m_keyword_json s key c x y : same_member x y -> matches (keyword_json s key c x) (keyword_jsonL s key c y) subs_from.
Proof.
  intros (Hv & Hs & Hi). unfold keyword_json, keyword_jsonL. rewrite <- Hv.
  assert (T : forall ms, matches (try_mixins s key x ms) (try_mixinsL s key y ms) subs_from).
  { induction ms as [|m ms IH]; [apply m_throw|]. cbn [try_mixins try_mixinsL]. unfold jsonify, jsonifyL. rewrite <- Hv.
    destruct m, (mb_value x); try exact IH.
    - apply m_bind with (Q := fun t => n0 <= t); [apply Hs|]. intros t Ht. now apply m_ret.
    - apply m_bind with (Q := fun t => n0 <= t); [apply Hs|]. intros t Ht. now apply m_ret.
    - now apply m_ret.
    - apply m_bind with (Q := Forall (fun t => n0 <= t)); [|intros ts Hts; now apply m_ret].
      apply m_map with (R := same_parts); [exact Hi|]. intros [k b] [k' b'] [E1 E2]. cbn [fst snd] in *. subst k'. apply E2.
    - apply m_bind with (Q := Forall (fun kt : pystr * sid => n0 <= snd kt)); [|intros ts Hts; now apply m_ret].
      apply m_map with (R := same_parts); [exact Hi|]. intros [k b] [k' b'] [E1 E2]. cbn [fst snd] in *. subst k'.
      apply m_bind with (Q := fun t => n0 <= t); [apply E2|]. intros t Ht. now apply m_ret. }
  destruct (mixins c) as [|m ms]; [now apply m_ret|apply T].
Qed.
Lemma dget_same key l l' : same_members l l' -> match dget key l, dget key l' with Some x, Some y => same_member x y | None, None => True | _, _ => False end.
Proof.
  induction 1 as [|[k x] [k' y] l l' [E1 E2] F IH]; [exact I|]. cbn [fst snd] in *. subst k'. cbn [dget]. destruct (str_eqb key k); [exact E2|exact IH].
Qed.
Lemma make_keyword_eq s key c x : make_keyword D s key c x = bindM (keyword_json s key c x) (fun j => rest_of_keyword E s c (mb_value x) j).
Proof. reflexivity. Qed.
Lemma bind_assoc {A B C} (x : M A) (f : A -> M B) (g : B -> M C) c : bindM (bindM x f) g c = bindM x (fun a => bindM (f a) g) c.
Proof. unfold bindM. now destruct (x c) as [[a|e|] c']. Qed.
Lemma m_ext {A} (x x' : M A) y Q : (forall c, x c = x' c) -> matches x' y Q -> matches x y Q.
Proof. intros H K c Hc. rewrite H. exact (K c Hc). Qed.
Lemma m_add s l l' key c : n0 <= s -> same_members l l' -> matches (add_keyword D s l key c) (add_keywordL E s l' key c) (fun _ => True).
Proof.
  intros Hs Hl. unfold add_keyword, add_keywordL. pose proof (dget_same key _ _ Hl) as X. destruct (dget key l) as [x|], (dget key l') as [y|]; try contradiction; [|now apply m_ret].
  rewrite make_keyword_eq. eapply m_ext; [intro; apply bind_assoc|].
  apply m_bind with (Q := subs_from); [now apply m_keyword_json|]. intros j Hj. destruct X as (Hv & _). rewrite <- Hv.
  apply m_bind with (Q := fun k => subs_from (kw_json k)); [now apply m_on, k_rest|]. intros k Hk. now apply m_on, k_keep.
Qed.
Lemma m_metaschema s : matches (metaschema D s) (metaschemaL consult s) (fun _ => True).
Proof.
  unfold metaschema, metaschemaL. apply m_bind with (Q := fun _ => True); [now apply m_on, k_read|]. intros objs _. destruct (metaschema_uri objs s) as [u|]; [|apply m_throw].
  intros c Hc. cbn [e_dialect env_in with_dialects]. destruct (known_dialects st0 u) as [d|] eqn:Kd.
  - cbn [ret fst snd]. split; [exact Hc|]. split; [auto|]. intros _. exact (Consult c u d Hc Kd).
  - cbn [throw fst snd]. split; [exact Hc|]. split; [intros a X; discriminate X|]. intro X. now destruct X.
Qed.
(** The metaschema is looked up once; looking it up again would find the same. *)
Lemma climb_same {A} (f : sobj -> option A) objs objs' : (forall i, option_map (fun o => (so_up o, f o)) (nth_error objs' i) = option_map (fun o => (so_up o, f o)) (nth_error objs i)) ->
  forall n s, climb n objs' f s = climb n objs f s.
Proof.
  intros H. induction n as [|n IH]; intro s; [reflexivity|]. cbn [climb]. specialize (H s). destruct (nth_error objs' s) as [o'|], (nth_error objs s) as [o|]; try discriminate H; [|reflexivity].
  cbn [option_map] in H. injection H as H1 H2. rewrite H2. destruct (f o); [reflexivity|]. rewrite H1. destruct (so_up o) as [[p ks]|]; [apply IH|reflexivity].
Qed.
Definition same_metas (c c' : cat) : Prop := forall i, option_map (fun o => (so_up o, so_meta o)) (nth_error (c_objs c') i) = option_map (fun o => (so_up o, so_meta o)) (nth_error (c_objs c) i).
Definition metas_stay {A} (x : M A) : Prop := forall c, same_metas c (snd (x c)).
Lemma ms_update s f : (forall o, so_up (f o) = so_up o /\ so_meta (f o) = so_meta o) -> metas_stay (update s f).
Proof.
  intros H c i. unfold update, modify. cbn [snd]. destruct (nth_error (c_objs c) s) as [o|] eqn:Ho; [|reflexivity]. cbn [put_obj c_objs].
  destruct (Nat.eq_dec s i) as [<-|N]; [|now rewrite nth_set_nth_other by exact N]. rewrite nth_set_nth_same by (apply nth_error_Some; congruence). rewrite Ho. cbn [option_map]. destruct (H o) as [-> ->]. reflexivity.
Qed.
Lemma ms_same {A} (x : M A) : (forall c, c_objs (snd (x c)) = c_objs c) -> metas_stay x.
Proof. intros H c i. now rewrite H. Qed.
Lemma ms_bind {A B} (x : M A) (k : A -> M B) : metas_stay x -> (forall a, metas_stay (k a)) -> metas_stay (bindM x k).
Proof.
  intros H K c i. specialize (H c i). unfold bindM. destruct (x c) as [[a|e|] c1]; cbn [snd] in *; [now rewrite (K a c1 i)|exact H|exact H].
Qed.
Lemma ms_set_uri L s u : metas_stay (set_uri L s u).
Proof.
  unfold set_uri. apply ms_bind; [now apply ms_same|]. intros [o|]; [|now apply ms_same]. destruct (match so_uri o with Some u' => uri_same L u' u | None => false end); [now apply ms_same|].
  apply ms_bind; [destruct (so_uri o); now apply ms_same|]. intros _. apply ms_bind; [|intros _; now apply ms_same]. apply ms_update. now intro.
Qed.
Lemma ms_init_id next s v : metas_stay (init_id E next s v).
Proof.
  unfold init_id. apply ms_bind; [now apply ms_same|]. intro u. apply ms_bind; [now apply ms_same|]. intros _. apply ms_bind; [now apply ms_same|]. intro c.
  apply ms_bind; [|intro; apply ms_set_uri]. destruct (ul_absolute (e_lib E) u); [now apply ms_same|]. destruct (base_uri c s); now apply ms_same.
Qed.
Lemma ms_add_id s l (b : bool) : metas_stay (add_keyword D s l (lit "$id") (if b then Std KId_ else Std KIdNext : kwclass)).
Proof.
  unfold add_keyword. destruct (dget (lit "$id") l) as [x|]; [|now apply ms_same]. rewrite make_keyword_eq. apply ms_bind.
  - apply ms_bind; [destruct b; now apply ms_same|]. intro j. unfold rest_of_keyword. destruct b; (apply ms_bind; [apply ms_init_id|intro; now apply ms_same]).
  - intro k. apply ms_update. now intro.
Qed.
Lemma m_looked_up s c d : metaschema D s c = (Ok d, c) -> forall c', same_metas c c' -> metaschema D s c' = (Ok d, c').
Proof.
  unfold metaschema, bindM, read. intros H c' Hs. unfold metaschema_uri in *. rewrite (climb_same so_meta (c_objs c) (c_objs c') Hs). destruct (climb (S s) (c_objs c) so_meta s) as [u|]; [|discriminate H].
  destruct (e_dialect D u) as [d'|]; [|discriminate H]. unfold ret in *. injection H as ->. reflexivity.
Qed.
Lemma metaschema_reads s c : snd (metaschema D s c) = c.
Proof. unfold metaschema, bindM, read. destruct (metaschema_uri (c_objs c) s) as [u|]; [|reflexivity]. now destruct (e_dialect D u). Qed.
Lemma runL {A B} (x : ML A) (k : A -> ML B) st a st1 : x st = (Ok a, st1) -> bindL x k st = k a st1.
Proof. intro H. unfold bindL. now rewrite H. Qed.
Lemma runL_exn {A B} (x : ML A) (k : A -> ML B) st e st1 : x st = (Exn e, st1) -> bindL x k st = (Exn e, st1).
Proof. intro H. unfold bindL. now rewrite H. Qed.
Lemma runL_fuel {A B} (x : ML A) (k : A -> ML B) st st1 : x st = (Fuel, st1) -> bindL x k st = (Fuel, st1).
Proof. intro H. unfold bindL. now rewrite H. Qed.
Lemma kwclasses_found s ks c d : onward c -> metaschema D s c = (Ok d, c) ->
  snd (classes D s ks c) = c /\ classesL consult s (Some d) ks (emb c) = (fst (classes D s ks c), emb c).
Proof.
  intros Hc Hm. induction ks as [|k r IH]; [now split|]. destruct IH as [I1 I2].
  change (classes D s (k :: r)) with (do y <- (do d <- metaschema D s; do c <- lift (get_kwclass d k); ret (k, c)); do ys <- classes D s r; ret (y :: ys)).
  cbn [classesL]. rewrite (runL (retL d) _ (emb c) d (emb c) eq_refl). rewrite bind_assoc, (bind_ok _ _ _ _ _ Hm), bind_assoc.
  unfold bindM at 1 4, bindL at 1, lift, liftL. destruct (get_kwclass d k) as [x|e|]; [|now split|now split].
  rewrite (bind_ok (ret (k, x)) _ c (k, x) c eq_refl). unfold bindM at 1 2, bindL. rewrite I2.
  destruct (classes D s r c) as [[y|e|] c']; cbn [fst snd] in *; subst c'; now split.
Qed.
Lemma m_kwclasses s ks : matches (classes D s ks) (classesL consult s None ks) (fun _ => True).
Proof.
  intros c Hc. destruct ks as [|k r]; [split; [exact Hc|]; split; [auto|reflexivity]|].
  destruct (m_metaschema s c Hc) as (_ & _ & M3). pose proof (metaschema_reads s c) as X. destruct (metaschema D s c) as [rm c1] eqn:Hm. cbn [fst snd] in *. subst c1.
  assert (Y : forall e, rm = e -> (forall a, e <> Ok a) -> exists e' : res (list (pystr * kwclass)), classes D s (k :: r) c = (e', c) /\ (e = Exn ECatalog -> e' = Exn ECatalog) /\ (e <> Exn ECatalog -> classesL consult s None (k :: r) (emb c) = (e', emb c))).
  { intros e <- Ne. destruct rm as [a|e|]; [now destruct (Ne a)| |].
    - exists (Exn e). split; [unfold classes; cbn [mapM]; apply bind_exn; now apply bind_exn|]. split; [intros [= ->]; reflexivity|]. intro N. cbn [classesL]. apply runL_exn, M3. exact N.
    - exists Fuel. split; [unfold classes; cbn [mapM]; apply bind_fuel; now apply bind_fuel|]. split; [intro Z; discriminate Z|]. intro N. cbn [classesL]. apply runL_fuel, M3. exact N. }
  destruct rm as [d|e|].
  - destruct (kwclasses_found s (k :: r) c d Hc Hm) as [G1 G2]. rewrite G1. split; [exact Hc|]. split; [auto|]. intros _. rewrite <- G2. cbn [classesL]. rewrite (runL _ _ _ _ _ (M3 ltac:(discriminate))). now rewrite (runL (retL d) _ (emb c) d (emb c) eq_refl).
  - destruct (Y _ eq_refl ltac:(discriminate)) as (e' & Y1 & Y2 & Y3). rewrite Y1. split; [exact Hc|]. split; [auto|]. cbn [fst snd]. intro N. apply Y3. intro Z. apply N, Y2, Z.
  - destruct (Y _ eq_refl ltac:(discriminate)) as (e' & Y1 & Y2 & Y3). rewrite Y1. split; [exact Hc|]. split; [auto|]. cbn [fst snd]. intro N. apply Y3. intro Z. apply N, Y2, Z.
Qed.
Lemma m_both {A} (x x' : M A) y y' Q : (forall c, x c = x' c) -> (forall st, y st = y' st) -> matches x' y' Q -> matches x y Q.
Proof. intros H H' K c Hc. rewrite H, H'. exact (K c Hc). Qed.
Lemma bind_ext {A B} (x : M A) (f g : A -> M B) c : (forall a c, f a c = g a c) -> bindM x f c = bindM x g c.
Proof. intro H. unfold bindM. destruct (x c) as [[a|e|] c']; [apply H|reflexivity|reflexivity]. Qed.
Lemma bindL_assoc {A B C} (x : ML A) (f : A -> ML B) (g : B -> ML C) st : bindL (bindL x f) g st = bindL x (fun a => bindL (f a) g) st.
Proof. unfold bindL. now destruct (x st) as [[a|e|] st']. Qed.
Lemma bindL_ext {A B} (x : ML A) (f g : A -> ML B) st : (forall a st, f a st = g a st) -> bindL x f st = bindL x g st.
Proof. intro H. unfold bindL. destruct (x st) as [[a|e|] st']; [apply H|reflexivity|reflexivity]. Qed.
Lemma m_identified s l l' ks : n0 <= s -> same_members l l' ->
  matches (do d <- metaschema D s; do _ <- add_keyword D s l (lit "$id") (match find_class d (lit "$id") with Some KId_ => Std KId_ | _ => Std KIdNext end); classes D s ks)
    (mdo d <- metaschemaL consult s; mdo _ <- add_keywordL E s l' (lit "$id") (match find_class d (lit "$id") with Some KId_ => Std KId_ | _ => Std KIdNext end); classesL consult s (Some d) ks) (fun _ => True).
Proof.
  intros Hs Hl c Hc. destruct (m_metaschema s c Hc) as (_ & _ & M3). pose proof (metaschema_reads s c) as Rd. destruct (metaschema D s c) as [[d|e|] c1] eqn:Hm; cbn [fst snd] in *; subst c1.
  - rewrite (bind_ok _ _ _ _ _ Hm), (runL _ _ _ _ _ (M3 ltac:(discriminate))).
    set (cl := match find_class d (lit "$id") with Some KId_ => Std KId_ | _ => Std KIdNext end : kwclass).
    destruct (m_add s l l' (lit "$id") cl Hs Hl c Hc) as (A1 & _ & A3).
    assert (Sm : same_metas c (snd (add_keyword D s l (lit "$id") cl c))).
    { replace cl with (if match find_class d (lit "$id") with Some KId_ => true | _ => false end then Std KId_ else Std KIdNext : kwclass) by (unfold cl; destruct (find_class d (lit "$id")) as [[]|]; reflexivity). apply ms_add_id. }
    destruct (add_keyword D s l (lit "$id") cl c) as [[a|e|] c2] eqn:Ha; cbn [fst snd] in *.
    + destruct (kwclasses_found s ks c2 d A1 (m_looked_up s c d Hm c2 Sm)) as [B1 B2]. rewrite (bind_ok _ _ _ _ _ Ha), (runL _ _ _ _ _ (A3 ltac:(discriminate))), B1. split; [exact A1|]. split; [auto|]. intros _. exact B2.
    + rewrite (bind_exn _ _ _ _ _ Ha). cbn [fst snd]. split; [exact A1|]. split; [auto|]. intro N. apply runL_exn, A3. congruence.
    + rewrite (bind_fuel _ _ _ _ Ha). cbn [fst snd]. split; [exact A1|]. split; [auto|]. intro N. apply runL_fuel, A3. congruence.
  - rewrite (bind_exn _ _ _ _ _ Hm). cbn [fst snd]. split; [exact Hc|]. split; [auto|]. intro N. apply runL_exn, M3. congruence.
  - rewrite (bind_fuel _ _ _ _ Hm). cbn [fst snd]. split; [exact Hc|]. split; [auto|]. intro N. apply runL_fuel, M3. congruence.
Qed.
Lemma m_bootstrap s l l' ks : n0 <= s -> same_members l l' ->
  matches (do _ <- bootstrap D s l; classes D s ks) (mdo found <- bootstrapL E consult s l'; classesL consult s found ks) (fun _ => True).
Proof.
  intros Hs Hl.
  assert (X : dmem (lit "$id") l' = dmem (lit "$id") l). { unfold dmem. pose proof (dget_same (lit "$id") _ _ Hl) as X. now destruct (dget (lit "$id") l), (dget (lit "$id") l'). }
  apply m_both with
    (x' := do _ <- add_keyword D s l (lit "$schema") (Std KSchema_); do _ <- add_keyword D s l (lit "$vocabulary") (Std KVocabulary_);
           do _ <- (if dmem (lit "$id") l then do d <- metaschema D s; add_keyword D s l (lit "$id") (match find_class d (lit "$id") with Some KId_ => Std KId_ | _ => Std KIdNext end) else ret tt); classes D s ks)
    (y' := mdo _ <- add_keywordL E s l' (lit "$schema") (Std KSchema_); mdo _ <- add_keywordL E s l' (lit "$vocabulary") (Std KVocabulary_);
           mdo found <- (if dmem (lit "$id") l' then mdo d <- metaschemaL consult s; mdo _ <- add_keywordL E s l' (lit "$id") (match find_class d (lit "$id") with Some KId_ => Std KId_ | _ => Std KIdNext end); retL (Some d) else retL None);
           classesL consult s found ks).
  - intro c. unfold bootstrap. rewrite bind_assoc. apply bind_ext. intros a c1. now rewrite bind_assoc.
  - intro st. unfold bootstrapL. rewrite bindL_assoc. apply bindL_ext. intros a c1. now rewrite bindL_assoc.
  - apply m_bind with (Q := fun _ => True); [now apply m_add|]. intros _ _. apply m_bind with (Q := fun _ => True); [now apply m_add|]. intros _ _. rewrite X. destruct (dmem (lit "$id") l).
    + refine (m_both _ _ _ _ _ _ _ (m_identified s l l' ks Hs Hl)); [intro c; apply bind_assoc|intro st; rewrite bindL_assoc; apply bindL_ext; intros d st1; apply bindL_assoc].
    + refine (m_both _ _ _ _ _ _ _ (m_kwclasses s ks)); [intro c; reflexivity|intro st; reflexivity].
Qed.
Lemma same_keys l l' : same_members l l' -> keys l' = keys l.
Proof. induction 1 as [|[k x] [k' y] l l' [E1 E2] F IH]; [reflexivity|]. unfold keys in *. cbn [map fst] in *. now rewrite E1, IH. Qed.
Lemma m_build_object s l l' : n0 <= s -> same_members l l' -> matches (build_object D s l) (build_objectL E consult s l') (fun _ => True).
Proof.
  intros Hs Hl. unfold build_object, build_objectL. apply m_bind with (Q := fun _ => True); [now apply m_on, k_read|]. intros o _.
  apply m_bind with (Q := fun _ => True).
  { destruct o as [[[u|] m [up|] ch d]|]; try solve [now apply m_ret]. now apply m_on, k_set_uri. }
  intros _ _. rewrite (same_keys _ _ Hl).
  eapply m_both; [intro c; symmetry; apply bind_assoc|intro st; symmetry; apply bindL_assoc|].
  apply m_bind with (Q := fun _ => True); [now apply m_bootstrap|]. intros cs _. apply m_bind with (Q := fun _ => True); [apply m_lift|]. intros order _.
  apply m_each. intros c _. now apply m_add.
Qed.
(** ** Documents. *)
Definition numberedL (id : pystr) : nat -> list json -> list (pystr * builderL) :=
  fix number (k : nat) (l : list json) : list (pystr * builderL) :=
    match l with
    | [] => []
    | x :: r => (str_of_nat k, fun up => buildL E consult id x None None (Some up)) :: number (S k) r
    end.
Definition member_ofL (id : pystr) (v : json) : memberL :=
  mkMemberL v (fun up => buildL E consult id v None None (Some up))
    (match v with
     | JArr l => numberedL id 0 l
     | JObj m => map (fun kv => (fst kv, fun up => buildL E consult id (snd kv) None None (Some up))) m
     | _ => []
     end).
Lemma buildL_object_eq id ms u m up : buildL E consult id (JObj ms) u m up =
  (mdo s <- on_cat (new_schema id u m up (SObj [])); mdo _ <- build_objectL E consult s (map (fun kv => (fst kv, member_ofL id (snd kv))) ms); retL s).
Proof. reflexivity. Qed.
Lemma m_build id : id <> apart -> forall v u m up, matches (build D id v u m up) (buildL E consult id v u m up) (fun s => n0 <= s).
Proof.
  intro Hid. assert (G : forall n v, jsize v < n -> forall u m up, matches (build D id v u m up) (buildL E consult id v u m up) (fun s => n0 <= s)).
  { induction n as [|n IH]; intros v Hn u m up; [lia|].
    assert (Bad : matches (do _ <- new_schema id u m up (SObj []); throw EType) (mdo _ <- on_cat (new_schema id u m up (SObj [])); throwL EType) (fun s => n0 <= s)).
    { apply m_bind with (Q := fun s => n0 <= s); [apply m_on, k_new; [exact Hid|split; [exact Hid|constructor]]|]. intros _ _. apply m_throw. }
    destruct v as [|b|x|x|l|ms]; try exact Bad.
    - apply m_on, k_new; [exact Hid|split; [exact Hid|exact I]].
    - rewrite build_object_eq, buildL_object_eq. apply m_bind with (Q := fun s => n0 <= s); [apply m_on, k_new; [exact Hid|split; [exact Hid|constructor]]|].
      intros s Hs. apply m_bind with (Q := fun _ => True); [|intros _ _; now apply m_ret]. apply m_build_object; [exact Hs|].
      assert (F : Forall (fun kv => jsize (snd kv) < n) ms). { apply Forall_forall. intros kv Hk. apply jsize_members in Hk. lia. }
      clear Hn. induction F as [|[k v] ms Hk F IHm]; [constructor|]. constructor; [|exact IHm]. cbn [fst snd] in *. split; [reflexivity|]. split; [reflexivity|]. split; [intro up'; now apply IH|].
      cbn [mb_items ml_items member_of member_ofL]. destruct v as [|b|x|x|l|m']; try constructor.
      + assert (Fl : Forall (fun x => jsize x < n) l). { apply Forall_forall. intros x Hx. apply jsize_items in Hx. lia. }
        clear Hk. generalize 0. induction Fl as [|x l Hx Fl IHl]; intro k0; [constructor|]. cbn [numbered numberedL]. constructor; [|apply IHl]. split; [reflexivity|]. intro up'. cbn [snd]. now apply IH.
      + assert (Fm : Forall (fun kv => jsize (snd kv) < n) m'). { apply Forall_forall. intros kv Hv. apply jsize_members in Hv. lia. }
        clear Hk. induction Fm as [|[k1 v1] m' Hx Fm IHl]; [constructor|]. cbn [map]. constructor; [|exact IHl]. split; [reflexivity|]. intro up'. cbn [snd] in *. now apply IH. }
  intros v. apply (G (S (jsize v))). lia.
Qed.
(** ** References. *)
Section References.
Variable resolve : sid -> M unit.
Variable resolve' : sid -> ML unit.
Hypothesis Resolve : forall s, n0 <= s -> matches (resolve s) (resolve' s) (fun _ => True).
Lemma m_construct id v u m : id <> apart ->
  matches (construct_with D resolve id v u m) (construct_withL E consult resolve' id v u m) (fun s => n0 <= s).
Proof.
  intro Hid. unfold construct_with, construct_withL. apply m_bind with (Q := fun s => n0 <= s); [now apply m_build|]. intros s Hs.
  destruct v; try solve [now apply m_ret]. apply m_bind with (Q := fun _ => True); [now apply Resolve|]. intros _ _. now apply m_ret.
Qed.
Lemma m_get id u m : id <> apart -> matches (get_schema_with D resolve id u m) (get_schema_withL E consult resolve' id u m) (fun _ => True).
Proof.
  intro Hid. unfold get_schema_with, get_schema_withL. apply m_bind with (Q := fun _ => True); [now apply m_on, k_read|]. intros [s|] _; [now apply m_ret|].
  apply m_bind with (Q := fun _ => True); [now apply m_on, k_read|]. intros known _. apply m_bind with (Q := fun _ => True).
  - destruct known as [s|]; [now apply m_ret|]. apply m_bind with (Q := fun _ => True); [apply m_lift|]. intros doc _.
    apply m_bind with (Q := fun _ => True); [eapply m_weaken; [now apply m_construct|auto]|]. intros s _.
    apply m_bind with (Q := fun _ => True); [now apply m_on, k_read|]. intros again _. now apply m_ret.
  - intros [s [t|]] _; [now apply m_ret|]. destruct (u_frag u) as [[|x f]|]; try solve [now apply m_ret].
    apply m_bind with (Q := fun _ => True); [now apply m_on, k_read|]. intros objs _. apply m_bind with (Q := fun _ => True); [apply m_lift|].
    intros [t|v] _; [now apply m_ret|apply m_throw].
Qed.
Lemma m_resolve_keyword s key k : n0 <= s -> matches (resolve_keyword D resolve s key k) (resolve_keywordL E consult resolve' s key k) (fun _ => True).
Proof.
  intro Hs. unfold resolve_keyword, resolve_keywordL.
  apply m_bind with (Q := fun objs => match nth_error objs s with Some o => so_cache o | None => [] end <> apart).
  { apply m_on, k_read. intros c Hc. destruct (nth_error (c_objs c) s) as [o|] eqn:Ho; [exact (proj1 (on_new c Hc _ _ Hs Ho))|]. congruence. }
  intros objs Hid. cbv zeta. set (id := match nth_error objs s with Some o => so_cache o | None => [] end) in *.
  assert (Abs : matches (absolute_reference D s (kw_json k)) (on_cat (absolute_reference E s (kw_json k))) (fun _ => True)).
  { apply m_on. change (absolute_reference D) with (absolute_reference E). unfold absolute_reference. apply k_bind with (Q := fun _ => True); [apply k_lift|]. intros u _. apply k_bind with (Q := fun _ => True); [now apply k_read|].
    intros o _. destruct (ul_absolute (e_lib E) (no_fragment u)); [now apply k_ret|]. destruct (base_uri o s); [now apply k_ret|apply k_throw]. }
  assert (Plain : matches (do u <- absolute_reference D s (kw_json k); do t <- get_schema_with D resolve id u (metaschema_uri objs s); set_ref s key t false)
    (mdo u <- on_cat (absolute_reference E s (kw_json k)); mdo t <- get_schema_withL E consult resolve' id u (metaschema_uri objs s); on_cat (set_ref s key t false)) (fun _ => True)).
  { apply m_bind with (Q := fun _ => True); [exact Abs|]. intros u _. apply m_bind with (Q := fun _ => True); [now apply m_get|]. intros t _. now apply m_on, k_set_ref. }
  destruct (kw_class k) as [c|x]; [|exact Plain]. destruct c; try exact Plain.
  - apply m_bind with (Q := fun _ => True); [exact Abs|]. intros u _. apply m_bind with (Q := fun _ => True); [now apply m_get|]. intros t _.
    apply m_bind with (Q := fun _ => True); [now apply m_on, k_set_ref|]. intros _ _. apply m_bind with (Q := fun _ => True); [now apply m_on, k_read|]. intros o _.
    apply m_bind with (Q := fun _ => True); [apply m_lift|]. intros [|] _; [now apply m_on, k_set_ref|now apply m_ret].
  - destruct (base_uri objs s) as [b|]; [|apply m_throw]. apply m_bind with (Q := fun _ => True); [now apply m_get|]. intros t _. now apply m_on, k_set_ref.
Qed.
End References.
Lemma m_resolve fuel : forall s, n0 <= s -> matches (resolve_references D fuel s) (resolve_referencesL E consult fuel s) (fun _ => True).
Proof.
  induction fuel as [|f IH]; intros s Hs.
  - intros c Hc. cbn. split; [exact Hc|]. split; [intros a X; discriminate X|reflexivity].
  - cbn [resolve_references resolve_referencesL]. apply m_bind with (Q := Forall (fun kk => subs_from (kw_json (snd kk)))).
    + apply m_on, k_read. intros c Hc. unfold schema_keywords, objs_world. cbn [w_schema]. destruct (nth_error (c_objs c) s) as [o|] eqn:Ho; [|constructor].
      destruct (on_new c Hc _ _ Hs Ho) as [_ X]. destruct (so_data o); [constructor|exact X].
    + intros kws Hk. apply m_each. intros [key k] Hin. cbn [fst snd]. rewrite Forall_forall in Hk. specialize (Hk _ Hin). cbn [snd] in Hk.
      destruct (reference_class (kw_class k)); [now apply m_resolve_keyword|]. destruct (kw_json k) as [v|t|ts|ts]; cbn [subs_from] in Hk; [now apply m_ret|now apply IH| |].
      * apply m_each. rewrite Forall_forall in Hk. intros t Ht. apply IH. now apply Hk.
      * apply m_each. rewrite Forall_forall in Hk. intros t Ht. apply IH. now apply Hk.
Qed.
End Late.

(** The metaschemas cached at the start are found without loading. *)
Lemma find_known E see fuel st0 c u d : onward st0 meta_id c -> known_dialects st0 u = Some d ->
  consult_late E see fuel u (emb st0 c) = (Ok d, emb st0 c).
Proof.
  intros Hc. unfold known_dialects, consult_late, bindL, cached_metaschema. intro H.
  assert (X : cached_metaschema (emb st0 c) u = cached_metaschema st0 u \/ cached_metaschema st0 u = None).
  { unfold cached_metaschema. cbn [mc_cat emb with_cat]. rewrite (on_cache _ _ _ Hc). destruct (cached meta_id u (c_cache (mc_cat st0))) as [s|]; [|now left].
    unfold has_data. destruct (nth_error (c_objs (mc_cat st0)) s) as [o|] eqn:Ho; [|now right].
    rewrite (on_old _ _ _ Hc s) by (apply nth_error_Some; congruence). rewrite Ho. left. reflexivity. }
  fold (cached_metaschema st0 u) in H.
  assert (Y : exists p, cached_metaschema st0 u = Some (Ok p) /\ provided (snd p) = d).
  { destruct (cached_metaschema st0 u) as [[[s m]|e|]|]; try discriminate H. injection H as <-. exists (s, m). auto. }
  destruct Y as (p & Y & <-). destruct X as [X|X]; [|congruence]. rewrite Y in X.
  destruct fuel as [|f]; cbn [find_metaschema]; rewrite X; reflexivity.
Qed.
