(** Documents written in one dialect give schemas as evaluation expects them,
    even where construction fails half-way, and whatever there is in other
    caches. *)
From Coq Require Import List Lia Bool Permutation.
From Verif Require Export BuildSteps SpecWritten.
Import ListNotations.
Open Scope nat_scope.

(** What the json attribute can be. *)
Inductive json_of : kwclass -> json -> kjson -> Prop :=
| jo_plain c v : mixins c = [] -> json_of c v (KJ v)
| jo_sub c v t : In MSub (mixins c) -> json_of c v (KSub t)
| jo_arr c l ts : In MArr (mixins c) -> length ts = length l -> json_of c (JArr l) (KSubs ts)
| jo_text c t : In MArr (mixins c) -> json_of c (JStr t) (KJ (JStr t))
| jo_obj c m ts : In MObj (mixins c) -> keys ts = keys m -> json_of c (JObj m) (KSubm ts).

Section Good.
Variable id : pystr.
Variable ms : uri -> bool.
Variable d : list stdclass.
Variable avoid : list pystr.
(** What else the members of the documents satisfy. *)
Variable also : pystr -> json -> bool.
Hypothesis Boot : find_class d (lit "$schema") = Some KSchema_ /\ find_class d (lit "$vocabulary") = Some KVocabulary_ /\
  (find_class d (lit "$id") = Some KId_ \/ find_class d (lit "$id") = Some KIdNext).
Notation B := (belongs id).

Definition cls (key : pystr) : kwclass := match find_class d key with Some c => Std c | None => Unknown key end.
Definition good_kw (key : pystr) (k : keyword) : Prop :=
  value_ok k = true /\ kw_class k = cls key /\ mem_str key avoid = false /\ (kw_dynamic k = true -> kw_class k = Std KDynamicRef) /\
  exists v, also key v = true /\ json_of (cls key) v (kw_json k).
Definition good_kws (kws : list (pystr * keyword)) : Prop :=
  NoDup (keys kws) /\ (forall key k, In (key, k) kws -> good_kw key k) /\
  (forall key k n, In (key, k) kws -> In n (depends_on (kw_class k)) -> In n (keys kws) -> earlier n key (keys kws)).
(** The schemas of the cache are good, and the metaschemas they name are among
    [ms]. *)
Definition fine (c : cat) : Prop :=
  (forall s kws, B c s -> keywords_at (c_objs c) s kws -> good_kws kws) /\
  (forall s o m, nth_error (c_objs c) s = Some o -> so_cache o = id -> so_meta o = Some m -> ms m = true).
Definition Inv (c : cat) : Prop := shut id c /\ fine c.

Definition run {A} (P : cat -> Prop) (x : M A) (Q : A -> cat -> Prop) : Prop :=
  forall c, Inv c -> P c -> Inv (snd (x c)) /\ more id c (snd (x c)) /\ forall a, fst (x c) = Ok a -> Q a (snd (x c)).
Lemma run_bind {A X} P (x : M A) (f : A -> M X) Q R : run P x Q -> (forall a, run (Q a) (f a) R) -> run P (bindM x f) R.
Proof.
  intros Hx Hf c I S. destruct (Hx c I S) as (I1 & L1 & Q1). unfold bindM. destruct (x c) as [[a| |] c1]; cbn [fst snd] in *; try (split; [exact I1|split; [exact L1|discriminate]]).
  destruct (Hf a c1 I1 (Q1 a eq_refl)) as (I2 & L2 & Q2). split; [exact I2|]. split; [exact (more_trans _ _ _ _ L1 L2)|exact Q2].
Qed.
Lemma run_ret {A} (P : cat -> Prop) (a : A) (Q : A -> cat -> Prop) : (forall c, P c -> Q a c) -> run P (ret a) Q.
Proof. intros H c I S. split; [exact I|]. split; [apply more_refl|]. cbn. intros ? [= <-]. auto. Qed.
Lemma run_throw {A} (P : cat -> Prop) e (Q : A -> cat -> Prop) : run P (throw e) Q.
Proof. intros c I S. split; [exact I|]. split; [apply more_refl|discriminate]. Qed.
Lemma run_lift {A} (P : cat -> Prop) (r : res A) (Q : A -> cat -> Prop) : (forall a c, r = Ok a -> P c -> Q a c) -> run P (lift r) Q.
Proof. intros H c I S. split; [exact I|]. split; [apply more_refl|]. cbn. auto. Qed.
Lemma run_read {A} (P : cat -> Prop) (f : cat -> A) (Q : A -> cat -> Prop) : (forall c, Inv c -> P c -> Q (f c) c) -> run P (read f) Q.
Proof. intros H c I S. split; [exact I|]. split; [apply more_refl|]. cbn. intros ? [= <-]. auto. Qed.
Lemma run_weaken {A} (P P' : cat -> Prop) (x : M A) (Q Q' : A -> cat -> Prop) : (forall c, P' c -> P c) -> (forall a c, Q a c -> Q' a c) -> run P x Q -> run P' x Q'.
Proof. intros HP HQ H c I S. destruct (H c I (HP c S)) as (A1 & A2 & A3). split; [exact A1|]. split; [exact A2|]. intros a Ha. apply HQ, A3, Ha. Qed.
Lemma run_ex {A K} (P : K -> cat -> Prop) (H : K -> Prop) (x : M A) Q : (forall k, H k -> run (P k) x Q) -> run (fun c => exists k, P k c /\ H k) x Q.
Proof. intros Hx c I (k & Hc & Hk). exact (Hx k Hk c I Hc). Qed.
Lemma run_and {A} (P : cat -> Prop) (H : Prop) (x : M A) Q : (H -> run P x Q) -> run (fun c => P c /\ H) x Q.
Proof. intros Hx c I (Hc & Hk). exact (Hx Hk c I Hc). Qed.
Lemma run_keep {A} P (x : M A) Q s : run P x Q -> run (fun c => P c /\ B c s) x (fun a c => Q a c /\ B c s).
Proof. intros H c I [S Hs]. destruct (H c I S) as (A1 & A2 & A3). split; [exact A1|]. split; [exact A2|]. intros a Ha. split; [exact (A3 a Ha)|exact (A2 _ Hs)]. Qed.
Lemma run_also {A} (P : cat -> Prop) (x : M A) Q Q1 : run P x Q -> (forall c, P c -> shuts id c x Q1) -> run P x (fun a c => Q a c /\ Q1 a c).
Proof.
  intros H H1 c I S. destruct (H c I S) as (A1 & A2 & A3). destruct (H1 c S c (more_refl id c) (proj1 I)) as (_ & _ & A4). split; [exact A1|]. split; [exact A2|]. auto.
Qed.
Lemma run_mapM {A X} P (f : A -> M X) l : (forall a, In a l -> run P (f a) (fun _ => P)) -> run P (mapM f l) (fun _ => P).
Proof.
  induction l as [|a l IH]; intro H; [apply run_ret; auto|]. cbn [mapM]. apply (run_bind _ _ _ (fun _ => P)); [apply H; now left|]. intro y.
  apply (run_bind _ _ _ (fun _ => P)); [apply IH; intros; apply H; now right|]. intro ys. apply run_ret. auto.
Qed.
Lemma run_each {A} P (f : A -> M unit) l : (forall a, In a l -> run P (f a) (fun _ => P)) -> run P (each_ f l) (fun _ => P).
Proof.
  induction l as [|a l IH]; intro H; [apply run_ret; auto|]. cbn [each_]. apply (run_bind _ _ _ (fun _ => P)); [apply H; now left|]. intro y.
  apply IH. intros; apply H; now right.
Qed.

(** Steps that change neither data nor metaschemas. *)
Definition part (o : sobj) := (so_meta o, so_cache o, so_data o).
Definition quiet (c c' : cat) : Prop := forall i, option_map part (nth_error (c_objs c') i) = option_map part (nth_error (c_objs c) i).
Lemma pre_quiet : preorder quiet.
Proof. split; [intros c i; reflexivity|]. intros a b c H1 H2 i. now rewrite H2, H1. Qed.
Lemma quiet_nth c c' i o' : quiet c c' -> nth_error (c_objs c') i = Some o' -> exists o, nth_error (c_objs c) i = Some o /\ part o = part o'.
Proof. intros H Ho. specialize (H i). rewrite Ho in H. destruct (nth_error (c_objs c) i) as [o|]; [|discriminate H]. cbn in H. injection H as H1 H2 H3. exists o. split; [reflexivity|]. unfold part. congruence. Qed.
Lemma quiet_back c c' : quiet c c' -> quiet c' c.
Proof. intros H i. symmetry. apply H. Qed.
Lemma quiet_at c c' s kws : quiet c c' -> keywords_at (c_objs c') s kws -> keywords_at (c_objs c) s kws.
Proof. intros H (o' & Ho & D). destruct (quiet_nth _ _ _ _ H Ho) as (o & Hn & Hp). unfold part in Hp. injection Hp as _ _ Hp. exists o. split; [exact Hn|congruence]. Qed.
Lemma quiet_belongs c c' s : quiet c c' -> B c' s -> B c s.
Proof. intros H (o' & Ho & D). destruct (quiet_nth _ _ _ _ H Ho) as (o & Hn & Hp). unfold part in Hp. injection Hp as _ Hp _. exists o. split; [exact Hn|congruence]. Qed.
Lemma quiet_fine c c' : quiet c c' -> fine c -> fine c'.
Proof.
  intros H [F1 F2]. split.
  - intros s kws Hs K. apply (F1 s); [exact (quiet_belongs _ _ _ H Hs)|exact (quiet_at _ _ _ _ H K)].
  - intros s o' m Ho Hc Hm. destruct (quiet_nth _ _ _ _ H Ho) as (o & Hn & Hp). unfold part in Hp. injection Hp as H1 H2 _. apply (F2 s o); congruence.
Qed.
Definition stands (s : sid) (kws : list (pystr * keyword)) (c : cat) : Prop := B c s /\ keywords_at (c_objs c) s kws.
Lemma run_quiet {A} s kws (x : M A) : framed quiet x -> (forall c, B c s -> shuts id c x whatever) -> run (stands s kws) x (fun _ => stands s kws).
Proof.
  intros F H c [Sh Fi] [Hs K]. destruct (H c Hs c (more_refl id c) Sh) as (A1 & A2 & _). pose proof (F c) as Q. split; [split; [exact A1|exact (quiet_fine _ _ Q Fi)]|]. split; [exact A2|].
  intros _ _. split; [exact (A2 _ Hs)|]. exact (quiet_at _ _ _ _ (quiet_back _ _ Q) K).
Qed.
Lemma quiet_update s f : (forall o, part (f o) = part o) -> framed quiet (update s f).
Proof.
  intros H c i. unfold update, modify. cbn [snd]. destruct (nth_error (c_objs c) s) as [o|] eqn:N; [|reflexivity]. unfold put_obj. cbn [c_objs].
  destruct (Nat.eq_dec s i) as [<-|Ni].
  - rewrite nth_set_nth_same by (apply nth_error_Some; congruence). rewrite N. cbn. now rewrite H.
  - now rewrite nth_set_nth_other.
Qed.
Lemma quiet_cache i u s : framed quiet (cache_schema i u s). Proof. intros c j. reflexivity. Qed.
Lemma quiet_uncache i u : framed quiet (uncache_schema i u). Proof. intros c j. reflexivity. Qed.
Ltac frames :=
  repeat lazymatch goal with
    | |- framed _ (bindM _ _) => apply (framed_bind _ pre_quiet); [|intro]
    | |- framed _ (ret _) => apply (framed_ret _ pre_quiet)
    | |- framed _ (throw _) => apply (framed_throw _ pre_quiet)
    | |- framed _ (lift _) => apply (framed_lift _ pre_quiet)
    | |- framed _ (read _) => apply (framed_read _ pre_quiet)
    | |- framed _ (update _ _) => apply quiet_update; intro; reflexivity
    | |- framed _ (cache_schema _ _ _) => apply quiet_cache
    | |- framed _ (uncache_schema _ _) => apply quiet_uncache
    end.
Lemma quiet_set_uri L s u : framed quiet (set_uri L s u).
Proof.
  unfold set_uri. frames. destruct a as [o|]; [|frames]. destruct (match so_uri o with Some u' => uri_same L u' u | None => false end); [frames|]. frames. destruct (so_uri o); frames.
Qed.

Section Env.
Variable E : env.
Variable ok : pystr -> json -> bool.
Hypothesis Sp : (forall u d', ms u = true -> e_dialect E u = Some d' -> d' = d) /\
  (forall u doc, load_json (e_lib E) (e_sources E) u = Ok doc -> jwf doc = true /\ proper_with d ok doc = true).
Hypothesis Hok : forall key v, ok key v = true -> declares (e_lib E) ms avoid key v = true /\ also key v = true.

Lemma quiet_init_id next s v : framed quiet (init_id E next s v).
Proof. unfold init_id. frames; [|apply quiet_set_uri]. destruct (ul_absolute (e_lib E) a); [frames|]. destruct (base_uri a1 s); frames. Qed.
Lemma quiet_init_anchor s v : framed quiet (init_anchor E s v).
Proof. unfold init_anchor. frames. destruct v, (base_uri a s), (nth_error a s); frames. Qed.
Lemma run_init_schema s kws v : (forall t, v = JStr t -> ms (ul_parse (e_lib E) t) = true) -> run (stands s kws) (init_schema E s v) (fun _ => stands s kws).
Proof.
  intro Hv. unfold init_schema. apply (run_bind _ _ _ (fun u c => stands s kws c /\ ms u = true)).
  { apply run_lift. intros u c Hu S. split; [exact S|]. destruct v; try discriminate Hu. cbn [parse_uri] in Hu. injection Hu as <-. now apply Hv. }
  intro u. apply run_and. intro Mu. apply (run_bind _ _ _ (fun _ => stands s kws)); [apply run_lift; auto|]. intros _ c [Sh [F1 F2]] [Hs K].
  destruct (shuts_head id c s (with_meta (Some u)) ltac:(auto) c (more_refl id c) Sh) as (A1 & A2 & _).
  revert A1 A2. unfold update, modify. cbn [fst snd]. destruct Hs as (o & Ho & Hc). rewrite Ho. unfold put_obj. set (c' := mkCat _ _). intros A1 A2.
  assert (L : s < length (c_objs c)) by (apply nth_error_Some; congruence).
  assert (N : forall i x, nth_error (c_objs c') i = Some x -> exists y, nth_error (c_objs c) i = Some y /\ so_cache y = so_cache x /\ so_data y = so_data x /\ (so_meta y = so_meta x \/ so_meta x = Some u)).
  { intros i x Hx. cbn [c' c_objs] in Hx. destruct (Nat.eq_dec s i) as [<-|Ni]; [rewrite nth_set_nth_same in Hx by exact L; injection Hx as <-; exists o; auto|].
    rewrite nth_set_nth_other in Hx by exact Ni. exists x. auto. }
  split; [split; [exact A1|]; split|].
  - intros i kws' (x & Hx & Cx) (x' & Hx' & D). rewrite Hx in Hx'. injection Hx' as <-. destruct (N i x Hx) as (y & Hy & Cy & Dy & _). apply (F1 i); exists y; (split; [exact Hy|congruence]).
  - intros i x m Hx Cx Hm. destruct (N i x Hx) as (y & Hy & Cy & Dy & [My|My]); [apply (F2 i y); congruence|congruence].
  - split; [exact A2|]. intros _ _. split; [apply A2; exists o; auto|]. destruct K as (o' & Ho' & D). rewrite Ho in Ho'. injection Ho' as <-. exists (with_meta (Some u) o). split; [cbn [c' c_objs]; now apply nth_set_nth_same|exact D].
Qed.

(** ** One keyword. *)
Definition fits (v : json) (c : kwclass) : Prop := match c with Std c => value_fits c v = true | Unknown _ => True end.

Lemma strings_texts l : forallb is_text l = true -> exists ss, strings l = Some ss.
Proof.
  induction l as [|v l IH]; cbn; [eauto|]. rewrite andb_true_iff. intros [H1 H2]. destruct v; try discriminate H1. destruct (IH H2) as [ss ->]. cbn. eauto.
Qed.
Lemma mapM_length {A B} (f : A -> M B) l : forall st ys st', mapM f l st = (Ok ys, st') -> length ys = length l.
Proof.
  induction l as [|x l IH]; intros st ys st' H; cbn [mapM] in H.
  - apply ret_ok in H. destruct H as [<- _]. reflexivity.
  - apply bind_ok in H. destruct H as (y & c1 & _ & H). apply bind_ok in H. destruct H as (zs & c2 & H2 & H). apply ret_ok in H. destruct H as [<- _]. cbn. f_equal. eauto.
Qed.
Lemma mapM_keys s key (items : list (pystr * builder)) : forall st ts st',
  mapM (fun kb => do t <- snd kb (s, [key; fst kb]); ret (fst kb, t)) items st = (Ok ts, st') -> keys ts = keys items.
Proof.
  induction items as [|[k b] l IH]; intros st ys st' H; cbn [mapM] in H.
  - apply ret_ok in H. destruct H as [<- _]. reflexivity.
  - apply bind_ok in H. destruct H as (y & c1 & H1 & H). apply bind_ok in H1. destruct H1 as (t & c3 & _ & H1). apply ret_ok in H1. destruct H1 as [<- _].
    apply bind_ok in H. destruct H as (zs & c2 & H2 & H). apply ret_ok in H. destruct H as [<- _]. unfold keys in *. cbn. f_equal. eauto.
Qed.

Lemma keyword_json_shape s key c v st j st' : keyword_json s key c (member_of E id v) st = (Ok j, st') -> json_of c v j.
Proof.
  intro H. unfold keyword_json in H. destruct (mixins c) as [|m0 ms0] eqn:M.
  - apply ret_ok in H. destruct H as [<- _]. now apply jo_plain.
  - assert (G : forall mx, (forall m, In m mx -> In m (mixins c)) -> try_mixins s key (member_of E id v) mx st = (Ok j, st') -> json_of c v j).
    { clear H M. intro mx. induction mx as [|m mx IH]; intros Hm H; [discriminate H|]. cbn [try_mixins] in H. destruct (jsonify s key (member_of E id v) m) as [x|] eqn:J; [|apply IH; [intros; apply Hm; now right|exact H]].
      specialize (Hm m (or_introl eq_refl)). unfold jsonify in J. cbn [mb_value member_of] in J. destruct m, v as [|b|n|t|l|m']; try discriminate J; injection J as <-.
      - apply bind_ok in H. destruct H as (t & c1 & _ & H). apply ret_ok in H. destruct H as [<- _]. now apply jo_sub.
      - apply bind_ok in H. destruct H as (t & c1 & _ & H). apply ret_ok in H. destruct H as [<- _]. now apply jo_sub.
      - apply ret_ok in H. destruct H as [<- _]. now apply jo_text.
      - apply bind_ok in H. destruct H as (ts & c1 & H1 & H). apply ret_ok in H. destruct H as [<- _]. apply jo_arr; [exact Hm|]. apply mapM_length in H1. rewrite H1. cbn [mb_items member_of].
        clear. generalize 0. induction l; intro n; cbn; [reflexivity|]. now rewrite IHl.
      - apply bind_ok in H. destruct H as (ts & c1 & H1 & H). apply ret_ok in H. destruct H as [<- _]. apply jo_obj; [exact Hm|]. apply mapM_keys in H1. rewrite H1. cbn [mb_items member_of]. unfold keys. now rewrite map_map. }
    apply (G (m0 :: ms0)); [now rewrite M|exact H].
Qed.
Lemma value_ok_of c v j fr fo : jwf v = true -> fits v c -> json_of c v j -> value_ok (mkKw c j None false fr fo) = true.
Proof.
  intros Wf F H. unfold value_ok. cbn [kw_json kw_class]. apply andb_true_iff. split.
  - destruct H; try reflexivity. apply jwf_obj in Wf. apply nodup_keysb_NoDup. rewrite H0. exact (proj1 Wf).
  - destruct H as [c v Mx|c v t Mx|c l ts Mx Hl|c t Mx|c m ts Mx Hk]; (destruct c as [c|]; [|reflexivity]); destruct c; try reflexivity; cbn in Mx;
      try solve [destruct Mx as [Mx|Mx]; [discriminate Mx|destruct Mx]]; try solve [destruct Mx as [Mx|[Mx|[]]]; discriminate Mx]; try discriminate Mx; cbn in F; try discriminate F; try (destruct Mx; fail).
    all: try (destruct v; try discriminate F; try reflexivity; try (apply strings_texts in F; destruct F as [ss ->]; reflexivity)).
    all: try (rewrite forallb_forall in *; intros kv Hkv; specialize (F kv Hkv); destruct (snd kv); try discriminate F; apply strings_texts in F; destruct F as [ss ->]; reflexivity).
    all: try (destruct l; [discriminate F|]; destruct ts; [discriminate Hl|reflexivity]).
Qed.

Definition up_in (up : option (sid * list pystr)) (c : cat) : Prop := match up with Some (p, _) => B c p | None => True end.
Definition sound (v : json) : Prop := forall u m up, (forall m', m = Some m' -> ms m' = true) -> run (up_in up) (build E id v u m up) (fun s c => B c s).
(** The values that class [c] makes schemas of. *)
Definition sounds (c : kwclass) (v : json) : Prop :=
  (In MSub (mixins c) -> sound v) /\
  (In MArr (mixins c) -> forall l w, v = JArr l -> In w l -> sound w) /\
  (In MObj (mixins c) -> forall m kv, v = JObj m -> In kv m -> sound (snd kv)).
Lemma sound_at s key v : sound v -> run (fun c => B c s) (build E id v None None (Some (s, key))) (fun _ c => B c s).
Proof.
  intro H. eapply run_weaken; [intros c Hc; exact (conj Hc Hc)| |apply (run_keep _ _ _ s (H None None (Some (s, key)) ltac:(discriminate)))]. intros a c [_ Hs]. exact Hs.
Qed.
Lemma json_keeps s key c v : sounds c v -> run (fun st => B st s) (keyword_json s key c (member_of E id v)) (fun _ st => B st s).
Proof.
  intros (S1 & S2 & S3). unfold keyword_json. destruct (mixins c) as [|m0 ms0] eqn:M; [apply run_ret; auto|]. rewrite <- M in *.
  assert (G : forall mx, (forall m, In m mx -> In m (mixins c)) -> run (fun st => B st s) (try_mixins s key (member_of E id v) mx) (fun _ st => B st s)).
  { clear M. intro mx. induction mx as [|m mx IH]; intros Hm; [apply run_throw|]. cbn [try_mixins].
      destruct (jsonify s key (member_of E id v) m) as [x|] eqn:J; [|apply IH; intros; apply Hm; now right].
      specialize (Hm m (or_introl eq_refl)). unfold jsonify in J. cbn [mb_value member_of] in J. destruct m, v as [|b|n|t|l|m']; try discriminate J; injection J as <-; try (apply run_ret; auto);
        (apply (run_bind _ _ _ (fun _ st => B st s)); [|intro; apply run_ret; auto]).
      + exact (sound_at s [key] _ (S1 Hm)).
      + exact (sound_at s [key] _ (S1 Hm)).
      + apply run_mapM. intros [k b] Hb. cbn [mb_items member_of] in Hb. apply in_numbered in Hb. destruct Hb as (i & w & Hi & [= _ ->]). cbn [snd]. apply sound_at, (S2 Hm _ _ eq_refl (nth_error_In _ _ Hi)).
      + apply run_mapM. intros [k b] Hb. cbn [mb_items member_of] in Hb. apply in_map_iff in Hb. destruct Hb as ([k1 v1] & [= <- <-] & Hv1). cbn [fst snd].
        apply (run_bind _ _ _ (fun _ st => B st s)); [|intro; apply run_ret; auto]. apply sound_at, (S3 Hm _ _ eq_refl Hv1). }
  rewrite M. apply G. now rewrite M.
Qed.
Lemma calm_member v : calm (member_of E id v).
Proof.
  split; [intro; apply framed_build|]. intros k b up Hb. cbn [mb_items member_of] in Hb. destruct v as [|?|?|?|l|m']; try destruct Hb.
  - apply in_numbered in Hb. destruct Hb as (i & w & Hi & [= _ ->]). apply framed_build.
  - apply in_map_iff in Hb. destruct Hb as ([k1 v1] & [= <- <-] & Hv1). apply framed_build.
Qed.
Lemma in_member v : member_in id (member_of E id v).
Proof.
  assert (G : forall w, makes_in id (fun up => build E id w None None (Some up))).
  { intros w c0 p ks Hp. apply shuts_build. intros ? ? [= <- <-]. exact Hp. }
  split; [apply G|]. intros k b Hb. cbn [mb_items member_of] in Hb. destruct v as [|?|?|?|l|m']; try destruct Hb.
  - apply in_numbered in Hb. destruct Hb as (i & w & Hi & [= _ ->]). apply G.
  - apply in_map_iff in Hb. destruct Hb as ([k1 v1] & [= <- <-] & Hv1). apply G.
Qed.
Lemma old_at c c' s kws : same_old c c' -> keywords_at (c_objs c) s kws -> keywords_at (c_objs c') s kws.
Proof. intros [_ H] (o & Ho & D). exists o. split; [|exact D]. rewrite H; [exact Ho|]. apply nth_error_Some. congruence. Qed.

Definition names (c : kwclass) (v : json) : Prop := c = Std KSchema_ -> forall t, v = JStr t -> ms (ul_parse (e_lib E) t) = true.
Lemma make_run s key c v kws : sounds c v -> names c v ->
  run (stands s kws) (make_keyword E s key c (member_of E id v))
      (fun k st => (stands s kws st /\ kw_class k = c /\ json_of c v (kw_json k) /\ kw_dynamic k = false) /\ kw_in id st k).
Proof.
  intros Sv Nv. apply run_also; [|intros st [Hs _]; apply shuts_make_keyword; [exact Hs|apply in_member]]. unfold make_keyword. apply (run_bind _ _ _ (fun j st => stands s kws st /\ json_of c v j)).
  { intros st I [Hs K]. destruct (json_keeps s key c v Sv st I Hs) as (I1 & L1 & _). split; [exact I1|]. split; [exact L1|]. intros j Hj. split; [split; [exact (L1 _ Hs)|]|].
    - exact (old_at _ _ _ _ (framed_keyword_json s key c _ (calm_member v) st) K).
    - destruct (keyword_json s key c (member_of E id v) st) as [r st1] eqn:Q. cbn in Hj. subst r. exact (keyword_json_shape _ _ _ _ _ _ _ Q). }
  intro j.
  assert (Plain : forall fr fo, run (fun st => stands s kws st /\ json_of c v j) (ret (mkKw c j None false fr fo))
                    (fun k st => stands s kws st /\ kw_class k = c /\ json_of c v (kw_json k) /\ kw_dynamic k = false)).
  { intros fr fo. apply run_ret. intros st [S J]. repeat (split; [assumption || reflexivity|]). reflexivity. }
  assert (Then : forall {A} (x : M A) f, run (stands s kws) x (fun _ => stands s kws) -> (forall a, run (fun st => stands s kws st /\ json_of c v j) (f a)
                    (fun k st => stands s kws st /\ kw_class k = c /\ json_of c v (kw_json k) /\ kw_dynamic k = false)) ->
                    run (fun st => stands s kws st /\ json_of c v j) (bindM x f) (fun k st => stands s kws st /\ kw_class k = c /\ json_of c v (kw_json k) /\ kw_dynamic k = false)).
  { intros A x f Fx Hf. apply (run_bind _ _ _ (fun _ st => stands s kws st /\ json_of c v j)); [|exact Hf].
    apply run_and. intro J. eapply run_weaken; [intros st S; exact S| |exact Fx]. intros a st S. exact (conj S J). }
  assert (Lift : forall {A} (r : res A), run (stands s kws) (lift r) (fun _ => stands s kws)) by (intros A r; apply run_lift; auto).
  destruct c as [c|k]; [|apply Plain].
  destruct c; try apply Plain; try (apply Then; [first [apply Lift|apply run_quiet; [apply quiet_init_id|intros ? ?; now apply shuts_init_id]|apply run_quiet; [apply quiet_init_anchor|intros ? ?; now apply shuts_init_anchor]|apply run_init_schema; exact (Nv eq_refl)]|intro; apply Plain]).
  - destruct (mb_value (member_of E id v)); try apply run_throw. destruct (str_eqb s0 (lit "#")); [apply Plain|apply run_throw].
  - destruct (mb_value (member_of E id v)); try apply run_throw. destruct (e_regex E s0); [apply Plain|apply run_throw].
Qed.

(** ** Adding keywords. *)

Lemma earlier_end n key l : In n l -> earlier n key (l ++ [key]).
Proof. intro H. apply in_split in H. destruct H as (l1 & l2 & ->). exists l1, l2, []. rewrite <- app_assoc. reflexivity. Qed.
Lemma earlier_more n key l l' : earlier n key l -> earlier n key (l ++ l').
Proof. intros (l1 & l2 & l3 & ->). exists l1, l2, (l3 ++ l'). rewrite <- !app_assoc. cbn. rewrite <- app_assoc. reflexivity. Qed.
Lemma good_snoc kws key k : good_kws kws -> ~ In key (keys kws) -> good_kw key k ->
  (forall key' k', In (key', k') kws -> ~ In key (depends_on (kw_class k'))) -> ~ In key (depends_on (kw_class k)) -> good_kws (kws ++ [(key, k)]).
Proof.
  intros (N & G & D) Nk Gk Hd Hs. split; [|split].
  - unfold keys. rewrite map_app. apply NoDup_app_single; assumption.
  - intros key' k' Hin. apply in_app_iff in Hin. destruct Hin as [Hin|[Q|[]]]; [now apply G|]. apply pair_equal_spec in Q. destruct Q as [<- <-]. exact Gk.
  - intros key' k' n Hin Hn Hk. unfold keys in *. rewrite map_app in *. cbn [map fst] in *. apply in_app_iff in Hin. apply in_app_iff in Hk. destruct Hin as [Hin|[Q|[]]].
    + destruct Hk as [Hk|[<-|[]]]; [|destruct (Hd _ _ Hin Hn)]. apply earlier_more. exact (D _ _ _ Hin Hn Hk).
    + apply pair_equal_spec in Q. destruct Q as [<- <-]. destruct Hk as [Hk|[<-|[]]]; [|contradiction]. now apply earlier_end.
Qed.

Definition ready_value (key : pystr) (v : json) : Prop :=
  sounds (cls key) v /\ fits v (cls key) /\ mem_str key avoid = false /\ jwf v = true /\ names (cls key) v /\ also key v = true.
Definition extends (kws kws' : list (pystr * keyword)) (key : pystr) : Prop :=
  kws' = kws \/ exists k, kws' = kws ++ [(key, k)] /\ kw_class k = cls key.
Lemma add_run s doc key kws :
  (forall v, dget key doc = Some v -> ready_value key v) -> ~ In key (keys kws) ->
  (forall key' k', In (key', k') kws -> ~ In key (depends_on (kw_class k'))) -> ~ In key (depends_on (cls key)) ->
  run (stands s kws) (add_keyword E s (map (fun kv => (fst kv, member_of E id (snd kv))) doc) key (cls key))
      (fun _ st => exists kws', stands s kws' st /\ extends kws kws' key).
Proof.
  intros R Nk Hd Hs. unfold add_keyword. rewrite (dget_mapped (member_of E id)). destruct (dget key doc) as [v|].
  2:{ apply run_ret. intros st S. exists kws. split; [exact S|now left]. }
  destruct (R v eq_refl) as (Sv & Fv & Av & Wv & Nv & Lv). eapply run_bind; [apply (make_run s key (cls key) v kws Sv Nv)|]. intro k. cbv beta.
  intros st [Sh [F1 F2]] (((Bs & o & Ho & D) & Kc & Kj & Kd) & Ki). destruct (shuts_keep_keyword id st s key k Ki st (more_refl id st) Sh) as (A1 & A2 & _).
  revert A1 A2. unfold keep_keyword, update, modify. cbn [fst snd]. rewrite Ho, D.
  assert (G : good_kws (kws ++ [(key, k)])).
  { apply good_snoc; [apply (F1 s kws Bs); now exists o|exact Nk| |exact Hd|now rewrite Kc].
    split; [|split; [exact Kc|split; [exact Av|split; [congruence|exists v; auto]]]]. destruct k as [kc kj kr kd kf ko]. cbn in *. subst kc.
    exact (value_ok_of (cls key) v kj kf ko Wv Fv Kj). }
  rewrite (dset_new _ _ _ Nk). unfold put_obj. cbn [c_objs]. set (st' := mkCat _ _). intros A1 A2.
  assert (L : s < length (c_objs st)) by (apply nth_error_Some; congruence).
  assert (Fine : fine st').
  { split.
    - intros i kws' (x & Hi & Cx) (x' & Hi' & Hx). rewrite Hi in Hi'. injection Hi' as <-. cbn [st' c_objs] in Hi. destruct (Nat.eq_dec s i) as [<-|Ni].
      + rewrite nth_set_nth_same in Hi by exact L. injection Hi as <-. cbn in Hx. injection Hx as <-. exact G.
      + rewrite nth_set_nth_other in Hi by exact Ni. apply (F1 i); now exists x.
    - intros i x m Hi Cx Hm. cbn [st' c_objs] in Hi. destruct (Nat.eq_dec s i) as [<-|Ni].
      + rewrite nth_set_nth_same in Hi by exact L. injection Hi as <-. cbn in Cx, Hm. exact (F2 s o m Ho Cx Hm).
      + rewrite nth_set_nth_other in Hi by exact Ni. exact (F2 i x m Hi Cx Hm). }
  split; [exact (conj A1 Fine)|]. split; [exact A2|]. intros _ _. exists (kws ++ [(key, k)]). split; [|right; exists k; auto]. split; [exact (A2 _ Bs)|].
  eexists. split; [cbn [st' c_objs]; now apply nth_set_nth_same|reflexivity].
Qed.

Lemma key_of_cls key : key_of (cls key) = key.
Proof. unfold cls. destruct (find_class d key) as [c|] eqn:F; [exact (find_class_key _ _ _ F)|reflexivity]. Qed.
Lemma split_unique {A} (x : A) l1 l2 : forall l1' l2', NoDup (l1 ++ x :: l2) -> l1 ++ x :: l2 = l1' ++ x :: l2' -> l1 = l1' /\ l2 = l2'.
Proof.
  induction l1 as [|y l1 IH]; intros [|y' l1'] l2' N H; cbn in *.
  - injection H as ->. auto.
  - injection H as -> H. inversion N as [|? ? N1 _]; subst. exfalso. apply N1. apply in_app_iff. right. now left.
  - injection H as -> H. inversion N as [|? ? N1 _]; subst. exfalso. apply N1. apply in_app_iff. right. now left.
  - injection H as -> H. inversion N as [|? ? N1 N2]; subst. destruct (IH _ _ N2 H) as [-> ->]. auto.
Qed.

Notation members doc := (map (fun kv => (fst kv, member_of E id (snd kv))) doc).
Lemma loop_run s doc order : forall kws,
  (forall c, In c order -> c = cls (key_of c) /\ ~ In (key_of c) (keys kws) /\ forall v, dget (key_of c) doc = Some v -> ready_value (key_of c) v) ->
  NoDup (map key_of order) ->
  (forall l1 c l2, order = l1 ++ c :: l2 -> forall c', In c' (c :: l2) -> ~ In (key_of c') (depends_on c)) ->
  (forall key k c, In (key, k) kws -> In c order -> ~ In (key_of c) (depends_on (kw_class k))) ->
  run (stands s kws) (each_ (fun c => add_keyword E s (members doc) (key_of c) c) order) (fun _ _ => True).
Proof.
  induction order as [|c order IH]; intros kws Hc N Ho Hk; cbn [each_].
  - apply run_ret. auto.
  - destruct (Hc c (or_introl eq_refl)) as (Ec & Nk & R). cbn [map] in N. inversion N as [|y l N1 N2]; subst y l.
    eapply run_bind.
    + rewrite Ec at 2. apply (add_run s doc (key_of c) kws R Nk).
      * intros key k H. apply (Hk key k c H). now left.
      * rewrite <- Ec. apply (Ho [] c order eq_refl). now left.
    + intros _ st Iv (kws' & S & X). cbv beta.
      refine (IH kws' _ N2 _ _ st Iv S).
      * intros c' H. destruct (Hc c' (or_intror H)) as (E' & Nk' & R'). split; [exact E'|]. split; [|exact R']. destruct X as [->|(k & -> & _)]; [exact Nk'|].
        unfold keys. rewrite map_app, in_app_iff. cbn. intros [Y|[Y|[]]]; [exact (Nk' Y)|]. apply N1. rewrite Y. now apply in_map.
      * intros l1 c1 l2 Q. apply (Ho (c :: l1) c1 l2). now rewrite Q.
      * intros key k c' H H'. destruct X as [->|(k0 & -> & K0)]; [exact (Hk key k c' H (or_intror H'))|]. apply in_app_iff in H. destruct H as [H|[H|[]]]; [exact (Hk key k c' H (or_intror H'))|].
        apply pair_equal_spec in H. destruct H as [_ <-]. rewrite K0, <- Ec. apply (Ho [] c order eq_refl). now right.
Qed.

(** ** Bootstrapping. *)
Definition booted (n : nat) (kws : list (pystr * keyword)) : Prop :=
  incl (keys kws) (firstn n bootstrapped) /\ forall key k, In (key, k) kws -> depends_on (kw_class k) = [].
Lemma cls_boot key : mem_str key bootstrapped = true -> depends_on (cls key) = [].
Proof. intro H. exact (no_boot_self key (cls key) H (key_of_cls key)). Qed.
Lemma boot_step n s doc key kws : booted n kws -> (forall v, dget key doc = Some v -> ready_value key v) ->
  nth_error bootstrapped n = Some key -> ~ In key (firstn n bootstrapped) ->
  run (stands s kws) (add_keyword E s (members doc) key (cls key)) (fun _ st => exists kws', stands s kws' st /\ booted (S n) kws').
Proof.
  intros [B1 B2] R Hn Nk. assert (Hm : mem_str key bootstrapped = true) by (apply mem_str_In; exact (nth_error_In _ _ Hn)).
  assert (Hf : incl (firstn n bootstrapped ++ [key]) (firstn (S n) bootstrapped)).
  { clear -Hn. revert n Hn. generalize bootstrapped. induction l as [|x l IH]; intros [|n] Hn; try discriminate Hn; cbn in *; [injection Hn as ->; intros y Hy; exact Hy|].
    intros y [<-|Hy]; [now left|]. right. exact (IH n Hn y Hy). }
  eapply run_weaken; [intros c H; exact H| |apply (add_run s doc key kws R)].
  - intros _ st (kws' & S & X). exists kws'. split; [exact S|]. destruct X as [->|(k & -> & K)].
    + split; [|exact B2]. intros y Hy. apply Hf. apply in_app_iff. left. exact (B1 y Hy).
    + split.
      * intros y Hy. apply Hf. unfold keys in Hy. rewrite map_app, in_app_iff in Hy. apply in_app_iff. destruct Hy as [Hy|Hy]; [left; exact (B1 y Hy)|right; exact Hy].
      * intros key' k' H. apply in_app_iff in H. destruct H as [H|[H|[]]]; [exact (B2 _ _ H)|]. apply pair_equal_spec in H. destruct H as [_ <-]. rewrite K. now apply cls_boot.
  - intro H. exact (Nk (B1 _ H)).
  - intros key' k' H. rewrite (B2 _ _ H). intros [].
  - rewrite (cls_boot _ Hm). intros [].
Qed.

Lemma names_meta c : Inv c -> forall n s u, B c s -> climb n (c_objs c) so_meta s = Some u -> ms u = true.
Proof.
  intros [(_ & _ & _ & U) [_ F2]]. induction n as [|n IH]; intros s u Hs H; [discriminate H|]. cbn [climb] in H. destruct Hs as (o & Ho & Hc). rewrite Ho in H.
  destruct (so_meta o) as [m|] eqn:Hm; [injection H as <-; exact (F2 s o m Ho Hc Hm)|]. destruct (so_up o) as [[p ks]|] eqn:Hu; [|discriminate H]. exact (IH p u (U s o p ks Ho Hc Hu) H).
Qed.
Lemma metaschema_run s kws : run (stands s kws) (metaschema E s) (fun d' st => stands s kws st /\ d' = d).
Proof.
  unfold metaschema. apply (run_bind _ _ _ (fun objs st => stands s kws st /\ forall u, metaschema_uri objs s = Some u -> ms u = true)).
  { apply run_read. intros st Iv S. split; [exact S|]. intros u Hu. exact (names_meta st Iv _ s u (proj1 S) Hu). }
  intro objs. apply run_and. intro Hm. destruct (metaschema_uri objs s) as [u|]; [|apply run_throw]. destruct (e_dialect E u) as [d0|] eqn:D; [|apply run_throw].
  apply run_ret. intros st S. split; [exact S|]. exact (proj1 Sp _ _ (Hm u eq_refl) D).
Qed.
Lemma classes_run s kws ks :
  run (stands s kws) (classes E s ks) (fun cs st => stands s kws st /\ keys cs = ks /\ forall key c, In (key, c) cs -> c = cls key).
Proof.
  induction ks as [|key ks IH]; cbn [classes mapM].
  - apply run_ret. intros st S. split; [exact S|]. split; [reflexivity|intros ? ? []].
  - apply (run_bind _ _ _ (fun x st => stands s kws st /\ x = (key, cls key))).
    + eapply run_bind; [apply metaschema_run|]. intro d'. cbv beta. apply run_and. intros ->. apply (run_bind _ _ _ (fun c st => stands s kws st /\ c = cls key)).
      * apply run_lift. intros c st Hc S. split; [exact S|]. unfold get_kwclass in Hc. unfold cls.
        destruct (find_class d key); [now injection Hc as <-|]. unfold name_class in Hc. destruct key as [|x key]; [discriminate Hc|].
        destruct (existsb surrogate _); [discriminate Hc|]. destruct (existsb _ _); [discriminate Hc|]. now injection Hc as <-.
      * intro c. apply run_ret. intros st [S ->]. auto.
    + intro x. apply run_and. intros ->. eapply run_bind; [exact IH|].
      intro cs. apply run_ret. cbv beta. intros st (S & K & C). split; [exact S|]. split; [unfold keys in *; cbn; now rewrite K|].
      intros key' c [X|X]; [apply pair_equal_spec in X; destruct X as [<- <-]; reflexivity|exact (C _ _ X)].
Qed.

Lemma bootstrap_run s doc : (forall key v, dget key doc = Some v -> ready_value key v) ->
  run (stands s []) (bootstrap E s (members doc)) (fun _ st => exists kws, stands s kws st /\ booted 3 kws).
Proof.
  intro R. destruct Boot as (B1 & B2 & B3). unfold bootstrap.
  assert (C1 : cls (lit "$schema") = Std KSchema_) by (unfold cls; now rewrite B1).
  assert (C2 : cls (lit "$vocabulary") = Std KVocabulary_) by (unfold cls; now rewrite B2).
  assert (C3 : (match find_class d (lit "$id") with Some KId_ => Std KId_ | _ => Std KIdNext end) = cls (lit "$id")) by (unfold cls; destruct B3 as [-> | ->]; reflexivity).
  rewrite <- C1, <- C2.
  eapply run_bind; [apply (boot_step 0 s doc (lit "$schema") []); [split; [intros ? []|intros ? ? []]|apply R|reflexivity|intros []]|]. intros ?. apply run_ex. intros kws1 D1.
  eapply run_bind; [apply (boot_step 1 s doc (lit "$vocabulary") kws1 D1); [apply R|reflexivity|intros [X|[]]; discriminate X]|]. intros ?. apply run_ex. intros kws2 D2. destruct (dmem (lit "$id") (members doc)).
  - eapply run_bind; [apply metaschema_run|]. intro d'. apply run_and. intro Ed. rewrite Ed, C3.
    apply (boot_step 2 s doc (lit "$id") kws2 D2); [apply R|reflexivity|intros [X|[X|[]]]; discriminate X].
  - apply run_ret. intros st S. exists kws2. split; [exact S|]. destruct D2 as [A1 A2]. split; [|exact A2]. intros x Hx. specialize (A1 x Hx). cbn in *. tauto.
Qed.
Lemma build_object_run s doc : NoDup (keys doc) -> (forall key v, dget key doc = Some v -> ready_value key v) ->
  run (stands s []) (build_object E s (members doc)) (fun _ _ => True).
Proof.
  intros Nd R. unfold build_object. apply (run_bind _ _ _ (fun _ => stands s [])).
  { apply run_read. auto. }
  intro o. apply (run_bind _ _ _ (fun _ => stands s [])).
  { destruct o as [[[u|] m [up|] ch da]|]; try (apply run_ret; auto). apply run_quiet; [apply quiet_set_uri|intros ? ?; now apply shuts_set_uri]. }
  intros _. eapply run_bind; [now apply bootstrap_run|]. intros ?. apply run_ex. intros kws Bt.
  eapply run_bind; [apply classes_run|]. intro cs. apply run_and. intros [Kc Cl].
  assert (Km : keys (members doc) = keys doc) by (unfold keys; rewrite map_map; reflexivity). rewrite Km in Kc.
  apply (run_bind _ _ _ (fun order st => stands s kws st /\ resolve_dependencies kwclass_eqb depends_on (length cs) cs = Ok order)).
  { apply run_lift. auto. }
  intro order. apply run_and. intro Ro.
  assert (Nc : NoDup (keys cs)) by (rewrite Kc; now apply NoDup_filter).
  assert (Ks : map key_of (map snd cs) = keys cs).
  { unfold keys. clear -Cl. induction cs as [|[key c] cs IH]; [reflexivity|]. cbn [map fst snd]. rewrite (Cl key c (or_introl eq_refl)), key_of_cls. f_equal. apply IH. intros; apply Cl; now right. }
  assert (Ns : NoDup (map snd cs)) by (apply (NoDup_mapped key_of); now rewrite Ks).
  destruct (resolve_sound kwclass_eqb depends_on kwclass_eqb_spec _ cs order Nc Ns Ro) as [[P B] _].
  assert (Po : Permutation (map key_of order) (keys cs)) by (rewrite <- Ks; now apply Permutation_map).
  assert (No : NoDup (map key_of order)) by (apply (Permutation_NoDup (Permutation_sym Po)), Nc).
  assert (Oin : forall c, In c order -> In (key_of c, c) cs).
  { intros c X. apply (Permutation_in _ P) in X. apply in_map_iff in X. destruct X as ([key c'] & <- & X). cbn [snd]. rewrite (Cl _ _ X) at 1. now rewrite key_of_cls. }
  assert (Cb : forall c, In c order -> mem_str (key_of c) bootstrapped = false).
  { intros c X. apply Oin in X. apply (in_map fst) in X. cbn [fst] in X. change (map fst cs) with (keys cs) in X. rewrite Kc in X. apply filter_In in X. now apply negb_true_iff. }
  apply loop_run.
  - intros c X. split; [exact (Cl _ _ (Oin c X))|]. split; [|apply R]. intro Y. apply (proj1 Bt) in Y. specialize (Cb c X).
    assert (Z : mem_str (key_of c) bootstrapped = true) by (apply mem_str_In; exact Y). congruence.
  - exact No.
  - intros l1 c l2 Q c' Hc' Dn.
    assert (I1 : In c order) by (rewrite Q; apply in_app_iff; right; now left).
    assert (I2 : In c' order) by (rewrite Q; apply in_app_iff; right; exact Hc').
    destruct (B c c' I1) as (x1 & x2 & x3 & Q'). { exists (key_of c'). split; [exact Dn|]. apply In_dget; [exact Nc|exact (Oin _ I2)]. }
    apply NoDup_mapped in No. change (x1 ++ c' :: x2 ++ c :: x3) with (x1 ++ (c' :: x2) ++ c :: x3) in Q'. rewrite app_assoc in Q'. rewrite Q in Q', No.
    destruct (split_unique _ _ _ _ _ No Q') as [-> _]. rewrite <- app_assoc in No. cbn in No. apply NoDup_remove_2 in No. apply No. apply in_app_iff. right. apply in_app_iff. right. exact Hc'.
  - intros key k c X _. rewrite (proj2 Bt _ _ X). intros [].
Qed.

(** ** Whole documents. *)
Lemma good_nil : good_kws [].
Proof. split; [constructor|]. split; [intros ? ? []|intros ? ? ? []]. Qed.
Lemma inv_new u m up da : (forall m', m = Some m' -> ms m' = true) -> (match da with SObj (_ :: _) => False | _ => True end) ->
  run (up_in up) (new_schema id u m up da) (fun s st => B st s /\ (da = SObj [] -> keywords_at (c_objs st) s [])).
Proof.
  intros Hm Hd st [Sh [F1 F2]] Hu. assert (Hup : forall p ks, up = Some (p, ks) -> B st p) by (intros p ks ->; exact Hu).
  destruct (shuts_new id st u m up da Hup Hd st (more_refl id st) Sh) as (A1 & A2 & A3). revert A1 A2 A3. rewrite new_schema_eq. cbn [fst snd c_objs]. set (st' := mkCat _ _). intros A1 A2 A3.
  assert (Old : forall i x, nth_error (c_objs st') i = Some x -> nth_error (c_objs st) i = Some x \/ x = mkObj u m up id da).
  { intros i x Hi. cbn [st' c_objs] in Hi. destruct (Nat.lt_ge_cases i (length (c_objs st))) as [X|X]; [rewrite nth_error_app1 in Hi by exact X; auto|].
    rewrite nth_error_app2 in Hi by exact X. destruct (i - length (c_objs st)) as [|j]; [|destruct j; discriminate Hi]. injection Hi as <-. auto. }
  split; [split; [exact A1|]; split|].
  - intros i kws (x & Hi & Cx) (x' & Hi' & Hx). rewrite Hi in Hi'. injection Hi' as <-. destruct (Old i x Hi) as [Ho| ->]; [apply (F1 i); now exists x|]. cbn in Hx. subst da. destruct kws; [exact good_nil|destruct Hd].
  - intros i x m' Hi Cx Hx. destruct (Old i x Hi) as [Ho| ->]; [exact (F2 i x m' Ho Cx Hx)|]. cbn in Hx. auto.
  - split; [exact A2|]. intros a [= <-]. split; [now apply A3|]. intros ->. eexists. split; [apply nth_last|reflexivity].
Qed.

Lemma mixins_one c : (In MSub (mixins (Std c)) -> one_schema c = true) /\ (In MArr (mixins (Std c)) -> many_schemas c = true) /\
  (In MObj (mixins (Std c)) -> named_schemas c = true /\ one_schema c = false).
Proof. destruct c; cbn; (split; [|split]); intro H; decompose [or False] H; try discriminate; auto. Qed.
Lemma sound_proper : forall v, jwf v = true -> proper_with d ok v = true -> sound v.
Proof.
  assert (G : forall n v, jsize v < n -> jwf v = true -> proper_with d ok v = true -> sound v).
  { induction n as [|n IH]; intros w Hn Wf Pr u m up Hm; [lia|].
    destruct w as [|b|x|x|l|doc]; try solve [cbn [build]; eapply run_bind; [apply (inv_new u m up (SObj []) Hm I)|intro; apply run_throw]].
    - cbn [build]. eapply run_weaken; [intros c H; exact H| |apply (inv_new u m up (SBool b) Hm I)]. intros ? ? [X _]. exact X.
    - rewrite build_object_eq. eapply run_bind; [apply (inv_new u m up (SObj []) Hm I)|]. intro s.
      apply jwf_obj in Wf. destruct Wf as [Nd Wf].
      apply (run_weaken (fun c => stands s [] c /\ B c s) _ _ (fun t c => B c t)); [intros c [X Y]; exact (conj (conj X (Y eq_refl)) X)|auto|].
      apply (run_bind _ _ _ (fun _ c => True /\ B c s)); [|intro; apply run_ret; intros c [_ X]; exact X]. apply (run_keep (stands s []) _ (fun _ _ => True)). apply build_object_run; [exact Nd|].
      intros key v Hv. apply dget_In in Hv. pose proof (jsize_members _ _ Hv) as Sz. cbn [snd] in Sz. rewrite Forall_forall in Wf. pose proof (Wf _ Hv) as Wv. cbn [snd] in Wv.
      cbn [proper_with] in Pr. rewrite forallb_forall in Pr. specialize (Pr _ Hv). cbn [fst snd] in Pr. rewrite andb_true_iff in Pr. destruct Pr as [Av Pr].
      destruct (Hok _ _ Av) as [Av' Lv]. clear Av. rename Av' into Av. unfold declares in Av. rewrite andb_true_iff, negb_true_iff in Av. destruct Av as [Av Nm].
      assert (Nv : names (cls key) v).
      { intros Hc t ->. assert (Hk : key = lit "$schema"). { unfold cls in Hc. destruct (find_class d key) as [c|] eqn:Fc; [|discriminate Hc]. injection Hc as ->. symmetry. exact (find_class_key _ _ _ Fc). }
        subst key. rewrite str_eqb_refl in Nm. exact Nm. }
      unfold ready_value, fits. unfold cls in *. destruct (find_class d key) as [c|].
      + rewrite andb_true_iff in Pr. destruct Pr as [Fv Pr]. destruct (mixins_one c) as (M1 & M2 & M3). split; [|auto]. split; [|split].
        * intro X. apply M1 in X. apply IH; [lia|exact Wv|]. rewrite X in Pr. destruct v; try reflexivity. exact Pr.
        * intros X l w -> Hw. apply M2 in X. pose proof (jsize_items _ _ Hw) as Sw. apply jwf_arr in Wv. rewrite Forall_forall in Wv. apply IH; [lia|exact (Wv _ Hw)|].
          rewrite X in Pr. rewrite forallb_forall in Pr. exact (Pr _ Hw).
        * intros X mm kv -> Hw. apply M3 in X. destruct X as [X1 X2]. pose proof (jsize_members _ _ Hw) as Sw. apply jwf_obj in Wv. destruct Wv as [_ Wv]. rewrite Forall_forall in Wv. apply IH; [lia|exact (Wv _ Hw)|].
          rewrite X1, X2, forallb_forall in Pr. exact (Pr _ Hw).
      + split; [split; [intros []|split; intros []]|]. auto. }
  intro v. exact (G (S (jsize v)) v (Nat.lt_succ_diag_r _)).
Qed.

(** ** References. *)
Definition any_cat : cat -> Prop := fun _ => True.
Lemma run_set_ref s key t dyn : (dyn = true -> cls key = Std KDynamicRef) -> run (fun c => B c t) (set_ref s key t dyn) (fun _ => any_cat).
Proof.
  intros Hd st [Sh [F1 F2]] Ht. destruct (shuts_set_ref id st s key t dyn Ht st (more_refl id st) Sh) as (A1 & A2 & _). revert A1 A2. unfold set_ref, update, modify. cbn [fst snd].
  destruct (nth_error (c_objs st) s) as [o|] eqn:Ho; [|intros; split; [split; [assumption|split; assumption]|split; [assumption|intros; exact I]]]. assert (L : s < length (c_objs st)) by (apply nth_error_Some; congruence).
  unfold put_obj. set (st' := mkCat _ _). intros A1 A2. split; [|split; [exact A2|intros; exact I]]. split; [exact A1|]. split.
  2:{ intros i x m Hi Cx Hm. cbn [st' c_objs] in Hi. destruct (Nat.eq_dec s i) as [<-|Ni].
      - rewrite nth_set_nth_same in Hi by exact L. injection Hi as <-. cbn in Cx, Hm. exact (F2 s o m Ho Cx Hm).
      - rewrite nth_set_nth_other in Hi by exact Ni. exact (F2 i x m Hi Cx Hm). }
  intros i kws (x0 & Hi0 & Cx) (x & Hi & Hx). rewrite Hi in Hi0. injection Hi0 as <-. cbn [st' c_objs] in Hi. destruct (Nat.eq_dec s i) as [<-|Ni].
  2:{ rewrite nth_set_nth_other in Hi by exact Ni. apply (F1 i); now exists x. }
  rewrite nth_set_nth_same in Hi by exact L. injection Hi as <-. cbn in Hx, Cx. destruct (so_data o) as [|kws0] eqn:D; [discriminate Hx|]. injection Hx as <-.
  assert (G : good_kws kws0) by (apply (F1 s); now exists o). destruct G as (N & G & De). clear F1 F2 A1 A2 st' Ho D.

  set (f := fun kk : pystr * keyword => if str_eqb (fst kk) key then _ else kk).
  assert (Fk : forall kk, fst (f kk) = fst kk) by (intro kk; unfold f; now destruct (str_eqb (fst kk) key)).
  assert (Fc : forall kk, kw_class (snd (f kk)) = kw_class (snd kk)) by (intro kk; unfold f; now destruct (str_eqb (fst kk) key)).
  assert (K : keys (map f kws0) = keys kws0) by (unfold keys; rewrite map_map; apply map_ext; exact Fk).
  split; [now rewrite K|]. split.
  - intros key' k' H. apply in_map_iff in H. destruct H as ([k1 v1] & Q & H). destruct (G _ _ H) as (G1 & G2 & G3 & G4 & G5). unfold f in Q. cbn [fst snd] in Q.
    destruct (str_eqb k1 key) eqn:Q1; apply pair_equal_spec in Q; destruct Q as [<- <-]; [|exact (conj G1 (conj G2 (conj G3 (conj G4 G5))))].
    apply str_eqb_eq in Q1. subst k1. unfold good_kw. cbn [kw_class kw_dynamic kw_json]. split; [exact G1|]. split; [exact G2|]. split; [exact G3|]. split; [|exact G5].
    intro Hy. apply orb_true_iff in Hy. destruct Hy as [Hy|Hy]; [rewrite G2; exact (Hd Hy)|exact (G4 Hy)].
  - intros key' k' n H Hn. rewrite K. apply in_map_iff in H. destruct H as ([k1 v1] & Q & H). assert (Q1 := Fk (k1, v1)). assert (Q2 := Fc (k1, v1)). rewrite Q in Q1, Q2. cbn [fst snd] in Q1, Q2. subst key'.
    rewrite Q2 in Hn. exact (De _ _ _ H Hn).
Qed.

Section Refs.
Variable resolve : sid -> M unit.
Hypothesis Hshut : forall c0 s, B c0 s -> shuts id c0 (resolve s) whatever.
Hypothesis Hres : forall s, run (fun c => B c s) (resolve s) (fun _ => any_cat).

Lemma run_construct_with v u m : jwf v = true -> proper_with d ok v = true -> (forall m', m = Some m' -> ms m' = true) ->
  run any_cat (construct_with E resolve id v u m) (fun s c => B c s).
Proof.
  intros Wf Pr Hm. unfold construct_with. eapply run_bind; [eapply run_weaken; [|intros a c H; exact H|apply (sound_proper v Wf Pr u m None Hm)]; intros; exact I|]. cbv beta. intro s.
  assert (R : run (fun c => B c s) (ret s) (fun s c => B c s)) by (apply run_ret; auto). destruct v; try exact R.
  apply (run_bind _ _ _ (fun _ c => any_cat c /\ B c s)); [|intro; apply run_ret; intros c [_ H]; exact H].
  eapply run_weaken; [intros c H; exact (conj H H)|intros a c H; exact H|]. apply (run_keep _ _ (fun _ => any_cat) s (Hres s)).
Qed.
Lemma run_get_schema_with u m : (forall m', m = Some m' -> ms m' = true) -> run any_cat (get_schema_with E resolve id u m) (fun s c => any_cat c /\ B c s).
Proof.
  intro Hm. apply (run_also any_cat _ (fun _ => any_cat)); [|intros c _; now apply shuts_get_schema_with].
  unfold get_schema_with. apply (run_bind _ _ _ (fun _ => any_cat)); [apply run_read; auto|]. intros [s|]; [apply run_ret; auto|]. cbv zeta.
  apply (run_bind _ _ _ (fun _ => any_cat)); [apply run_read; auto|]. intro known. apply (run_bind _ _ _ (fun _ => any_cat)).
  - destruct known as [s|]; [apply run_ret; auto|]. apply (run_bind _ _ _ (fun doc st => any_cat st /\ (jwf doc = true /\ proper_with d ok doc = true))).
    + apply run_lift. intros doc c Hdoc _. split; [exact I|exact (proj2 Sp _ _ Hdoc)].
    + intro doc. apply run_and. intros [Wf Pr]. apply (run_bind _ _ _ (fun _ => any_cat)); [eapply run_weaken; [intros c H; exact H| |now apply (run_construct_with doc (Some (no_fragment u)) m)]; intros; exact I|].
      intro s. apply (run_bind _ _ _ (fun _ => any_cat)); [apply run_read; auto|]. intro. apply run_ret. auto.
  - intros [s [s'|]]; [apply run_ret; auto|]. destruct (u_frag u) as [[|ch f]|]; try (apply run_ret; auto).
    apply (run_bind _ _ _ (fun _ => any_cat)); [apply run_read; auto|]. intro objs. apply (run_bind _ _ _ (fun _ => any_cat)); [apply run_lift; auto|]. intros [t|]; [apply run_ret; auto|apply run_throw].
Qed.
Lemma run_absolute s j P : run P (absolute_reference E s j) (fun _ => P).
Proof.
  unfold absolute_reference. apply (run_bind _ _ _ (fun _ => P)); [apply run_lift; auto|]. intro u. apply (run_bind _ _ _ (fun _ => P)); [apply run_read; auto|]. intro objs.
  destruct (ul_absolute (e_lib E) (no_fragment u)); [apply run_ret; auto|]. destruct (base_uri objs s); [apply run_ret; auto|apply run_throw].
Qed.
Lemma run_resolve_keyword s key k : kw_class k = cls key -> run (fun c => B c s) (resolve_keyword E resolve s key k) (fun _ => any_cat).
Proof.
  intro Kc. unfold resolve_keyword. apply (run_bind _ _ _ (fun objs c => any_cat c /\ (match nth_error objs s with Some o => so_cache o | None => [] end = id /\ forall m', metaschema_uri objs s = Some m' -> ms m' = true))).
  { apply run_read. intros c Iv Hs. split; [exact I|]. split; [destruct Hs as (o & -> & Hc); exact Hc|]. intros m' Hm. exact (names_meta c Iv _ s m' Hs Hm). }
  intro objs. apply run_and. intros [-> Hm]. cbv zeta.
  assert (Get : forall u, run any_cat (get_schema_with E resolve id u (metaschema_uri objs s)) (fun t c => any_cat c /\ B c t)) by (intro u; now apply run_get_schema_with).
  assert (Set_ : forall t, run (fun c => any_cat c /\ B c t) (set_ref s key t false) (fun _ => any_cat)).
  { intro t. eapply run_weaken; [intros c [_ H]; exact H|intros a c H; exact H|]. apply run_set_ref. discriminate. }
  assert (X : run any_cat (do u <- absolute_reference E s (kw_json k); do t <- get_schema_with E resolve id u (metaschema_uri objs s); set_ref s key t false) (fun _ => any_cat)).
  { apply (run_bind _ _ _ (fun _ => any_cat)); [apply run_absolute|]. intro u. eapply run_bind; [apply Get|]. intro t. apply Set_. }
  destruct (kw_class k) as [c|] eqn:Kk; [|exact X]. destruct c; try exact X.
  - apply (run_bind _ _ _ (fun _ => any_cat)); [apply run_absolute|]. intro u. eapply run_bind; [apply Get|]. intro t. cbv beta.
    apply (run_bind _ _ _ (fun _ c => any_cat c /\ B c t)); [eapply run_weaken; [intros c [H H']; exact (conj (conj H H') H')|intros a c H; exact H|]; apply run_keep, Set_|]. intro.
    apply (run_bind _ _ _ (fun _ c => any_cat c /\ B c t)); [apply run_read; auto|]. intro. apply (run_bind _ _ _ (fun _ c => any_cat c /\ B c t)); [apply run_lift; auto|]. intros [|]; [|apply run_ret; intros; exact I].
    eapply run_weaken; [intros c [_ H]; exact H|intros ? ? H; exact H|]. apply run_set_ref. now rewrite Kc.
  - destruct (base_uri objs s) as [b|]; [|apply run_throw]. eapply run_bind; [apply Get|]. intro t. apply Set_.
Qed.
End Refs.

Lemma run_resolve f : forall s, run (fun c => B c s) (resolve_references E f s) (fun _ => any_cat).
Proof.
  induction f as [|f IH]; intro s.
  - intros c Iv _. cbn. split; [exact Iv|]. split; [apply more_refl|discriminate].
  - cbn [resolve_references]. apply (run_bind _ _ _ (fun kws st => B st s /\ forall kk, In kk kws -> kw_class (snd kk) = cls (fst kk) /\ kw_in id st (snd kk))).
    { apply run_read. intros st Iv Hs. split; [exact Hs|]. intros [key k] Hk. apply keywords_in in Hk. destruct Hk as (kws & Ha & Hk). cbn [fst snd]. destruct Iv as [(_ & _ & K & _) [F1 _]].
      destruct (F1 _ _ Hs Ha) as (_ & G & _). split; [exact (proj1 (proj2 (G _ _ Hk)))|exact (K _ _ _ _ Hs Ha Hk)]. }
    intro kws. set (P := fun st => B st s /\ forall kk, In kk kws -> kw_class (snd kk) = cls (fst kk) /\ kw_in id st (snd kk)).
    assert (Keep : forall {A} (x : M A) (R : cat -> Prop), (forall st, P st -> R st) -> run R x (fun _ => any_cat) -> run P x (fun _ => P)).
    { intros A x R HR Hx st Iv Hp. destruct (Hx st Iv (HR st Hp)) as (A1 & A2 & _). split; [exact A1|]. split; [exact A2|]. intros _ _. destruct Hp as [Hs Hk]. split; [exact (A2 _ Hs)|].
      intros kk Hkk. destruct (Hk kk Hkk) as [K1 K2]. split; [exact K1|exact (kw_in_more id _ _ _ A2 K2)]. }
    eapply run_weaken; [intros c H; exact H|intros a c H; exact I|]. apply (run_each P).
    intros kk Hkk. destruct (reference_class (kw_class (snd kk))) eqn:Rc.
    { intros st Iv Hp. pose proof (proj1 (proj2 Hp kk Hkk)) as Kc. apply (Keep _ _ (fun c => B c s)); [intros ? [? _]; assumption| |exact Iv|exact Hp]. apply run_resolve_keyword; [apply shuts_resolve|exact IH|exact Kc]. }
    assert (Sub : forall t, subschema_of (snd kk) t -> run P (resolve_references E f t) (fun _ => P)).
    { intros t Ht. apply (Keep _ _ (fun c => B c t)); [|apply IH]. intros st [_ Hp]. exact (proj1 (proj2 (Hp kk Hkk)) t Ht). }
    unfold subschema_of in Sub. destruct (kw_json (snd kk)) as [v|t|l|m]; [apply run_ret; auto|now apply Sub| |]; apply run_each; intros a Ha; apply Sub; [exact Ha|apply in_map_iff; eauto].
Qed.
Lemma run_construct f v u m : jwf v = true -> proper_with d ok v = true -> (forall m', m = Some m' -> ms m' = true) ->
  run any_cat (construct E f id v u m) (fun s c => B c s).
Proof. intros. apply run_construct_with; auto. apply run_resolve. Qed.
Lemma run_get f u m : (forall m', m = Some m' -> ms m' = true) -> run any_cat (get_schema E f id u m) (fun s c => any_cat c /\ B c s).
Proof. intros. apply run_get_schema_with; auto; [apply shuts_resolve|apply run_resolve]. Qed.
End Env.

(** Steps in other caches. *)
Lemma fine_other id' c c' : id' <> id -> step id' c c' -> fine c -> fine c'.
Proof.
  intros N (S & O & A & _) [F1 F2].
  assert (Old : forall s, B c' s -> B c s /\ nth_error (c_objs c') s = nth_error (c_objs c) s).
  { intros s Hs. apply (belongs_back id id' c c' s N O A) in Hs. split; [exact Hs|]. destruct Hs as (o & Ho & _). apply (proj2 O). apply nth_error_Some. unfold sid in *. congruence. }
  split.
  - intros s kws Hs (o & Ho & D). destruct (Old s Hs) as [Hb Hn]. rewrite Hn in Ho. apply (F1 s kws Hb). exists o. auto.
  - intros s o m Ho Hc Hm. destruct (Old s) as [Hb Hn]; [exists o; auto|]. rewrite Hn in Ho. exact (F2 s o m Ho Hc Hm).
Qed.
Lemma inv_other id' c c' : id' <> id -> step id' c c' -> Inv c -> Inv c'.
Proof. intros N H [Sh Fi]. split; [exact (shut_other id id' c c' N H Sh)|exact (fine_other id' c c' N H Fi)]. Qed.
Lemma inv_leave c : Inv c -> sane c -> Inv (mkCat (c_objs c) (leave_cache id (c_cache c))).
Proof. intros [Sh Fi] S. split; [now apply (step_leave id c S)|exact Fi]. Qed.
Lemma inv_empty : Inv (mkCat [] []).
Proof. split; [apply shut_empty|]. split; [intros s kws (o & Ho & _); destruct s; discriminate Ho|intros s o m Ho; destruct s; discriminate Ho]. Qed.
Lemma speaks_in_reads E : speaks_in E ms d avoid -> reads_json E.
Proof. intros [_ H] u doc L. exact (proj1 (H _ _ L)). Qed.
End Good.

Definition always : pystr -> json -> bool := fun _ _ => true.
Lemma no_more lib ms avoid : forall key v, declares lib ms avoid key v = true -> declares lib ms avoid key v = true /\ always key v = true.
Proof. auto. Qed.
Theorem written_in_inv id ms d avoid :
  find_class d (lit "$schema") = Some KSchema_ /\ find_class d (lit "$vocabulary") = Some KVocabulary_ /\
  (find_class d (lit "$id") = Some KId_ \/ find_class d (lit "$id") = Some KIdNext) ->
  forall st, written_in id ms d avoid st -> sane (mc_cat st) /\ Inv id ms d avoid always (mc_cat st).
Proof.
  intros Boot st. induction 1 as [|E f v u m st Sp Wf Pr Hm _ [S IH]|E f u m st Sp Hm _ [S IH]|st _ [S IH]|st st' _ [S IH] H].
  - split; [exact sane_empty|apply inv_empty].
  - split; [exact (proj1 (step_construct E f id v u m _ (speaks_in_reads ms d avoid E Sp) Wf S))|]. exact (proj1 (run_construct id ms d avoid always Boot E _ Sp (no_more _ _ _) f v u m Wf Pr Hm (mc_cat st) IH I)).
  - split; [exact (proj1 (step_get E f id u m _ (speaks_in_reads ms d avoid E Sp) S))|]. exact (proj1 (run_get id ms d avoid always Boot E _ Sp (no_more _ _ _) f u m Hm (mc_cat st) IH I)).
  - split; [now apply sane_leave|now apply inv_leave].
  - refine (steps_ind_step (fun id' => id' <> id) (Inv id ms d avoid always) st st' S IH _ H). intros id' c c' N _ G. exact (inv_other id ms d avoid always id' c c' N G).
Qed.

(** ** One dialect everywhere. *)
Lemma forallb_within {A} (f g : A -> bool) l : (forall x, In x l -> f x = g x) -> forallb f l = forallb g l.
Proof. induction l as [|x l IH]; intro H; [reflexivity|]. cbn. rewrite (H x (or_introl eq_refl)), IH; [reflexivity|]. intros y Hy. apply H. now right. Qed.
Lemma proper_ext d ok ok' : (forall key v, ok key v = ok' key v) -> forall v, proper_with d ok v = proper_with d ok' v.
Proof.
  intro H. assert (G : forall n v, jsize v < n -> proper_with d ok v = proper_with d ok' v).
  { induction n as [|n IH]; intros v Hn; [lia|]. destruct v as [| | | | |ms]; try reflexivity. cbn [proper_with]. apply forallb_within. intros [key v] Hv. cbn [fst snd]. rewrite H. f_equal.
    destruct (find_class d key) as [c|]; [|reflexivity]. f_equal. pose proof (jsize_members _ _ Hv) as Sz. cbn [snd] in Sz. destruct v as [| | | |l|m]; try reflexivity.
    - destruct (many_schemas c); [|reflexivity]. apply forallb_within. intros w Hw. apply jsize_items in Hw. apply IH. lia.
    - rewrite (IH (JObj m)) by lia. destruct (one_schema c); [reflexivity|]. destruct (named_schemas c); [|reflexivity]. apply forallb_within. intros kv Hw. apply jsize_members in Hw. apply IH. lia. }
  intro v. exact (G (S (jsize v)) v (Nat.lt_succ_diag_r _)).
Qed.
Definition all_ms : uri -> bool := fun _ => true.
Lemma proper_all lib d avoid v : proper_with d (declares lib all_ms avoid) v = proper d avoid v.
Proof. apply proper_ext. intros key w. unfold declares, all_ms. destruct (str_eqb key (lit "$schema")); [destruct w|]; apply andb_true_r. Qed.
Lemma speaks_all E d avoid : speaks E d avoid -> speaks_in E all_ms d avoid.
Proof. intros [H1 H2]. split; [eauto|]. intros u doc L. rewrite proper_all. exact (H2 u doc L). Qed.
Theorem written_inv d avoid :
  find_class d (lit "$schema") = Some KSchema_ /\ find_class d (lit "$vocabulary") = Some KVocabulary_ /\
  (find_class d (lit "$id") = Some KId_ \/ find_class d (lit "$id") = Some KIdNext) ->
  forall c, written d avoid c -> sane c /\ forall id, Inv id all_ms d avoid always c.
Proof.
  intros Boot c. induction 1 as [|E f id v u m c Sp Wf Pr _ [S IH]|E f id u m c Sp _ [S IH]|id c _ [S IH]].
  - split; [exact sane_empty|intro; apply inv_empty].
  - pose proof (step_construct E f id v u m c (fun u doc L => proj1 (proj2 Sp u doc L)) Wf S) as G. split; [exact (proj1 G)|]. intro id'. destruct (str_eqb_spec id id') as [<-|N]; [|exact (inv_other id' all_ms d avoid always id c _ N G (IH id'))].
    apply (run_construct id all_ms d avoid always Boot E _ (speaks_all _ _ _ Sp) (no_more _ _ _) f v u m Wf); [now rewrite proper_all|reflexivity|apply IH|exact I].
  - pose proof (step_get E f id u m c (fun u doc L => proj1 (proj2 Sp u doc L)) S) as G. split; [exact (proj1 G)|]. intro id'. destruct (str_eqb_spec id id') as [<-|N]; [|exact (inv_other id' all_ms d avoid always id c _ N G (IH id'))].
    apply (run_get id all_ms d avoid always Boot E _ (speaks_all _ _ _ Sp) (no_more _ _ _) f u m); [reflexivity|apply IH|exact I].
  - split; [now apply sane_leave|]. intro id'. destruct (str_eqb_spec id id') as [<-|N]; [now apply inv_leave|exact (inv_other id' all_ms d avoid always id c _ N (step_leave id c S) (IH id'))].
Qed.

Lemma dialect_boot legacy d : dialect legacy d ->
  find_class d (lit "$schema") = Some KSchema_ /\ find_class d (lit "$vocabulary") = Some KVocabulary_ /\
  (find_class d (lit "$id") = Some KId_ \/ find_class d (lit "$id") = Some KIdNext).
Proof. destruct legacy; [intros ->|intros [->| ->]]; vm_compute; auto. Qed.

Lemma shows_at c W s kws : shows c W -> w_schema W s = SObj kws -> keywords_at (c_objs c) s kws.
Proof. intros [H _] Hs. rewrite H in Hs. destruct (nth_error (c_objs c) s) as [o|] eqn:Ho; [|discriminate Hs]. exists o. split; assumption. Qed.
Lemma written_kws legacy d avoid c W s kws : dialect legacy d -> written d avoid c -> shows c W -> w_schema W s = SObj kws -> good_kws d avoid always kws.
Proof.
  intros Hd Hw Hs H. apply (shows_at c W s kws Hs) in H. destruct H as (o & Ho & D). destruct (written_inv d avoid (dialect_boot _ _ Hd) c Hw) as [_ Iv]. destruct (Iv (so_cache o)) as [_ [F1 _]].
  apply (F1 s kws); exists o; auto.
Qed.
Theorem written_good legacy d avoid c W : dialect legacy d -> written d avoid c -> shows c W -> good_world d W.
Proof.
  intros Hd Hw Hs s kws H. destruct (written_kws _ _ _ _ _ _ _ Hd Hw Hs H) as (N & G & D). split; [exact N|]. intros key k Hk. destruct (G _ _ Hk) as (G1 & G2 & _).
  split; [exact G1|]. split; [exact G2|]. intros n Hn Hi. exact (D _ _ _ Hk Hn Hi).
Qed.
Theorem written_unused legacy d avoid c W x : dialect legacy d -> written d avoid c -> shows c W -> In (std_key x) avoid -> ~ uses W x.
Proof.
  intros Hd Hw Hs Ha (s & kws & key & k & H & Hk & Kc). destruct (written_kws _ _ _ _ _ _ _ Hd Hw Hs H) as (_ & G & _). destruct (G _ _ Hk) as (_ & G2 & G3 & _).
  rewrite Kc in G2. unfold cls in G2. destruct (find_class d key) as [c0|] eqn:F; [|discriminate G2]. injection G2 as <-. apply find_class_key in F. subst key.
  apply mem_str_In in Ha. congruence.
Qed.
Lemma find_class_In d key c : find_class d key = Some c -> In c d.
Proof. induction d as [|c' r IH]; [discriminate|]. cbn [find_class]. destruct (str_eqb (std_key c') key); [intros [= <-]; now left|intro H; right; now apply IH]. Qed.
Theorem written_outside legacy d avoid c W x : dialect legacy d -> written d avoid c -> shows c W -> ~ In x d -> ~ uses W x.
Proof.
  intros Hd Hw Hs Ha (s & kws & key & k & H & Hk & Kc). destruct (written_kws _ _ _ _ _ _ _ Hd Hw Hs H) as (_ & G & _). destruct (G _ _ Hk) as (_ & G2 & G3 & _).
  rewrite Kc in G2. unfold cls in G2. destruct (find_class d key) as [c0|] eqn:F; [|discriminate G2]. injection G2 as <-. apply Ha. exact (find_class_In _ _ _ F).
Qed.
Theorem written_dynamic legacy d avoid c W s kws key k : dialect legacy d -> written d avoid c -> shows c W ->
  w_schema W s = SObj kws -> In (key, k) kws -> kw_dynamic k = true -> kw_class k = Std KDynamicRef.
Proof. intros Hd Hw Hs H Hk Kd. destruct (written_kws _ _ _ _ _ _ _ Hd Hw Hs H) as (_ & G & _). exact (proj1 (proj2 (proj2 (proj2 (G _ _ Hk)))) Kd). Qed.
