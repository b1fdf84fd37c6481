(** References to what is in the cache are resolved without loading anything. *)
From Coq Require Import List Lia Bool.
From Verif Require Import SpecAccept BuildAccept BuildRefs BuildFacts BuildSettled.
Import ListNotations.
Open Scope nat_scope.

(** ** Catalogs that differ in resolution only. *)
Definition alike (c c' : cat) : Prop := map shape (c_objs c') = map shape (c_objs c) /\ c_cache c' = c_cache c.
Lemma alike_refl c : alike c c. Proof. now split. Qed.
Lemma alike_sym c c' : alike c c' -> alike c' c. Proof. intros [A B]. now split. Qed.
Lemma alike_trans a b c : alike a b -> alike b c -> alike a c. Proof. intros [A B] [A' B']. split; congruence. Qed.
Lemma alike_size c c' : alike c c' -> size c' = size c.
Proof. intros [A _]. apply (f_equal (@length _)) in A. rewrite !map_length in A. exact A. Qed.
Lemma alike_nth c c' i o : alike c c' -> nth_error (c_objs c) i = Some o -> exists o', nth_error (c_objs c') i = Some o' /\ shape o' = shape o.
Proof.
  intros [A _] H. apply (map_nth_error shape) in H. rewrite <- A in H. rewrite nth_error_map in H. destruct (nth_error (c_objs c') i) as [o'|]; [|discriminate H]. exists o'. split; [reflexivity|exact (f_equal (fun x => match x with Some y => y | None => shape o end) H)].
Qed.
Lemma alike_none c c' i : alike c c' -> nth_error (c_objs c) i = None -> nth_error (c_objs c') i = None.
Proof. intros A H. apply nth_error_None. apply alike_size in A. unfold size in A. apply nth_error_None in H. lia. Qed.
Lemma alike_climb {A} (f : sobj -> option A) c c' : (forall o o', shape o' = shape o -> f o' = f o) -> alike c c' -> forall n s, climb n (c_objs c') f s = climb n (c_objs c) f s.
Proof.
  intros Hf H. induction n as [|n IH]; intro s; [reflexivity|]. cbn [climb]. destruct (nth_error (c_objs c) s) as [o|] eqn:Ho.
  - destruct (alike_nth _ _ _ _ H Ho) as (o' & -> & S). rewrite (Hf _ _ S). destruct (f o); [reflexivity|]. destruct (shape_head _ _ S) as (_ & _ & -> & _). destruct (so_up o) as [[p ks]|]; [apply IH|reflexivity].
  - now rewrite (alike_none _ _ _ H Ho).
Qed.
Lemma alike_base c c' s : alike c c' -> base_uri (c_objs c') s = base_uri (c_objs c) s.
Proof. intro H. unfold base_uri. f_equal. apply alike_climb; [intros o o' S; apply (shape_head _ _ S)|exact H]. Qed.
Lemma alike_cache_of c c' s : alike c c' -> cache_of (c_objs c') s = cache_of (c_objs c) s.
Proof.
  intro H. unfold cache_of. destruct (nth_error (c_objs c) s) as [o|] eqn:Ho; [|now rewrite (alike_none _ _ _ H Ho)].
  destruct (alike_nth _ _ _ _ H Ho) as (o' & -> & S). apply (shape_head _ _ S).
Qed.
Definition stripped (kws : list (pystr * keyword)) := map (fun kk : pystr * keyword => (fst kk, strip (snd kk))) kws.
Lemma alike_keywords c c' s kws : alike c c' -> keywords_at (c_objs c) s kws -> exists kws', keywords_at (c_objs c') s kws' /\ stripped kws' = stripped kws.
Proof.
  intros H (o & Ho & D). destruct (alike_nth _ _ _ _ H Ho) as (o' & Ho' & S). destruct (shape_obj _ _ _ S D) as (kws' & D' & Q). exists kws'. split; [now exists o'|exact Q].
Qed.
Lemma alike_schema_keywords c c' s : alike c c' -> stripped (schema_keywords (objs_world (c_objs c')) s) = stripped (schema_keywords (objs_world (c_objs c)) s).
Proof.
  intro H. unfold schema_keywords, objs_world. cbn [w_schema]. destruct (nth_error (c_objs c) s) as [o|] eqn:Ho; [|now rewrite (alike_none _ _ _ H Ho)].
  destruct (alike_nth _ _ _ _ H Ho) as (o' & -> & S). destruct (so_data o) as [b|kws] eqn:D.
  - now rewrite (shape_bool _ _ _ S D).
  - destruct (shape_obj _ _ _ S D) as (kws' & -> & Q). exact Q.
Qed.
Lemma dget_stripped k kws : option_map kw_json (dget k (stripped kws)) = option_map kw_json (dget k kws).
Proof. induction kws as [|[k' v] kws IH]; [reflexivity|]. cbn [stripped map dget fst snd]. destruct (str_eqb k k'); [reflexivity|exact IH]. Qed.
Lemma alike_walk c c' p : alike c c' -> forall n, sn_walk (objs_world (c_objs c')) n p = sn_walk (objs_world (c_objs c)) n p.
Proof.
  intro H. induction p as [|k p IH]; intro n; [reflexivity|]. cbn [sn_walk].
  assert (Q : sn_child (objs_world (c_objs c')) n k = sn_child (objs_world (c_objs c)) n k).
  { destruct n as [s|v]; [|reflexivity]. cbn [sn_child]. pose proof (dget_stripped k (schema_keywords (objs_world (c_objs c')) s)) as Q'. pose proof (dget_stripped k (schema_keywords (objs_world (c_objs c)) s)) as Q.
    rewrite (alike_schema_keywords c c' s H), Q in Q'. destruct (dget k (schema_keywords (objs_world (c_objs c)) s)), (dget k (schema_keywords (objs_world (c_objs c')) s)); cbn in Q'; try discriminate Q'; [|reflexivity].
    injection Q' as Q'. now rewrite Q'. }
  rewrite Q. destruct (sn_child (objs_world (c_objs c)) n k); cbn [bind]; [apply IH|reflexivity|reflexivity].
Qed.

Section Found.
Variable E : env.

Lemma alike_at_hand c c' id u t : alike c c' -> at_hand c id u t -> at_hand c' id u t.
Proof.
  intros H A. pose proof H as [_ K]. unfold at_hand in *. rewrite K. destruct A as [A|(A & r & f & F & R & X)]; [now left|right]. split; [exact A|]. exists r, f. split; [exact F|]. split; [exact R|].
  destruct f; [exact X|]. destruct X as (p & P & X). exists p. split; [exact P|]. now rewrite (alike_walk c c' p H).
Qed.
Lemma alike_found c c' s k k' : alike c c' -> strip k' = strip k -> found E c s k -> found E c' s k'.
Proof.
  intros H St (u & t & R & A & D). exists u, t. apply strip_fields in St. destruct St as (Kc & Kj & _). split; [|split].
  - unfold reference_uri in *. rewrite Kc, Kj. rewrite (alike_base c c' s H). exact R.
  - rewrite (alike_cache_of c c' s H). now apply (alike_at_hand c).
  - intro X. rewrite Kc in X. destruct (D X) as (kws & Ka). destruct (alike_keywords _ _ _ _ H Ka) as (kws' & Ka' & _). now exists kws'.
Qed.
Lemma alike_within c c' s t : alike c c' -> within (c_objs c) s t -> within (c_objs c') s t.
Proof.
  intros H W. induction W as [|t t' kws key k W IH Kt Hk Sub]; [constructor|]. destruct (alike_keywords _ _ _ _ H Kt) as (kws' & Kt' & Q).
  destruct (strip_In kws kws' key k Q Hk) as (k' & Hk' & St). apply (within_step _ _ t t' kws' key k' IH Kt' Hk'). now apply (later_sub _ _ t' St).
Qed.
Lemma alike_all c c' s : alike c c' -> all_found E c s -> all_found E c' s.
Proof.
  intros H A t kws key k W Kt Hk R. pose proof (alike_sym _ _ H) as H'. destruct (alike_keywords _ _ _ _ H' Kt) as (kws' & Kt' & Q). destruct (strip_In kws kws' key k Q Hk) as (k' & Hk' & St).
  apply (alike_found c c' t k' k H (eq_sym St)). apply (A t kws' key k' (alike_within _ _ _ _ H' W) Kt' Hk'). now apply (later_reference _ _ St).
Qed.
(** Subschemas come later, and references have none. *)
Definition regular (c : cat) (s : sid) : Prop := forall t kws key k t', within (c_objs c) s t -> keywords_at (c_objs c) t kws -> In (key, k) kws -> subschema_of k t' ->
  t < t' /\ t' < size c /\ ~ is_reference k.
Lemma alike_regular c c' s : alike c c' -> regular c s -> regular c' s.
Proof.
  intros H A t kws key k t' W Kt Hk Sub. pose proof (alike_sym _ _ H) as H'. destruct (alike_keywords _ _ _ _ H' Kt) as (kws' & Kt' & Q). destruct (strip_In kws kws' key k Q Hk) as (k' & Hk' & St).
  destruct (A t kws' key k' t' (alike_within _ _ _ _ H' W) Kt' Hk') as (A1 & A2 & A3); [now apply (later_sub _ _ t' St)|]. rewrite (alike_size _ _ H). split; [exact A1|]. split; [exact A2|].
  intro R. apply A3. now apply (later_reference _ _ St).
Qed.

(** ** What resolution does. *)
Definition outcome {A} (x : M A) (c : cat) (P : Prop) : Prop :=
  (P -> exists a c', x c = (Ok a, c') /\ alike c c') /\
  (loads_nothing E -> P \/ exists e c', x c = (Exn e, c') /\ alike c c' /\ ~ P).
Lemma outcome_iff {A} (x : M A) c P Q : (P <-> Q) -> outcome x c P -> outcome x c Q.
Proof. intros H [A1 A2]. split; [intro q; apply A1; tauto|]. intro Si. destruct (A2 Si) as [p|(e & c' & X & Y & Z)]; [left; tauto|right; exists e, c'; tauto]. Qed.
Lemma outcome_ret {A} (a : A) c : outcome (ret a) c True.
Proof. split; [|now left]. intros _. exists a, c. split; [reflexivity|apply alike_refl]. Qed.
Lemma outcome_then (x y : M unit) c (P Q : Prop) : outcome x c P -> (forall c', alike c c' -> outcome y c' Q) -> outcome (do _ <- x; y) c (P /\ Q).
Proof.
  intros [X1 X2] Y. split.
  - intros [p q]. destruct (X1 p) as (a & c1 & H1 & L1). destruct (proj1 (Y c1 L1) q) as (b & c2 & H2 & L2). exists b, c2. unfold bindM. rewrite H1. split; [exact H2|exact (alike_trans _ _ _ L1 L2)].
  - intro Si. destruct (X2 Si) as [p|(e & c1 & H1 & L1 & N)].
    + destruct (X1 p) as (a & c1 & H1 & L1). destruct (proj2 (Y c1 L1) Si) as [q|(e & c2 & H2 & L2 & N)]; [left; now split|right].
      exists e, c2. unfold bindM. rewrite H1. split; [exact H2|]. split; [exact (alike_trans _ _ _ L1 L2)|tauto].
    + right. exists e, c1. unfold bindM. rewrite H1. split; [reflexivity|]. split; [exact L1|tauto].
Qed.
Lemma outcome_each {A} (f : A -> M unit) (P : A -> Prop) l : forall c, (forall a c', In a l -> alike c c' -> outcome (f a) c' (P a)) -> outcome (each_ f l) c (forall a, In a l -> P a).
Proof.
  induction l as [|a l IH]; intros c H; [apply (outcome_iff _ _ True); [split; [intros _ a []|auto]|apply outcome_ret]|]. cbn [each_].
  apply (outcome_iff _ _ (P a /\ forall b, In b l -> P b)).
  - split; [intros [p q] b [<-|X]; auto|]. intro X. split; [apply X; now left|]. intros b Hb. apply X. now right.
  - apply outcome_then; [apply H; [now left|apply alike_refl]|]. intros c1 L1. apply IH. intros b c2 Hb L2. apply H; [now right|exact (alike_trans _ _ _ L1 L2)].
Qed.

(** *** Looking up. *)
Lemma parse_no_fuel f : parse_uri_fragment f <> Fuel.
Proof. unfold parse_uri_fragment, parse_pointer, mk_pointer. destruct (unquote f) as [|ch r]; cbn; [discriminate|]. repeat match goal with |- context [if ?b then _ else _] => destruct b end; discriminate. Qed.
Lemma get_at_hand resolve id u m c t : at_hand c id u t -> get_schema_with E resolve id u m c = (Ok t, c).
Proof.
  unfold get_schema_with. unfold bindM at 1, read at 1. intros [->|(-> & r & f & F & R & X)]; [reflexivity|]. cbv zeta. unfold bindM at 1, read at 1. rewrite F, R. unfold bindM at 1, ret at 1.
  destruct f as [|ch f]; [now subst t|]. destruct X as (p & P & X). unfold bindM at 1, read at 1. unfold bindM at 1, lift at 1. rewrite P. cbn [bind]. rewrite X. reflexivity.
Qed.
Lemma get_silent resolve id u m c : loads_nothing E -> (exists t, at_hand c id u t) \/ exists e, get_schema_with E resolve id u m c = (Exn e, c) /\ forall t, ~ at_hand c id u t.
Proof.
  intro Si. unfold get_schema_with, at_hand. destruct (cached id u (c_cache c)) as [t|] eqn:Hit; [left; exists t; now left|]. unfold bindM at 1, read at 1. rewrite Hit. cbv zeta. unfold bindM at 1, read at 1.
  destruct (match u_frag u with Some _ => cached id (no_fragment u) (c_cache c) | None => None end) as [r|] eqn:Kn.
  - destruct (u_frag u) as [f|] eqn:F; [|discriminate Kn]. destruct f as [|ch f]; [left; exists r; right; split; [reflexivity|]; exists r, []; auto|].
    unfold bindM at 1, ret at 1. unfold bindM at 1, read at 1. unfold bindM at 1, lift at 1.
    assert (N : forall e, (forall p n, parse_uri_fragment (ch :: f) = Ok p -> sn_walk (objs_world (c_objs c)) (SNSchema r) p = Ok (SNSchema n) -> False) -> 
      exists e', (Exn e, c) = (Exn e' : res sid, c) /\ forall t, ~ (None = Some t \/ None = @None sid /\ exists r' f', Some (ch :: f) = Some f' /\ cached id (no_fragment u) (c_cache c) = Some r' /\
        match f' with [] => t = r' | _ => exists p, parse_uri_fragment f' = Ok p /\ sn_walk (objs_world (c_objs c)) (SNSchema r') p = Ok (SNSchema t) end)).
    { intros e X. exists e. split; [reflexivity|]. intros t [Q|(_ & r' & f' & Q & R & Y)]; [discriminate Q|]. injection Q as <-. rewrite R in Kn. injection Kn as ->. destruct Y as (p & P & Y). exact (X p t P Y). }
    destruct (parse_uri_fragment (ch :: f)) as [p|e|] eqn:P; cbn [bind].
    + destruct (sn_walk (objs_world (c_objs c)) (SNSchema r) p) as [[t|j]|e|] eqn:Wk; cbn [pointer_to_catalog].
      * left. exists t. right. split; [reflexivity|]. exists r, (ch :: f). rewrite P. eauto 6.
      * right. apply N. intros p' n [= <-] X. congruence.
      * right. destruct (is_pointer_error e); apply N; intros p' n [= <-] X; congruence.
      * exfalso. clear -Wk. revert Wk. generalize (SNSchema r). induction p as [|k p IH]; intros n; cbn [sn_walk]; [discriminate|]. destruct (sn_child (objs_world (c_objs c)) n k) as [y|e|] eqn:Q; cbn [bind]; [apply IH|discriminate|].
        intros _. destruct n as [s|[v|s|l|ms]]; cbn in Q.
        -- destruct (dget k _); discriminate.
        -- destruct v; try discriminate; [unfold sn_index in Q; destruct (py_int k); [destruct (norm_index (length l) z); [destruct (nth_error l n)|]|]; discriminate|destruct (dget k m); discriminate].
        -- discriminate.
        -- unfold sn_index in Q; destruct (py_int k); [destruct (norm_index (length l) z); [destruct (nth_error l n)|]|]; discriminate.
        -- destruct (dget k ms); discriminate.
    + cbn [pointer_to_catalog]. right. destruct (is_pointer_error e); apply N; discriminate.
    + destruct (parse_no_fuel _ P).
  - right. destruct (Si (no_fragment u)) as [e Ld]. exists e. unfold bindM at 1. unfold bindM at 1, lift at 1. rewrite Ld. split; [reflexivity|]. intros t [Q|(_ & r & f & F & R & _)]; [discriminate Q|]. rewrite F in Kn. congruence.
Qed.
Lemma map_set_nth {A B} (g : A -> B) l : forall n x y, nth_error l n = Some y -> g x = g y -> map g (set_nth n x l) = map g l.
Proof.
  induction l as [|a l IH]; intros [|n] x y H G; try discriminate H.
  - injection H as ->. cbn. now rewrite G.
  - cbn [set_nth map]. f_equal. exact (IH n x y H G).
Qed.
Lemma alike_set_ref s key t d c : exists c', set_ref s key t d c = (Ok tt, c') /\ alike c c'.
Proof.
  unfold set_ref, update, modify. eexists. split; [reflexivity|]. destruct (nth_error (c_objs c) s) as [o|] eqn:Ho; [|apply alike_refl]. split; [|reflexivity]. unfold put_obj. cbn [c_objs].
  apply (map_set_nth shape _ s _ o Ho). unfold shape, with_data. cbn [so_uri so_meta so_up so_cache so_data]. f_equal. destruct (so_data o) as [|kws]; [reflexivity|].
  f_equal. rewrite map_map. apply map_ext. intros [k v]. cbn [fst snd]. now destruct (str_eqb k key).
Qed.

Lemma outcome_keyword resolve s key k c : is_reference k -> outcome (resolve_keyword E resolve s key k) c (found E c s k).
Proof.
  intro R. assert (Abs : forall st, kw_class k = Std KRef \/ kw_class k = Std KDynamicRef ->
     (exists u, absolute_reference E s (kw_json k) st = (Ok u, st) /\ reference_uri E (c_objs st) s k u /\ forall u', reference_uri E (c_objs st) s k u' -> u' = u) \/
     (exists e, absolute_reference E s (kw_json k) st = (Exn e, st) /\ forall u', ~ reference_uri E (c_objs st) s k u')).
  { intros st Kc. assert (Ru : forall u, reference_uri E (c_objs st) s k u <-> exists t, kw_json k = KJ (JStr t) /\ let r := ul_parse (e_lib E) t in
       (ul_absolute (e_lib E) (no_fragment r) = true /\ u = r \/ ul_absolute (e_lib E) (no_fragment r) = false /\ exists b, base_uri (c_objs st) s = Some b /\ u = ul_resolve (e_lib E) r b)).
    { intro u. unfold reference_uri. destruct Kc as [-> | ->]; reflexivity. }
    assert (NoText : (forall t, kw_json k <> KJ (JStr t)) -> forall u', ~ reference_uri E (c_objs st) s k u') by (intros X u' Y; apply Ru in Y; destruct Y as (t & Q & _); exact (X t Q)).
    destruct (kw_json k) as [v| | |] eqn:Kj; try (right; eexists; split; [reflexivity|apply NoText; discriminate]). destruct v; try (right; eexists; split; [reflexivity|apply NoText; discriminate]).
    assert (Q : absolute_reference E s (KJ (JStr s0)) st = if ul_absolute (e_lib E) (no_fragment (ul_parse (e_lib E) s0)) then (Ok (ul_parse (e_lib E) s0), st)
       else match base_uri (c_objs st) s with Some b => (Ok (ul_resolve (e_lib E) (ul_parse (e_lib E) s0) b), st) | None => (Exn ESchema, st) end).
    { unfold absolute_reference, bindM, lift, parse_uri, read, ret, throw. destruct (ul_absolute (e_lib E) (no_fragment (ul_parse (e_lib E) s0))); [reflexivity|]. now destruct (base_uri (c_objs st) s). }
    rewrite Q. clear Q. destruct (ul_absolute (e_lib E) (no_fragment (ul_parse (e_lib E) s0))) eqn:Ab.
    - left. eexists. split; [reflexivity|]. split; [apply Ru; exists s0; split; [reflexivity|left; auto]|]. intros u' Y. apply Ru in Y. destruct Y as (t & Q & Y). injection Q as <-. destruct Y as [[_ Y]|[Y _]]; [exact Y|congruence].
    - destruct (base_uri (c_objs st) s) as [b|] eqn:B.
      + left. eexists. split; [reflexivity|]. split; [apply Ru; exists s0; split; [reflexivity|right; eauto]|]. intros u' Y. apply Ru in Y. destruct Y as (t & Q & Y). injection Q as <-.
        destruct Y as [[Y _]|[_ (b' & Qb & Y)]]; congruence.
      + right. eexists. split; [reflexivity|]. intros u' Y. apply Ru in Y. destruct Y as (t & Q & Y). injection Q as <-. destruct Y as [[Y _]|[_ (b' & Qb & Y)]]; congruence. }
  assert (One : forall u t t', at_hand c (cache_of (c_objs c) s) u t -> at_hand c (cache_of (c_objs c) s) u t' -> t' = t).
  { intros u t t' A A'. pose proof (get_at_hand (fun _ => ret tt) _ _ None _ _ A) as X. rewrite (get_at_hand (fun _ => ret tt) _ _ None _ _ A') in X. congruence. }
  assert (Ref : kw_class k = Std KRef \/ kw_class k = Std KRecursiveRef \/ kw_class k = Std KDynamicRef) by (destruct R as [R|[R|R]]; tauto). clear R.
  (* looking up u and then y *)
  assert (Go : forall u (y : sid -> M unit) (P : sid -> Prop), reference_uri E (c_objs c) s k u -> (forall u', reference_uri E (c_objs c) s k u' -> u' = u) ->
     (forall t, found E c s k /\ at_hand c (cache_of (c_objs c) s) u t -> P t) -> (forall t, at_hand c (cache_of (c_objs c) s) u t -> P t -> found E c s k) ->
     (forall t, outcome (y t) c (P t)) -> forall m, outcome (do t <- get_schema_with E resolve (cache_of (c_objs c) s) u m; y t) c (found E c s k)).
  { intros u y P Hu Uu Hp Pf Hy m. split.
    - intro Fd. pose proof Fd as (u' & t & Ru & A & D). apply Uu in Ru. subst u'. destruct (proj1 (Hy t) (Hp t (conj Fd A))) as (a & c' & X & L). exists a, c'. unfold bindM. rewrite (get_at_hand resolve _ _ m _ _ A). auto.
    - intro Si. destruct (get_silent resolve (cache_of (c_objs c) s) u m c Si) as [(t & A)|(e & X & N)].
      + destruct (proj2 (Hy t) Si) as [p|(e & c' & X & L & N)]; [left; exact (Pf t A p)|right]. exists e, c'. unfold bindM. rewrite (get_at_hand resolve _ _ m _ _ A). split; [exact X|]. split; [exact L|].
        intro Fd. apply N, Hp. now split.
      + right. exists e, c. unfold bindM. rewrite X. split; [reflexivity|]. split; [apply alike_refl|]. intros (u' & t & Ru & A & _). apply Uu in Ru. subst u'. exact (N t A). }
  assert (Set_ : forall t d, outcome (set_ref s key t d) c True).
  { intros t d. split; [|now left]. intros _. destruct (alike_set_ref s key t d c) as (c' & X & L). eauto. }
  assert (Read : forall (g : list sobj -> M unit), outcome (g (c_objs c)) c (found E c s k) -> outcome (do objs <- read c_objs; g objs) c (found E c s k)) by auto.
  unfold resolve_keyword. apply Read. clear Read. cbv zeta. fold (cache_of (c_objs c) s).
  assert (Skip : forall (x : M uri) (f : uri -> M unit) u, x c = (Ok u, c) -> outcome (f u) c (found E c s k) -> outcome (bindM x f) c (found E c s k)).
  { intros x f u X [O1 O2]. split; unfold bindM; rewrite X; auto. }
  assert (Fail : forall (x : M uri) (f : uri -> M unit) e, x c = (Exn e, c) -> (forall u, ~ reference_uri E (c_objs c) s k u) -> outcome (bindM x f) c (found E c s k)).
  { intros x f e X N. split; [intros (u & t & Ru & _); destruct (N u Ru)|]. intros _. right. exists e, c. unfold bindM. rewrite X. split; [reflexivity|]. split; [apply alike_refl|]. intros (u & t & Ru & _). exact (N u Ru). }
  destruct Ref as [Kc|[Kc|Kc]].
  - destruct (Abs c (or_introl Kc)) as [(u & X & Ru & Uu)|(e & X & N)]; rewrite Kc in *.
    + apply (Skip _ _ u X). apply (Go u _ (fun _ => True)); auto. intros t A _. exists u, t. split; [exact Ru|]. split; [exact A|]. rewrite Kc. discriminate.
    + exact (Fail _ _ e X N).
  - rewrite Kc. assert (Ru : forall u, reference_uri E (c_objs c) s k u <-> base_uri (c_objs c) s = Some u) by (intro u; unfold reference_uri; rewrite Kc; reflexivity).
    destruct (base_uri (c_objs c) s) as [b|] eqn:B.
    + apply (Go b _ (fun _ => True)); auto; [now apply Ru|intros u' X; apply Ru in X; congruence|]. intros t A _. exists b, t. split; [now apply Ru|]. split; [exact A|]. rewrite Kc. discriminate.
    + split; [intros (u & t & X & _); apply Ru in X; discriminate X|]. intros _. right. exists ESchema, c. split; [reflexivity|]. split; [apply alike_refl|]. intros (u & t & X & _). apply Ru in X. discriminate X.
  - destruct (Abs c (or_intror Kc)) as [(u & X & Ru & Uu)|(e & X & N)]; rewrite Kc in *.
    + apply (Skip _ _ u X). apply (Go u _ (fun t => exists kws, keywords_at (c_objs c) t kws)); auto.
      * intros t [(u' & t' & Ru' & A' & D) A]. apply Uu in Ru'. subst u'. pose proof (One _ _ _ A A'). subst t'. exact (D Kc).
      * intros t A D. exists u, t. split; [exact Ru|]. split; [exact A|auto].
      * intro t. destruct (alike_set_ref s key t false c) as (c1 & S1 & L1).
        assert (O : forall st, alike c st -> outcome (do objs <- read c_objs; do b <- lift (has_dynamic_anchor (objs_world objs) t (kw_fragment k)); if b then set_ref s key t true else ret tt) st (exists kws, keywords_at (c_objs c) t kws)).
        { intros st L. unfold outcome. unfold bindM at 1 2, read at 1 2. unfold bindM, lift, has_dynamic_anchor, objs_world. cbn [w_schema]. destruct (nth_error (c_objs st) t) as [o|] eqn:Ho.
          - destruct (so_data o) as [bb|kws] eqn:Do.
            + assert (N : ~ exists kws, keywords_at (c_objs c) t kws).
              { intros (kws & Ka). destruct (alike_keywords _ _ _ _ L Ka) as (kws' & (o' & Ho' & D') & _). congruence. }
              split; [tauto|]. intros _. right. exists EType, st. split; [reflexivity|]. split; [apply alike_refl|exact N].
            + assert (Y : exists kws, keywords_at (c_objs c) t kws) by (destruct (alike_keywords _ _ t kws (alike_sym _ _ L)) as (kws' & Ka & _); [now exists o|now exists kws']).
              split; [intros _|now left]. match goal with |- context [if ?b then _ else _] => destruct b end; [destruct (alike_set_ref s key t true st) as (c' & Q & L'); eauto|exists tt, st; split; [reflexivity|apply alike_refl]].
          - assert (N : ~ exists kws, keywords_at (c_objs c) t kws).
            { intros (kws & Ka). destruct (alike_keywords _ _ _ _ L Ka) as (kws' & (o' & Ho' & D') & _). congruence. }
            split; [tauto|]. intros _. right. exists EType, st. split; [reflexivity|]. split; [apply alike_refl|exact N]. }
        apply (outcome_iff _ _ (True /\ exists kws, keywords_at (c_objs c) t kws)); [tauto|]. apply outcome_then; [apply Set_|exact O].
    + exact (Fail _ _ e X N).
Qed.

(** *** A schema. *)
Lemma all_found_at c s kws : keywords_at (c_objs c) s kws -> (forall key k, In (key, k) kws -> (is_reference k -> found E c s k) /\ forall t, subschema_of k t -> all_found E c t) <-> all_found E c s.
Proof.
  intro Ka. split.
  - intros H t kws' key k W Kt Hk R. apply within_first in W. destruct W as [->|(kws1 & key1 & k1 & t1 & Ka1 & Hk1 & Sub & W)].
    + assert (kws' = kws) by exact (keywords_fun _ _ _ _ Kt Ka). subst kws'. exact (proj1 (H _ _ Hk) R).
    + assert (kws1 = kws) by exact (keywords_fun _ _ _ _ Ka1 Ka). subst kws1. exact (proj2 (H _ _ Hk1) t1 Sub t kws' key k W Kt Hk R).
  - intros H key k Hk. split; [intro R; exact (H s kws key k (within_self _ _) Ka Hk R)|]. intros t Sub t' kws' key' k' W Kt Hk' R. apply (H t' kws' key' k'); auto.
    clear -Ka Hk Sub W. induction W as [|t1 t2 kws2 key2 k2 W IH K2 H2 S2]; [exact (within_step _ _ s t kws key k (within_self _ _) Ka Hk Sub)|exact (within_step _ _ t1 t2 kws2 key2 k2 IH K2 H2 S2)].
Qed.
Lemma regular_sub c s kws key k t : regular c s -> keywords_at (c_objs c) s kws -> In (key, k) kws -> subschema_of k t -> regular c t.
Proof.
  intros H Ka Hk Sub t1 kws1 key1 k1 t2 W. apply H. clear -Ka Hk Sub W.
  induction W as [|t1 t2 kws2 key2 k2 W IH K2 H2 S2]; [exact (within_step _ _ s t kws key k (within_self _ _) Ka Hk Sub)|exact (within_step _ _ t1 t2 kws2 key2 k2 IH K2 H2 S2)].
Qed.
Theorem outcome_resolve f : forall s c, regular c s -> s < size c -> size c - s <= f -> outcome (resolve_references E f s) c (all_found E c s).
Proof.
  induction f as [|f IH]; intros s c Rg Hs Hf; [lia|]. cbn [resolve_references].
  assert (Skip : forall (g : list (pystr * keyword) -> M unit) P, outcome (g (schema_keywords (objs_world (c_objs c)) s)) c P -> outcome (do kws <- read (fun c => schema_keywords (objs_world (c_objs c)) s); g kws) c P) by auto.
  apply Skip. clear Skip. destruct (nth_error (c_objs c) s) as [o|] eqn:Ho; [|apply nth_error_None in Ho; unfold size in Hs; lia]. destruct (so_data o) as [b|kws] eqn:Do.
  - assert (Q : schema_keywords (objs_world (c_objs c)) s = []) by (unfold schema_keywords, objs_world; cbn; now rewrite Ho, Do). rewrite Q. apply (outcome_iff _ _ True); [|apply outcome_ret].
    split; [|auto]. intros _ t kws key k W. apply within_first in W. destruct W as [->|(kws1 & key1 & k1 & t1 & (o1 & Ho1 & D1) & _)]; [intros (o1 & Ho1 & D1)|]; congruence.
  - assert (Q : schema_keywords (objs_world (c_objs c)) s = kws) by (unfold schema_keywords, objs_world; cbn; now rewrite Ho, Do). rewrite Q.
    assert (Ka : keywords_at (c_objs c) s kws) by now exists o.
    apply (outcome_iff _ _ (forall kk, In kk kws -> (is_reference (snd kk) -> found E c s (snd kk)) /\ forall t, subschema_of (snd kk) t -> all_found E c t)).
    { rewrite <- (all_found_at c s kws Ka). split; [intros H key k Hk; exact (H (key, k) Hk)|intros H [key k] Hk; exact (H key k Hk)]. }
    apply (outcome_each _ (fun kk => (is_reference (snd kk) -> found E c s (snd kk)) /\ forall t, subschema_of (snd kk) t -> all_found E c t)). intros [key k] c' Hk L. cbn [fst snd].
    assert (Sub : forall t, subschema_of k t -> (forall c', alike c c' -> outcome (resolve_references E f t) c' (all_found E c t)) /\ ~ is_reference k).
    { clear c' L. intros t Sb. destruct (Rg s kws key k t (within_self _ _) Ka Hk Sb) as (A1 & A2 & A3). split; [|exact A3]. intros c' L.
      apply (outcome_iff _ _ (all_found E c' t)); [split; apply alike_all; [now apply alike_sym|exact L]|]. pose proof (alike_size _ _ L) as Sz. apply IH; [|lia|lia].
      apply (alike_regular c c' t L). exact (regular_sub c s kws key k t Rg Ka Hk Sb). }
    destruct (reference_class (kw_class k)) eqn:Rc.
    + assert (R : is_reference k) by (unfold is_reference; destruct (kw_class k) as [[]|]; try discriminate Rc; auto).
      apply (outcome_iff _ _ (found E c' s k)); [|now apply outcome_keyword]. split.
      * intro Fd. split; [intros _; exact (alike_found c' c s k k (alike_sym _ _ L) eq_refl Fd)|]. intros t Sb. destruct (proj2 (Sub t Sb) R).
      * intros [Fd _]. exact (alike_found c c' s k k L eq_refl (Fd R)).
    + assert (R : ~ is_reference k) by (intros [X|[X|X]]; rewrite X in Rc; discriminate Rc).
      unfold subschema_of in *. destruct (kw_json k) as [v|t|ts|ts].
      * apply (outcome_iff _ _ True); [|apply outcome_ret]. split; [intros _; split; [tauto|intros t []]|auto].
      * apply (outcome_iff _ _ (all_found E c t)); [|now apply Sub]. split; [intro H; split; [tauto|now intros t' <-]|intros [_ H]; now apply H].
      * apply (outcome_iff _ _ (forall t, In t ts -> all_found E c t)); [tauto|]. apply outcome_each. intros t c2 Ht L2. apply Sub; [exact Ht|exact (alike_trans _ _ _ L L2)].
      * apply (outcome_iff _ _ (forall kt, In kt ts -> all_found E c (snd kt))).
        { split; [intro H; split; [tauto|]; intros t Ht; apply in_map_iff in Ht; destruct Ht as (kt & <- & Ht); now apply H|intros [_ H] kt Ht; apply H; now apply in_map]. }
        apply outcome_each. intros kt c2 Ht L2. apply Sub; [now apply in_map|exact (alike_trans _ _ _ L L2)].
Qed.
(** ** Documents. *)
Lemma build_regular id v u m c s c1 : sane c -> jwf v = true -> build E id v u m None c = (Ok s, c1) -> s < size c1 /\ regular c1 s.
Proof.
  intros S J H. destruct (build_made E id v u m c s c1 S J H) as (_ & Hs & _ & Md). split; [exact Hs|]. pose proof (sane_build E id v u m c s c1 S H) as S1.
  intros t kws key k t' W Kt Hk Sub. split; [exact (made_ordered E _ _ _ _ _ _ _ _ (proj1 S1) Md W kws key k t' Kt Hk Sub)|].
  destruct (proj2 (proj1 (proj2 S1) _ _ Kt) _ _ Hk) as (A & _ & B). split; [exact (A t' Sub)|]. intro R. exact (B R t' Sub).
Qed.
Lemma free_within objs m b u v s up t : made E objs m b u v s up -> free_of_references E m v = true -> within objs s t ->
  exists m' b' u' v' up', made E objs m' b' u' v' t up' /\ free_of_references E m' v' = true.
Proof.
  intros Md Fr W. induction W as [|t t' kws key k W (m' & b' & u' & v' & up' & Mt & Ft) Kt Hk Sub]; [exists m, b, u, v, up; auto|].
  inversion Mt as [? ? ? x ? ? o Ho D _ _|? ? ? doc ? ? o kws0 Ho D Hup Hu N K C Kp Hh Dep]; subst.
  - destruct Kt as (o' & Ho' & D'). congruence.
  - assert (kws0 = kws) by (apply (keywords_fun objs t); [now exists o|exact Kt]). subst kws0.
    assert (Hin : In key (keys doc)) by (apply K; exact (in_map fst _ _ Hk)). destruct (keys_dget _ _ Hin) as [w Dw].
    cbn [free_of_references] in Ft. rewrite forallb_forall in Ft. specialize (Ft _ (dget_In _ _ _ Dw)). cbn [fst snd] in Ft. rewrite (C _ _ Hk) in Ft. apply andb_true_iff in Ft. destruct Ft as [_ Ft].
    pose proof (Hh _ _ _ Hk Dw) as Hj. unfold subschema_of in Sub.
    inversion Hj as [|? ? ? ? ? ? t1 T M1 Q1 Q2 Q3 Q4 Q5 Q6 Q7|? ? ? ? ? l ts T Ln M1|? ? ? ? ? ? T|? ? ? ? ? doc1 ts T Nd Kk M1]; subst;
      match goal with X : _ = kw_json k |- _ => rewrite <- X in Sub end; try (destruct Sub; fail).
    + subst t1. exists (applies E m' doc), (base_of (so_uri o) b'), None, w, (Some (t, [key])). split; [exact M1|].
      destruct w; try reflexivity. destruct (kw_class k) as [c|]; [|cbn in T; intuition discriminate].
      assert (O : one_schema c = true) by (unfold takes_one in T; apply in_map_iff in T; destruct T as (c0 & Qc & T); injection Qc as ->; repeat (destruct T as [<-|T]; [reflexivity|]); destruct T).
      rewrite O in Ft. exact Ft.
    + apply In_nth_error in Sub. destruct Sub as (j & Hjj). destruct (nth_error l j) as [w1|] eqn:Hl; [|exfalso; apply nth_error_None in Hl; assert (j < length ts) by (apply nth_error_Some; congruence); lia].
      exists (applies E m' doc), (base_of (so_uri o) b'), None, w1, (Some (t, [key; str_of_nat j])). split; [exact (M1 _ _ _ Hl Hjj)|]. destruct (kw_class k) as [c|]; [|cbn in T; intuition discriminate].
      assert (O : many_schemas c = true) by (unfold takes_many in T; apply in_map_iff in T; destruct T as (c0 & Qc & T); injection Qc as ->; repeat (destruct T as [<-|T]; [reflexivity|]); destruct T).
      rewrite O in Ft. rewrite forallb_forall in Ft. apply Ft. exact (nth_error_In _ _ Hl).
    + apply in_map_iff in Sub. destruct Sub as ([n1 t1] & Q & Hts). cbn in Q. subst t1. assert (Nt : NoDup (keys ts)) by now rewrite Kk. pose proof (In_dget _ _ _ Nt Hts) as D1.
      assert (Hn : In n1 (keys doc1)) by (rewrite <- Kk; exact (in_map fst _ _ Hts)). destruct (keys_dget _ _ Hn) as [w1 Dw1].
      exists (applies E m' doc), (base_of (so_uri o) b'), None, w1, (Some (t, [key; n1])). split; [exact (M1 _ _ _ Dw1 D1)|]. destruct (kw_class k) as [c|]; [|cbn in T; intuition discriminate].
      assert (O : one_schema c = false /\ named_schemas c = true) by (unfold takes_named in T; apply in_map_iff in T; destruct T as (c0 & Qc & T); injection Qc as ->; repeat (destruct T as [<-|T]; [split; reflexivity|]); destruct T).
      destruct O as [O1 O2]. rewrite O1, O2 in Ft. rewrite forallb_forall in Ft. exact (Ft _ (dget_In _ _ _ Dw1)).
Qed.
Lemma free_found id v u m c s c1 : sane c -> jwf v = true -> build E id v u m None c = (Ok s, c1) -> free_of_references E m v = true -> all_found E c1 s.
Proof.
  intros S J H Fr t kws key k W Kt Hk R. exfalso. destruct (build_made E id v u m c s c1 S J H) as (_ & _ & _ & Md).
  destruct (free_within _ _ _ _ _ _ _ _ Md Fr W) as (m' & b' & u' & v' & up' & Mt & Ft).
  inversion Mt as [? ? ? x ? ? o Ho D _ _|? ? ? doc ? ? o kws0 Ho D Hup Hu N K C Kp Hh Dep]; subst.
  - destruct Kt as (o' & Ho' & D'). congruence.
  - assert (kws0 = kws) by (apply (keywords_fun (c_objs c1) t); [now exists o|exact Kt]). subst kws0.
    assert (Hin : In key (keys doc)) by (apply K; exact (in_map fst _ _ Hk)). destruct (keys_dget _ _ Hin) as [w Dw].
    cbn [free_of_references] in Ft. rewrite forallb_forall in Ft. specialize (Ft _ (dget_In _ _ _ Dw)). cbn [fst snd] in Ft. rewrite (C _ _ Hk) in Ft. apply andb_true_iff in Ft. destruct Ft as [Ft _].
    destruct R as [R|[R|R]]; rewrite R in Ft; discriminate Ft.
Qed.
Lemma build_decides id v u m c : upward (c_objs c) -> jwf v = true ->
  match fst (build E id v u m None c) with Ok _ => buildable E m v = true | Exn _ => buildable E m v = false | Fuel => False end.
Proof.
  intros U J. pose proof (build_ends E id v J u m None c U) as H. unfold ends, outer_meta in H. destruct m; apply H; discriminate.
Qed.
Lemma construct_refused f id v u m c : upward (c_objs c) -> jwf v = true -> buildable E m v = false -> exists e c', construct E f id v u m c = (Exn e, c').
Proof.
  intros U J B. pose proof (build_decides id v u m c U J) as H. unfold construct, construct_with, bindM. destruct (build E id v u m None c) as [[s|e|] c'] eqn:Hb; cbn [fst] in H; [congruence| |destruct H].
  exists e, c'. reflexivity.
Qed.
Lemma construct_outcome f id v u m c s c1 : sane c -> jwf v = true -> build E id v u m None c = (Ok s, c1) -> size c1 - s <= f ->
  (all_found E c1 s -> exists c', construct E f id v u m c = (Ok s, c') /\ alike c1 c') /\
  (loads_nothing E -> all_found E c1 s \/ exists e c', construct E f id v u m c = (Exn e, c') /\ alike c1 c' /\ ~ all_found E c1 s).
Proof.
  intros S J H Hf. destruct (build_regular id v u m c s c1 S J H) as [Hs Rg]. destruct (outcome_resolve f s c1 Rg Hs Hf) as [O1 O2].
  unfold construct, construct_with, bindM. rewrite H. destruct v as [| | | |l|doc].
  6:{ split.
    - intro A. destruct (O1 A) as (a & c' & X & L). exists c'. rewrite X. split; [reflexivity|exact L].
    - intro Si. destruct (O2 Si) as [A|(e & c' & X & L & N)]; [now left|right]. exists e, c'. rewrite X. auto. }
  all: split; [intros _; exists c1; split; [reflexivity|apply alike_refl]|].
  all: intros _; left; intros t kws key k W Kt Hk R; exfalso.
  all: destruct (build_made E id _ u m c s c1 S J H) as (_ & _ & _ & Md); inversion Md as [? ? ? x ? ? o Ho D _ _|]; subst.
  apply within_first in W. destruct W as [->|(kws1 & key1 & k1 & t1 & (o1 & Ho1 & D1) & _)]; [destruct Kt as (o1 & Ho1 & D1)|]; congruence.
Qed.
End Found.
