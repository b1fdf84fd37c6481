(** Construction with one cache leaves the other caches alone. *)
From Coq Require Import List Lia Bool.
From Verif Require Export SpecCaches BuildStays.
Import ListNotations.
Open Scope nat_scope.

(** The other caches are as they were, the objects made before belong to the
    same caches, and new ones belong to cache [id]. *)
Definition alone (id : pystr) (c c' : cat) : Prop :=
  (tidy (c_cache c) -> tidy (c_cache c') /\ forall id' u, id' <> id -> cached id' u (c_cache c') = cached id' u (c_cache c)) /\
  (forall i o, nth_error (c_objs c) i = Some o -> exists o', nth_error (c_objs c') i = Some o' /\ so_cache o' = so_cache o) /\
  (forall i o, size c <= i -> nth_error (c_objs c') i = Some o -> so_cache o = id).
Lemma pre_alone id : preorder (alone id).
Proof.
  split.
  - intro c. split; [auto|]. split; [eauto|]. intros i o L H. exfalso. assert (nth_error (c_objs c) i <> None) by congruence. apply nth_error_Some in H0. unfold size in L. lia.
  - intros a b c (T & K & N) (T' & K' & N'). split; [|split].
    + intro Ha. destruct (T Ha) as [Tb Cb]. destruct (T' Tb) as [Tc Cc]. split; [exact Tc|]. intros id' u D. now rewrite Cc, Cb by exact D.
    + intros i o H. destruct (K _ _ H) as (o1 & H1 & E1). destruct (K' _ _ H1) as (o2 & H2 & E2). exists o2. split; [exact H2|congruence].
    + intros i o L H. destruct (nth_error (c_objs b) i) as [o1|] eqn:H1.
      * destruct (K' _ _ H1) as (o2 & H2 & E2). rewrite H in H2. injection H2 as <-. rewrite E2. exact (N _ _ L H1).
      * apply nth_error_None in H1. exact (N' _ _ H1 H).
Qed.
Lemma belongs_later id id' c c' s : alone id' c c' -> belongs id c s -> belongs id c' s.
Proof. intros (_ & K & _) (o & H & <-). destruct (K _ _ H) as (o' & H' & E'). exists o'. auto. Qed.
(** The same for work on a schema that belongs to cache [id]. *)
Definition alone_at (id : pystr) (s : sid) (c c' : cat) : Prop := belongs id c s -> alone id c c'.
Lemma pre_at id s : preorder (alone_at id s).
Proof.
  split; [intros c _; apply pre_alone|]. intros a b c H H' B. pose proof (H B) as A. exact (proj2 (pre_alone id) _ _ _ A (H' (belongs_later _ _ _ _ _ A B))).
Qed.
Lemma at_intro {A} id s (x : M A) : framed (alone id) x -> framed (alone_at id s) x.
Proof. intros H c _. apply H. Qed.

Lemma alone_same id c k : (tidy (c_cache c) -> tidy k /\ forall id' u, id' <> id -> cached id' u k = cached id' u (c_cache c)) -> alone id c (mkCat (c_objs c) k).
Proof.
  intro H. split; [exact H|]. split; [eauto|]. intros i o L Hi. exfalso. assert (X : nth_error (c_objs c) i <> None) by (cbn [c_objs] in Hi; congruence). apply nth_error_Some in X. unfold size in L. lia.
Qed.
Lemma other_add id u s t id' u' : id' <> id -> cached id' u' (add_schema id u s t) = cached id' u' t.
Proof. intro D. rewrite cached_add. destruct (str_eqb_spec id' id); [contradiction|reflexivity]. Qed.
Lemma alone_cache id u s : framed (alone id) (cache_schema id u s).
Proof. intro c. apply alone_same. intro T. split; [now apply tidy_add|]. intros. now apply other_add. Qed.
Lemma alone_uncache id u : framed (alone id) (uncache_schema id u).
Proof.
  intro c. apply alone_same. intro T. split; [now apply tidy_del|]. intros id' u' D. rewrite cached_del by exact T. destruct (str_eqb_spec id' id); [contradiction|reflexivity].
Qed.
Lemma alone_update id s f : (forall o, so_cache (f o) = so_cache o) -> framed (alone id) (update s f).
Proof.
  intros F c. unfold update, modify. cbn [snd]. destruct (nth_error (c_objs c) s) as [o|] eqn:Ho; [|apply pre_alone].
  assert (Ls : s < length (c_objs c)) by (apply nth_error_Some; congruence).
  split; [intro T; split; [exact T|reflexivity]|]. unfold put_obj. cbn [c_objs]. split.
  - intros i o' Hi. destruct (Nat.eq_dec s i) as [<-|D]; [|rewrite nth_set_nth_other by exact D; eauto].
    rewrite nth_set_nth_same by exact Ls. exists (f o). split; [reflexivity|]. rewrite Ho in Hi. injection Hi as <-. apply F.
  - intros i o' L Hi. exfalso. assert (X : nth_error (set_nth s (f o) (c_objs c)) i <> None) by congruence. apply nth_error_Some in X. rewrite length_set_nth in X. unfold size in L. lia.
Qed.
Lemma alone_new id u m up d : framed (alone id) (new_schema id u m up d).
Proof.
  intro c. rewrite new_schema_eq. cbn [snd]. split; [|split].
  - cbn [c_cache]. intro T. destruct u as [u|]; [|split; [exact T|reflexivity]]. split; [now apply tidy_add|]. intros. now apply other_add.
  - intros i o H. exists o. split; [|reflexivity]. cbn [c_objs]. rewrite nth_error_app1; [exact H|]. apply nth_error_Some. congruence.
  - cbn [c_objs]. intros i o L H. rewrite nth_error_app2 in H by exact L. destruct (i - length (c_objs c)) as [|n]; [cbn in H; now injection H as <-|]. destruct n; discriminate H.
Qed.

Ltac lone P :=
  repeat lazymatch goal with
    | |- framed _ (bindM _ _) => apply (framed_bind _ P); [|intro]
    | |- framed _ (ret _) => apply (framed_ret _ P)
    | |- framed _ (throw _) => apply (framed_throw _ P)
    | |- framed _ (lift _) => apply (framed_lift _ P)
    | |- framed _ (read _) => apply (framed_read _ P)
    end.

Lemma lone_set_uri L id s u : framed (alone_at id s) (set_uri L s u).
Proof.
  intros c (o & Ho & Hc). unfold set_uri. unfold bindM at 1, read at 1. rewrite Ho, Hc.
  assert (F : framed (alone id) (if match so_uri o with Some u' => uri_same L u' u | None => false end then ret tt
      else do _ <- match so_uri o with Some u' => uncache_schema id u' | None => ret tt end; do _ <- update s (with_uri (Some u)); cache_schema id u s)).
  { pose proof (pre_alone id) as P. destruct (match so_uri o with Some u' => uri_same L u' u | None => false end); [lone P|]. lone P.
    - destruct (so_uri o); [apply alone_uncache|lone P].
    - now apply alone_update.
    - apply alone_cache. }
  apply F.
Qed.

Section Caches.
Variable E : env.
Hypothesis Docs : forall u doc, load_json (e_lib E) (e_sources E) u = Ok doc -> jwf doc = true.
Variable id : pystr.

Lemma lone_init_id next s v : framed (alone_at id s) (init_id E next s v).
Proof.
  pose proof (pre_at id s) as P. unfold init_id. lone P; [|apply lone_set_uri]. destruct (ul_absolute (e_lib E) a); [lone P|]. destruct (base_uri a1 s); lone P.
Qed.
Lemma lone_init_anchor s v : framed (alone_at id s) (init_anchor E s v).
Proof.
  intros c (o & Ho & Hc). unfold init_anchor. unfold bindM, read. rewrite Ho. destruct v, (base_uri (c_objs c) s); try apply (pre_alone id). rewrite Hc. apply alone_cache.
Qed.
Lemma lone_init_schema s v : framed (alone_at id s) (init_schema E s v).
Proof. pose proof (pre_at id s) as P. unfold init_schema. lone P. apply at_intro. now apply alone_update. Qed.

Definition lone_member (x : member) : Prop :=
  (forall up, framed (alone id) (mb_schema x up)) /\ (forall k b up, In (k, b) (mb_items x) -> framed (alone id) (b up)).
Lemma lone_keyword_json s key c x : lone_member x -> framed (alone id) (keyword_json s key c x).
Proof.
  intros [H1 H2]. pose proof (pre_alone id) as P. unfold keyword_json.
  assert (T : forall ms, framed (alone id) (try_mixins s key x ms)).
  { induction ms as [|m ms IH]; [apply (framed_throw _ P)|]. cbn [try_mixins]. destruct (jsonify s key x m) as [j|] eqn:J; [|exact IH].
    unfold jsonify in J. destruct m, (mb_value x); try discriminate J; injection J as <-; try apply (framed_ret _ P);
      (apply (framed_bind _ P); [|intro; apply (framed_ret _ P)]); try apply H1; apply (framed_mapM _ P); intros [k b] Hb; cbn [fst snd].
    - exact (H2 _ _ _ Hb).
    - apply (framed_bind _ P); [exact (H2 _ _ _ Hb)|intro; apply (framed_ret _ P)]. }
  destruct (mixins c) as [|m ms]; [apply (framed_ret _ P)|apply T].
Qed.
Lemma lone_make_keyword s key c x : lone_member x -> framed (alone_at id s) (make_keyword E s key c x).
Proof.
  intro H. pose proof (pre_at id s) as P. unfold make_keyword. apply (framed_bind _ P); [now apply at_intro, lone_keyword_json|].
  intro j. destruct c as [c|k]; [|lone P].
  destruct c; try solve [lone P]; try solve [apply (framed_bind _ P); [first [apply lone_init_schema|apply lone_init_id|apply lone_init_anchor]|intro; apply (framed_ret _ P)]].
  - destruct (mb_value x); try solve [lone P]. destruct (str_eqb s0 (lit "#")); lone P.
  - destruct (mb_value x); try solve [lone P]. destruct (e_regex E s0); lone P.
Qed.
Lemma lone_add_keyword s members key c : (forall k x, In (k, x) members -> lone_member x) -> framed (alone_at id s) (add_keyword E s members key c).
Proof.
  intro H. pose proof (pre_at id s) as P. unfold add_keyword. destruct (dget key members) as [x|] eqn:D; [|lone P].
  apply dget_In in D. apply (framed_bind _ P); [exact (lone_make_keyword _ _ _ _ (H _ _ D))|]. intro k. apply at_intro. now apply alone_update.
Qed.
Lemma lone_build_object s members : (forall k x, In (k, x) members -> lone_member x) -> framed (alone_at id s) (build_object E s members).
Proof.
  intro H. pose proof (pre_at id s) as P. unfold build_object. lone P.
  - destruct a as [[[u|] m [up|] ch d]|]; try solve [lone P]. apply lone_set_uri.
  - unfold bootstrap. apply (framed_bind _ P); [now apply lone_add_keyword|]. intros _. apply (framed_bind _ P); [now apply lone_add_keyword|]. intros _.
    destruct (dmem (lit "$id") members); [|lone P]. apply (framed_bind _ P); [now apply framed_metaschema|]. intro d. now apply lone_add_keyword.
  - now apply framed_classes.
  - apply (framed_each _ P). intros c _. now apply lone_add_keyword.
Qed.
Lemma alone_build v : forall u m up, framed (alone id) (build E id v u m up).
Proof.
  pose proof (pre_alone id) as P.
  assert (G : forall n v, jsize v < n -> forall u m up, framed (alone id) (build E id v u m up)).
  { induction n as [|n IH]; intros w Hn u m up; [lia|]. destruct w as [|b|x|x|l|ms]; try apply alone_new;
      try solve [cbn [build]; apply (framed_bind _ P); [apply alone_new|intro; apply (framed_throw _ P)]].
    rewrite build_object_eq. intro c. pose proof (alone_new id u m up (SObj []) c) as A1. unfold bindM at 1. rewrite new_schema_eq in *. cbn [snd] in A1. set (s := length (c_objs c)) in *. set (c1 := mkCat _ _) in *.
    assert (F : framed (alone_at id s) (build_object E s (map (fun kv => (fst kv, member_of E id (snd kv))) ms))).
    { apply lone_build_object. intros k x Hx. apply in_map_iff in Hx. destruct Hx as ([k' v'] & [= <- <-] & Hv). cbn [snd].
      apply jsize_members in Hv. cbn [snd] in Hv. split.
      - intro up'. apply IH. lia.
      - intros k b up' Hb. cbn [mb_items member_of] in Hb. destruct v' as [|?|?|?|l|m']; try destruct Hb.
        + apply in_numbered in Hb. destruct Hb as (i & w & Hi & [= _ ->]). apply nth_error_In, jsize_items in Hi. apply IH. lia.
        + apply in_map_iff in Hb. destruct Hb as ([k1 v1] & [= <- <-] & Hv1). apply jsize_members in Hv1. cbn [snd] in *. apply IH. lia. }
    assert (B1 : belongs id c1 s). { exists (mkObj u m up id (SObj [])). split; [|reflexivity]. unfold c1. cbn [c_objs]. rewrite nth_error_app2 by (unfold s; lia). unfold s. now rewrite Nat.sub_diag. }
    specialize (F c1 B1). unfold bindM. destruct (build_object E s _ c1) as [[a| |] c2] eqn:B; cbn [snd ret] in *; exact (proj2 P _ _ _ A1 F). }
  exact (G (S (jsize v)) v (Nat.lt_succ_diag_r _)).
Qed.

(** ** References. *)
Definition lonely (c0 c c' : cat) : Prop := kept c0 c -> sane c -> kept c0 c' /\ sane c' /\ alone id c c'.
Lemma pre_lonely c0 : preorder (lonely c0).
Proof.
  split; [intros c K S; split; [exact K|split; [exact S|apply pre_alone]]|]. intros a b c H H' K S. destruct (H K S) as (K1 & S1 & A1). destruct (H' K1 S1) as (K2 & S2 & A2).
  split; [exact K2|]. split; [exact S2|]. exact (proj2 (pre_alone id) _ _ _ A1 A2).
Qed.
Lemma lonely_intro {A} c0 (x : M A) Q : framed kept x -> safe 0 x Q -> (forall c, kept c0 c -> sane c -> alone id c (snd (x c))) -> framed (lonely c0) x.
Proof. intros K S B c Kc Sc. split; [exact (kept_trans _ _ _ Kc (K c))|]. destruct (S c Sc (Nat.le_0_l _)) as (S1 & _). split; [exact S1|]. now apply B. Qed.
Lemma alone_set_ref s key t d : framed (alone id) (set_ref s key t d).
Proof. unfold set_ref. apply alone_update. reflexivity. Qed.

Section Refs.
Variable f : nat.
Hypothesis Hres : forall c0 s, sane c0 -> s < size c0 -> (forall t, within (c_objs c0) s t -> belongs id c0 t) -> framed (lonely c0) (resolve_references E f s).

Lemma lone_construct v u m c : jwf v = true -> sane c -> alone id c (snd (construct E f id v u m c)).
Proof.
  intros J S. unfold construct, construct_with, bindM. pose proof (alone_build v u m None c) as Ab. destruct (build E id v u m None c) as [r cb] eqn:B. cbn [snd] in Ab.
  destruct r as [s| |]; [|exact Ab|exact Ab]. destruct v; try exact Ab. destruct (build_made E id _ u m c s cb S J B) as (Es & Ls & _ & Md).
  pose proof (sane_build E _ _ _ _ _ _ _ S B) as Sb.
  assert (W : forall t, within (c_objs cb) s t -> belongs id cb t).
  { intros t W. pose proof (within_later E _ _ _ _ _ _ _ _ (proj1 Sb) Md W) as Lt. destruct (made_within E _ _ _ _ _ _ _ _ Md W) as (m' & b' & u' & v' & up' & Mt & _).
    destruct (made_up _ _ _ _ _ _ _ _ Mt) as (o & Ho & _). exists o. split; [exact Ho|]. apply (proj2 (proj2 Ab) t o); [rewrite <- Es; exact Lt|exact Ho]. }
  destruct (Hres cb s Sb Ls W cb (kept_refl _) Sb) as (_ & _ & Ar). pose proof (proj2 (pre_alone id) _ _ _ Ab Ar) as R.
  destruct (resolve_references E f s cb) as [[?| |] c2]; exact R.
Qed.
Lemma lone_get u m c : sane c -> alone id c (snd (get_schema E f id u m c)).
Proof.
  intros S. pose proof (pre_alone id) as P. unfold get_schema, get_schema_with. unfold bindM at 1, read at 1. destruct (cached id u (c_cache c)) as [s|]; [apply P|]. cbv zeta.
  unfold bindM at 1, read at 1. set (known := match u_frag u with Some _ => cached id (no_fragment u) (c_cache c) | None => None end).
  assert (T : forall r c1, alone id c c1 -> alone id c (snd ((match r with
      | (_, Some s) => ret s
      | (s, None) =>
          match u_frag u with
          | Some ((_ :: _) as f) =>
              do objs <- read c_objs;
              do n <- lift (pointer_to_catalog (let* p := parse_uri_fragment f in sn_walk (objs_world objs) (SNSchema s) p));
              match n with SNSchema t => ret t | SNJson _ => throw ECatalog end
          | _ => ret s
          end
      end) c1))).
  { intros [s [s'|]] c1 B1; [exact B1|]. destruct (u_frag u) as [[|ch g]|]; [exact B1| |exact B1]. unfold bindM, read, lift.
    destruct (pointer_to_catalog _) as [[t|j]| |]; exact B1. }
  unfold bindM at 1. destruct known as [s|]; [exact (T (s, None) c (proj1 P c))|].
  unfold bindM at 1, lift at 1. destruct (load_json (e_lib E) (e_sources E) (no_fragment u)) as [doc| |] eqn:Ld; [|apply P|apply P].
  pose proof (lone_construct doc (Some (no_fragment u)) m c (Docs _ _ Ld) S) as B. unfold construct in B. unfold bindM at 1.
  destruct (construct_with E (resolve_references E f) id doc (Some (no_fragment u)) m c) as [[s| |] c1]; [|exact B|exact B]. cbn [snd] in B.
  exact (T (s, cached id u (c_cache c1)) c1 B).
Qed.
Lemma lone_then u m c (k : sid -> M unit) : sane c -> (forall t, framed (alone id) (k t)) -> alone id c (snd (bindM (get_schema E f id u m) k c)).
Proof.
  intros S Hk. pose proof (lone_get u m c S) as B. unfold bindM. destruct (get_schema E f id u m c) as [[t| |] c1]; [|exact B|exact B].
  exact (proj2 (pre_alone id) _ _ _ B (Hk t c1)).
Qed.
Lemma lone_resolve_keyword s key k c : belongs id c s -> sane c -> alone id c (snd (resolve_keyword E (resolve_references E f) s key k c)).
Proof.
  intros (o & Ho & Hc) S. pose proof (pre_alone id) as P. assert (Hset : forall t d, framed (alone id) (set_ref s key t d)) by apply alone_set_ref.
  unfold resolve_keyword. unfold bindM at 1, read at 1. cbv zeta. rewrite Ho, Hc.
  assert (Abs : forall k' : sid -> M unit, (forall t, framed (alone id) (k' t)) ->
    alone id c (snd ((do u <- absolute_reference E s (kw_json k); do t <- get_schema_with E (resolve_references E f) id u (metaschema_uri (c_objs c) s); k' t) c))).
  { intros k' Hk. pose proof (absolute_same E s (kw_json k) c) as A. unfold bindM at 1. destruct (absolute_reference E s (kw_json k) c) as [[u| |] c1]; cbn [snd] in A; subst c1; [|apply P|apply P].
    now apply lone_then. }
  destruct (kw_class k) as [kc|]; [|now apply Abs]. destruct kc; try now apply Abs.
  - apply Abs. intro t. lone P; [apply Hset|]. destruct a1; [apply Hset|lone P].
  - destruct (base_uri (c_objs c) s) as [b|]; [|apply P]. now apply lone_then.
Qed.
End Refs.

Lemma belongs_kept c c' s : kept c c' -> belongs id c s -> belongs id c' s.
Proof. intros K (o & H & Hc). destruct (K _ _ H) as (o' & H' & _ & _ & _ & X & _). exists o'. split; [exact H'|congruence]. Qed.
Lemma resolve_lonely f : forall c0 s, sane c0 -> s < size c0 -> (forall t, within (c_objs c0) s t -> belongs id c0 t) -> framed (lonely c0) (resolve_references E f s).
Proof.
  induction f as [|f IH]; intros c0 s S0 Hs W; [intro c; apply pre_lonely|]. cbn [resolve_references]. intros c Kc Sc. unfold bindM at 1, read at 1.
  assert (K : forall kk, In kk (schema_keywords (objs_world (c_objs c)) s) -> forall t, subschema_of (snd kk) t -> t < size c0 /\ forall t', within (c_objs c0) t t' -> belongs id c0 t').
  { intros [key k] Hk t Sub. apply keywords_in in Hk. destruct Hk as (kws & Ha & Hk). assert (Wt : within (c_objs c) s t) by exact (within_step _ _ _ _ _ _ _ (within_self _ _) Ha Hk Sub).
    destruct (within_back _ _ _ _ Kc S0 Hs Wt) as [Ht W0]. split; [exact Ht|]. intros t' W'. apply W. exact (within_trans _ _ _ _ W0 W'). }
  assert (Hn : belongs id c0 s) by (apply W; constructor).
  refine (framed_each _ (pre_lonely c0) _ _ _ c Kc Sc). intros kk Hk. destruct (reference_class (kw_class (snd kk))).
  - eapply lonely_intro; [apply kept_resolve_keyword, kept_resolve|apply safe_resolve_keyword, safe_resolve|]. intros c1 K1 S1. apply lone_resolve_keyword; [exact IH| |exact S1]. exact (belongs_kept _ _ _ K1 Hn).
  - specialize (K kk Hk). unfold subschema_of in K. destruct (kw_json (snd kk)) as [v|t|l|m].
    + apply (framed_ret _ (pre_lonely c0)).
    + destruct (K t eq_refl). now apply IH.
    + apply (framed_each _ (pre_lonely c0)). intros t Ht. destruct (K t Ht). now apply IH.
    + apply (framed_each _ (pre_lonely c0)). intros t Ht. destruct (K (snd t)) as [? ?]; [exact (in_map snd _ _ Ht)|]. now apply IH.
Qed.
Theorem construct_alone f v u m c : jwf v = true -> sane c -> alone id c (snd (construct E f id v u m c)).
Proof. apply lone_construct, resolve_lonely. Qed.
Theorem get_alone f u m c : sane c -> alone id c (snd (get_schema E f id u m c)).
Proof. apply lone_get, resolve_lonely. Qed.
End Caches.
