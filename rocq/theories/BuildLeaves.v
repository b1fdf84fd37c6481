(** What a construction or a lookup leaves in the caches, however it ends. *)
From Coq Require Import List Lia Bool Arith Permutation.
From Verif Require Export BuildEnds.
Import ListNotations.
Open Scope nat_scope.

(** Every entry is as it was, or stands for one of the objects from [n] on, or
    is gone, which happens only at the URIs in [U] (given by cache). *)
Definition wrote (n : nat) (U : pystr -> uri -> Prop) (c c' : cat) : Prop :=
  n <= size c -> tidy (c_cache c) ->
  size c <= size c' /\ tidy (c_cache c') /\
  forall id u, cached id u (c_cache c') = cached id u (c_cache c) \/
    (exists s, n <= s < size c' /\ cached id u (c_cache c') = Some s) \/
    (cached id u (c_cache c') = None /\ U id u).
Lemma pre_wrote n U : preorder (wrote n U).
Proof.
  split; [intros c _ T; split; [lia|split; [exact T|auto]]|]. intros a b c H H' Ln T. destruct (H Ln T) as (L1 & T1 & C1). destruct (H' ltac:(lia) T1) as (L2 & T2 & C2).
  split; [lia|]. split; [exact T2|]. intros id u. destruct (C2 id u) as [Q|[(s & Ls & Q)|Q]]; [|right; left; exists s; split; [lia|exact Q]|auto].
  rewrite Q. destruct (C1 id u) as [Q1|[(s & Ls & Q1)|[Q1 Hu]]]; [auto| |auto]. right; left. exists s. split; [lia|exact Q1].
Qed.
Lemma wrote_more n (U U' : pystr -> uri -> Prop) c c' : (forall id u, U id u -> U' id u) -> wrote n U c c' -> wrote n U' c c'.
Proof.
  intros I H Ln T. destruct (H Ln T) as (L & T' & C). split; [exact L|]. split; [exact T'|]. intros id u. destruct (C id u) as [Q|[Q|[Q Hu]]]; auto.
Qed.
(** Losses at URIs that had no entry are none. *)
Lemma wrote_less n (U U' : pystr -> uri -> Prop) c c' : (forall id u, U id u -> cached id u (c_cache c) = None \/ U' id u) -> wrote n U c c' -> wrote n U' c c'.
Proof.
  intros I H Ln T. destruct (H Ln T) as (L & T' & C). split; [exact L|]. split; [exact T'|]. intros id u. destruct (C id u) as [Q|[Q|[Q Hu]]]; auto.
  destruct (I id u Hu) as [N|N]; [left; congruence|auto].
Qed.
Lemma size_update s f c : size (snd (update s f c)) = size c.
Proof. unfold update, modify, size. cbn [snd]. destruct (nth_error (c_objs c) s); [|reflexivity]. unfold put_obj. cbn [c_objs]. apply length_set_nth. Qed.
Lemma cache_update s f c : c_cache (snd (update s f c)) = c_cache c.
Proof. unfold update, modify. cbn [snd]. now destruct (nth_error (c_objs c) s). Qed.
Lemma wrote_update n U s f : framed (wrote n U) (update s f).
Proof. intros c Ln T. rewrite size_update, cache_update. auto. Qed.
Lemma wrote_cache n U id u s c : n <= s < size c -> wrote n U c (snd (cache_schema id u s c)).
Proof.
  intros Hs Ln T. cbn [cache_schema modify snd]. split; [unfold size; cbn [c_objs]; lia|]. split; [now apply tidy_add|]. intros id' u'. cbn [c_cache]. rewrite cached_add.
  destruct (str_eqb id' id && uri_eqb u' u); [|auto]. right; left. exists s. auto.
Qed.
Lemma wrote_uncache n (U : pystr -> uri -> Prop) id u : U id u -> framed (wrote n U) (uncache_schema id u).
Proof.
  intros Hu c Ln T. cbn [uncache_schema modify snd]. split; [unfold size; cbn [c_objs]; lia|]. split; [now apply tidy_del|]. intros id' u'. cbn [c_cache]. rewrite cached_del by exact T.
  destruct (str_eqb_spec id' id) as [->|]; cbn [andb]; [|auto]. destruct (uri_eqb_spec u' u) as [->|]; auto.
Qed.
Lemma wrote_new n U id u m up d : framed (wrote n U) (new_schema id u m up d).
Proof.
  intros c Ln T. rewrite new_schema_eq. cbn [snd]. unfold size in *. cbn [c_objs c_cache]. rewrite app_length. cbn [length]. split; [lia|].
  destruct u as [u|]; [|auto]. split; [now apply tidy_add|]. intros id' u'. rewrite cached_add. destruct (str_eqb id' id && uri_eqb u' u); [|auto].
  right; left. exists (length (c_objs c)). split; [lia|reflexivity].
Qed.
Lemma wrote_bind {A B} n U (x : M A) (f : A -> M B) c : wrote n U c (snd (x c)) -> (forall a c1, x c = (Ok a, c1) -> wrote n U c1 (snd (f a c1))) -> wrote n U c (snd (bindM x f c)).
Proof.
  intros H K. unfold bindM. destruct (x c) as [[a| |] c1] eqn:X; cbn [snd] in *; [|exact H|exact H]. exact (proj2 (pre_wrote n U) _ _ _ H (K a c1 eq_refl)).
Qed.

Section Leaves.
Variable E : env.
Variable n : nat.

(** The schema [s], its URI being [w], gets another. *)
Lemma wrote_set_uri L (U : pystr -> uri -> Prop) id s u c w : n <= s -> belongs id c s -> uri_at c s = Some w -> (forall x, w = Some x -> U id x) -> wrote n U c (snd (set_uri L s u c)).
Proof.
  unfold uri_at. intros Hn (o & Ho & Hc) H Hw. rewrite Ho in H. injection H as <-. unfold set_uri. unfold bindM at 1, read at 1. rewrite Ho.
  assert (Ls : s < size c) by (unfold size; apply nth_error_Some; congruence).
  destruct (match so_uri o with Some u' => uri_same L u' u | None => false end); [apply pre_wrote|].
  assert (K : forall c1, s < size c1 -> wrote n U c1 (snd (bindM (update s (with_uri (Some u))) (fun _ => cache_schema (so_cache o) u s) c1))).
  { intros c1 L1. apply wrote_bind; [apply wrote_update|]. intros a c2 X. apply wrote_cache. pose proof (size_update s (with_uri (Some u)) c1) as Z. rewrite X in Z. cbn [snd] in Z. lia. }
  apply wrote_bind; [|].
  - destruct (so_uri o) as [x|]; [apply wrote_uncache; rewrite Hc; now apply Hw|apply pre_wrote].
  - intros a c1 X. apply K. assert (Z : size c1 = size c); [|lia]. destruct (so_uri o); [cbn in X; now injection X as <- <-|now injection X as <- <-].
Qed.
Lemma wrote_init_id (U : pystr -> uri -> Prop) id next s v c w : n <= s -> belongs id c s -> uri_at c s = Some w -> (forall x, w = Some x -> U id x) -> wrote n U c (snd (init_id E next s v c)).
Proof.
  intros Hn Hb H Hw. unfold init_id. pose proof (pre_wrote n U) as P.
  unfold bindM at 1, lift at 1. destruct (parse_uri E v) as [u| |]; [|apply P|apply P].
  unfold bindM at 1, lift at 1. destruct (uri_validate (e_lib E) false false (negb next) next u); [|apply P|apply P].
  unfold bindM at 1, read at 1. unfold bindM at 1. destruct (ul_absolute (e_lib E) u); [exact (wrote_set_uri (e_lib E) U id _ _ _ _ Hn Hb H Hw)|].
  destruct (base_uri (c_objs c) s); [|apply P]. exact (wrote_set_uri (e_lib E) U id _ _ _ _ Hn Hb H Hw).
Qed.
Lemma wrote_init_anchor U s v : n <= s -> framed (wrote n U) (init_anchor E s v).
Proof.
  intros Hn c. unfold init_anchor, bindM, read. pose proof (pre_wrote n U) as P. destruct v, (base_uri (c_objs c) s), (nth_error (c_objs c) s) eqn:Ho; try apply P.
  apply wrote_cache. split; [exact Hn|]. unfold size. apply nth_error_Some. congruence.
Qed.
Lemma wrote_init_schema U s v : framed (wrote n U) (init_schema E s v).
Proof. unfold init_schema. lone (pre_wrote n U). apply wrote_update. Qed.

Definition writing_member (U : pystr -> uri -> Prop) (x : member) : Prop :=
  (forall up, framed (wrote n U) (mb_schema x up)) /\ (forall k b up, In (k, b) (mb_items x) -> framed (wrote n U) (b up)).
Lemma wrote_keyword_json U s key c x : writing_member U x -> framed (wrote n U) (keyword_json s key c x).
Proof.
  intros [H1 H2]. pose proof (pre_wrote n U) as P. unfold keyword_json.
  assert (T : forall ms, framed (wrote n U) (try_mixins s key x ms)).
  { induction ms as [|m ms IH]; [apply (framed_throw _ P)|]. cbn [try_mixins]. destruct (jsonify s key x m) as [j|] eqn:J; [|exact IH].
    unfold jsonify in J. destruct m, (mb_value x); try discriminate J; injection J as <-; try apply (framed_ret _ P);
      (apply (framed_bind _ P); [|intro; apply (framed_ret _ P)]); try apply H1; apply (framed_mapM _ P); intros [k b] Hb; cbn [fst snd].
    - exact (H2 _ _ _ Hb).
    - apply (framed_bind _ P); [exact (H2 _ _ _ Hb)|intro; apply (framed_ret _ P)]. }
  destruct (mixins c) as [|m ms]; [apply (framed_ret _ P)|apply T].
Qed.
Lemma wrote_make_keyword U s key c x : n <= s -> writing_member U x -> c <> Std KId_ -> c <> Std KIdNext -> framed (wrote n U) (make_keyword E s key c x).
Proof.
  intros Hn H N1 N2. pose proof (pre_wrote n U) as P. unfold make_keyword. apply (framed_bind _ P); [now apply wrote_keyword_json|].
  intro j. destruct c as [c|k]; [|lone P].
  destruct c; try congruence; try solve [lone P]; try solve [apply (framed_bind _ P); [first [apply wrote_init_schema|now apply wrote_init_anchor]|intro; apply (framed_ret _ P)]].
  - destruct (mb_value x); try solve [lone P]. destruct (str_eqb s0 (lit "#")); lone P.
  - destruct (mb_value x); try solve [lone P]. destruct (e_regex E s0); lone P.
Qed.
Lemma wrote_add_keyword U s members key c : n <= s -> (forall k x, In (k, x) members -> writing_member U x) -> c <> Std KId_ -> c <> Std KIdNext -> framed (wrote n U) (add_keyword E s members key c).
Proof.
  intros Hn H N1 N2. pose proof (pre_wrote n U) as P. unfold add_keyword. destruct (dget key members) as [x|] eqn:D; [|lone P].
  apply dget_In in D. apply (framed_bind _ P); [exact (wrote_make_keyword _ _ _ _ _ Hn (H _ _ D) N1 N2)|]. intro k. apply wrote_update.
Qed.
Lemma wrote_id (U : pystr -> uri -> Prop) id s members (c : kwclass) x st w : n <= s -> belongs id st s -> c = Std KId_ \/ c = Std KIdNext -> dget (lit "$id") members = Some x -> uri_at st s = Some w -> (forall y, w = Some y -> U id y) ->
  wrote n U st (snd (add_keyword E s members (lit "$id") c st)).
Proof.
  intros Hn Hb Hc D Hu Hw. unfold add_keyword. rewrite D. apply wrote_bind; [|intros k c1 _; apply wrote_update]. unfold make_keyword.
  assert (J : keyword_json s (lit "$id") c x = ret (KJ (mb_value x))) by (destruct Hc as [-> | ->]; reflexivity). rewrite J. apply wrote_bind; [apply pre_wrote|]. intros j c1 R. apply ret_ok in R. destruct R as [<- <-].
  destruct Hc as [-> | ->]; (apply wrote_bind; [exact (wrote_init_id U id _ _ _ _ _ Hn Hb Hu Hw)|intros ? ? _; apply pre_wrote]).
Qed.
Lemma wrote_bootstrap (U : pystr -> uri -> Prop) id s members st w : n <= s -> (forall k x, In (k, x) members -> writing_member U x) -> (forall k x, In (k, x) members -> lone_member id x) -> belongs id st s -> uri_at st s = Some w -> (forall y, w = Some y -> U id y) ->
  wrote n U st (snd (bootstrap E s members st)).
Proof.
  intros Hn H Hl Hb Hu Hw. unfold bootstrap. apply wrote_bind; [apply wrote_add_keyword; [exact Hn|exact H|discriminate|discriminate]|].
  intros a c1 X1. pose proof (steady_schema E s members st) as [_ U1]. rewrite X1 in U1. cbn [snd] in U1.
  pose proof (belongs_later _ _ _ _ _ (lone_add_keyword E id s members (lit "$schema") (Std KSchema_) Hl st Hb) Hb) as B1. rewrite X1 in B1. cbn [snd] in B1.
  apply wrote_bind; [apply wrote_add_keyword; [exact Hn|exact H|discriminate|discriminate]|].
  intros a2 c2 X2. pose proof (steady_vocabulary E s members c1) as [_ U2]. rewrite X2 in U2. cbn [snd] in U2.
  pose proof (belongs_later _ _ _ _ _ (lone_add_keyword E id s members (lit "$vocabulary") (Std KVocabulary_) Hl c1 B1) B1) as B2. rewrite X2 in B2. cbn [snd] in B2.
  destruct (dmem (lit "$id") members) eqn:Dm; [|apply pre_wrote]. unfold dmem in Dm. destruct (dget (lit "$id") members) as [x|] eqn:D; [|discriminate Dm].
  pose proof (steady_metaschema E s c2) as Ms. apply wrote_bind; [rewrite Ms; apply pre_wrote|]. intros d c3 X3. rewrite X3 in Ms. cbn [snd] in Ms. subst c3.
  apply (wrote_id U id s members _ x c2 w); [exact Hn|exact B2|destruct (find_class d (lit "$id")) as [[]|]; auto|exact D|congruence|exact Hw].
Qed.
Lemma wrote_build_object (U : pystr -> uri -> Prop) s members st o : n <= s -> U (so_cache o) (e_uuid E s) -> NoDup (keys members) -> (forall k x, In (k, x) members -> writing_member U x) -> (forall k x, In (k, x) members -> lone_member (so_cache o) x) ->
  nth_error (c_objs st) s = Some o -> (forall y, so_uri o = Some y -> U (so_cache o) y) -> wrote n U st (snd (build_object E s members st)).
Proof.
  intros Hn Hid Nd H Hl Ho Hw. unfold build_object. apply wrote_bind; [apply pre_wrote|]. intros o' c1 R. apply read_ok in R. destruct R as [-> <-]. rewrite Ho.
  assert (F : forall st w, belongs (so_cache o) st s -> uri_at st s = Some w -> (forall y, w = Some y -> U (so_cache o) y) ->
     wrote n U st (snd ((do _ <- bootstrap E s members; do cs <- classes E s (filter (fun key => negb (mem_str key bootstrapped)) (keys members));
     do order <- lift (resolve_dependencies kwclass_eqb depends_on (length cs) cs); each_ (fun c => add_keyword E s members (key_of c) c) order) st))).
  { clear st Ho. intros st w Hb Ho Hu. apply wrote_bind; [now apply (wrote_bootstrap U (so_cache o) _ _ _ w)|]. intros a2 c2 _. apply wrote_bind; [apply framed_classes, pre_wrote|].
    intros cs c3 Hcs. apply wrote_bind; [apply pre_wrote|]. intros order c4 Hr. apply lift_ok in Hr. destruct Hr as [Hr <-].
    apply (framed_each _ (pre_wrote n U)). intros c Hc.
    assert (N : c <> Std KId_ /\ c <> Std KIdNext).
    { pose proof (classes_ok E (mkCat (repeat o s) []) (filter (fun key => negb (mem_str key bootstrapped)) (keys members)) c2 cs c3) as X. cbn [c_objs] in X. rewrite repeat_length in X.
      destruct (X Hcs) as (-> & Kc & Cc). clear X.
      assert (In_cs : forall key, In key (keys cs) -> mem_str key bootstrapped = false) by (intro key; rewrite Kc, filter_In, negb_true_iff; tauto).
      assert (Cl : forall key c, In (key, c) cs -> key_of c = key /\ BuildOk.settled c).
      { intros key c' X. destruct (Cc _ _ X) as (mu & d & A1 & A2 & A3). destruct (class_of_get E d key c' mu A2 A3) as (_ & K & Sc); [|auto]. apply (in_map fst) in X. now apply In_cs in X. }
      assert (Nc : NoDup (keys cs)) by (rewrite Kc; now apply NoDup_filter).
      assert (Ks : map key_of (map snd cs) = keys cs).
      { unfold keys. clear -Cl. induction cs as [|[key c] cs IH]; [reflexivity|]. cbn [map fst snd]. rewrite (proj1 (Cl key c (or_introl eq_refl))). f_equal. apply IH. intros; apply Cl; now right. }
      assert (Ns : NoDup (map snd cs)) by (apply (NoDup_mapped key_of); now rewrite Ks).
      destruct (resolve_sound kwclass_eqb depends_on kwclass_eqb_spec _ cs order Nc Ns Hr) as [[P B] _].
      apply (Permutation_in _ P) in Hc. apply in_map_iff in Hc. destruct Hc as ([key c'] & <- & X). cbn [snd]. destruct (Cl _ _ X) as [_ Sc]. split; intros ->; destruct Sc. }
    now apply wrote_add_keyword. }
  assert (Ku : uri_at st s = Some (so_uri o)) by (unfold uri_at; now rewrite Ho).
  assert (Kb : belongs (so_cache o) st s) by (exists o; auto).
  apply wrote_bind.
  - destruct o as [[u|] m [up|] ch d]; try apply pre_wrote. apply (wrote_set_uri (e_lib E) U _ s _ st None Hn Kb Ku). discriminate.
  - intros a c1 X. destruct o as [[u|] m [up|] ch d]; try (cbn in X; injection X as <- <-; exact (F _ _ Kb Ku Hw)).
    unfold set_uri, bindM, read in X. rewrite Ho in X. cbn [so_uri ret] in X. unfold update, modify, cache_schema in X. rewrite Ho in X. cbn in X. injection X as _ <-.
    assert (Ls : s < length (c_objs st)) by (apply nth_error_Some; congruence).
    apply (F _ (Some (e_uuid E s))); [| |intros y [= <-]; exact Hid].
    + eexists. cbn [c_objs]. rewrite nth_set_nth_same by exact Ls. split; reflexivity.
    + unfold uri_at. cbn [c_objs]. rewrite nth_set_nth_same by exact Ls. reflexivity.
Qed.

(** The URIs at which an entry may be lost. *)
Definition lost (id : pystr) (u : option uri) (id' : pystr) (x : uri) : Prop := (id' = id /\ u = Some x) \/ exists s, n <= s /\ x = e_uuid E s.
Lemma wrote_build id v : jwf v = true -> forall u m up c, n <= size c -> wrote n (lost id u) c (snd (build E id v u m up c)).
Proof.
  assert (G : forall k v, jsize v < k -> jwf v = true -> forall u m up c, wrote n (lost id u) c (snd (build E id v u m up c))).
  { induction k as [|k IH]; intros w Hk J u m up c; [lia|]. destruct w as [|b|x|x|l|ms];
      try solve [cbn [build]; apply wrote_new];
      try solve [cbn [build]; apply wrote_bind; [apply wrote_new|intros ? ? _; apply pre_wrote]].
    intros Ln T. assert (Q : wrote n (lost id u) c (snd (build E id (JObj ms) u m up c))); [|exact (Q Ln T)]. clear T.
    rewrite build_object_eq. apply wrote_bind; [apply wrote_new|]. intros s c1 X. rewrite new_schema_eq in X. injection X as <- <-.
    apply wrote_bind; [|intros ? ? _; apply pre_wrote].
    apply jwf_obj in J. destruct J as [Nd Jm]. rewrite Forall_forall in Jm.
    assert (Less : forall v', jsize v' < k -> jwf v' = true -> forall m up, framed (wrote n (lost id u)) (build E id v' None m up)).
    { intros v' Hv Jv m' up' c'. apply (wrote_more _ (lost id None)); [|now apply IH]. intros i x [[_ [=]]|X]. now right. }
    apply (wrote_build_object _ _ _ _ (mkObj u m up id (SObj []))).
    - exact Ln.
    - right. exists (length (c_objs c)). auto.
    - unfold keys. now rewrite map_map.
    - intros key x Hx. apply in_map_iff in Hx. destruct Hx as ([k' v'] & [= <- <-] & Hv). cbn [snd].
      pose proof (Jm _ Hv) as Jv. cbn [snd] in Jv. apply jsize_members in Hv. cbn [snd] in Hv. split.
      + intros up'. cbn [mb_schema member_of]. apply Less; [lia|exact Jv].
      + intros key b up' Hb'. cbn [mb_items member_of] in Hb'. destruct v' as [|?|?|?|l|m']; try destruct Hb'.
        * apply in_numbered in Hb'. destruct Hb' as (i & w & Hi & [= _ ->]). apply nth_error_In in Hi. pose proof (jsize_items _ _ Hi). apply Less; [lia|].
          apply jwf_arr in Jv. rewrite Forall_forall in Jv. now apply Jv.
        * apply in_map_iff in Hb'. destruct Hb' as ([k1 v1] & [= <- <-] & Hv1). cbn [snd]. pose proof (jsize_members _ _ Hv1) as Js. cbn [snd] in Js. apply Less; [lia|].
          apply jwf_obj in Jv. destruct Jv as [_ Jv]. rewrite Forall_forall in Jv. exact (Jv _ Hv1).
    - cbn [so_cache]. intros key x Hx. apply in_map_iff in Hx. destruct Hx as ([k' v'] & [= <- <-] & Hv). cbn [snd]. split.
      + intros up'. cbn [mb_schema member_of]. apply alone_build.
      + intros key b up' Hb'. cbn [mb_items member_of] in Hb'. destruct v' as [|?|?|?|l|m']; try destruct Hb'.
        * apply in_numbered in Hb'. destruct Hb' as (i & w & Hi & [= _ ->]). apply alone_build.
        * apply in_map_iff in Hb'. destruct Hb' as ([k1 v1] & [= <- <-] & Hv1). apply alone_build.
    - cbn [c_objs]. apply nth_last.
    - cbn [so_uri so_cache]. intros y ->. now left. }
  intros J u m up c _. exact (G (S (jsize v)) v (Nat.lt_succ_diag_r _) J u m up c).
Qed.

(** ** References. *)
Hypothesis Docs : forall u doc, load_json (e_lib E) (e_sources E) u = Ok doc -> jwf doc = true.
(** URIs made up for schemas without any. *)
Definition made_up (id : pystr) (x : uri) : Prop := exists s, n <= s /\ x = e_uuid E s.
Section Refs.
Variable f : nat.
Hypothesis Hres : forall s, framed (wrote n made_up) (resolve_references E f s).
Lemma wrote_construct id v u m : jwf v = true -> framed (wrote n (lost id u)) (construct E f id v u m).
Proof.
  intros J c Ln T. assert (Q : wrote n (lost id u) c (snd (construct E f id v u m c))); [|exact (Q Ln T)]. unfold construct, construct_with.
  apply wrote_bind; [now apply wrote_build|]. intros s c1 _.
  assert (R : framed (wrote n (lost id u)) (resolve_references E f s)) by (intro c'; apply (wrote_more _ made_up); [intros i x X; now right|apply Hres]).
  pose proof (pre_wrote n (lost id u)) as P. destruct v; try apply P. apply wrote_bind; [apply R|intros ? ? _; apply P].
Qed.
Lemma wrote_get id u m : framed (wrote n made_up) (get_schema E f id u m).
Proof.
  intros c. pose proof (pre_wrote n made_up) as P. unfold get_schema, get_schema_with. unfold bindM at 1, read at 1. destruct (cached id u (c_cache c)) as [s|] eqn:Cu; [apply P|]. cbv zeta.
  unfold bindM at 1, read at 1. set (known := match u_frag u with Some _ => cached id (no_fragment u) (c_cache c) | None => None end).
  assert (T : forall r c1, wrote n made_up c c1 -> wrote n made_up c (snd ((match r with
      | (_, Some s) => ret s
      | (s, None) =>
          match u_frag u with
          | Some ((_ :: _) as f) =>
              do objs <- read c_objs;
              do n <- lift (pointer_to_catalog (let* p := parse_uri_fragment f in sn_walk (objs_world objs) (SNSchema s) p));
              match n with SNSchema t => ret t | SNJson _ => throw ECatalog end
          | _ => ret s
          end
      end) c1))).
  { intros [s [s'|]] c1 B1; [exact B1|]. destruct (u_frag u) as [[|ch g]|]; [exact B1| |exact B1]. unfold bindM, read, lift.
    destruct (pointer_to_catalog _) as [[t|j]| |]; exact B1. }
  unfold bindM at 1. destruct known as [s|] eqn:Kn; [exact (T (s, None) c (proj1 P c))|].
  unfold bindM at 1, lift at 1. destruct (load_json (e_lib E) (e_sources E) (no_fragment u)) as [doc| |] eqn:Ld; [|apply P|apply P].
  pose proof (wrote_construct id doc (Some (no_fragment u)) m (Docs _ _ Ld) c) as B. unfold construct in B. unfold bindM at 1.
  assert (Nb : cached id (no_fragment u) (c_cache c) = None).
  { unfold known in Kn. destruct (u_frag u) eqn:Fr; [exact Kn|]. assert (Q : no_fragment u = u) by (unfold no_fragment; destruct u; cbn in *; now subst). now rewrite Q. }
  apply (wrote_less _ _ made_up) in B; [|intros i x [[-> [= <-]]|X]; auto].
  destruct (construct_with E (resolve_references E f) id doc (Some (no_fragment u)) m c) as [[s| |] c1]; [|exact B|exact B]. cbn [snd] in B.
  exact (T (s, cached id u (c_cache c1)) c1 B).
Qed.
Lemma wrote_then id u m c (k : sid -> M unit) : (forall t, framed (wrote n made_up) (k t)) -> wrote n made_up c (snd (bindM (get_schema E f id u m) k c)).
Proof. intros Hk. apply wrote_bind; [apply wrote_get|]. intros t c1 _. apply Hk. Qed.
Lemma wrote_resolve_keyword s key k : framed (wrote n made_up) (resolve_keyword E (resolve_references E f) s key k).
Proof.
  intro c. pose proof (pre_wrote n made_up) as P. assert (Hset : forall t d, framed (wrote n made_up) (set_ref s key t d)) by (intros; apply wrote_update).
  unfold resolve_keyword. unfold bindM at 1, read at 1. cbv zeta.
  assert (Abs : forall id (k' : sid -> M unit), (forall t, framed (wrote n made_up) (k' t)) ->
    wrote n made_up c (snd ((do u <- absolute_reference E s (kw_json k); do t <- get_schema_with E (resolve_references E f) id u (metaschema_uri (c_objs c) s); k' t) c))).
  { intros id k' Hk. pose proof (absolute_same E s (kw_json k) c) as A. unfold bindM at 1. destruct (absolute_reference E s (kw_json k) c) as [[u| |] c1]; cbn [snd] in A; subst c1; [|apply P|apply P].
    now apply wrote_then. }
  destruct (kw_class k) as [kc|]; [|now apply Abs]. destruct kc; try now apply Abs.
  - apply Abs. intro t. lone P; [apply Hset|]. destruct a1; [apply Hset|lone P].
  - destruct (base_uri (c_objs c) s) as [b|]; [|apply P]. now apply wrote_then.
Qed.
End Refs.
Lemma wrote_resolve f : forall s, framed (wrote n made_up) (resolve_references E f s).
Proof.
  pose proof (pre_wrote n made_up) as P. induction f as [|f IH]; intro s; [intro c; apply P|]. cbn [resolve_references]. apply (framed_bind _ P); [apply (framed_read _ P)|]. intro kws.
  apply (framed_each _ P). intros kk _. destruct (reference_class (kw_class (snd kk))); [now apply wrote_resolve_keyword|].
  destruct (kw_json (snd kk)) as [v|t|l|m]; [apply (framed_ret _ P)|apply IH| |]; apply (framed_each _ P); intros; apply IH.
Qed.
End Leaves.
