(** Following references comes to an end. *)
From Coq Require Import List Lia Bool Arith Permutation.
From Verif Require Export SpecEnds BuildCaches BuildFound.
Import ListNotations.
Open Scope nat_scope.

(** ** Nothing leaves the caches. *)
Definition held (c c' : cat) : Prop := forall id u, cached id u (c_cache c) <> None -> cached id u (c_cache c') <> None.
Lemma pre_held : preorder held.
Proof. split; [intros c id u H; exact H|]. intros a b c H H' id u X. apply H', H, X. Qed.
Lemma held_cache id u s : framed held (cache_schema id u s).
Proof. intros c id' u' H. cbn [cache_schema modify snd c_cache]. rewrite cached_add. destruct (str_eqb id' id && uri_eqb u' u); [discriminate|exact H]. Qed.
Lemma held_update s f : framed held (update s f).
Proof. intros c id u H. unfold update, modify. cbn [snd]. destruct (nth_error (c_objs c) s); exact H. Qed.
Lemma held_new id u m up d : framed held (new_schema id u m up d).
Proof. intros c id' u' H. rewrite new_schema_eq. cbn [snd c_cache]. destruct u as [u|]; [|exact H]. rewrite cached_add. destruct (str_eqb id' id && uri_eqb u' u); [discriminate|exact H]. Qed.

Definition uri_at (c : cat) (s : sid) : option (option uri) := option_map so_uri (nth_error (c_objs c) s).
(** The schema [s] keeps its URI. *)
Definition steady (s : sid) (c c' : cat) : Prop := held c c' /\ uri_at c' s = uri_at c s.
Lemma pre_steady s : preorder (steady s).
Proof. split; [intro c; split; [apply pre_held|reflexivity]|]. intros a b c [H U] [H' U']. split; [exact (proj2 pre_held _ _ _ H H')|congruence]. Qed.
Lemma steady_update s f : (forall o, so_uri (f o) = so_uri o) -> framed (steady s) (update s f).
Proof.
  intros F c. split; [apply held_update|]. unfold uri_at, update, modify. cbn [snd]. destruct (nth_error (c_objs c) s) as [o|] eqn:Ho; [|now rewrite Ho].
  unfold put_obj. cbn [c_objs]. rewrite nth_set_nth_same by (apply nth_error_Some; congruence). cbn [option_map]. now rewrite F.
Qed.

Section Ends.
Variable E : env.

Lemma held_set_uri L s u c w : uri_at c s = Some w -> (w = None \/ exists b, w = Some b /\ uri_same L b u = true) -> held c (snd (set_uri L s u c)).
Proof.
  unfold uri_at. intros H Hw. destruct (nth_error (c_objs c) s) as [o|] eqn:Ho; [|discriminate H]. injection H as <-. unfold set_uri. unfold bindM at 1, read at 1. rewrite Ho.
  destruct Hw as [W|(b & W & Q)]; rewrite W.
  - assert (F : framed held (do _ <- ret tt; do _ <- update s (with_uri (Some u)); cache_schema (so_cache o) u s)).
    { lone pre_held; [apply held_update|apply held_cache]. }
    apply F.
  - rewrite Q. apply pre_held.
Qed.
(** The URI that $id with value [v] gives is the one there is, perhaps written
    otherwise. *)
Definition agreed (w : option uri) (v : json) : Prop :=
  w = None \/ exists b, w = Some b /\ forall t, v = JStr t ->
    uri_same (e_lib E) b (if ul_absolute (e_lib E) (ul_parse (e_lib E) t) then ul_parse (e_lib E) t else ul_resolve (e_lib E) (ul_parse (e_lib E) t) (no_fragment b)) = true.
Lemma held_init_id next s v c w : uri_at c s = Some w -> agreed w v -> held c (snd (init_id E next s v c)).
Proof.
  intros U Hw. unfold init_id. unfold bindM at 1, lift at 1. destruct (parse_uri E v) as [u| |] eqn:P; [|apply pre_held|apply pre_held].
  unfold bindM at 1, lift at 1. destruct (uri_validate (e_lib E) false false (negb next) next u); [|apply pre_held|apply pre_held].
  unfold bindM at 1, read at 1. unfold parse_uri in P. destruct v as [| | |t| |]; try discriminate P. injection P as <-. unfold bindM at 1.
  destruct Hw as [->|(b & -> & Hb)].
  - destruct (ul_absolute (e_lib E) (ul_parse (e_lib E) t)); [apply (held_set_uri _ _ _ _ None U); now left|]. destruct (base_uri (c_objs c) s); [|apply pre_held]. apply (held_set_uri _ _ _ _ None U); now left.
  - specialize (Hb t eq_refl). assert (B : base_uri (c_objs c) s = Some (no_fragment b)).
    { unfold base_uri. cbn [climb]. unfold uri_at in U. destruct (nth_error (c_objs c) s) as [o|]; [|discriminate U]. injection U as U. rewrite U. reflexivity. }
    rewrite B. destruct (ul_absolute (e_lib E) (ul_parse (e_lib E) t)); unfold ret; apply (held_set_uri _ _ _ _ _ U); right; exists b; split; auto.
Qed.
Lemma held_init_anchor s v : framed held (init_anchor E s v).
Proof.
  intro c. unfold init_anchor, bindM, read. destruct v, (base_uri (c_objs c) s), (nth_error (c_objs c) s); try apply pre_held. apply held_cache.
Qed.
Lemma held_init_schema s v : framed held (init_schema E s v).
Proof. unfold init_schema. lone pre_held. apply held_update. Qed.

Definition mild_member (x : member) : Prop :=
  (forall up, framed held (mb_schema x up)) /\ (forall k b up, In (k, b) (mb_items x) -> framed held (b up)).
Lemma held_keyword_json s key c x : mild_member x -> framed held (keyword_json s key c x).
Proof.
  intros [H1 H2]. pose proof pre_held as P. unfold keyword_json.
  assert (T : forall ms, framed held (try_mixins s key x ms)).
  { induction ms as [|m ms IH]; [apply (framed_throw _ P)|]. cbn [try_mixins]. destruct (jsonify s key x m) as [j|] eqn:J; [|exact IH].
    unfold jsonify in J. destruct m, (mb_value x); try discriminate J; injection J as <-; try apply (framed_ret _ P);
      (apply (framed_bind _ P); [|intro; apply (framed_ret _ P)]); try apply H1; apply (framed_mapM _ P); intros [k b] Hb; cbn [fst snd].
    - exact (H2 _ _ _ Hb).
    - apply (framed_bind _ P); [exact (H2 _ _ _ Hb)|intro; apply (framed_ret _ P)]. }
  destruct (mixins c) as [|m ms]; [apply (framed_ret _ P)|apply T].
Qed.
Lemma held_make_keyword s key c x : mild_member x -> c <> Std KId_ -> c <> Std KIdNext -> framed held (make_keyword E s key c x).
Proof.
  intros H N1 N2. pose proof pre_held as P. unfold make_keyword. apply (framed_bind _ P); [now apply held_keyword_json|].
  intro j. destruct c as [c|k]; [|lone P].
  destruct c; try congruence; try solve [lone P]; try solve [apply (framed_bind _ P); [first [apply held_init_schema|apply held_init_anchor]|intro; apply (framed_ret _ P)]].
  - destruct (mb_value x); try solve [lone P]. destruct (str_eqb s0 (lit "#")); lone P.
  - destruct (mb_value x); try solve [lone P]. destruct (e_regex E s0); lone P.
Qed.
Lemma held_add_keyword s members key c : (forall k x, In (k, x) members -> mild_member x) -> c <> Std KId_ -> c <> Std KIdNext -> framed held (add_keyword E s members key c).
Proof.
  intros H N1 N2. pose proof pre_held as P. unfold add_keyword. destruct (dget key members) as [x|] eqn:D; [|lone P].
  apply dget_In in D. apply (framed_bind _ P); [exact (held_make_keyword _ _ _ _ (H _ _ D) N1 N2)|]. intro k. apply held_update.
Qed.
Lemma steady_keep s key k : framed (steady s) (keep_keyword s key k).
Proof. apply steady_update. reflexivity. Qed.
Lemma steady_schema s members : framed (steady s) (add_keyword E s members (lit "$schema") (Std KSchema_)).
Proof.
  pose proof (pre_steady s) as P. unfold add_keyword. destruct (dget (lit "$schema") members) as [x|]; [|lone P].
  unfold make_keyword, keyword_json. cbn [mixins]. unfold init_schema. lone P; [|apply steady_keep]. apply steady_update. reflexivity.
Qed.
Lemma steady_vocabulary s members : framed (steady s) (add_keyword E s members (lit "$vocabulary") (Std KVocabulary_)).
Proof.
  pose proof (pre_steady s) as P. unfold add_keyword. destruct (dget (lit "$vocabulary") members) as [x|]; [|lone P].
  unfold make_keyword, keyword_json. cbn [mixins]. lone P. apply steady_keep.
Qed.
Lemma held_bind {A B} (x : M A) (f : A -> M B) c : held c (snd (x c)) -> (forall a c1, x c = (Ok a, c1) -> held c1 (snd (f a c1))) -> held c (snd (bindM x f c)).
Proof.
  intros H K. unfold bindM. destruct (x c) as [[a| |] c1] eqn:X; cbn [snd] in *; [|exact H|exact H]. exact (proj2 pre_held _ _ _ H (K a c1 eq_refl)).
Qed.
Lemma held_id s members (c : kwclass) x st w : c = Std KId_ \/ c = Std KIdNext -> dget (lit "$id") members = Some x -> uri_at st s = Some w -> agreed w (mb_value x) ->
  held st (snd (add_keyword E s members (lit "$id") c st)).
Proof.
  intros Hc D U Hw. unfold add_keyword. rewrite D. apply held_bind; [|intros k c1 _; apply held_update]. unfold make_keyword.
  assert (J : keyword_json s (lit "$id") c x = ret (KJ (mb_value x))) by (destruct Hc as [-> | ->]; reflexivity). rewrite J. apply held_bind; [apply pre_held|]. intros j c1 R. apply ret_ok in R. destruct R as [<- <-].
  destruct Hc as [-> | ->]; (apply held_bind; [exact (held_init_id _ _ _ _ _ U Hw)|intros ? ? _; apply pre_held]).
Qed.
Lemma steady_metaschema s st : snd (metaschema E s st) = st.
Proof. unfold metaschema, bindM, read. destruct (metaschema_uri (c_objs st) s); [destruct (e_dialect E u)|]; reflexivity. Qed.
Lemma held_bootstrap s members st w : uri_at st s = Some w -> (forall x, dget (lit "$id") members = Some x -> agreed w (mb_value x)) -> held st (snd (bootstrap E s members st)).
Proof.
  intros U Hw. unfold bootstrap. apply held_bind; [apply steady_schema|]. intros a c1 X1. pose proof (steady_schema s members st) as [_ U1]. rewrite X1 in U1. cbn [snd] in U1.
  apply held_bind; [apply steady_vocabulary|]. intros a2 c2 X2. pose proof (steady_vocabulary s members c1) as [_ U2]. rewrite X2 in U2. cbn [snd] in U2.
  destruct (dmem (lit "$id") members) eqn:Dm; [|apply pre_held]. unfold dmem in Dm. destruct (dget (lit "$id") members) as [x|] eqn:D; [|discriminate Dm].
  pose proof (steady_metaschema s c2) as Ms. apply held_bind; [rewrite Ms; apply pre_held|]. intros d c3 X3. rewrite X3 in Ms. cbn [snd] in Ms. subst c3.
  apply (held_id s members _ x c2 w); [destruct (find_class d (lit "$id")) as [[]|]; auto|exact D|congruence|now apply Hw].
Qed.
Lemma held_build_object s members st o : NoDup (keys members) -> (forall k x, In (k, x) members -> mild_member x) -> nth_error (c_objs st) s = Some o -> (so_uri o = None -> so_up o <> None) ->
  (forall x, dget (lit "$id") members = Some x -> agreed (so_uri o) (mb_value x)) -> held st (snd (build_object E s members st)).
Proof.
  intros Nd H Ho Hu Hw. unfold build_object. apply held_bind; [apply pre_held|]. intros o' c1 R. apply read_ok in R. destruct R as [-> <-]. rewrite Ho.
  assert (F : held st (snd ((do _ <- bootstrap E s members; do cs <- classes E s (filter (fun key => negb (mem_str key bootstrapped)) (keys members));
     do order <- lift (resolve_dependencies kwclass_eqb depends_on (length cs) cs); each_ (fun c => add_keyword E s members (key_of c) c) order) st))).
  { apply held_bind; [apply (held_bootstrap _ _ _ (so_uri o)); [unfold uri_at; now rewrite Ho|exact Hw]|]. intros a2 c2 _. apply held_bind; [apply framed_classes, pre_held|].
    intros cs c3 Hcs. apply held_bind; [apply pre_held|]. intros order c4 Hr. apply lift_ok in Hr. destruct Hr as [Hr <-].
    apply (framed_each _ pre_held). intros c Hc. 
    assert (N : c <> Std KId_ /\ c <> Std KIdNext).
    { pose proof (classes_ok E (mkCat (repeat o s) []) (filter (fun key => negb (mem_str key bootstrapped)) (keys members)) c2 cs c3) as X. cbn [c_objs] in X. rewrite repeat_length in X.
      destruct (X Hcs) as (-> & Kc & Cc). clear X.
      assert (In_cs : forall key, In key (keys cs) -> mem_str key bootstrapped = false) by (intro key; rewrite Kc, filter_In, negb_true_iff; tauto).
      assert (Cl : forall key c, In (key, c) cs -> key_of c = key /\ BuildOk.settled c).
      { intros key c' X. destruct (Cc _ _ X) as (mu & d & A1 & A2 & A3). destruct (class_of_get E d key c' mu A2 A3) as (_ & K & Sc); [|auto]. apply (in_map fst) in X. now apply In_cs in X. }
      assert (Nc : NoDup (keys cs)) by (rewrite Kc; now apply NoDup_filter).
      assert (Ks : map key_of (map snd cs) = keys cs).
      { unfold keys. clear -Cl. induction cs as [|[key c] cs IH]; [reflexivity|]. cbn [map fst snd]. rewrite (proj1 (Cl key c (or_introl eq_refl))). f_equal. apply IH. intros; apply Cl; now right. }
      assert (Ns : NoDup (map snd cs)) by (apply (NoDup_mapped key_of); now rewrite Ks).
      destruct (resolve_sound kwclass_eqb depends_on kwclass_eqb_spec _ cs order Nc Ns Hr) as [[P B] _].
      apply (Permutation_in _ P) in Hc. apply in_map_iff in Hc. destruct Hc as ([key c'] & <- & X). cbn [snd]. destruct (Cl _ _ X) as [_ Sc]. split; intros ->; destruct Sc. }
    now apply held_add_keyword. }
  destruct o as [[u|] m [up|] ch d]; try exact F. cbn in Hu. destruct (Hu eq_refl eq_refl).
Qed.

Lemma cached_self id u s k : cached id u (add_schema id u s k) <> None.
Proof. rewrite cached_add. destruct (str_eqb_spec id id); [|congruence]. destruct (uri_eqb_spec u u); [discriminate|congruence]. Qed.
Lemma held_build id v : jwf v = true -> forall u m up, (u = None -> up <> None) -> (forall b, u = Some b -> names_itself E b v) ->
  forall c, held c (snd (build E id v u m up c)) /\ forall b, u = Some b -> cached id b (c_cache (snd (build E id v u m up c))) <> None.
Proof.
  pose proof pre_held as P.
  assert (New : forall u m up d c b, u = Some b -> cached id b (c_cache (snd (new_schema id u m up d c))) <> None).
  { intros u m up d c b ->. rewrite new_schema_eq. cbn [snd c_cache]. apply cached_self. }
  assert (G : forall n v, jsize v < n -> jwf v = true -> forall u m up, (u = None -> up <> None) -> (forall b, u = Some b -> names_itself E b v) ->
    forall c, held c (snd (build E id v u m up c)) /\ forall b, u = Some b -> cached id b (c_cache (snd (build E id v u m up c))) <> None).
  { induction n as [|n IH]; intros w Hn J u m up Hu Hb; [lia|]. destruct w as [|b|x|x|l|ms];
      try solve [cbn [build]; intro c; split; [apply held_new|intros ? ?; now apply New]];
      try solve [cbn [build]; intro c; pose proof (held_new id u m up (SObj []) c) as A; pose proof (New u m up (SObj []) c) as B; unfold bindM; destruct (new_schema id u m up (SObj []) c) as [[]]; cbn [snd throw] in *; split; auto].
    rewrite build_object_eq. intro c. pose proof (held_new id u m up (SObj []) c) as A1. pose proof (New u m up (SObj []) c) as B1.
    match goal with |- held c (snd ?x) /\ _ => set (z0 := x) end. rewrite new_schema_eq in A1, B1. cbn [snd] in A1, B1. set (s := length (c_objs c)) in *. set (c1 := mkCat _ _) in *.
    assert (Qz : snd z0 = snd (build_object E s (map (fun kv => (fst kv, member_of E id (snd kv))) ms) c1)).
    { unfold z0, bindM. rewrite new_schema_eq. fold s. fold c1. now destruct (build_object E s (map (fun kv => (fst kv, member_of E id (snd kv))) ms) c1) as [[a| |] c2]. }
    clearbody z0. rewrite Qz.
    apply jwf_obj in J. destruct J as [Nd Jm]. rewrite Forall_forall in Jm.
    assert (F : held c1 (snd (build_object E s (map (fun kv => (fst kv, member_of E id (snd kv))) ms) c1))).
    { apply (held_build_object _ _ _ (mkObj u m up id (SObj []))).
      - unfold keys. now rewrite map_map.
      - intros k x Hx. apply in_map_iff in Hx. destruct Hx as ([k' v'] & [= <- <-] & Hv). cbn [snd].
        pose proof (Jm _ Hv) as Jv. cbn [snd] in Jv. apply jsize_members in Hv. cbn [snd] in Hv. split.
        + intros up' c'. apply IH; [lia|exact Jv|discriminate|discriminate].
        + intros k b up' Hb' c'. cbn [mb_items member_of] in Hb'. destruct v' as [|?|?|?|l|m']; try destruct Hb'.
          * apply in_numbered in Hb'. destruct Hb' as (i & w & Hi & [= _ ->]). apply nth_error_In in Hi. pose proof (jsize_items _ _ Hi). apply IH; [lia| |discriminate|discriminate].
            apply jwf_arr in Jv. rewrite Forall_forall in Jv. now apply Jv.
          * apply in_map_iff in Hb'. destruct Hb' as ([k1 v1] & [= <- <-] & Hv1). cbn [snd]. pose proof (jsize_members _ _ Hv1) as Js. cbn [snd] in Js. apply IH; [lia| |discriminate|discriminate].
            apply jwf_obj in Jv. destruct Jv as [_ Jv]. rewrite Forall_forall in Jv. exact (Jv _ Hv1).
      - unfold c1. cbn [c_objs]. apply nth_last.
      - cbn [so_uri so_up]. exact Hu.
      - intros x Hx. rewrite (dget_mapped (member_of E id)) in Hx. cbn [so_uri]. destruct u as [b|]; [|now left]. right. exists b. split; [reflexivity|]. intros t Ht.
        specialize (Hb b eq_refl). unfold names_itself, own_uri in Hb. destruct (dget (lit "$id") ms) as [y|]; [|discriminate Hx]. injection Hx as <-. cbn [mb_value member_of] in Ht. subst y. cbn [base_of option_map] in Hb.
        unfold entitled in Hb. destruct (ul_absolute (e_lib E) (ul_parse (e_lib E) t)); cbn [option_map] in Hb;
          (destruct (uri_same (e_lib E) b _) eqn:Q; [reflexivity|]; injection Hb as Hb; rewrite Hb in Q; unfold uri_same in Q; destruct (uri_eqb_spec b b); [discriminate Q|congruence]). }
    assert (R : held c (snd (build_object E s (map (fun kv => (fst kv, member_of E id (snd kv))) ms) c1)) /\
       forall b, u = Some b -> cached id b (c_cache (snd (build_object E s (map (fun kv => (fst kv, member_of E id (snd kv))) ms) c1))) <> None).
    { split; [exact (proj2 P _ _ _ A1 F)|]. intros b Eb. apply F. now apply B1. }
    exact R. }
  intros J. exact (G (S (jsize v)) v (Nat.lt_succ_diag_r _) J).
Qed.

(** ** How many documents are still to be read. *)
Variable L : list uri.
Hypothesis Lib : library E L.
Hypothesis Ans : answering E.
Hypothesis Docs : forall u doc, load_json (e_lib E) (e_sources E) u = Ok doc -> jwf doc = true.
Variable id : pystr.

Definition missing (c : cat) : nat := length (filter (fun b => match cached id b (c_cache c) with None => true | Some _ => false end) L).
Lemma filter_fewer {A} (p q : A -> bool) l : (forall a, q a = true -> p a = true) -> length (filter q l) <= length (filter p l).
Proof.
  intro H. induction l as [|a l IH]; [reflexivity|]. cbn [filter]. destruct (q a) eqn:Q; [rewrite (H _ Q); cbn [length]; lia|]. destruct (p a); cbn [length]; lia.
Qed.
Lemma filter_less {A} (p q : A -> bool) l a : (forall a, q a = true -> p a = true) -> In a l -> p a = true -> q a = false -> length (filter q l) < length (filter p l).
Proof.
  intros H. induction l as [|x l IH]; intros Ha Pa Qa; [destruct Ha|]. destruct Ha as [->|Ha]; cbn [filter].
  - rewrite Pa, Qa. cbn [length]. pose proof (filter_fewer p q l H). lia.
  - specialize (IH Ha Pa Qa). destruct (q x) eqn:Q; [rewrite (H _ Q); cbn [length]; lia|]. destruct (p x); cbn [length]; lia.
Qed.
Lemma held_missing c c' : held c c' -> missing c' <= missing c.
Proof.
  intro H. apply filter_fewer. intros b Q. destruct (cached id b (c_cache c')) eqn:X'; [discriminate|]. destruct (cached id b (c_cache c)) eqn:X; [|reflexivity].
  exfalso. apply (H id b); [congruence|exact X'].
Qed.
Lemma read_missing c c' b : held c c' -> In b L -> cached id b (c_cache c) = None -> cached id b (c_cache c') <> None -> missing c' < missing c.
Proof.
  intros H Hb N N'. apply (filter_less _ _ _ b).
  - intros x Q. destruct (cached id x (c_cache c')) eqn:X'; [discriminate|]. destruct (cached id x (c_cache c)) eqn:X; [|reflexivity]. exfalso. apply (H id x); [congruence|exact X'].
  - exact Hb.
  - now rewrite N.
  - destruct (cached id b (c_cache c')); [reflexivity|congruence].
Qed.

(** ** Coming to an end. *)

(** Fewer documents are to be read, or nothing was added. *)
Definition onward (c c' : cat) : Prop := sane c' /\ kept c c' /\ (missing c' < missing c \/ missing c' = missing c /\ size c' = size c).
Lemma onward_refl c : sane c -> onward c c. Proof. intro S. split; [exact S|]. split; [apply kept_refl|]. right; auto. Qed.
Lemma onward_trans a b c : onward a b -> onward b c -> onward a c.
Proof. intros (S1 & K1 & M1) (S2 & K2 & M2). split; [exact S2|]. split; [exact (kept_trans _ _ _ K1 K2)|]. lia. Qed.
(** With enough fuel the outcome is always the same. *)
Definition comes {A} (x : nat -> M A) (c : cat) : Prop :=
  exists N r c', (forall f, N <= f -> x f c = (r, c')) /\ r <> Fuel /\ forall a, r = Ok a -> onward c c'.
Lemma comes_now {A} (x : M A) c r c' : x c = (r, c') -> r <> Fuel -> (forall a, r = Ok a -> onward c c') -> comes (fun _ => x) c.
Proof. intros H N O. exists 0, r, c'. auto. Qed.
Lemma comes_bind {A B} (x : nat -> M A) (k : nat -> A -> M B) c : comes x c ->
  (forall a c1, onward c c1 -> (exists N, forall f, N <= f -> x f c = (Ok a, c1)) -> comes (fun f => k f a) c1) -> comes (fun f => bindM (x f) (k f)) c.
Proof.
  intros (N & r & c1 & X & Nf & O) H. destruct r as [a|e|]; [|exists N, (Exn e), c1|congruence].
  - specialize (O a eq_refl). destruct (H a c1 O (ex_intro _ N X)) as (N2 & r2 & c2 & X2 & Nf2 & O2). exists (max N N2), r2, c2. split; [|split; [exact Nf2|intros b Hb; exact (onward_trans _ _ _ O (O2 b Hb))]].
    intros f Hf. unfold bindM. rewrite X by lia. apply X2. lia.
  - split; [|split; [discriminate|discriminate]]. intros f Hf. unfold bindM. now rewrite X.
Qed.
Lemma comes_each {A} (x : nat -> A -> M unit) l : forall c, sane c -> (forall a c1, In a l -> onward c c1 -> comes (fun f => x f a) c1) -> comes (fun f => each_ (x f) l) c.
Proof.
  induction l as [|a l IH]; intros c S H; cbn [each_].
  - apply (comes_now (ret tt) c (Ok tt) c); [reflexivity|discriminate|]. intros _ _. now apply onward_refl.
  - apply (comes_bind (fun f => x f a) (fun f _ => each_ (x f) l)); [apply H; [now left|now apply onward_refl]|]. intros u c1 O _. apply IH; [apply O|]. intros b c2 Hb O2. apply H; [now right|exact (onward_trans _ _ _ O O2)].
Qed.
Lemma comes_ext {A} (x y : nat -> M A) c : (forall f, x f c = y f c) -> comes x c -> comes y c.
Proof. intros H (N & r & c' & X & Y). exists N, r, c'. split; [|exact Y]. intros f Hf. rewrite <- H. now apply X. Qed.
Lemma comes_later {A} (x : nat -> M A) c : comes (fun f => x (S f)) c -> comes x c.
Proof. intros (N & r & c' & X & Y). exists (S N), r, c'. split; [|exact Y]. intros [|f] Hf; [lia|]. apply X. lia. Qed.
Lemma comes_read {A B} (g : cat -> A) (k : nat -> A -> M B) c : comes (fun f => k f (g c)) c -> comes (fun f => bindM (read g) (k f)) c.
Proof. intro H. exact H. Qed.
Lemma comes_lift {A B} (r : res A) (k : nat -> A -> M B) c : r <> Fuel -> (forall a, r = Ok a -> comes (fun f => k f a) c) -> comes (fun f => bindM (lift r) (k f)) c.
Proof.
  intros N H. destruct r as [a|e|]; [exact (H a eq_refl)| |congruence]. exists 0, (Exn e), c. split; [reflexivity|]. split; discriminate.
Qed.

Definition whole (c : cat) (s : sid) : Prop := s < size c /\ regular c s /\ forall t, within (c_objs c) s t -> belongs id c t.
Lemma whole_kept c c' s : sane c -> kept c c' -> whole c s -> whole c' s.
Proof.
  intros S K (Hs & R & B). split; [pose proof (kept_size _ _ K); lia|]. split.
  - intros t kws' key k t' W Kt Hk Sub. destruct (within_back _ _ _ _ K S Hs W) as [Ht W0]. destruct (kept_keywords_back _ _ _ _ K Ht Kt) as (kws & Kt0 & F).
    destruct (Forall2_In_r _ _ _ _ F Hk) as ([key0 k0] & Hk0 & (_ & St & _)). cbn [snd] in St. apply (later_sub _ _ t' St) in Sub. destruct (R _ _ _ _ _ W0 Kt0 Hk0 Sub) as (A1 & A2 & A3).
    split; [exact A1|]. split; [pose proof (kept_size _ _ K); lia|]. intro X. apply A3. now apply (later_reference _ _ St).
  - intros t W. destruct (within_back _ _ _ _ K S Hs W) as [Ht W0]. exact (belongs_kept id _ _ _ K (B t W0)).
Qed.
Lemma whole_sub c s kws key k t : whole c s -> keywords_at (c_objs c) s kws -> In (key, k) kws -> subschema_of k t -> s < t /\ ~ is_reference k /\ whole c t.
Proof.
  intros (Hs & R & B) Ks Hk Sub. destruct (R s kws key k t (within_self _ _) Ks Hk Sub) as (A1 & A2 & A3). split; [exact A1|]. split; [exact A3|]. split; [exact A2|].
  split; [exact (regular_sub c s kws key k t R Ks Hk Sub)|]. intros t' W. apply B. apply (within_trans _ _ t); [exact (within_step _ _ _ _ _ _ _ (within_self _ _) Ks Hk Sub)|exact W].
Qed.
Lemma whole_build v u m c s c1 : sane c -> jwf v = true -> build E id v u m None c = (Ok s, c1) -> sane c1 /\ whole c1 s.
Proof.
  intros S J B. pose proof (sane_build E _ _ _ _ _ _ _ S B) as S1. split; [exact S1|]. destruct (build_regular E id v u m c s c1 S J B) as [Hs R]. split; [exact Hs|]. split; [exact R|].
  destruct (build_made E id _ u m c s c1 S J B) as (Es & Ls & _ & Md). pose proof (alone_build E id v u m None c) as Ab. rewrite B in Ab. cbn [snd] in Ab.
  intros t W. pose proof (within_later E _ _ _ _ _ _ _ _ (proj1 S1) Md W) as Lt. destruct (made_within E _ _ _ _ _ _ _ _ Md W) as (m' & b' & u' & v' & up' & Mt & _).
  destruct (made_up _ _ _ _ _ _ _ _ Mt) as (o & Ho & _). exists o. split; [exact Ho|]. apply (proj2 (proj2 Ab) t o); [rewrite <- Es; exact Lt|exact Ho].
Qed.
Lemma walk_no_fuel objs p : forall n, sn_walk (objs_world objs) n p <> Fuel.
Proof.
  induction p as [|k p IH]; intros n; cbn [sn_walk]; [discriminate|]. destruct (sn_child (objs_world objs) n k) as [y|e|] eqn:Q; cbn [bind]; [apply IH|discriminate|].
  intros _. destruct n as [s|[v|s|l|ms]]; cbn in Q.
  - destruct (dget k _); discriminate.
  - destruct v; try discriminate; [unfold sn_index in Q; destruct (py_int k); [destruct (norm_index (length l) z); [destruct (nth_error l n)|]|]; discriminate|destruct (dget k m); discriminate].
  - discriminate.
  - unfold sn_index in Q; destruct (py_int k); [destruct (norm_index (length l) z); [destruct (nth_error l n)|]|]; discriminate.
  - destruct (dget k ms); discriminate.
Qed.

Definition good_at (c : cat) : Prop := forall s, sane c -> whole c s -> comes (fun f => resolve_references E f s) c.
Lemma comes_construct v b m c : sane c -> jwf v = true -> (forall s c1, build E id v b m None c = (Ok s, c1) -> good_at c1 /\ (missing c1 < missing c)) ->
  comes (fun f => construct_with E (resolve_references E f) id v b m) c.
Proof.
  intros S J H. unfold construct_with. destruct (build E id v b m None c) as [r cb] eqn:B. pose proof (build_decides E id v b m c (proj1 S) J) as D. rewrite B in D. cbn [fst] in D.
  destruct r as [s|e|]; [|exists 0, (Exn e), cb; split; [intros; unfold bindM; now rewrite B|split; discriminate]|destruct D].
  destruct (whole_build v b m c s cb S J B) as [Sb Wb]. destruct (H s cb eq_refl) as [G Ms].
  assert (Ob : onward c cb). { split; [exact Sb|]. split; [|now left]. pose proof (framed_build E id v b m None c) as Kb. rewrite B in Kb. exact (old_kept _ _ Kb). }
  apply (comes_bind (fun _ => build E id v b m None)); [exact (comes_now _ _ _ _ B ltac:(discriminate) (fun _ _ => Ob))|]. intros s' c1 O [N X]. specialize (X N (le_n _)). rewrite B in X. apply pair_equal_spec in X. destruct X as [X ->]. injection X as ->.
  assert (Rt : forall f : nat, comes (fun _ => ret s') c1) by (intro; apply (comes_now _ _ (Ok s') c1); [reflexivity|discriminate|intros; now apply onward_refl]).
  destruct v; try exact (Rt 0).
  apply (comes_bind (fun f => resolve_references E f s') (fun _ _ => ret s')); [now apply G|]. intros u c2 O2 _. apply (comes_now _ _ (Ok s') c2); [reflexivity|discriminate|]. intros. apply onward_refl, O2.
Qed.

Lemma comes_ret {A} (a : A) c : sane c -> comes (fun _ => ret a) c.
Proof. intro S. apply (comes_now _ _ (Ok a) c); [reflexivity|discriminate|intros; now apply onward_refl]. Qed.
Lemma comes_throw {A} e c : comes (fun _ => @throw A e) c.
Proof. apply (comes_now _ _ (Exn e) c); [reflexivity|discriminate|discriminate]. Qed.
Lemma comes_get u m c : sane c -> (forall c1, missing c1 < missing c -> good_at c1) -> comes (fun f => get_schema_with E (resolve_references E f) id u m) c.
Proof.
  intros S H. unfold get_schema_with. apply comes_read. destruct (cached id u (c_cache c)) as [s|] eqn:Hit; [now apply comes_ret|]. cbv zeta.
  apply comes_read. set (known := match u_frag u with Some _ => cached id (no_fragment u) (c_cache c) | None => None end).
  assert (Nb : known = None -> cached id (no_fragment u) (c_cache c) = None).
  { unfold known. destruct (u_frag u) eqn:F; [auto|]. intros _. rewrite <- Hit. f_equal. destruct u as [b f]. cbn in F. subst f. reflexivity. }
  apply (comes_bind (fun f => match known with Some s => ret (s, None) | None => do doc <- lift (load_json (e_lib E) (e_sources E) (no_fragment u));
      do s <- construct_with E (resolve_references E f) id doc (Some (no_fragment u)) m; do again <- read (fun c => cached id u (c_cache c)); ret (s, again) end)).
  - destruct known as [s|]; [now apply comes_ret|]. specialize (Nb eq_refl). apply (comes_lift (load_json (e_lib E) (e_sources E) (no_fragment u))); [apply Ans|]. intros doc Ld.
    destruct (Lib (no_fragment u) doc) as [Lb Ns]; [reflexivity|exact Ld|]. pose proof (Docs _ _ Ld) as J.
    apply (comes_bind (fun f => construct_with E (resolve_references E f) id doc (Some (no_fragment u)) m)).
    + apply comes_construct; [exact S|exact J|]. intros s c1 B.
      destruct (held_build id doc J (Some (no_fragment u)) m None) with (c := c) as [Hd Cd]; [discriminate|intros b [= <-]; exact Ns|]. rewrite B in Hd, Cd. cbn [snd] in Hd, Cd.
      assert (Ms : missing c1 < missing c) by exact (read_missing c c1 _ Hd Lb Nb (Cd _ eq_refl)). split; [now apply H|exact Ms].
    + intros s c1 O _. apply comes_read, comes_ret, O.
  - intros [s [s'|]] c1 O _; [apply comes_ret, O|]. destruct (u_frag u) as [[|ch g]|]; [apply comes_ret, O| |apply comes_ret, O].
    apply comes_read, comes_lift.
    + destruct (parse_uri_fragment (ch :: g)) as [p|e|] eqn:P; [|cbn; destruct (is_pointer_error e); discriminate|destruct (parse_no_fuel _ P)].
      cbn [bind]. pose proof (walk_no_fuel (c_objs c1) p (SNSchema s)) as W. destruct (sn_walk (objs_world (c_objs c1)) (SNSchema s) p) as [n|e|]; cbn; [discriminate|destruct (is_pointer_error e); discriminate|congruence].
    + intros [t|j] _; [apply comes_ret, O|apply comes_throw].
Qed.
Lemma comes_set_ref s key t d c : sane c -> s < size c -> t < size c -> comes (fun _ => set_ref s key t d) c.
Proof.
  intros S Hs Ht. destruct (alike_set_ref s key t d c) as (c' & X & A). apply (comes_now _ _ (Ok tt) c' X); [discriminate|]. intros _ _.
  split; [|split].
  - destruct (safe_set_ref (size c) s key t d) with (c := c) as (S1 & _); [exact Ht|exact S|reflexivity|]. rewrite X in S1. exact S1.
  - pose proof (kept_set_ref s key t d c) as K. rewrite X in K. exact K.
  - right. split; [|exact (alike_size _ _ A)]. unfold missing. destruct A as [_ ->]. reflexivity.
Qed.
Lemma comes_keyword s key k c : sane c -> belongs id c s -> (forall c1, missing c1 < missing c -> good_at c1) -> comes (fun f => resolve_keyword E (resolve_references E f) s key k) c.
Proof.
  intros S (o & Ho & Hc) H. unfold resolve_keyword. apply comes_read. cbv zeta. rewrite Ho, Hc.
  assert (Ls : s < size c) by (apply nth_error_Some; congruence).
  assert (Then : forall (u : uri) (k' : sid -> M unit), (forall t c1, onward c c1 -> t < size c1 -> comes (fun _ => k' t) c1) ->
    comes (fun f => do t <- get_schema_with E (resolve_references E f) id u (metaschema_uri (c_objs c) s); k' t) c).
  { intros u k' Hk. apply (comes_bind (fun f => get_schema_with E (resolve_references E f) id u (metaschema_uri (c_objs c) s)) (fun _ t => k' t)); [now apply comes_get|]. intros t c1 O [N X]. apply Hk; [exact O|].
    destruct (safe_get_schema_with E (resolve_references E N) (safe_resolve E N) 0 id u (metaschema_uri (c_objs c) s) c S) as (_ & _ & Q); [lia|]. rewrite (X N (le_n _)) in Q. exact (Q t eq_refl). }
  assert (Set' : forall t c1, onward c c1 -> t < size c1 -> comes (fun _ => set_ref s key t false) c1).
  { intros t c1 O Ht. apply comes_set_ref; [apply O| |exact Ht]. pose proof (kept_size _ _ (proj1 (proj2 O))). lia. }
  assert (Abs : forall k' : sid -> M unit, (forall t c1, onward c c1 -> t < size c1 -> comes (fun _ => k' t) c1) ->
    comes (fun f => do u <- absolute_reference E s (kw_json k); do t <- get_schema_with E (resolve_references E f) id u (metaschema_uri (c_objs c) s); k' t) c).
  { intros k' Hk. pose proof (absolute_same E s (kw_json k) c) as A. destruct (absolute_reference E s (kw_json k) c) as [r c1] eqn:R. cbn [snd] in A. subst c1.
    apply (comes_bind (fun _ => absolute_reference E s (kw_json k)) (fun f u => do t <- get_schema_with E (resolve_references E f) id u (metaschema_uri (c_objs c) s); k' t)).
    - apply (comes_now _ _ _ _ R); [|intros; now apply onward_refl]. intros ->. unfold absolute_reference, bindM, lift, read in R.
      destruct (kw_json k) as [v| | |]; [destruct v|..]; cbn in R; try discriminate R. destruct (ul_absolute _ _); [discriminate R|]. destruct (base_uri (c_objs c) s); discriminate R.
    - intros u c1 O [N X]. specialize (X N (le_n _)). rewrite R in X. apply pair_equal_spec in X. destruct X as [_ <-]. now apply Then. }
  destruct (kw_class k) as [kc|]; [|now apply Abs]. destruct kc; try now apply Abs.
  - apply Abs. intros t c1 O Ht. apply (comes_bind (fun _ => set_ref s key t false) (fun _ _ => do objs <- read c_objs; do b <- lift (has_dynamic_anchor (objs_world objs) t (kw_fragment k)); if b then set_ref s key t true else ret tt)); [now apply Set'|].
    intros _ c2 O2 _. apply comes_read, comes_lift; [unfold has_dynamic_anchor; destruct (w_schema _ t); discriminate|]. intros [] _; [|apply comes_ret, O2].
    pose proof (kept_size _ _ (proj1 (proj2 O))). pose proof (kept_size _ _ (proj1 (proj2 O2))). apply comes_set_ref; [apply O2|lia|lia].
  - destruct (base_uri (c_objs c) s) as [b|]; [now apply Then|apply comes_throw].
Qed.
Lemma all_good_at : forall n d c s, missing c <= n -> size c - s <= d -> sane c -> whole c s -> comes (fun f => resolve_references E f s) c.
Proof.
  intro n. induction n as [n IHn] using lt_wf_ind. intro d. induction d as [|d IHd]; intros c s Mn Sz S W; [destruct W; lia|].
  assert (Less : forall c1, missing c1 < missing c -> good_at c1). { intros c1 Q s1 S1 W1. apply (IHn (missing c1)) with (d := size c1); [lia|lia|lia|exact S1|exact W1]. }
  apply comes_later. cbn [resolve_references]. apply comes_read. apply comes_each; [exact S|]. intros [key k] c1 Hk O. cbn [fst snd].
  assert (G1 : forall c2, missing c2 < missing c1 -> good_at c2) by (intros c2 Q; apply Less; destruct O as (_ & _ & O); lia).
  apply keywords_in in Hk. destruct Hk as (kws & Ka & Hk).
  assert (Sub : forall t c2, subschema_of k t -> onward c c2 -> comes (fun f => resolve_references E f t) c2).
  { intros t c2 Hsub O2. destruct (whole_sub c s kws key k t W Ka Hk Hsub) as (Lt & _ & Wt). pose proof (whole_kept c c2 t S (proj1 (proj2 O2)) Wt) as Wt2. destruct O2 as (S2 & _ & [Q|[Q1 Q2]]); [now apply Less|].
    apply IHd; [lia| |exact S2|exact Wt2]. destruct Wt as [Wt _]. lia. }
  destruct (reference_class (kw_class k)).
  - apply comes_keyword; [apply O| |exact G1]. destruct W as (_ & _ & W). apply (belongs_kept id c c1); [apply O|]. apply W. constructor.
  - unfold subschema_of in Sub. destruct (kw_json k) as [v|t|l|m].
    + apply comes_ret, O.
    + now apply Sub.
    + apply comes_each; [apply O|]. intros t c2 Ht O2. apply Sub; [exact Ht|exact (onward_trans _ _ _ O O2)].
    + apply comes_each; [apply O|]. intros t c2 Ht O2. apply Sub; [exact (in_map snd _ _ Ht)|exact (onward_trans _ _ _ O O2)].
Qed.
Theorem construct_ends v u m c : sane c -> jwf v = true ->
  exists N r c', r <> Fuel /\ forall f, N <= f -> construct E f id v u m c = (r, c').
Proof.
  intros S J. unfold construct, construct_with. destruct (build E id v u m None c) as [r cb] eqn:B. pose proof (build_decides E id v u m c (proj1 S) J) as D. rewrite B in D. cbn [fst] in D.
  destruct r as [s|e|]; [|exists 0, (Exn e), cb; split; [discriminate|intros; unfold bindM; now rewrite B]|destruct D].
  destruct (whole_build v u m c s cb S J B) as [Sb Wb]. destruct v; try solve [exists 0, (Ok s), cb; split; [discriminate|intros; unfold bindM; now rewrite B]].
  destruct (all_good_at (missing cb) (size cb) cb s (le_n _)) as (N & r & c' & X & Nf & _); [lia|exact Sb|exact Wb|].
  exists N, (match r with Ok _ => Ok s | Exn e => Exn e | Fuel => Fuel end), c'. split; [destruct r; congruence|]. intros f Hf. unfold bindM. rewrite B, (X f Hf). destruct r; reflexivity.
Qed.
Theorem get_ends u m c : sane c -> exists N r c', r <> Fuel /\ forall f, N <= f -> get_schema E f id u m c = (r, c').
Proof.
  intro S. destruct (comes_get u m c S) as (N & r & c' & X & Nf & _); [|exists N, r, c'; auto]. intros c1 _ s S1 W1. exact (all_good_at (missing c1) (size c1) c1 s (le_n _) ltac:(lia) S1 W1).
Qed.
End Ends.
