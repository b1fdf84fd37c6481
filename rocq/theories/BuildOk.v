(** Successful construction makes what the document describes. *)
From Coq Require Import List Lia Bool Permutation.
From Verif Require Export BuildMade.
Import ListNotations.
Open Scope nat_scope.

Lemma bind_ok {A B} (x : M A) (f : A -> M B) c b c' : bindM x f c = (Ok b, c') -> exists a c1, x c = (Ok a, c1) /\ f a c1 = (Ok b, c').
Proof. unfold bindM. destruct (x c) as [[a| |] c1]; intro H; try discriminate H. eauto. Qed.
Lemma ret_ok {A} (a b : A) c c' : ret a c = (Ok b, c') -> a = b /\ c = c'.
Proof. unfold ret. intros [= -> ->]. auto. Qed.
Lemma lift_ok {A} (r : res A) b c c' : lift r c = (Ok b, c') -> r = Ok b /\ c = c'.
Proof. unfold lift. intros [= -> ->]. auto. Qed.
Lemma read_ok {A} (f : cat -> A) b c c' : read f c = (Ok b, c') -> b = f c /\ c = c'.
Proof. unfold read. intros [= <- ->]. auto. Qed.

Lemma set_nth_id {A} n (x : A) l : nth_error l n = Some x -> set_nth n x l = l.
Proof. revert n. induction l as [|y l IH]; intros [|n] H; cbn in *; try discriminate; [congruence|]. f_equal. auto. Qed.
Lemma set_nth_twice {A} n (x y : A) l : set_nth n x (set_nth n y l) = set_nth n x l.
Proof. revert n. induction l as [|z l IH]; intros [|n]; cbn; auto. f_equal. auto. Qed.

Lemma old_metaschema c c' s : same_old c c' -> upward (c_objs c) -> s < length (c_objs c) -> metaschema_uri (c_objs c') s = metaschema_uri (c_objs c) s.
Proof. intros [L H] U Hs. apply climb_agree; [exact U|]. intros i Hi. now rewrite H by lia. Qed.
Lemma old_base c c' s : same_old c c' -> upward (c_objs c) -> s < length (c_objs c) -> base_uri (c_objs c') s = base_uri (c_objs c) s.
Proof. intros [L H] U Hs. unfold base_uri. f_equal. apply climb_agree; [exact U|]. intros i Hi. now rewrite H by lia. Qed.

Lemma framed_run {A} P (x : M A) c r c' : framed P x -> x c = (r, c') -> P c c'.
Proof. intros F H. specialize (F c). now rewrite H in F. Qed.

Lemma up_below (s : sid) (ks : list pystr) c : s < length (c_objs c) -> forall p ks', Some (s, ks) = Some (p, ks') -> p < length (c_objs c).
Proof. intros H p ks' Q. injection Q as <- _. exact H. Qed.

Section Ok.
Variable E : env.
Variable id : pystr.

Definition outer_meta (c : cat) (m : option uri) (up : option (sid * list pystr)) : option uri :=
  match m with Some _ => m | None => match up with Some (p, _) => metaschema_uri (c_objs c) p | None => None end end.
Definition outer_base (c : cat) (up : option (sid * list pystr)) : option uri :=
  match up with Some (p, _) => base_uri (c_objs c) p | None => None end.
Definition given_uri (c : cat) (u : option uri) (up : option (sid * list pystr)) (v : json) : option uri :=
  match u, up, v with None, None, JObj _ => Some (e_uuid E (length (c_objs c))) | _, _, _ => u end.

Definition well_built (v : json) : Prop := forall u m up c s c',
  upward (c_objs c) -> (forall p ks, up = Some (p, ks) -> p < length (c_objs c)) -> build E id v u m up c = (Ok s, c') ->
  s = length (c_objs c) /\ s < length (c_objs c') /\ upward (c_objs c') /\
  (forall i, s <= i < length (c_objs c') -> within (c_objs c') s i) /\
  made E (c_objs c') (outer_meta c m up) (outer_base c up) (given_uri c u up v) v s up.

(** ** Subschemas of a keyword. *)
Lemma children_ok s key : forall L D c ts c',
  Forall2 (fun (kb : pystr * builder) v => well_built v /\ forall up, snd kb up = build E id v None None (Some up)) L D ->
  upward (c_objs c) -> s < length (c_objs c) -> mapM (fun kb => snd kb (s, [key; fst kb])) L c = (Ok ts, c') ->
  upward (c_objs c') /\ same_old c c' /\ length ts = length D /\
  (forall i n v t, nth_error (keys L) i = Some n -> nth_error D i = Some v -> nth_error ts i = Some t ->
     made E (c_objs c') (metaschema_uri (c_objs c) s) (base_uri (c_objs c) s) None v t (Some (s, [key; n]))) /\
  (forall i, length (c_objs c) <= i < length (c_objs c') -> exists t, In t ts /\ within (c_objs c') t i).
Proof.
  induction L as [|[n b] L IH]; intros D c ts c' F U Hs R; inversion F as [|x v L' D' [Wv Eb] F']; subst.
  - cbn in R. apply ret_ok in R. destruct R as [<- <-]. split; [exact U|]. split; [apply pre_old|]. split; [reflexivity|]. split; [intros [|i]; discriminate|intros; lia].
  - cbn [mapM] in R. cbn [snd fst] in *. apply bind_ok in R. destruct R as (t & c1 & R1 & R). apply bind_ok in R. destruct R as (ts' & c2 & R2 & R). apply ret_ok in R. destruct R as [<- <-].
    rewrite Eb in R1. assert (O1 : same_old c c1) by exact (framed_run _ _ _ _ _ (framed_build E id v None None _) R1).
    destruct (Wv _ _ _ _ _ _ U (up_below s _ c Hs) R1) as (Et & Lt & U1 & Wi & Md).
    assert (Hs1 : s < length (c_objs c1)) by (destruct O1; lia).
    destruct (IH D' c1 ts' c2 F' U1 Hs1 R2) as (U2 & O2 & Len & Md2 & Cov).
    rewrite (old_metaschema _ _ _ O1 U Hs), (old_base _ _ _ O1 U Hs) in Md2.
    split; [exact U2|]. split; [exact (proj2 pre_old _ _ _ O1 O2)|]. split; [cbn; congruence|]. split.
    + intros [|i] n' v' t' Hn Hv Ht; cbn in Hn, Hv, Ht.
      * injection Hn as <-. injection Hv as <-. injection Ht as <-. apply (made_agree E (c_objs c1)); [exact U1|exact Md|now apply old_agrees].
      * exact (Md2 i n' v' t' Hn Hv Ht).
    + intros i Hi. destruct (Nat.lt_ge_cases i (length (c_objs c1))) as [X|X].
      * exists t. split; [now left|]. apply (within_more (c_objs c1)); [now apply old_more|]. apply Wi. subst t. lia.
      * destruct (Cov i) as (t' & Ht' & W'); [lia|]. exists t'. split; [now right|exact W'].
Qed.

(** The document and the items of it that may be subschemas. *)
Definition ready (v : json) : Prop :=
  well_built v /\
  match v with JArr l => Forall well_built l | JObj m => NoDup (keys m) /\ Forall (fun kv => well_built (snd kv)) m | _ => True end.

Lemma numbered_pairs l : forall k, Forall well_built l ->
  Forall2 (fun (kb : pystr * builder) v => well_built v /\ forall up, snd kb up = build E id v None None (Some up)) (numbered E id k l) l.
Proof. induction l as [|v l IH]; intros k F; inversion F; subst; constructor; [cbn; auto|]. now apply IH. Qed.
Lemma numbered_keys l : forall k i n, nth_error (keys (numbered E id k l)) i = Some n <-> i < length l /\ n = str_of_nat (k + i).
Proof.
  induction l as [|v l IH]; intros k [|i] n; cbn.
  - split; [discriminate|lia].
  - split; [discriminate|lia].
  - rewrite Nat.add_0_r. split; [intros [= <-]; split; [lia|reflexivity]|intros [_ ->]; reflexivity].
  - change (nth_error (keys (numbered E id (S k) l)) i = Some n <-> S i < S (length l) /\ n = str_of_nat (k + S i)).
    rewrite IH, Nat.add_succ_r. cbn [Nat.add]. split; intros [X Y]; split; auto; lia.
Qed.
Lemma named_pairs m : Forall (fun kv => well_built (snd kv)) m ->
  Forall2 (fun (kb : pystr * builder) v => well_built v /\ forall up, snd kb up = build E id v None None (Some up))
    (map (fun kv => (fst kv, fun up => build E id (snd kv) None None (Some up))) m) (map snd m).
Proof. induction m as [|[k v] m IH]; intro F; inversion F; subst; constructor; [cbn; auto|]. now apply IH. Qed.

Lemma mapM_pair {A B} (f : pystr * A -> M B) L : forall c r c', mapM (fun kb => do t <- f kb; ret (fst kb, t)) L c = (Ok r, c') ->
  exists ts, mapM f L c = (Ok ts, c') /\ keys r = keys L /\ map snd r = ts.
Proof.
  induction L as [|x L IH]; intros c r c' H; cbn [mapM] in *.
  - apply ret_ok in H. destruct H as [<- <-]. now exists [].
  - apply bind_ok in H. destruct H as (y & c1 & H1 & H). apply bind_ok in H1. destruct H1 as (t & c2 & H1 & H2). apply ret_ok in H2. destruct H2 as [<- <-].
    apply bind_ok in H. destruct H as (ys & c3 & H2 & H). apply ret_ok in H. destruct H as [<- <-].
    destruct (IH _ _ _ H2) as (ts & H3 & K & S). exists (t :: ts). split; [|split; [unfold keys in *; cbn [map fst]; now rewrite K|cbn [map snd]; now rewrite S]]. unfold bindM. now rewrite H1, H3.
Qed.
Lemma nth_dget {A} (m : list (pystr * A)) n v : dget n m = Some v -> exists i, nth_error m i = Some (n, v).
Proof. intro H. apply dget_In in H. now apply In_nth_error in H. Qed.
Lemma dget_nth {A} (m : list (pystr * A)) i n v : NoDup (keys m) -> nth_error m i = Some (n, v) -> dget n m = Some v.
Proof. intros N H. apply nth_error_In in H. now apply In_dget. Qed.

(** The subschemas a json attribute refers to. *)
Definition subs_in (j : kjson) (t : sid) : Prop :=
  match j with KSub t' => t' = t | KSubs l => In t l | KSubm m => In t (map snd m) | KJ _ => False end.

Ltac takes := unfold takes_one, takes_many, takes_named; cbn; intuition discriminate.
Lemma mixins_none c : mixins c = [] -> ~ takes_one c /\ ~ takes_many c /\ ~ takes_named c.
Proof. destruct c as [c|]; [|intros _; split; [|split]; takes]. destruct c; intro H; try discriminate H; (split; [|split]; takes). Qed.
Lemma mixins_take c m : In m (mixins c) -> match m with MSub => takes_one c | MArr => takes_many c | MObj => takes_named c end.
Proof. destruct c as [c|]; [|intros []]. destruct c; cbn; intro H; decompose [or False] H; subst; takes. Qed.

Lemma keyword_json_ok s key c v st j st' : ready v -> upward (c_objs st) -> s < length (c_objs st) ->
  keyword_json s key c (member_of E id v) st = (Ok j, st') ->
  upward (c_objs st') /\ same_old st st' /\
  holds E (c_objs st') (metaschema_uri (c_objs st) s) (base_uri (c_objs st) s) s key c v j /\
  (forall i, length (c_objs st) <= i < length (c_objs st') -> exists t, subs_in j t /\ within (c_objs st') t i).
Proof.
  intros [Wv Wi] U Hs. unfold keyword_json. destruct (mixins c) as [|m0 ms0] eqn:Mx.
  { intro H. apply ret_ok in H. destruct H as [<- <-]. apply mixins_none in Mx. split; [exact U|]. split; [apply pre_old|]. split; [apply holds_plain; tauto|intros; lia]. }
  assert (T : forall m, In m (m0 :: ms0) -> match m with MSub => takes_one c | MArr => takes_many c | MObj => takes_named c end).
  { intros m Hm. apply mixins_take. now rewrite Mx. }
  clear Mx. revert T. generalize (m0 :: ms0) as ms. induction ms as [|m ms IH]; intros T H; [discriminate H|]. cbn [try_mixins] in H.
  destruct (jsonify s key (member_of E id v) m) as [x|] eqn:J; [|apply IH; [intros; apply T; now right|exact H]].
  specialize (T m (or_introl eq_refl)). clear IH. unfold jsonify in J. cbn [mb_value member_of mb_schema mb_items] in J.
  assert (One : forall x', x = (do t <- build E id v None None (Some (s, [key])); ret (KSub t)) -> takes_one c -> x' = tt ->
    upward (c_objs st') /\ same_old st st' /\
    holds E (c_objs st') (metaschema_uri (c_objs st) s) (base_uri (c_objs st) s) s key c v j /\
    (forall i, length (c_objs st) <= i < length (c_objs st') -> exists t, subs_in j t /\ within (c_objs st') t i)).
  { intros _ -> Tc _. apply bind_ok in H. destruct H as (t & c1 & R & H). apply ret_ok in H. destruct H as [<- <-].
    assert (O1 : same_old st c1) by exact (framed_run _ _ _ _ _ (framed_build E id v None None _) R).
    destruct (Wv _ _ _ _ _ _ U (up_below s _ st Hs) R) as (Et & Lt & U1 & Wt & Md).
    split; [exact U1|]. split; [exact O1|]. split; [apply holds_one; [exact Tc|exact Md]|].
    intros i Hi. exists t. split; [reflexivity|]. apply Wt. lia. }
  destruct m, v as [|b|x0|x0|l|ms']; try discriminate J; cbv iota in Wi, J; try (injection J as J; symmetry in J; exact (One tt J T eq_refl)); clear One; injection J as <-.
  - apply ret_ok in H. destruct H as [<- <-]. split; [exact U|]. split; [apply pre_old|]. split; [now apply holds_text|intros; lia].
  - apply bind_ok in H. destruct H as (ts & c1 & R & H). apply ret_ok in H. destruct H as [<- <-].
    destruct (children_ok s key _ _ _ _ _ (numbered_pairs l 0 Wi) U Hs R) as (U1 & O1 & Len & Md & Cov). split; [exact U1|]. split; [exact O1|]. split; [|exact Cov].
    apply holds_many; [exact T|exact Len|]. intros i v t Hv Ht.
    assert (Li : i < length l) by (apply nth_error_Some; congruence). exact (Md i _ _ _ (proj2 (numbered_keys l 0 i _) (conj Li eq_refl)) Hv Ht).
  - apply bind_ok in H. destruct H as (r & c1 & R & H). apply ret_ok in H. destruct H as [<- <-].
    apply (mapM_pair (fun kb : pystr * builder => snd kb (s, [key; fst kb]))) in R. destruct R as (ts & R & K & S). destruct Wi as [Nd Wi].
    destruct (children_ok s key _ _ _ _ _ (named_pairs ms' Wi) U Hs R) as (U1 & O1 & Len & Md & Cov). split; [exact U1|]. split; [exact O1|].
    assert (Kd : keys (map (fun kv => (fst kv, fun up => build E id (snd kv) None None (Some up))) ms') = keys ms') by (unfold keys; rewrite map_map; reflexivity).
    split.
    + apply holds_named; [exact T|exact Nd|exact (eq_trans K Kd)|]. intros n v t Hv Ht. apply nth_dget in Ht. destruct Ht as [i Hi].
      assert (Hn : nth_error (keys ms') i = Some n) by (rewrite <- (eq_trans K Kd); unfold keys; now rewrite nth_error_map, Hi).
      assert (Hm : exists v', nth_error ms' i = Some (n, v')).
      { unfold keys in Hn. rewrite nth_error_map in Hn. destruct (nth_error ms' i) as [[n' v']|]; [|discriminate]. injection Hn as ->. eauto. }
      destruct Hm as [v' Hm]. pose proof (dget_nth _ _ _ _ Nd Hm) as Hv'. rewrite Hv in Hv'. injection Hv' as <-.
      apply (Md i n v t); [exact (eq_trans (f_equal (fun l => nth_error l i) Kd) Hn)|now rewrite nth_error_map, Hm|now rewrite <- S, nth_error_map, Hi].
    + intros i Hi. cbn [subs_in]. rewrite S. exact (Cov i Hi).
Qed.

(** ** A schema object in the course of construction. *)
Section Stage.
Variables (c0 : cat) (up : option (sid * list pystr)) (doc : list (pystr * json)) (Mu Bu : option uri).
Let s : sid := length (c_objs c0).
Hypothesis U0 : upward (c_objs c0).
Hypothesis Up0 : forall p ks, up = Some (p, ks) -> p < s.

Definition stage (st : cat) (kws : list (pystr * keyword)) (u m : option uri) : Prop :=
  same_old c0 st /\ upward (c_objs st) /\ nth_error (c_objs st) s = Some (mkObj u m up id (SObj kws)) /\ NoDup (keys kws) /\
  (forall key k, In (key, k) kws -> exists v, dget key doc = Some v /\ keeps E (kw_class k) v (kw_fragment k) (kw_format k) /\
     holds E (c_objs st) Mu Bu s key (kw_class k) v (kw_json k)) /\
  (forall i, s < i < length (c_objs st) -> exists key k t, In (key, k) kws /\ subs_in (kw_json k) t /\ within (c_objs st) t i).

Lemma stage_meta st kws u m : stage st kws u m -> metaschema_uri (c_objs st) s = outer_meta c0 m up.
Proof.
  intros (O & U & N & _). unfold metaschema_uri. rewrite climb_eq by exact U. rewrite N. cbn [so_meta so_up]. unfold outer_meta. destruct m; [reflexivity|].
  destruct up as [[p ks]|]; [|reflexivity]. apply (old_metaschema c0 st p O U0). exact (Up0 _ _ eq_refl).
Qed.
Lemma stage_base st kws u m : stage st kws u m -> base_uri (c_objs st) s = base_of u (outer_base c0 up).
Proof.
  intros (O & U & N & _). unfold base_uri. rewrite climb_eq by exact U. rewrite N. cbn [so_uri so_up]. unfold base_of, outer_base. destruct u; [reflexivity|].
  destruct up as [[p ks]|]; [|reflexivity]. exact (old_base c0 st p O U0 (Up0 _ _ eq_refl)).
Qed.

(** Only the URI and metaschema URI of [s] have changed. *)
Definition heads (st st' : cat) (o : sobj) (u m : option uri) : Prop :=
  c_objs st' = set_nth s (mkObj u m (so_up o) (so_cache o) (so_data o)) (c_objs st).
Lemma heads_refl st o : nth_error (c_objs st) s = Some o -> heads st st o (so_uri o) (so_meta o).
Proof. intro H. unfold heads. destruct o. symmetry. now apply set_nth_id. Qed.
Lemma heads_cache st k o u m : heads st st o u m -> heads st (mkCat (c_objs st) k) o u m.
Proof. intro H. exact H. Qed.

Lemma set_uri_ok L st o u r st' : nth_error (c_objs st) s = Some o -> set_uri L s u st = (Ok r, st') -> heads st st' o (Some (entitled L (so_uri o) u)) (so_meta o).
Proof.
  intros N H. unfold set_uri in H. unfold entitled. apply bind_ok in H. destruct H as (x & c1 & H1 & H). apply read_ok in H1. destruct H1 as [-> <-]. rewrite N in H.
  destruct (match so_uri o with Some u' => uri_same L u' u | None => false end) eqn:Q.
  - apply ret_ok in H. destruct H as [_ <-]. destruct (so_uri o) as [u'|] eqn:Ou; [|discriminate]. rewrite Q.
    rewrite <- Ou. now apply heads_refl.
  - apply bind_ok in H. destruct H as (x & c1 & H1 & H). apply bind_ok in H. destruct H as (y & c2 & H2 & H).
    assert (E1 : c_objs c1 = c_objs st). { destruct (so_uri o); [|now apply ret_ok in H1 as [_ <-]]. unfold uncache_schema, modify in H1. injection H1 as _ <-. reflexivity. }
    unfold update, modify in H2. injection H2 as _ <-. rewrite E1, N in H. unfold cache_schema, modify in H. injection H as _ <-.
    unfold heads, put_obj, with_uri. cbn [c_objs]. rewrite E1. destruct (so_uri o); [rewrite Q|]; reflexivity.
Qed.

Definition id_uri (st : cat) (w : option uri) (t : pystr) : option uri :=
  let u := ul_parse (e_lib E) t in
  option_map (entitled (e_lib E) w) (if ul_absolute (e_lib E) u then Some u else option_map (ul_resolve (e_lib E) u) (base_uri (c_objs st) s)).
Lemma init_id_ok next v st o r st' : nth_error (c_objs st) s = Some o -> init_id E next s v st = (Ok r, st') ->
  exists t, v = JStr t /\ heads st st' o (id_uri st (so_uri o) t) (so_meta o) /\ id_uri st (so_uri o) t <> None.
Proof.
  intros N H. unfold init_id in H. apply bind_ok in H. destruct H as (u & c1 & H1 & H). apply lift_ok in H1. destruct H1 as [P <-].
  apply bind_ok in H. destruct H as (x & c1 & H1 & H). apply lift_ok in H1. destruct H1 as [_ <-].
  apply bind_ok in H. destruct H as (objs & c1 & H1 & H). apply read_ok in H1. destruct H1 as [-> <-].
  apply bind_ok in H. destruct H as (u' & c1 & H1 & H). unfold parse_uri in P. destruct v as [| | |t| |]; try discriminate P. injection P as <-. exists t. split; [reflexivity|].
  unfold id_uri. cbv zeta. destruct (ul_absolute (e_lib E) (ul_parse (e_lib E) t)).
  - apply ret_ok in H1. destruct H1 as [<- <-]. split; [exact (set_uri_ok _ _ _ _ _ _ N H)|discriminate].
  - destruct (base_uri (c_objs st) s); [|discriminate H1]. apply ret_ok in H1. destruct H1 as [<- <-]. split; [exact (set_uri_ok _ _ _ _ _ _ N H)|discriminate].
Qed.
Lemma init_anchor_ok v st o r st' : nth_error (c_objs st) s = Some o -> init_anchor E s v st = (Ok r, st') -> heads st st' o (so_uri o) (so_meta o).
Proof.
  intros N H. unfold init_anchor in H. apply bind_ok in H. destruct H as (objs & c1 & H1 & H). apply read_ok in H1. destruct H1 as [-> <-]. rewrite N in H.
  destruct v; try discriminate H. destruct (base_uri (c_objs st) s); [|discriminate H]. unfold cache_schema, modify in H. injection H as _ <-. exact (heads_refl st o N).
Qed.
Lemma init_schema_ok v st o r st' : nth_error (c_objs st) s = Some o -> init_schema E s v st = (Ok r, st') ->
  exists t, v = JStr t /\ heads st st' o (so_uri o) (Some (ul_parse (e_lib E) t)).
Proof.
  intros N H. unfold init_schema in H. apply bind_ok in H. destruct H as (u & c1 & H1 & H). apply lift_ok in H1. destruct H1 as [P <-].
  apply bind_ok in H. destruct H as (x & c1 & H1 & H). apply lift_ok in H1. destruct H1 as [_ <-].
  unfold parse_uri in P. destruct v as [| | |t| |]; try discriminate P. injection P as <-. exists t. split; [reflexivity|].
  unfold update, modify in H. injection H as _ <-. rewrite N. reflexivity.
Qed.

(** The effect on the URIs of making a keyword of class [c]. *)
Definition moves (c : kwclass) (v : json) (st : cat) (u m u' m' : option uri) : Prop :=
  match c with
  | Std KSchema_ => exists t, v = JStr t /\ u' = u /\ m' = Some (ul_parse (e_lib E) t)
  | Std KId_ | Std KIdNext => exists t, v = JStr t /\ u' = id_uri st u t /\ u' <> None /\ m' = m
  | _ => u' = u /\ m' = m
  end.

Lemma make_keyword_ok key c x st o k st' : nth_error (c_objs st) s = Some o ->
  (forall j st1, keyword_json s key c x st = (Ok j, st1) -> same_old st st1 /\ upward (c_objs st1)) ->
  upward (c_objs st) ->
  make_keyword E s key c x st = (Ok k, st') ->
  exists j st1 u m, keyword_json s key c x st = (Ok j, st1) /\ heads st1 st' o u m /\ kw_class k = c /\ kw_json k = j /\
    keeps E c (mb_value x) (kw_fragment k) (kw_format k) /\ moves c (mb_value x) st1 (so_uri o) (so_meta o) u m.
Proof.
  intros N O U H. unfold make_keyword in H. apply bind_ok in H. destruct H as (j & st1 & H1 & H). destruct (O _ _ H1) as [O1 U1].
  assert (N1 : nth_error (c_objs st1) s = Some o) by (destruct O1 as [_ O1]; rewrite O1; [exact N|apply nth_error_Some; congruence]).
  exists j, st1.
  assert (Plain : forall kx, ret kx st1 = (Ok k, st') -> kx = mkKw c j None false [] None ->
    (match c with Std (KSchema_ | KId_ | KIdNext | KDynamicRef | KFormat) => False | _ => True end) ->
    exists u m, keyword_json s key c x st = (Ok j, st1) /\ heads st1 st' o u m /\ kw_class k = c /\ kw_json k = j /\
      keeps E c (mb_value x) (kw_fragment k) (kw_format k) /\ moves c (mb_value x) st1 (so_uri o) (so_meta o) u m).
  { intros kx R -> Hc. apply ret_ok in R. destruct R as [<- <-]. exists (so_uri o), (so_meta o). split; [exact H1|]. split; [now apply heads_refl|]. split; [reflexivity|]. split; [reflexivity|].
    cbn. unfold keeps. destruct c as [c|c]; [|cbn; auto]. destruct c; try destruct Hc; cbn; auto. }
  assert (Anchor : forall r st2, init_anchor E s (mb_value x) st1 = (Ok r, st2) -> ret (mkKw c j None false [] None) st2 = (Ok k, st') ->
    (match c with Std (KAnchor | KDynamicAnchor) => True | _ => False end) ->
    exists u m, keyword_json s key c x st = (Ok j, st1) /\ heads st1 st' o u m /\ kw_class k = c /\ kw_json k = j /\
      keeps E c (mb_value x) (kw_fragment k) (kw_format k) /\ moves c (mb_value x) st1 (so_uri o) (so_meta o) u m).
  { intros r st2 I R Hc. apply ret_ok in R. destruct R as [<- <-]. exists (so_uri o), (so_meta o). split; [exact H1|]. split; [exact (init_anchor_ok _ _ _ _ _ N1 I)|]. split; [reflexivity|]. split; [reflexivity|].
    unfold keeps. cbn. destruct c as [c|c]; [|destruct Hc]. destruct c; try destruct Hc; cbn; auto. }
  assert (Id : forall next r st2, init_id E next s (mb_value x) st1 = (Ok r, st2) -> ret (mkKw c j None false [] None) st2 = (Ok k, st') ->
    (match c with Std (KId_ | KIdNext) => True | _ => False end) ->
    exists u m, keyword_json s key c x st = (Ok j, st1) /\ heads st1 st' o u m /\ kw_class k = c /\ kw_json k = j /\
      keeps E c (mb_value x) (kw_fragment k) (kw_format k) /\ moves c (mb_value x) st1 (so_uri o) (so_meta o) u m).
  { intros next r st2 I R Hc. apply ret_ok in R. destruct R as [<- <-]. destruct (init_id_ok _ _ _ _ _ _ N1 I) as (t & Ev & Hh & Nn). exists (id_uri st1 (so_uri o) t), (so_meta o).
    split; [exact H1|]. split; [exact Hh|]. split; [reflexivity|]. split; [reflexivity|].
    unfold keeps. cbn. destruct c as [c|c]; [|destruct Hc]. destruct c; try destruct Hc; cbn; (split; [auto|exists t; auto]). }
  destruct c as [c|ku]; [|exact (Plain _ H eq_refl I)].
  destruct c; try exact (Plain _ H eq_refl I);
    try (apply bind_ok in H; destruct H as (r & st2 & H2 & H); first [exact (Anchor _ _ H2 H I)|exact (Id _ _ _ H2 H I)]).
  - apply bind_ok in H. destruct H as (r & st2 & H2 & H). apply ret_ok in H. destruct H as [<- <-]. destruct (init_schema_ok _ _ _ _ _ N1 H2) as (t & Ev & Hh).
    exists (so_uri o), (Some (ul_parse (e_lib E) t)). split; [exact H1|]. split; [exact Hh|]. split; [reflexivity|]. split; [reflexivity|]. split; [unfold keeps; cbn; auto|exists t; auto].
  - apply bind_ok in H. destruct H as (u & st2 & H2 & H). apply lift_ok in H2. destruct H2 as [P <-]. apply ret_ok in H. destruct H as [<- <-].
    exists (so_uri o), (so_meta o). split; [exact H1|]. split; [now apply heads_refl|]. split; [reflexivity|]. split; [reflexivity|]. split; [|cbn; auto].
    unfold parse_uri in P. destruct (mb_value x) as [| | |t| |] eqn:V; try discriminate P. injection P as <-. unfold keeps; cbn. split; [exists t; auto|reflexivity].
  - destruct (mb_value x) as [| | |t| |] eqn:V; try discriminate H. destruct (str_eqb t (lit "#")); [|discriminate H]. rewrite <- V in *. exact (Plain _ H eq_refl I).
  - destruct (mb_value x) as [| | |t| |] eqn:V; try discriminate H. destruct (e_regex E t); [|discriminate H]. rewrite <- V in *. exact (Plain _ H eq_refl I).
  - apply bind_ok in H. destruct H as (f & st2 & H2 & H). apply lift_ok in H2. destruct H2 as [P <-]. apply ret_ok in H. destruct H as [<- <-].
    exists (so_uri o), (so_meta o). split; [exact H1|]. split; [now apply heads_refl|]. split; [reflexivity|]. split; [reflexivity|]. split; [|cbn; auto].
    unfold keeps; cbn. split; [exact I|]. unfold init_format in P. destruct (mb_value x) as [|b|n|a|l|ms]; cbn; try discriminate P; try (now injection P as <-).
    unfold is_format_enabled in P. destruct (mem_str a (e_formats E)) eqn:Me.
    + destruct (e_validators E a) as [l|] eqn:Va; [|discriminate P]. injection P as <-. split; [eauto|]. intro Nf. apply mem_str_In in Me. contradiction.
    + injection P as <-. split; [|reflexivity]. intro Hf. apply mem_str_In in Hf. congruence.
Qed.

Lemma dset_new {A} key (k : A) kws : ~ In key (keys kws) -> dset key k kws = kws ++ [(key, k)].
Proof.
  induction kws as [|[key' k'] kws IH]; intro H; [reflexivity|]. cbn in *. destruct (str_eqb_spec key key') as [->|]; [exfalso; apply H; now left|]. f_equal. apply IH. tauto.
Qed.

Lemma add_keyword_ok key c v st kws u m r st' : stage st kws u m -> dget key doc = Some v -> ready v -> ~ In key (keys kws) ->
  (mixins c = [] \/ (metaschema_uri (c_objs st) s = Mu /\ base_uri (c_objs st) s = Bu)) ->
  add_keyword E s (map (fun kv => (fst kv, member_of E id (snd kv))) doc) key c st = (Ok r, st') ->
  exists k u' m', stage st' (kws ++ [(key, k)]) u' m' /\ kw_class k = c /\ moves c v st u m u' m'.
Proof.
  intros S D R Nk Hc H. pose proof S as (O & U & N & Nd & Ks & Cov). unfold add_keyword in H. rewrite (dget_mapped (member_of E id)), D in H.
  apply bind_ok in H. destruct H as (k & st2 & H2 & H).
  assert (Hs : s < length (c_objs st)) by (apply nth_error_Some; congruence).
  destruct (make_keyword_ok _ _ _ _ _ _ _ N (fun j st1 X => let Y := keyword_json_ok s key c v st j st1 R U Hs X in conj (proj1 (proj2 Y)) (proj1 Y)) U H2)
    as (j & st1 & u' & m' & J & Hh & Kc & Kj & Kp & Mv).
  destruct (keyword_json_ok s key c v st j st1 R U Hs J) as (U1 & O1 & Ho & Cov1). cbn [mb_value member_of so_uri so_meta] in *.
  unfold keep_keyword, update, modify in H. injection H as _ <-. unfold heads in Hh. cbn [so_up so_cache so_data] in Hh.
  assert (Hs1 : s < length (c_objs st1)) by (destruct O1; lia).
  assert (N1 : nth_error (c_objs st1) s = Some (mkObj u m up id (SObj kws))) by (destruct O1 as [_ O1]; now rewrite O1).
  assert (N2 : nth_error (c_objs st2) s = Some (mkObj u' m' up id (SObj kws))) by (rewrite Hh; now apply nth_set_nth_same).
  rewrite N2. unfold with_data. cbn [so_uri so_meta so_up so_cache so_data]. rewrite (dset_new _ _ _ Nk). unfold put_obj. rewrite Hh, set_nth_twice.
  set (o3 := mkObj u' m' up id (SObj (kws ++ [(key, k)]))). set (st3 := mkCat _ _).
  assert (L3 : length (c_objs st3) = length (c_objs st1)) by apply length_set_nth.
  assert (N3 : nth_error (c_objs st3) s = Some o3) by now apply nth_set_nth_same.
  assert (B3 : same_but s st1 st3). { split; [now rewrite L3|]. intros i _ Ni. apply nth_set_nth_other. congruence. }
  assert (U3 : upward (c_objs st3)).
  { intros i o p ks Hi Hu. destruct (Nat.eq_dec i s) as [->|Ni].
    - rewrite N3 in Hi. injection Hi as <-. exact (Up0 _ _ Hu).
    - apply (U1 i o p ks); [|exact Hu]. destruct B3 as [_ B3]. rewrite <- B3; [exact Hi| |exact Ni]. rewrite <- L3. apply nth_error_Some. congruence. }
  assert (More : more (c_objs st1) (c_objs st3)).
  { intros i kws' (o & Hi & Hd). destruct (Nat.eq_dec i s) as [->|Ni].
    - rewrite N1 in Hi. injection Hi as <-. cbn in Hd. injection Hd as <-. exists (kws ++ [(key, k)]). split; [now exists o3|].
      intros key' k' Hk. exists k'. split; [apply in_app_iff; now left|reflexivity].
    - exists kws'. split; [|eauto]. exists o. split; [|exact Hd]. destruct B3 as [_ B3]. rewrite B3; [exact Hi| |exact Ni]. apply nth_error_Some. congruence. }
  exists k, u', m'. split; [|split; [exact Kc|]].
  - split; [|split; [exact U3|split; [exact N3|split; [|split]]]].
    + destruct O as [La Oa], O1 as [Lb Ob], B3 as [Lc Bc]. split; [lia|]. intros i Hi. rewrite Bc, Ob, Oa; [reflexivity| | | |]; fold s in Hi; lia.
    + unfold keys. rewrite map_app. apply NoDup_app_single; [exact Nd|exact Nk].
    + intros key' k' Hk. apply in_app_iff in Hk. destruct Hk as [Hk|[Hk|[]]].
      * destruct (Ks _ _ Hk) as (v' & D' & Kp' & Ho'). exists v'. split; [exact D'|]. split; [exact Kp'|].
        apply (holds_agree E (c_objs st1)); [exact U1| |now apply but_agrees]. apply (holds_agree E (c_objs st)); [exact U|exact Ho'|now apply old_agrees].
      * injection Hk as <- <-. exists v. split; [exact D|]. rewrite Kc, Kj. split; [exact Kp|]. apply (holds_agree E (c_objs st1)); [exact U1| |now apply but_agrees].
        destruct Hc as [Hc|[Hm Hb]]; [|rewrite <- Hm, <- Hb; exact Ho]. unfold keyword_json in J. rewrite Hc in J. apply ret_ok in J. destruct J as [<- _]. apply mixins_none in Hc. cbn [mb_value]. apply holds_plain; tauto.
    + intros i Hi. rewrite L3 in Hi. destruct (Nat.lt_ge_cases i (length (c_objs st))) as [X|X].
      * destruct (Cov i) as (key' & k' & t & Hk & St & Wt); [lia|]. exists key', k', t. split; [apply in_app_iff; now left|]. split; [exact St|].
        apply (within_more (c_objs st1)); [exact More|]. apply (within_more (c_objs st)); [now apply old_more|exact Wt].
      * destruct (Cov1 i) as (t & St & Wt); [lia|]. exists key, k, t. split; [apply in_app_iff; right; now left|]. rewrite Kj. split; [exact St|]. now apply (within_more (c_objs st1)).
  - unfold moves in *. destruct c as [c|]; [|exact Mv].
    assert (Eu : forall w t, id_uri st1 w t = id_uri st w t). { intros w t. unfold id_uri. now rewrite (old_base st st1 s O1 U Hs). }
    destruct c; try exact Mv; destruct Mv as (t & Ev & E1 & E2); exists t; split; auto; rewrite Eu in E1; auto.
Qed.

Notation members := (map (fun kv => (fst kv, member_of E id (snd kv))) doc).

(** A keyword made if the document has it. *)
Lemma step_ok key c st kws u m r st' : stage st kws u m -> (forall v, dget key doc = Some v -> ready v) -> ~ In key (keys kws) -> mixins c = [] ->
  add_keyword E s members key c st = (Ok r, st') ->
  (dget key doc = None /\ stage st' kws u m /\ st' = st) \/
  (exists v k u' m', dget key doc = Some v /\ stage st' (kws ++ [(key, k)]) u' m' /\ kw_class k = c /\ moves c v st u m u' m').
Proof.
  intros S R N Mx H. destruct (dget key doc) as [v|] eqn:D.
  - right. destruct (add_keyword_ok key c v st kws u m r st' S D (R v eq_refl) N (or_introl Mx) H) as (k & u' & m' & X). exists v, k, u', m'. split; [reflexivity|exact X].
  - left. unfold add_keyword in H. rewrite (dget_mapped (member_of E id)), D in H. apply ret_ok in H. destruct H as [_ <-]. auto.
Qed.

(** Classes that leave the URIs alone. *)
Definition settled (c : kwclass) : Prop := match c with Std (KSchema_ | KId_ | KIdNext) => False | _ => True end.
Definition sorts (kws : list (pystr * keyword)) : list (pystr * kwclass) := map (fun kk => (fst kk, kw_class (snd kk))) kws.
Lemma sorts_app a b : sorts (a ++ b) = sorts a ++ sorts b. Proof. apply map_app. Qed.
Lemma sorts_keys a : keys (sorts a) = keys a. Proof. unfold keys, sorts. rewrite map_map. reflexivity. Qed.

Lemma rest_ok order : forall st kws u m r st',
  stage st kws u m -> outer_meta c0 m up = Mu -> base_of u (outer_base c0 up) = Bu ->
  NoDup (map key_of order) -> (forall c, In c order -> settled c /\ ~ In (key_of c) (keys kws) /\ exists v, dget (key_of c) doc = Some v /\ ready v) ->
  each_ (fun c => add_keyword E s members (key_of c) c) order st = (Ok r, st') ->
  exists kws', stage st' kws' u m /\ sorts kws' = sorts kws ++ map (fun c => (key_of c, c)) order.
Proof.
  induction order as [|c order IH]; intros st kws u m r st' S HM HB N Ho H.
  - apply ret_ok in H. destruct H as [_ <-]. exists kws. split; [exact S|]. now rewrite app_nil_r.
  - cbn [each_] in H. apply bind_ok in H. destruct H as (x & st1 & H1 & H). destruct (Ho c (or_introl eq_refl)) as (Sc & Nk & v & D & R).
    destruct (add_keyword_ok (key_of c) c v st kws u m x st1 S D R Nk) as (k & u' & m' & S1 & Kc & Mv); [|exact H1|].
    { right. split; [rewrite <- HM; exact (stage_meta _ _ _ _ S)|rewrite <- HB; exact (stage_base _ _ _ _ S)]. }
    assert (Q : u' = u /\ m' = m). { unfold moves, settled in *. destruct c as [c|]; [|exact Mv]. destruct c; try exact Mv; destruct Sc. }
    destruct Q as [-> ->]. cbn [map] in N. inversion N as [|y l N1 N2]; subst y l.
    destruct (IH st1 (kws ++ [(key_of c, k)]) u m r st' S1 HM HB N2) as (kws' & S' & So); [|exact H|].
    + intros c' Hc'. destruct (Ho c' (or_intror Hc')) as (Sc' & Nk' & V'). split; [exact Sc'|]. split; [|exact V']. unfold keys. rewrite map_app, in_app_iff. cbn.
      intros [X|[X|[]]]; [exact (Nk' X)|]. apply N1. rewrite X. now apply in_map.
    + exists kws'. split; [exact S'|]. rewrite So, sorts_app, <- app_assoc. cbn. now rewrite Kc.
Qed.

Lemma metaschema_ok st d st' : metaschema E s st = (Ok d, st') -> st' = st /\ exists u, metaschema_uri (c_objs st) s = Some u /\ e_dialect E u = Some d.
Proof.
  intro H. unfold metaschema in H. apply bind_ok in H. destruct H as (objs & c1 & H1 & H). apply read_ok in H1. destruct H1 as [-> <-].
  destruct (metaschema_uri (c_objs st) s) as [u|]; [|discriminate H]. destruct (e_dialect E u) as [d'|] eqn:D; [|discriminate H]. apply ret_ok in H. destruct H as [<- <-]. eauto.
Qed.
Lemma classes_ok ks : forall st cs st', classes E s ks st = (Ok cs, st') -> st' = st /\ keys cs = ks /\
  forall key c, In (key, c) cs -> exists u d, metaschema_uri (c_objs st) s = Some u /\ e_dialect E u = Some d /\ get_kwclass d key = Ok c.
Proof.
  induction ks as [|key ks IH]; intros st cs st' H; cbn [classes mapM] in H.
  - apply ret_ok in H. destruct H as [<- <-]. split; [reflexivity|]. split; [reflexivity|intros ? ? []].
  - apply bind_ok in H. destruct H as (x & c1 & H1 & H). apply bind_ok in H1. destruct H1 as (d & c2 & H1 & H2). apply metaschema_ok in H1. destruct H1 as [-> (u & Hu & Hd)].
    apply bind_ok in H2. destruct H2 as (c & c3 & H2 & H3). apply lift_ok in H2. destruct H2 as [G <-]. apply ret_ok in H3. destruct H3 as [<- <-].
    apply bind_ok in H. destruct H as (ys & c4 & H4 & H). apply ret_ok in H. destruct H as [<- <-]. destruct (IH _ _ _ H4) as (-> & K & C).
    split; [reflexivity|]. split; [unfold keys in *; cbn; now rewrite K|]. intros key' c' [[= <- <-]|X]; eauto.
Qed.
Lemma name_class_ok key c : name_class key = Ok c -> c = Unknown key.
Proof. unfold name_class. destruct key as [|x key]; [discriminate|]. destruct (existsb surrogate _); [discriminate|]. destruct (existsb _ _); [discriminate|]. now intros [= <-]. Qed.
Lemma class_of_get d key c u : e_dialect E u = Some d -> get_kwclass d key = Ok c -> mem_str key bootstrapped = false ->
  class_for E (Some u) key = Some c /\ key_of c = key /\ settled c.
Proof.
  intros D G B.
  assert (Nb : forall k, In k bootstrapped -> str_eqb key k = false).
  { intros k Hk. destruct (str_eqb key k) eqn:Q; [|reflexivity]. apply str_eqb_eq in Q. subst k. apply mem_str_In in Hk. congruence. }
  unfold class_for, get_kwclass in *. rewrite (Nb (lit "$schema")), (Nb (lit "$vocabulary")), D, (Nb (lit "$id")) by (cbn; tauto). clear Nb. destruct (find_class d key) as [x|] eqn:F.
  - injection G as <-. pose proof (find_class_key _ _ _ F) as K. split; [reflexivity|]. split; [exact K|]. cbn. destruct x; try exact I; rewrite <- K in B; discriminate B.
  - apply name_class_ok in G. subst c. repeat split.
Qed.
End Stage.

(** *** Whole objects. *)
Lemma dget_keys {A} key (m : list (pystr * A)) v : dget key m = Some v -> In key (keys m).
Proof. intro H. apply dget_In in H. apply (in_map fst) in H. exact H. Qed.
Lemma keys_dget {A} key (m : list (pystr * A)) : In key (keys m) -> exists v, dget key m = Some v.
Proof. intro H. destruct (dget key m) as [v|] eqn:D; [eauto|]. apply dget_None in D. contradiction. Qed.

Section Whole.
Variables (c0 : cat) (up : option (sid * list pystr)) (doc : list (pystr * json)) (u m : option uri).
Let s : sid := length (c_objs c0).
Hypothesis U0 : upward (c_objs c0).
Hypothesis Up0 : forall p ks, up = Some (p, ks) -> p < s.
Hypothesis Nd : NoDup (keys doc).
Hypothesis Rd : forall key v, dget key doc = Some v -> ready v.
Let gu := given_uri c0 u up (JObj doc).
Let Mu := applies E (outer_meta c0 m up) doc.
Let Bu := base_of (own_uri E gu (outer_base c0 up) doc) (outer_base c0 up).
Notation members := (map (fun kv => (fst kv, member_of E id (snd kv))) doc).
Notation stg := (stage c0 up doc Mu Bu).

Lemma dmem_mem k (d : list (pystr * json)) : dmem k d = mem_str k (keys d).
Proof.
  destruct (dmem k d) eqn:Q; symmetry.
  - now apply mem_str_In, dmem_In.
  - apply dmem_false in Q. destruct (mem_str k (keys d)) eqn:X; [|reflexivity]. apply mem_str_In in X. contradiction.
Qed.
Lemma written k v : dget k doc = Some v -> mem_str k (keys doc) = true.
Proof. intro D. rewrite <- dmem_mem. unfold dmem. now rewrite D. Qed.
Lemma unwritten k : dget k doc = None -> mem_str k (keys doc) = false.
Proof. intro D. rewrite <- dmem_mem. unfold dmem. now rewrite D. Qed.
(** After _bootstrap. *)
Lemma bootstrap_ok st r st' : stg st [] gu m -> bootstrap E s members st = (Ok r, st') ->
  exists kws u' m', stg st' kws u' m' /\ u' = own_uri E gu (outer_base c0 up) doc /\ (outer_meta c0 m' up = Mu /\ (m' = None -> m = None)) /\
    (forall key, In key (keys kws) <-> In key bootstrapped /\ In key (keys doc)) /\
    (forall key c, In (key, c) (sorts kws) -> class_for E Mu key = Some c /\ key_of c = key) /\
    keys kws = filter (fun key => mem_str key (keys doc)) bootstrapped.
Proof.
  intros S0 H. unfold bootstrap in H. apply bind_ok in H. destruct H as (x1 & st1 & H1 & H). apply bind_ok in H. destruct H as (x2 & st2 & H2 & H).
  assert (A : exists kws m', stg st1 kws gu m' /\ (outer_meta c0 m' up = Mu /\ (m' = None -> m = None)) /\
     (forall key, In key (keys kws) <-> key = lit "$schema" /\ In key (keys doc)) /\
     (forall key c, In (key, c) (sorts kws) -> class_for E Mu key = Some c /\ key_of c = key) /\
     keys kws = if mem_str (lit "$schema") (keys doc) then [lit "$schema"] else []).
  { destruct (step_ok c0 up doc Mu Bu Up0 _ (Std KSchema_) _ _ _ _ _ _ S0 (Rd (lit "$schema")) (fun F => F) eq_refl H1) as [(D & S1 & _)|(v & k & u' & m' & D & S1 & Kc & Mv)].
    - exists [], m. split; [exact S1|]. split; [split; [unfold Mu, applies; now rewrite D|auto]|]. split; [|split; [intros ? ? []|rewrite (unwritten _ D); reflexivity]].
      intro key. split; [intros []|]. intros [-> X]. apply dget_None in D. contradiction.
    - cbn in Mv. destruct Mv as (t & -> & -> & ->). exists [(lit "$schema", k)], (Some (ul_parse (e_lib E) t)). split; [exact S1|].
      split; [split; [unfold Mu, applies; now rewrite D|discriminate]|]. split; [|split; [|rewrite (written _ _ D); reflexivity]].
      + intro key. cbn [keys map fst In]. split; [intros [<-|[]]|intros [-> _]; now left]. split; [reflexivity|exact (dget_keys _ _ _ D)].
      + intros key c [X|[]]. cbn [fst snd] in X. rewrite Kc in X. apply pair_equal_spec in X. destruct X as [<- <-]. split; reflexivity. }
  destruct A as (kws1 & m1 & S1 & [HM Hn] & K1 & C1 & W1). clear H1.
  assert (A : exists kws, stg st2 kws gu m1 /\
     (forall key, In key (keys kws) <-> (key = lit "$schema" \/ key = lit "$vocabulary") /\ In key (keys doc)) /\
     (forall key c, In (key, c) (sorts kws) -> class_for E Mu key = Some c /\ key_of c = key) /\
     keys kws = keys kws1 ++ if mem_str (lit "$vocabulary") (keys doc) then [lit "$vocabulary"] else []).
  { assert (Nk : ~ In (lit "$vocabulary") (keys kws1)) by (intro X; apply K1 in X; destruct X as [X _]; discriminate X).
    destruct (step_ok c0 up doc Mu Bu Up0 _ (Std KVocabulary_) _ _ _ _ _ _ S1 (Rd (lit "$vocabulary")) Nk eq_refl H2) as [(D & S2 & _)|(v & k & u' & m' & D & S2 & Kc & Mv)].
    - exists kws1. split; [exact S2|]. split; [|split; [exact C1|rewrite (unwritten _ D); now rewrite app_nil_r]]. intro key. rewrite K1. split; [tauto|]. intros [[->| ->] X]; [tauto|]. apply dget_None in D. contradiction.
    - cbn in Mv. destruct Mv as [-> ->]. eexists. split; [exact S2|]. split; [|split; [|rewrite (written _ _ D); unfold keys; now rewrite map_app]].
      + intro key. unfold keys at 1. rewrite map_app, in_app_iff. fold (keys kws1). rewrite K1. cbn [map fst In]. pose proof (dget_keys _ _ _ D) as X.
        split; [intros [Y|[<-|[]]]; tauto|]. intros [[->| ->] Y]; [tauto|]. right. now left.
      + intros key c. rewrite sorts_app, in_app_iff. intros [X|[X|[]]]; [now apply C1|]. cbn [fst snd] in X. rewrite Kc in X. apply pair_equal_spec in X. destruct X as [<- <-]. split; reflexivity. }
  destruct A as (kws2 & S2 & K2 & C2 & W2). clear H2 S1 K1 C1.
  assert (Dm : dmem (lit "$id") members = dmem (lit "$id") doc) by (unfold dmem; rewrite (dget_mapped (member_of E id)); now destruct (dget (lit "$id") doc)).
  rewrite Dm in H. destruct (dmem (lit "$id") doc) eqn:Hid.
  - apply bind_ok in H. destruct H as (d & st3 & H3 & H). apply metaschema_ok in H3. destruct H3 as [-> (mu & Hmu & Hd)].
    assert (Em : Mu = Some mu). { rewrite <- HM, <- Hmu. symmetry. exact (stage_meta c0 up doc Mu Bu U0 Up0 _ _ _ _ S2). }
    set (c := match find_class d (lit "$id") with Some KId_ => Std KId_ | _ => Std KIdNext end) in *.
    assert (Cc : c = Std KId_ \/ c = Std KIdNext) by (unfold c; destruct (find_class d (lit "$id")) as [[]|]; auto).
    assert (Cf : class_for E Mu (lit "$id") = Some c).
    { unfold class_for. rewrite Em, Hd. change (str_eqb (lit "$id") (lit "$schema")) with false. change (str_eqb (lit "$id") (lit "$vocabulary")) with false.
      change (str_eqb (lit "$id") (lit "$id")) with true. cbv iota. unfold c. now destruct (find_class d (lit "$id")) as [[]|]. }
    assert (Mx : mixins c = []) by (destruct Cc as [-> | ->]; reflexivity).
    assert (Nk : ~ In (lit "$id") (keys kws2)) by (intro X; apply K2 in X; destruct X as [[X|X] _]; discriminate X).
    destruct (step_ok c0 up doc Mu Bu Up0 _ c _ _ _ _ _ _ S2 (Rd (lit "$id")) Nk Mx H) as [(D & _ & _)|(v & k & u' & m' & D & S3 & Kc & Mv)].
    { apply dget_None in D. apply dmem_In in Hid. contradiction. }
    assert (Q : u' = own_uri E gu (outer_base c0 up) doc /\ m' = m1).
    { assert (X : exists t, v = JStr t /\ u' = id_uri c0 st2 gu t /\ u' <> None /\ m' = m1) by (destruct Cc as [-> | ->]; exact Mv).
      destruct X as (t & -> & -> & _ & ->). split; [|reflexivity]. unfold own_uri, id_uri. rewrite D. cbv zeta.
      rewrite (stage_base c0 up doc Mu Bu U0 Up0 _ _ _ _ S2). reflexivity. }
    destruct Q as [-> ->]. eexists. exists (own_uri E gu (outer_base c0 up) doc), m1. split; [exact S3|]. split; [reflexivity|]. split; [exact (conj HM Hn)|]. split; [|split].
    + intro key. unfold keys at 1. rewrite map_app, in_app_iff. fold (keys kws2). rewrite K2. cbn [map fst In bootstrapped]. pose proof (dget_keys _ _ _ D) as X.
      split; [intros [[[->| ->] Y]|[<-|[]]]; tauto|]. intros [[<-|[<-|[<-|[]]]] Y]; tauto.
    + intros key c'. rewrite sorts_app, in_app_iff. intros [X|[X|[]]]; [now apply C2|]. cbn [fst snd] in X. rewrite Kc in X. apply pair_equal_spec in X. destruct X as [<- <-].
      split; [exact Cf|]. destruct Cc as [-> | ->]; reflexivity.
    + unfold keys at 1. rewrite map_app. fold (keys kws2). rewrite W2, W1. cbn [bootstrapped filter map fst]. rewrite (written _ _ D).
      destruct (mem_str (lit "$schema") (keys doc)), (mem_str (lit "$vocabulary") (keys doc)); reflexivity.
  - apply ret_ok in H. destruct H as [_ <-]. exists kws2, gu, m1. split; [exact S2|]. split; [|split; [exact (conj HM Hn)|split; [|split; [exact C2|]]]].
    + unfold own_uri. unfold dmem in Hid. now destruct (dget (lit "$id") doc).
    + intro key. rewrite K2. cbn [bootstrapped In]. split; [intros [[->| ->] Y]; tauto|]. intros [[<-|[<-|[<-|[]]]] Y]; try tauto. apply dmem_false in Hid. contradiction.
    + rewrite W2, W1. cbn [bootstrapped filter]. rewrite <- (dmem_mem (lit "$id") doc), Hid.
      destruct (mem_str (lit "$schema") (keys doc)), (mem_str (lit "$vocabulary") (keys doc)); reflexivity.
Qed.

Lemma build_object_ok st r st' : stg st [] u m -> build_object E s members st = (Ok r, st') ->
  exists kws u' m', stg st' kws u' m' /\ u' = own_uri E gu (outer_base c0 up) doc /\
    (forall key, In key (keys kws) <-> In key (keys doc)) /\
    (forall key k, In (key, k) kws -> class_for E Mu key = Some (kw_class k)) /\
    (forall key k n, In (key, k) kws -> In n (depends_on (kw_class k)) -> In n (keys kws) -> earlier n key (keys kws)) /\
    creation_order E Mu doc (keys kws) /\ outer_meta c0 m' up = Mu /\ (m' = None -> m = None).
Proof.
  intros S0 H. unfold build_object in H. apply bind_ok in H. destruct H as (o & c1 & H1 & H). apply read_ok in H1. destruct H1 as [-> <-].
  pose proof S0 as (O0 & U1 & N & _). unfold s in H. rewrite N in H. fold s in H, N.
  apply bind_ok in H. destruct H as (x1 & st1 & H1 & H).
  assert (S1 : stg st1 [] gu m).
  { unfold gu, given_uri. destruct u as [u0|]; [apply ret_ok in H1; destruct H1 as [_ <-]; exact S0|].
    destruct up as [up0|] eqn:Eup; [apply ret_ok in H1; destruct H1 as [_ <-]; exact S0|].
    pose proof (set_uri_ok c0 (e_lib E) st _ _ _ _ N H1) as Hh. unfold heads in Hh. cbn [so_up so_cache so_data so_meta] in Hh. fold s in Hh.
    assert (L : length (c_objs st1) = length (c_objs st)) by (rewrite Hh; apply length_set_nth).
    assert (Hs : s < length (c_objs st)) by (apply nth_error_Some; congruence).
    destruct O0 as [L0 O0]. destruct S0 as (_ & _ & _ & _ & _ & Cov). split; [|split; [|split; [|split; [constructor|split; [intros ? ? []|]]]]].
    - split; [lia|]. intros i Hi. rewrite Hh, nth_set_nth_other by (fold s in Hi; lia). now apply O0.
    - intros i o p ks Hi Hu. destruct (Nat.eq_dec i s) as [->|Ni].
      + rewrite Hh, nth_set_nth_same in Hi by exact Hs. injection Hi as <-. discriminate Hu.
      + rewrite Hh, nth_set_nth_other in Hi by congruence. exact (U1 _ _ _ _ Hi Hu).
    - fold s. rewrite Hh. now apply nth_set_nth_same.
    - intros i Hi. rewrite L in Hi. destruct (Cov i Hi) as (? & ? & ? & [] & _). }
  clear S0 O0 U1 N H1. apply bind_ok in H. destruct H as (x2 & st2 & H2 & H).
  destruct (bootstrap_ok _ _ _ S1 H2) as (kb & u' & m' & S2 & Eu & [HM Hmn] & Kb & Cb & Wb). clear S1 H2.
  apply bind_ok in H. destruct H as (cs & st3 & H3 & H). apply (classes_ok c0) in H3. destruct H3 as (-> & Kc & Cc). fold s in Cc.
  apply bind_ok in H. destruct H as (order & st4 & H4 & H). apply lift_ok in H4. destruct H4 as [R <-].
  assert (Km : keys members = keys doc) by (unfold keys; rewrite map_map; reflexivity). rewrite Km in Kc.
  assert (In_cs : forall key, In key (keys cs) <-> In key (keys doc) /\ mem_str key bootstrapped = false) by (intro key; rewrite Kc, filter_In, negb_true_iff; reflexivity).
  assert (Cl : forall key c, In (key, c) cs -> class_for E Mu key = Some c /\ key_of c = key /\ settled c).
  { intros key c X. destruct (Cc _ _ X) as (mu & d & A1 & A2 & A3).
    assert (Em : Mu = Some mu) by (rewrite <- HM, <- A1; symmetry; exact (stage_meta c0 up doc Mu Bu U0 Up0 _ _ _ _ S2)). rewrite Em.
    apply (class_of_get d); auto. apply (in_map fst) in X. now apply In_cs in X. }
  assert (Nc : NoDup (keys cs)) by (rewrite Kc; now apply NoDup_filter).
  assert (Ks : map key_of (map snd cs) = keys cs).
  { unfold keys. clear -Cl. induction cs as [|[key c] cs IH]; [reflexivity|]. cbn [map fst snd]. rewrite (proj1 (proj2 (Cl key c (or_introl eq_refl)))). f_equal. apply IH. intros; apply Cl; now right. }
  assert (Ns : NoDup (map snd cs)) by (apply (NoDup_mapped key_of); now rewrite Ks).
  destruct (resolve_sound kwclass_eqb depends_on kwclass_eqb_spec _ cs order Nc Ns R) as [[P B] _].
  assert (Po : Permutation (map key_of order) (keys cs)) by (rewrite <- Ks; now apply Permutation_map).
  assert (No : NoDup (map key_of order)) by (apply (Permutation_NoDup (Permutation_sym Po)), Nc).
  assert (Oin : forall c, In c order -> In (key_of c, c) cs).
  { intros c X. apply (Permutation_in _ P) in X. apply in_map_iff in X. destruct X as ([key c'] & <- & X). cbn [snd]. pose proof (Cl _ _ X) as (_ & K & _). now rewrite K. }
  destruct (rest_ok c0 up doc Mu Bu U0 Up0 order st2 kb u' m' r st' S2 HM) as (kws & S & So); [unfold Bu; now rewrite Eu|exact No| |exact H|].
  { intros c X. apply Oin in X. destruct (Cl _ _ X) as (_ & _ & Sc). split; [exact Sc|]. apply (in_map fst) in X. cbn [fst] in X. apply In_cs in X. destruct X as [X1 X2].
    split; [intro Y; apply Kb in Y; destruct Y as [Y _]; apply mem_str_In in Y; congruence|]. destruct (keys_dget _ _ X1) as [v D]. exists v. split; [exact D|exact (Rd _ _ D)]. }
  assert (Kk : keys kws = keys kb ++ map key_of order).
  { rewrite <- sorts_keys, So. unfold keys at 1. rewrite map_app, map_map. cbn [fst]. f_equal. apply sorts_keys. }
  assert (Ord : forall n, In n (map key_of order) <-> In n (keys doc) /\ mem_str n bootstrapped = false).
  { intro n. rewrite <- In_cs. split; apply Permutation_in; [exact Po|exact (Permutation_sym Po)]. }
  exists kws, u', m'. split; [exact S|]. split; [exact Eu|]. split; [|split; [|split; [|split; [|exact (conj HM Hmn)]]]].
  - intro key. rewrite Kk, in_app_iff, Kb, Ord. split; [tauto|]. intro X. destruct (mem_str key bootstrapped) eqn:Bk; [|tauto]. left. split; [now apply mem_str_In|exact X].
  - intros key k X. assert (Y : In (key, kw_class k) (sorts kws)) by (unfold sorts; apply in_map_iff; now exists (key, k)).
    rewrite So, in_app_iff in Y. destruct Y as [Y|Y]; [exact (proj1 (Cb _ _ Y))|]. apply in_map_iff in Y. destruct Y as (c & Q & Y). apply pair_equal_spec in Q. destruct Q as [<- <-].
    exact (proj1 (Cl _ _ (Oin _ Y))).
  - intros key k n X Dn Hn. assert (Y : In (key, kw_class k) (sorts kws)) by (unfold sorts; apply in_map_iff; now exists (key, k)).
    rewrite So, in_app_iff in Y. rewrite Kk in *. destruct Y as [Y|Y].
    + destruct (Cb _ _ Y) as [_ K]. apply (in_map fst) in Y. cbn [fst] in Y. change (map fst (sorts kb)) with (keys (sorts kb)) in Y. rewrite sorts_keys in Y. apply Kb in Y. destruct Y as [Y _].
      apply mem_str_In in Y. rewrite (no_boot_self key _ Y K) in Dn. destruct Dn.
    + apply in_map_iff in Y. destruct Y as (c & Q & Y). apply pair_equal_spec in Q. destruct Q as [<- Ec]. rewrite <- Ec in Dn.
      assert (Bn := no_boot_depends _ _ Dn). apply in_app_iff in Hn. destruct Hn as [Hn|Hn]; [apply Kb in Hn; destruct Hn as [Hn _]; apply mem_str_In in Hn; congruence|].
      apply in_map_iff in Hn. destruct Hn as (d & <- & Hd). apply earlier_app, before_earlier. apply B; [exact Y|]. exists (key_of d). split; [exact Dn|]. apply In_dget; [exact Nc|exact (Oin _ Hd)].
  - exists (map key_of order). rewrite Kk, Wb. split; [reflexivity|]. fold bootstrapped. change foremost with bootstrapped. rewrite <- Kc, <- Ks.
    apply (in_turn_map key_of (depends depends_on cs)); [|exact (resolve_turns kwclass_eqb depends_on kwclass_eqb_spec _ cs order Nc Ns R)].
    intros c d Hc Hd. apply in_map_iff in Hc. destruct Hc as ([kc c'] & Ec & Hc). cbn [snd] in Ec. subst c'. apply in_map_iff in Hd. destruct Hd as ([kd d'] & Ed & Hd). cbn [snd] in Ed. subst d'.
    destruct (Cl _ _ Hc) as (C1 & C2 & _). destruct (Cl _ _ Hd) as (D1 & D2 & _). unfold depends, waits_for. rewrite C2, D2. split.
    + intros (n & Hn & Dn). apply dget_In in Dn. destruct (Cl _ _ Dn) as (_ & X & _). exists c. split; [exact C1|]. congruence.
    + intros (c' & C' & Hn). exists kd. split; [congruence|]. apply In_dget; [exact Nc|exact Hd].
Qed.
End Whole.

Lemma upward_app objs o : upward objs -> (forall p ks, so_up o = Some (p, ks) -> p < length objs) -> upward (objs ++ [o]).
Proof.
  intros U H i x p ks Hi Hu. destruct (Nat.lt_ge_cases i (length objs)) as [X|X].
  - rewrite nth_error_app1 in Hi by exact X. exact (U _ _ _ _ Hi Hu).
  - rewrite nth_error_app2 in Hi by exact X. destruct (i - length objs) as [|j] eqn:Q; [|destruct j; discriminate Hi]. injection Hi as <-. specialize (H _ _ Hu). lia.
Qed.
Lemma nth_last {A} (l : list A) x : nth_error (l ++ [x]) (length l) = Some x.
Proof. rewrite nth_error_app2, Nat.sub_diag by lia. reflexivity. Qed.

(** Constructing a document (whose objects have distinct keys) makes the
    schema it describes, and nothing but that schema and its subschemas. *)
Theorem build_ok v : jwf v = true -> well_built v.
Proof.
  assert (G : forall n v, jsize v < n -> jwf v = true -> well_built v).
  { induction n as [|n IH]; intros w Hn Wf u m up c s c' U Hup H; [lia|].
    destruct w as [|b|x|x|l|doc]; try solve [cbn [build] in H; apply bind_ok in H; destruct H as (y & c1 & _ & H); discriminate H].
    - cbn [build] in H. rewrite new_schema_eq in H. injection H as <- <-. cbn [c_objs]. rewrite app_length. cbn [length].
      split; [reflexivity|]. split; [lia|]. split; [now apply upward_app|]. split.
      + intros i Hi. replace i with (length (c_objs c)) by lia. constructor.
      + apply (made_bool E _ _ _ _ _ _ _ _ (nth_last _ _)); try reflexivity. cbn. unfold given_uri. now destruct u, up.
    - rewrite build_object_eq in H. apply bind_ok in H. destruct H as (s' & c1 & H1 & H). rewrite new_schema_eq in H1. injection H1 as <- <-.
      apply bind_ok in H. destruct H as (x & c2 & H2 & H). apply ret_ok in H. destruct H as [<- <-].
      apply jwf_obj in Wf. destruct Wf as [Nd Wf].
      assert (Rd : forall key v, dget key doc = Some v -> ready v).
      { clear v. intros key v D. apply dget_In in D. pose proof (jsize_members _ _ D) as Sv. cbn [snd] in Sv. rewrite Forall_forall in Wf. specialize (Wf _ D). cbn [snd] in Wf.
        split; [apply IH; [lia|exact Wf]|]. destruct v as [|?|?|?|l|m']; try exact I.
        - apply jwf_arr in Wf. rewrite Forall_forall in *. intros y Hy. apply IH; [apply jsize_items in Hy; lia|auto].
        - apply jwf_obj in Wf. destruct Wf as [Nm Wf]. split; [exact Nm|]. rewrite Forall_forall in *. intros kv Hy. apply IH; [apply jsize_members in Hy; lia|auto]. }
      set (Mu := applies E (outer_meta c m up) doc). set (gu := given_uri c u up (JObj doc)).
      set (Bu := base_of (own_uri E gu (outer_base c up) doc) (outer_base c up)).
      match type of H2 with _ ?st = _ => assert (S0 : stage c up doc Mu Bu st [] u m) end.
      { split; [|split; [|split; [|split; [constructor|split; [intros ? ? []|]]]]]; cbn [c_objs].
        - split; [cbn [c_objs]; rewrite app_length; lia|]. intros i Hi. cbn [c_objs]. now apply nth_error_app1.
        - now apply upward_app.
        - apply nth_last.
        - rewrite app_length. cbn. intros i Hi. lia. }
      destruct (build_object_ok c up doc u m U Hup Nd Rd _ _ _ S0 H2) as (kws & u' & m' & S & Eu & K & Cl & Dep & Ord & HM & Hmn).
      pose proof S as (O & U2 & N & Nk & Ks & Cov).
      split; [reflexivity|]. split; [apply nth_error_Some; congruence|]. split; [exact U2|]. split.
      + intros i Hi. destruct (Nat.eq_dec i (length (c_objs c))) as [->|Ni]; [constructor|]. destruct (Cov i) as (key & k & t & Hk & St & Wt); [lia|].
        apply (within_trans _ _ t); [|exact Wt]. eapply within_step; [constructor|eexists; split; [exact N|reflexivity]|exact Hk|exact St].
      + fold gu. apply (made_object E _ _ _ _ _ _ _ _ kws N eq_refl eq_refl); cbn [so_uri]; auto.
        * clear v. intros key k v Hk D. destruct (Ks _ _ Hk) as (v' & D' & Kp & _). congruence.
        * clear v. intros key k v Hk D. destruct (Ks _ _ Hk) as (v' & D' & _ & Ho). rewrite D in D'. injection D' as <-. rewrite Eu. exact Ho.
        * cbn [so_meta]. rewrite <- HM. destruct m' as [x0|]; [reflexivity|]. destruct up; [|reflexivity]. now rewrite (Hmn eq_refl). }
  exact (G (S (jsize v)) v (Nat.lt_succ_diag_r _)).
Qed.
End Ok.
