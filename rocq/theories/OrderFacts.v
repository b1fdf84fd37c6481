(** Facts about [kept_order]: it only reorders, and puts dependencies first. *)
From Coq Require Import List Permutation.
From Verif Require Export SpecAlike DepsFacts.
Import ListNotations.
Open Scope nat_scope.

Lemma find_class_key d key c : find_class d key = Some c -> std_key c = key.
Proof. induction d as [|c' r IH]; [discriminate|]. cbn [find_class]. destruct (str_eqb_spec (std_key c') key) as [E|]; [intros [= <-]; exact E|exact IH]. Qed.
Lemma good_key d kws key k : good_written d kws -> In (key, k) kws -> key_of (kw_class k) = key.
Proof. intros [_ G] H. destruct (G _ _ H) as [_ ->]. destruct (find_class d key) eqn:E; [exact (find_class_key _ _ _ E)|reflexivity]. Qed.

Lemma no_boot_depends c n : In n (depends_on c) -> mem_str n bootstrapped = false.
Proof.
  destruct c as [c|]; [|intros []]. cbn [depends_on].
  assert (X : forallb (fun m => negb (mem_str m bootstrapped)) (std_depends c) = true) by (destruct c; vm_compute; reflexivity).
  intro H. rewrite forallb_forall in X. apply X in H. now apply negb_true_iff.
Qed.
Lemma no_boot_self n c : mem_str n bootstrapped = true -> key_of c = n -> depends_on c = [].
Proof.
  intros H <-. destruct c as [c|]; [|reflexivity]. cbn [depends_on key_of] in *. destruct c; try reflexivity; exfalso; vm_compute in H; discriminate H.
Qed.

Lemma keys_picked {A} (m : list (pystr * A)) (f : A -> A) l : (forall key, In key l -> exists k, dget key m = Some k) ->
  keys (flat_map (fun key => match dget key m with Some k => [(key, k)] | None => [] end) l) = l.
Proof.
  intro H. unfold keys. induction l as [|key l IH]; [reflexivity|]. cbn [flat_map]. destruct (H key (or_introl eq_refl)) as [k ->]. cbn [app map fst].
  f_equal. apply IH. intros; apply H; now right.
Qed.
Lemma in_picked {A} (m : list (pystr * A)) l key k :
  In (key, k) (flat_map (fun key => match dget key m with Some k => [(key, k)] | None => [] end) l) <-> In key l /\ dget key m = Some k.
Proof.
  rewrite in_flat_map. split.
  - intros (key' & Hk & H). destruct (dget key' m) eqn:E; [|destruct H]. destruct H as [[= -> ->]|[]]. auto.
  - intros [Hk E]. exists key. rewrite E. split; [exact Hk|now left].
Qed.
Lemma NoDup_picked {A} (m : list (pystr * A)) l : NoDup l ->
  NoDup (keys (flat_map (fun key => match dget key m with Some k => [(key, k)] | None => [] end) l)).
Proof.
  unfold keys. induction 1 as [|key l H N IH]; [constructor|]. cbn [flat_map]. destruct (dget key m) as [k|]; [|exact IH]. cbn [app map fst]. constructor; [|exact IH].
  intro X. apply in_map_iff in X. destruct X as ([key' k'] & E & X). cbn [fst] in E. subst key'. apply in_picked in X. tauto.
Qed.
Lemma picked_map {A B} (g : B -> pystr) (m : list (pystr * A)) l :
  flat_map (fun c => match dget (g c) m with Some k => [(g c, k)] | None => [] end) l
  = flat_map (fun key => match dget key m with Some k => [(key, k)] | None => [] end) (map g l).
Proof. induction l as [|b l IH]; [reflexivity|]. cbn [map flat_map]. now rewrite IH. Qed.
Lemma dget_mapped {A B} (g : A -> B) key (m : list (pystr * A)) : dget key (map (fun kv => (fst kv, g (snd kv))) m) = match dget key m with Some a => Some (g a) | None => None end.
Proof. induction m as [|[k a] m IH]; [reflexivity|]. cbn [map dget fst snd]. now destruct (str_eqb _ _). Qed.
Lemma before_earlier (d c : kwclass) l : before d c l -> earlier (key_of d) (key_of c) (map key_of l).
Proof. intros (l1 & l2 & l3 & ->). exists (map key_of l1), (map key_of l2), (map key_of l3). now rewrite map_app, map_cons, map_app. Qed.
Lemma earlier_app n k l' l : earlier n k l -> earlier n k (l' ++ l).
Proof. intros (l1 & l2 & l3 & ->). exists (l' ++ l1), l2, l3. now rewrite app_assoc. Qed.
Lemma NoDup_filter_keys {A} p (m : list (pystr * A)) : NoDup (keys m) -> NoDup (keys (filter p m)).
Proof.
  unfold keys. induction m as [|kv m IH]; intro N; [constructor|]. cbn [map] in N. inversion N as [|? ? H N']; subst. cbn [filter].
  destruct (p kv); [|exact (IH N')]. cbn [map]. constructor; [|exact (IH N')]. intro X. apply H. apply in_map_iff in X. destruct X as (y & <- & X).
  apply filter_In in X. now apply in_map.
Qed.
Lemma NoDup_mapped {A B} (f : A -> B) l : NoDup (map f l) -> NoDup l.
Proof. induction l as [|a l IH]; intro N; [constructor|]. cbn [map] in N. inversion N; subst. constructor; [|auto]. intro H. apply H1. now apply in_map. Qed.

Lemma nodup_boot : NoDup bootstrapped.
Proof.
  assert (H : nodup_keysb (map (fun n => (n, tt)) bootstrapped) = true) by (vm_compute; reflexivity).
  apply nodup_keysb_NoDup in H. unfold keys in H. rewrite map_map, map_id in H. exact H.
Qed.
Lemma NoDup_join {A} (l l' : list A) : NoDup l -> NoDup l' -> (forall a, In a l -> In a l' -> False) -> NoDup (l ++ l').
Proof.
  induction 1 as [|a l H N IH]; intros N' D; [exact N'|]. cbn [app]. constructor.
  - intro X. apply in_app_iff in X. destruct X as [X|X]; [contradiction|]. exact (D a (or_introl eq_refl) X).
  - apply IH; [exact N'|]. intros b Hb Hb'. exact (D b (or_intror Hb) Hb').
Qed.

Theorem kept_order_good d written : good_written d written ->
  exists kws, kept_order written = Ok kws /\ Permutation kws written /\ good_schema d kws.
Proof.
  intros Hw. pose proof Hw as [Nd G]. unfold kept_order. cbv zeta.
  set (rest := filter (fun kv => negb (mem_str (fst kv) bootstrapped)) written).
  set (km := map (fun kv => (fst kv, kw_class (snd kv))) rest).
  assert (Nr : NoDup (keys rest)) by (apply NoDup_filter_keys, Nd).
  assert (Ek : keys km = keys rest) by (unfold km, keys; rewrite map_map; reflexivity).
  assert (Ir : forall key k, In (key, k) rest <-> In (key, k) written /\ mem_str key bootstrapped = false).
  { intros key k. unfold rest. rewrite filter_In. cbn [fst]. now rewrite negb_true_iff. }
  assert (Km : forall key c, In (key, c) km -> key_of c = key).
  { intros key c H. apply in_map_iff in H. destruct H as ([key' k] & [= <- <-] & H). apply Ir in H. exact (good_key d written _ _ Hw (proj1 H)). }
  assert (L : length rest = length km) by (unfold km; now rewrite map_length). rewrite L.
  assert (Nk : NoDup (keys km)) by (rewrite Ek; exact Nr).
  destruct (resolve_standard km Nk Km) as [order Ho]. rewrite Ho. cbn [bind]. eexists. split; [reflexivity|].
  assert (Ks : map key_of (map snd km) = keys km).
  { unfold keys. clear -Km. induction km as [|[key c] m IH]; [reflexivity|]. cbn [map fst snd]. rewrite (Km key c (or_introl eq_refl)). f_equal. apply IH. intros; apply Km; now right. }
  assert (Nc : NoDup (map snd km)) by (apply (NoDup_mapped key_of); now rewrite Ks).
  destruct (resolve_sound kwclass_eqb depends_on kwclass_eqb_spec _ km order Nk Nc Ho) as [[P B] _].
  rewrite (picked_map key_of).
  set (first := flat_map (fun key => match dget key written with Some k => [(key, k)] | None => [] end) bootstrapped).
  set (second := flat_map (fun key => match dget key rest with Some k => [(key, k)] | None => [] end) (map key_of order)).
  assert (Po : Permutation (map key_of order) (keys rest)).
  { rewrite <- Ek, <- Ks. now apply Permutation_map. }
  assert (K2 : keys second = map key_of order).
  { apply keys_picked; [exact (fun x => x)|]. intros key H. apply (Permutation_in _ Po) in H. unfold keys in H. apply in_map_iff in H. destruct H as ([key' k] & <- & H).
    exists k. now apply In_dget. }
  assert (I1 : forall key k, In (key, k) first <-> In (key, k) written /\ mem_str key bootstrapped = true).
  { intros key k. unfold first. rewrite in_picked, mem_str_In. split; intros [X Y].
    - split; [now apply dget_In|exact X].
    - split; [exact Y|now apply In_dget]. }
  assert (I2 : forall key k, In (key, k) second <-> In (key, k) rest).
  { intros key k. unfold second. rewrite in_picked. split; [intros [_ Y]; now apply dget_In|]. intro Y. split; [|now apply In_dget].
    apply (Permutation_in _ (Permutation_sym Po)). now apply (in_map fst) in Y. }
  assert (N1 : NoDup (keys first)) by (apply NoDup_picked, nodup_boot).
  assert (All : forall key k, In (key, k) (first ++ second) <-> In (key, k) written).
  { intros key k. rewrite in_app_iff, I1, I2, Ir. destruct (mem_str key bootstrapped); intuition congruence. }
  assert (N : NoDup (keys (first ++ second))).
  { unfold keys. rewrite map_app. apply NoDup_join; [exact N1| |].
    - change (NoDup (keys second)). rewrite K2. apply (Permutation_NoDup (Permutation_sym Po)), Nr.
    - intros key H1 H2. apply in_map_iff in H1, H2. destruct H1 as ([k1 v1] & <- & H1), H2 as ([k2 v2] & E2 & H2). cbn [fst] in *. subst k2.
      apply I1 in H1. apply I2, Ir in H2. destruct H1, H2. congruence. }
  split.
  - apply NoDup_Permutation; [exact (NoDup_mapped fst _ N)|exact (NoDup_mapped fst _ Nd)|]. intros [key k]. apply All.
  - split; [exact N|]. intros key k Hk. apply All in Hk. destruct (G _ _ Hk) as [V C]. split; [exact V|]. split; [exact C|]. intros n Hn Hi.
    assert (Bn := no_boot_depends _ _ Hn).
    destruct (mem_str key bootstrapped) eqn:Bk; [rewrite (no_boot_self key _ Bk (good_key d written _ _ Hw Hk)) in Hn; destruct Hn|].
    assert (Hr : In (key, k) rest) by (apply Ir; auto).
    assert (Hd : exists k', In (n, k') rest).
    { apply in_map_iff in Hi. destruct Hi as ([n' k'] & <- & Hi). exists k'. apply All in Hi. apply Ir. auto. }
    destruct Hd as [k' Hd]. unfold keys. rewrite map_app. apply earlier_app. change (earlier n key (keys second)). rewrite K2.
    assert (D : dget n km = Some (kw_class k')).
    { unfold km. rewrite (dget_mapped (fun k => kw_class k)). rewrite (In_dget _ _ _ Nr Hd). reflexivity. }
    assert (Oc : In (kw_class k) order).
    { apply (Permutation_in _ (Permutation_sym P)). unfold km. rewrite map_map. cbn [snd]. apply in_map_iff. exists (key, k). auto. }
    pose proof (before_earlier _ _ _ (B (kw_class k) (kw_class k') Oc (ex_intro _ n (conj Hn D)))) as X.
    rewrite (good_key d written key k Hw Hk) in X. apply Ir in Hd. rewrite (good_key d written n k' Hw (proj1 Hd)) in X. exact X.
Qed.

Lemma perm_In {A} {l l' : list A} : Permutation l l' -> forall a, In a l' <-> In a l.
Proof. intros P a. split; apply Permutation_in; [now apply Permutation_sym|exact P]. Qed.
Lemma built_good d R W : all_written d R -> built R W -> good_world d W.
Proof.
  intros Hw Hb s kws Hs. specialize (Hb s). rewrite Hs in Hb. destruct (R s) as [|w] eqn:E; [contradiction|].
  destruct (kept_order_good d w (Hw s w E)) as (k & Hk & _ & G). congruence.
Qed.
Lemma built_alike d R R' W W' : all_written d R -> all_written d R' -> built R W -> built R' W' ->
  (forall s, alike_schema (R s) (R' s)) -> forall s, alike_schema (w_schema W s) (w_schema W' s).
Proof.
  intros Hw Hw' Hb Hb' A s. specialize (A s). specialize (Hb s). specialize (Hb' s).
  destruct (R s) as [b|w] eqn:E, (R' s) as [b'|w'] eqn:E', (w_schema W s) as [x|k], (w_schema W' s) as [x'|k']; cbn in *; try contradiction; [congruence|].
  destruct (kept_order_good d w (Hw s w E)) as (k1 & Hk & P & _), (kept_order_good d w' (Hw' s w' E')) as (k2 & Hk' & P' & _).
  assert (k1 = k) by congruence. assert (k2 = k') by congruence. subst. intros key kw Hi. rewrite <- (perm_In P), <- (perm_In P'). now apply A.
Qed.
Lemma reordered_alike a b : reordered a b -> alike_schema a b.
Proof. destruct a, b; cbn; auto. intros P key kw _. symmetry; apply (perm_In P). Qed.
