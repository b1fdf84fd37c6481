(** Heaps in which an item may be held by an array although its parent is
    another node: what is needed for the values of nodes to be right. *)
From Verif Require Import JsonFacts JTreeOps SpecTreeAny JTreeSim JSeqFacts.
Open Scope nat_scope.

(** No node has [b] for a child. *)
Definition unheld (h : heap) (b : id) : Prop := forall y i, ~ child_at h y i b.

Record loose (h : heap) : Prop := {
  lo_child : forall n k c, child_at h n k c -> n < c /\ c < length h /\ up h c n;
  lo_int : forall n ids, ndata (getn h n) = DArr ids -> int_keys h ids;
  lo_nodup : forall n m, ndata (getn h n) = DObj m -> NoDup (keys m);
  lo_parent : parents_lt h;
  lo_key : forall a k j x, child_at h a k x -> child_at h a j x -> k = j;
  lo_once : forall a k b j x, child_at h a k x -> child_at h b j x -> a < b -> unheld h b;
  lo_value : forall n v, ncvalue (getn h n) = Some v -> denotes h n v
}.

Lemma loose_ordered h : loose h -> ordered h.
Proof. intros I n k c C. destruct (lo_child h I n k c C) as (? & ? & _). auto. Qed.

Lemma up_trans h a b c : up h a b -> up h b c -> up h a c.
Proof. intros U V. induction V; auto. econstructor; eauto. Qed.
Lemma up_parents h g n m : (forall x, nparent (getn g x) = nparent (getn h x)) -> up h n m -> up g n m.
Proof. intros P U. induction U; [constructor|]. econstructor; eauto. now rewrite P. Qed.
Lemma unheld_data h g b : same_data h g -> unheld h b -> unheld g b.
Proof. intros D U y i C. apply (U y i). apply (child_at_data g); auto. Qed.

(** Only data, parents and cached values matter, and that keys are integers. *)
Lemma loose_same h g : length g = length h -> same_data h g ->
  (forall m, nparent (getn g m) = nparent (getn h m)) ->
  (forall m, (exists z, nkey (getn h m) = Some (str_of_Z z)) -> exists z, nkey (getn g m) = Some (str_of_Z z)) ->
  (forall m v, ncvalue (getn g m) = Some v -> denotes h m v) -> loose h -> loose g.
Proof.
  intros L D P K V I.
  assert (Ca : forall a k c, child_at g a k c -> child_at h a k c) by (intros a k c; apply (child_at_data g); symmetry; apply D).
  constructor.
  - intros n k c C. apply Ca in C. destruct (lo_child h I n k c C) as (A & B & U). rewrite L. split; auto. split; auto.
    now apply (up_parents h).
  - intros n ids E c Hc. rewrite D in E. destruct (lo_int h I n ids E c Hc) as (B & Z). rewrite L. split; auto.
  - intros n m. rewrite D. apply (lo_nodup h I).
  - intros n p. rewrite P. apply (lo_parent h I).
  - intros a k j x A B. apply (lo_key h I a k j x); auto.
  - intros a k b j x A B Lt. apply (unheld_data h); auto. apply (lo_once h I a k b j x); auto.
  - intros m v E. apply (denotes_data h); auto.
Qed.
Lemma E_loose h g : E h g -> loose g -> loose h.
Proof.
  intros H I. apply (loose_same g).
  - now apply E_len.
  - intro m. apply (sim_data _ _ (E_get h g m H)).
  - intro m. apply (sim_parent _ _ (E_get h g m H)).
  - intros m (z & Ez). pose proof (sim_key _ _ (E_get h g m H)) as K. rewrite Ez in K. destruct K as (k' & -> & IK).
    destruct IK as (y & ->); [now exists z|]. eauto.
  - intros m v. rewrite (sim_value _ _ (E_get h g m H)). apply (lo_value g I).
  - exact I.
Qed.
Lemma loose_renumber delta ids h : loose h -> int_keys h ids ->
  exists h', renumber delta ids h = (Ok tt, h') /\ loose h' /\ length h' = length h /\ same_data h h'.
Proof.
  intros I K. destruct (renumber_left delta ids h h (E_refl h) (loose_ordered h I) K) as (h' & Eq & S).
  exists h'. split; auto. split; [now apply (E_loose h' h)|]. split; [now apply E_len|].
  intro m. apply (sim_data _ _ (E_get h' h m S)).
Qed.

(** The path from one node to another is unique. *)
Lemma loose_path h r p x : loose h -> located h r p x -> forall q, located h r q x -> p = q.
Proof.
  intros I L. pose proof (loose_ordered h I) as O. induction L as [|p a k c L IH C]; intros q M.
  - inversion M as [|q' b j c' M' C']; subst; auto. exfalso. apply O in C' as [Lt _].
    assert (Le : r <= b); [|lia]. clear - M' O. induction M' as [|? ? ? ? ? ? C]; auto. apply O in C. lia.
  - assert (Le : forall s y, located h r s y -> r <= y).
    { clear - O. intros s y M. induction M as [|? ? ? ? ? ? C]; auto. apply O in C. lia. }
    inversion M as [E1 E2|q' b j c' M' C']; subst.
    + exfalso. apply O in C as [Lt _]. apply Le in L. lia.
    + destruct (Nat.lt_trichotomy a b) as [Lt|[->|Lt]].
      * exfalso. pose proof (lo_once h I a k b j c C C' Lt) as U. inversion M' as [|? ? ? ? M'' C'']; subst.
        -- apply Le in L. lia.
        -- now apply U in C''.
      * rewrite (IH q' M'), (lo_key h I b k j c C C'). reflexivity.
      * exfalso. pose proof (lo_once h I b j a k c C' C Lt) as U. inversion L as [|? ? ? ? L'' C'']; subst.
        -- apply Le in M'. lia.
        -- now apply U in C''.
Qed.

(** *** What a change of the data of one node does to values *)
Lemma loose_keeps h h' n m : loose h -> local h h' n -> m < length h -> ~ below h m n -> keeps h h' m.
Proof.
  intros I [L D] Hm B v. apply (denotes_region h h' (fun m => m < length h /\ ~ below h m n)); auto.
  - intros a [La Ba]. apply D; auto. intros ->. apply Ba. exists []. constructor.
  - intros a k c [La Ba] C. split; [apply (loose_ordered h I) in C; lia|]. intros [p Lp]. apply Ba. exists (k :: p).
    eapply located_cons; eauto.
Qed.
Lemma loose_subst h h' n p w : loose h -> local h h' n -> denotes h' n w ->
  forall r V, located h r p n -> denotes h r V -> r < length h -> denotes h' r (subst_at p w V).
Proof.
  intros I Lo W. pose proof (loose_ordered h I) as O. induction p as [|k p IH]; intros r V L D Lr.
  - inversion L; subst; auto. destruct p; discriminate.
  - pose proof L as L0. apply located_uncons in L as (c & C & L).
    pose proof (O r k c C) as [Lc Lc'].
    assert (Le : c <= n) by (apply (located_bound h c p n O Lc') in L; lia).
    assert (Dr : ndata (getn h' r) = ndata (getn h r)) by (apply Lo; [auto|lia]).
    assert (Oth : forall k2 c2 v2, child_at h r k2 c2 -> k2 <> k -> denotes h c2 v2 -> denotes h' c2 v2).
    { intros k2 c2 v2 C2 N D2. apply (loose_keeps h h' n c2 I Lo); auto; [apply O in C2; lia|].
      intros [q Q]. assert (E : k :: p = k2 :: q); [|injection E; congruence].
      apply (loose_path h r (k :: p) n I L0). eapply located_cons; eauto. }
    inversion D as [? E0|? ? E0|? ? E0|? ? E0|? ids l E0 Ln H0|? m kvs E0 K0 H0]; subst;
      try (apply child_at_of in C; rewrite E0 in C; inversion C; discriminate).
    + cbn [subst_at].
      set (go := fix go (i : nat) (l : list json) : list json :=
                   match l with
                   | [] => []
                   | x :: r => (if str_eqb (str_of_nat i) k then subst_at p w x else x) :: go (S i) r
                   end).
      assert (G : forall l i j, nth_error (go i l) j =
         match nth_error l j with
         | Some x => Some (if str_eqb (str_of_nat (i + j)) k then subst_at p w x else x)
         | None => None end).
      { clear. induction l as [|x l IH]; intros i [|j]; simpl; auto.
        - now rewrite Nat.add_0_r.
        - rewrite IH. replace (i + S j) with (S i + j) by lia. reflexivity. }
      assert (GL : forall l i, length (go i l) = length l) by (clear; induction l; intro i; simpl; auto).
      econstructor; [rewrite Dr; eauto|now rewrite GL|].
      intros i ci vi Hi Hv. rewrite G in Hv. destruct (nth_error l i) as [x|] eqn:Ex; [|discriminate].
      rewrite Nat.add_0_l in Hv.
      assert (Ci : child_at h r (str_of_nat i) ci) by (econstructor; eauto).
      destruct (str_eqb_spec (str_of_nat i) k) as [Ek|Nk]; injection Hv as <-.
      * assert (ci = c); [|subst ci; apply IH; eauto; lia].
        apply (child_at_arr _ _ _ _ _ E0) in C as (j & Ej & Hj). rewrite Ej in Ek. apply str_of_nat_inj in Ek.
        subst. congruence.
      * eapply Oth; eauto.
    + cbn [subst_at]. econstructor; [rewrite Dr; eauto| |].
      * rewrite map_map. simpl. exact K0.
      * intros i ki ci ki' vi Hi Hv. rewrite nth_error_map in Hv.
        destruct (nth_error kvs i) as [[kx x]|] eqn:Ex; [|discriminate]. simpl in Hv. injection Hv as <- <-.
        assert (kx = ki).
        { apply nth_error_fst in Hi. apply nth_error_fst in Ex. rewrite K0 in Hi. congruence. }
        subst kx.
        assert (Ci : child_at h r ki ci) by (eapply ca_member; eauto; eapply nth_error_In; eauto).
        destruct (str_eqb_spec ki k) as [->|Nk].
        -- assert (ci = c); [|subst ci; apply IH; eauto; lia].
           apply (child_at_obj _ _ _ _ _ E0) in C. rename C into Hj. apply nth_error_In in Hi.
           pose proof (lo_nodup h I r m E0) as ND.
           pose proof (In_dget _ _ _ ND Hi). pose proof (In_dget _ _ _ ND Hj). congruence.
        -- eapply Oth; eauto.
Qed.
Lemma loose_changes h h' n v : loose h -> local h h' n -> denotes h' n v -> changes h h' n (Some v).
Proof.
  intros I Lo D. split; auto. split.
  - intros m Hm B. now apply (loose_keeps h h' n).
  - intros m p V Hm L DV. eapply loose_subst; eauto.
Qed.
Lemma loose_child_keeps h h' n c v : loose h -> local h h' n -> n < c -> c < length h -> denotes h c v -> denotes h' c v.
Proof.
  intros I Lo Lt Lc. apply (loose_keeps h h' n c); auto. intros [p L].
  apply (located_bound h c p n (loose_ordered h I) Lc) in L. lia.
Qed.

(** *** New nodes *)
Lemma fresh_loose h h' : loose h -> fresh h h' -> loose h'.
Proof.
  intros I F. pose proof (fr_len _ _ F) as Ln. pose proof (loose_ordered h I) as O.
  assert (Old : forall m k c, m < length h -> child_at h' m k c -> child_at h m k c).
  { intros m k c Hm. apply child_at_data. symmetry. now rewrite (fr_old _ _ F). }
  assert (New : forall a k c, length h <= a -> child_at h' a k c -> a < c /\ c < length h' /\ nparent (getn h' c) = Some a /\ nkey (getn h' c) = Some k)
    by (intros a k c; apply (fr_child _ _ F)).
  assert (Un : forall b, b < length h -> unheld h b -> unheld h' b).
  { intros b Hb U y i C. destruct (Nat.lt_ge_cases y (length h)) as [Ly|Ly].
    - now apply (U y i), Old.
    - apply New in C; auto. lia. }
  constructor.
  - intros n k c C. destruct (Nat.lt_ge_cases n (length h)) as [Lt|Ge].
    + apply Old in C; auto. destruct (lo_child h I n k c C) as (A & B & U). split; auto. split; [lia|].
      clear - U B F I. assert (G : forall m, up h c m -> m <= c) by (intros m; apply up_le, lo_parent, I).
      induction U as [|m p U IH P]; [constructor|]. econstructor; [exact IH|]. rewrite (fr_old _ _ F); auto. apply G in U. lia.
    + apply New in C as (A & B & P & _); auto. split; auto. split; auto. econstructor; eauto. constructor.
  - intros n ids Ed c Hc. apply In_nth_error in Hc as (j & Hj).
    assert (C : child_at h' n (str_of_nat j) c) by (econstructor; eauto).
    destruct (Nat.lt_ge_cases n (length h)) as [Lt|Ge].
    + rewrite (fr_old _ _ F) in Ed by auto. destruct (lo_int h I n ids Ed c (nth_error_In _ _ Hj)) as (B & Z).
      rewrite (fr_old _ _ F) by auto. split; auto. lia.
    + apply New in C as (A & B & _ & K); auto. split; auto. exists (Z.of_nat j). now rewrite str_of_Z_nat.
  - intros n m Ed. destruct (Nat.lt_ge_cases n (length h)) as [Lt|Ge].
    + rewrite (fr_old _ _ F) in Ed by auto. now apply (lo_nodup h I n).
    + now apply (fr_nodup _ _ F n Ge).
  - intros n p P. destruct (Nat.lt_ge_cases n (length h)) as [Lt|Ge].
    + rewrite (fr_old _ _ F) in P by auto. now apply (lo_parent h I).
    + destruct (Nat.lt_ge_cases n (length h')) as [Lt|Ge'].
      * destruct (fr_parent _ _ F n Ge Lt) as (q & k & Q & Lq & _). rewrite P in Q. injection Q as ->. auto.
      * rewrite getn_out in P by auto. discriminate.
  - intros a k j x A B. destruct (Nat.lt_ge_cases a (length h)) as [Lt|Ge].
    + apply Old in A, B; auto. eapply (lo_key h I); eauto.
    + apply New in A as (_ & _ & _ & K1), B as (_ & _ & _ & K2); auto. congruence.
  - intros a k b j x A B Lab. destruct (Nat.lt_ge_cases b (length h)) as [Lb|Gb].
    + apply Old in B; auto. apply Old in A; [|lia]. apply Un; auto. eapply (lo_once h I a k b j x); eauto.
    + apply New in B as (B1 & _ & P & _); auto. exfalso. destruct (Nat.lt_ge_cases a (length h)) as [La|Ga].
      * apply Old in A; auto. apply O in A. lia.
      * apply New in A as (_ & _ & P' & _); auto. rewrite P in P'. injection P'. lia.
  - intros m v V. destruct (Nat.lt_ge_cases m (length h)) as [Lt|Ge].
    + rewrite (fr_old _ _ F) in V by auto. apply (fresh_denotes h h'); auto. now apply (lo_value h I).
    + destruct (fr_caches _ _ F m Ge). congruence.
Qed.
Lemma loose_new_node h w (n : id) k : loose h -> n < length h -> jwf w = true ->
  exists h1, new_node w h (Some n) (Some k) = (h1, length h) /\ loose h1 /\ fresh h h1 /\
    length h < length h1 /\ nparent (getn h1 (length h)) = Some n /\
    nkey (getn h1 (length h)) = Some k /\ denotes h1 (length h) w.
Proof.
  intros I Hn W. unfold new_node.
  assert (B : built (h ++ [blank]) (length h) (Some n) (Some k) w
            (init w (h ++ [blank]) (length h) (Some n) (Some k)))
    by (apply init_spec; auto; rewrite app_length; simpl; lia).
  apply built_fresh in B as (F & L & P & K & D); auto.
  eexists. split; [reflexivity|]. assert (I1 := fresh_loose _ _ I F). repeat (split; auto).
Qed.

(** *** Giving a node new children *)
(** A node that nobody holds and that shares no child with another. *)
Definition sole (h : heap) (x : id) : Prop := unheld h x /\ forall i y a k, child_at h x i y -> child_at h a k y -> a = x.
(** An item taken over from a node [b] that nobody holds. *)
Definition taken (h : heap) (n x b : id) : Prop :=
  n < b /\ unheld h b /\ (exists j, child_at h b j x) /\ forall b' j', child_at h b' j' x -> b' = b.
Record children_ok (h : heap) (n : id) (d : data) : Prop := {
  ck_data : data_ok d;
  ck_child : forall k c, child_of d k c -> n < c /\ c < length h /\ up h c n;
  ck_int : forall ids, d = DArr ids -> int_keys h ids;
  ck_key : forall k j x, child_of d k x -> child_of d j x -> k = j;
  ck_from : forall k x, child_of d k x ->
    (exists j, child_at h n j x) \/ (exists b, taken h n x b /\ forall j, ~ child_of d j b) \/ sole h x
}.
Lemma loose_edit h n d : loose h -> n < length h -> children_ok h n d ->
  exists h', inval_value (setn h n (with_data (getn h n) d)) n = (Ok tt, h') /\ loose h' /\
    length h' = length h /\ local h h' n /\ ndata (getn h' n) = d /\ (forall m, nkey (getn h' m) = nkey (getn h m)) /\
    (forall m, nparent (getn h' m) = nparent (getn h m)).
Proof.
  intros I Hn K. set (h1 := setn h n (with_data (getn h n) d)). pose proof (loose_ordered h I) as O.
  assert (G1 : forall m, getn h1 m = if Nat.eqb n m then with_data (getn h n) d else getn h m)
    by (intro m; unfold h1; now rewrite getn_setn).
  assert (P1 : forall m, nparent (getn h1 m) = nparent (getn h m)).
  { intro m. rewrite G1. destruct (Nat.eqb_spec n m) as [<-|]; auto. }
  assert (L1 : length h1 = length h) by apply length_setn.
  destruct (inval_value_spec h1 n) as (h' & Eq & (Lt & T) & Cp & CU & CV).
  { intros m p. rewrite P1. apply (lo_parent h I). }
  { lia. }
  exists h'. split; auto.
  assert (Dn : ndata (getn h' n) = d) by (destruct (T n) as (-> & _); rewrite G1, Nat.eqb_refl; reflexivity).
  assert (Do : forall m, m <> n -> ndata (getn h' m) = ndata (getn h m)).
  { intros m N. destruct (T m) as (-> & _). rewrite G1. destruct (Nat.eqb_spec n m); [congruence|auto]. }
  assert (Pa : forall m, nparent (getn h' m) = nparent (getn h m)) by (intro m; destruct (T m) as (_ & -> & _); apply P1).
  assert (Ke : forall m, nkey (getn h' m) = nkey (getn h m)).
  { intro m. destruct (T m) as (_ & _ & ->). rewrite G1. destruct (Nat.eqb_spec n m) as [<-|]; auto. }
  assert (Lo : local h h' n) by (split; [lia|]; intros m _; apply Do).
  assert (Cn : forall k c, child_at h' n k c -> child_of d k c) by (intros k c C; apply child_at_of in C; now rewrite Dn in C).
  assert (Co : forall a k c, a <> n -> child_at h' a k c -> child_at h a k c) by (intros a k c N; apply child_at_data; symmetry; auto).
  assert (Any : forall a k c, child_at h' a k c -> n < c /\ child_of d k c /\ a = n \/ a <> n /\ child_at h a k c).
  { intros a k c C. destruct (Nat.eq_dec a n) as [->|N]; [|right; auto]. left. apply Cn in C. split; auto.
    apply (ck_child h n d K k c C). }
  assert (Sh : forall a k x i b, child_at h a k x -> child_at h b i x -> a < b -> forall j, ~ child_of d j b).
  { intros a k x i b A B Lab j C. pose proof (lo_once h I a k b i x A B Lab) as U.
    destruct (ck_from h n d K j b C) as [(j' & C')|[(b' & (_ & _ & (j' & C') & _) & _)|[_ S]]].
    - now apply U in C'.
    - now apply U in C'.
    - specialize (S i x a k B A). lia. }
  assert (Un : forall b, unheld h b -> (forall j, ~ child_of d j b) -> unheld h' b).
  { intros b U N y i C. apply Any in C as [(_ & C & _)|[_ C]]; [now apply N in C|now apply U in C]. }
  split; [|split; [lia|]; split; [exact Lo|]; split; [exact Dn|]; split; [exact Ke|exact Pa]].
  constructor.
  - intros a k c C. rewrite Lt, L1. apply Any in C as [(_ & C & ->)|[N C]].
    + destruct (ck_child h n d K k c C) as (A & B & U). split; auto. split; auto. now apply (up_parents h).
    + destruct (lo_child h I a k c C) as (A & B & U). split; auto. split; auto. now apply (up_parents h).
  - intros a ids Ed. assert (Kh : int_keys h ids -> int_keys h' ids).
    { intros Z c Hc. rewrite Ke, Lt, L1. now apply Z. }
    apply Kh. destruct (Nat.eq_dec a n) as [->|N].
    + rewrite Dn in Ed. now apply (ck_int h n d K).
    + rewrite Do in Ed by auto. now apply (lo_int h I a).
  - intros a m Ed. destruct (Nat.eq_dec a n) as [->|N].
    + rewrite Dn in Ed. now apply (ck_data h n d K).
    + rewrite Do in Ed by auto. now apply (lo_nodup h I a).
  - intros a p. rewrite Pa. apply (lo_parent h I).
  - intros a k j x A B. apply Any in A as [(_ & A & ->)|[N A]].
    + apply (ck_key h n d K k j x); auto.
    + apply Co in B; auto. eapply (lo_key h I); eauto.
  - intros a k b j x A B Lab. apply Any in A as [(_ & A & ->)|[Na A]]; apply Any in B as [(_ & B & Eb)|[Nb B]]; try lia.
    + (* n < b *) destruct (ck_from h n d K k x A) as [(j' & C')|[(b' & (Lb & U & _ & Q) & N)|[U _]]].
      * apply Un; [exact (lo_once h I n j' b j x C' B Lab)|exact (Sh n j' x j b C' B Lab)].
      * apply Q in B. subst b'. now apply Un.
      * now apply U in B.
    + (* a < n *) subst b. destruct (ck_from h n d K j x B) as [(j' & C')|[(b' & (Lb & U & _ & Q) & N)|[U _]]].
      * apply Un; [exact (lo_once h I a k n j' x A C' Lab)|exact (Sh a k x j' n A C' Lab)].
      * apply Q in A. lia.
      * now apply U in A.
    + apply Un; [exact (lo_once h I a k b j x A B Lab)|exact (Sh a k x j b A B Lab)].
  - intros m v V. assert (Nu : ~ up h n m).
    { intro U. rewrite CU in V; [discriminate|]. now apply (up_parents h). }
    destruct (CV m) as [E0|E0]; [congruence|]. rewrite E0 in V.
    assert (Vh : ncvalue (getn h m) = Some v).
    { rewrite G1 in V. destruct (Nat.eqb_spec n m) as [<-|]; auto. }
    apply (lo_value h I) in Vh. revert Vh. apply (denotes_region h h' (fun m => ~ up h n m)).
    + intros a Na. apply Do. intros ->. apply Na. constructor.
    + intros a k c Na C U. apply Na. apply (up_trans h n c a); auto. apply (lo_child h I a k c C).
    + exact Nu.
Qed.

(** *** Reading values *)
Definition vok (h : heap) : Prop := ordered h /\ forall n v, ncvalue (getn h n) = Some v -> denotes h n v.
Lemma store_vok h n v : vok h -> n < length h -> denotes h n v ->
  same_tree h (setn h n (with_cvalue (getn h n) (Some v))) /\ vok (setn h n (with_cvalue (getn h n) (Some v))).
Proof.
  intros [O V] Hn D. assert (T : same_tree h (setn h n (with_cvalue (getn h n) (Some v)))) by now apply setn_tree.
  split; auto. split.
  - eapply ordered_data; [apply T|apply same_tree_data; eauto|auto].
  - intros m w H. eapply denotes_data; [apply same_tree_data; eauto|].
    rewrite getn_setn in H by auto. destruct (Nat.eqb_spec n m); subst; auto. simpl in H. now injection H as <-.
Qed.
Lemma read_value_f_vok f : forall h n, vok h -> n < length h -> length h - n < f ->
  exists v h', read_value_f f h n = (Ok v, h') /\ denotes h n v /\ same_tree h h' /\ vok h'.
Proof.
  induction f as [|f IH]; intros h n I Hn Hf; [lia|].
  cbn [read_value_f]. destruct (ncvalue (getn h n)) as [v|] eqn:EV.
  { exists v, h. split; auto. split; [now apply (proj2 I)|]. split; auto. apply same_tree_refl. }
  destruct (ndata (getn h n)) as [|b|x|s|ids|m] eqn:E.
  1-4: match goal with |- context [with_cvalue _ (Some ?v)] =>
      destruct (store_vok h n v I Hn) as [T I']; [econstructor; eauto|]; do 2 eexists;
      split; [reflexivity|]; split; [econstructor; eauto|]; auto end.
  - set (store := fun (v : json) (h0 : heap) => (Ok v, setn h0 n (with_cvalue (getn h0 n) (Some v)))).
    assert (G : forall rest done acc h1, ids = done ++ rest -> same_tree h h1 -> vok h1 ->
      length acc = length done ->
      (forall i c v, nth_error done i = Some c -> nth_error (rev acc) i = Some v -> denotes h c v) ->
      exists v h', (fix go (ids : list id) (h : heap) (acc : list json) : res json * heap :=
                 match ids with
                 | [] => store (JArr (rev acc)) h
                 | c :: r => match read_value_f f h c with
                             | (Ok v, h') => go r h' (v :: acc)
                             | (Exn e, h') => (Exn e, h')
                             | (Fuel, h') => (Fuel, h')
                             end
                 end) rest h1 acc = (Ok v, h') /\ denotes h n v /\ same_tree h h' /\ vok h').
    { induction rest as [|c rest IHr]; intros done acc h1 Eids T I1 La Hd.
      - rewrite app_nil_r in Eids. subst done.
        assert (D : denotes h n (JArr (rev acc))).
        { econstructor; eauto. rewrite rev_length. lia. }
        unfold store. exists (JArr (rev acc)). eexists. split; [reflexivity|]. split; auto.
        destruct (store_vok h1 n (JArr (rev acc)) I1) as [T' I'].
        + destruct T as [-> _]. auto.
        + eapply denotes_data; eauto. now apply same_tree_data.
        + split; auto. eapply same_tree_trans; eauto.
      - assert (C : child_at h n (str_of_nat (length done)) c).
        { econstructor; eauto. rewrite Eids, nth_error_app2 by lia. now rewrite Nat.sub_diag. }
        apply (proj1 I) in C.
        assert (L1 : length h1 = length h) by apply T.
        destruct (IH h1 c I1 ltac:(lia) ltac:(lia)) as (v & h2 & -> & D & T2 & I2).
        apply (denotes_data h1 h) in D; [|apply same_data_sym, same_tree_data; auto].
        apply (IHr (done ++ [c]) (v :: acc) h2).
        + now rewrite <- app_assoc.
        + eapply same_tree_trans; eauto.
        + auto.
        + rewrite app_length. simpl. lia.
        + intros i c' v' Hc' Hv'. cbn [rev] in Hv'.
          destruct (Nat.lt_ge_cases i (length done)).
          * rewrite nth_error_app1 in Hc' by auto. rewrite nth_error_app1 in Hv' by (rewrite rev_length; lia). eauto.
          * rewrite nth_error_app2 in Hc' by auto. rewrite nth_error_app2 in Hv' by (rewrite rev_length; lia).
            rewrite rev_length, La in Hv'. destruct (i - length done) as [|[|]]; simpl in *; try discriminate. congruence. }
    apply (G ids [] [] h); auto. { apply same_tree_refl. } intros [|i] c v H; discriminate.
  - set (store := fun (v : json) (h0 : heap) => (Ok v, setn h0 n (with_cvalue (getn h0 n) (Some v)))).
    assert (G : forall rest done acc h1, m = done ++ rest -> same_tree h h1 -> vok h1 ->
      map fst (rev acc) = map fst done ->
      (forall i k c k' v, nth_error done i = Some (k, c) -> nth_error (rev acc) i = Some (k', v) -> denotes h c v) ->
      exists v h', (fix go (m : list (pystr * id)) (h : heap) (acc : list (pystr * json)) : res json * heap :=
                 match m with
                 | [] => store (JObj (rev acc)) h
                 | (k, c) :: r => match read_value_f f h c with
                                  | (Ok v, h') => go r h' ((k, v) :: acc)
                                  | (Exn e, h') => (Exn e, h')
                                  | (Fuel, h') => (Fuel, h')
                                  end
                 end) rest h1 acc = (Ok v, h') /\ denotes h n v /\ same_tree h h' /\ vok h').
    { induction rest as [|[k c] rest IHr]; intros done acc h1 Eids T I1 La Hd.
      - rewrite app_nil_r in Eids. subst done.
        assert (D : denotes h n (JObj (rev acc))) by (econstructor; eauto).
        unfold store. exists (JObj (rev acc)). eexists. split; [reflexivity|]. split; auto.
        destruct (store_vok h1 n (JObj (rev acc)) I1) as [T' I'].
        + destruct T as [-> _]. auto.
        + eapply denotes_data; eauto. now apply same_tree_data.
        + split; auto. eapply same_tree_trans; eauto.
      - assert (C : child_at h n k c).
        { eapply ca_member; eauto. rewrite Eids. apply in_or_app. right. now left. }
        apply (proj1 I) in C.
        assert (L1 : length h1 = length h) by apply T.
        destruct (IH h1 c I1 ltac:(lia) ltac:(lia)) as (v & h2 & -> & D & T2 & I2).
        apply (denotes_data h1 h) in D; [|apply same_data_sym, same_tree_data; auto].
        assert (LA : length (rev acc) = length done)
          by (rewrite <- (map_length fst (rev acc)), La, map_length; auto).
        apply (IHr (done ++ [(k, c)]) ((k, v) :: acc) h2).
        + now rewrite <- app_assoc.
        + eapply same_tree_trans; eauto.
        + auto.
        + cbn [rev]. rewrite !map_app, La. reflexivity.
        + intros i k1 c' k2 v' Hc' Hv'. cbn [rev] in Hv'.
          destruct (Nat.lt_ge_cases i (length done)).
          * rewrite nth_error_app1 in Hc' by auto. rewrite nth_error_app1 in Hv' by lia. eauto.
          * rewrite nth_error_app2 in Hc' by auto. rewrite nth_error_app2 in Hv' by lia.
            rewrite LA in Hv'. destruct (i - length done) as [|[|]]; simpl in *; try discriminate. congruence. }
    apply (G m [] [] h); auto. { apply same_tree_refl. } intros [|i] * H; discriminate.
Qed.

Lemma loose_tree h h' : same_tree h h' -> (forall n v, ncvalue (getn h' n) = Some v -> denotes h' n v) -> loose h -> loose h'.
Proof.
  intros (L & T) V I. assert (D : same_data h h') by (intro m; apply T). apply (loose_same h); auto.
  - intro m. apply T.
  - intros m (z & Z). exists z. destruct (T m) as (_ & _ & ->). auto.
  - intros m v Ev. apply (denotes_data h'); [now apply same_data_sym|auto].
Qed.
Lemma loose_read_value h n : loose h -> n < length h ->
  exists v h', read_value h n = (Ok v, h') /\ denotes h n v /\ loose h' /\ grows h h' /\ length h' = length h.
Proof.
  intros I Hn. destruct (read_value_f_vok (S (length h)) h n) as (v & h' & Eq & D & T & V).
  - split; [now apply loose_ordered|apply (lo_value h I)].
  - exact Hn.
  - lia.
  - exists v, h'. split; auto. split; auto. split; [apply (loose_tree h); auto; apply V|].
    split; [now apply grows_tree|apply T].
Qed.
Lemma loose_total h n : loose h -> n < length h -> exists v, denotes h n v.
Proof. intros I. apply denotes_total, loose_ordered; auto. Qed.
Lemma loose_jwf h n v : loose h -> denotes h n v -> jwf v = true.
Proof.
  intros I D. induction D as [n E|n b E|n x E|n s E|n ids l E Len H IH|n m kvs E K H IH]; auto.
  - apply jwf_arr. apply Forall_forall. intros v Hv. apply In_nth_error in Hv as (i & Hi).
    destruct (nth_error_lt ids i) as (c & Hc); [apply nth_error_bound in Hi; lia|]. eauto.
  - apply jwf_obj. split; [unfold keys; rewrite <- K; now apply (lo_nodup h I n)|].
    apply Forall_forall. intros [k v] Hv. apply In_nth_error in Hv as (i & Hi).
    destruct (nth_error_lt m i) as ((k' & c) & Hc).
    { apply nth_error_bound in Hi. rewrite <- (map_length fst m), K, map_length. auto. }
    simpl. eauto.
Qed.
Lemma loose_operand h o w : loose h -> operand_ok h o -> operand_is h o w ->
  exists h', operand_value h o = (Ok w, h') /\ loose h' /\ length h' = length h /\ grows h h' /\ jwf w = true.
Proof.
  intros I OK W. destruct o as [v|n]; simpl in *.
  - subst. exists h. split; auto. split; auto. split; auto. split; [apply grows_refl|exact OK].
  - destruct (loose_read_value h n I OK) as (v & h' & Eq & D & I' & G & L).
    assert (v = w) by (eapply denotes_fun; eauto). subst. exists h'. split; auto. split; auto. split; auto. split; [exact G|]. exact (loose_jwf h n w I W).
Qed.
Lemma loose_operand_total h o : loose h -> operand_ok h o -> exists w, operand_is h o w.
Proof. intros I OK. destruct o as [w|n]; simpl in *; eauto. now apply loose_total. Qed.

(** *** Which lists and dicts of children are all right *)
Lemma fresh_sole h0 h1 c n : ordered h0 -> fresh h0 h1 -> length h0 <= c -> nparent (getn h1 c) = Some n -> n < length h0 -> sole h1 c.
Proof.
  intros O F Lc P Ln.
  assert (Old : forall m k x, m < length h0 -> child_at h1 m k x -> x < length h0).
  { intros m k x Hm C. apply (child_at_data _ h0) in C; [|now rewrite (fr_old _ _ F)]. apply O in C. lia. }
  split.
  - intros y i C. destruct (Nat.lt_ge_cases y (length h0)) as [Ly|Ly]; [apply Old in C; auto; lia|].
    apply (fr_child _ _ F) in C as (_ & _ & P' & _); auto. rewrite P in P'. injection P'. lia.
  - intros i y a k C A. apply (fr_child _ _ F) in C as (Ly & _ & P' & _); auto.
    destruct (Nat.lt_ge_cases a (length h0)) as [La|La]; [apply Old in A; auto; lia|].
    apply (fr_child _ _ F) in A as (_ & _ & P2 & _); auto. rewrite P' in P2. now injection P2.
Qed.
Lemma loose_ids_nodup h n ids : loose h -> ndata (getn h n) = DArr ids -> NoDup ids.
Proof.
  intros I Ed. apply NoDup_nth_error. intros i j Hi E. destruct (nth_error_lt ids i Hi) as (c & Hc).
  apply str_of_nat_inj. apply (lo_key h I n _ _ c); econstructor; eauto. congruence.
Qed.
Lemma array_ok h n ids l : loose h -> ndata (getn h n) = DArr ids -> NoDup l ->
  (forall c, In c l -> In c ids \/ (n < c /\ c < length h /\ up h c n /\ (exists z, nkey (getn h c) = Some (str_of_Z z)) /\
     ((exists b, taken h n c b /\ ~ In b l) \/ sole h c))) ->
  children_ok h n (DArr l).
Proof.
  intros I Ed ND H.
  assert (Old : forall c, In c ids -> exists j, child_at h n j c).
  { intros c Hc. apply In_nth_error in Hc as (j & Hj). exists (str_of_nat j). econstructor; eauto. }
  assert (Inl : forall k c, child_of (DArr l) k c -> exists i, k = str_of_nat i /\ nth_error l i = Some c).
  { intros k c C. inversion C as [? i ? E Hi|? ? ? E]; [|discriminate]. injection E as <-. eauto. }
  constructor.
  - intros m E. discriminate.
  - intros k c C. apply Inl in C as (i & -> & Hi). apply nth_error_In in Hi. destruct (H c Hi) as [Hc|(A & B & U & _)]; auto.
    apply Old in Hc as (j & Hc). apply (lo_child h I n j c Hc).
  - intros x E c Hc. injection E as <-. destruct (H c Hc) as [Hi|(A & B & U & Z & _)]; auto. now apply (lo_int h I n ids Ed).
  - intros k j x A B. apply Inl in A as (i & -> & Hi), B as (i' & -> & Hi'). f_equal.
    eapply (proj1 (NoDup_nth_error l) ND); [eapply nth_error_bound; eauto|congruence].
  - intros k x C. apply Inl in C as (i & -> & Hi). apply nth_error_In in Hi. destruct (H x Hi) as [Hc|(_ & _ & _ & _ & [(b & T & N)|S])]; auto.
    right. left. exists b. split; auto. intros j C. apply Inl in C as (i' & _ & Hb). apply N. eapply nth_error_In; eauto.
Qed.
Lemma object_ok h n m l : loose h -> ndata (getn h n) = DObj m -> NoDup (keys l) ->
  (forall k c, In (k, c) l -> In (k, c) m \/ (n < c /\ c < length h /\ up h c n /\ sole h c)) ->
  (forall k j c, In (k, c) l -> In (j, c) l -> sole h c -> k = j) ->
  children_ok h n (DObj l).
Proof.
  intros I Ed ND H Q.
  assert (Old : forall k c, In (k, c) m -> child_at h n k c) by (intros k c Hc; eapply ca_member; eauto).
  assert (Inl : forall k c, child_of (DObj l) k c -> In (k, c) l).
  { intros k c C. inversion C as [? i ? E Hi|? ? ? E]; [discriminate|]. now injection E as <-. }
  constructor.
  - intros x E. now injection E as <-.
  - intros k c C. apply Inl in C. destruct (H k c C) as [Hc|(A & B & U & _)]; auto. apply (lo_child h I n k c). auto.
  - intros x E. discriminate.
  - intros k j x A B. apply Inl in A, B. destruct (H k x A) as [Ha|(_ & _ & _ & S)]; [|now apply (Q k j x)].
    destruct (H j x B) as [Hb|(_ & _ & _ & S)]; [|now apply (Q k j x)]. apply (lo_key h I n k j x); auto.
  - intros k x C. apply Inl in C. destruct (H k x C) as [Hc|(_ & _ & _ & S)]; eauto.
Qed.
Lemma loose_items h h' n ids l : loose h -> local h h' n -> (forall c, In c ids -> n < c /\ c < length h) ->
  Forall2 (denotes h) ids l -> Forall2 (denotes h') ids l.
Proof.
  intros I Lo B F. induction F as [|c v ids l D F IH]; constructor.
  - destruct (B c (or_introl eq_refl)). now apply (loose_child_keeps h h' n).
  - apply IH. intros d Hd. apply B. now right.
Qed.
Lemma loose_members h h' n m l : loose h -> local h h' n -> (forall k c, In (k, c) m -> n < c /\ c < length h) ->
  Forall2 (mem_rel h) m l -> Forall2 (mem_rel h') m l.
Proof.
  intros I Lo B F. induction F as [|[k c] [k' v] m l [E D] F IH]; constructor.
  - destruct (B k c (or_introl eq_refl)). split; auto. simpl in *. now apply (loose_child_keeps h h' n).
  - apply IH. intros j d Hd. apply (B j d). now right.
Qed.
(** Storing a list of children. *)
Lemma loose_store h n ids l vs : loose h -> n < length h -> ndata (getn h n) = DArr ids -> children_ok h n (DArr l) ->
  Forall2 (denotes h) l vs ->
  exists h', inval_value (setn h n (with_data (getn h n) (DArr l))) n = (Ok tt, h') /\ loose h' /\ length h' = length h /\
    int_keys h' l /\ changes h h' n (Some (JArr vs)).
Proof.
  intros I Hn Ed K F. destruct (loose_edit h n (DArr l) I Hn K) as (h' & Eq & I' & L' & Lo & D & Ke & _).
  exists h'. split; auto. split; auto. split; auto. split; [now apply (lo_int h' I' n)|].
  apply loose_changes; auto. eapply denotes_arr; eauto. apply (loose_items h h' n); auto.
  intros c Hc. apply In_nth_error in Hc as (i & Hi).
  destruct (ck_child h n _ K (str_of_nat i) c) as (A & B & _); [|auto]. econstructor; eauto.
Qed.
Lemma loose_store_obj h n m l vs : loose h -> n < length h -> ndata (getn h n) = DObj m -> children_ok h n (DObj l) ->
  Forall2 (mem_rel h) l vs ->
  exists h', inval_value (setn h n (with_data (getn h n) (DObj l))) n = (Ok tt, h') /\ loose h' /\ length h' = length h /\
    changes h h' n (Some (JObj vs)).
Proof.
  intros I Hn Ed K F. destruct (loose_edit h n (DObj l) I Hn K) as (h' & Eq & I' & L' & Lo & D & Ke & _).
  exists h'. split; auto. split; auto. split; auto.
  apply loose_changes; auto. eapply denotes_obj; eauto. apply (loose_members h h' n); auto.
  intros k c Hc. destruct (ck_child h n _ K k c) as (A & B & _); [|auto]. econstructor; eauto.
Qed.
Lemma changes_after h h' h2 n v : changes h h' n (Some v) -> same_data h' h2 -> changes h h2 n (Some v).
Proof.
  intros (A & B & C) D. split; [now apply (denotes_data h')|]. split.
  - intros m Hm N x X. apply (denotes_data h'); auto. now apply (B m).
  - intros m p V Hm L X. apply (denotes_data h'); auto.
Qed.
