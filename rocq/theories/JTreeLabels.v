(** What the keys and paths of nodes are after any sequence of edits. *)
From Verif Require Import JTreeOps JTreeSim.
From Verif Require Export SpecLabels.
Open Scope nat_scope.

(** ** The skeleton of a coherent heap. *)
Record bones (h : heap) : Prop := {
  bo_child : forall n k c, child_at h n k c -> n < c /\ c < length h /\ nparent (getn h c) = Some n /\ exists l, nkey (getn h c) = Some l;
  bo_int : forall n ids c, ndata (getn h n) = DArr ids -> In c ids -> exists z, nkey (getn h c) = Some (str_of_Z z);
  bo_nodup : forall n ids, ndata (getn h n) = DArr ids -> NoDup ids;
  bo_parent : parents_lt h
}.
Lemma coherent_bones h : coherent h -> bones h.
Proof.
  intros (g & H & I). pose proof (inv_shape _ I) as S. constructor.
  - intros n k c C. apply (child_at_data h g) in C; [|apply (E_same h g H)]. destruct (sh_child g S n k c C) as (A & B & P & K).
    destruct (E_get h g c H) as [_ P' _ K']. rewrite K in K'. destruct K' as (l & K' & _). rewrite (E_len _ _ H), P'. eauto.
  - intros n ids c D Hc. rewrite (sim_data _ _ (E_get h g n H)) in D. apply (int_keys_left h g ids H (shape_int_keys g n ids S D)), Hc.
  - intros n ids D. rewrite (sim_data _ _ (E_get h g n H)) in D. now apply (shape_ids_nodup g n).
  - intros n p P. rewrite (sim_parent _ _ (E_get h g n H)) in P. now apply (shape_parents g S).
Qed.
Lemma bones_ordered h : bones h -> ordered h.
Proof. intros B n k c C. apply (bo_child h B) in C. lia. Qed.

(** ** Cached paths. *)
Definition pathful (h : heap) : Prop := forall r q n p, is_root h r -> labelled h r q n -> ncpath (getn h n) = Some p -> p = q.

Lemma labelled_bound h r q n : ordered h -> r < length h -> labelled h r q n -> r <= n /\ n < length h.
Proof. intros O Hr L. induction L as [|q n k c l L IH C K]; [lia|]. apply O in C. lia. Qed.
Lemma labelled_exists h r p n : bones h -> located h r p n -> exists q, labelled h r q n.
Proof.
  intros B L. induction L as [|p n k c L [q IH] C]; [exists []; constructor|]. destruct (bo_child h B n k c C) as (_ & _ & _ & l & K). exists (q ++ [l]). econstructor; eauto.
Qed.
Lemma labelled_located h r q n : labelled h r q n -> exists p, located h r p n.
Proof. intros L. induction L as [|q n k c l L [p IH] C K]; [exists []; constructor|]. exists (p ++ [k]). econstructor; eauto. Qed.
Lemma climb_labelled h r q n : bones h -> is_root h r -> labelled h r q n -> forall f acc, n < f -> climb f h n acc = Ok (q ++ acc).
Proof.
  intros B [Hr Rp] L. induction L as [|q n k c l L IH C K]; intros f acc Hf; destruct f as [|f]; try lia.
  - cbn [climb]. now rewrite Rp.
  - destruct (bo_child h B n k c C) as (A & _ & P & _). cbn [climb]. rewrite P, K, IH by lia. now rewrite <- app_assoc.
Qed.
Theorem pathful_read h r q n : coherent h -> pathful h -> is_root h r -> labelled h r q n -> fst (read_path h n) = Ok q.
Proof.
  intros C P R L. unfold read_path. destruct (ncpath (getn h n)) as [p|] eqn:Cp; [cbn; f_equal; now apply (P r q n)|].
  pose proof (coherent_bones h C) as B. destruct (labelled_bound h r q n (bones_ordered h B) (proj1 R) L) as [_ Hn].
  now rewrite (climb_labelled h r q n B R L) by lia; rewrite app_nil_r.
Qed.

(** ** Steps that keep cached paths right. *)
Definition under (h : heap) (a m : id) : Prop := exists p, located h a p m.
Lemma under_step h a n k c : under h a n -> child_at h n k c -> under h a c.
Proof. intros [p L] C. exists (p ++ [k]). econstructor; eauto. Qed.
Record relabels (h h' : heap) : Prop := {
  rl_len : length h <= length h';
  rl_order : ordered h';
  rl_edge : forall a k c, child_at h' a k c -> c < length h -> exists k', child_at h a k' c;
  rl_parent : forall m, m < length h -> nparent (getn h' m) = nparent (getn h m);
  rl_path : forall m p, ncpath (getn h' m) = Some p -> m < length h /\ ncpath (getn h m) = Some p /\
    forall a, under h' a m -> nkey (getn h' a) = nkey (getn h a)
}.
Lemma relabels_labelled h h' r q n : relabels h h' -> labelled h' r q n -> n < length h -> (forall a, under h' a n -> nkey (getn h' a) = nkey (getn h a)) -> labelled h r q n.
Proof.
  intros R L. induction L as [|q n k c l L IH C K]; intros Hn U; [constructor|].
  destruct (rl_order h h' R n k c C) as [Lt _]. destruct (rl_edge h h' R n k c C Hn) as (k' & C').
  apply (lab_step h r q n k' c l); [|exact C'|].
  - apply IH; [lia|]. intros a Ha. apply U. exact (under_step h' a n k c Ha C).
  - rewrite <- K. symmetry. apply U. exists []. constructor.
Qed.
Lemma relabels_pathful h h' : relabels h h' -> pathful h -> pathful h'.
Proof.
  intros R P r q n p [Hr Rr] L Cp. destruct (rl_path h h' R n p Cp) as (Hn & Cp' & U).
  destruct (labelled_bound h' r q n (rl_order h h' R) Hr L) as [Le _].
  apply (P r q n p); [split; [lia|rewrite <- (rl_parent h h' R) by lia; exact Rr]| |exact Cp']. now apply (relabels_labelled h h').
Qed.
(** Steps that change no data, keys or parents. *)
Lemma relabels_same h h' : ordered h -> same_tree h h' -> (forall m, ncpath (getn h' m) = None \/ ncpath (getn h' m) = ncpath (getn h m)) -> relabels h h'.
Proof.
  intros O [L T] P. assert (D : same_data h h') by (intro m; apply T). constructor.
  - lia.
  - now apply (ordered_data h h').
  - intros a k c C _. exists k. apply (child_at_data h' h); [symmetry; apply D|exact C].
  - intros m _. apply T.
  - intros m p Hp. destruct (P m) as [N|N]; [congruence|]. rewrite N in Hp. split; [|split; [exact Hp|intros a _; apply T]].
    destruct (Nat.lt_ge_cases m (length h)) as [?|G]; [assumption|]. rewrite getn_out in Hp by exact G. discriminate Hp.
Qed.
(** New nodes are made, and one node gets new children besides old ones of its
    own. *)
Lemma relabels_data h h1 n x : bones h -> fresh h h1 -> n < length h ->
  nparent x = nparent (getn h n) -> nkey x = nkey (getn h n) -> ncpath x = ncpath (getn h n) ->
  (forall k c, child_of (ndata x) k c -> n < c /\ c < length h1 /\ (c < length h -> exists k', child_at h n k' c)) ->
  relabels h (setn h1 n x).
Proof.
  intros B F Hn Xp Xk Xc Ch. pose proof (fr_len _ _ F) as Lf.
  assert (G : forall m, getn (setn h1 n x) m = if Nat.eqb n m then x else getn h1 m) by (intro m; now rewrite getn_setn by lia).
  pose proof (bones_ordered h B) as O.
  assert (Edge : forall a k c, child_at (setn h1 n x) a k c -> a < c /\ c < length h1 /\ (c < length h -> exists k', child_at h a k' c)).
  { intros a k c C. apply child_at_of in C. rewrite G in C. destruct (Nat.eqb_spec n a) as [<-|N]; [exact (Ch k c C)|]. apply child_at_of in C.
    destruct (Nat.lt_ge_cases a (length h)) as [La|La].
    - apply (child_at_data h1 h) in C; [|now rewrite (fr_old _ _ F)]. pose proof (O _ _ _ C). split; [lia|]. split; [lia|]. eauto.
    - destruct (fr_child _ _ F a k c La C) as (A1 & A2 & _). split; [exact A1|]. split; [exact A2|]. lia. }
  constructor.
  - rewrite length_setn. exact Lf.
  - intros a k c C. rewrite length_setn. destruct (Edge a k c C) as (A1 & A2 & _). auto.
  - intros a k c C Lc. now apply (Edge a k c C).
  - intros m Hm. rewrite G. destruct (Nat.eqb_spec n m) as [<-|_]; [exact Xp|now rewrite (fr_old _ _ F)].
  - intros m p Hp. rewrite G in Hp.
    assert (Hm : m < length h).
    { destruct (Nat.eqb_spec n m) as [<-|_]; [exact Hn|]. destruct (Nat.lt_ge_cases m (length h)) as [?|Lm]; [assumption|]. destruct (fr_caches _ _ F m Lm) as [A _]. congruence. }
    split; [exact Hm|]. split.
    + destruct (Nat.eqb_spec n m) as [<-|_]; [congruence|]. now rewrite (fr_old _ _ F) in Hp.
    + intros a [pa La]. assert (Ha : a <= m).
      { clear -La Edge. induction La as [|p n0 k c L IH C]; [lia|]. destruct (Edge _ _ _ C). lia. }
      rewrite G. destruct (Nat.eqb_spec n a) as [<-|_]; [exact Xk|]. now rewrite (fr_old _ _ F) by lia.
Qed.

(** ** Reading and dropping cached values. *)
Definition values_only (h h' : heap) : Prop := same_tree h h' /\ forall m, ncpath (getn h' m) = ncpath (getn h m).
Lemma values_refl h : values_only h h. Proof. split; [apply same_tree_refl|auto]. Qed.
Lemma values_trans a b c : values_only a b -> values_only b c -> values_only a c.
Proof. intros [T P] [T' P']. split; [exact (same_tree_trans _ _ _ T T')|]. intro m. now rewrite P', P. Qed.
Lemma values_set h n v : values_only h (setn h n (with_cvalue (getn h n) v)).
Proof.
  split; [apply setn_tree; reflexivity|]. intro m. destruct (Nat.lt_ge_cases n (length h)) as [L|L]; [|now rewrite setn_out].
  rewrite getn_setn by exact L. destruct (Nat.eqb_spec n m) as [<-|]; reflexivity.
Qed.
Lemma values_read_f f : forall h n, values_only h (snd (read_value_f f h n)).
Proof.
  induction f as [|f IH]; intros h n; [apply values_refl|]. cbn [read_value_f]. destruct (ncvalue (getn h n)); [apply values_refl|].
  destruct (ndata (getn h n)) as [|b|x|s|ids|m]; try apply values_set.
  - generalize (@nil json) as acc. revert h. induction ids as [|c ids IHi]; intros h acc; [apply values_set|].
    pose proof (IH h c) as V. destruct (read_value_f f h c) as [[v|e|] h1]; cbn [snd] in *; [|exact V|exact V]. exact (values_trans _ _ _ V (IHi h1 (v :: acc))).
  - generalize (@nil (pystr * json)) as acc. revert h. induction m as [|[k c] m IHi]; intros h acc; [apply values_set|].
    pose proof (IH h c) as V. destruct (read_value_f f h c) as [[v|e|] h1]; cbn [snd] in *; [|exact V|exact V]. exact (values_trans _ _ _ V (IHi h1 ((k, v) :: acc))).
Qed.
Lemma values_read h n : values_only h (snd (read_value h n)). Proof. apply values_read_f. Qed.
Lemma values_operand h o : values_only h (snd (operand_value h o)).
Proof. destruct o; [apply values_refl|apply values_read]. Qed.
Lemma values_inval_f f : forall h n, values_only h (snd (inval_value_f f h n)).
Proof.
  induction f as [|f IH]; intros h n; [apply values_refl|]. cbn [inval_value_f]. pose proof (values_set h n None) as V. destruct (nparent _); [|exact V]. exact (values_trans _ _ _ V (IH _ _)).
Qed.
Lemma values_inval h n : values_only h (snd (inval_value h n)). Proof. apply values_inval_f. Qed.
Lemma values_pathful h h' : ordered h -> values_only h h' -> pathful h -> pathful h'.
Proof. intros O [T P]. apply relabels_pathful, relabels_same; auto. Qed.

(** ** Renumbering. *)
Lemma renumber_labels delta ids : forall h zs, ordered h -> NoDup ids -> (forall c, In c ids -> c < length h) -> labels h ids zs ->
  exists h', renumber delta ids h = (Ok tt, h') /\ length h' = length h /\
    (forall m, ndata (getn h' m) = ndata (getn h m) /\ nparent (getn h' m) = nparent (getn h m) /\ ncvalue (getn h' m) = ncvalue (getn h m)) /\
    labels h' ids (map (fun z => (z + delta)%Z) zs) /\
    (forall m, ~ In m ids -> nkey (getn h' m) = nkey (getn h m)) /\
    (forall m, ncpath (getn h' m) = None \/ ncpath (getn h' m) = ncpath (getn h m)) /\
    (forall c p m, In c ids -> located h c p m -> ncpath (getn h' m) = None).
Proof.
  induction ids as [|c ids IH]; intros h zs O ND B K.
  - inversion K; subst. exists h. cbn [renumber]. split; auto. split; auto. split; auto. split; [constructor|]. split; auto. split; auto. intros c p m [].
  - inversion K as [|? z ? zs' Kc K']; subst. cbn [renumber]. rewrite Kc. rewrite py_int_str_of_Z. inversion ND as [|? ? Nin ND']; subst.
    assert (Lc : c < length h) by (apply B; now left).
    set (h1 := setn h c (with_key (getn h c) (Some (str_of_Z (z + delta))))).
    assert (G1 : forall m, getn h1 m = if Nat.eqb c m then with_key (getn h c) (Some (str_of_Z (z + delta))) else getn h m)
      by (intro m; unfold h1; now rewrite getn_setn).
    assert (L1 : length h1 = length h) by apply length_setn.
    assert (D1 : same_data h h1).
    { intro m. rewrite G1. destruct (Nat.eqb_spec c m); subst; auto. }
    destruct (inval_path_spec h1 c (ordered_data _ _ L1 D1 O) ltac:(lia)) as (h2 & E2 & (T2 & V2 & P2) & N2).
    rewrite E2. cbn [hbind].
    assert (L2 : length h2 = length h) by (destruct T2; congruence).
    assert (D2 : same_data h h2) by (eapply same_data_trans; [exact D1|now apply same_tree_data]).
    assert (K2 : forall m, nkey (getn h2 m) = if Nat.eqb c m then Some (str_of_Z (z + delta)) else nkey (getn h m)).
    { intro m. destruct T2 as [_ T2]. destruct (T2 m) as (_ & _ & ->). rewrite G1.
      destruct (Nat.eqb_spec c m); auto. }
    destruct (IH h2 zs') as (h3 & E3 & L3 & S3 & K3 & O3 & P3 & N3).
    + eapply ordered_data; eauto.
    + auto.
    + intros c' Hc'. rewrite L2. apply B. now right.
    + unfold labels. clear -K' K2 Nin. induction K' as [|c' y ids zs' Ky K' IH]; constructor.
      * rewrite K2. destruct (Nat.eqb_spec c c') as [<-|N]; [destruct Nin; now left|exact Ky].
      * apply IH. intro. apply Nin. now right.
    + exists h3. split; auto. split; [lia|]. split; [|split; [|split; [|split]]].
      * intro m. destruct (S3 m) as (A1 & A2 & A3). rewrite A1, A2, A3.
        destruct T2 as [_ T2]. destruct (T2 m) as (B1 & B2 & _). rewrite B1, B2, V2, G1.
        destruct (Nat.eqb_spec c m); subst; auto.
      * constructor; [|exact K3]. rewrite O3 by exact Nin. now rewrite K2, Nat.eqb_refl.
      * intros m Hm. rewrite O3 by (intro; apply Hm; now right). rewrite K2.
        destruct (Nat.eqb_spec c m); auto. subst. exfalso. apply Hm. now left.
      * intro m. destruct (P3 m) as [-> | ->]; auto. destruct (P2 m) as [-> | ->]; auto. rewrite G1.
        destruct (Nat.eqb_spec c m); subst; auto.
      * intros c' p m [<-|Hin] L.
        -- apply (located_data h h1) in L; auto. apply N2 in L. destruct (P3 m) as [-> | ->]; auto.
        -- eapply N3; eauto. eapply located_data; eauto.
Qed.
Lemma path_bound h m p : ncpath (getn h m) = Some p -> m < length h.
Proof. intro H. destruct (Nat.lt_ge_cases m (length h)) as [?|G]; [assumption|]. rewrite getn_out in H by exact G. discriminate H. Qed.
Lemma renumber_relabels h h' ids : ordered h -> length h' = length h ->
  (forall m, ndata (getn h' m) = ndata (getn h m) /\ nparent (getn h' m) = nparent (getn h m) /\ ncvalue (getn h' m) = ncvalue (getn h m)) ->
  (forall m, ~ In m ids -> nkey (getn h' m) = nkey (getn h m)) ->
  (forall m, ncpath (getn h' m) = None \/ ncpath (getn h' m) = ncpath (getn h m)) ->
  (forall c p m, In c ids -> located h c p m -> ncpath (getn h' m) = None) -> relabels h h'.
Proof.
  intros O L S K P N. assert (D : same_data h h') by (intro m; apply S). constructor.
  - lia.
  - now apply (ordered_data h h').
  - intros a k c C _. exists k. apply (child_at_data h' h); [symmetry; apply D|exact C].
  - intros m _. apply S.
  - intros m p Hp. destruct (P m) as [Q|Q]; [congruence|]. rewrite Q in Hp. split; [exact (path_bound h m p Hp)|]. split; [exact Hp|].
    intros a [pa La]. apply K. intro Ha. apply (located_data h' h) in La; [|now apply same_data_sym]. pose proof (N a pa m Ha La). congruence.
Qed.

(** *** Lists. *)
Lemma labels_firstn h ids zs j : labels h ids zs -> labels h (firstn j ids) (firstn j zs). Proof. apply Forall2_firstn. Qed.
Lemma labels_skipn h ids zs j : labels h ids zs -> labels h (skipn j ids) (skipn j zs). Proof. apply Forall2_skipn. Qed.
Lemma labels_same h h' ids zs : (forall c, In c ids -> nkey (getn h' c) = nkey (getn h c)) -> labels h ids zs -> labels h' ids zs.
Proof. intros K L. induction L as [|c z ids zs Lc L IH]; constructor; [rewrite K by (now left); exact Lc|]. apply IH. intros. apply K. now right. Qed.
Lemma remove_nth_drop {A} k (l : list A) : remove_nth k l = drop k l.
Proof. unfold drop. revert k. induction l as [|x l IH]; intros [|k]; try reflexivity. cbn. now rewrite IH. Qed.
Lemma update_nth_put {A} k (x : A) l : k < length l -> update_nth k x l = put k x l.
Proof. unfold put. revert k. induction l as [|y l IH]; intros [|k] H; cbn in H; try lia; [reflexivity|]. cbn. rewrite IH by lia. reflexivity. Qed.
Lemma In_drop {A} k (l : list A) x : In x (drop k l) -> In x l.
Proof. rewrite <- remove_nth_drop. apply In_remove_nth. Qed.
Lemma In_squeeze {A} k (y : A) l x : In x (squeeze k y l) -> x = y \/ In x l.
Proof.
  unfold squeeze. rewrite in_app_iff. intros [H|[->|H]]; auto; right; rewrite <- (firstn_skipn k l); apply in_or_app; auto.
Qed.
Lemma In_put {A} k (y : A) l x : In x (put k y l) -> x = y \/ In x l.
Proof.
  unfold put. rewrite in_app_iff. intros [H|[->|H]]; auto; right; [|exact (In_skipn' (S k) l x H)]. rewrite <- (firstn_skipn k l); apply in_or_app; auto.
Qed.
Lemma NoDup_drop {A} k (l : list A) : NoDup l -> NoDup (drop k l).
Proof.
  rewrite <- remove_nth_drop. intro H. revert k. induction H as [|x l N H IH]; intros [|k]; cbn; auto; try constructor; auto. intro X. now apply In_remove_nth in X.
Qed.
Lemma NoDup_squeeze {A} k (y : A) l : NoDup l -> ~ In y l -> NoDup (squeeze k y l).
Proof.
  unfold squeeze. intros H N. apply NoDup_Add with (a := y) (l := firstn k l ++ skipn k l); [|rewrite firstn_skipn; auto]. apply Add_app.
Qed.
Lemma labels_drop h k ids zs : labels h ids zs -> labels h (drop k ids) (drop k zs).
Proof. intro L. apply Forall2_app; [now apply labels_firstn|now apply labels_skipn]. Qed.
Lemma labels_squeeze h k ids zs c z : labels h ids zs -> nkey (getn h c) = Some (str_of_Z z) -> labels h (squeeze k c ids) (squeeze k z zs).
Proof. intros L K. apply Forall2_app; [now apply labels_firstn|]. constructor; [exact K|now apply labels_skipn]. Qed.
Lemma labels_put h k ids zs c z : labels h ids zs -> nkey (getn h c) = Some (str_of_Z z) -> labels h (put k c ids) (put k z zs).
Proof. intros L K. apply Forall2_app; [now apply labels_firstn|]. constructor; [exact K|now apply labels_skipn]. Qed.

(** *** Invalidating the value, then renumbering from some position on. *)
Lemma tail_labels h n ids zs j d : parents_lt h -> ordered h -> pathful h -> n < length h -> NoDup ids -> (forall c, In c ids -> c < length h) -> labels h ids zs ->
  exists h', hbind (inval_value h n) (fun _ h => renumber d (skipn j ids) h) = (Ok tt, h') /\ length h' = length h /\ pathful h' /\
    (forall m, ndata (getn h' m) = ndata (getn h m) /\ nparent (getn h' m) = nparent (getn h m)) /\
    labels h' ids (shift_from j d zs) /\ (forall m, ~ In m ids -> nkey (getn h' m) = nkey (getn h m)).
Proof.
  intros Pl O P Hn Nd Bd L. destruct (inval_value_spec h n Pl Hn) as (h2 & -> & T & Cp & _). cbn [hbind].
  assert (V : values_only h h2) by (split; auto). pose proof (values_pathful h h2 O V P) as P2. destruct T as [L2 T].
  assert (O2 : ordered h2) by (apply (ordered_data h h2); [exact L2|intro m; apply T|exact O]).
  assert (Lb2 : labels h2 ids zs) by (apply (labels_same h h2); [intros c _; apply T|exact L]).
  assert (Nj : NoDup (skipn j ids)). { rewrite <- (firstn_skipn j ids) in Nd. clear -Nd. induction (firstn j ids) as [|x l IH]; [exact Nd|]. apply IH. now inversion Nd. }
  destruct (renumber_labels d (skipn j ids) h2 (skipn j zs) O2 Nj) as (h3 & E3 & L3 & S3 & K3 & Ko & P3 & N3).
  { intros c Hc. rewrite L2. apply Bd. exact (In_skipn' j ids c Hc). }
  { now apply labels_skipn. }
  exists h3. split; [exact E3|]. split; [lia|]. split; [exact (relabels_pathful h2 h3 (renumber_relabels h2 h3 _ O2 L3 S3 Ko P3 N3) P2)|]. split.
  - intro m. destruct (S3 m) as (A & B & _), (T m) as (A' & B' & _). split; congruence.
  - split.
    + unfold shift_from. rewrite <- (firstn_skipn j ids). apply Forall2_app; [|exact K3]. apply (labels_same h2 h3); [|now apply labels_firstn].
      intros c Hc. apply Ko. intro Hs. rewrite <- (firstn_skipn j ids) in Nd. clear -Nd Hc Hs. induction (firstn j ids) as [|x l IH]; [destruct Hc|]. inversion Nd as [|? ? Nx Nd']; subst.
      destruct Hc as [->|Hc]; [apply Nx; apply in_or_app; now right|now apply IH].
    + intros m Hm. rewrite Ko by (intro X; apply Hm; exact (In_skipn' j ids m X)). apply T.
Qed.

Lemma setn_same h n : setn h n (getn h n) = h.
Proof.
  unfold setn, getn. revert n. induction h as [|x h IH]; intros [|n]; try reflexivity. cbn. now rewrite IH.
Qed.
Lemma relabels_fresh h h1 n : bones h -> fresh h h1 -> n < length h -> relabels h h1.
Proof.
  intros B F Hn. rewrite <- (setn_same h1 n). apply relabels_data; auto; try (now rewrite (fr_old _ _ F)).
  intros k c C. rewrite (fr_old _ _ F) in C by exact Hn. apply child_at_of in C. pose proof (bones_ordered h B _ _ _ C). pose proof (fr_len _ _ F). split; [lia|]. split; [lia|]. eauto.
Qed.

(** ** The operations. *)
Definition fit (h : heap) : Prop := coherent h /\ pathful h.

Theorem delitem_labels h n ids zs z k : fit h -> n < length h -> ndata (getn h n) = DArr ids -> labels h ids zs -> norm_index (length ids) z = Some k ->
  exists h', delitem h n (IInt z) = (Ok tt, h') /\ pathful h' /\ length h' = length h /\ ndata (getn h' n) = DArr (drop k ids) /\
    labels h' (drop k ids) (shift_from (clamp_index (pred (length ids)) z) (-1) (drop k zs)) /\ only h h' n (drop k ids).
Proof.
  intros [C P] Hn D L Nk. pose proof (coherent_bones h C) as B. unfold delitem. rewrite D, Nk. cbv zeta. rewrite remove_nth_drop.
  set (h1 := setn h n (with_data (getn h n) (DArr (drop k ids)))). pose proof (norm_index_bound _ _ _ Nk) as Lk.
  assert (G : forall m, getn h1 m = if Nat.eqb n m then with_data (getn h n) (DArr (drop k ids)) else getn h m) by (intro m; unfold h1; now rewrite getn_setn).
  assert (R : relabels h h1).
  { apply (relabels_data h h n _ B (fresh_refl h) Hn); try reflexivity. intros k' c Ck. inversion Ck as [ids' i c' Q Hi|m0 k0 c0 Q]; [|discriminate Q]. injection Q as <-.
    apply nth_error_In in Hi. apply In_drop in Hi. apply In_nth_error in Hi. destruct Hi as [j Hj].
    assert (Cj : child_at h n (str_of_nat j) c) by (econstructor; eauto). pose proof (bones_ordered h B _ _ _ Cj). split; [lia|]. split; [lia|]. eauto. }
  assert (L1 : length h1 = length h) by apply length_setn.
  assert (Ks : forall m, nkey (getn h1 m) = nkey (getn h m)) by (intro m; rewrite G; destruct (Nat.eqb_spec n m) as [<-|]; reflexivity).
  assert (Es : slice_from (drop k ids) z = skipn (clamp_index (pred (length ids)) z) (drop k ids)).
  { unfold slice_from. do 2 f_equal. unfold drop. rewrite app_length, firstn_length, skipn_length. lia. }
  rewrite Es.
  destruct (tail_labels h1 n (drop k ids) (drop k zs) (clamp_index (pred (length ids)) z) (-1)) as (h' & E' & L' & P' & S' & K' & O').
  - intros m p. rewrite G. destruct (Nat.eqb_spec n m) as [<-|]; apply (bo_parent h B).
  - exact (rl_order _ _ R).
  - exact (relabels_pathful _ _ R P).
  - lia.
  - apply NoDup_drop. exact (bo_nodup h B n ids D).
  - intros c Hc. apply In_drop, In_nth_error in Hc. destruct Hc as [j Hj]. rewrite L1. exact (proj2 (bones_ordered h B n (str_of_nat j) c ltac:(econstructor; eauto))).
  - apply (labels_same h h1); [intros; apply Ks|now apply labels_drop].
  - exists h'. split; [exact E'|]. split; [exact P'|]. split; [lia|]. split; [|split; [exact K'|split; [|split]]].
    + rewrite (proj1 (S' n)), G, Nat.eqb_refl. reflexivity.
    + intros m _ Nm. rewrite (proj1 (S' m)), G. destruct (Nat.eqb_spec n m); congruence.
    + intros m _. rewrite (proj2 (S' m)), G. destruct (Nat.eqb_spec n m) as [<-|]; reflexivity.
    + intros m _ Nm. rewrite (O' m Nm). apply Ks.
Qed.

(** A new item is made for array or object [n]. *)
Lemma new_item h n o w key : fit h -> n < length h -> operand_ok h o -> operand_is h o w ->
  exists h0 h1, operand_value h o = (Ok w, h0) /\ fit h0 /\ length h0 = length h /\ same_tree h h0 /\
    new_node w h0 (Some n) (Some key) = (h1, length h) /\ fresh h0 h1 /\ length h < length h1 /\
    nparent (getn h1 (length h)) = Some n /\ nkey (getn h1 (length h)) = Some key.
Proof.
  intros [C P] Hn OK W. destruct (any_operand h o w C OK W) as (h0 & E0 & C0 & L0 & _ & JW). exists h0.
  pose proof (values_operand h o) as V. rewrite E0 in V. cbn [snd] in V.
  assert (P0 : pathful h0) by exact (values_pathful h h0 (bones_ordered h (coherent_bones h C)) V P).
  pose proof (init_spec w JW (h0 ++ [blank]) (length h0) (Some n) (Some key)) as Bt.
  destruct (built_fresh h0 n key w _ ltac:(lia) (Bt ltac:(rewrite app_length; cbn; lia))) as (F & Lf & Pf & Kf & _).
  exists (init w (h0 ++ [blank]) (length h0) (Some n) (Some key)). split; [exact E0|]. split; [split; assumption|]. split; [exact L0|]. split; [exact (proj1 V)|].
  unfold new_node. rewrite <- L0. split; [reflexivity|]. auto.
Qed.
Theorem insert_labels h n ids zs z o w : fit h -> n < length h -> operand_ok h o -> operand_is h o w -> ndata (getn h n) = DArr ids -> labels h ids zs ->
  let k := clamp_index (length ids) z in
  exists h', insert h n z o = (Ok tt, h') /\ pathful h' /\ length h < length h' /\ ndata (getn h' n) = DArr (squeeze k (length h) ids) /\
    labels h' (squeeze k (length h) ids) (shift_from (clamp_index (S (length ids)) (z + 1)) 1 (squeeze k z zs)) /\ only h h' n ids.
Proof.
  intros Ft Hn OK W D L k. unfold insert. rewrite D. destruct (new_item h n o w (str_of_Z z) Ft Hn OK W) as (h0 & h1 & E0 & [C0 P0] & L0 & T0 & En & F & Lf & Pf & Kf).
  rewrite E0. cbn [hbind]. rewrite En. pose proof (coherent_bones h0 C0) as B. destruct T0 as [_ T0]. fold k. change (insert_nth k (length h) ids) with (squeeze k (length h) ids).
  assert (D0 : ndata (getn h0 n) = DArr ids) by (destruct (T0 n) as (-> & _); exact D).
  assert (Old : forall m, m < length h -> getn h1 m = getn h0 m) by (intros m Hm; apply (fr_old _ _ F); lia).
  set (h2 := setn h1 n (with_data (getn h1 n) (DArr (squeeze k (length h) ids)))).
  assert (G : forall m, getn h2 m = if Nat.eqb n m then with_data (getn h1 n) (DArr (squeeze k (length h) ids)) else getn h1 m) by (intro m; unfold h2; rewrite getn_setn by lia; reflexivity).
  assert (Kid : forall c, In c ids -> n < c /\ c < length h /\ exists k', child_at h0 n k' c).
  { intros c Hc. apply In_nth_error in Hc. destruct Hc as [j Hj]. assert (Cj : child_at h0 n (str_of_nat j) c) by (econstructor; eauto). pose proof (bones_ordered h0 B _ _ _ Cj). split; [lia|]. split; [lia|eauto]. }
  assert (R : relabels h0 h2).
  { apply (relabels_data h0 h1 n _ B F ltac:(lia)); try (cbn; now rewrite Old). intros k' c Ck. inversion Ck as [ids' i c' Q Hi|m0 k0 c0 Q]; [|discriminate Q]. injection Q as <-.
    apply nth_error_In, In_squeeze in Hi. destruct Hi as [->|Hi]; [split; [lia|]; split; [lia|]; lia|]. destruct (Kid c Hi) as (A1 & A2 & A3). split; [exact A1|]. split; [lia|]. auto. }
  assert (L2 : length h2 = length h1) by apply length_setn.
  assert (Ks : forall m, nkey (getn h2 m) = nkey (getn h1 m)) by (intro m; rewrite G; destruct (Nat.eqb_spec n m) as [<-|]; reflexivity).
  assert (Es : slice_from (squeeze k (length h) ids) (z + 1) = skipn (clamp_index (S (length ids)) (z + 1)) (squeeze k (length h) ids)).
  { unfold slice_from. do 2 f_equal. pose proof (clamp_le (length ids) z) as Ck. fold k in Ck. unfold squeeze. rewrite app_length, firstn_length. cbn [length]. rewrite skipn_length. lia. }
  rewrite Es.
  destruct (tail_labels h2 n (squeeze k (length h) ids) (squeeze k z zs) (clamp_index (S (length ids)) (z + 1)) 1) as (h' & E' & L' & P' & S' & K' & O').
  - intros m p. rewrite G. destruct (Nat.eqb_spec n m) as [<-|Nm].
    + cbn. rewrite Old by exact Hn. apply (bo_parent h0 B).
    + destruct (Nat.lt_ge_cases m (length h)) as [Lm|Lm]; [rewrite Old by exact Lm; apply (bo_parent h0 B)|].
      intro Q. destruct (Nat.lt_ge_cases m (length h1)) as [Lm'|Lm']; [|rewrite getn_out in Q by exact Lm'; discriminate Q].
      destruct (fr_parent _ _ F m ltac:(lia) Lm') as (p' & k' & A1 & A2 & _). congruence.
  - exact (rl_order _ _ R).
  - exact (relabels_pathful _ _ R P0).
  - lia.
  - apply NoDup_squeeze; [exact (bo_nodup h0 B n ids D0)|]. intro X. apply Kid in X. lia.
  - intros c Hc. rewrite L2. apply In_squeeze in Hc. destruct Hc as [->|Hc]; [exact Lf|]. apply Kid in Hc. lia.
  - apply labels_squeeze; [|now rewrite Ks]. apply (labels_same h h2); [|exact L]. intros c Hc. apply Kid in Hc. rewrite Ks, Old by lia. apply T0.
  - exists h'. split; [exact E'|]. split; [exact P'|]. split; [lia|]. split; [|split; [exact K'|split; [|split]]].
    + rewrite (proj1 (S' n)), G, Nat.eqb_refl. reflexivity.
    + intros m Hm Nm. rewrite (proj1 (S' m)), G. destruct (Nat.eqb_spec n m); [congruence|]. rewrite Old by exact Hm. apply T0.
    + intros m Hm. rewrite (proj2 (S' m)), G. destruct (Nat.eqb_spec n m) as [<-|]; cbn; rewrite Old by exact Hm; apply T0.
    + intros m Hm Nm. rewrite O' by (intro X; apply In_squeeze in X; destruct X as [->|X]; [lia|contradiction]). rewrite Ks, Old by exact Hm. apply T0.
Qed.
Theorem setitem_labels h n ids zs z k o w : fit h -> n < length h -> operand_ok h o -> operand_is h o w -> ndata (getn h n) = DArr ids -> labels h ids zs -> norm_index (length ids) z = Some k ->
  exists h', setitem h n (IInt z) o = (Ok tt, h') /\ pathful h' /\ length h < length h' /\ ndata (getn h' n) = DArr (put k (length h) ids) /\
    labels h' (put k (length h) ids) (put k z zs) /\ only h h' n [].
Proof.
  intros Ft Hn OK W D L Nk. unfold setitem. destruct (new_item h n o w (str_of_Z z) Ft Hn OK W) as (h0 & h1 & E0 & [C0 P0] & L0 & T0 & En & F & Lf & Pf & Kf).
  rewrite E0. cbn [hbind index_str]. rewrite En. pose proof (coherent_bones h0 C0) as B. destruct T0 as [_ T0].
  assert (D0 : ndata (getn h0 n) = DArr ids) by (destruct (T0 n) as (-> & _); exact D).
  assert (Old : forall m, m < length h -> getn h1 m = getn h0 m) by (intros m Hm; apply (fr_old _ _ F); lia).
  rewrite Old, D0, Nk by exact Hn. rewrite update_nth_put by exact (norm_index_bound _ _ _ Nk).
  set (h2 := setn h1 n _).
  assert (G : forall m, getn h2 m = if Nat.eqb n m then with_data (getn h0 n) (DArr (put k (length h) ids)) else getn h1 m) by (intro m; unfold h2; rewrite getn_setn by lia; reflexivity).
  assert (Kid : forall c, In c ids -> n < c /\ c < length h /\ exists k', child_at h0 n k' c).
  { intros c Hc. apply In_nth_error in Hc. destruct Hc as [j Hj]. assert (Cj : child_at h0 n (str_of_nat j) c) by (econstructor; eauto). pose proof (bones_ordered h0 B _ _ _ Cj). split; [lia|]. split; [lia|eauto]. }
  assert (R : relabels h0 h2).
  { apply (relabels_data h0 h1 n _ B F ltac:(lia)); try reflexivity. intros k' c Ck. inversion Ck as [ids' i c' Q Hi|m0 k0 c0 Q]; [|discriminate Q]. injection Q as <-.
    apply nth_error_In, In_put in Hi. destruct Hi as [->|Hi]; [split; [lia|]; split; [lia|]; lia|]. destruct (Kid c Hi) as (A1 & A2 & A3). split; [exact A1|]. split; [lia|]. auto. }
  assert (L2 : length h2 = length h1) by apply length_setn.
  assert (Ks : forall m, nkey (getn h2 m) = nkey (getn h1 m)) by (intro m; rewrite G; destruct (Nat.eqb_spec n m) as [<-|]; [rewrite Old by exact Hn|]; reflexivity).
  assert (Pl : parents_lt h2).
  { intros m p. rewrite G. destruct (Nat.eqb_spec n m) as [<-|Nm]; [apply (bo_parent h0 B)|].
    destruct (Nat.lt_ge_cases m (length h)) as [Lm|Lm]; [rewrite Old by exact Lm; apply (bo_parent h0 B)|].
    intro Q. destruct (Nat.lt_ge_cases m (length h1)) as [Lm'|Lm']; [|rewrite getn_out in Q by exact Lm'; discriminate Q].
    destruct (fr_parent _ _ F m ltac:(lia) Lm') as (p' & k' & A1 & A2 & _). congruence. }
  destruct (inval_value_spec h2 n Pl ltac:(lia)) as (h' & E' & T' & Cp & _). pose proof (values_pathful h2 h' (rl_order _ _ R) (conj T' Cp) (relabels_pathful _ _ R P0)) as P'.
  destruct T' as [L' T']. exists h'. split; [exact E'|]. split; [exact P'|]. split; [lia|].
  assert (Kh : forall m, nkey (getn h' m) = nkey (getn h1 m)) by (intro m; destruct (T' m) as (_ & _ & ->); apply Ks).
  split; [|split; [|split; [|split]]].
  - destruct (T' n) as (-> & _). rewrite G, Nat.eqb_refl. reflexivity.
  - apply labels_put; [|now rewrite Kh]. apply (labels_same h h'); [|exact L]. intros c Hc. apply Kid in Hc. rewrite Kh, Old by lia. apply T0.
  - intros m Hm Nm. destruct (T' m) as (-> & _). rewrite G. destruct (Nat.eqb_spec n m); [congruence|]. rewrite Old by exact Hm. apply T0.
  - intros m Hm. destruct (T' m) as (_ & -> & _). rewrite G. destruct (Nat.eqb_spec n m) as [<-|]; cbn; rewrite ?Old by exact Hm; apply T0.
  - intros m Hm _. rewrite Kh, Old by exact Hm. apply T0.
Qed.

(** ** Cached paths are right after every operation. *)
Lemma bones_labels h n ids : bones h -> ndata (getn h n) = DArr ids -> exists zs, labels h ids zs.
Proof.
  intros B D. pose proof (fun c => bo_int h B n ids c D) as K. clear D. induction ids as [|c ids IH]; [exists []; constructor|].
  destruct (K c (or_introl eq_refl)) as [z Kz]. destruct IH as [zs L]; [intros c' Hc'; apply K; now right|]. exists (z :: zs). now constructor.
Qed.
Lemma dset_member {A} s (c : A) m k x : In (k, x) (dset s c m) -> x = c \/ exists k', In (k', x) m.
Proof.
  induction m as [|[k' y] m IH]; cbn.
  - intros [H|[]]. injection H as _ <-. now left.
  - destruct (str_eqb s k'); cbn; intros [H|H].
    + injection H as _ <-. now left.
    + right. exists k. now right.
    + right. exists k. left. exact H.
    + destruct (IH H) as [?|[k2 ?]]; [now left|right]. exists k2. now right.
Qed.
Lemma ddel_member {A} s (m : list (pystr * A)) kx : In kx (ddel s m) -> In kx m.
Proof.
  induction m as [|[k' y] m IH]; cbn; [tauto|]. destruct (str_eqb s k'); cbn; tauto.
Qed.
Lemma no_children h n : (forall k c, child_of (ndata (getn h n)) k c -> False) -> forall k c, ~ child_at h n k c.
Proof. intros H k c C. apply child_at_of in C. eauto. Qed.

Lemma pathful_inval h n : ordered h -> pathful h -> pathful (snd (inval_value h n)).
Proof. intros O P. exact (values_pathful h _ O (values_inval h n) P). Qed.
Lemma pathful_delitem h n i : fit h -> n < length h -> pathful (snd (delitem h n i)).
Proof.
  intros [C P] Hn. pose proof (coherent_bones h C) as B. unfold delitem. destruct (ndata (getn h n)) as [|b|x|s|ids|m] eqn:D; try exact P.
  - destruct i as [z|s]; [|exact P]. destruct (norm_index (length ids) z) as [k|] eqn:Nk; [|exact P]. destruct (bones_labels h n ids B D) as [zs L].
    destruct (delitem_labels h n ids zs z k (conj C P) Hn D L Nk) as (h' & E & P' & _). unfold delitem in E. rewrite D, Nk in E. cbv zeta in *. rewrite E. exact P'.
  - destruct i as [z|s]; [exact P|]. destruct (dget s m); [|exact P].
    assert (R : relabels h (setn h n (with_data (getn h n) (DObj (ddel s m))))).
    { apply (relabels_data h h n _ B (fresh_refl h) Hn); try reflexivity. intros k' c Ck. inversion Ck as [ids' i c' Q Hi|m0 k0 c0 Q Hi]; [discriminate Q|]. injection Q as <-.
      apply ddel_member in Hi. assert (Cj : child_at h n k' c) by (econstructor; eauto). pose proof (bones_ordered h B _ _ _ Cj). split; [lia|]. split; [lia|]. eauto. }
    apply pathful_inval; [exact (rl_order _ _ R)|exact (relabels_pathful _ _ R P)].
Qed.
Lemma pathful_setitem h n i o : fit h -> n < length h -> operand_ok h o -> pathful (snd (setitem h n i o)).
Proof.
  intros F0 Hn OK. destruct F0 as [C P]. destruct (any_operand_total h o C OK) as (w & W).
  destruct (new_item h n o w (index_str i) (conj C P) Hn OK W) as (h0 & h1 & E0 & [C0 P0] & L0 & T0 & En & F & Lf & Pf & Kf). pose proof (coherent_bones h0 C0) as B.
  assert (Bad : forall e : exn, pathful (snd (Exn e : res unit, h1))). { intro e. exact (relabels_pathful _ _ (relabels_fresh h0 h1 n B F ltac:(lia)) P0). }
  assert (Old : getn h1 n = getn h0 n) by (apply (fr_old _ _ F); lia). destruct T0 as [_ T0].
  unfold setitem. rewrite E0. cbn [hbind]. rewrite En, Old.
  destruct (ndata (getn h0 n)) as [|b|x|s|ids|m] eqn:D; try apply Bad.
  - destruct i as [z|s]; [|apply Bad]. destruct (norm_index (length ids) z) as [k|] eqn:Nk; [|apply Bad].
    assert (D' : ndata (getn h n) = DArr ids) by (destruct (T0 n) as (A & _); congruence). destruct (bones_labels h n ids (coherent_bones h C) D') as [zs L].
    destruct (setitem_labels h n ids zs z k o w (conj C P) Hn OK W D' L Nk) as (h' & E & P' & _). unfold setitem in E. rewrite E0 in E. cbn [hbind] in E. rewrite En, Old, D, Nk in E. rewrite E. exact P'.
  - destruct i as [z|s]; [apply Bad|].
    assert (R : relabels h0 (setn h1 n (with_data (getn h0 n) (DObj (dset s (length h) m))))).
    { apply (relabels_data h0 h1 n _ B F ltac:(lia)); try reflexivity. intros k' c Ck. inversion Ck as [ids' i c' Q Hi|m0 k0 c0 Q Hi]; [discriminate Q|]. injection Q as <-.
      apply dset_member in Hi. destruct Hi as [->|[k2 Hi]]; [split; [lia|]; split; [lia|]; lia|]. assert (Cj : child_at h0 n k2 c) by (econstructor; eauto). pose proof (bones_ordered h0 B _ _ _ Cj).
      split; [lia|]. split; [lia|]. eauto. }
    apply pathful_inval; [exact (rl_order _ _ R)|exact (relabels_pathful _ _ R P0)].
Qed.
Lemma pathful_insert h n z o : fit h -> n < length h -> operand_ok h o -> pathful (snd (insert h n z o)).
Proof.
  intros [C P] Hn OK. destruct (any_operand_total h o C OK) as (w & W). destruct (ndata (getn h n)) as [|b|x|s|ids|m] eqn:D; try (unfold insert; rewrite D; exact P).
  destruct (bones_labels h n ids (coherent_bones h C) D) as [zs L]. destruct (insert_labels h n ids zs z o w (conj C P) Hn OK W D L) as (h' & -> & P' & _). exact P'.
Qed.
Lemma pathful_append h n o : fit h -> n < length h -> operand_ok h o -> pathful (snd (append h n o)).
Proof. intros F Hn OK. unfold append. destruct (ndata (getn h n)); try exact (proj2 F); now apply pathful_insert. Qed.
Lemma pathful_pop h n z : fit h -> n < length h -> pathful (snd (pop h n z)).
Proof.
  intros F Hn. unfold pop. destruct (getitem h n (IInt z)); try exact (proj2 F). pose proof (pathful_delitem h n (IInt z) F Hn) as D.
  destruct (delitem h n (IInt z)) as [[[]|e|] h']; exact D.
Qed.
Lemma pathful_reinit h n w : fit h -> n < length h -> jwf w = true -> pathful (snd (reinit h n w)).
Proof.
  intros [C P] Hn W. pose proof (coherent_bones h C) as B. destruct (init_spec w W h n (nparent (getn h n)) (nkey (getn h n)) Hn) as (hm & d & E & F & Ch & _).
  unfold reinit. rewrite E. match goal with |- pathful (snd (inval_value ?x _)) => assert (R : relabels h x) end.
  { apply (relabels_data h hm n _ B F Hn); try reflexivity. intros k c Ck. destruct (Ch k c Ck) as (A1 & A2 & _). split; [lia|]. split; [lia|]. lia. }
  apply pathful_inval; [exact (rl_order _ _ R)|exact (relabels_pathful _ _ R P)].
Qed.
Lemma pathful_put h n o : fit h -> n < length h -> operand_ok h o -> pathful (snd (hbind (operand_value h o) (fun v h => reinit h n v))).
Proof.
  intros [C P] Hn OK. destruct (any_operand_total h o C OK) as (w & W). destruct (any_operand h o w C OK W) as (h0 & E0 & C0 & L0 & _ & JW).
  pose proof (values_operand h o) as V. rewrite E0 in *. cbn [snd hbind] in *. apply pathful_reinit; [split; [exact C0|]|lia|exact JW].
  exact (values_pathful h h0 (bones_ordered h (coherent_bones h C)) V P).
Qed.
Lemma pathful_new h v : fit h -> jwf v = true -> pathful (fst (new_doc v h)).
Proof.
  intros [C P] W. pose proof (coherent_bones h C) as B. pose proof (bones_ordered h B) as O. unfold new_doc, new_node. cbn [fst].
  assert (La : length (h ++ [blank]) = S (length h)) by (rewrite app_length; cbn; lia).
  assert (G : forall m, m < length h -> getn (h ++ [blank]) m = getn h m) by (intros m Hm; rewrite getn_app; destruct (Nat.eqb_spec m (length h)); [lia|reflexivity]).
  assert (Gb : getn (h ++ [blank]) (length h) = blank) by (rewrite getn_app, Nat.eqb_refl; reflexivity).
  assert (Ge : forall m, length h <= m -> getn (h ++ [blank]) m = blank).
  { intros m Hm. rewrite getn_app. destruct (Nat.eqb_spec m (length h)); [reflexivity|]. now apply getn_out. }
  assert (Edge : forall n k c, child_at (h ++ [blank]) n k c -> n < length h /\ child_at h n k c).
  { intros n k c Cc. destruct (Nat.lt_ge_cases n (length h)) as [Hn|Hn].
    - split; [exact Hn|]. apply (child_at_data (h ++ [blank]) h); [now rewrite G|exact Cc].
    - exfalso. exact (child_at_blank _ _ _ _ (Ge n Hn) Cc). }
  assert (B' : bones (h ++ [blank])).
  { constructor.
    - intros n k c Cc. destruct (Edge n k c Cc) as [Hn Ch]. destruct (bo_child h B n k c Ch) as (A1 & A2 & A3 & A4). rewrite G by exact A2. split; [exact A1|]. split; [lia|]. auto.
    - intros n ids c D Hc. destruct (Nat.lt_ge_cases n (length h)) as [Hn|Hn]; [|rewrite Ge in D by exact Hn; discriminate D]. rewrite G in D by exact Hn.
      pose proof Hc as Hc'. apply In_nth_error in Hc'. destruct Hc' as [j Hj]. destruct (bo_child h B n (str_of_nat j) c ltac:(econstructor; eauto)) as (_ & A2 & _). rewrite G by exact A2. exact (bo_int h B n ids c D Hc).
    - intros n ids D. destruct (Nat.lt_ge_cases n (length h)) as [Hn|Hn]; [|rewrite Ge in D by exact Hn; discriminate D]. rewrite G in D by exact Hn. exact (bo_nodup h B n ids D).
    - intros n p Q. destruct (Nat.lt_ge_cases n (length h)) as [Hn|Hn]; [|rewrite Ge in Q by exact Hn; discriminate Q]. rewrite G in Q by exact Hn. exact (bo_parent h B n p Q). }
  assert (R0 : relabels h (h ++ [blank])).
  { constructor.
    - lia.
    - exact (bones_ordered _ B').
    - intros a k c Cc _. exists k. now apply Edge.
    - intros m Hm. now rewrite G.
    - intros m p Hp. destruct (Nat.lt_ge_cases m (length h)) as [Hm|Hm]; [|rewrite Ge in Hp by exact Hm; discriminate Hp]. rewrite G in Hp by exact Hm.
      split; [exact Hm|]. split; [exact Hp|]. intros a [pa La']. assert (Ha : a <= m).
      { clear -La' Edge O. induction La' as [|p n0 k c L IH C]; [lia|]. apply Edge in C. destruct C as [_ C]. apply O in C. lia. }
      now rewrite G by lia. }
  destruct (init_spec v W (h ++ [blank]) (length h) None None ltac:(lia)) as (hm & d & E & F & Ch & _). rewrite E.
  match goal with |- pathful ?x => assert (R : relabels (h ++ [blank]) x) end.
  { apply (relabels_data _ hm (length h) _ B' F ltac:(lia)); try (rewrite Gb; reflexivity); try reflexivity.
    intros k c Ck. destruct (Ch k c Ck) as (A1 & A2 & _). split; [lia|]. split; [lia|]. lia. }
  exact (relabels_pathful _ _ R (relabels_pathful _ _ R0 P)).
Qed.
Lemma pathful_path h n : fit h -> n < length h -> pathful (snd (read_path h n)).
Proof.
  intros [C P] Hn. pose proof (coherent_bones h C) as B. unfold read_path. destruct (ncpath (getn h n)) as [p0|] eqn:Cp; [exact P|].
  destruct (climb (S (length h)) h n []) as [p1|e|] eqn:Ec; try exact P. cbn [snd].
  assert (G : forall m, getn (setn h n (with_cpath (getn h n) (Some p1))) m = if Nat.eqb n m then with_cpath (getn h n) (Some p1) else getn h m) by (intro m; now rewrite getn_setn).
  intros r q m p [Hr Rr] L Hp. rewrite length_setn in Hr.
  assert (L0 : labelled h r q m).
  { clear Hp. induction L as [|q n0 k c l L IH Cc K]; [constructor|]. econstructor; [exact IH| |].
    - apply (child_at_data (setn h n (with_cpath (getn h n) (Some p1))) h); [|exact Cc]. rewrite G. destruct (Nat.eqb_spec n n0) as [<-|]; reflexivity.
    - rewrite G in K. destruct (Nat.eqb_spec n c) as [<-|]; exact K. }
  assert (R0 : is_root h r) by (split; [exact Hr|]; rewrite G in Rr; destruct (Nat.eqb_spec n r) as [<-|]; exact Rr).
  rewrite G in Hp. destruct (Nat.eqb_spec n m) as [<-|_]; [|exact (P r q m p R0 L0 Hp)]. cbn in Hp. injection Hp as <-.
  rewrite (climb_labelled h r q n B R0 L0) in Ec by lia. injection Ec as <-. now rewrite app_nil_r.
Qed.
Lemma pathful_add h n p o : fit h -> n < length h -> operand_ok h o -> pathful (snd (json_add h n p o)).
Proof.
  intros F Hn OK. unfold json_add. destruct (path_empty p); [now apply pathful_put|]. pose proof (proj2 F) as P.
  destruct (mk_pointer [p]) as [q|e|]; try exact P. destruct (as_json_error (eval_id _ h n)) as [t|e|] eqn:Ev; try exact P.
  apply as_json_error_ok, (any_eval_bound _ h n t (proj1 F) Hn) in Ev. cbv zeta. destruct (ndata (getn h t)); try exact P.
  - destruct (str_eqb _ _); [now apply pathful_insert|]. destruct (py_int _); [|exact P]. repeat (match goal with |- context [if ?b then _ else _] => destruct b end); try exact P; now apply pathful_insert.
  - now apply pathful_setitem.
Qed.
Lemma pathful_remove h n p : fit h -> n < length h -> pathful (snd (json_remove h n p)).
Proof.
  intros F Hn. pose proof (proj2 F) as P. unfold json_remove. destruct (path_empty p); [now apply pathful_reinit|].
  destruct (mk_pointer [p]) as [q|e|]; try exact P. destruct (as_json_error (eval_id q h n)) as [t|e|] eqn:Ev; try exact P.
  apply as_json_error_ok, (any_eval_bound q h n t (proj1 F) Hn) in Ev. destruct (nparent (getn h t)) as [tp|] eqn:Pa; try exact P.
  apply (coherent_parent h t tp (proj1 F) Ev) in Pa. destruct (ndata (getn h tp)); try exact P.
  - destruct (key_int h t); try exact P. now apply pathful_delitem.
  - destruct (nkey (getn h t)); try exact P. now apply pathful_delitem.
Qed.
Lemma pathful_replace h n p x : fit h -> n < length h -> operand_ok h x -> pathful (snd (json_replace h n p x)).
Proof.
  intros F Hn OK. pose proof (proj2 F) as P. unfold json_replace. destruct (path_empty p); [now apply pathful_put|].
  destruct (mk_pointer [p]) as [q|e|]; try exact P. destruct (as_json_error (eval_id q h n)) as [t|e|] eqn:Ev; try exact P.
  apply as_json_error_ok, (any_eval_bound q h n t (proj1 F) Hn) in Ev. destruct (nparent (getn h t)) as [tp|] eqn:Pa; try exact P.
  apply (coherent_parent h t tp (proj1 F) Ev) in Pa. destruct (ndata (getn h tp)); try exact P.
  - destruct (key_int h t); try exact P. now apply pathful_setitem.
  - destruct (nkey (getn h t)); try exact P. now apply pathful_setitem.
Qed.
Theorem any_history_fit h : any_history h -> fit h.
Proof.
  induction 1 as [|h o H IH K].
  - split; [apply coherent_nil|]. intros r q n p [Hr _]. cbn in Hr. lia.
  - split; [exact (proj1 (any_run h o (proj1 IH) K))|].
    destruct o as [v|n|n|n i x|n i|n z x|n x|n z|n p x|n p|n p x]; cbn [any_ok] in K; cbn [run].
    + now apply pathful_new.
    + now apply pathful_path.
    + exact (values_pathful h _ (bones_ordered h (coherent_bones h (proj1 IH))) (values_read h n) (proj2 IH)).
    + destruct K. now apply pathful_setitem.
    + now apply pathful_delitem.
    + destruct K. now apply pathful_insert.
    + destruct K. now apply pathful_append.
    + now apply pathful_pop.
    + destruct K. now apply pathful_add.
    + now apply pathful_remove.
    + destruct K. now apply pathful_replace.
Qed.

(** ** When the numbers stay right. *)
Lemma right_length len : length (right_labels len) = len.
Proof. unfold right_labels. now rewrite map_length, seq_length. Qed.
Lemma right_nth len i : i < len -> nth_error (right_labels len) i = Some (Z.of_nat i).
Proof. intro H. unfold right_labels. rewrite nth_error_map. rewrite nth_error_nth' with (d := 0) by (now rewrite seq_length). rewrite seq_nth by exact H. reflexivity. Qed.
Lemma nth_ext {A} (l l' : list A) : length l = length l' -> (forall i, i < length l -> nth_error l i = nth_error l' i) -> l = l'.
Proof.
  revert l'. induction l as [|x l IH]; intros [|y l'] L H; try discriminate L; [reflexivity|].
  pose proof (H 0 ltac:(cbn; lia)) as H0. cbn in H0. injection H0 as ->. f_equal. apply IH; [now injection L|]. intros i Hi. exact (H (S i) ltac:(cbn; lia)).
Qed.
Lemma right_iff len zs : zs = right_labels len <-> length zs = len /\ forall i, i < len -> nth_error zs i = Some (Z.of_nat i).
Proof.
  split.
  - intros ->. split; [apply right_length|apply right_nth].
  - intros [L H]. apply nth_ext; [now rewrite right_length|]. intros i Hi. rewrite right_nth, H by lia. reflexivity.
Qed.
Lemma nth_firstn {A} k (l : list A) i : nth_error (firstn k l) i = if i <? k then nth_error l i else None.
Proof. revert l i. induction k as [|k IH]; intros [|x l] [|i]; cbn; try reflexivity; [match goal with |- context [if ?b then _ else _] => now destruct b end|]. apply IH. Qed.
Lemma nth_skipn {A} k (l : list A) i : nth_error (skipn k l) i = nth_error l (k + i).
Proof. revert l. induction k as [|k IH]; intros [|x l]; cbn; try reflexivity; [now destruct i|]. apply IH. Qed.
Lemma nth_shift k d zs i : nth_error (shift_from k d zs) i = if i <? k then nth_error zs i else option_map (fun z => (z + d)%Z) (nth_error zs i).
Proof.
  unfold shift_from. destruct (Nat.ltb_spec i k) as [H|H].
  - destruct (Nat.lt_ge_cases i (length zs)) as [Hz|Hz].
    + rewrite nth_error_app1 by (rewrite firstn_length; lia). rewrite nth_firstn. apply Nat.ltb_lt in H. now rewrite H.
    + rewrite (proj2 (nth_error_None zs i) Hz). apply nth_error_None. rewrite app_length, firstn_length, map_length, skipn_length. lia.
  - destruct (Nat.lt_ge_cases k (length zs)) as [Hz|Hz].
    + rewrite nth_error_app2 by (rewrite firstn_length; lia). rewrite firstn_length, nth_error_map, nth_skipn. do 2 f_equal. lia.
    + rewrite (proj2 (nth_error_None zs i)) by lia. apply nth_error_None. rewrite app_length, firstn_length, map_length, skipn_length. lia.
Qed.
Lemma nth_drop {A} k (l : list A) i : nth_error (drop k l) i = if i <? k then nth_error l i else nth_error l (S i).
Proof. unfold drop. revert l i. induction k as [|k IH]; intros [|x l] [|i]; cbn; try reflexivity; [match goal with |- context [if ?b then _ else _] => now destruct b end|]. apply IH. Qed.
Lemma nth_squeeze {A} k (x : A) l i : k <= length l -> nth_error (squeeze k x l) i = if i <? k then nth_error l i else if i =? k then Some x else nth_error l (pred i).
Proof.
  intro H. unfold squeeze. assert (Lk : length (firstn k l) = k) by (rewrite firstn_length; lia). destruct (Nat.ltb_spec i k) as [Hi|Hi].
  - rewrite nth_error_app1 by lia. rewrite nth_firstn. apply Nat.ltb_lt in Hi. now rewrite Hi.
  - rewrite nth_error_app2 by lia. rewrite Lk. destruct (Nat.eqb_spec i k) as [->|N]; [now rewrite Nat.sub_diag|].
    replace (i - k) with (S (i - S k)) by lia. cbn [nth_error]. rewrite nth_skipn. f_equal. lia.
Qed.
Lemma nth_put {A} k (x : A) l i : k < length l -> nth_error (put k x l) i = if i =? k then Some x else nth_error l i.
Proof.
  unfold put. revert l i. induction k as [|k IH]; intros [|y l] [|i] H; cbn in *; try reflexivity; try lia. apply IH. lia.
Qed.
Lemma length_shift k d zs : length (shift_from k d zs) = length zs.
Proof. unfold shift_from. rewrite app_length, map_length, <- app_length, firstn_skipn. reflexivity. Qed.
Lemma length_drop {A} k (l : list A) : k < length l -> length (drop k l) = pred (length l).
Proof. intro H. unfold drop. rewrite app_length, firstn_length, skipn_length. lia. Qed.
Lemma length_squeeze {A} k (x : A) l : k <= length l -> length (squeeze k x l) = S (length l).
Proof. intro H. unfold squeeze. rewrite app_length, firstn_length. cbn [length]. rewrite skipn_length. lia. Qed.
Lemma length_put {A} k (x : A) l : k < length l -> length (put k x l) = length l.
Proof. intro H. unfold put. rewrite app_length, firstn_length. cbn [length]. rewrite skipn_length. lia. Qed.

Lemma del_right len z k : position len z = Some k ->
  (shift_from (insert_position (pred len) z) (-1) (drop k (right_labels len)) = right_labels (pred len) <-> (0 <= z \/ z = - Z.of_nat len)%Z).
Proof.
  intro Pk. assert (Hk : (0 <= z -> Z.of_nat k = z)%Z /\ (z < 0 -> Z.of_nat k = Z.of_nat len + z)%Z /\ k < len).
  { unfold position in Pk. destruct ((0 <=? z) && (z <? Z.of_nat len))%Z eqn:B1.
    - injection Pk as <-. apply andb_prop in B1. lia.
    - destruct ((- Z.of_nat len <=? z) && (z <? 0))%Z eqn:B2; [|discriminate Pk]. injection Pk as <-. apply andb_prop in B2. lia. }
  destruct Hk as (Kp & Kn & Kl). rewrite right_iff, length_shift, length_drop by (now rewrite right_length). rewrite right_length.
  assert (J : insert_position (pred len) z = if (0 <=? z)%Z then k else pred k).
  { unfold insert_position. destruct (Z.ltb_spec z 0), (Z.leb_spec 0 z); lia. }
  rewrite J. clear J. split.
  - intros [_ H]. destruct (Z.leb_spec 0 z) as [?|Z0]; [now left|right]. destruct k as [|k]; [lia|]. exfalso. cbn [pred] in H.
    specialize (H k ltac:(lia)). rewrite nth_shift, nth_drop, Nat.ltb_irrefl in H. replace (k <? S k) with true in H by (symmetry; apply Nat.ltb_lt; lia). rewrite right_nth in H by lia.
    cbn [option_map] in H. injection H as H. lia.
  - intro H. split; [reflexivity|]. intros i Hi. rewrite nth_shift, nth_drop. replace (if (0 <=? z)%Z then k else pred k) with k.
    + destruct (Nat.ltb_spec i k); rewrite right_nth by lia; cbn [option_map]; f_equal; lia.
    + destruct (Z.leb_spec 0 z); [reflexivity|]. destruct H; lia.
Qed.
Lemma insert_right len z : shift_from (insert_position (S len) (z + 1)) 1 (squeeze (insert_position len z) z (right_labels len)) = right_labels (S len) <->
  (0 <= z <= Z.of_nat len)%Z \/ z = (-1)%Z /\ len <= 1.
Proof.
  set (k := insert_position len z). assert (Kl : k <= len) by (unfold k, insert_position; destruct (Z.ltb_spec z 0); lia).
  rewrite right_iff, length_shift, length_squeeze by (now rewrite right_length). rewrite right_length.
  set (j := insert_position (S len) (z + 1)).
  assert (N : forall i, nth_error (shift_from j 1 (squeeze k z (right_labels len))) i =
     if i <? j then nth_error (squeeze k z (right_labels len)) i else option_map (fun z => (z + 1)%Z) (nth_error (squeeze k z (right_labels len)) i)) by (intro; apply nth_shift).
  assert (Q : forall i, i < S len -> nth_error (squeeze k z (right_labels len)) i = Some (if i <? k then Z.of_nat i else if i =? k then z else Z.of_nat (pred i))).
  { intros i Hi. rewrite nth_squeeze by (now rewrite right_length). destruct (Nat.ltb_spec i k); [now apply right_nth, (Nat.lt_le_trans i k len)|].
    destruct (Nat.eqb_spec i k); [reflexivity|]. apply right_nth. lia. }
  split.
  - intros [_ H]. destruct (Z_lt_ge_dec z 0) as [Zn|Zp].
    + right. assert (Z1 : z = (-1)%Z).
      { pose proof (H k ltac:(lia)) as Hk. rewrite N, Q in Hk by lia. rewrite Nat.ltb_irrefl, Nat.eqb_refl in Hk. destruct (k <? j); cbn [option_map] in Hk; injection Hk as Hk; lia. }
      split; [exact Z1|]. unfold insert_position in k, j. subst z. cbn in k, j. pose proof (H 0 ltac:(lia)) as H0. rewrite N, Q in H0 by lia.
      replace (0 <? j) with false in H0 by (symmetry; apply Nat.ltb_ge; unfold j; lia). cbn [option_map] in H0. injection H0 as H0.
      destruct (Nat.lt_ge_cases 1 len) as [?|?]; [|lia]. assert (Hk0 : 0 < k) by (unfold k; lia). apply Nat.ltb_lt in Hk0. rewrite Hk0 in H0. discriminate H0.
    + left. split; [lia|]. destruct (Z_lt_ge_dec (Z.of_nat len) z) as [Zb|]; [|lia]. exfalso.
      assert (Kv : k = len) by (unfold k, insert_position; destruct (Z.ltb_spec z 0); lia). pose proof (H k ltac:(lia)) as Hk. rewrite N, Q in Hk by lia.
      rewrite Nat.ltb_irrefl, Nat.eqb_refl in Hk. destruct (k <? j); cbn [option_map] in Hk; injection Hk as Hk; lia.
  - intro H. split; [reflexivity|]. intros i Hi. rewrite N, Q by exact Hi. destruct H as [Hz|[-> Hl]].
    + assert (Kv : Z.of_nat k = z) by (unfold k, insert_position; destruct (Z.ltb_spec z 0); lia).
      assert (Jv : Z.of_nat j = (z + 1)%Z) by (unfold j, insert_position; destruct (Z.ltb_spec (z + 1) 0); lia).
      destruct (Nat.ltb_spec i j), (Nat.ltb_spec i k), (Nat.eqb_spec i k); cbn [option_map]; f_equal; lia.
    + unfold insert_position in k, j. cbn in k, j. assert (Kv : k = 0) by (unfold k; lia). assert (Jv : j = 0) by (unfold j; lia). rewrite Kv, Jv.
      destruct i as [|i]; [reflexivity|]. cbn. f_equal. lia.
Qed.
Lemma set_right len z k : position len z = Some k -> (put k z (right_labels len) = right_labels len <-> (0 <= z)%Z).
Proof.
  intro Pk. assert (Hk : (0 <= z -> Z.of_nat k = z)%Z /\ (z < 0 -> Z.of_nat k = Z.of_nat len + z)%Z /\ k < len).
  { unfold position in Pk. destruct ((0 <=? z) && (z <? Z.of_nat len))%Z eqn:B1.
    - injection Pk as <-. apply andb_prop in B1. lia.
    - destruct ((- Z.of_nat len <=? z) && (z <? 0))%Z eqn:B2; [|discriminate Pk]. injection Pk as <-. apply andb_prop in B2. lia. }
  destruct Hk as (Kp & Kn & Kl). rewrite right_iff, length_put by (now rewrite right_length). rewrite right_length. split.
  - intros [_ H]. pose proof (H k Kl) as H0. rewrite nth_put in H0 by (now rewrite right_length). rewrite Nat.eqb_refl in H0. injection H0 as H0. lia.
  - intro Hz. split; [reflexivity|]. intros i Hi. rewrite nth_put by (now rewrite right_length). destruct (Nat.eqb_spec i k) as [->|]; [f_equal; lia|now apply right_nth].
Qed.
