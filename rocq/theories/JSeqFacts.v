(** Facts about the inherited methods of JSeq.v. *)
From Verif Require Import JsonFacts JTreeOps SpecTreeAny SpecInherit JTreeSim JSeq.
Open Scope nat_scope.

(** *** Operations that touch the data of one node only *)
Definition local (h h' : heap) (n : id) : Prop :=
  length h <= length h' /\ forall m, m < length h -> m <> n -> ndata (getn h' m) = ndata (getn h m).
Definition keeps_data (h h' : heap) : Prop := length h' = length h /\ forall m, ndata (getn h' m) = ndata (getn h m).

Lemma local_refl h n : local h h n.
Proof. split; auto. Qed.
Lemma local_trans h1 h2 h3 n : local h1 h2 n -> local h2 h3 n -> local h1 h3 n.
Proof. intros [L E] [L' E']. split; [lia|]. intros m Hm N. rewrite E' by lia. auto. Qed.
Lemma grows_local h h' n : grows h h' -> local h h' n.
Proof. intros [L E]. split; auto. Qed.
Lemma keeps_data_refl h : keeps_data h h.
Proof. split; auto. Qed.
Lemma keeps_data_trans h1 h2 h3 : keeps_data h1 h2 -> keeps_data h2 h3 -> keeps_data h1 h3.
Proof. intros [L E] [L' E']. split; [lia|]. intro m. now rewrite E'. Qed.
Lemma keeps_data_local h h' n : keeps_data h h' -> local h h' n.
Proof. intros [L E]. split; [lia|auto]. Qed.
Lemma setn_data h n x : ndata x = ndata (getn h n) -> keeps_data h (setn h n x).
Proof.
  intro D. split; [apply length_setn|]. intro m. destruct (Nat.lt_ge_cases n (length h)) as [L|L].
  - rewrite getn_setn by auto. destruct (Nat.eqb_spec n m); subst; auto.
  - now rewrite setn_out.
Qed.
Lemma setn_local h n x : local h (setn h n x) n.
Proof. split; [rewrite length_setn; auto|]. intros m _ N. now rewrite getn_setn_other by auto. Qed.

Lemma inval_value_f_data f : forall h n, keeps_data h (snd (inval_value_f f h n)).
Proof.
  induction f as [|f IH]; intros h n; [apply keeps_data_refl|]. cbn [inval_value_f].
  assert (K : keeps_data h (setn h n (with_cvalue (getn h n) None))) by now apply setn_data.
  destruct (nparent _); [|exact K]. eapply keeps_data_trans; eauto.
Qed.
Lemma inval_path_f_data f : forall h n, keeps_data h (snd (inval_path_f f h n)).
Proof.
  induction f as [|f IH]; intros h n; [apply keeps_data_refl|]. cbn [inval_path_f].
  set (h1 := setn h n _).
  assert (K : keeps_data h h1) by now apply setn_data.
  set (go := fix go (ids : list id) (h : heap) : res unit * heap := match ids with [] => _ | _ => _ end).
  assert (G : forall ids h, keeps_data h (snd (go ids h))).
  { induction ids as [|c ids IHi]; intro x; [apply keeps_data_refl|]. simpl. specialize (IH x c).
    destruct (inval_path_f f x c) as [[?|e|] x']; simpl in *; auto. eapply keeps_data_trans; eauto. }
  destruct (ndata (getn h1 n)); try exact K; eapply keeps_data_trans; eauto.
Qed.
Lemma hbind_data {A B} (x : res A * heap) (f : A -> heap -> res B * heap) h :
  keeps_data h (snd x) -> (forall a h, keeps_data h (snd (f a h))) -> keeps_data h (snd (hbind x f)).
Proof. intros K F. destruct x as [[a|e|] h']; simpl in *; auto. eapply keeps_data_trans; eauto. Qed.
Lemma renumber_data delta ids : forall h, keeps_data h (snd (renumber delta ids h)).
Proof.
  induction ids as [|c ids IH]; intro h; [apply keeps_data_refl|]. cbn [renumber].
  destruct (nkey _) as [k|]; [|apply keeps_data_refl]. destruct (py_int k); [|apply keeps_data_refl].
  set (h1 := setn h c _). assert (K : keeps_data h h1) by now apply setn_data.
  apply hbind_data; [|intros _ x; apply IH]. eapply keeps_data_trans; [exact K|]. apply inval_path_f_data.
Qed.

Lemma tail_local h n d delta ids : local h (snd (hbind (inval_value (setn h n d) n) (fun _ h => renumber delta ids h))) n.
Proof.
  eapply local_trans; [apply setn_local|]. apply keeps_data_local. apply hbind_data; [apply inval_value_f_data|].
  intros _ x. apply renumber_data.
Qed.
Lemma inval_local h n d : local h (snd (inval_value (setn h n d) n)) n.
Proof. eapply local_trans; [apply setn_local|]. apply keeps_data_local, inval_value_f_data. Qed.

Lemma new_node_grows h v p k : coherent h -> p < length h -> jwf v = true ->
  grows h (fst (new_node v h (Some p) (Some k))).
Proof.
  intros (g & H & I) Hp W. pose proof (E_len _ _ H) as L.
  destruct (new_node_spec g v p k I ltac:(lia) W) as (g1 & En & _ & F & _).
  destruct (E_new_node v h g (Some p) (Some k) (Some k) H (krel_refl _)) as [A _]. rewrite En in A. cbn [fst] in A.
  split; [rewrite (E_len _ _ A), L; apply F|]. intros m Hm.
  rewrite (sim_data _ _ (E_get _ _ m A)), (sim_data _ _ (E_get _ _ m H)). now rewrite (fr_old _ _ F) by lia.
Qed.

Lemma setitem_local h n i o : coherent h -> n < length h -> operand_ok h o -> local h (snd (setitem h n i o)) n.
Proof.
  intros C Hn OK. destruct (any_operand_total h o C OK) as (w & W).
  destruct (any_operand h o w C OK W) as (h0 & E0 & C0 & L0 & G0 & JW). unfold setitem. rewrite E0. cbn [hbind].
  pose proof (new_node_grows h0 w n (index_str i) C0 ltac:(lia) JW) as G1.
  destruct (new_node w h0 (Some n) (Some (index_str i))) as [h1 c]. cbn [fst] in G1.
  assert (G : grows h h1) by (eapply grows_trans; eauto).
  assert (LG : local h h1 n) by now apply grows_local.
  destruct (ndata (getn h1 n)); destruct i; cbn [snd]; auto; try (eapply local_trans; [exact LG|apply inval_local]).
  destruct (norm_index _ _); auto. eapply local_trans; [exact LG|apply inval_local].
Qed.
Lemma insert_local h n z o : coherent h -> n < length h -> operand_ok h o -> local h (snd (insert h n z o)) n.
Proof.
  intros C Hn OK. unfold insert. destruct (ndata (getn h n)); try apply local_refl.
  destruct (any_operand_total h o C OK) as (w & W).
  destruct (any_operand h o w C OK W) as (h0 & E0 & C0 & L0 & G0 & JW). rewrite E0. cbn [hbind].
  pose proof (new_node_grows h0 w n (str_of_Z z) C0 ltac:(lia) JW) as G1.
  destruct (new_node w h0 (Some n) (Some (str_of_Z z))) as [h1 c]. cbn [fst] in G1.
  eapply local_trans; [apply grows_local; eapply grows_trans; eauto|]. apply tail_local.
Qed.
Lemma append_local h n o : coherent h -> n < length h -> operand_ok h o -> local h (snd (append h n o)) n.
Proof.
  intros. unfold append. destruct (ndata (getn h n)) eqn:E; try apply local_refl; now apply insert_local.
Qed.
Lemma delitem_local h n i : local h (snd (delitem h n i)) n.
Proof.
  unfold delitem. destruct (ndata (getn h n)), i; try apply local_refl.
  - destruct (norm_index _ _); [|apply local_refl]. apply tail_local.
  - destruct (dget _ _); [apply inval_local|apply local_refl].
Qed.
Lemma pop_local h n z : local h (snd (pop h n z)) n.
Proof.
  unfold pop. destruct (getitem h n (IInt z)); try apply local_refl.
  pose proof (delitem_local h n (IInt z)) as L. destruct (delitem h n (IInt z)) as [[?|e|] h']; exact L.
Qed.

(** Such an operation changes exactly the places that contain the node. *)
Lemma local_changes h h' n v : coherent h -> n < length h -> local h h' n -> denotes h' n v -> changes h h' n (Some v).
Proof.
  intros (g & H & I) Hn [L D] Dv. pose proof (E_len _ _ H) as Lg.
  set (f := fun m => mkNode (ndata (getn h' m)) (nparent (getn g m)) None None None).
  set (k := map f (seq 0 (length h'))).
  assert (Lk : length k = length h') by (unfold k; now rewrite map_length, seq_length).
  assert (Gk : forall m, m < length h' -> getn k m = f m).
  { intros m Hm. unfold getn, k. rewrite (nth_indep _ blank (f 0)) by (rewrite map_length, seq_length; auto).
    rewrite map_nth, seq_nth; auto. }
  assert (Sk : same_data h' k).
  { intro m. destruct (Nat.lt_ge_cases m (length h')) as [A|A]; [now rewrite Gk|]. rewrite !getn_out by lia. auto. }
  assert (Nk : forall m, ncvalue (getn k m) = None /\ ncpath (getn k m) = None).
  { intro m. destruct (Nat.lt_ge_cases m (length h')) as [A|A]; [now rewrite Gk|]. rewrite !getn_out by lia. auto. }
  assert (Ed : edit g k n).
  { constructor.
    - lia.
    - lia.
    - intros m Hm N. rewrite Sk, D by lia. apply (sim_data _ _ (E_get h g m H)).
    - intros m Hm. rewrite Gk by lia. reflexivity.
    - intros m x Hx. destruct (Nk m). congruence.
    - intros m x Hx. destruct (Nk m). congruence.
    - intros key c _. right. intros p m _. apply Nk. }
  assert (C : changes g k n (Some v)).
  { apply edit_changes; auto; [apply I|]. eapply denotes_data; eauto. }
  destruct C as (_ & Kp & Sb). split; auto. split.
  - intros m Hm B x Dx. apply (denotes_data k h'); [now apply same_data_sym|]. apply (Kp m); [lia| |now apply (E_denotes h g)].
    intros [p Lp]. apply B. exists p. now apply (E_located h g).
  - intros m p V Hm Lp DV. apply (denotes_data k h'); [now apply same_data_sym|].
    apply Sb; [lia| |]; [now apply (E_located h g)|now apply (E_denotes h g)].
Qed.
Lemma below_back h h' n : ordered h -> local h h' n -> forall p c, c < length h -> located h' c p n -> below h c n.
Proof.
  intros O [L D]. induction p as [|k p IH]; intros c Hc Lp.
  - inversion Lp; subst; [|destruct p; discriminate]. exists []. constructor.
  - destruct (Nat.eq_dec c n) as [->|N]; [exists []; constructor|].
    apply located_uncons in Lp as (d & Cd & Lp). apply (child_at_data _ h) in Cd; [|now rewrite D].
    pose proof (O _ _ _ Cd) as [A B]. destruct (IH d B Lp) as [q Lq]. exists (k :: q). eapply located_cons; eauto.
Qed.

Lemma ready_later h h' n o w v : coherent h -> n < length h -> local h h' n -> denotes h' n v -> ready h n o w -> ready h' n o w.
Proof.
  intros C Hn L Dv (OK & W & S). pose proof (local_changes h h' n v C Hn L Dv) as (_ & Kp & _).
  destruct o as [x|c]; simpl in *; [split; auto|]. repeat split.
  - simpl. destruct L; lia.
  - simpl. now apply (Kp c).
  - simpl. intros [p Lp]. apply S. eapply below_back; eauto. now apply coherent_ordered.
Qed.
Lemma child_stays h n k c : ordered h -> child_at h n k c -> stays h n (ONode c).
Proof. intros O C [p L]. apply O in C as [A B]. apply (located_bound h c p n O B) in L. lia. Qed.

(** *** extend *)
Lemma any_extend n : forall os ws h l, coherent h -> n < length h -> denotes h n (JArr l) ->
  Forall2 (ready h n) os ws ->
  exists h', extend h n os = (Ok tt, h') /\ coherent h' /\ local h h' n /\ denotes h' n (JArr (l ++ ws)).
Proof.
  induction os as [|o os IH]; intros ws h l C Hn D F.
  - inversion F; subst. exists h. rewrite app_nil_r. split; auto. split; auto. split; auto. apply local_refl.
  - inversion F as [|? w ? ws' R F']; subst. destruct R as (OK & W & S). cbn [extend].
    destruct (any_append h n o (JArr l) w C Hn OK D W) as (h1 & r & E1 & C1 & L1 & -> & Ch).
    pose proof (append_local h n o C Hn OK) as Lo. rewrite E1 in *. cbn [hbind snd] in *.
    assert (Hn1 : n < length h1) by lia.
    destruct (IH ws' h1 (l ++ [w]) C1 Hn1) as (h' & E' & C' & L' & D').
    + exact (proj1 Ch).
    + destruct Ch as (D1 & _). clear - F' C Hn Lo D1. induction F'; constructor; auto.
      eapply ready_later; eauto.
    + exists h'. split; auto. split; auto. split; [eapply local_trans; eauto|]. now rewrite <- app_assoc in D'.
Qed.

(** *** reverse *)
Lemma nth_list_put k w l i : k < length l -> nth_error (list_put k w l) i = if Nat.eqb i k then Some w else nth_error l i.
Proof.
  intro L. unfold list_put. destruct (Nat.eqb_spec i k) as [->|N].
  - rewrite nth_error_app2; rewrite firstn_length_le by lia; [|lia]. now rewrite Nat.sub_diag.
  - destruct (Nat.lt_ge_cases i k) as [Lt|Ge].
    + rewrite nth_error_app1 by (rewrite firstn_length_le; lia).
      rewrite <- (firstn_skipn k l) at 2. rewrite nth_error_app1 by (rewrite firstn_length_le; lia). auto.
    + rewrite nth_error_app2; rewrite firstn_length_le by lia; [|lia].
      replace (i - k) with (S (i - S k)) by lia. cbn [nth_error]. rewrite nth_error_skip. f_equal. lia.
Qed.
Lemma length_list_put k w l : k < length l -> length (list_put k w l) = length l.
Proof. intro L. unfold list_put. rewrite app_length. cbn [length]. rewrite firstn_length_le, skipn_length by lia. lia. Qed.
Lemma position_nat len k : k < len -> position len (Z.of_nat k) = Some k.
Proof. intro L. rewrite position_norm. now apply norm_index_nat. Qed.

Lemma any_swap h n l i j : coherent h -> n < length h -> denotes h n (JArr l) -> i < length l -> j < length l ->
  forall x y, nth_error l i = Some x -> nth_error l j = Some y ->
  exists h', swap h n (Z.of_nat i) (Z.of_nat j) = (Ok tt, h') /\ coherent h' /\ local h h' n /\
    denotes h' n (JArr (list_put j x (list_put i y l))).
Proof.
  intros C Hn D Li Lj x y Hx Hy. pose proof (coherent_ordered _ C) as O. unfold swap.
  pose proof (any_getitem h n (IInt (Z.of_nat j)) (JArr l) C D) as Gj. cbn [py_get] in Gj. rewrite position_nat, Hy in Gj by auto.
  pose proof (any_getitem h n (IInt (Z.of_nat i)) (JArr l) C D) as Gi. cbn [py_get] in Gi. rewrite position_nat, Hx in Gi by auto.
  destruct Gj as (b & kb & -> & Cb & Db), Gi as (a & ka & -> & Ca & Da).
  pose proof (O _ _ _ Cb) as [_ Lb]. pose proof (O _ _ _ Ca) as [_ La].
  destruct (any_setitem h n (IInt (Z.of_nat i)) (ONode b) (JArr l) y C Hn Lb D Db) as (h1 & r & E1 & C1 & L1 & Ch & R).
  pose proof (setitem_local h n (IInt (Z.of_nat i)) (ONode b) C Hn Lb) as Lo1. rewrite E1 in *. cbn [snd] in Lo1.
  cbn [py_set] in Ch, R. rewrite position_nat in Ch, R by auto. cbn [option_map] in Ch, R. subst r. cbn [hbind].
  assert (D1 : denotes h1 n (JArr (list_put i y l))) by exact (proj1 Ch).
  assert (RA : ready h1 n (ONode a) x).
  { apply (ready_later h h1 n (ONode a) x (JArr (list_put i y l)) C Hn Lo1 D1).
    split; [exact La|]. split; [exact Da|]. exact (child_stays h n ka a O Ca). }
  destruct RA as (OKa & Wa & _). assert (Hn1 : n < length h1) by lia.
  destruct (any_setitem h1 n (IInt (Z.of_nat j)) (ONode a) (JArr (list_put i y l)) x C1 Hn1 OKa D1 Wa) as (h2 & r & E2 & C2 & L2 & Ch2 & R2).
  pose proof (setitem_local h1 n (IInt (Z.of_nat j)) (ONode a) C1 Hn1 OKa) as Lo2. rewrite E2 in *. cbn [snd] in Lo2.
  cbn [py_set] in Ch2, R2. rewrite position_nat in Ch2, R2 by (rewrite length_list_put; auto). cbn [option_map] in Ch2, R2. subst r.
  exists h2. split; auto. split; auto. split; [eapply local_trans; eauto|exact (proj1 Ch2)].
Qed.

(** The list after [i] swaps. *)
Definition half_reversed (l cur : list json) (i : nat) : Prop :=
  length cur = length l /\
  forall k, k < length l -> nth_error cur k = if (k <? i) || (length l - i <=? k) then nth_error l (length l - 1 - k) else nth_error l k.

Lemma any_reverse_from n l : forall count i h cur, coherent h -> n < length h -> denotes h n (JArr cur) ->
  half_reversed l cur i -> 2 * (i + count) <= length l ->
  exists h' cur', reverse_from h n (length l) i count = (Ok tt, h') /\ coherent h' /\ local h h' n /\
    denotes h' n (JArr cur') /\ half_reversed l cur' (i + count).
Proof.
  induction count as [|count IH]; intros i h cur C Hn D [Lc Hc] B.
  - exists h, cur. rewrite Nat.add_0_r. split; [reflexivity|]. split; auto. split; [apply local_refl|]. split; auto. split; auto.
  - cbn [reverse_from].
    destruct (nth_error_lt l i ltac:(lia)) as (x & Hx). destruct (nth_error_lt l (length l - i - 1) ltac:(lia)) as (y & Hy).
    assert (Cx : nth_error cur i = Some x).
    { rewrite Hc by lia. destruct (Nat.ltb_spec i i); [lia|]. destruct (Nat.leb_spec (length l - i) i); [lia|]. auto. }
    assert (Cy : nth_error cur (length l - i - 1) = Some y).
    { rewrite Hc by lia. destruct (Nat.ltb_spec (length l - i - 1) i); [lia|].
      destruct (Nat.leb_spec (length l - i) (length l - i - 1)); [lia|]. auto. }
    destruct (any_swap h n cur i (length l - i - 1) C Hn D ltac:(lia) ltac:(lia) x y Cx Cy) as (h1 & -> & C1 & L1 & D1). cbn [hbind].
    edestruct (IH (S i) h1) as (h' & cur' & E' & C' & L' & D' & H'); [exact C1|destruct L1; lia|exact D1| |lia|].
    + split; [rewrite !length_list_put; rewrite ?length_list_put; lia|]. intros k Hk.
      rewrite nth_list_put by (rewrite length_list_put; lia).
      destruct (Nat.eqb_spec k (length l - i - 1)) as [->|N1].
      * destruct (Nat.leb_spec (length l - S i) (length l - i - 1)); [|lia]. rewrite orb_true_r.
        replace (length l - 1 - (length l - i - 1)) with i by lia. auto.
      * rewrite nth_list_put by lia. destruct (Nat.eqb_spec k i) as [->|N2].
        -- destruct (Nat.ltb_spec i (S i)); [|lia]. simpl. replace (length l - 1 - i) with (length l - i - 1) by lia. auto.
        -- rewrite Hc by auto. replace (k <? S i) with (k <? i) by (destruct (Nat.ltb_spec k i), (Nat.ltb_spec k (S i)); auto; lia).
           replace (length l - S i <=? k) with (length l - i <=? k); auto.
           destruct (Nat.leb_spec (length l - i) k), (Nat.leb_spec (length l - S i) k); auto; lia.
    + replace (i + S count) with (S i + count) by lia.
      exists h', cur'. split; auto. split; auto. split; [eapply local_trans; eauto|]. auto.
Qed.
Lemma half_reversed_end l cur : half_reversed l cur (Nat.div2 (length l)) -> cur = rev l.
Proof.
  intros [L H]. apply nth_error_ext. intro k. destruct (Nat.lt_ge_cases k (length l)) as [Lk|Lk].
  - rewrite H by auto. pose proof (Nat.div2_odd (length l)) as P.
    assert (R : nth_error (rev l) k = nth_error l (length l - 1 - k)).
    { destruct (nth_error_lt l (length l - 1 - k) ltac:(lia)) as (x & Hx).
      rewrite Hx. apply nth_error_split in Hx as (l1 & l2 & -> & L1). rewrite rev_app_distr. cbn [rev].
      rewrite <- app_assoc. rewrite app_length in *. cbn [length] in *.
      rewrite nth_error_app2; rewrite rev_length; [|lia]. replace (k - length l2) with 0 by lia. reflexivity. }
    rewrite R. destruct (_ || _)%bool eqn:E; auto. apply orb_false_iff in E as [E1 E2].
    apply Nat.ltb_ge in E1. apply Nat.leb_gt in E2. f_equal. destruct (Nat.odd (length l)); simpl in P; lia.
  - rewrite (proj2 (nth_error_None cur k)), (proj2 (nth_error_None (rev l) k)); auto; [rewrite rev_length|]; lia.
Qed.
Lemma any_reverse h n l : coherent h -> n < length h -> denotes h n (JArr l) ->
  exists h', json_reverse h n = (Ok tt, h') /\ coherent h' /\ local h h' n /\ denotes h' n (JArr (rev l)).
Proof.
  intros C Hn D. inversion D as [| | | |? ids ? Ed Len _|]; subst. unfold json_reverse, json_len. rewrite Ed, Len.
  destruct (any_reverse_from n l (Nat.div2 (length l)) 0 h l C Hn D) as (h' & cur & E' & C' & L' & D' & H').
  - split; auto. intros k Hk. destruct (Nat.ltb_spec k 0); [lia|]. destruct (Nat.leb_spec (length l - 0) k); [lia|]. auto.
  - simpl. pose proof (Nat.div2_odd (length l)). lia.
  - exists h'. split; auto. split; auto. split; auto. simpl in H'. apply half_reversed_end in H'. now subst.
Qed.

(** *** clear *)
Lemma any_clear n : forall f h l, coherent h -> n < length h -> denotes h n (JArr l) -> length l < f ->
  exists h', clear_f f h n = (Ok tt, h') /\ coherent h' /\ local h h' n /\ denotes h' n (JArr []).
Proof.
  induction f as [|f IH]; intros h l C Hn D Lf; [lia|]. cbn [clear_f].
  destruct (any_pop h n (-1) (JArr l) C Hn D) as (h1 & r & E1 & C1 & L1 & Ch & R).
  pose proof (pop_local h n (-1)) as Lo. rewrite E1 in *. cbn [snd] in Lo.
  cbn [py_get py_del] in Ch, R. destruct l as [|x0 l0].
  - cbn [position] in *.
    assert (Ep : pop h n (-1) = (Exn EIndex, h)).
    { unfold pop, getitem. inversion D as [| | | |? ids ? Ed Len _|]; subst. rewrite Ed. destruct ids; [reflexivity|discriminate]. }
    rewrite E1 in Ep. injection Ep as -> ->. exists h. auto using local_refl.
  - set (l := x0 :: l0) in *. assert (P : position (length l) (-1) = Some (length l - 1)).
    { unfold position. replace (0 <=? -1)%Z with false by reflexivity. cbn [andb].
      replace (-1 <? 0)%Z with true by reflexivity. rewrite andb_true_r.
      destruct (Z.leb_spec (- Z.of_nat (length l)) (-1)) as [Le|Gt]; [f_equal; lia|]. subst l. simpl length in Gt. lia. }
    rewrite P in *. cbn [option_map] in *.
    destruct (nth_error_lt l (length l - 1)) as (x & Hx); [subst l; simpl; lia|]. rewrite Hx in R. destruct R as (c & -> & _).
    destruct (IH h1 (list_del (length l - 1) l) C1 ltac:(lia)) as (h' & E' & C' & L' & D').
    + exact (proj1 Ch).
    + unfold list_del. rewrite app_length, firstn_length_le, skipn_length by (subst l; simpl; lia).
      subst l. simpl in *. lia.
    + exists h'. split; auto. split; auto. split; auto. eapply local_trans; eauto.
Qed.
Lemma items_fit h n l : coherent h -> denotes h n (JArr l) -> length l <= length h.
Proof.
  intros (g & H & I) D. apply (E_denotes h g) in D; auto. rewrite (E_len _ _ H).
  inversion D as [| | | |? ids ? Ed Len _|]; subst. rewrite <- Len. pose proof (inv_shape _ I) as S.
  pose proof (shape_ids_nodup g n ids S Ed) as ND.
  rewrite <- (seq_length (length g) 0). apply NoDup_incl_length; auto. intros c Hc. apply In_nth_error in Hc as (j & Hj).
  apply in_seq. pose proof (shape_items g n ids S Ed j c Hj). lia.
Qed.

(** *** update *)
Lemma any_update n : forall kos kws h m, coherent h -> n < length h -> denotes h n (JObj m) ->
  Forall2 (ready_pair h n) kos kws ->
  exists h', update h n kos = (Ok tt, h') /\ coherent h' /\ local h h' n /\ denotes h' n (JObj (put_all kws m)).
Proof.
  induction kos as [|[k o] kos IH]; intros kws h m C Hn D F.
  - inversion F; subst. exists h. split; auto. split; auto. split; auto. apply local_refl.
  - inversion F as [|? [k' w] ? ws' R F']; subst. destruct R as (Ek & OK & W & S). simpl in Ek, OK, W, S. subst k'.
    cbn [update].
    destruct (any_setitem h n (IStr k) o (JObj m) w C Hn OK D W) as (h1 & r & E1 & C1 & L1 & Ch & R).
    pose proof (setitem_local h n (IStr k) o C Hn OK) as Lo. rewrite E1 in *. cbn [py_set] in *. subst r. cbn [hbind snd] in *.
    assert (Hn1 : n < length h1) by lia.
    destruct (IH ws' h1 (dict_put k w m) C1 Hn1) as (h' & E' & C' & L' & D').
    + exact (proj1 Ch).
    + destruct Ch as (D1 & _). clear - F' C Hn Lo D1. induction F' as [|? ? ? ? [A B]]; constructor; auto.
      split; auto. eapply ready_later; eauto.
    + exists h'. split; auto. split; auto. split; [eapply local_trans; eauto|]. exact D'.
Qed.

Lemma getitem_data h h' m i : ndata (getn h' m) = ndata (getn h m) -> getitem h' m i = getitem h m i.
Proof. intro E. unfold getitem. now rewrite E. Qed.
Lemma update_keys_eq n m : forall ks cs h, m <> n -> coherent h -> n < length h -> m < length h ->
  (exists mm, denotes h n (JObj mm)) ->
  Forall2 (fun k c => getitem h m (IStr k) = Ok c /\ c < length h) ks cs ->
  update_keys h n m ks = update h n (combine ks (map ONode cs)).
Proof.
  induction ks as [|k ks IH]; intros cs h N C Hn Hm (mm & D) F; inversion F as [|? c ? cs' [G Lc] F']; subst; [reflexivity|].
  cbn [update_keys map combine update]. rewrite G.
  assert (OK : operand_ok h (ONode c)) by exact Lc.
  destruct (any_operand_total h (ONode c) C OK) as (w & W).
  destruct (any_setitem h n (IStr k) (ONode c) (JObj mm) w C Hn OK D W) as (h1 & r & E1 & C1 & L1 & Ch & R).
  pose proof (setitem_local h n (IStr k) (ONode c) C Hn OK) as Lo. rewrite E1 in *. cbn [py_set] in *. subst r. cbn [hbind snd] in *.
  apply IH; auto; try lia.
  - exists (dict_put k w mm). exact (proj1 Ch).
  - clear - F' Lo L1 N Hm. induction F' as [|? ? ? ? [A B]]; constructor; auto. split; [|lia].
    rewrite <- A. apply getitem_data. now apply Lo.
Qed.
Lemma below_child h m k c n : child_at h m k c -> below h c n -> below h m n.
Proof. intros C [p L]. exists (k :: p). eapply located_cons; eauto. Qed.
Lemma any_update_node h n m mm kws : coherent h -> n < length h -> m < length h -> denotes h n (JObj mm) ->
  denotes h m (JObj kws) -> ~ below h m n ->
  exists h', update_node h n m = (Ok tt, h') /\ coherent h' /\ local h h' n /\ denotes h' n (JObj (put_all kws mm)).
Proof.
  intros C Hn Hm D Dm B. pose proof (coherent_ordered _ C) as O.
  assert (N : m <> n) by (intros ->; apply B; exists []; constructor).
  inversion Dm as [| | | | |? ms ? Ed Ek Ch]; subst. unfold update_node. rewrite Ed.
  assert (ND : NoDup (keys ms)).
  { destruct C as (g & H & I). eapply (sh_nodup g (inv_shape _ I) m). rewrite <- (sim_data _ _ (E_get h g m H)). exact Ed. }
  assert (F1 : Forall2 (fun k c => getitem h m (IStr k) = Ok c /\ c < length h) (map fst ms) (map snd ms)).
  { assert (G : forall k c, In (k, c) ms -> getitem h m (IStr k) = Ok c /\ c < length h).
    { intros k c Hin. unfold getitem. rewrite Ed. rewrite (In_dget _ _ _ ND Hin). split; auto.
      apply (O m k). eapply ca_member; eauto. }
    clear - G. induction ms as [|[k c] ms IH]; constructor; [apply G; now left|]. apply IH. intros; apply G; now right. }
  rewrite (update_keys_eq n m _ _ h N C Hn Hm (ex_intro _ mm D) F1).
  apply any_update; auto.
  assert (G : forall k c, In (k, c) ms -> child_at h m k c) by (intros; eapply ca_member; eauto).
  clear - Ek Ch G O B. revert kws Ek Ch. induction ms as [|[k c] ms IH]; intros [|[k' x] kws] Ek Ch; try discriminate; constructor.
  - injection Ek as Ek _. simpl in Ek. split; auto. assert (Cc : child_at h m k c) by (apply G; now left). split; [|split].
    + simpl. now apply O in Cc.
    + simpl. apply (Ch 0 k c k' x); auto.
    + intro Bc. apply B. eapply below_child; eauto.
  - injection Ek as _ Ek. apply IH; auto. intros; apply G; now right.
    intros i a b a' b' Ha Hb. apply (Ch (S i) a b a' b'); auto.
Qed.

Lemma dict_put_same k x m : find (fun kv => str_eqb (fst kv) k) m = Some (k, x) -> NoDup (map fst m) -> dict_put k x m = m.
Proof.
  intros F ND. unfold dict_put. assert (Ex : existsb (fun kv => str_eqb (fst kv) k) m = true).
  { apply existsb_exists. exists (k, x). apply find_some in F. auto. }
  rewrite Ex. clear Ex. induction m as [|[a y] m IH]; auto. simpl in *. inversion ND; subst.
  destruct (str_eqb_spec a k) as [->|N].
  - injection F as ->. f_equal. rewrite <- (map_id m) at 2. apply map_ext_in. intros [b z] Hin. simpl.
    destruct (str_eqb_spec b k) as [->|]; auto. exfalso. apply H1. apply in_map_iff. exists (k, z). auto.
  - f_equal. auto.
Qed.
Lemma coherent_nodup h n m : coherent h -> denotes h n (JObj m) -> NoDup (map fst m).
Proof.
  intros (g & H & I) D. inversion D as [| | | | |? ms ? Ed Ek _]; subst. rewrite <- Ek.
  eapply (sh_nodup g (inv_shape _ I) n). rewrite <- (sim_data _ _ (E_get h g n H)). exact Ed.
Qed.
Lemma any_update_self_keys n m : forall ks h, coherent h -> n < length h -> denotes h n (JObj m) ->
  (forall k, In k ks -> In k (map fst m)) ->
  exists h', update_keys h n n ks = (Ok tt, h') /\ coherent h' /\ local h h' n /\ denotes h' n (JObj m).
Proof.
  induction ks as [|k ks IH]; intros h C Hn D Sub.
  - exists h. split; auto. split; auto. split; auto. apply local_refl.
  - cbn [update_keys]. pose proof (any_getitem h n (IStr k) (JObj m) C D) as G. cbn [py_get] in G.
    destruct (find (fun kv => str_eqb (fst kv) k) m) as [[k' x]|] eqn:Ef.
    + pose proof Ef as Ef'. apply find_some in Ef' as [_ Ek]. simpl in Ek. apply str_eqb_eq in Ek. subst k'.
      cbn [option_map snd] in G. destruct G as (c & key & -> & Cc & Dc).
      assert (OK : operand_ok h (ONode c)) by (apply (coherent_ordered _ C) in Cc; simpl; tauto).
      destruct (any_setitem h n (IStr k) (ONode c) (JObj m) x C Hn OK D Dc) as (h1 & r & E1 & C1 & L1 & Ch & R).
      pose proof (setitem_local h n (IStr k) (ONode c) C Hn OK) as Lo. rewrite E1 in *. cbn [py_set] in *. subst r. cbn [hbind snd] in *.
      rewrite (dict_put_same k x m Ef (coherent_nodup _ _ _ C D)) in Ch. assert (Hn1 : n < length h1) by lia.
      destruct (IH h1 C1 Hn1 (proj1 Ch)) as (h' & E' & C' & L' & D').
      { intros; apply Sub; now right. }
      exists h'. split; auto. split; auto. split; auto. eapply local_trans; eauto.
    + exfalso. specialize (Sub k (or_introl eq_refl)). apply in_map_iff in Sub as ([a y] & Ea & Hin). simpl in Ea. subst a.
      eapply find_none in Ef; eauto. simpl in Ef. rewrite str_eqb_refl in Ef. discriminate.
Qed.
Lemma any_update_self h n m : coherent h -> n < length h -> denotes h n (JObj m) ->
  exists h', update_node h n n = (Ok tt, h') /\ coherent h' /\ local h h' n /\ denotes h' n (JObj m).
Proof.
  intros C Hn D. inversion D as [| | | | |? ms ? Ed Ek _]; subst. unfold update_node. rewrite Ed.
  apply any_update_self_keys; auto. rewrite Ek. auto.
Qed.

(** *** popitem, setdefault *)
Lemma dict_del_head k x m : ~ In k (map fst m) -> dict_del k ((k, x) :: m) = m.
Proof.
  intro N. unfold dict_del. cbn [filter fst]. rewrite str_eqb_refl. cbn [negb].
  induction m as [|[a y] m IH]; auto. cbn [filter fst]. destruct (str_eqb_spec a k) as [->|].
  - exfalso. apply N. now left.
  - cbn [negb]. f_equal. apply IH. intro; apply N; now right.
Qed.
Lemma any_popitem h n k x m : coherent h -> n < length h -> denotes h n (JObj ((k, x) :: m)) ->
  exists h' c, popitem h n = (Ok (k, c), h') /\ coherent h' /\ local h h' n /\ denotes h' n (JObj m) /\ denotes h' c x.
Proof.
  intros C Hn D. pose proof (coherent_nodup _ _ _ C D) as ND. inversion D as [| | | | |? ms ? Ed Ek Ch]; subst.
  unfold popitem. rewrite Ed. destruct ms as [|[k' c'] ms]; [discriminate|]. injection Ek as Ek1 Ek2. simpl in Ek1. subst k'.
  pose proof (any_getitem h n (IStr k) (JObj ((k, x) :: m)) C D) as G. cbn [py_get find fst] in G. rewrite str_eqb_refl in G.
  cbn [option_map snd] in G. destruct G as (c & key & -> & Cc & Dc).
  destruct (any_delitem h n (IStr k) (JObj ((k, x) :: m)) C Hn D) as (h1 & r & E1 & C1 & L1 & Chg & R).
  pose proof (delitem_local h n (IStr k)) as Lo. rewrite E1 in *. cbn [snd] in Lo.
  cbn [py_del existsb fst] in Chg, R. rewrite str_eqb_refl in Chg, R. cbn [orb] in Chg, R. subst r. cbn [hbind].
  exists h1, c. split; auto. split; auto. split; auto.
  rewrite dict_del_head in Chg by (now inversion ND). split; [exact (proj1 Chg)|].
  exact (child_kept h h1 n key c _ x C Hn Chg Cc Dc).
Qed.

(** *** Comparison of nodes *)
Lemma dmem_keys {A B} k (m : list (pystr * A)) (m' : list (pystr * B)) : map fst m = map fst m' -> dmem k m = dmem k m'.
Proof.
  revert m'. induction m as [|[a x] m IH]; intros [|[b y] m'] E; try discriminate; auto.
  injection E as E1 E2. simpl in E1. subst b. unfold dmem in *. cbn [dget]. destruct (str_eqb k a); [reflexivity|now apply IH].
Qed.
Lemma forallb_same {A} (f g : A -> bool) l : (forall a, f a = g a) -> forallb f l = forallb g l.
Proof. intro E. induction l; simpl; auto. now rewrite E, IHl. Qed.
Lemma node_eqb_f_spec h : ordered h -> forall f a b v w, a < length h -> b < length h -> length h - a < f ->
  denotes h a v -> denotes h b w -> node_eqb_f f h a b = Ok (json_eqb v w).
Proof.
  intros O. induction f as [|f IH]; intros a b v w La Lb Lf Da Db; [lia|]. cbn [node_eqb_f].
  destruct (ndata (getn h a)) as [|x|x|x|ids|ms] eqn:Ea; destruct (ndata (getn h b)) as [|y|y|y|ids'|ms'] eqn:Eb;
    (inversion Da as [? Ea'|? ? Ea'|? ? Ea'|? ? Ea'|? ? ? Ea'|? ? ? Ea']; rewrite Ea in Ea'; try discriminate; subst;
     inversion Db as [? Eb'|? ? Eb'|? ? Eb'|? ? Eb'|? ? ? Eb'|? ? ? Eb']; rewrite Eb in Eb'; try discriminate; subst);
    try reflexivity; try (injection Ea' as ->; injection Eb' as ->; reflexivity).
  - destruct (denotes_arr_inv h a ids _ Ea Da) as (l1 & El & F1). injection El as ->.
    destruct (denotes_arr_inv h b ids' _ Eb Db) as (l2 & El & F2). injection El as ->.
    assert (B1 : forall c, In c ids -> a < c /\ c < length h).
    { intros c Hc. apply In_nth_error in Hc as (j & Hj). apply (O a (str_of_nat j)). econstructor; eauto. }
    assert (B2 : forall c, In c ids' -> c < length h).
    { intros c Hc. apply In_nth_error in Hc as (j & Hj). apply (O b (str_of_nat j)). econstructor; eauto. }
    clear - IH F1 F2 B1 B2 La Lf.
    destruct (Nat.eqb_spec (length ids) (length ids')) as [L|L].
    + cbn [json_eqb]. revert l1 l2 ids' F1 F2 L B1 B2. induction ids as [|c ids IHi]; intros l1 l2 [|c' ids'] F1 F2 L B1 B2; try discriminate;
        inversion F1 as [|? x ? l1' D1 F1']; subst; inversion F2 as [|? y ? l2' D2 F2']; subst; [reflexivity|].
      destruct (B1 c (or_introl eq_refl)) as [A1 A2]. pose proof (B2 c' (or_introl eq_refl)) as A3.
      rewrite (IH c c' x y A2 A3 ltac:(lia) D1 D2). destruct (json_eqb x y); [|reflexivity]. cbn [andb].
      apply IHi; auto; intros; [apply B1|apply B2]; now right.
    + f_equal. symmetry. apply not_true_is_false. intro T. apply json_eqb_arr in T. apply Forall2_len in T.
      apply Forall2_len in F1, F2. congruence.
  - destruct (denotes_obj_inv h a ms _ Ea Da) as (l1 & El & F1). injection El as ->.
    destruct (denotes_obj_inv h b ms' _ Eb Db) as (l2 & El & F2). injection El as ->.
    assert (B1 : forall k c, In (k, c) ms -> a < c /\ c < length h).
    { intros k c Hc. apply (O a k). eapply ca_member; eauto. }
    assert (B2 : forall k c, dget k ms' = Some c -> c < length h).
    { intros k c Hc. apply dget_In in Hc. apply (O b k). eapply ca_member; eauto. }
    pose proof (Forall2_keys h ms l1 F1) as K1. pose proof (Forall2_keys h ms' l2 F2) as K2.
    cbn [json_eqb]. rewrite <- (Forall2_len _ _ _ F1), <- (Forall2_len _ _ _ F2), <- K1.
    rewrite (forallb_same (fun k => dmem k l2) (fun k => dmem k ms')) by (intro k; symmetry; now apply dmem_keys).
    destruct (Nat.eqb (length ms) (length ms')); [|reflexivity]. cbn [andb].
    destruct (forallb (fun k => dmem k ms') (keys ms)) eqn:Fb; [|reflexivity]. cbn [andb].
    rewrite forallb_forall in Fb.
    clear - IH F1 F2 B1 B2 La Lf Fb. revert l1 F1. induction ms as [|[k c] ms IHi]; intros l1 F1;
      inversion F1 as [|? [k' x] ? l1' [Ek D1] F1']; subst; [reflexivity|].
    simpl in Ek, D1. subst k'. pose proof (Fb k (or_introl eq_refl)) as Mk. unfold dmem in Mk.
    pose proof (Forall2_dget h k ms' l2 F2) as G. destruct (dget k ms') as [c'|] eqn:Eg; [|discriminate].
    destruct G as (y & -> & D2). destruct (B1 k c (or_introl eq_refl)) as [A1 A2].
    rewrite (IH c c' x y A2 (B2 k c' Eg) ltac:(lia) D1 D2). destruct (json_eqb x y); [|reflexivity]. cbn [andb].
    apply IHi; auto.
    + intros; apply (B1 k0); now right.
    + intros; apply Fb; now right.
Qed.

Lemma coherent_eqb h a b v w : coherent h -> a < length h -> b < length h -> denotes h a v -> denotes h b w ->
  node_eqb h a b = Ok (json_eqb v w).
Proof. intros C La Lb. apply node_eqb_f_spec; auto; [now apply coherent_ordered|lia]. Qed.
Lemma node_eq_spec h c o v w : coherent h -> c < length h -> operand_ok h o -> denotes h c v -> operand_is h o w ->
  node_eq h c o = Ok (json_eqb v w).
Proof.
  intros C Lc OK D W. destruct o as [x|b]; cbn [operand_ok operand_is node_eq] in *.
  - subst x. destruct (any_new_doc h w C OK) as (h' & -> & C' & L' & D' & G). cbv iota beta.
    apply coherent_eqb; auto; [lia|]. eapply grows_denotes; eauto. now apply coherent_ordered.
  - apply coherent_eqb; auto.
Qed.
Lemma item_matches_spec h c o v w : coherent h -> c < length h -> operand_ok h o -> denotes h c v -> operand_is h o w ->
  json_eqb w w = true \/ o = OVal w -> item_matches h c o = Ok (json_eqb v w).
Proof.
  intros C Lc OK D W R. unfold item_matches. destruct o as [x|b]; [now apply node_eq_spec|].
  destruct (Nat.eqb_spec c b) as [->|N]; [|now apply node_eq_spec].
  assert (v = w) by (eapply denotes_fun; eauto). subst v. destruct R as [-> |R]; [reflexivity|discriminate].
Qed.
Lemma find_item_spec h o w : coherent h -> operand_ok h o -> operand_is h o w -> json_eqb w w = true \/ o = OVal w ->
  forall ids l i, Forall2 (denotes h) ids l -> (forall c, In c ids -> c < length h) ->
  exists r, find_item h ids o i = Ok (option_map (fun j => i + j) r) /\ first_equal l w r.
Proof.
  intros C OK W R. induction ids as [|c ids IH]; intros l i F B; inversion F as [|? x ? l' D F']; subst.
  - exists None. split; auto. intros x [].
  - cbn [find_item]. rewrite (item_matches_spec h c o x w) by (auto; apply B; now left).
    destruct (json_eqb x w) eqn:Ex.
    + exists (Some 0). split; [simpl; now rewrite Nat.add_0_r|]. split; [exists x; auto|]. intros j y Hj. lia.
    + destruct (IH l' (S i) F') as (r & -> & Hr); [intros; apply B; now right|].
      destruct r as [j|].
      * exists (Some (S j)). split; [simpl; do 2 f_equal; lia|]. destruct Hr as [(y & Hy & Ey) Hlt]. split; [exists y; auto|].
        intros [|j'] z Hj Hz; [injection Hz as <-; auto|]. apply (Hlt j'); auto. lia.
      * exists None. split; auto. intros y [<-|Hy]; auto.
Qed.
Lemma count_items_spec h o w : coherent h -> operand_ok h o -> operand_is h o w -> json_eqb w w = true \/ o = OVal w ->
  forall ids l acc, Forall2 (denotes h) ids l -> (forall c, In c ids -> c < length h) ->
  count_items h ids o acc = Ok (acc + length (filter (fun x => json_eqb x w) l)).
Proof.
  intros C OK W R. induction ids as [|c ids IH]; intros l acc F B; inversion F as [|? x ? l' D F']; subst; cbn [count_items filter].
  - now rewrite Nat.add_0_r.
  - rewrite (item_matches_spec h c o x w) by (auto; apply B; now left).
    rewrite (IH l') by (auto; intros; apply B; now right). destruct (json_eqb x w); simpl; f_equal; lia.
Qed.
Lemma items_bound h n ids : coherent h -> ndata (getn h n) = DArr ids -> forall c, In c ids -> c < length h.
Proof.
  intros C E c Hc. apply In_nth_error in Hc as (j & Hj). apply (coherent_ordered _ C n (str_of_nat j)). econstructor; eauto.
Qed.
Lemma first_equal_exists l w r : first_equal l w r ->
  (match r with Some _ => true | None => false end) = existsb (fun x => json_eqb x w) l.
Proof.
  intro H. destruct r as [i|]; simpl in H; symmetry.
  - destruct H as [(x & Hx & Ex) _]. apply existsb_exists. exists x. split; auto. eapply nth_error_In; eauto.
  - apply not_true_is_false. intro T. apply existsb_exists in T as (x & Hx & Ex). rewrite H in Ex by auto. discriminate.
Qed.

(** *** The methods keep the caches, keys and parents right *)
Lemma len_keeps_inv h o : inv h -> op_ok h o -> length h <= length (run h o).
Proof. intros H K. now apply run_inv. Qed.
Lemma operand_ok_later h h' o : length h <= length h' -> operand_ok h o -> operand_ok h' o.
Proof. intros L. destruct o; simpl; auto. lia. Qed.

Lemma extend_keeps_inv n : forall os h, inv h -> n < length h -> Forall (operand_ok h) os ->
  inv (snd (extend h n os)) /\ length h <= length (snd (extend h n os)).
Proof.
  induction os as [|o os IH]; intros h H Hn F; [split; auto|]. inversion F; subst. cbn [extend].
  assert (K : op_ok h (OpAppend n o)) by (split; auto).
  pose proof (proj1 (run_inv h _ H K)) as H1. pose proof (len_keeps_inv h _ H K) as L1. cbn [run] in H1, L1.
  destruct (append h n o) as [[[]|e|] h1]; cbn [hbind snd] in *; auto.
  destruct (IH h1 H1) as [A B]; [lia| |split; auto; lia]. eapply Forall_impl; [|eassumption]. intros a. now apply operand_ok_later.
Qed.
Lemma update_keeps_inv n : forall kos h, inv h -> n < length h -> Forall (fun ko => operand_ok h (snd ko)) kos ->
  inv (snd (update h n kos)) /\ length h <= length (snd (update h n kos)).
Proof.
  induction kos as [|[k o] os IH]; intros h H Hn F; [split; auto|]. inversion F; subst. cbn [update].
  assert (K : op_ok h (OpSet n (IStr k) o)) by (split; auto; split; simpl; auto).
  pose proof (proj1 (run_inv h _ H K)) as H1. pose proof (len_keeps_inv h _ H K) as L1. cbn [run] in H1, L1.
  destruct (setitem h n (IStr k) o) as [[[]|e|] h1]; cbn [hbind snd] in *; auto.
  destruct (IH h1 H1) as [A B]; [lia| |split; auto; lia]. eapply Forall_impl; [|eassumption]. intros a. now apply operand_ok_later.
Qed.
Lemma getitem_bound h n i c : ordered h -> getitem h n i = Ok c -> c < length h.
Proof.
  intros O G. unfold getitem in G. destruct (ndata (getn h n)) as [|?|?|?|ids|m] eqn:E; destruct i as [z|ks]; try discriminate.
  - destruct (norm_index (length ids) z) as [k|]; [|discriminate]. destruct (nth_error ids k) as [d|] eqn:Ek; [|discriminate].
    injection G as ->. apply (O n (str_of_nat k)). econstructor; eauto.
  - destruct (dget ks m) as [d|] eqn:Ek; [|discriminate]. injection G as ->. apply (O n ks). eapply ca_member; eauto. now apply dget_In.
Qed.
Lemma ordered_keeps_inv h : inv h -> ordered h.
Proof. intro H. apply coherent_ordered. now apply inv_coherent. Qed.
Lemma swap_keeps_inv h n i j : inv h -> n < length h -> (0 <= i)%Z -> (0 <= j)%Z ->
  inv (snd (swap h n i j)) /\ length h <= length (snd (swap h n i j)).
Proof.
  intros H Hn Hi Hj. unfold swap. destruct (getitem h n (IInt j)) as [b|e|] eqn:Gb; [|split; auto|split; auto].
  destruct (getitem h n (IInt i)) as [a|e|] eqn:Ga; [|split; auto|split; auto].
  apply (getitem_bound _ _ _ _ (ordered_keeps_inv _ H)) in Ga, Gb.
  assert (K : op_ok h (OpSet n (IInt i) (ONode b))) by (repeat split; auto).
  pose proof (proj1 (run_inv h _ H K)) as H1. pose proof (len_keeps_inv h _ H K) as L1. cbn [run] in H1, L1.
  destruct (setitem h n (IInt i) (ONode b)) as [[[]|e|] h1]; cbn [hbind snd] in *; auto.
  assert (K1 : op_ok h1 (OpSet n (IInt j) (ONode a))) by (repeat split; simpl; auto; lia).
  pose proof (proj1 (run_inv h1 _ H1 K1)) as H2. pose proof (len_keeps_inv h1 _ H1 K1) as L2. cbn [run] in H2, L2.
  split; auto. lia.
Qed.
Lemma reverse_from_keeps_inv n len : forall count i h, inv h -> n < length h ->
  inv (snd (reverse_from h n len i count)) /\ length h <= length (snd (reverse_from h n len i count)).
Proof.
  induction count as [|c IH]; intros i h H Hn; [split; auto|]. cbn [reverse_from].
  destruct (swap_keeps_inv h n (Z.of_nat i) (Z.of_nat (len - i - 1)) H Hn ltac:(lia) ltac:(lia)) as [H1 L1].
  destruct (swap h n _ _) as [[[]|e|] h1]; cbn [hbind snd] in *; auto.
  destruct (IH (S i) h1 H1 ltac:(lia)) as [A B]. split; auto. lia.
Qed.
Lemma reverse_keeps_inv h n : inv h -> n < length h -> inv (snd (json_reverse h n)).
Proof. intros H Hn. unfold json_reverse. destruct (json_len h n); auto. now apply reverse_from_keeps_inv. Qed.
Lemma update_keys_keeps_inv n m : forall ks h, inv h -> n < length h ->
  inv (snd (update_keys h n m ks)) /\ length h <= length (snd (update_keys h n m ks)).
Proof.
  induction ks as [|k ks IH]; intros h H Hn; [split; auto|]. cbn [update_keys].
  destruct (getitem h m (IStr k)) as [c|e|] eqn:G; [|split; auto|split; auto].
  apply (getitem_bound _ _ _ _ (ordered_keeps_inv _ H)) in G.
  assert (K : op_ok h (OpSet n (IStr k) (ONode c))) by (repeat split; auto).
  pose proof (proj1 (run_inv h _ H K)) as H1. pose proof (len_keeps_inv h _ H K) as L1. cbn [run] in H1, L1.
  destruct (setitem h n (IStr k) (ONode c)) as [[[]|e|] h1]; cbn [hbind snd] in *; auto.
  destruct (IH h1 H1) as [A B]; [lia|]. split; auto; lia.
Qed.
Lemma update_node_keeps_inv h n m : inv h -> n < length h -> inv (snd (update_node h n m)).
Proof.
  intros H Hn. unfold update_node. destruct (ndata (getn h m)) as [|?|?|?|[|? ?]|mem]; auto. now apply update_keys_keeps_inv.
Qed.
Lemma extend_node_keeps_inv h n m : inv h -> n < length h -> inv (snd (extend_node h n m)).
Proof.
  intros H Hn. unfold extend_node. destruct (iter_operands h m) as [os|e|] eqn:I; auto. apply extend_keeps_inv; auto.
  unfold iter_operands in I. destruct (ndata (getn h m)) as [|?|?|?|ids|mem] eqn:E; try discriminate; injection I as <-.
  - apply Forall_forall. intros o Ho. apply in_map_iff in Ho as (c & <- & Hc). simpl.
    apply In_nth_error in Hc as (j & Hj). apply (ordered_keeps_inv _ H m (str_of_nat j)). econstructor; eauto.
  - apply Forall_forall. intros o Ho. apply in_map_iff in Ho as (c & <- & Hc). reflexivity.
Qed.
Lemma popitem_keeps_inv h n : inv h -> n < length h -> inv (snd (popitem h n)).
Proof.
  intros H Hn. unfold popitem. destruct (ndata (getn h n)) as [|?|?|?|[|? ?]|[|[k c] m]]; auto.
  destruct (getitem h n (IStr k)); auto.
  assert (K : op_ok h (OpDel n (IStr k))) by (split; simpl; auto).
  pose proof (proj1 (run_inv h _ H K)) as H1. cbn [run] in H1. destruct (delitem h n (IStr k)) as [[?|e|] h1]; exact H1.
Qed.
Lemma setdefault_keeps_inv h n k o : inv h -> n < length h -> operand_ok h o -> inv (snd (setdefault h n k o)).
Proof.
  intros H Hn OK. unfold setdefault. destruct (getitem h n (IStr k)) as [c|e|]; auto.
  assert (K : op_ok h (OpSet n (IStr k) o)) by (split; simpl; auto).
  pose proof (proj1 (run_inv h _ H K)) as H1. cbn [run] in H1. destruct e; auto.
  destruct (setitem h n (IStr k) o) as [[?|e|] h1]; exact H1.
Qed.

(** *** clear keeps keys and paths right: popping from the end renumbers only
    items that are popped next *)
Definition frame (S : id -> Prop) (h h' : heap) : Prop := forall m,
  (~ S m -> nkey (getn h' m) = nkey (getn h m)) /\ nparent (getn h' m) = nparent (getn h m) /\
  (ncpath (getn h' m) = None \/ ncpath (getn h' m) = ncpath (getn h m)).
Definition still (h h' : heap) : Prop := forall m,
  nkey (getn h' m) = nkey (getn h m) /\ nparent (getn h' m) = nparent (getn h m) /\
  ncpath (getn h' m) = ncpath (getn h m).
Lemma frame_refl S h : frame S h h.
Proof. intro m. auto. Qed.
Lemma frame_trans S h1 h2 h3 : frame S h1 h2 -> frame S h2 h3 -> frame S h1 h3.
Proof.
  intros A B m. destruct (A m) as (a1 & a2 & a3), (B m) as (b1 & b2 & b3). split; [intro N; now rewrite b1, a1|].
  split; [congruence|]. destruct b3 as [b3|b3]; auto. rewrite b3. auto.
Qed.
Lemma still_trans h1 h2 h3 : still h1 h2 -> still h2 h3 -> still h1 h3.
Proof. intros A B m. destruct (A m) as (a1 & a2 & a3), (B m) as (b1 & b2 & b3). repeat split; congruence. Qed.
Lemma still_frame S h h' : still h h' -> frame S h h'.
Proof. intros A m. destruct (A m) as (? & ? & ?). auto. Qed.
Lemma setn_frame (S : id -> Prop) h n x : (~ S n -> nkey x = nkey (getn h n)) -> nparent x = nparent (getn h n) ->
  (ncpath x = None \/ ncpath x = ncpath (getn h n)) -> frame S h (setn h n x).
Proof.
  intros A B C m. destruct (Nat.lt_ge_cases n (length h)); [|rewrite setn_out by auto; auto].
  rewrite getn_setn by auto. destruct (Nat.eqb_spec n m); subst; auto.
Qed.
Lemma setn_still h n x : nkey x = nkey (getn h n) -> nparent x = nparent (getn h n) ->
  ncpath x = ncpath (getn h n) -> still h (setn h n x).
Proof.
  intros A B C m. destruct (Nat.lt_ge_cases n (length h)); [|rewrite setn_out by auto; auto].
  rewrite getn_setn by auto. destruct (Nat.eqb_spec n m); subst; auto.
Qed.
Lemma inval_value_f_still f : forall h n, still h (snd (inval_value_f f h n)).
Proof.
  induction f as [|f IH]; intros h n; [intro; auto|]. cbn [inval_value_f].
  assert (K : still h (setn h n (with_cvalue (getn h n) None))) by now apply setn_still.
  destruct (nparent _); [|exact K]. eapply still_trans; eauto.
Qed.
Lemma inval_path_f_frame S f : forall h n, frame S h (snd (inval_path_f f h n)).
Proof.
  induction f as [|f IH]; intros h n; [apply frame_refl|]. cbn [inval_path_f].
  set (h1 := setn h n _).
  assert (K : frame S h h1) by (apply setn_frame; auto).
  set (go := fix go (ids : list id) (h : heap) : res unit * heap := match ids with [] => _ | _ => _ end).
  assert (G : forall ids h, frame S h (snd (go ids h))).
  { induction ids as [|c ids IHi]; intro x; [apply frame_refl|]. simpl. specialize (IH x c).
    destruct (inval_path_f f x c) as [[?|e|] x']; simpl in *; auto. eapply frame_trans; eauto. }
  destruct (ndata (getn h1 n)); try exact K; eapply frame_trans; eauto.
Qed.
Lemma hbind_frame {A B} S (x : res A * heap) (f : A -> heap -> res B * heap) h :
  frame S h (snd x) -> (forall a h, frame S h (snd (f a h))) -> frame S h (snd (hbind x f)).
Proof. intros K F. destruct x as [[a|e|] h']; simpl in *; auto. eapply frame_trans; eauto. Qed.
Lemma renumber_frame (S : id -> Prop) delta ids : (forall c, In c ids -> S c) -> forall h, frame S h (snd (renumber delta ids h)).
Proof.
  induction ids as [|c ids IH]; intros Sub h; [apply frame_refl|]. cbn [renumber].
  destruct (nkey _) as [k|] eqn:Ek; [|apply frame_refl]. destruct (py_int k); [|apply frame_refl].
  apply hbind_frame; [|intros _ x; apply IH; intros; apply Sub; now right].
  eapply frame_trans; [|apply inval_path_f_frame]. apply setn_frame; auto. intro N. destruct N. apply Sub. now left.
Qed.
Lemma delitem_frame (S : id -> Prop) h n i :
  (forall ids c, ndata (getn h n) = DArr ids -> In c ids -> S c) -> frame S h (snd (delitem h n i)).
Proof.
  intro Sub. unfold delitem. destruct (ndata (getn h n)) as [|?|?|?|ids|m] eqn:En; destruct i as [z|k]; try apply frame_refl.
  - destruct (norm_index _ z) as [j|]; [|apply frame_refl]. apply hbind_frame.
    + eapply frame_trans; [|apply still_frame, inval_value_f_still]. apply setn_frame; auto.
    + intros _ x. apply renumber_frame. intros c Hc. apply (Sub ids c eq_refl). apply In_skipn' in Hc. eapply In_remove_nth; eauto.
  - destruct (dget k m); [|apply frame_refl]. eapply frame_trans; [|apply still_frame, inval_value_f_still]. apply setn_frame; auto.
Qed.
Lemma delitem_last_still h n ids k : ndata (getn h n) = DArr ids -> length ids = S k ->
  still h (snd (delitem h n (IInt (Z.of_nat k)))).
Proof.
  intros En Len. unfold delitem. rewrite En. rewrite (norm_index_nat (length ids) k) by lia.
  replace (slice_from (remove_nth k ids) (Z.of_nat k)) with (@nil id).
  - set (h1 := setn h n _). assert (K : still h h1) by (apply setn_still; auto).
    pose proof (inval_value_f_still (S (length h1)) h1 n) as K2. unfold inval_value.
    destruct (inval_value_f _ h1 n) as [[?|e|] h2]; cbn [hbind snd renumber] in *; eapply still_trans; eauto.
  - symmetry. unfold slice_from. apply skipn_all2. rewrite length_remove_nth by lia. unfold clamp_index.
    destruct (Z.ltb_spec (Z.of_nat k) 0); [lia|]. rewrite Nat2Z.id. lia.
Qed.

Definition agree (S : id -> Prop) (h g : heap) : Prop := forall m,
  (~ S m -> nkey (getn h m) = nkey (getn g m)) /\ (ncpath (getn h m) = None \/ ncpath (getn h m) = ncpath (getn g m)).
Lemma clear_inv_f n (S : id -> Prop) : forall f h g l, E h g -> inv g -> agree S h g -> n < length h -> denotes h n (JArr l) ->
  (forall ids c, ndata (getn h n) = DArr ids -> In c ids -> S c) -> (forall c, S c -> nparent (getn g c) = Some n) ->
  length l < f ->
  exists h' g', clear_f f h n = (Ok tt, h') /\ E h' g' /\ inv g' /\ agree S h' g' /\
    (forall c, S c -> nparent (getn g' c) = Some n) /\ ndata (getn h' n) = DArr [].
Proof.
  induction f as [|f IH]; intros h g l He I A Hn D Sub Par Lf; [lia|]. cbn [clear_f].
  pose proof (E_len _ _ He) as Len. pose proof (sim_data _ _ (E_get h g n He)) as Sd.
  inversion D as [| | | |? ids ? Ed LenI F|]; subst. destruct (length ids) as [|k] eqn:Lk.
  - exists h, g. destruct ids; [|discriminate]. unfold pop, getitem. rewrite Ed. auto 10.
  - pose proof (E_denotes h g n (JArr l) He) as [Dg _]. specialize (Dg D). pose proof Ed as Edh. rewrite Sd in Ed.
    assert (Nx : norm_index (length ids) (-1) = Some k).
    { unfold norm_index. rewrite Lk. replace (-1 <? 0)%Z with true by reflexivity.
      destruct (Z.leb_spec 0 (-1 + Z.of_nat (Datatypes.S k))), (Z.ltb_spec (-1 + Z.of_nat (Datatypes.S k)) (Z.of_nat (Datatypes.S k)));
        cbn [andb]; try lia. f_equal. lia. }
    assert (Fx : fix_index (ndata (getn g n)) (IInt (-1)) = IInt (Z.of_nat k)) by (rewrite Ed; cbn [fix_index]; now rewrite Nx).
    destruct (sim_delitem h g n (IInt (-1)) He I ltac:(lia)) as [R1 R2]. rewrite Fx in *.
    pose proof (delitem_frame S h n (IInt (-1)) Sub) as Fr.
    pose proof (delitem_last_still g n ids k Ed Lk) as St.
    destruct (delitem_spec g n (IInt (Z.of_nat k)) (JArr l) I ltac:(lia) ltac:(simpl; lia) Dg) as (g1 & r' & Eg & I1 & Lg & Cg & Rg).
    rewrite Eg in *. cbn [fst snd] in *. cbn [plain_del] in Rg, Cg.
    replace ((0 <=? Z.of_nat k) && (Z.of_nat k <? Z.of_nat (length l)))%Z with true in *
      by (symmetry; rewrite andb_true_iff, Z.leb_le, Z.ltb_lt; lia).
    subst r'. unfold pop, getitem. rewrite Edh, Nx.
    destruct (nth_error_lt ids k ltac:(lia)) as (c & Hc). rewrite Hc.
    assert (Dh : ndata (getn (snd (delitem h n (IInt (-1)))) n) = DArr (remove_nth k ids)).
    { unfold delitem. rewrite Edh, Nx. set (h1 := setn h n _).
      assert (K : keeps_data h1 (snd (hbind (inval_value h1 n)
                    (fun _ h => renumber (-1) (slice_from (remove_nth k ids) (-1)) h)))).
      { apply hbind_data; [apply inval_value_f_data|]. intros _ x. apply renumber_data. }
      rewrite (proj2 K n). unfold h1. now rewrite getn_setn_same. }
    destruct (delitem h n (IInt (-1))) as [r1 h1]. cbn [fst snd] in *. subst r1. cbn [hbind].
    destruct Cg as (Dg1 & _). rewrite Nat2Z.id in Dg1.
    apply (IH h1 g1 (list_del k l)); auto.
    + intro m. destruct (A m) as (a1 & a2), (Fr m) as (f1 & f2 & f3), (St m) as (s1 & s2 & s3). split.
      * intro N. rewrite f1, a1, s1 by auto. auto.
      * destruct f3 as [f3|f3]; auto. rewrite f3, s3. auto.
    + rewrite (E_len _ _ R2). lia.
    + now apply (E_denotes h1 g1).
    + intros ids' c' E' Hc'. rewrite Dh in E'. injection E' as <-. apply (Sub ids c' Edh). eapply In_remove_nth; eauto.
    + intros c' Hc'. destruct (St c') as (_ & -> & _). auto.
    + unfold list_del. rewrite app_length, firstn_length_le, skipn_length by lia. lia.
Qed.
Lemma clear_inv h n l : inv h -> n < length h -> denotes h n (JArr l) ->
  exists h', json_clear h n = (Ok tt, h') /\ inv h'.
Proof.
  intros I Hn D. inversion D as [| | | |? ids ? Ed LenI F|]; subst. pose proof (inv_shape _ I) as Sh.
  destruct (clear_inv_f n (fun c => In c ids) (S (S (length h))) h h l) as (h' & g' & Ec & He & I' & A & Par & Ed'); auto.
  - apply E_refl.
  - intro m. auto.
  - intros ids' c E' Hc. rewrite Ed in E'. injection E' as <-. auto.
  - intros c Hc. apply In_nth_error in Hc as (j & Hj).
    apply (sh_child h Sh n (str_of_nat j) c). econstructor; eauto.
  - pose proof (items_fit h n l (inv_coherent _ I) D). lia.
  - exists h'. split; auto. pose proof (inv_shape _ I') as Sh'. pose proof (E_same _ _ He) as Sd.
    assert (Ca : forall m k c, child_at h' m k c -> child_at g' m k c /\ ~ In c ids).
    { intros m k c Hc. assert (Hg : child_at g' m k c).
      { destruct Hc; [econstructor|eapply ca_member]; eauto; rewrite <- (sim_data _ _ (E_get _ _ m He)); eauto. }
      split; auto. intro Hi. apply Par in Hi. destruct (sh_child _ Sh' _ _ _ Hg) as (_ & _ & P & _).
      rewrite P in Hi. injection Hi as ->. inversion Hc as [? ? ? X Y|? ? ? X Y]; subst; rewrite Ed' in X; [|discriminate].
      injection X as <-. destruct i; discriminate. }
    constructor; [constructor|..].
    + intros m k c Hc. destruct (Ca m k c Hc) as [Hg N]. destruct (sh_child _ Sh' _ _ _ Hg) as (a & b & P & K).
      rewrite (E_len _ _ He), (sim_parent _ _ (E_get _ _ c He)), (proj1 (A c) N). auto.
    + intros m mem Em. apply (sh_nodup _ Sh' m). now rewrite <- (sim_data _ _ (E_get _ _ m He)).
    + intros m p Hp. rewrite (sim_parent _ _ (E_get _ _ m He)) in Hp. destruct (sh_parent _ Sh' _ _ Hp) as (Lt & k & Hk).
      split; auto. pose proof (sim_key _ _ (E_get _ _ m He)) as Kr. rewrite Hk in Kr. destruct Kr as (k' & -> & _). eauto.
    + intros m v Hv. rewrite (sim_value _ _ (E_get _ _ m He)) in Hv. apply (E_denotes h' g'); auto. now apply (inv_value _ I').
    + intros r p m q (Rl & Rp) L Hq. apply (inv_path _ I' r p m q).
      * split; [rewrite <- (E_len _ _ He); auto|]. now rewrite <- (sim_parent _ _ (E_get _ _ r He)).
      * now apply (E_located h' g').
      * destruct (proj2 (A m)) as [N|N]; rewrite Hq in N; [discriminate|auto].
Qed.
Lemma clear_keeps_inv h n : inv h -> n < length h -> inv (snd (json_clear h n)).
Proof.
  intros I Hn. destruct (coherent_total h n (inv_coherent _ I) Hn) as (v & D).
  destruct v as [|b|x|s|l|m];
    try (inversion D; subst; unfold json_clear, clear_f, pop, getitem; match goal with E : ndata _ = _ |- _ => rewrite E end; exact I).
  destruct (clear_inv h n l I Hn D) as (h' & -> & I'). exact I'.
Qed.
