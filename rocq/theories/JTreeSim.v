(** Heaps that differ only in keys and cached paths: every value the code
    computes is the same on both. *)
From Verif Require Import JTreeOps SpecTreeAny.
Open Scope nat_scope.

Definition intk (k : pystr) : Prop := exists z, k = str_of_Z z.
Definition krel (kx ky : option pystr) : Prop :=
  match ky with
  | None => kx = None
  | Some k => exists k', kx = Some k' /\ (intk k -> intk k')
  end.
Record sim (x y : node) : Prop := {
  sim_data : ndata x = ndata y;
  sim_parent : nparent x = nparent y;
  sim_value : ncvalue x = ncvalue y;
  sim_key : krel (nkey x) (nkey y)
}.
Definition E (h g : heap) : Prop := Forall2 sim h g.
Definition ER {A} (x y : res A * heap) : Prop := fst x = fst y /\ E (snd x) (snd y).

Lemma krel_refl k : krel k k.
Proof. destruct k; simpl; eauto. Qed.
Lemma sim_refl x : sim x x.
Proof. constructor; auto. apply krel_refl. Qed.
Lemma E_refl h : E h h.
Proof. induction h; constructor; auto. apply sim_refl. Qed.
Lemma E_len h g : E h g -> length h = length g.
Proof. apply Forall2_len. Qed.
Lemma E_get h g n : E h g -> sim (getn h n) (getn g n).
Proof.
  intro H. revert n. induction H as [|x y h g S H IH]; intros [|n]; try apply sim_refl; [exact S|apply IH].
Qed.
Lemma E_set h g n x y : E h g -> sim x y -> E (setn h n x) (setn g n y).
Proof.
  intros H S. revert n. unfold setn. induction H as [|a b h g Sab H IH]; intros [|n]; simpl; constructor; auto.
  apply IH.
Qed.
Lemma E_app h g x y : E h g -> sim x y -> E (h ++ [x]) (g ++ [y]).
Proof. intros H S. apply Forall2_app; auto. Qed.
Lemma E_intro h g : length h = length g -> (forall m, m < length h -> sim (getn h m) (getn g m)) -> E h g.
Proof.
  revert g. induction h as [|x h IH]; intros [|y g] L H; try discriminate; constructor.
  - apply (H 0). simpl. lia.
  - apply IH; [now injection L|]. intros m Hm. apply (H (S m)). simpl. lia.
Qed.

Lemma E_same h g : E h g -> same_data h g.
Proof. intros H n. symmetry. apply (sim_data _ _ (E_get h g n H)). Qed.
Lemma E_denotes h g n v : E h g -> (denotes h n v <-> denotes g n v).
Proof. intro H. apply E_same in H. split; apply denotes_data; auto. now apply same_data_sym. Qed.
Lemma E_located h g r p n : E h g -> (located h r p n <-> located g r p n).
Proof. intro H. apply E_same in H. split; apply located_data; auto. now apply same_data_sym. Qed.
Lemma E_ordered h g : E h g -> ordered g -> ordered h.
Proof. intros H O. eapply ordered_data; [|apply same_data_sym, E_same; eauto|exact O]. now apply E_len. Qed.
Lemma E_changes h g h' g' n r : E h g -> E h' g' -> changes g g' n r -> changes h h' n r.
Proof.
  intros H H' C. pose proof (E_len _ _ H) as L. destruct r as [v|]; simpl in *.
  - destruct C as (D & K & W). split; [now apply (E_denotes h' g')|]. split.
    + intros m Hm B x Dx. apply (E_denotes h' g'); auto. apply (K m); [lia| |now apply (E_denotes h g)].
      intros [p Lp]. apply B. exists p. now apply (E_located h g).
    + intros m p V Hm Lp DV. apply (E_denotes h' g'); auto. apply W; [lia| |]; [now apply (E_located h g)|now apply (E_denotes h g)].
  - intros m Hm x Dx. apply (E_denotes h' g'); auto. apply (C m); [lia|]. now apply (E_denotes h g).
Qed.
Lemma E_operand_is h g o w : E h g -> (operand_is h o w <-> operand_is g o w).
Proof. intro H. destruct o; simpl; [tauto|now apply E_denotes]. Qed.
Lemma E_operand_ok h g o : E h g -> operand_ok h o -> operand_ok g o.
Proof. intro H. destruct o; simpl; auto. now rewrite (E_len _ _ H). Qed.

(** *** Construction *)
Definition init_sim (v : json) : Prop := forall h g self parent k k', E h g -> krel k k' ->
  E (init v h self parent k) (init v g self parent k').
Lemma E_finish h g self d parent k k' : E h g -> krel k k' ->
  E (setn h self (mkNode d parent k (ncpath (getn h self)) (ncvalue (getn h self))))
    (setn g self (mkNode d parent k' (ncpath (getn g self)) (ncvalue (getn g self)))).
Proof. intros H K. apply E_set; auto. constructor; simpl; auto. apply (sim_value _ _ (E_get h g self H)). Qed.

Lemma init_items_sim self l : Forall init_sim l -> forall i h g, E h g ->
  E (fst (init_items self i l h)) (fst (init_items self i l g)) /\
  snd (init_items self i l h) = snd (init_items self i l g).
Proof.
  induction 1 as [|x l Hx Hl IH]; intros i h g H; [split; auto|]. cbn [init_items].
  pose proof (E_len _ _ H) as L. rewrite L.
  specialize (IH (S i) (init x (h ++ [blank]) (length g) (Some self) (Some (str_of_nat i)))
    (init x (g ++ [blank]) (length g) (Some self) (Some (str_of_nat i)))).
  destruct IH as [A B].
  { apply Hx; [apply E_app; auto using sim_refl|apply krel_refl]. }
  destruct (init_items self (S i) l _) as [h1 i1], (init_items self (S i) l _) as [g1 i2].
  simpl in *. split; auto. congruence.
Qed.
Lemma init_members_sim self m : Forall (fun kv => init_sim (snd kv)) m -> forall h g, E h g ->
  E (fst (init_members self m h)) (fst (init_members self m g)) /\
  snd (init_members self m h) = snd (init_members self m g).
Proof.
  induction 1 as [|[k x] l Hx Hl IH]; intros h g H; [split; auto|]. cbn [init_members].
  pose proof (E_len _ _ H) as L. rewrite L.
  specialize (IH (init x (h ++ [blank]) (length g) (Some self) (Some k))
    (init x (g ++ [blank]) (length g) (Some self) (Some k))).
  destruct IH as [A B].
  { apply Hx; [apply E_app; auto using sim_refl|apply krel_refl]. }
  destruct (init_members self l _) as [h1 i1], (init_members self l _) as [g1 i2].
  simpl in *. split; auto. congruence.
Qed.
Lemma E_init v : init_sim v.
Proof.
  induction v as [|b|x|s|l IH|m IH] using json_induction; intros h g self parent k k' H K.
  1-4: cbn [init]; now apply E_finish.
  - rewrite !init_arr. destruct (init_items_sim self l IH 0 h g H) as [A B].
    destruct (init_items self 0 l h), (init_items self 0 l g). simpl in *. subst. now apply E_finish.
  - rewrite !init_obj. destruct (init_members_sim self m IH h g H) as [A B].
    destruct (init_members self m h), (init_members self m g). simpl in *. subst. now apply E_finish.
Qed.
Lemma E_new_node v h g p k k' : E h g -> krel k k' ->
  E (fst (new_node v h p k)) (fst (new_node v g p k')) /\ snd (new_node v h p k) = snd (new_node v g p k').
Proof.
  intros H K. unfold new_node. simpl. rewrite (E_len _ _ H). split; auto.
  apply E_init; auto. apply E_app; auto using sim_refl.
Qed.

(** *** Reading values *)
Lemma E_store h g n v : E h g ->
  ER (@Ok json v, setn h n (with_cvalue (getn h n) (Some v))) (Ok v, setn g n (with_cvalue (getn g n) (Some v))).
Proof.
  intro H. split; auto. simpl. pose proof (E_get h g n H) as [A B C D]. apply E_set; auto. now constructor.
Qed.
Lemma E_read_value_f f : forall h g n, E h g -> ER (read_value_f f h n) (read_value_f f g n).
Proof.
  induction f as [|f IH]; intros h g n H; [split; auto|]. cbn [read_value_f].
  pose proof (E_get h g n H) as S. rewrite (sim_value _ _ S). destruct (ncvalue (getn g n)); [split; auto|].
  rewrite (sim_data _ _ S). destruct (ndata (getn g n)) as [|b|x|s|ids|m]; try (apply E_store; auto; fail).
  - generalize (@nil json) as acc. clear S. revert h g H. induction ids as [|c ids IHi]; intros h g H acc.
    + now apply E_store.
    + destruct (IH h g c H) as [A B]. destruct (read_value_f f h c) as [[v|e|] h1], (read_value_f f g c) as [[v'|e'|] g1];
        simpl in A, B; try discriminate; try (split; simpl; congruence || auto; fail).
      injection A as <-. apply IHi. auto.
  - generalize (@nil (pystr * json)) as acc. clear S. revert h g H. induction m as [|[k c] ids IHi]; intros h g H acc.
    + now apply E_store.
    + destruct (IH h g c H) as [A B]. destruct (read_value_f f h c) as [[v|e|] h1], (read_value_f f g c) as [[v'|e'|] g1];
        simpl in A, B; try discriminate; try (split; simpl; congruence || auto; fail).
      injection A as <-. apply IHi. auto.
Qed.
Lemma E_read_value h g n : E h g -> ER (read_value h n) (read_value g n).
Proof. intro H. unfold read_value. rewrite (E_len _ _ H). now apply E_read_value_f. Qed.
Lemma E_operand h g o : E h g -> ER (operand_value h o) (operand_value g o).
Proof. intro H. destruct o; simpl; [split; auto|now apply E_read_value]. Qed.
Lemma E_inval_value_f f : forall h g n, E h g -> ER (inval_value_f f h n) (inval_value_f f g n).
Proof.
  induction f as [|f IH]; intros h g n H; [split; auto|]. cbn [inval_value_f].
  assert (H' : E (setn h n (with_cvalue (getn h n) None)) (setn g n (with_cvalue (getn g n) None))).
  { pose proof (E_get h g n H) as [A B C D]. apply E_set; auto. now constructor. }
  rewrite (sim_parent _ _ (E_get _ _ n H')). destruct (nparent _); [now apply IH|split; auto].
Qed.
Lemma E_inval_value h g n : E h g -> ER (inval_value h n) (inval_value g n).
Proof. intro H. unfold inval_value. rewrite (E_len _ _ H). now apply E_inval_value_f. Qed.

(** *** Keys and paths: changed on one side only *)
Lemma drops_left h h' g : drops_paths h h' -> E h g -> E h' g.
Proof.
  intros ((L & T) & V & _) H. apply E_intro; [rewrite L; now apply E_len|]. intros m _.
  destruct (T m) as (A & B & C), (E_get h g m H) as [D F G K]. constructor; congruence.
Qed.
Lemma drops_right h g g' : drops_paths g g' -> E h g -> E h g'.
Proof.
  intros ((L & T) & V & _) H. apply E_intro; [rewrite L; now apply E_len|]. intros m _.
  destruct (T m) as (A & B & C), (E_get h g m H) as [D F G K]. constructor; congruence.
Qed.

Definition int_keys (h : heap) (ids : list id) : Prop :=
  forall c, In c ids -> c < length h /\ exists z, nkey (getn h c) = Some (str_of_Z z).

Lemma renumber_left delta ids : forall h g, E h g -> ordered g -> int_keys h ids ->
  exists h', renumber delta ids h = (Ok tt, h') /\ E h' g.
Proof.
  induction ids as [|c ids IH]; intros h g H O K; [exists h; auto|]. cbn [renumber].
  destruct (K c (or_introl eq_refl)) as (Lc & z & Ez). rewrite Ez, py_int_str_of_Z.
  set (h1 := setn h c (with_key (getn h c) (Some (str_of_Z (z + delta))))).
  assert (H1 : E h1 g).
  { apply E_intro; [unfold h1; rewrite length_setn; now apply E_len|]. intros m _. unfold h1. rewrite getn_setn by auto.
    destruct (Nat.eqb_spec c m) as [<-|N]; [|now apply E_get].
    destruct (E_get h g c H) as [A B C D]. constructor; auto. simpl. rewrite Ez in D.
    unfold krel in *. destruct (nkey (getn g c)); [|discriminate]. eexists. split; [reflexivity|]. intros _. eexists; eauto. }
  assert (L1 : length h1 = length h) by apply length_setn.
  destruct (inval_path_spec h1 c (E_ordered _ _ H1 O) ltac:(lia)) as (h2 & -> & Dp & _). cbn [hbind].
  apply IH; auto.
  - eapply drops_left; eauto.
  - intros d Hd. destruct Dp as ((L2 & T) & _). destruct (T d) as (_ & _ & ->). rewrite L2, L1.
    destruct (K d (or_intror Hd)) as (Ld & y & Ey). split; auto. unfold h1. rewrite getn_setn by auto.
    destruct (Nat.eqb_spec c d); simpl; eauto.
Qed.
Lemma renumber_right delta ids : forall h g, E h g -> ordered g -> int_keys g ids ->
  exists g', renumber delta ids g = (Ok tt, g') /\ E h g'.
Proof.
  induction ids as [|c ids IH]; intros h g H O K; [exists g; auto|]. cbn [renumber].
  destruct (K c (or_introl eq_refl)) as (Lc & z & Ez). rewrite Ez, py_int_str_of_Z.
  set (g1 := setn g c (with_key (getn g c) (Some (str_of_Z (z + delta))))).
  assert (H1 : E h g1).
  { apply E_intro; [unfold g1; rewrite length_setn; now apply E_len|]. intros m _. unfold g1. rewrite getn_setn by auto.
    destruct (Nat.eqb_spec c m) as [<-|N]; [|now apply E_get].
    destruct (E_get h g c H) as [A B C D]. constructor; auto. simpl. rewrite Ez in D.
    unfold krel in *. destruct D as (k' & D1 & D2). exists k'. split; auto. intros _. apply D2. eexists; eauto. }
  assert (L1 : length g1 = length g) by apply length_setn.
  assert (O1 : ordered g1).
  { intros a k d Cd. rewrite L1. apply (O a k). eapply child_at_data; [|exact Cd].
    unfold g1. rewrite getn_setn by auto. destruct (Nat.eqb_spec c a) as [<-|]; auto. }
  destruct (inval_path_spec g1 c O1 ltac:(lia)) as (g2 & -> & Dp & _). cbn [hbind].
  apply IH.
  - eapply drops_right; eauto.
  - destruct Dp as (T & _). eapply ordered_data; [apply T|apply same_tree_data; eauto|auto].
  - intros d Hd. destruct Dp as ((L2 & T) & _). destruct (T d) as (_ & _ & ->). rewrite L2, L1.
    destruct (K d (or_intror Hd)) as (Ld & y & Ey). split; auto. unfold g1. rewrite getn_setn by auto.
    destruct (Nat.eqb_spec c d); simpl; eauto.
Qed.
Lemma int_keys_left h g ids : E h g -> int_keys g ids -> int_keys h ids.
Proof.
  intros H K c Hc. destruct (K c Hc) as (Lc & z & Ez). rewrite (E_len _ _ H). split; auto.
  pose proof (sim_key _ _ (E_get h g c H)) as D. rewrite Ez in D. destruct D as (k' & -> & I).
  destruct (I (ex_intro _ z eq_refl)) as (y & ->). eauto.
Qed.

(** *** The operations *)
(** The index, in range and not negative, that does the same. *)
Definition fix_index (d : data) (i : index) : index :=
  match i with
  | IStr s => IStr s
  | IInt z => IInt match d with
                   | DArr ids => match norm_index (length ids) z with
                                 | Some k => Z.of_nat k
                                 | None => Z.of_nat (length ids)
                                 end
                   | _ => 0%Z
                   end
  end.
Lemma fix_index_ok d i : index_ok (fix_index d i).
Proof. destruct i; simpl; auto. destruct d; try lia. destruct (norm_index _ _); lia. Qed.
Lemma fix_index_key d i : krel (Some (index_str i)) (Some (index_str (fix_index d i))).
Proof. destruct i; simpl; [|eauto]. eexists. split; [reflexivity|]. intros _. eexists; eauto. Qed.
Lemma norm_index_bound len z k : norm_index len z = Some k -> k < len.
Proof.
  unfold norm_index. set (j := if (z <? 0)%Z then _ else _). destruct (_ && _)%bool eqn:B; [|discriminate].
  intros [= <-]. apply andb_prop in B as [B1 B2]. lia.
Qed.
Lemma norm_index_nat len k : k < len -> norm_index len (Z.of_nat k) = Some k.
Proof.
  intro L. rewrite norm_index_range by lia. rewrite Nat2Z.id.
  replace ((0 <=? Z.of_nat k) && (Z.of_nat k <? Z.of_nat len))%Z with true; auto.
  symmetry. apply andb_true_intro. split; [apply Z.leb_le|apply Z.ltb_lt]; lia.
Qed.
Lemma norm_index_len len : norm_index len (Z.of_nat len) = None.
Proof.
  rewrite norm_index_range by lia. rewrite Z.ltb_irrefl, andb_false_r. auto.
Qed.
Lemma norm_fix ids z : norm_index (length ids) (match norm_index (length ids) z with
  Some k => Z.of_nat k | None => Z.of_nat (length (ids : list id)) end) = norm_index (length ids) z.
Proof.
  destruct (norm_index (length ids) z) eqn:N; [|apply norm_index_len].
  apply norm_index_nat. eapply norm_index_bound; eauto.
Qed.

Lemma E_data h g n d : E h g -> E (setn h n (with_data (getn h n) d)) (setn g n (with_data (getn g n) d)).
Proof. intro H. pose proof (E_get h g n H) as [A B C D]. apply E_set; auto. now constructor. Qed.

Lemma sim_setitem h g n i o : E h g -> inv g -> n < length g -> operand_ok g o ->
  ER (setitem h n i o) (setitem g n (fix_index (ndata (getn g n)) i) o).
Proof.
  intros H I Hn OK. destruct (operand_is_total g o I OK) as (w & W).
  destruct (operand_spec g o w I OK W) as (g0 & E0 & T0 & I0 & JW).
  unfold setitem. destruct (E_operand h g o H) as [A B]. rewrite E0 in *.
  destruct (operand_value h o) as [r h0]. simpl in A, B. subst r. cbn [hbind].
  set (i' := fix_index (ndata (getn g n)) i).
  assert (L0 : length g0 = length g) by apply T0.
  destruct (E_new_node w h0 g0 (Some n) _ _ B (fix_index_key (ndata (getn g n)) i)) as [C D]. fold i' in C, D.
  destruct (new_node_spec g0 w n (index_str i') I0 ltac:(lia) JW) as (g1 & En & _ & F & _). rewrite En in *.
  assert (Eg : ndata (getn g1 n) = ndata (getn g n)).
  { rewrite (fr_old _ _ F) by lia. apply T0. }
  destruct (new_node w h0 (Some n) (Some (index_str i))) as [h1 c]. simpl in C, D. subst c.
  rewrite (sim_data _ _ (E_get h1 g1 n C)), Eg. unfold i'.
  destruct (ndata (getn g n)) as [|b|x|s|ids|m]; destruct i as [z|t]; cbn [fix_index]; try (split; auto; fail).
  - rewrite norm_fix. destruct (norm_index (length ids) z); [|split; auto]. now apply E_inval_value, E_data.
  - now apply E_inval_value, E_data.
Qed.

Lemma shape_int_keys g n ids : shape g -> ndata (getn g n) = DArr ids -> int_keys g ids.
Proof.
  intros S D c Hc. apply In_nth_error in Hc as (j & Hj). destruct (shape_items g n ids S D j c Hj) as (_ & L & _ & K).
  split; auto. exists (Z.of_nat j). rewrite K. now rewrite str_of_Z_nat.
Qed.
Lemma int_keys_sub g ids ids' : (forall c, In c ids' -> In c ids) -> int_keys g ids -> int_keys g ids'.
Proof. intros S K c Hc. apply K. auto. Qed.
Lemma int_keys_heap g g' ids : length g' = length g -> (forall m, nkey (getn g' m) = nkey (getn g m)) ->
  int_keys g ids -> int_keys g' ids.
Proof. intros L K H c Hc. rewrite L, K. auto. Qed.
Lemma In_skipn' {A} k (l : list A) x : In x (skipn k l) -> In x l.
Proof. intro H. rewrite <- (firstn_skipn k l). apply in_or_app. now right. Qed.
Lemma In_remove_nth {A} k (l : list A) x : In x (remove_nth k l) -> In x l.
Proof. revert k. induction l as [|y l IH]; intros [|k]; simpl; auto. intros [->|H]; eauto. Qed.

(** [self._invalidate_value()] touches cached values only. *)
Lemma inval_value_keeps h n : parents_lt h -> n < length h -> exists h', inval_value h n = (Ok tt, h') /\
  length h' = length h /\ forall m, ndata (getn h' m) = ndata (getn h m) /\ nkey (getn h' m) = nkey (getn h m) /\
    nparent (getn h' m) = nparent (getn h m).
Proof.
  intros P L. destruct (inval_value_spec h n P L) as (h' & Eq & T & _). exists h'. split; auto.
  destruct T as [Lh T]. split; auto. intro m. destruct (T m) as (? & ? & ?). auto.
Qed.
Lemma sim_tail h g n ids' a b d : E h g -> parents_lt g -> ordered g -> n < length g ->
  int_keys g ids' -> (forall c, In c ids' -> n < c) ->
  (forall c, In c a -> In c ids') -> (forall c, In c b -> In c ids') ->
  exists h' g',
    hbind (inval_value (setn h n (with_data (getn h n) (DArr ids'))) n) (fun _ h => renumber d a h) = (Ok tt, h') /\
    hbind (inval_value (setn g n (with_data (getn g n) (DArr ids'))) n) (fun _ h => renumber d b h) = (Ok tt, g') /\
    E h' g'.
Proof.
  intros H P O Hn K Gt Sa Sb.
  pose proof (E_data h g n (DArr ids') H) as H1.
  set (h1 := setn h n _) in *. set (g1 := setn g n _) in *.
  assert (G1 : forall m, getn g1 m = if Nat.eqb n m then with_data (getn g n) (DArr ids') else getn g m)
    by (intro m; unfold g1; now rewrite getn_setn).
  assert (L1 : length g1 = length g) by apply length_setn.
  destruct (inval_value_keeps g1 n) as (g2 & Eg & L2 & T2).
  { intros m p. rewrite G1. destruct (Nat.eqb_spec n m) as [<-|]; simpl; apply P. }
  { lia. }
  destruct (E_inval_value h1 g1 n H1) as [A B]. rewrite Eg in *. simpl in A, B.
  destruct (inval_value h1 n) as [r h2]. simpl in A, B. subst r. cbn [hbind].
  assert (Kk : forall m, nkey (getn g2 m) = nkey (getn g m)).
  { intro m. destruct (T2 m) as (_ & -> & _). rewrite G1. destruct (Nat.eqb_spec n m) as [<-|]; auto. }
  assert (O2 : ordered g2).
  { intros x k c C. apply child_at_of in C. destruct (T2 x) as (Dx & _). rewrite Dx, G1 in C.
    destruct (Nat.eqb_spec n x) as [<-|N].
    - simpl in C. inversion C as [ids j c' Ei Hj|]; [|discriminate]. injection Ei as <-. apply nth_error_In in Hj.
      rewrite L2, L1. split; [apply Gt; auto|]. now apply K.
    - apply child_at_of in C. apply O in C. lia. }
  assert (K2 : int_keys g2 ids') by (apply (int_keys_heap g); [lia|exact Kk|exact K]).
  destruct (renumber_left d a h2 g2 B O2) as (h3 & -> & B3).
  { apply (int_keys_left h2 g2); auto. eapply int_keys_sub; eauto. }
  destruct (renumber_right d b h3 g2 B3 O2) as (g3 & -> & B4); [eapply int_keys_sub; eauto|].
  exists h3, g3. auto.
Qed.

Lemma sim_delitem h g n i : E h g -> inv g -> n < length g ->
  ER (delitem h n i) (delitem g n (fix_index (ndata (getn g n)) i)).
Proof.
  intros H I Hn. pose proof (inv_shape _ I) as Sh. unfold delitem. rewrite (sim_data _ _ (E_get h g n H)).
  destruct (ndata (getn g n)) as [|b|x|s|ids|m] eqn:Eg; destruct i as [z|t]; cbn [fix_index]; try (split; auto; fail).
  - rewrite norm_fix. destruct (norm_index (length ids) z) as [k|] eqn:N; [|split; auto].
    destruct (sim_tail h g n (remove_nth k ids) (slice_from (remove_nth k ids) z)
      (slice_from (remove_nth k ids) (Z.of_nat k)) (-1)%Z H (shape_parents _ Sh) (shape_ordered _ Sh) Hn)
      as (h' & g' & -> & -> & R); [| | | |split; auto].
    + eapply int_keys_sub; [|eapply shape_int_keys; eauto]. intro c. apply In_remove_nth.
    + intros c Hc. apply In_remove_nth in Hc. apply In_nth_error in Hc as (j & Hj).
      now apply (shape_items g n ids Sh Eg) in Hj.
    + intro c. apply In_skipn'.
    + intro c. apply In_skipn'.
  - destruct (dget t m); [|split; auto]. now apply E_inval_value, E_data.
Qed.

Definition fix_position (d : data) (z : Z) : Z :=
  match d with DArr ids => Z.of_nat (clamp_index (length ids) z) | _ => z end.

Lemma clamp_le len z : clamp_index len z <= len.
Proof. unfold clamp_index. apply Nat.le_min_r. Qed.

Lemma sim_insert h g n z o : E h g -> inv g -> n < length g -> operand_ok g o ->
  ER (insert h n z o) (insert g n (fix_position (ndata (getn g n)) z) o).
Proof.
  intros H I Hn OK. unfold insert. rewrite (sim_data _ _ (E_get h g n H)).
  destruct (ndata (getn g n)) as [|b|x|s|ids|m] eqn:Eg; try (split; auto; fail). cbn [fix_position].
  destruct (operand_is_total g o I OK) as (w & W).
  destruct (operand_spec g o w I OK W) as (g0 & E0 & T0 & I0 & JW).
  destruct (E_operand h g o H) as [A B]. rewrite E0 in *.
  destruct (operand_value h o) as [r h0]. simpl in A, B. subst r. cbn [hbind].
  set (k := clamp_index (length ids) z).
  assert (L0 : length g0 = length g) by apply T0.
  assert (KR : krel (Some (str_of_Z z)) (Some (str_of_Z (Z.of_nat k)))).
  { eexists. split; [reflexivity|]. intros _. eexists; eauto. }
  destruct (E_new_node w h0 g0 (Some n) _ _ B KR) as [C D].
  destruct (new_node_spec g0 w n (str_of_Z (Z.of_nat k)) I0 ltac:(lia) JW) as (g1 & En & I1 & F & L & _ & K & _). rewrite En in *.
  assert (Eg1 : ndata (getn g1 n) = DArr ids).
  { rewrite (fr_old _ _ F) by lia. rewrite <- Eg. apply T0. }
  destruct (new_node w h0 (Some n) (Some (str_of_Z z))) as [h1 c]. simpl in C, D. subst c.
  assert (Ek : clamp_index (length ids) (Z.of_nat k) = k).
  { rewrite clamp_index_nat. pose proof (clamp_le (length ids) z). lia. }
  rewrite Ek. pose proof (inv_shape _ I1) as Sh1.
  assert (In' : forall c, In c (insert_nth k (length g0) ids) -> c = length g0 \/ In c ids).
  { intros c Hc. unfold insert_nth in Hc. apply in_app_or in Hc as [Hc|[Hc|Hc]]; auto.
    - right. rewrite <- (firstn_skipn k ids). apply in_or_app. auto.
    - right. eapply In_skipn'; eauto. }
  destruct (sim_tail h1 g1 n (insert_nth k (length g0) ids)
      (slice_from (insert_nth k (length g0) ids) (z + 1))
      (slice_from (insert_nth k (length g0) ids) (Z.of_nat k + 1)) 1%Z C (shape_parents _ Sh1) (shape_ordered _ Sh1) ltac:(lia))
      as (h' & g' & -> & -> & R); [| | | |split; auto].
  - intros c Hc. apply In' in Hc as [->|Hc]; [split; [lia|eauto]|]. eapply shape_int_keys; eauto.
  - intros c Hc. apply In' in Hc as [->|Hc]; [lia|]. apply In_nth_error in Hc as (j & Hj).
    now apply (shape_items g1 n ids Sh1 Eg1) in Hj.
  - intro c. apply In_skipn'.
  - intro c. apply In_skipn'.
Qed.

(** *** The plain operations *)
Lemma position_norm len z : position len z = norm_index len z.
Proof.
  unfold position, norm_index. destruct (z <? 0)%Z eqn:N.
  - apply Z.ltb_lt in N. replace (0 <=? z)%Z with false by (symmetry; apply Z.leb_gt; lia). cbn [andb].
    rewrite andb_true_r. rewrite (Z.add_comm (Z.of_nat len)).
    replace (z + Z.of_nat len <? Z.of_nat len)%Z with true by (symmetry; apply Z.ltb_lt; lia). rewrite andb_true_r.
    replace (0 <=? z + Z.of_nat len)%Z with (- Z.of_nat len <=? z)%Z; auto.
    destruct (Z.leb_spec (- Z.of_nat len) z), (Z.leb_spec 0 (z + Z.of_nat len)); auto; lia.
  - rewrite andb_false_r. auto.
Qed.
Lemma insert_position_clamp len z : insert_position len z = clamp_index len z.
Proof.
  unfold insert_position, clamp_index. destruct (z <? 0)%Z eqn:N; auto.
  apply Z.ltb_lt in N. lia.
Qed.
Lemma plain_set_fix h n v i w : denotes h n v -> plain_set v (fix_index (ndata (getn h n)) i) w = py_set v i w.
Proof.
  intro D. destruct i as [z|s]; [|destruct v; auto].
  destruct v as [|b|x|s|l|m]; try reflexivity. inversion D as [| | | |? ids ? Ed Len _|]; subst. cbn [fix_index plain_set py_set].
  rewrite Ed, position_norm, <- Len.
  destruct (norm_index (length ids) z) as [k|] eqn:N; cbn [option_map].
  - apply norm_index_bound in N. rewrite Nat2Z.id.
    replace ((0 <=? Z.of_nat k) && (Z.of_nat k <? Z.of_nat (length ids)))%Z with true; auto.
    symmetry. apply andb_true_intro. split; [apply Z.leb_le|apply Z.ltb_lt]; lia.
  - rewrite Z.ltb_irrefl, andb_false_r. auto.
Qed.
Lemma plain_del_fix h n v i : denotes h n v -> plain_del v (fix_index (ndata (getn h n)) i) = py_del v i.
Proof.
  intro D. destruct i as [z|s]; [|destruct v; auto].
  destruct v as [|b|x|s|l|m]; try reflexivity. inversion D as [| | | |? ids ? Ed Len _|]; subst. cbn [fix_index plain_del py_del].
  rewrite Ed, position_norm, <- Len.
  destruct (norm_index (length ids) z) as [k|] eqn:N; cbn [option_map].
  - apply norm_index_bound in N. rewrite Nat2Z.id.
    replace ((0 <=? Z.of_nat k) && (Z.of_nat k <? Z.of_nat (length ids)))%Z with true; auto.
    symmetry. apply andb_true_intro. split; [apply Z.leb_le|apply Z.ltb_lt]; lia.
  - rewrite Z.ltb_irrefl, andb_false_r. auto.
Qed.
Lemma plain_insert_fix h n v z w : denotes h n v -> plain_insert v (fix_position (ndata (getn h n)) z) w = py_insert v z w.
Proof.
  intro D. destruct v as [|b|x|s|l|m]; try reflexivity. inversion D as [| | | |? ids ? Ed Len _|]; subst.
  cbn [plain_insert py_insert]. rewrite Ed, insert_position_clamp, <- Len. cbn [fix_position].
  pose proof (clamp_le (length ids) z). rewrite Nat2Z.id.
  replace ((0 <=? _) && _)%Z with true; auto.
  symmetry. apply andb_true_intro. split; [apply Z.leb_le|apply Z.leb_le]; lia.
Qed.

(** *** Coherent values *)
Definition coherent (h : heap) : Prop := exists g, E h g /\ inv g.

Lemma coherent_ordered h : coherent h -> ordered h.
Proof. intros (g & H & I). eapply E_ordered; eauto. apply shape_ordered, I. Qed.
Lemma coherent_total h n : coherent h -> n < length h -> exists v, denotes h n v.
Proof. intros C. apply denotes_total, coherent_ordered; auto. Qed.

Lemma any_setitem h n i o v w : coherent h -> n < length h -> operand_ok h o -> denotes h n v -> operand_is h o w ->
  exists h' r, setitem h n i o = (r, h') /\ coherent h' /\ length h <= length h' /\
    changes h h' n (py_set v i w) /\
    match py_set v i w with Some _ => r = Ok tt | None => exists e, r = Exn e end.
Proof.
  intros (g & H & I) Hn OK D W. pose proof (E_len _ _ H) as L.
  apply (E_denotes h g) in D; auto. apply (E_operand_is h g) in W; auto. apply (E_operand_ok h g) in OK; auto.
  destruct (setitem_spec g n (fix_index (ndata (getn g n)) i) o v w I ltac:(lia) OK (fix_index_ok _ _) D W)
    as (g' & r & Eg & I' & L' & C & R).
  destruct (sim_setitem h g n i o H I ltac:(lia) OK) as [A B]. rewrite Eg in *. rewrite plain_set_fix in * by auto.
  destruct (setitem h n i o) as [r' h']. simpl in A, B. subst r'. exists h', r. split; auto. split; [exists g'; auto|].
  split; [rewrite (E_len _ _ B); lia|]. split; auto. eapply E_changes; eauto.
Qed.
Lemma any_delitem h n i v : coherent h -> n < length h -> denotes h n v ->
  exists h' r, delitem h n i = (r, h') /\ coherent h' /\ length h <= length h' /\
    changes h h' n (py_del v i) /\
    match py_del v i with Some _ => r = Ok tt | None => exists e, r = Exn e end.
Proof.
  intros (g & H & I) Hn D. pose proof (E_len _ _ H) as L. apply (E_denotes h g) in D; auto.
  destruct (delitem_spec g n (fix_index (ndata (getn g n)) i) v I ltac:(lia) (fix_index_ok _ _) D)
    as (g' & r & Eg & I' & L' & C & R).
  destruct (sim_delitem h g n i H I ltac:(lia)) as [A B]. rewrite Eg in *. rewrite plain_del_fix in * by auto.
  destruct (delitem h n i) as [r' h']. simpl in A, B. subst r'. exists h', r. split; auto. split; [exists g'; auto|].
  split; [rewrite (E_len _ _ B); lia|]. split; auto. eapply E_changes; eauto.
Qed.
Lemma any_insert h n z o v w : coherent h -> n < length h -> operand_ok h o -> denotes h n v -> operand_is h o w ->
  exists h' r, insert h n z o = (r, h') /\ coherent h' /\ length h <= length h' /\
    changes h h' n (py_insert v z w) /\
    match py_insert v z w with Some _ => r = Ok tt | None => exists e, r = Exn e end.
Proof.
  intros (g & H & I) Hn OK D W. pose proof (E_len _ _ H) as L.
  apply (E_denotes h g) in D; auto. apply (E_operand_is h g) in W; auto. apply (E_operand_ok h g) in OK; auto.
  destruct (insert_spec g n (fix_position (ndata (getn g n)) z) o v w I ltac:(lia) OK) as (g' & r & Eg & I' & L' & C & R); auto.
  { intros ids Ed. rewrite Ed. cbn [fix_position]. pose proof (clamp_le (length ids) z). lia. }
  destruct (sim_insert h g n z o H I ltac:(lia) OK) as [A B]. rewrite Eg in *. rewrite plain_insert_fix in * by auto.
  destruct (insert h n z o) as [r' h']. simpl in A, B. subst r'. exists h', r. split; auto. split; [exists g'; auto|].
  split; [rewrite (E_len _ _ B); lia|]. split; auto. eapply E_changes; eauto.
Qed.
Lemma any_read_value h n : coherent h -> n < length h ->
  exists v h', read_value h n = (Ok v, h') /\ denotes h n v /\ coherent h' /\ grows h h' /\ length h' = length h.
Proof.
  intros (g & H & I) Hn. pose proof (E_len _ _ H) as L.
  destruct (read_value_spec g n I ltac:(lia)) as (v & g' & Eg & D & T & I').
  destruct (E_read_value h g n H) as [A B]. rewrite Eg in *. simpl in A, B.
  destruct (read_value h n) as [r h']. simpl in A, B. subst r. exists v, h'. split; auto.
  split; [now apply (E_denotes h g)|]. split; [exists g'; auto|].
  assert (Lh : length h' = length h) by (rewrite (E_len _ _ B), L; apply T).
  split; auto. split; [lia|]. intros m _. rewrite (sim_data _ _ (E_get _ _ m B)), (sim_data _ _ (E_get _ _ m H)). apply T.
Qed.
Lemma any_reinit h n w : coherent h -> n < length h -> jwf w = true ->
  exists h', reinit h n w = (Ok tt, h') /\ coherent h' /\ length h <= length h' /\ changes h h' n (Some w).
Proof.
  intros (g & H & I) Hn W. pose proof (E_len _ _ H) as L.
  destruct (reinit_spec g n w I ltac:(lia) W) as (g' & Eg & I' & L' & C).
  assert (S : ER (reinit h n w) (reinit g n w)).
  { unfold reinit. apply E_inval_value. destruct (E_get h g n H) as [A B _ K]. rewrite B. now apply E_init. }
  rewrite Eg in S. destruct S as [A B]. destruct (reinit h n w) as [r h']. simpl in A, B. subst r.
  exists h'. split; auto. split; [exists g'; auto|]. split; [rewrite (E_len _ _ B); lia|]. eapply E_changes; eauto.
Qed.
Lemma any_new_doc h v : coherent h -> jwf v = true ->
  exists h', new_doc v h = (h', length h) /\ coherent h' /\ length h < length h' /\ denotes h' (length h) v /\ grows h h'.
Proof.
  intros (g & H & I) W. pose proof (E_len _ _ H) as L.
  destruct (new_doc_spec g v I W) as (g' & Eg & I' & L' & R & D & Old). unfold new_doc in *.
  destruct (E_new_node v h g None None None H (krel_refl None)) as [A B].
  destruct (new_node v h None None) as [h' r]. rewrite Eg in A, B. cbn [fst snd] in A, B. subst r. rewrite L. exists h'. split; auto.
  split; [exists g'; auto|]. split; [rewrite (E_len _ _ A); lia|]. split; [now apply (E_denotes h' g')|].
  split; [rewrite (E_len _ _ A); lia|]. intros m Hm.
  rewrite (sim_data _ _ (E_get _ _ m A)), (sim_data _ _ (E_get _ _ m H)). now rewrite Old by lia.
Qed.
Lemma any_read_path h n : coherent h -> coherent (snd (read_path h n)) /\ length (snd (read_path h n)) = length h.
Proof.
  intros (g & H & I). unfold read_path. destruct (ncpath (getn h n)); [split; auto; exists g; auto|].
  destruct (climb _ _ _ _); simpl; try (split; auto; exists g; auto; fail).
  rewrite length_setn. split; auto. exists g. split; auto.
  destruct (Nat.lt_ge_cases n (length h)) as [Hn|Hn]; [|now rewrite setn_out].
  apply E_intro; [rewrite length_setn; now apply E_len|]. intros m _. rewrite getn_setn by auto.
  destruct (Nat.eqb_spec n m) as [<-|]; [|now apply E_get]. destruct (E_get h g n H). now constructor.
Qed.
Lemma any_append h n o v w : coherent h -> n < length h -> operand_ok h o -> denotes h n v -> operand_is h o w ->
  exists h' r, append h n o = (r, h') /\ coherent h' /\ length h <= length h' /\
    match v with
    | JArr l => r = Ok tt /\ changes h h' n (Some (JArr (l ++ [w])))
    | _ => (exists e, r = Exn e) /\ changes h h' n None
    end.
Proof.
  intros C Hn OK D W. unfold append.
  assert (Bad : forall e, exists h' r, (@Exn unit e, h) = (r, h') /\ coherent h' /\ length h <= length h' /\
     (exists e, r = Exn e) /\ changes h h' n None).
  { intro e. exists h, (Exn e). repeat (split; [solve [eauto]|]). apply changes_none; auto using grows_refl, coherent_ordered. }
  destruct (ndata (getn h n)) as [|b|x|s|ids|m] eqn:Ed.
  1-4: inversion D as [? E'|? ? E'|? ? E'|? ? E'|? ? ? E'|? ? ? E']; subst; rewrite Ed in E'; try discriminate;
    try (unfold insert; rewrite Ed); apply Bad.
  - destruct (denotes_arr_inv h n ids v Ed D) as (l & -> & F2).
    destruct (any_insert h n (Z.of_nat (length ids)) o (JArr l) w C Hn OK D W) as (h' & r & Ei & C' & L' & Ch & R).
    cbn [py_insert] in *.
    rewrite insert_position_clamp, clamp_index_nat, (Forall2_len _ _ _ F2), Nat.min_id in Ch.
    unfold list_ins in Ch. rewrite firstn_all, skipn_all in Ch.
    exists h', r. split; [exact Ei|]. split; [exact C'|]. split; [exact L'|]. split; [exact R|exact Ch].
  - destruct (denotes_obj_inv h n m v Ed D) as (kvs & -> & F2). unfold insert. rewrite Ed. apply Bad.
Qed.

(** The child found under an index is the one with that value. *)
Lemma any_getitem h n i v : coherent h -> denotes h n v ->
  match py_get v i with
  | Some x => exists c k, getitem h n i = Ok c /\ child_at h n k c /\ denotes h c x
  | None => exists e, getitem h n i = Exn e
  end.
Proof.
  intros C D. unfold getitem. inversion D as [? Ed|? ? Ed|? ? Ed|? ? Ed|? ids l Ed Len Ch|? m kvs Ed Ek Ch]; subst; rewrite Ed;
    cbn [py_get]; try (destruct i; eauto; fail).
  - destruct i as [z|s]; [|eauto]. rewrite position_norm, <- Len. destruct (norm_index (length ids) z) as [k|] eqn:N; [|eauto].
    apply norm_index_bound in N. destruct (nth_error_lt ids k N) as (c & Hc). rewrite Hc.
    destruct (nth_error_lt l k ltac:(lia)) as (x & Hx). rewrite Hx. exists c, (str_of_nat k). split; auto.
    split; [econstructor; eauto|eauto].
  - destruct i as [z|s]; [eauto|]. clear D. revert kvs Ek Ch.
    assert (Sub : forall k c, In (k, c) m -> child_at h n k c) by (intros; eapply ca_member; eauto).
    clear Ed. induction m as [|[k c] m IH]; intros [|[k' x] kvs] Ek Ch; try discriminate; cbn [find dget option_map fst snd]; eauto.
    injection Ek as Ek1 Ek2. simpl in Ek1. subst k'. rewrite (str_eqb_sym s k). destruct (str_eqb k s) eqn:Es.
    + cbn [option_map snd]. exists c, k. split; auto. split; [apply Sub; now left|]. apply (Ch 0 k c k x); auto.
    + apply IH; auto.
      * intros; apply Sub; now right.
      * intros j a b a' b' Ha Hb. apply (Ch (S j) a b a' b'); auto.
Qed.
Lemma child_kept h h' n k c r x : coherent h -> n < length h -> changes h h' n r -> child_at h n k c -> denotes h c x -> denotes h' c x.
Proof.
  intros C Hn Ch Ca D. pose proof (coherent_ordered _ C) as O. apply O in Ca as [L1 L2].
  destruct r; [|apply (Ch c); auto]. destruct Ch as (_ & K & _). apply (K c); auto.
  intros [p Lp]. apply (located_bound h c p n O) in Lp; auto. lia.
Qed.
Lemma any_pop h n z v : coherent h -> n < length h -> denotes h n v ->
  exists h' r, pop h n z = (r, h') /\ coherent h' /\ length h <= length h' /\
    changes h h' n (py_del v (IInt z)) /\
    match py_get v (IInt z) with
    | Some x => exists c, r = Ok c /\ denotes h' c x
    | None => exists e, r = Exn e
    end.
Proof.
  intros C Hn D. unfold pop. pose proof (any_getitem h n (IInt z) v C D) as G.
  destruct (any_delitem h n (IInt z) v C Hn D) as (h' & r & Ed & C' & L' & Ch & R).
  destruct (py_get v (IInt z)) as [x|] eqn:Eg.
  - destruct G as (c & k & -> & Ca & Dx). rewrite Ed.
    assert (Some_ : exists v', py_del v (IInt z) = Some v').
    { destruct v; try discriminate. cbn [py_get py_del] in *. destruct (position _ z); [simpl; eauto|discriminate]. }
    destruct Some_ as (v' & Ev). rewrite Ev in *. subst r. cbn [hbind]. exists h', (Ok c).
    split; [reflexivity|]. split; [exact C'|]. split; [exact L'|]. split; [exact Ch|].
    exists c. split; auto. exact (child_kept h h' n k c (Some v') x C Hn Ch Ca Dx).
  - destruct G as (e & ->). exists h, (Exn e). split; auto. split; auto. split; auto.
    assert (Ev : py_del v (IInt z) = None).
    { destruct v as [| | | |l|]; auto. cbn [py_get py_del] in *. destruct (position (length l) z) as [k|] eqn:P; auto.
      rewrite position_norm in P. apply norm_index_bound in P. apply nth_error_None in Eg. lia. }
    rewrite Ev. split; eauto. apply changes_none; auto using grows_refl, coherent_ordered.
Qed.

(** *** Operations by pointer *)
Lemma E_eval_id p : forall h g n, E h g -> eval_id p h n = eval_id p g n.
Proof.
  induction p as [|key p IH]; intros h g n H; auto. cbn [eval_id]. rewrite (sim_data _ _ (E_get h g n H)).
  destruct (ndata (getn g n)) as [|b|x|s|ids|m]; auto.
  - destruct (py_int key) as [z|]; auto. destruct (norm_index _ z) as [k|]; auto. destruct (nth_error ids k); auto.
  - destruct (dget key m); auto.
Qed.
Lemma fix_position_in g n ids z : ndata (getn g n) = DArr ids -> (0 <= z <= Z.of_nat (length ids))%Z ->
  fix_position (ndata (getn g n)) z = z.
Proof.
  intros Ed Hz. rewrite Ed. cbn [fix_position]. rewrite <- (Z2Nat.id z) at 1 by lia. rewrite clamp_index_nat. lia.
Qed.
Lemma eval_id_bound p g n t : shape g -> n < length g -> eval_id p g n = Ok t -> t < length g.
Proof.
  intros S Hn Ev. destruct (eval_id_located p g n t Ev) as (q & L & _).
  apply (located_bound g n q t (shape_ordered _ S) Hn) in L. lia.
Qed.
Lemma as_json_error_ok {A} (r : res A) a : as_json_error r = Ok a -> r = Ok a.
Proof. destruct r as [x|e|]; simpl; auto. destruct (is_pointer_error e); discriminate. Qed.

Lemma sim_add h g n p o : E h g -> inv g -> n < length g -> operand_ok g o -> ER (json_add h n p o) (json_add g n p o).
Proof.
  intros H I Hn OK. unfold json_add. destruct (path_empty p).
  - destruct (operand_is_total g o I OK) as (w & W).
    destruct (operand_spec g o w I OK W) as (g0 & E0 & T0 & I0 & JW).
    destruct (E_operand h g o H) as [A B]. rewrite E0 in *.
    destruct (operand_value h o) as [r h0]. simpl in A, B. subst r. cbn [hbind].
    unfold reinit. apply E_inval_value. destruct (E_get h0 g0 n B) as [_ P _ K]. rewrite P. now apply E_init.
  - destruct (mk_pointer [p]) as [q|e|]; try (split; auto; fail).
    rewrite (E_eval_id _ h g n H).
    destruct (as_json_error (eval_id _ g n)) as [tp|e|] eqn:Ev; try (split; auto; fail).
    apply as_json_error_ok in Ev. apply (eval_id_bound _ g n tp (inv_shape _ I) Hn) in Ev.
    rewrite (sim_data _ _ (E_get h g tp H)). destruct (ndata (getn g tp)) as [|b|x|s|ids|m] eqn:Ed; try (split; auto; fail).
    + assert (S : forall z, (0 <= z <= Z.of_nat (length ids))%Z -> ER (insert h tp z o) (insert g tp z o)).
      { intros z Hz. rewrite <- (fix_position_in g tp ids z Ed Hz) at 2. now apply sim_insert. }
      destruct (str_eqb _ _); [apply S; lia|]. destruct (py_int _) as [z|]; [|split; auto].
      destruct (z =? _)%Z; [apply S; lia|]. destruct (_ && _)%Z eqn:B; [|split; auto].
      apply andb_prop in B as [B1 B2]. apply Z.leb_le in B1. apply Z.ltb_lt in B2. apply S. lia.
    + apply (sim_setitem h g tp (IStr (last q [])) o H I Ev OK).
Qed.

Lemma any_add h n q k tp v o w : coherent h -> n < length h -> operand_ok h o -> operand_is h o w ->
  located h n q tp -> denotes h tp v ->
  exists h' r, json_add h n (PKeys (q ++ [k])) o = (r, h') /\ coherent h' /\ length h <= length h' /\
  changes h h' tp (plain_add v k w) /\
  match plain_add v k w with Some _ => r = Ok tt | None => r = Exn EJSON end.
Proof.
  intros (g & H & I) Hn OK W Lc D. pose proof (E_len _ _ H) as Lg. pose proof (inv_shape _ I) as Sh.
  apply (E_operand_ok h g) in OK; auto. apply (E_operand_is h g) in W; auto. apply (E_located h g) in Lc; auto.
  apply (E_denotes h g) in D; auto.
  destruct (sim_add h g n (PKeys (q ++ [k])) o H I ltac:(lia) OK) as [A B].
  destruct (json_add_spec g n (PKeys (q ++ [k])) o w I ltac:(lia) OK W) as (g' & r & Eg & I' & L' & R).
  rewrite Eg in *. destruct (json_add h n _ o) as [r' h']. simpl in A, B. subst r'. exists h', r. split; auto.
  split; [exists g'; auto|]. split; [rewrite (E_len _ _ B); lia|].
  assert (PE : path_empty (PKeys (q ++ [k])) = false) by (destruct q; reflexivity). rewrite PE in R.
  change (mk_pointer [PKeys (q ++ [k])]) with (@Ok pointer (q ++ [k])) in R. cbv iota in R.
  rewrite removelast_last, last_last in R. rewrite (located_eval _ _ _ _ Sh Lc) in R.
  destruct R as (q2 & v2 & _ & _ & D2 & Ch & R). assert (v2 = v) by (eapply denotes_fun; eauto). subst. split; auto.
  eapply E_changes; eauto.
Qed.
Lemma any_add_coherent h n p o : coherent h -> n < length h -> operand_ok h o ->
  coherent (snd (json_add h n p o)) /\ length h <= length (snd (json_add h n p o)).
Proof.
  intros (g & H & I) Hn OK. pose proof (E_len _ _ H) as Lg. apply (E_operand_ok h g) in OK; auto.
  destruct (operand_is_total g o I OK) as (w & W).
  destruct (sim_add h g n p o H I ltac:(lia) OK) as [A B].
  destruct (json_add_spec g n p o w I ltac:(lia) OK W) as (g' & r & Eg & I' & L' & R). rewrite Eg in *.
  split; [exists g'; auto|]. rewrite (E_len _ _ B). simpl. lia.
Qed.
Lemma any_operand h o w : coherent h -> operand_ok h o -> operand_is h o w ->
  exists h', operand_value h o = (Ok w, h') /\ coherent h' /\ length h' = length h /\ grows h h' /\ jwf w = true.
Proof.
  intros (g & H & I) OK W. pose proof (E_len _ _ H) as Lg. apply (E_operand_ok h g) in OK; auto. apply (E_operand_is h g) in W; auto.
  destruct (operand_spec g o w I OK W) as (g0 & E0 & T0 & I0 & JW).
  destruct (E_operand h g o H) as [A B]. rewrite E0 in *. destruct (operand_value h o) as [r h0]. simpl in A, B. subst r.
  assert (L0 : length h0 = length h) by (rewrite (E_len _ _ B), Lg; apply T0).
  exists h0. split; auto. split; [exists g0; auto|]. split; auto. split; auto. split; [lia|]. intros m _.
  rewrite (sim_data _ _ (E_get _ _ m B)), (sim_data _ _ (E_get _ _ m H)). apply T0.
Qed.
Lemma any_operand_total h o : coherent h -> operand_ok h o -> exists w, operand_is h o w.
Proof. intros C OK. destruct o as [w|n]; simpl in *; eauto. now apply coherent_total. Qed.

(** Putting a whole node in place of another's content. *)
Lemma any_put h n o w : coherent h -> n < length h -> operand_ok h o -> operand_is h o w ->
  exists h', hbind (operand_value h o) (fun v h => reinit h n v) = (Ok tt, h') /\ coherent h' /\
    length h <= length h' /\ changes h h' n (Some w).
Proof.
  intros C Hn OK W. destruct (any_operand h o w C OK W) as (h0 & -> & C0 & L0 & G & JW). cbn [hbind].
  destruct (any_reinit h0 n w C0 ltac:(lia) JW) as (h' & -> & C' & L' & Ch). exists h'. split; auto. split; auto.
  split; [lia|]. apply (changes_grows h h0); auto. now apply coherent_ordered.
Qed.

(** [remove] and [replace] by a pointer: whatever the key of the target says. *)
Lemma any_set_coherent h n i x : coherent h -> n < length h -> operand_ok h x ->
  coherent (snd (setitem h n i x)) /\ length h <= length (snd (setitem h n i x)).
Proof.
  intros C Hn OK. destruct (coherent_total h n C Hn) as (v & D). destruct (any_operand_total h x C OK) as (w & W).
  destruct (any_setitem h n i x v w C Hn OK D W) as (h' & r & -> & C' & L' & _). auto.
Qed.
Lemma any_del_coherent h n i : coherent h -> n < length h ->
  coherent (snd (delitem h n i)) /\ length h <= length (snd (delitem h n i)).
Proof.
  intros C Hn. destruct (coherent_total h n C Hn) as (v & D). destruct (any_delitem h n i v C Hn D) as (h' & r & -> & C' & L' & _). auto.
Qed.
Lemma coherent_parent h n p : coherent h -> n < length h -> nparent (getn h n) = Some p -> p < length h.
Proof.
  intros (g & H & I) Hn P. rewrite (sim_parent _ _ (E_get h g n H)) in P. apply (sh_parent g (inv_shape _ I)) in P. lia.
Qed.
Lemma any_eval_bound p h n t : coherent h -> n < length h -> eval_id p h n = Ok t -> t < length h.
Proof.
  intros (g & H & I) Hn Ev. rewrite (E_eval_id p h g n H) in Ev. rewrite (E_len _ _ H) in *. now apply (eval_id_bound p g n t (inv_shape _ I)).
Qed.
Lemma any_remove_coherent h n p : coherent h -> n < length h ->
  coherent (snd (json_remove h n p)) /\ length h <= length (snd (json_remove h n p)).
Proof.
  intros C Hn. unfold json_remove. destruct (path_empty p).
  - destruct (any_reinit h n JNull C Hn eq_refl) as (h' & -> & C' & L' & _). auto.
  - destruct (mk_pointer [p]) as [q|e|]; auto. destruct (as_json_error (eval_id q h n)) as [t|e|] eqn:Ev; auto.
    apply as_json_error_ok, (any_eval_bound q h n t C Hn) in Ev. destruct (nparent (getn h t)) as [tp|] eqn:P; auto.
    apply (coherent_parent h t tp C Ev) in P. destruct (ndata (getn h tp)); auto.
    + destruct (key_int h t); auto. now apply any_del_coherent.
    + destruct (nkey (getn h t)); auto. now apply any_del_coherent.
Qed.
Lemma any_replace_coherent h n p x : coherent h -> n < length h -> operand_ok h x ->
  coherent (snd (json_replace h n p x)) /\ length h <= length (snd (json_replace h n p x)).
Proof.
  intros C Hn OK. unfold json_replace. destruct (path_empty p).
  - destruct (any_operand_total h x C OK) as (w & W). destruct (any_put h n x w C Hn OK W) as (h' & -> & C' & L' & _). auto.
  - destruct (mk_pointer [p]) as [q|e|]; auto. destruct (as_json_error (eval_id q h n)) as [t|e|] eqn:Ev; auto.
    apply as_json_error_ok, (any_eval_bound q h n t C Hn) in Ev. destruct (nparent (getn h t)) as [tp|] eqn:P; auto.
    apply (coherent_parent h t tp C Ev) in P. destruct (ndata (getn h tp)); auto.
    + destruct (key_int h t); auto. now apply any_set_coherent.
    + destruct (nkey (getn h t)); auto. now apply any_set_coherent.
Qed.

Lemma any_run h o : coherent h -> any_ok h o -> coherent (run h o) /\ length h <= length (run h o).
Proof.
  intros C K.
  destruct o as [v|n|n|n i x|n i|n z x|n x|n z|n p x|n p|n p x]; cbn [any_ok] in K; cbn [run].
  - destruct (any_new_doc h v C K) as (h' & -> & C' & L' & _). split; auto. simpl. lia.
  - destruct (any_read_path h n C). split; auto. lia.
  - destruct (any_read_value h n C K) as (v & h' & -> & _ & C' & _ & L'). split; auto. simpl. lia.
  - destruct K as (Hn & OK). destruct (coherent_total h n C Hn) as (v & D).
    destruct (any_operand_total h x C OK) as (w & W).
    destruct (any_setitem h n i x v w C Hn OK D W) as (h' & r & -> & C' & L' & _). auto.
  - destruct (coherent_total h n C K) as (v & D).
    destruct (any_delitem h n i v C K D) as (h' & r & -> & C' & L' & _). auto.
  - destruct K as (Hn & OK). destruct (coherent_total h n C Hn) as (v & D).
    destruct (any_operand_total h x C OK) as (w & W).
    destruct (any_insert h n z x v w C Hn OK D W) as (h' & r & -> & C' & L' & _). auto.
  - destruct K as (Hn & OK). destruct (coherent_total h n C Hn) as (v & D).
    destruct (any_operand_total h x C OK) as (w & W).
    destruct (any_append h n x v w C Hn OK D W) as (h' & r & -> & C' & L' & _). auto.
  - destruct (coherent_total h n C K) as (v & D).
    destruct (any_pop h n z v C K D) as (h' & r & -> & C' & L' & _). auto.
  - destruct K as (Hn & OK). now apply any_add_coherent.
  - now apply any_remove_coherent.
  - destruct K as (Hn & OK). now apply any_replace_coherent.
Qed.
Lemma coherent_nil : coherent [].
Proof. exists []. split; [constructor|apply inv_nil]. Qed.
Lemma any_history_coherent h : any_history h -> coherent h.
Proof. induction 1 as [|h o H IH K]; [apply coherent_nil|]. now apply any_run. Qed.

(** Histories without negative indices are such histories. *)
Lemma inv_coherent h : inv h -> coherent h.
Proof. intro I. exists h. split; auto. apply E_refl. Qed.
