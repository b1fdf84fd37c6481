(** JSON Patch on Python objects in which no object occurs twice does what
    Patch.v says on values. *)
From Verif Require Import PatchFacts.
From Verif Require Export PatchHeapFacts.
From Coq Require Import Lia Permutation.
Open Scope nat_scope.

Scheme reads_mut := Induction for reads Sort Prop with reads_all_mut := Induction for reads_all Sort Prop.
Combined Scheme reads_both from reads_mut, reads_all_mut.

Fixpoint vol (d : json) : nat :=
  match d with
  | JArr l => S (fold_right (fun x n => vol x + n) 0 l)
  | JObj m => S (fold_right (fun kv n => vol (snd kv) + n) 0 m)
  | _ => 0
  end.
Lemma vol_members m : fold_right (fun kv n => vol (snd kv) + n) 0 m = fold_right (fun x n => vol x + n) 0 (map (@snd pystr json) m).
Proof. induction m; cbn; auto. Qed.
Lemma reads_vol h : (forall v d S, reads h v d S -> length S = vol d) /\
  (forall l ds S, reads_all h l ds S -> length S = fold_right (fun x n => vol x + n) 0 ds).
Proof.
  apply reads_both; cbn; intros; auto.
  - destruct v; inversion e; reflexivity.
  - rewrite vol_members. lia.
  - rewrite app_length. lia.
Qed.

(** What is read depends only on the objects visited. *)
Lemma reads_frame_both h h' :
  (forall v d S, reads h v d S -> (forall a, In a S -> nth_error h' a = nth_error h a) -> reads h' v d S) /\
  (forall l ds S, reads_all h l ds S -> (forall a, In a S -> nth_error h' a = nth_error h a) -> reads_all h' l ds S).
Proof.
  apply reads_both; intros.
  - now constructor.
  - econstructor; [rewrite H0; [eassumption|now left]|]. apply H. intros b B. apply H0. now right.
  - econstructor; [rewrite H0; [eassumption|now left]|assumption|]. apply H. intros b B. apply H0. now right.
  - constructor.
  - constructor; [apply H|apply H0]; intros a A; apply H1, in_or_app; auto.
Qed.
Lemma reads_frame h h' v d S : reads h v d S -> (forall a, In a S -> nth_error h' a = nth_error h a) -> reads h' v d S.
Proof. apply reads_frame_both. Qed.
Lemma reads_all_frame h h' l ds S : reads_all h l ds S -> (forall a, In a S -> nth_error h' a = nth_error h a) -> reads_all h' l ds S.
Proof. apply reads_frame_both. Qed.
Lemma reads_range_both h : (forall v d S, reads h v d S -> forall a, In a S -> a < length h) /\
  (forall l ds S, reads_all h l ds S -> forall a, In a S -> a < length h).
Proof.
  apply reads_both; intros.
  - destruct H.
  - destruct H0 as [<- | H0]; auto. apply nth_error_Some. congruence.
  - destruct H0 as [<- | H0]; auto. apply nth_error_Some. congruence.
  - destruct H.
  - apply in_app_or in H1 as [H1|H1]; auto.
Qed.
Lemma reads_range h v d S a : reads h v d S -> In a S -> a < length h.
Proof. intros H. revert a. apply (proj1 (reads_range_both h) _ _ _ H). Qed.
Lemma reads_more h h2 v d S : reads h v d S -> reads (h ++ h2) v d S.
Proof. intros H. eapply reads_frame; eauto. intros a A. apply nth_error_app1. eapply reads_range; eauto. Qed.
Lemma reads_all_more h h2 l ds S : reads_all h l ds S -> reads_all (h ++ h2) l ds S.
Proof. intros H. eapply reads_all_frame; eauto. intros a A. apply nth_error_app1. eapply (proj2 (reads_range_both h)); eauto. Qed.
Lemma reads_all_len h l ds S : reads_all h l ds S -> length l = length ds.
Proof. intros H. induction H; cbn; auto. Qed.

(** Taking a member out. *)
Lemma reads_all_nth h l ds S n : reads_all h l ds S ->
  match nth_error l n, nth_error ds n with
  | Some w, Some x => exists Sx S1 S2, reads h w x Sx /\ S = S1 ++ Sx ++ S2 /\
      forall h' y Sy, (forall a, In a (S1 ++ S2) -> nth_error h' a = nth_error h a) -> reads h' w y Sy ->
      reads_all h' l (update_nth n y ds) (S1 ++ Sy ++ S2)
  | None, None => True
  | _, _ => False
  end.
Proof.
  intros H. revert n. induction H as [|v vs d ds S S' R RA IH]; intros [|n]; cbn; auto.
  - exists S, [], S'. repeat split; auto. intros h' y Sy F Y. cbn [app]. constructor; auto. eapply reads_all_frame; eauto.
  - specialize (IH n). destruct (nth_error vs n), (nth_error ds n); auto. destruct IH as (Sx & S1 & S2 & X & -> & K).
    exists Sx, (S ++ S1), S2. repeat split; auto; [now rewrite !app_assoc|]. intros h' y Sy F Y. rewrite <- app_assoc. constructor.
    + eapply reads_frame; eauto. intros a A. apply F. rewrite !in_app_iff. auto.
    + apply K; auto. intros a A. apply F. rewrite !in_app_iff in *. tauto.
Qed.
Lemma reads_dget h k m : forall dm S, map fst m = map fst dm -> reads_all h (map snd m) (map snd dm) S ->
  match dget k m, dget k dm with
  | Some w, Some x => exists Sx S1 S2, reads h w x Sx /\ S = S1 ++ Sx ++ S2 /\
      forall h' y Sy, (forall a, In a (S1 ++ S2) -> nth_error h' a = nth_error h a) -> reads h' w y Sy ->
      reads_all h' (map snd m) (map snd (dset k y dm)) (S1 ++ Sy ++ S2)
  | None, None => True
  | _, _ => False
  end.
Proof.
  induction m as [|[k' v] m IH]; intros [|[k2 d] dm] S K H; cbn in *; try discriminate; auto.
  injection K as -> K. inversion H as [|v1 vs1 d1 ds1 S0 S' R RA]; subst. destruct (str_eqb k k2) eqn:Ek; cbn.
  - exists S0, [], S'. repeat split; auto. intros h' y Sy F Y. cbn. constructor; auto. eapply reads_all_frame; eauto.
  - specialize (IH _ _ K RA). destruct (dget k m), (dget k dm); auto. destruct IH as (Sx & S1 & S2 & X & -> & G).
    exists Sx, (S0 ++ S1), S2. repeat split; auto; [now rewrite !app_assoc|]. intros h' y Sy F Y. rewrite <- app_assoc. cbn. constructor.
    + eapply reads_frame; eauto. intros a A. apply F. rewrite !in_app_iff. auto.
    + apply G; auto. intros a A. apply F. rewrite !in_app_iff in *. tauto.
Qed.
Lemma keys_dset_same {A} k (y x : A) m : dget k m = Some x -> map fst (dset k y m) = map fst m.
Proof. induction m as [|[k' v] m IH]; cbn; [discriminate|]. destruct (str_eqb k k'); cbn; auto. intros H. now rewrite IH. Qed.

Lemma index_plain k i n len : fullmatch JSON_INDEX_RE k = true -> py_int k = Some i -> norm_index len i = Some n -> n = Z.to_nat i.
Proof.
  intros F P N. apply index_match_rfc in F. rewrite (index_digits_val _ F) in P. injection P as <-.
  unfold norm_index in N. destruct (Z.ltb_spec (Z.of_nat (N.to_nat (digits_value k))) 0); [lia|].
  destruct (_ && _)%bool; congruence.
Qed.

(** Following a pointer. *)
Definition walked (h : heap) (p : pointer) (v : pyval) (d : json) (S : list nat) (w : pyval) (x : json) : Prop :=
  exists Sx S1 S2, reads h w x Sx /\ S = S1 ++ Sx ++ S2 /\ (p <> [] -> forall a, v = VRef a -> In a S1) /\
  forall h' y Sy, (forall a, In a (S1 ++ S2) -> nth_error h' a = nth_error h a) -> reads h' w y Sy -> reads h' v (update_at p y d) (S1 ++ Sy ++ S2).
Lemma heval_reads h p : forall v d S, reads h v d S ->
  match heval p v h, eval_plain p d with
  | Ok w, Ok x => walked h p v d S w x
  | Exn e, Exn e' => e = e'
  | _, _ => False
  end.
Proof.
  induction p as [|k p IH]; intros v d S H.
  - cbn. exists S, [], []. rewrite app_nil_r. cbn. split; [exact H|]. split; [reflexivity|]. split; [congruence|]. intros h' y Sy _ Y. now rewrite app_nil_r.
  - cbn [heval eval_plain]. destruct H as [v d E|a l ds S E L|a m dm S E K L].
    + destruct v; inversion E; reflexivity.
    + rewrite E. destruct (fullmatch JSON_INDEX_RE k) eqn:F; [|reflexivity]. destruct (py_int k) as [i|] eqn:P; [|reflexivity].
      rewrite (reads_all_len _ _ _ _ L). destruct (norm_index (length ds) i) as [n|] eqn:N; [|reflexivity].
      pose proof (reads_all_nth _ _ _ _ n L) as G. destruct (nth_error l n) as [w|], (nth_error ds n) as [x|] eqn:Dn; try contradiction; [|reflexivity].
      destruct G as (Sx & S1 & S2 & X & -> & G). specialize (IH _ _ _ X).
      destruct (heval p w h) as [w'| |], (eval_plain p x) as [x'| |]; try contradiction; auto.
      destruct IH as (Sx' & S1' & S2' & X' & -> & _ & G'). exists Sx', (a :: S1 ++ S1'), (S2' ++ S2). repeat split; auto.
      * cbn. f_equal. now rewrite <- !app_assoc.
      * intros _ b [= ->]. now left.
      * intros h' y Sy Fr Y. cbn [update_at]. rewrite P, <- (index_plain _ _ _ _ F P N), Dn. cbn [app]. econstructor.
        -- rewrite Fr by (now left). exact E.
        -- replace ((S1 ++ S1') ++ Sy ++ S2' ++ S2) with (S1 ++ (S1' ++ Sy ++ S2') ++ S2) by now rewrite <- !app_assoc.
           apply G.
           ++ intros b B. apply Fr. right. rewrite !in_app_iff in *. tauto.
           ++ apply G'; auto. intros b B. apply Fr. right. rewrite !in_app_iff in *. tauto.
    + rewrite E. pose proof (reads_dget h k m dm S K L) as G. destruct (dget k m) as [w|], (dget k dm) as [x|] eqn:Dn; try contradiction; [|reflexivity].
      destruct G as (Sx & S1 & S2 & X & -> & G). specialize (IH _ _ _ X).
      destruct (heval p w h) as [w'| |], (eval_plain p x) as [x'| |]; try contradiction; auto.
      destruct IH as (Sx' & S1' & S2' & X' & -> & _ & G'). exists Sx', (a :: S1 ++ S1'), (S2' ++ S2). repeat split; auto.
      * cbn. f_equal. now rewrite <- !app_assoc.
      * intros _ b [= ->]. now left.
      * intros h' y Sy Fr Y. cbn [update_at]. rewrite Dn. cbn [app]. econstructor.
        -- rewrite Fr by (now left). exact E.
        -- rewrite (keys_dset_same k _ x dm) by exact Dn. exact K.
        -- replace ((S1 ++ S1') ++ Sy ++ S2' ++ S2) with (S1 ++ (S1' ++ Sy ++ S2') ++ S2) by now rewrite <- !app_assoc.
           apply G.
           ++ intros b B. apply Fr. right. rewrite !in_app_iff in *. tauto.
           ++ apply G'; auto. intros b B. apply Fr. right. rewrite !in_app_iff in *. tauto.
Qed.

(** ** deepcopy makes a new tree of the same value. *)
Definition copied (h h' : heap) (m m' : memo) (S S' : list nat) : Prop :=
  (exists h2, h' = h ++ h2) /\ NoDup S' /\ (forall a, In a S' -> length h <= a) /\ (forall a, ~ In a S -> noted a m' = noted a m).
Lemma NoDup_app_intro {A} (l l' : list A) : NoDup l -> NoDup l' -> (forall a, In a l -> ~ In a l') -> NoDup (l ++ l').
Proof.
  intros N N' D. induction N as [|x l Nx N IH]; cbn; auto. constructor.
  - rewrite in_app_iff. intros [H|H]; [auto|]. now apply (D x (or_introl eq_refl)).
  - apply IH. intros a A1. apply D. now right.
Qed.
Lemma NoDup_app_inv {A} (l l' : list A) : NoDup (l ++ l') -> NoDup l /\ NoDup l' /\ forall a, In a l -> ~ In a l'.
Proof.
  induction l as [|x l IH]; cbn; intros N; [split; [constructor|split; auto]|]. inversion N as [|? ? Nx N']; subst.
  destruct (IH N') as (A1 & A2 & A3). rewrite in_app_iff in Nx. repeat split; auto.
  - constructor; tauto.
  - intros a [<- | H]; [tauto|auto].
Qed.
Lemma deepcopy_tree : forall fuel m v h d S, reads h v d S -> NoDup S -> (forall a, In a S -> noted a m = None) -> length S < fuel ->
  exists m' v' h' S', deepcopy_memo fuel m v h = (Ok (m', v'), h') /\ reads h' v' d S' /\ copied h h' m m' S S'.
Proof.
  induction fuel as [|fuel IH]; intros m v h d S H N M L; [lia|].
  assert (C : forall l ds S m h, reads_all h l ds S -> NoDup S -> (forall a, In a S -> noted a m = None) -> length S < fuel ->
    exists m' l' h' S', copy_all (deepcopy_memo fuel) m l h = (Ok (m', l'), h') /\ reads_all h' l' ds S' /\ copied h h' m m' S S').
  { clear -IH. intros l ds S m h H. revert m h H. revert ds S. induction l as [|v l IHl]; intros ds S m h H N M L; inversion H as [|v1 vs1 d1 ds1 S0 S1 R RA]; subst.
    - exists m, [], h, []. split; [reflexivity|]. split; [constructor|]. split; [exists []; now rewrite app_nil_r|]. split; [constructor|]. split; [intros a []|auto].
    - apply NoDup_app_inv in N as (N0 & N1 & D). rewrite app_length in L.
      destruct (IH m v h d1 S0 R N0 ltac:(intros; apply M, in_or_app; auto) ltac:(lia)) as (m1 & v1 & h1 & S0' & E1 & R1 & [h2 ->] & N1' & F1 & M1).
      apply (reads_all_more h h2) in RA.
      destruct (IHl ds1 S1 m1 (h ++ h2) RA N1) as (m2 & l2 & h3 & S1' & E2 & R2 & [h4 ->] & N2' & F2 & M2).
      { intros a A. rewrite M1; [apply M, in_or_app; auto|]. intros B. exact (D a B A). }
      { lia. }
      exists m2, (v1 :: l2), ((h ++ h2) ++ h4), (S0' ++ S1'). cbn [copy_all]. unfold hbind. rewrite E1, E2. split; [reflexivity|].
      split; [constructor; auto; now apply reads_more|].
      split; [exists (h2 ++ h4); now rewrite app_assoc|]. split.
      { apply NoDup_app_intro; auto. intros a A B. apply F2 in B. apply (reads_range _ _ _ _ _ R1) in A. lia. }
      split.
      { intros a A. apply in_app_or in A as [A|A]; auto. apply F2 in A. rewrite app_length in A. lia. }
      intros a A. rewrite in_app_iff in A. rewrite M2, M1; tauto. }
  destruct H as [v d E|a l ds S E L'|a mm dm S E K L'].
  - exists m, v, h, []. split; [destruct v; inversion E; reflexivity|]. split; [now constructor|].
    split; [exists []; now rewrite app_nil_r|]. split; [constructor|]. split; [intros a []|auto].
  - inversion N as [|? ? Na N']; subst. assert (La : a < length h) by (apply nth_error_Some; congruence).
    destruct (C l ds S ((a, length h) :: m) (h ++ [OList []]) (reads_all_more _ _ _ _ _ L') N') as (m' & l' & h' & S' & E1 & R1 & [h2 ->] & N1 & F1 & M1).
    { intros b B. cbn. destruct (Nat.eqb_spec b a) as [->|]; [contradiction|]. apply M. now right. }
    { cbn in L. lia. }
    exists m', (VRef (length h)), (update_nth (length h) (OList l') ((h ++ [OList []]) ++ h2)), (length h :: S').
    rewrite app_length in F1. cbn in F1.
    split; [|split; [|split; [|split; [|split]]]].
    + cbn [deepcopy_memo]. rewrite M by (now left). unfold hbind at 1, hget. rewrite E. cbn [items refill]. unfold hbind at 1, hnew.
      unfold hbind at 1. rewrite E1. reflexivity.
    + econstructor.
      * rewrite nth_error_update_same; [reflexivity|]. rewrite !app_length. cbn. lia.
      * eapply reads_all_frame; eauto. intros b B. apply F1 in B. apply nth_error_update_other. lia.
    + exists (OList l' :: h2). rewrite <- app_assoc. cbn [app]. now rewrite update_nth_at.
    + constructor; auto. intros B. apply F1 in B. lia.
    + intros b [<-|B]; [lia|]. apply F1 in B. lia.
    + intros b B. rewrite M1 by (intros X; apply B; now right). cbn. destruct (Nat.eqb_spec b a) as [->|]; auto. destruct B. now left.
  - inversion N as [|? ? Na N']; subst. assert (La : a < length h) by (apply nth_error_Some; congruence).
    destruct (C (map snd mm) (map snd dm) S ((a, length h) :: m) (h ++ [ODict []]) (reads_all_more _ _ _ _ _ L') N') as (m' & l' & h' & S' & E1 & R1 & [h2 ->] & N1 & F1 & M1).
    { intros b B. cbn. destruct (Nat.eqb_spec b a) as [->|]; [contradiction|]. apply M. now right. }
    { cbn in L. lia. }
    exists m', (VRef (length h)), (update_nth (length h) (ODict (combine (keys mm) l')) ((h ++ [ODict []]) ++ h2)), (length h :: S').
    rewrite app_length in F1. cbn in F1.
    assert (Ll : length (keys mm) = length l').
    { pose proof (reads_all_len _ _ _ _ L'). pose proof (reads_all_len _ _ _ _ R1). unfold keys. rewrite !map_length in *. congruence. }
    assert (Cs : forall (ks : list pystr) (vs : list pyval), length ks = length vs -> map fst (combine ks vs) = ks /\ map snd (combine ks vs) = vs).
    { clear. induction ks as [|k ks IH]; intros [|x vs] H; cbn in *; try discriminate; auto. destruct (IH vs) as [A B]; [congruence|]. now rewrite A, B. }
    specialize (Cs _ _ Ll) as [C1 C2].
    split; [|split; [|split; [|split; [|split]]]].
    + cbn [deepcopy_memo]. rewrite M by (now left). unfold hbind at 1, hget. rewrite E. cbn [items refill]. unfold hbind at 1, hnew.
      replace (combine (keys mm) []) with (@nil (pystr * pyval)) by (destruct (keys mm); reflexivity).
      unfold hbind at 1. rewrite E1. reflexivity.
    + econstructor.
      * rewrite nth_error_update_same; [reflexivity|]. rewrite !app_length. cbn. lia.
      * rewrite C1. exact K.
      * rewrite C2. eapply reads_all_frame; eauto. intros b B. apply F1 in B. apply nth_error_update_other. lia.
    + exists (ODict (combine (keys mm) l') :: h2). rewrite <- app_assoc. cbn [app]. now rewrite update_nth_at.
    + constructor; auto. intros B. apply F1 in B. lia.
    + intros b [<-|B]; [lia|]. apply F1 in B. lia.
    + intros b B. rewrite M1 by (intros X; apply B; now right). cbn. destruct (Nat.eqb_spec b a) as [->|]; auto. destruct B. now left.
Qed.
Lemma deepcopy_reads fuel v h d S : reads h v d S -> NoDup S -> length S < fuel ->
  exists v' h2 S', deepcopy fuel v h = (Ok v', h ++ h2) /\ reads (h ++ h2) v' d S' /\ NoDup S' /\ forall a, In a S' -> length h <= a.
Proof.
  intros H N L. destruct (deepcopy_tree fuel [] v h d S H N ltac:(auto) L) as (m' & v' & h' & S' & E & R & [h2 ->] & N' & F & _).
  exists v', h2, S'. unfold deepcopy, hbind. rewrite E. auto.
Qed.

(** Reading. *)
Lemma hread_reads : forall n v h d S, reads h v d S -> length S < n -> hread n v h = Ok d.
Proof.
  induction n as [|n IH]; intros v h d S H L; [lia|].
  assert (C : forall l ds S, reads_all h l ds S -> length S < n -> read_all (hread n) l h = Ok ds).
  { clear -IH. intros l ds S H. induction H as [|v vs d ds S S' R RA IHA]; intros L; [reflexivity|]. rewrite app_length in L.
    cbn. rewrite (IH v h d S R) by lia. cbn. rewrite IHA by lia. reflexivity. }
  destruct H as [v d E|a l ds S E L'|a mm dm S E K L']; cbn in *.
  - destruct v; inversion E; reflexivity.
  - rewrite E. rewrite (C _ _ _ L') by lia. reflexivity.
  - rewrite E. rewrite (C _ _ _ L') by lia. cbn. do 2 f_equal. unfold keys. rewrite K. clear. induction dm as [|[k v] dm IH]; cbn; congruence.
Qed.
