(** Each mutating operation of json.py preserves the invariant and has the
    effect of the plain operation. *)
From Verif Require Export JTreeEdit.
Open Scope nat_scope.

(** ** Growth preserves the invariant *)
Lemma fresh_shape h h' : shape h -> fresh h h' -> shape h'.
Proof.
  intros S F. pose proof (fr_len _ _ F) as L. constructor.
  - intros n k c C. destruct (Nat.lt_ge_cases n (length h)) as [Ln|Ln]; [|now apply (fr_child _ _ F)].
    apply (child_at_data _ h) in C; [|now rewrite (fr_old _ _ F)].
    apply (sh_child h S) in C as (? & ? & ? & ?). rewrite (fr_old _ _ F) by auto. repeat split; auto; lia.
  - intros n m E. destruct (Nat.lt_ge_cases n (length h)) as [Ln|Ln]; [|now apply (fr_nodup _ _ F) in E].
    rewrite (fr_old _ _ F) in E by auto. eapply sh_nodup; eauto.
  - intros n p P. destruct (Nat.lt_ge_cases n (length h)) as [Ln|Ln].
    + rewrite (fr_old _ _ F) in P by auto. rewrite (fr_old _ _ F) by auto. eapply sh_parent; eauto.
    + destruct (Nat.lt_ge_cases n (length h')) as [Ln'|Ln'].
      * destruct (fr_parent _ _ F n Ln Ln') as (p' & k & P' & Lp & K). assert (p' = p) by congruence. subst. eauto.
      * rewrite getn_out in P by auto. discriminate.
Qed.

Lemma fresh_denotes h h' n v : ordered h -> fresh h h' -> n < length h -> denotes h n v -> denotes h' n v.
Proof.
  intros O F L. apply (denotes_region h h' (fun m => m < length h)); auto.
  - intros m Hm. now rewrite (fr_old _ _ F).
  - intros m k c _ C. apply O in C. lia.
Qed.

Lemma fresh_inv h h' : inv h -> fresh h h' -> inv h'.
Proof.
  intros I F. pose proof (inv_shape h I) as S. pose proof (shape_ordered h S) as O. constructor.
  - eapply fresh_shape; eauto.
  - intros n v E. destruct (Nat.lt_ge_cases n (length h)) as [Ln|Ln].
    + rewrite (fr_old _ _ F) in E by auto. eapply fresh_denotes; eauto. now apply (inv_value h I).
    + destruct (fr_caches _ _ F n Ln). congruence.
  - intros r p n q [R RP] L E.
    destruct (Nat.lt_ge_cases n (length h)) as [Ln|Ln]; [|destruct (fr_caches _ _ F n Ln); congruence].
    assert (Lr : r < length h).
    { apply (located_bound h') in L; auto; [lia|]. apply shape_ordered. eapply fresh_shape; eauto. }
    rewrite (fr_old _ _ F) in E by auto. apply (inv_path h I r p n q); auto.
    + split; auto. now rewrite <- (fr_old _ _ F).
    + clear - L F O Lr. assert (G : located h r p n /\ n < length h); [|apply G].
      induction L as [|p a k c L [IH B] C]; [split; auto; constructor|].
      apply (child_at_data _ h) in C; [|now rewrite (fr_old _ _ F)]. split; [econstructor; eauto|].
      apply O in C. lia.
Qed.

(** ** Ancestors *)
Lemma located_up h r p n : shape h -> located h r p n -> up h n r.
Proof.
  intros S L. induction L as [|p a k c L IH C]; [constructor|].
  apply (sh_child h S) in C as (_ & _ & P & _). eapply up_trans_parent; eauto.
Qed.
Lemma up_le h n m : parents_lt h -> up h n m -> m <= n.
Proof. intros P U. induction U; auto. apply P in H. lia. Qed.
Lemma up_linear h n a b : up h n a -> up h n b -> up h a b \/ up h b a.
Proof.
  intros A. revert b. induction A as [|m p A IH P]; intros b B; auto.
  destruct (IH b B) as [U|U].
  - apply up_cases in U as [->|(q & Q & U)].
    + right. econstructor; eauto. constructor.
    + left. congruence.
  - right. econstructor; eauto.
Qed.

Lemma child_at_arr h n k c ids : ndata (getn h n) = DArr ids -> child_at h n k c ->
  exists j, k = str_of_nat j /\ nth_error ids j = Some c.
Proof. intros E C. destruct C as [ids' i c' D Hi|m k c' D Hi]; rewrite E in D; [injection D as <-; eauto|discriminate]. Qed.
Lemma child_at_obj h n k c m : ndata (getn h n) = DObj m -> child_at h n k c -> In (k, c) m.
Proof. intros E C. destruct C as [ids' i c' D Hi|m' k c' D Hi]; rewrite E in D; [discriminate|injection D as <-; auto]. Qed.

Lemma edit_subst h h' n p r V w : shape h -> edit h h' n -> located h r p n ->
  denotes h r V -> denotes h' n w -> r < length h -> denotes h' r (subst_at p w V).
Proof.
  intros Sh E. revert r V. induction p as [|k p IH]; intros r V L D W Lr.
  - inversion L; subst; auto. destruct p; discriminate.
  - apply located_uncons in L as (c & C & L).
    pose proof (sh_child h Sh r k c C) as (Lc & Lc' & Pc & Kc).
    assert (Un : up h n c) by (eapply located_up; eauto).
    pose proof (up_le h n c (shape_parents h Sh) Un) as Le.
    assert (Dr : ndata (getn h' r) = ndata (getn h r)) by (apply (ed_data _ _ _ E); [auto|lia]).
    assert (Oth : forall k2 c2 v2, child_at h r k2 c2 -> k2 <> k -> denotes h c2 v2 -> denotes h' c2 v2).
    { intros k2 c2 v2 C2 N D2. pose proof (sh_child h Sh r k2 c2 C2) as (A & B & P2 & K2).
      eapply (edit_denotes h h' n); eauto. intro U2.
      assert (c <> c2) by (intros ->; congruence).
      destruct (up_linear h n c c2 Un U2) as [U|U]; apply up_cases in U as [->|(q & Q & U)]; try congruence.
      - assert (q = r) by congruence. subst q. apply (up_le h r c2 (shape_parents h Sh)) in U. lia.
      - assert (q = r) by congruence. subst q. apply (up_le h r c (shape_parents h Sh)) in U. lia. }
    inversion D as [? E0|? ? E0|? ? E0|? ? E0|? ids l E0 Ln H0|? m kvs E0 K0 H0]; subst;
      try (apply child_at_of in C; rewrite E0 in C; inversion C; discriminate).
    + cbn [subst_at].
      set (go := fix go (i : nat) (l : list json) : list json :=
                   match l with
                   | [] => []
                   | x :: r => (if str_eqb (str_of_nat i) k then subst_at p w x else x) :: go (S i) r
                   end).
      assert (G : forall l i j, nth_error (go i l) j =
         match nth_error l j with
         | Some x => Some (if str_eqb (str_of_nat (i + j)) k then subst_at p w x else x)
         | None => None end).
      { clear. induction l as [|x l IH]; intros i [|j]; simpl; auto.
        - now rewrite Nat.add_0_r.
        - rewrite IH. replace (i + S j) with (S i + j) by lia. reflexivity. }
      assert (GL : forall l i, length (go i l) = length l) by (clear; induction l; intro i; simpl; auto).
      econstructor; [rewrite Dr; eauto|now rewrite GL|].
      intros i ci vi Hi Hv. rewrite G in Hv. destruct (nth_error l i) as [x|] eqn:Ex; [|discriminate].
      rewrite Nat.add_0_l in Hv.
      assert (Ci : child_at h r (str_of_nat i) ci) by (econstructor; eauto).
      destruct (str_eqb_spec (str_of_nat i) k) as [Ek|Nk]; injection Hv as <-.
      * assert (ci = c); [|subst ci; apply IH; eauto; lia].
        apply (child_at_arr _ _ _ _ _ E0) in C as (j & Ej & Hj). rewrite Ej in Ek. apply str_of_nat_inj in Ek.
        subst. congruence.
      * eapply Oth; eauto.
    + cbn [subst_at]. econstructor; [rewrite Dr; eauto| |].
      * rewrite map_map. simpl. exact K0.
      * intros i ki ci ki' vi Hi Hv. rewrite nth_error_map in Hv.
        destruct (nth_error kvs i) as [[kx x]|] eqn:Ex; [|discriminate]. simpl in Hv. injection Hv as <- <-.
        assert (kx = ki).
        { apply nth_error_fst in Hi. apply nth_error_fst in Ex. rewrite K0 in Hi. congruence. }
        subst kx.
        assert (Ci : child_at h r ki ci) by (eapply ca_member; eauto; eapply nth_error_In; eauto).
        destruct (str_eqb_spec ki k) as [->|Nk].
        -- assert (ci = c); [|subst ci; apply IH; eauto; lia].
           apply (child_at_obj _ _ _ _ _ E0) in C. rename C into Hj. apply nth_error_In in Hi.
           pose proof (sh_nodup h Sh r m E0) as ND.
           pose proof (In_dget _ _ _ ND Hi). pose proof (In_dget _ _ _ ND Hj). congruence.
        -- eapply Oth; eauto.
Qed.


Lemma edit_keeps h h' n m : ordered h -> edit h h' n -> m < length h -> ~ below h m n -> keeps h h' m.
Proof.
  intros O E Hm B v. apply (denotes_region h h' (fun m => m < length h /\ ~ below h m n)); auto.
  - intros a [La Ba]. apply (ed_data _ _ _ E); auto. intros ->. apply Ba. exists []. constructor.
  - intros a k c [La Ba] C. split; [apply O in C; lia|]. intros [p L]. apply Ba. exists (k :: p).
    eapply located_cons; eauto.
Qed.

Lemma edit_changes h h' n v' : shape h -> edit h h' n -> denotes h' n v' -> changes h h' n (Some v').
Proof.
  intros Sh E D. split; auto. split.
  - intros m Hm B. apply (edit_keeps h h' n); auto. now apply shape_ordered.
  - intros m p V Hm L DV. eapply edit_subst; eauto.
Qed.

(** ** Changing the children of a node *)
Lemma nth_error_NoDup {A} (l : list A) :
  (forall i j x, nth_error l i = Some x -> nth_error l j = Some x -> i = j) -> NoDup l.
Proof.
  intro H. induction l as [|a l IH]; constructor.
  - intro Hin. apply In_nth_error in Hin as (j & Hj). specialize (H 0 (S j) a eq_refl Hj). discriminate.
  - apply IH. intros i j x Hi Hj. specialize (H (S i) (S j) x Hi Hj). congruence.
Qed.

Lemma rewire h n d ids base delta :
  inv h -> n < length h -> data_ok d ->
  NoDup ids ->
  (forall i c, nth_error ids i = Some c -> c < length h /\ n < c /\ nparent (getn h c) = Some n /\
     nkey (getn h c) = Some (str_of_Z (base + Z.of_nat i))) ->
  (forall k c, child_of d k c -> n < c /\ c < length h /\ nparent (getn h c) = Some n /\
     ((exists i, nth_error ids i = Some c /\ k = str_of_Z (base + Z.of_nat i + delta)) \/
      (~ In c ids /\ nkey (getn h c) = Some k /\
       (child_at h n k c \/ forall p m, located h c p m -> ncpath (getn h m) = None)))) ->
  exists h', hbind (inval_value (setn h n (with_data (getn h n) d)) n) (fun _ h => renumber delta ids h) = (Ok tt, h') /\
    inv h' /\ edit h h' n /\ length h' = length h /\ ndata (getn h' n) = d.
Proof.
  intros I Hn DO ND HI HC. pose proof (inv_shape h I) as Sh. pose proof (shape_ordered h Sh) as Or.
  set (h1 := setn h n (with_data (getn h n) d)).
  assert (G1 : forall m, getn h1 m = if Nat.eqb n m then with_data (getn h n) d else getn h m)
    by (intro m; unfold h1; now rewrite getn_setn).
  assert (L1 : length h1 = length h) by apply length_setn.
  assert (N1 : forall m, nparent (getn h1 m) = nparent (getn h m) /\ nkey (getn h1 m) = nkey (getn h m) /\
                ncpath (getn h1 m) = ncpath (getn h m) /\ ncvalue (getn h1 m) = ncvalue (getn h m)).
  { intro m. rewrite G1. destruct (Nat.eqb_spec n m); subst; auto. }
  assert (D1 : forall m, m <> n -> ndata (getn h1 m) = ndata (getn h m)).
  { intros m N. rewrite G1. destruct (Nat.eqb_spec n m); congruence. }
  assert (D1n : ndata (getn h1 n) = d) by (rewrite G1, Nat.eqb_refl; auto).
  destruct (inval_value_spec h1 n) as (h2 & E2 & T2 & P2 & U2 & V2); [|lia|].
  { intros a b. destruct (N1 a) as (-> & _). now apply shape_parents. }
  rewrite E2. cbn [hbind]. destruct T2 as [L2 T2].
  assert (O2 : ordered h2).
  { intros a k c C. apply (child_at_data _ h1) in C; [|now destruct (T2 a)]. rewrite L2, L1.
    destruct (Nat.eq_dec a n) as [->|N].
    - apply child_at_of in C. rewrite D1n in C. apply HC in C. tauto.
    - apply (child_at_data _ h) in C; [|now rewrite D1]. exact (Or _ _ _ C). }
  destruct (renumber_spec delta ids h2 base O2 ND) as (h3 & E3 & L3 & S3 & K3 & K3' & P3 & N3).
  { intros c Hc. apply In_nth_error in Hc as (i & Hi). apply HI in Hi. lia. }
  { intros i c Hi. destruct (T2 c) as (_ & _ & ->). destruct (N1 c) as (_ & -> & _). now apply HI. }
  exists h3. split; auto.
  assert (D3 : forall m, ndata (getn h3 m) = if Nat.eqb n m then d else ndata (getn h m)).
  { intro m. destruct (S3 m) as (-> & _). destruct (T2 m) as (-> & _). rewrite G1.
    destruct (Nat.eqb_spec n m); auto. }
  assert (Pa3 : forall m, nparent (getn h3 m) = nparent (getn h m)).
  { intro m. destruct (S3 m) as (_ & -> & _). destruct (T2 m) as (_ & -> & _). apply N1. }
  assert (Pt3 : forall m, ncpath (getn h3 m) = None \/ ncpath (getn h3 m) = ncpath (getn h m)).
  { intro m. destruct (P3 m) as [-> | ->]; auto. right. rewrite P2. apply N1. }
  assert (Vl3 : forall m v, ncvalue (getn h3 m) = Some v -> ncvalue (getn h m) = Some v /\ ~ up h n m).
  { intros m v. destruct (S3 m) as (_ & _ & ->). intro E. split.
    - destruct (V2 m) as [X|X]; rewrite X in E; [discriminate|]. now rewrite <- (proj2 (proj2 (proj2 (N1 m)))).
    - intro U. rewrite U2 in E; [discriminate|]. clear - U N1. induction U; [constructor|].
      econstructor; eauto. destruct (N1 m) as (-> & _). auto. }
  assert (D3n : ndata (getn h3 n) = d) by (rewrite D3, Nat.eqb_refl; auto).
  assert (Ed : edit h h3 n).
  { constructor; auto; try lia.
    - intros m _ N. rewrite D3. destruct (Nat.eqb_spec n m); congruence.
    - intros m v E. apply Vl3 in E as [E U]. split; auto.
      destruct (Nat.lt_ge_cases m (length h)); auto. rewrite getn_out in E by auto. discriminate.
    - intros m q E. destruct (Pt3 m) as [X|X]; rewrite X in E; [discriminate|]. split; auto.
      destruct (Nat.lt_ge_cases m (length h)); auto. rewrite getn_out in E by auto. discriminate.
    - intros k c C. apply child_at_of in C. rewrite D3n in C. apply HC in C as (Lc & Lc' & Pc & [(i & Hi & _)|(Nin & Kc & [C|Z])]).
      + right. intros p m L. apply (N3 c p m); [eapply nth_error_In; eauto|].
        eapply located_data; [|exact L]. intro a. now destruct (S3 a).
      + auto.
      + right. intros p m L.
        assert (L' : located h c p m /\ n < m).
        { clear - L D3 Or Lc. induction L as [|p a k b L [IH B] C]; [split; [constructor|auto]|].
          apply (child_at_data _ h) in C.
          - apply Or in C as C'. split; [econstructor; eauto|lia].
          - rewrite D3. destruct (Nat.eqb_spec n a); [lia|auto]. }
        destruct (Pt3 m) as [-> | ->]; auto. apply (Z p m). apply L'. }
  assert (Sh3 : shape h3).
  { constructor.
    - intros m k c C. rewrite L3, L2, L1. apply child_at_of in C. rewrite D3 in C. rewrite Pa3.
      destruct (Nat.eqb_spec n m) as [<-|N].
      + apply HC in C as (Lc & Lc' & Pc & [(i & Hi & ->)|(Nin & Kc & _)]); repeat split; auto.
        rewrite K3' by auto. destruct (T2 c) as (_ & _ & ->). destruct (N1 c) as (_ & -> & _). auto.
      + apply child_at_of in C. apply (sh_child h Sh) in C as (A & B & P & K). repeat split; auto.
        rewrite K3'. { destruct (T2 c) as (_ & _ & ->). destruct (N1 c) as (_ & -> & _). auto. }
        intro Hin. apply In_nth_error in Hin as (i & Hi). apply HI in Hi. destruct Hi as (_ & _ & Hp & _). congruence.
    - intros m mm E. rewrite D3 in E. destruct (Nat.eqb_spec n m) as [<-|N]; [now apply DO|].
      eapply sh_nodup; eauto.
    - intros m p P. rewrite Pa3 in P. apply (sh_parent h Sh) in P as [Lp (k & K)]. split; auto.
      destruct (in_dec Nat.eq_dec m ids) as [Hin|Nin].
      + apply In_nth_error in Hin as (i & Hi). eauto.
      + rewrite K3' by auto. destruct (T2 m) as (_ & _ & ->). destruct (N1 m) as (_ & -> & _). eauto. }
  split; [eapply edit_inv; eauto|]. split; auto. split; [lia|auto].
Qed.

(** ** [denotes] by [Forall2] *)
Definition mem_rel (h : heap) (a : pystr * id) (b : pystr * json) : Prop :=
  fst a = fst b /\ denotes h (snd a) (snd b).

Lemma Forall2_nth {A B} (R : A -> B -> Prop) l l' : length l = length l' ->
  (forall i a b, nth_error l i = Some a -> nth_error l' i = Some b -> R a b) -> Forall2 R l l'.
Proof.
  revert l'. induction l as [|a l IH]; intros [|b l'] L H; try discriminate; constructor.
  - now apply (H 0).
  - apply IH; [simpl in L; lia|]. intros i x y Hx Hy. now apply (H (S i)).
Qed.
Lemma Forall2_nth_inv {A B} (R : A -> B -> Prop) l l' : Forall2 R l l' -> length l = length l' /\
  (forall i a b, nth_error l i = Some a -> nth_error l' i = Some b -> R a b).
Proof.
  induction 1 as [|a b l l' R0 H [L IH]]; split; auto.
  - intros [|i]; discriminate.
  - simpl; congruence.
  - intros [|i] x y Hx Hy; simpl in *; [congruence|eauto].
Qed.

Lemma denotes_arr h n ids l : ndata (getn h n) = DArr ids -> Forall2 (denotes h) ids l -> denotes h n (JArr l).
Proof. intros E F. apply Forall2_nth_inv in F as [L F]. econstructor; eauto. Qed.
Lemma denotes_arr_inv h n ids v : ndata (getn h n) = DArr ids -> denotes h n v ->
  exists l, v = JArr l /\ Forall2 (denotes h) ids l.
Proof.
  intros E D. inversion D as [? E'|? ? E'|? ? E'|? ? E'|? ids' l E' L H|? m kvs E' K H]; subst;
    rewrite E in E'; try discriminate. injection E' as <-. exists l. split; auto. now apply Forall2_nth.
Qed.
Lemma denotes_obj h n m kvs : ndata (getn h n) = DObj m -> Forall2 (mem_rel h) m kvs -> denotes h n (JObj kvs).
Proof.
  intros E F. apply den_obj with m; auto.
  - clear E. induction F as [|[k c] [k' v] m kvs [A B] F IH]; simpl in *; congruence.
  - apply Forall2_nth_inv in F as [_ F]. intros i k c k' v Hc Hv. destruct (F i _ _ Hc Hv). auto.
Qed.
Lemma denotes_obj_inv h n m v : ndata (getn h n) = DObj m -> denotes h n v ->
  exists kvs, v = JObj kvs /\ Forall2 (mem_rel h) m kvs.
Proof.
  intros E D. inversion D as [? E'|? ? E'|? ? E'|? ? E'|? ids' l E' L H|? m' kvs E' K H]; subst;
    rewrite E in E'; try discriminate. injection E' as <-. exists kvs. split; auto. apply Forall2_nth.
  - now rewrite <- (map_length fst m), K, map_length.
  - intros i [k c] [k' v'] Hc Hv. split; simpl; [|eauto].
    apply nth_error_fst in Hc. apply nth_error_fst in Hv. congruence.
Qed.

Lemma Forall2_firstn {A B} (R : A -> B -> Prop) n l l' : Forall2 R l l' -> Forall2 R (firstn n l) (firstn n l').
Proof. intro F. revert n. induction F; intros [|n]; simpl; auto. Qed.
Lemma Forall2_skipn {A B} (R : A -> B -> Prop) n l l' : Forall2 R l l' -> Forall2 R (skipn n l) (skipn n l').
Proof. intro F. revert n. induction F; intros [|n]; simpl; auto. Qed.
Lemma Forall2_len {A B} (R : A -> B -> Prop) l l' : Forall2 R l l' -> length l = length l'.
Proof. induction 1; simpl; auto. Qed.

Lemma Forall2_keys h m kvs : Forall2 (mem_rel h) m kvs -> keys m = keys kvs.
Proof. unfold keys. induction 1 as [|a b ? ? [E _]]; simpl; congruence. Qed.
Lemma Forall2_dset h s c w m kvs : Forall2 (mem_rel h) m kvs -> denotes h c w ->
  Forall2 (mem_rel h) (dset s c m) (dset s w kvs).
Proof.
  intros F D. induction F as [|[k a] [k' b] m kvs [E R] F IH]; simpl.
  - constructor; auto. split; auto.
  - simpl in E. subst k'. destruct (str_eqb s k); constructor; auto; split; auto.
Qed.
Lemma Forall2_ddel h s m kvs : Forall2 (mem_rel h) m kvs -> Forall2 (mem_rel h) (ddel s m) (ddel s kvs).
Proof.
  intros F. induction F as [|[k a] [k' b] m kvs [E R] F IH]; simpl; auto.
  simpl in E. subst k'. destruct (str_eqb s k); auto. constructor; auto; split; auto.
Qed.
Lemma Forall2_dget h s m kvs : Forall2 (mem_rel h) m kvs ->
  match dget s m with
  | Some c => exists v, dget s kvs = Some v /\ denotes h c v
  | None => dget s kvs = None
  end.
Proof.
  intros F. induction F as [|[k a] [k' b] m kvs [E R] F IH]; simpl; auto.
  simpl in E. subst k'. destruct (str_eqb s k); eauto.
Qed.

Lemma existsb_dmem {A} s (m : list (pystr * A)) : existsb (fun kv => str_eqb (fst kv) s) m = dmem s m.
Proof.
  unfold dmem. induction m as [|[k v] m IH]; simpl; auto. rewrite (str_eqb_sym k s).
  destruct (str_eqb s k); auto.
Qed.
Lemma dict_put_dset s w m : NoDup (keys m) -> dict_put s w m = dset s w m.
Proof.
  unfold dict_put. rewrite existsb_dmem. unfold dmem.
  induction m as [|[k v] m IH]; simpl; intro ND; auto. inversion ND as [|? ? Nin ND']; subst.
  rewrite (str_eqb_sym k s). destruct (str_eqb_spec s k) as [->|N].
  - simpl. f_equal. rewrite <- (map_id m) at 2. apply map_ext_in. intros [k' v'] Hin. simpl.
    destruct (str_eqb_spec k' k) as [->|]; auto. exfalso. apply Nin. apply (in_map fst) in Hin. exact Hin.
  - rewrite <- IH by auto. destruct (dget s m); reflexivity.
Qed.
Lemma dict_del_ddel s m : NoDup (keys m) -> dict_del s m = ddel s m.
Proof.
  unfold dict_del. induction m as [|[k v] m IH]; simpl; intro ND; auto. inversion ND as [|? ? Nin ND']; subst.
  rewrite (str_eqb_sym k s). destruct (str_eqb_spec s k) as [->|N]; simpl.
  - assert (F : forall x : pystr * json, In x m -> negb (str_eqb (fst x) k) = true).
    { intros [k' v'] Hin. simpl. destruct (str_eqb_spec k' k) as [->|]; auto.
      exfalso. apply Nin. apply (in_map fst) in Hin. exact Hin. }
    clear - F. induction m as [|x m IH]; simpl; auto. rewrite F by now left. f_equal.
    apply IH. intros; apply F; now right.
  - now rewrite IH.
Qed.

(** Values in the heap have distinct member names. *)
Lemma denotes_jwf h n v : shape h -> denotes h n v -> jwf v = true.
Proof.
  intros Sh D. induction D as [n E|n b E|n x E|n s E|n ids l E L _ IH|n m kvs E K _ IH]; auto.
  - apply jwf_arr. apply Forall_forall. intros x Hx. apply In_nth_error in Hx as (i & Hi).
    destruct (nth_error_same_length l ids i x (eq_sym L) Hi) as (c & Hc). eauto.
  - apply jwf_obj. split.
    + unfold keys. rewrite <- K. now apply (sh_nodup h Sh) in E.
    + apply Forall_forall. intros [k x] Hx. apply In_nth_error in Hx as (i & Hi).
      assert (L : length kvs = length m) by (rewrite <- (map_length fst kvs), <- K, map_length; auto).
      destruct (nth_error_same_length kvs m i _ L Hi) as ([k' c] & Hc). simpl. eauto.
Qed.

(** ** Composition with reads and growth *)
Definition grows (h h1 : heap) : Prop :=
  length h <= length h1 /\ forall m, m < length h -> ndata (getn h1 m) = ndata (getn h m).

Lemma grows_tree h h1 : same_tree h h1 -> grows h h1.
Proof. intros [L E]. split; [lia|]. intros m _. apply E. Qed.
Lemma grows_fresh h h1 : fresh h h1 -> grows h h1.
Proof. intros F. split; [apply F|]. intros m H. now rewrite (fr_old _ _ F). Qed.
Lemma grows_trans h1 h2 h3 : grows h1 h2 -> grows h2 h3 -> grows h1 h3.
Proof. intros [L E] [L' E']. split; [lia|]. intros m H. rewrite E' by lia. auto. Qed.
Lemma grows_refl h : grows h h.
Proof. split; auto. Qed.

Lemma grows_denotes h h1 n v : ordered h -> grows h h1 -> n < length h -> denotes h n v -> denotes h1 n v.
Proof.
  intros O [L E] Hn. apply (denotes_region h h1 (fun m => m < length h)); auto.
  intros m k c _ C. apply O in C. lia.
Qed.
Lemma grows_located h h1 r p n : ordered h -> grows h h1 -> r < length h ->
  (located h r p n <-> located h1 r p n).
Proof.
  intros O [L E] Hr. split; intro H.
  - assert (G : located h1 r p n /\ n < length h); [|apply G].
    induction H as [|p a k c H [IH B] C]; [split; auto; constructor|].
    pose proof C as C'. apply O in C'. split; [|lia]. econstructor; eauto.
    apply (child_at_data h); auto.
  - assert (G : located h r p n /\ n < length h); [|apply G].
    induction H as [|p a k c H [IH B] C]; [split; auto; constructor|].
    apply (child_at_data _ h) in C; [|now rewrite E].
    pose proof C as C'. apply O in C'. split; [|lia]. econstructor; eauto.
Qed.

Lemma changes_grows h h1 h' n r : ordered h -> grows h h1 -> n < length h ->
  changes h1 h' n r -> changes h h' n r.
Proof.
  intros O G Hn C. pose proof (proj1 G) as L. destruct r as [v'|]; simpl in *.
  - destruct C as (D & K & W). split; auto. split.
    + intros m Hm B v Dv. apply K; [lia| |eapply grows_denotes; eauto].
      intros [p H]. apply B. exists p. now apply (grows_located h h1).
    + intros m p V Hm H DV. apply W; [lia| |eapply grows_denotes; eauto]. now apply (grows_located h h1).
  - intros m Hm v Dv. apply C; [lia|]. eapply grows_denotes; eauto.
Qed.
Lemma changes_none h h' n : ordered h -> grows h h' -> changes h h' n None.
Proof. intros O G m Hm v D. eapply grows_denotes; eauto. Qed.

Lemma operand_spec h o w : inv h -> operand_ok h o -> operand_is h o w ->
  exists h', operand_value h o = (Ok w, h') /\ same_tree h h' /\ inv h' /\ jwf w = true.
Proof.
  intros I K W. destruct (operand_value_spec h o I K) as (v & h' & E & T & I' & D).
  destruct o as [x|m]; simpl in *.
  - subst. exists h'. auto.
  - assert (v = w) by (eapply denotes_fun; eauto). subst. exists h'. split; auto. split; auto. split; auto.
    eapply denotes_jwf; eauto. apply I.
Qed.

(** A new node attached below [n] but not yet linked. *)
Lemma new_node_spec h w (n : id) k : inv h -> n < length h -> jwf w = true ->
  exists h1, new_node w h (Some n) (Some k) = (h1, length h) /\ inv h1 /\ fresh h h1 /\
    length h < length h1 /\ nparent (getn h1 (length h)) = Some n /\
    nkey (getn h1 (length h)) = Some k /\ denotes h1 (length h) w /\
    (forall p m, located h1 (length h) p m -> ncpath (getn h1 m) = None).
Proof.
  intros I Hn W. unfold new_node.
  assert (B : built (h ++ [blank]) (length h) (Some n) (Some k) w
            (init w (h ++ [blank]) (length h) (Some n) (Some k)))
    by (apply init_spec; auto; rewrite app_length; simpl; lia).
  apply built_fresh in B as (F & L & P & K & D); auto.
  eexists. split; [reflexivity|]. assert (I1 := fresh_inv _ _ I F). repeat (split; auto).
  intros p m H. apply (located_bound _ _ _ _ (shape_ordered _ (inv_shape _ I1))) in H; auto.
  apply (fr_caches _ _ F). lia.
Qed.

Lemma hbind_ok {A} (x : res A * heap) (a : A) h : x = (Ok a, h) -> forall B (f : A -> heap -> res B * heap), hbind x f = f a h.
Proof. now intros ->. Qed.

Lemma rewire0 h n d :
  inv h -> n < length h -> data_ok d ->
  (forall k c, child_of d k c -> n < c /\ c < length h /\ nparent (getn h c) = Some n /\ nkey (getn h c) = Some k /\
       (child_at h n k c \/ forall p m, located h c p m -> ncpath (getn h m) = None)) ->
  exists h', inval_value (setn h n (with_data (getn h n) d)) n = (Ok tt, h') /\
    inv h' /\ edit h h' n /\ length h' = length h /\ ndata (getn h' n) = d.
Proof.
  intros I Hn DO HC. destruct (rewire h n d [] 0%Z 0%Z I Hn DO) as (h' & E & R).
  - constructor.
  - intros [|i] c; discriminate.
  - intros k c C. apply HC in C as (A & B & P & K & Z). split; [exact A|]. split; [exact B|]. split; [exact P|]. right. auto.
  - exists h'. split; auto. unfold hbind in E.
    destruct (inval_value (setn h n (with_data (getn h n) d)) n) as [[[]|e|] h2]; simpl in E; try discriminate. congruence.
Qed.

Lemma edit_child_denotes h h' n c v : inv h -> edit h h' n -> n < c -> c < length h ->
  denotes h c v -> denotes h' c v.
Proof.
  intros I E N L. apply (edit_denotes h h' n); auto; [apply I|].
  intro U. apply up_le in U; [lia|]. apply shape_parents. apply I.
Qed.
Lemma edit_children_arr h h' n ids l : inv h -> edit h h' n ->
  (forall c, In c ids -> n < c /\ c < length h) -> Forall2 (denotes h) ids l -> Forall2 (denotes h') ids l.
Proof.
  intros I E B F. induction F as [|c v ids l D F IH]; constructor.
  - destruct (B c (or_introl eq_refl)). eapply edit_child_denotes; eauto.
  - apply IH. intros; apply B; now right.
Qed.
Lemma edit_children_obj h h' n m l : inv h -> edit h h' n ->
  (forall k c, In (k, c) m -> n < c /\ c < length h) -> Forall2 (mem_rel h) m l -> Forall2 (mem_rel h') m l.
Proof.
  intros I E B F. induction F as [|[k c] [k' v] m l [K D] F IH]; constructor.
  - destruct (B k c (or_introl eq_refl)). split; auto. simpl in *. eapply edit_child_denotes; eauto.
  - apply IH. intros k1 c1 H. apply (B k1 c1). now right.
Qed.

Lemma Forall2_grows h h1 ids l : ordered h -> grows h h1 -> (forall c, In c ids -> c < length h) ->
  Forall2 (denotes h) ids l -> Forall2 (denotes h1) ids l.
Proof.
  intros O G B F. induction F; constructor.
  - eapply grows_denotes; eauto. apply B. now left.
  - apply IHF. intros; apply B; now right.
Qed.
Lemma Forall2_grows_obj h h1 m l : ordered h -> grows h h1 -> (forall k c, In (k, c) m -> c < length h) ->
  Forall2 (mem_rel h) m l -> Forall2 (mem_rel h1) m l.
Proof.
  intros O G B F. induction F as [|[k c] [k' v] m l [K D] F IH]; constructor.
  - split; auto. simpl in *. eapply grows_denotes; eauto; apply (B k); now left.
  - apply IH. intros k1 c1 H. apply (B k1). now right.
Qed.

Lemma norm_index_range len z : (0 <= z)%Z ->
  norm_index len z = if ((0 <=? z) && (z <? Z.of_nat len))%Z then Some (Z.to_nat z) else None.
Proof. intro H. unfold norm_index. destruct (Z.ltb_spec z 0); [lia|]. reflexivity. Qed.

(** ** Item assignment *)
Lemma setitem_spec h (n : id) i o v w : inv h -> n < length h -> operand_ok h o -> index_ok i ->
  denotes h n v -> operand_is h o w ->
  exists h' r, setitem h n i o = (r, h') /\ inv h' /\ length h <= length h' /\
    changes h h' n (plain_set v i w) /\
    match plain_set v i w with Some _ => r = Ok tt | None => exists e, r = Exn e end.
Proof.
  intros I Hn OK IK D W.
  destruct (operand_spec h o w I OK W) as (h0 & E0 & T0 & I0 & JW).
  unfold setitem. rewrite E0. cbn [hbind].
  assert (L0 : length h0 = length h) by apply T0.
  destruct (new_node_spec h0 w n (index_str i) I0 ltac:(lia) JW) as (h1 & -> & I1 & F & L & P & K & D1 & N).
  pose proof (shape_ordered _ (inv_shape _ I)) as O.
  pose proof (shape_ordered _ (inv_shape _ I1)) as O1.
  assert (G : grows h h1) by (eapply grows_trans; [apply grows_tree; eauto|now apply grows_fresh]).
  assert (Ed : ndata (getn h1 n) = ndata (getn h n)) by exact (proj2 G n Hn).
  assert (Dn : denotes h1 n v) by (apply (grows_denotes h h1); auto).
  assert (Bad : forall e, exists h' r, (@Exn unit e, h1) = (r, h') /\ inv h' /\ length h <= length h' /\
     changes h h' n None /\ (exists e, r = Exn e)).
  { intro e. exists h1, (Exn e). split; auto. split; auto. split; [apply G|]. split; eauto. now apply changes_none. }
  rewrite Ed. destruct (ndata (getn h n)) as [|b|x|s|ids|m] eqn:E.
  1-4: inversion D as [? E'|? ? E'|? ? E'|? ? E'|? ? ? E'|? ? ? E']; subst; rewrite E in E'; try discriminate;
    cbn [plain_set]; apply Bad.
  - destruct (denotes_arr_inv h1 n ids v Ed Dn) as (l & -> & F2).
    destruct i as [z|s]; [|cbn [plain_set]; apply Bad]. cbn [plain_set]. simpl in IK.
    rewrite norm_index_range by auto. rewrite (Forall2_len _ _ _ F2).
    destruct ((0 <=? z) && (z <? Z.of_nat (length l)))%Z eqn:Ez; [|apply Bad].
    apply andb_prop in Ez as [_ Ez]. apply Z.ltb_lt in Ez. set (k := Z.to_nat z).
    assert (Lk : k < length ids) by (rewrite (Forall2_len _ _ _ F2); lia).
    assert (OldB : forall j c, nth_error ids j = Some c -> child_at h1 n (str_of_nat j) c)
      by (intros j c Hj; econstructor; eauto).
    destruct (rewire0 h1 n (DArr (update_nth k (length h0) ids)) I1 ltac:(lia)) as (h' & E' & I' & Ed' & L' & Dd).
    + intros mm; discriminate.
    + intros key c C. inversion C as [ids' j c' Ei Hj|]; [|discriminate]. injection Ei as <-. subst key c'.
      destruct (Nat.eq_dec k j) as [<-|Nk].
      * rewrite nth_error_update_same in Hj by auto. injection Hj as <-.
        split; [lia|]. split; [lia|]. split; auto. split; auto.
        rewrite K. cbn [index_str]. rewrite <- (Z2Nat.id z IK). fold k. f_equal. apply str_of_Z_nat.
      * rewrite nth_error_update_other in Hj by auto.
        pose proof (sh_child _ (inv_shape _ I1) _ _ _ (OldB j c Hj)) as (A & B & C1 & C2).
        repeat (split; auto).
    + exists h', (Ok tt). split; auto. split; auto. split; [destruct G; lia|]. split; auto.
      apply (changes_grows h h1); auto. apply edit_changes; auto; [apply I1|].
      eapply denotes_arr; eauto. rewrite update_nth_split by auto. unfold list_put.
      eapply (edit_children_arr h1); eauto.
      * rewrite <- update_nth_split by auto. intros c Hc. apply In_nth_error in Hc as (j & Hj).
        destruct (Nat.eq_dec k j) as [<-|Nk].
        -- rewrite nth_error_update_same in Hj by auto. injection Hj as <-. lia.
        -- rewrite nth_error_update_other in Hj by auto. apply O1 with (k := str_of_nat j). auto.
      * apply Forall2_app; [now apply Forall2_firstn|]. constructor; auto. now apply Forall2_skipn.
  - destruct (denotes_obj_inv h1 n m v Ed Dn) as (kvs & -> & F2).
    destruct i as [z|s]; [cbn [plain_set]; apply Bad|]. cbn [plain_set].
    assert (NDm : NoDup (keys m)) by (eapply (sh_nodup h1); eauto; apply I1).
    assert (InS : forall key c, In (key, c) (dset s (length h0) m) -> (key = s /\ c = length h0) \/ In (key, c) m).
    { intros key c Hin. apply (In_dget _ _ _ (NoDup_dset _ _ _ NDm)) in Hin.
      destruct (str_eq_dec key s) as [->|Ns].
      - rewrite dget_dset_same in Hin. injection Hin as <-. auto.
      - rewrite dget_dset_other in Hin by auto. right. now apply dget_In. }
    destruct (rewire0 h1 n (DObj (dset s (length h0) m)) I1 ltac:(lia)) as (h' & E' & I' & Ed' & L' & Dd).
    + intros mm Em. injection Em as <-. now apply NoDup_dset.
    + intros key c C. inversion C as [|mm key' c' Ei Hj]; [discriminate|]. injection Ei as <-. subst key' c'.
      apply InS in Hj as [[-> ->]|Hj].
      * split; [lia|]. split; [lia|]. split; auto.
      * pose proof (ca_member h1 n m key c Ed Hj) as CA.
        pose proof (sh_child _ (inv_shape _ I1) _ _ _ CA) as (A & B & C1 & C2). repeat (split; auto).
    + exists h', (Ok tt). split; auto. split; auto. split; [destruct G; lia|]. split; auto.
      apply (changes_grows h h1); auto. apply edit_changes; auto; [apply I1|].
      eapply denotes_obj; eauto. rewrite dict_put_dset by (rewrite <- (Forall2_keys _ _ _ F2); auto).
      eapply (edit_children_obj h1); eauto.
      * intros key c Hin. apply InS in Hin as [[-> ->]|Hin]; [lia|].
        apply O1 with (k := key). eapply ca_member; eauto.
      * now apply Forall2_dset.
Qed.

(** ** Deletion *)
Lemma nth_error_skip {A} k (l : list A) i : nth_error (skipn k l) i = nth_error l (k + i).
Proof. revert l. induction k as [|k IH]; intros l; auto. destruct l; simpl; auto. now destruct i. Qed.

Lemma shape_ids_nodup h n ids : shape h -> ndata (getn h n) = DArr ids -> NoDup ids.
Proof.
  intros Sh E. apply nth_error_NoDup. intros i j x Hi Hj.
  pose proof (sh_child h Sh n (str_of_nat i) x ltac:(econstructor; eauto)) as (_ & _ & _ & A).
  pose proof (sh_child h Sh n (str_of_nat j) x ltac:(econstructor; eauto)) as (_ & _ & _ & B).
  apply str_of_nat_inj. congruence.
Qed.
Lemma shape_items h n ids : shape h -> ndata (getn h n) = DArr ids -> forall j c, nth_error ids j = Some c ->
  n < c /\ c < length h /\ nparent (getn h c) = Some n /\ nkey (getn h c) = Some (str_of_nat j).
Proof. intros Sh E j c Hj. apply (sh_child h Sh). econstructor; eauto. Qed.

Lemma delitem_spec h (n : id) i v : inv h -> n < length h -> index_ok i -> denotes h n v ->
  exists h' r, delitem h n i = (r, h') /\ inv h' /\ length h <= length h' /\
    changes h h' n (plain_del v i) /\
    match plain_del v i with Some _ => r = Ok tt | None => exists e, r = Exn e end.
Proof.
  intros I Hn IK D. unfold delitem.
  pose proof (inv_shape _ I) as Sh. pose proof (shape_ordered _ Sh) as O.
  assert (Bad : forall e, exists h' r, (@Exn unit e, h) = (r, h') /\ inv h' /\ length h <= length h' /\
     changes h h' n None /\ (exists e, r = Exn e)).
  { intro e. exists h, (Exn e). split; auto. split; auto. split; auto. split; eauto. apply changes_none; auto. apply grows_refl. }
  destruct (ndata (getn h n)) as [|b|x|s|ids|m] eqn:E.
  1-4: inversion D as [? E'|? ? E'|? ? E'|? ? E'|? ? ? E'|? ? ? E']; subst; rewrite E in E'; try discriminate;
    cbn [plain_del]; apply Bad.
  - destruct (denotes_arr_inv h n ids v E D) as (l & -> & F2).
    destruct i as [z|s]; [|cbn [plain_del]; apply Bad]. cbn [plain_del]. simpl in IK.
    rewrite norm_index_range by auto. rewrite (Forall2_len _ _ _ F2).
    destruct ((0 <=? z) && (z <? Z.of_nat (length l)))%Z eqn:Ez; [|apply Bad].
    apply andb_prop in Ez as [_ Ez]. apply Z.ltb_lt in Ez. set (k := Z.to_nat z).
    assert (Lk : k < length ids) by (rewrite (Forall2_len _ _ _ F2); lia).
    pose proof (shape_items h n ids Sh E) as It.
    pose proof (shape_ids_nodup h n ids Sh E) as ND.
    assert (Esl : slice_from (remove_nth k ids) z = skipn k (remove_nth k ids)).
    { unfold slice_from. rewrite <- (Z2Nat.id z IK). fold k. rewrite clamp_index_nat, length_remove_nth by auto.
      f_equal. lia. }
    rewrite Esl.
    assert (Nth : forall i, nth_error (skipn k (remove_nth k ids)) i = nth_error ids (S (k + i))).
    { intro i. rewrite nth_error_skip, nth_error_remove by auto. destruct (Nat.ltb_spec (k + i) k); [lia|auto]. }
    destruct (rewire h n (DArr (remove_nth k ids)) (skipn k (remove_nth k ids)) (Z.of_nat (S k)) (-1)%Z I Hn)
      as (h' & E' & I' & Ed' & L' & Dd).
    + intros mm; discriminate.
    + apply nth_error_NoDup. intros a b x Ha Hb. rewrite Nth in Ha, Hb.
      pose proof (It _ _ Ha) as (_ & _ & _ & Ka). pose proof (It _ _ Hb) as (_ & _ & _ & Kb).
      rewrite Ka in Kb. injection Kb as Kb. apply str_of_nat_inj in Kb. lia.
    + intros a c Ha. rewrite Nth in Ha. pose proof (It _ _ Ha) as (A & B & P & K). repeat split; auto.
      rewrite K. f_equal. rewrite <- str_of_Z_nat. f_equal. lia.
    + intros key c C. inversion C as [ids' j c' Ei Hj|]; [|discriminate]. injection Ei as <-. subst key c'.
      rewrite nth_error_remove in Hj by auto. destruct (Nat.ltb_spec j k) as [Lj|Lj].
      * pose proof (It _ _ Hj) as (A & B & P & K). repeat (split; auto). right. split; [|split; auto; left; econstructor; eauto].
        intro Hin. apply In_nth_error in Hin as (a & Ha). rewrite Nth in Ha.
        pose proof (It _ _ Ha) as (_ & _ & _ & Ka). rewrite K in Ka. injection Ka as Ka. apply str_of_nat_inj in Ka. lia.
      * pose proof (It _ _ Hj) as (A & B & P & K). repeat (split; auto). left. exists (j - k).
        rewrite Nth. replace (S (k + (j - k))) with (S j) by lia. split; auto.
        rewrite <- str_of_Z_nat. f_equal. lia.
    + exists h', (Ok tt). split; auto. split; auto. split; [lia|]. split; auto.
      apply edit_changes; auto. eapply denotes_arr; eauto. unfold list_del. rewrite remove_nth_split by auto.
      eapply (edit_children_arr h); eauto.
      * rewrite <- remove_nth_split by auto. intros c Hc. apply In_nth_error in Hc as (j & Hj).
        rewrite nth_error_remove in Hj by auto. destruct (Nat.ltb j k); apply It in Hj; tauto.
      * apply Forall2_app; [now apply Forall2_firstn|now apply Forall2_skipn].
  - destruct (denotes_obj_inv h n m v E D) as (kvs & -> & F2).
    destruct i as [z|s]; [cbn [plain_del]; apply Bad|]. cbn [plain_del].
    assert (NDm : NoDup (keys m)) by (eapply (sh_nodup h); eauto).
    rewrite existsb_dmem. unfold dmem. pose proof (Forall2_dget h s m kvs F2) as Fg.
    destruct (dget s m) as [c0|] eqn:Eg.
    + destruct Fg as (v0 & -> & _).
      assert (InS : forall key c, In (key, c) (ddel s m) -> In (key, c) m).
      { clear. intros key c. induction m as [|[k x] m IH]; simpl; auto. destruct (str_eqb s k); simpl; auto. tauto. }
      destruct (rewire0 h n (DObj (ddel s m)) I Hn) as (h' & E' & I' & Ed' & L' & Dd).
      * intros mm Em. injection Em as <-. now apply NoDup_ddel.
      * intros key c C. inversion C as [|mm key' c' Ei Hj]; [discriminate|]. injection Ei as <-. subst key' c'.
        apply InS in Hj. pose proof (ca_member h n m key c E Hj) as CA.
        pose proof (sh_child _ Sh _ _ _ CA) as (A & B & C1 & C2). repeat (split; auto).
      * exists h', (Ok tt). split; auto. split; auto. split; [lia|]. split; auto.
        apply edit_changes; auto. eapply denotes_obj; eauto.
        rewrite dict_del_ddel by (rewrite <- (Forall2_keys _ _ _ F2); auto).
        eapply (edit_children_obj h); eauto.
        -- intros key c Hin. apply InS in Hin. apply O with (k := key). eapply ca_member; eauto.
        -- now apply Forall2_ddel.
    + rewrite Fg. apply Bad.
Qed.

(** ** Insertion *)
Lemma insert_spec h (n : id) z o v w : inv h -> n < length h -> operand_ok h o ->
  (forall ids, ndata (getn h n) = DArr ids -> (0 <= z <= Z.of_nat (length ids))%Z) ->
  denotes h n v -> operand_is h o w ->
  exists h' r, insert h n z o = (r, h') /\ inv h' /\ length h <= length h' /\
    changes h h' n (plain_insert v z w) /\
    match plain_insert v z w with Some _ => r = Ok tt | None => exists e, r = Exn e end.
Proof.
  intros I Hn OK IK D W. unfold insert.
  pose proof (shape_ordered _ (inv_shape _ I)) as O.
  assert (Bad : forall e, exists h' r, (@Exn unit e, h) = (r, h') /\ inv h' /\ length h <= length h' /\
     changes h h' n None /\ (exists e, r = Exn e)).
  { intro e. exists h, (Exn e). split; auto. split; auto. split; auto. split; eauto. apply changes_none; auto. apply grows_refl. }
  destruct (ndata (getn h n)) as [|b|x|s|ids|m] eqn:E;
    try (inversion D as [? E'|? ? E'|? ? E'|? ? E'|? ? ? E'|? ? ? E']; subst; rewrite E in E'; try discriminate;
      cbn [plain_insert]; apply Bad).
  specialize (IK ids eq_refl).
  destruct (operand_spec h o w I OK W) as (h0 & E0 & T0 & I0 & JW).
  rewrite E0. cbn [hbind].
  assert (L0 : length h0 = length h) by apply T0.
  destruct (new_node_spec h0 w n (str_of_Z z) I0 ltac:(lia) JW) as (h1 & -> & I1 & F & L & P & K & D1 & N).
  pose proof (inv_shape _ I1) as Sh1. pose proof (shape_ordered _ Sh1) as O1.
  assert (G : grows h h1) by (eapply grows_trans; [apply grows_tree; eauto|now apply grows_fresh]).
  assert (Ed : ndata (getn h1 n) = DArr ids) by (rewrite <- E; exact (proj2 G n Hn)).
  assert (Dn : denotes h1 n v) by (apply (grows_denotes h h1); auto).
  destruct (denotes_arr_inv h1 n ids v Ed Dn) as (l & -> & F2). cbn [plain_insert].
  replace ((0 <=? z) && (z <=? Z.of_nat (length l)))%Z with true
    by (symmetry; rewrite <- (Forall2_len _ _ _ F2); apply andb_true_intro; lia).
  set (k := Z.to_nat z). assert (Zk : z = Z.of_nat k) by lia.
  assert (Lk : k <= length ids) by lia.
  assert (Ecl : clamp_index (length ids) z = k) by (rewrite Zk, clamp_index_nat; lia). rewrite Ecl.
  assert (Esl : slice_from (insert_nth k (length h0) ids) (z + 1) = skipn (S k) (insert_nth k (length h0) ids)).
  { unfold slice_from. replace (z + 1)%Z with (Z.of_nat (S k)) by lia. rewrite clamp_index_nat, length_insert_nth.
    f_equal. lia. }
  rewrite Esl.
  pose proof (shape_items h1 n ids Sh1 Ed) as It.
  assert (Nth : forall i, nth_error (skipn (S k) (insert_nth k (length h0) ids)) i = nth_error ids (k + i)).
  { intro i. rewrite nth_error_skip, nth_error_insert by auto.
    destruct (Nat.ltb_spec (S k + i) k); [lia|]. destruct (Nat.eqb_spec (S k + i) k); [lia|]. f_equal. lia. }
  assert (Old : forall c, In c ids -> c < length h0).
  { intros c Hc. apply In_nth_error in Hc as (j & Hj). rewrite L0. apply O with (n := n) (k := str_of_nat j).
    econstructor; eauto. }
  destruct (rewire h1 n (DArr (insert_nth k (length h0) ids)) (skipn (S k) (insert_nth k (length h0) ids)) (Z.of_nat k) 1%Z I1 ltac:(lia))
    as (h' & E' & I' & Ed' & L' & Dd).
  - intros mm; discriminate.
  - apply nth_error_NoDup. intros a b x Ha Hb. rewrite Nth in Ha, Hb.
    pose proof (It _ _ Ha) as (_ & _ & _ & Ka). pose proof (It _ _ Hb) as (_ & _ & _ & Kb).
    rewrite Ka in Kb. injection Kb as Kb. apply str_of_nat_inj in Kb. lia.
  - intros a c Ha. rewrite Nth in Ha. pose proof (It _ _ Ha) as (A & B & Q & R). repeat split; auto.
    rewrite R. f_equal. rewrite <- str_of_Z_nat. f_equal. lia.
  - intros key c C. inversion C as [ids' j c' Ei Hj|]; [|discriminate]. injection Ei as <-. subst key c'.
    rewrite nth_error_insert in Hj by auto. destruct (Nat.ltb_spec j k) as [Lj|Lj]; [|destruct (Nat.eqb_spec j k) as [->|Nj]].
    + pose proof (It _ _ Hj) as (A & B & Q & R). repeat (split; auto). right. split; [|split; auto; left; econstructor; eauto].
      intro Hin. apply In_nth_error in Hin as (a & Ha). rewrite Nth in Ha.
      pose proof (It _ _ Ha) as (_ & _ & _ & Ka). rewrite R in Ka. injection Ka as Ka. apply str_of_nat_inj in Ka. lia.
    + injection Hj as <-. split; [lia|]. split; [lia|]. split; auto. right. split; [|split; auto].
      * intro Hin. apply In_nth_error in Hin as (a & Ha). rewrite Nth in Ha. apply nth_error_In in Ha.
        apply Old in Ha. lia.
      * rewrite K, Zk. f_equal. apply str_of_Z_nat.
    + pose proof (It _ _ Hj) as (A & B & Q & R). repeat (split; auto). left. exists (j - S k).
      rewrite Nth. replace (k + (j - S k)) with (j - 1) by lia. split; auto.
      rewrite <- str_of_Z_nat. f_equal. lia.
  - exists h', (Ok tt). split; auto. split; auto. split; [destruct G; lia|]. split; auto.
    apply (changes_grows h h1); auto. apply edit_changes; auto. eapply denotes_arr; eauto. unfold list_ins, insert_nth.
    eapply (edit_children_arr h1); eauto.
    + intros c Hc. apply in_app_or in Hc as [Hc|[<-|Hc]]; [| lia |].
      * assert (Hin : In c ids) by (rewrite <- (firstn_skipn k ids); apply in_or_app; auto).
        apply In_nth_error in Hin as (j & Hj). apply It in Hj. tauto.
      * assert (Hin : In c ids) by (rewrite <- (firstn_skipn k ids); apply in_or_app; auto).
        apply In_nth_error in Hin as (j & Hj). apply It in Hj. tauto.
    + apply Forall2_app; [now apply Forall2_firstn|]. constructor; auto. now apply Forall2_skipn.
Qed.

(** ** Replacing a node's whole content *)
Lemma reinit_spec h (n : id) w : inv h -> n < length h -> jwf w = true ->
  exists h', reinit h n w = (Ok tt, h') /\ inv h' /\ length h <= length h' /\ changes h h' n (Some w).
Proof.
  intros I Hn W. unfold reinit.
  destruct (init_spec w W h n (nparent (getn h n)) (nkey (getn h n)) Hn) as (hm & d & E & F & C & K & D).
  assert (Im := fresh_inv _ _ I F). pose proof (fr_len _ _ F) as L.
  assert (En : mkNode d (nparent (getn h n)) (nkey (getn h n)) (ncpath (getn h n)) (ncvalue (getn h n))
             = with_data (getn hm n) d) by (rewrite (fr_old _ _ F) by auto; reflexivity).
  rewrite E, En. rewrite E, En in D.
  destruct (rewire0 hm n d Im ltac:(lia) K) as (h' & E' & I' & Ed' & L' & Dd).
  - intros k c Hc. apply C in Hc as (A & B & P & Q). repeat split; auto; try lia.
    right. intros p m H.
    apply (located_bound _ _ _ _ (shape_ordered _ (inv_shape _ Im))) in H; auto. apply (fr_caches _ _ F). lia.
  - exists h'. split; auto. split; auto. split; [lia|].
    pose proof (shape_ordered _ (inv_shape _ I)) as O.
    apply (changes_grows h hm); auto. { now apply grows_fresh. }
    apply edit_changes; auto. { apply Im. }
    apply (denotes_data (setn hm n (with_data (getn hm n) d))); auto.
    intro m. rewrite getn_setn by lia. destruct (Nat.eqb_spec n m) as [<-|N]; [now rewrite Dd|].
    destruct (Nat.lt_ge_cases m (length hm)) as [Lm|Lm].
    + apply (ed_data _ _ _ Ed'); auto.
    + rewrite !getn_out by lia. auto.
Qed.

(** ** New documents *)
Lemma getn_blank h m : getn (h ++ [blank]) m = getn h m.
Proof. rewrite getn_app. destruct (Nat.eqb_spec m (length h)); auto. subst. now rewrite getn_out. Qed.

Lemma inv_blank h : inv h -> inv (h ++ [blank]).
Proof.
  intro I. assert (L : length (h ++ [blank]) = S (length h)) by (rewrite app_length; simpl; lia).
  assert (Dt : same_data h (h ++ [blank])) by (intro m; now rewrite getn_blank).
  constructor.
  - constructor.
    + intros n k c C. apply (child_at_data _ h) in C; [|now rewrite getn_blank].
      apply (sh_child h (inv_shape h I)) in C as (A & B & P & Q). rewrite !getn_blank, L. auto.
    + intros n m. rewrite getn_blank. apply (sh_nodup h (inv_shape h I)).
    + intros n p. rewrite getn_blank. apply (sh_parent h (inv_shape h I)).
  - intros n v. rewrite getn_blank. intro E. eapply denotes_data; eauto. now apply (inv_value h I).
  - intros r p n q [R RP] H E. rewrite getn_blank in *.
    apply (located_data _ h) in H; [|now apply same_data_sym].
    destruct (Nat.eq_dec r (length h)) as [->|N].
    + assert (n = length h); [|subst; rewrite getn_out in E by auto; discriminate].
      clear - H. induction H as [|p a k c H IH C]; auto. subst. exfalso.
      eapply child_at_blank; eauto. now apply getn_out.
    + apply (inv_path h I r p n q); auto. split; auto. lia.
Qed.

Lemma inval_value_root_id h n : nparent (getn h n) = None -> ncvalue (getn h n) = None -> n < length h ->
  inval_value h n = (Ok tt, h).
Proof.
  intros P V L. unfold inval_value. cbn [inval_value_f].
  assert (E : setn h n (with_cvalue (getn h n) None) = h).
  { unfold setn. apply update_nth_id. unfold getn in *.
    rewrite (nth_error_nth' h blank L). f_equal. unfold with_cvalue.
    rewrite <- V. now destruct (nth n h blank). }
  now rewrite E, P.
Qed.

Lemma new_doc_spec h v : inv h -> jwf v = true ->
  exists h', new_doc v h = (h', length h) /\ inv h' /\ length h < length h' /\ is_root h' (length h) /\
    denotes h' (length h) v /\ (forall m, m < length h -> getn h' m = getn h m).
Proof.
  intros I W. unfold new_doc, new_node.
  assert (LA : length (h ++ [blank]) = S (length h)) by (rewrite app_length; simpl; lia).
  assert (IB := inv_blank h I).
  destruct (init_spec v W (h ++ [blank]) (length h) None None ltac:(lia)) as (hm & d & E & F & C & K & D).
  assert (Im := fresh_inv _ _ IB F). pose proof (fr_len _ _ F) as L.
  assert (Gs : getn hm (length h) = blank) by (rewrite (fr_old _ _ F) by lia; rewrite getn_blank; now apply getn_out).
  assert (En : mkNode d None None (ncpath (getn (h ++ [blank]) (length h))) (ncvalue (getn (h ++ [blank]) (length h)))
             = with_data (getn hm (length h)) d) by (rewrite getn_blank, Gs, getn_out by auto; reflexivity).
  rewrite E, En. rewrite E, En in D.
  destruct (rewire0 hm (length h) d Im ltac:(lia) K) as (h' & E' & I' & Ed' & L' & Dd).
  - intros k c Hc. apply C in Hc as (A & B & P & Q). repeat split; auto; try lia.
    right. intros p m H.
    apply (located_bound _ _ _ _ (shape_ordered _ (inv_shape _ Im))) in H; auto. apply (fr_caches _ _ F). lia.
  - assert (Eh : h' = setn hm (length h) (with_data (getn hm (length h)) d)).
    { rewrite inval_value_root_id in E'; [congruence| | |].
      - rewrite getn_setn_same by lia. rewrite Gs. reflexivity.
      - rewrite getn_setn_same by lia. rewrite Gs. reflexivity.
      - rewrite length_setn. lia. }
    rewrite <- Eh in *. exists h'. split; auto. split; auto. split; [lia|].
    split; [|split; auto].
    + split; [lia|]. rewrite Eh. rewrite getn_setn_same by lia. now rewrite Gs.
    + intros m Hm. rewrite Eh. rewrite getn_setn_other by lia. rewrite (fr_old _ _ F) by lia. apply getn_blank.
Qed.

(** ** Operations addressed by pointer *)
Lemma eval_id_located p : forall h n t, eval_id p h n = Ok t ->
  exists q, located h n q t /\ length q = length p.
Proof.
  induction p as [|key p IH]; intros h n t H; cbn [eval_id] in H.
  - injection H as <-. exists []. split; auto. constructor.
  - assert (Go : forall k c, child_at h n k c -> eval_id p h c = Ok t -> exists q, located h n q t /\ length q = length (key :: p)).
    { intros k c C E. destruct (IH _ _ _ E) as (q & L & Lq). exists (k :: q). split; [|simpl; congruence].
      eapply located_cons; eauto. }
    destruct (ndata (getn h n)) as [|b|x|s|ids|m] eqn:E; try discriminate.
    + destruct (py_int key) as [i|]; [|discriminate]. destruct (norm_index (length ids) i) as [k|]; [|discriminate].
      destruct (nth_error ids k) as [c|] eqn:Ek; [|discriminate]. eapply Go; eauto. econstructor; eauto.
    + destruct (dget key m) as [c|] eqn:Ek; [|discriminate]. eapply Go; eauto. eapply ca_member; eauto. apply dget_In; exact Ek.
Qed.

(** The value of a child reached by [q ++ [k]] lies in its parent. *)
Lemma located_last h n q t : located h n q t -> q <> [] ->
  exists q' k tp, q = q' ++ [k] /\ located h n q' tp /\ child_at h tp k t.
Proof. intros H N. destruct H as [|p a k c H C]; [congruence|]. eauto 10. Qed.

Lemma mk_pointer_nonempty path p : path_empty path = false -> mk_pointer [path] = Ok p -> p <> [].
Proof.
  intros PE Ep ->. destruct path as [s|ks].
  - apply str_parse in Ep. cbn in Ep. subst s. discriminate.
  - cbn in Ep. injection Ep as ->. discriminate.
Qed.

Lemma json_remove_spec h (n : id) path : inv h -> n < length h ->
  exists h' r, json_remove h n path = (r, h') /\ inv h' /\ length h <= length h' /\
   if path_empty path then r = Ok tt /\ changes h h' n (Some JNull) else
   match mk_pointer [path] with
   | Ok p =>
       match eval_id p h n with
       | Ok t => r = Ok tt /\ exists q k tp i v, located h n q tp /\ child_at h tp k t /\ length q + 1 = length p /\
           denotes h tp v /\ edge_index (ndata (getn h tp)) k i /\ changes h h' tp (plain_del v i) /\ plain_del v i <> None
       | e => r = match as_json_error e with Exn x => Exn x | _ => Fuel end /\ h' = h
       end
   | Exn e => r = Exn e /\ h' = h
   | Fuel => r = Fuel /\ h' = h
   end.
Proof.
  intros I Hn. unfold json_remove. destruct (path_empty path) eqn:PE.
  { destruct (reinit_spec h n JNull I Hn eq_refl) as (h' & -> & I' & L' & C). exists h', (Ok tt). auto. }
  destruct (mk_pointer [path]) as [p|e|] eqn:Ep; [|exists h, (Exn e); auto|exists h, Fuel; auto].
  destruct (eval_id p h n) as [t|e|] eqn:Et; cbn [as_json_error].
  - destruct (eval_id_located p h n t Et) as (q & Lq & Lenq).
    assert (Np : p <> []).
    { eapply mk_pointer_nonempty; eauto. }
    destruct (located_last h n q t Lq) as (q' & k & tp & -> & Ltp & C).
    { intros ->. destruct p; [congruence|discriminate]. }
    pose proof (inv_shape _ I) as Sh. pose proof (shape_ordered _ Sh) as O.
    destruct (sh_child h Sh _ _ _ C) as (A & B & P & K). rewrite P, K.
    assert (Btp : tp < length h) by lia.
    destruct (denotes_total h tp O Btp) as (v & Dv).
    rewrite app_length in Lenq. simpl in Lenq.
    assert (Fin : forall i, edge_index (ndata (getn h tp)) k i -> index_ok i -> plain_del v i <> None ->
       exists (h' : heap) (r : res unit), delitem h tp i = (r, h') /\ inv h' /\ length h <= length h' /\
         r = Ok tt /\ exists q k tp i v, located h n q tp /\ child_at h tp k t /\ length q + 1 = length p /\
           denotes h tp v /\ edge_index (ndata (getn h tp)) k i /\ changes h h' tp (plain_del v i) /\ plain_del v i <> None).
    { intros i EI IK NN. destruct (delitem_spec h tp i v I Btp IK Dv) as (h' & r & E & I' & L' & Ch & R).
      exists h', r. repeat (split; auto).
      - destruct (plain_del v i); [auto|congruence].
      - exists q', k, tp, i, v. repeat (split; auto). }
    destruct (ndata (getn h tp)) as [|b|x|s|ids|m] eqn:E;
      try (apply child_at_of in C; rewrite E in C; inversion C; discriminate).
    + destruct (child_at_arr _ _ _ _ _ E C) as (j & -> & Hj).
      unfold key_int. rewrite K, <- str_of_Z_nat, py_int_str_of_Z.
      apply Fin; [exists j; auto|simpl; lia|].
      destruct (denotes_arr_inv h tp ids v E Dv) as (l & -> & F2). cbn [plain_del].
      apply nth_error_bound in Hj. rewrite (Forall2_len _ _ _ F2) in Hj.
      replace ((0 <=? Z.of_nat j) && (Z.of_nat j <? Z.of_nat (length l)))%Z with true; [discriminate|].
      symmetry. apply andb_true_intro. lia.
    + apply Fin; [reflexivity|exact Logic.I|].
      destruct (denotes_obj_inv h tp m v E Dv) as (kvs & -> & F2). cbn [plain_del].
      apply (child_at_obj _ _ _ _ _ E) in C. rewrite existsb_dmem.
      replace (dmem k kvs) with true; [discriminate|]. symmetry. apply dmem_In. rewrite <- (Forall2_keys _ _ _ F2).
      apply (in_map fst) in C. exact C.
  - destruct (is_pointer_error e) eqn:Ee; exists h; eexists; repeat (split; [reflexivity||auto|]); auto.
  - exists h, Fuel. auto.
Qed.

Lemma json_replace_spec h (n : id) path o w : inv h -> n < length h -> operand_ok h o -> operand_is h o w ->
  exists h' r, json_replace h n path o = (r, h') /\ inv h' /\ length h <= length h' /\
   if path_empty path then r = Ok tt /\ changes h h' n (Some w) else
   match mk_pointer [path] with
   | Ok p =>
       match eval_id p h n with
       | Ok t => r = Ok tt /\ exists q k tp i v, located h n q tp /\ child_at h tp k t /\ length q + 1 = length p /\
           denotes h tp v /\ edge_index (ndata (getn h tp)) k i /\ changes h h' tp (plain_set v i w) /\ plain_set v i w <> None
       | e => r = match as_json_error e with Exn x => Exn x | _ => Fuel end /\ h' = h
       end
   | Exn e => r = Exn e /\ h' = h
   | Fuel => r = Fuel /\ h' = h
   end.
Proof.
  intros I Hn OK W. unfold json_replace. destruct (path_empty path) eqn:PE.
  { destruct (operand_spec h o w I OK W) as (h0 & -> & T0 & I0 & JW). cbn [hbind].
    assert (L0 : length h0 = length h) by apply T0.
    destruct (reinit_spec h0 n w I0 ltac:(lia) JW) as (h' & -> & I' & L' & C). exists h', (Ok tt).
    repeat (split; [auto; lia|]). apply (changes_grows h h0); auto.
    - apply shape_ordered, I. - now apply grows_tree. }
  destruct (mk_pointer [path]) as [p|e|] eqn:Ep; [|exists h, (Exn e); auto|exists h, Fuel; auto].
  destruct (eval_id p h n) as [t|e|] eqn:Et; cbn [as_json_error].
  - destruct (eval_id_located p h n t Et) as (q & Lq & Lenq).
    assert (Np : p <> []) by (eapply mk_pointer_nonempty; eauto).
    destruct (located_last h n q t Lq) as (q' & k & tp & -> & Ltp & C).
    { intros ->. destruct p; [congruence|discriminate]. }
    pose proof (inv_shape _ I) as Sh. pose proof (shape_ordered _ Sh) as O.
    destruct (sh_child h Sh _ _ _ C) as (A & B & P & K). rewrite P, K.
    assert (Btp : tp < length h) by lia.
    destruct (denotes_total h tp O Btp) as (v & Dv).
    rewrite app_length in Lenq. simpl in Lenq.
    assert (Fin : forall i, edge_index (ndata (getn h tp)) k i -> index_ok i -> plain_set v i w <> None ->
       exists (h' : heap) (r : res unit), setitem h tp i o = (r, h') /\ inv h' /\ length h <= length h' /\
         r = Ok tt /\ exists q k tp i v, located h n q tp /\ child_at h tp k t /\ length q + 1 = length p /\
           denotes h tp v /\ edge_index (ndata (getn h tp)) k i /\ changes h h' tp (plain_set v i w) /\ plain_set v i w <> None).
    { intros i EI IK NN. destruct (setitem_spec h tp i o v w I Btp OK IK Dv W) as (h' & r & E & I' & L' & Ch & R).
      exists h', r. repeat (split; auto).
      - destruct (plain_set v i w); [auto|congruence].
      - exists q', k, tp, i, v. repeat (split; auto). }
    destruct (ndata (getn h tp)) as [|b|x|s|ids|m] eqn:E;
      try (apply child_at_of in C; rewrite E in C; inversion C; discriminate).
    + destruct (child_at_arr _ _ _ _ _ E C) as (j & -> & Hj).
      unfold key_int. rewrite K, <- str_of_Z_nat, py_int_str_of_Z.
      apply Fin; [exists j; auto|simpl; lia|].
      destruct (denotes_arr_inv h tp ids v E Dv) as (l & -> & F2). cbn [plain_set].
      apply nth_error_bound in Hj. rewrite (Forall2_len _ _ _ F2) in Hj.
      replace ((0 <=? Z.of_nat j) && (Z.of_nat j <? Z.of_nat (length l)))%Z with true; [discriminate|].
      symmetry. apply andb_true_intro. lia.
    + apply Fin; [reflexivity|exact Logic.I|].
      destruct (denotes_obj_inv h tp m v E Dv) as (kvs & -> & F2). cbn [plain_set]. discriminate.
  - destruct (is_pointer_error e) eqn:Ee; exists h; eexists; repeat (split; [reflexivity||auto|]); auto.
  - exists h, Fuel. auto.
Qed.

Lemma json_add_spec h (n : id) path o w : inv h -> n < length h -> operand_ok h o -> operand_is h o w ->
  exists h' r, json_add h n path o = (r, h') /\ inv h' /\ length h <= length h' /\
   if path_empty path then r = Ok tt /\ changes h h' n (Some w) else
   match mk_pointer [path] with
   | Ok p =>
       match eval_id (removelast p) h n with
       | Ok tp => exists q v, located h n q tp /\ length q + 1 = length p /\ denotes h tp v /\
           changes h h' tp (plain_add v (last p []) w) /\
           match plain_add v (last p []) w with Some _ => r = Ok tt | None => r = Exn EJSON end
       | e => r = match as_json_error e with Exn x => Exn x | _ => Fuel end /\ h' = h
       end
   | Exn e => r = Exn e /\ h' = h
   | Fuel => r = Fuel /\ h' = h
   end.
Proof.
  intros I Hn OK W. unfold json_add. destruct (path_empty path) eqn:PE.
  { destruct (operand_spec h o w I OK W) as (h0 & -> & T0 & I0 & JW). cbn [hbind].
    assert (L0 : length h0 = length h) by apply T0.
    destruct (reinit_spec h0 n w I0 ltac:(lia) JW) as (h' & -> & I' & L' & C). exists h', (Ok tt).
    repeat (split; [auto; lia|]). apply (changes_grows h h0); auto.
    - apply shape_ordered, I. - now apply grows_tree. }
  destruct (mk_pointer [path]) as [p|e|] eqn:Ep; [|exists h, (Exn e); auto|exists h, Fuel; auto].
  assert (Np : p <> []) by (eapply mk_pointer_nonempty; eauto).
  assert (Esl : pointer_slice p None (Some (-1)%Z) = removelast p).
  { destruct (exists_last Np) as (p' & x & ->). rewrite removelast_last. unfold pointer_slice.
    assert (Ec : clamp_index (length (p' ++ [x])) (-1) - 0 = length p' + 0).
    { unfold clamp_index. rewrite app_length. cbn [length Z.ltb Z.compare]. lia. }
    rewrite Ec. cbn [skipn]. rewrite firstn_app_2. simpl. now rewrite app_nil_r. }
  rewrite Esl.
  destruct (eval_id (removelast p) h n) as [tp|e|] eqn:Et; cbn [as_json_error].
  - destruct (eval_id_located _ h n tp Et) as (q & Lq & Lenq).
    pose proof (inv_shape _ I) as Sh. pose proof (shape_ordered _ Sh) as O.
    destruct (located_bound h n q tp O Hn Lq) as [_ Btp].
    destruct (denotes_total h tp O Btp) as (v & Dv).
    assert (Len : length q + 1 = length p).
    { rewrite Lenq. destruct (exists_last Np) as (p' & x & ->). rewrite removelast_last, app_length. reflexivity. }
    set (key := last p []).
    assert (Bad : plain_add v key w = None -> exists h' r, (@Exn unit EJSON, h) = (r, h') /\ inv h' /\ length h <= length h' /\
       exists q v, located h n q tp /\ length q + 1 = length p /\ denotes h tp v /\
           changes h h' tp (plain_add v key w) /\
           match plain_add v key w with Some _ => r = Ok tt | None => r = Exn EJSON end).
    { intro E. exists h, (Exn EJSON). repeat (split; [solve [auto]|]). exists q, v. repeat (split; [solve [auto]|]). rewrite E.
      split; auto. apply changes_none; auto. apply grows_refl. }
    assert (Ins : forall ids z, ndata (getn h tp) = DArr ids -> (0 <= z <= Z.of_nat (length ids))%Z ->
       plain_add v key w = plain_insert v z w ->
       exists h' r, insert h tp z o = (r, h') /\ inv h' /\ length h <= length h' /\
       exists q v, located h n q tp /\ length q + 1 = length p /\ denotes h tp v /\
           changes h h' tp (plain_add v key w) /\
           match plain_add v key w with Some _ => r = Ok tt | None => r = Exn EJSON end).
    { intros ids z E Hz Ea.
      destruct (insert_spec h tp z o v w I Btp OK) as (h' & r & Ei & I' & L' & Ch & R); auto.
      { intros ids' E'. rewrite E in E'. injection E' as <-. auto. }
      exists h', r. repeat (split; [solve [auto]|]). exists q, v. repeat (split; [solve [auto]|]). rewrite Ea. split; auto.
      destruct (denotes_arr_inv h tp ids v E Dv) as (l & -> & F2). cbn [plain_insert] in *.
      rewrite (Forall2_len _ _ _ F2) in Hz.
      replace ((0 <=? z) && (z <=? Z.of_nat (length l)))%Z with true in *; auto.
      symmetry. apply andb_true_intro. lia. }
    destruct (ndata (getn h tp)) as [|b|x|s|ids|m] eqn:E.
    1-4: inversion Dv as [? E'|? ? E'|? ? E'|? ? E'|? ? ? E'|? ? ? E']; subst; rewrite E in E'; try discriminate;
      apply Bad; reflexivity.
    + destruct (denotes_arr_inv h tp ids v E Dv) as (l & Ev & F2).
      assert (Ln := Forall2_len _ _ _ F2).
      destruct (str_eqb key (lit "-")) eqn:Ek.
      * apply (Ins ids); auto; [lia|]. subst v. cbn [plain_add]. rewrite Ek, Ln. reflexivity.
      * destruct (py_int key) as [z|] eqn:Ez.
        -- destruct (Z.eqb_spec z (Z.of_nat (length ids))) as [->|Nz].
           ++ apply (Ins ids); auto; [lia|]. subst v. cbn [plain_add]. rewrite Ek, Ez.
              destruct (Z.leb_spec 0 (Z.of_nat (length ids))); [reflexivity|lia].
           ++ destruct ((0 <=? z) && (z <? Z.of_nat (length ids)))%Z eqn:Er.
              ** apply andb_prop in Er as [E1 E2]. apply (Ins ids); auto; [lia|]. subst v. cbn [plain_add].
                 rewrite Ek, Ez, E1. reflexivity.
              ** apply Bad. subst v. cbn [plain_add plain_insert]. rewrite Ek, Ez.
                 destruct (Z.leb_spec 0 z); auto. cbn [andb] in *. rewrite <- Ln.
                 apply Z.ltb_ge in Er. destruct (Z.leb_spec z (Z.of_nat (length ids))); [lia|auto].
        -- apply Bad. subst v. cbn [plain_add]. now rewrite Ek, Ez.
    + destruct (denotes_obj_inv h tp m v E Dv) as (kvs & -> & F2).
      destruct (setitem_spec h tp (IStr key) o (JObj kvs) w I Btp OK Logic.I Dv W) as (h' & r & Es & I' & L' & Ch & R).
      exists h', r. repeat (split; [solve [auto]|]). exists q, (JObj kvs). cbn [plain_add plain_set] in *. auto.
  - destruct (is_pointer_error e) eqn:Ee; exists h; eexists; repeat (split; [reflexivity||auto|]); auto.
  - exists h, Fuel. auto.
Qed.

(** ** Histories *)
Lemma operand_is_total h o : inv h -> operand_ok h o -> exists w, operand_is h o w.
Proof.
  intros I K. destruct o as [w|n]; simpl in *; eauto. apply denotes_total; auto. apply shape_ordered, I.
Qed.

Lemma append_spec h (n : id) o v w : inv h -> n < length h -> operand_ok h o ->
  denotes h n v -> operand_is h o w ->
  exists h' r, append h n o = (r, h') /\ inv h' /\ length h <= length h' /\
    match v with
    | JArr l => r = Ok tt /\ changes h h' n (Some (JArr (l ++ [w])))
    | _ => (exists e, r = Exn e) /\ changes h h' n None
    end.
Proof.
  intros I Hn OK D W. unfold append. pose proof (shape_ordered _ (inv_shape _ I)) as O.
  assert (Bad : forall e, exists h' r, (@Exn unit e, h) = (r, h') /\ inv h' /\ length h <= length h' /\
     (exists e, r = Exn e) /\ changes h h' n None).
  { intro e. exists h, (Exn e). repeat (split; [solve [eauto]|]). apply changes_none; auto. apply grows_refl. }
  destruct (ndata (getn h n)) as [|b|x|s|ids|m] eqn:E.
  1-4: inversion D as [? E'|? ? E'|? ? E'|? ? E'|? ? ? E'|? ? ? E']; subst; rewrite E in E'; try discriminate;
    try (unfold insert; rewrite E); apply Bad.
  - destruct (denotes_arr_inv h n ids v E D) as (l & -> & F2).
    destruct (insert_spec h n (Z.of_nat (length ids)) o (JArr l) w I Hn OK) as (h' & r & Ei & I' & L' & Ch & R); auto.
    { intros ids' E'. rewrite E in E'. injection E' as <-. lia. }
    exists h', r. repeat (split; [solve [auto]|]). cbn [plain_insert] in *. rewrite (Forall2_len _ _ _ F2) in Ch, R.
    assert (Eb : ((0 <=? Z.of_nat (length l)) && (Z.of_nat (length l) <=? Z.of_nat (length l)))%Z = true)
      by (apply andb_true_intro; split; apply Z.leb_le; [apply Nat2Z.is_nonneg|apply Z.le_refl]).
    rewrite Eb in Ch, R.
    split; auto. unfold list_ins in Ch. rewrite Nat2Z.id, firstn_all, skipn_all in Ch. exact Ch.
  - destruct (denotes_obj_inv h n m v E D) as (kvs & -> & F2). unfold insert. rewrite E. apply Bad.
Qed.

Lemma pop_spec h (n : id) z v : inv h -> n < length h -> (0 <= z)%Z -> denotes h n v ->
  exists h' r, pop h n z = (r, h') /\ inv h' /\ length h <= length h' /\
    match v with
    | JArr l => changes h h' n (plain_del v (IInt z)) /\
        match nth_error l (Z.to_nat z) with
        | Some x => exists c, r = Ok c /\ denotes h' c x
        | None => r = Exn EIndex
        end
    | _ => h' = h /\ exists e, r = Exn e
    end.
Proof.
  intros I Hn Hz D. unfold pop, getitem.
  destruct (ndata (getn h n)) as [|b|x|s|ids|m] eqn:E.
  1-4: inversion D as [? E'|? ? E'|? ? E'|? ? E'|? ? ? E'|? ? ? E']; subst; rewrite E in E'; try discriminate;
    (eexists; eexists; split; [reflexivity|]; eauto 10).
  - destruct (denotes_arr_inv h n ids v E D) as (l & -> & F2).
    destruct (delitem_spec h n (IInt z) (JArr l) I Hn Hz D) as (h' & r & Ed & I' & L' & Ch & R).
    rewrite norm_index_range by auto. cbn [plain_del] in *. rewrite (Forall2_len _ _ _ F2).
    destruct ((0 <=? z) && (z <? Z.of_nat (length l)))%Z eqn:Ez.
    + apply andb_prop in Ez as [_ Ez]. apply Z.ltb_lt in Ez.
      destruct (nth_error_lt l (Z.to_nat z) ltac:(lia)) as (x & Ex). rewrite Ex.
      destruct (nth_error_same_length l ids _ _ (eq_sym (Forall2_len _ _ _ F2)) Ex) as (c & Ec). rewrite Ec.
      rewrite Ed. subst r. cbn [hbind]. exists h', (Ok c). repeat (split; [solve [auto]|]). exists c. split; auto.
      destruct Ch as (_ & Kp & _). apply (Kp c).
      * pose proof (shape_items h n ids (inv_shape _ I) E _ _ Ec). tauto.
      * intros [p B]. pose proof (shape_items h n ids (inv_shape _ I) E _ _ Ec) as (A1 & A2 & _).
        apply (located_bound h c p n (shape_ordered _ (inv_shape _ I)) A2) in B. lia.
      * apply Forall2_nth_inv in F2 as [_ F2]. eapply F2; eauto.
    + assert (En : nth_error l (Z.to_nat z) = None).
      { apply nth_error_None. apply andb_false_iff in Ez. lia. }
      rewrite En. exists h, (Exn EIndex). repeat (split; [solve [auto]|]). split; auto. apply changes_none; [|apply grows_refl].
      apply shape_ordered, I.
  - destruct (denotes_obj_inv h n m v E D) as (kvs & -> & F2). exists h; eexists; split; [reflexivity|]; eauto 10.
Qed.

Lemma run_inv h o : inv h -> op_ok h o -> inv (run h o) /\ length h <= length (run h o).
Proof.
  intros I K. pose proof (shape_ordered _ (inv_shape _ I)) as O.
  destruct o as [v|n|n|n i x|n i|n z x|n x|n z|n p x|n p|n p x]; simpl in K; cbn [run].
  - destruct (new_doc_spec h v I K) as (h' & -> & I' & L' & _). split; auto. simpl. lia.
  - destruct (read_path_spec h n I K) as (p & h' & -> & T & I' & _). simpl. split; auto. destruct T; lia.
  - destruct (read_value_spec h n I K) as (v & h' & -> & _ & T & I'). simpl. split; auto. destruct T; lia.
  - destruct K as (Hn & IK & OK). destruct (denotes_total h n O Hn) as (v & D).
    destruct (operand_is_total h x I OK) as (w & W).
    destruct (setitem_spec h n i x v w I Hn OK IK D W) as (h' & r & -> & I' & L' & _). auto.
  - destruct K as (Hn & IK). destruct (denotes_total h n O Hn) as (v & D).
    destruct (delitem_spec h n i v I Hn IK D) as (h' & r & -> & I' & L' & _). auto.
  - destruct K as (Hn & OK & IK). destruct (denotes_total h n O Hn) as (v & D).
    destruct (operand_is_total h x I OK) as (w & W).
    destruct (insert_spec h n z x v w I Hn OK IK D W) as (h' & r & -> & I' & L' & _). auto.
  - destruct K as (Hn & OK). destruct (denotes_total h n O Hn) as (v & D).
    destruct (operand_is_total h x I OK) as (w & W).
    destruct (append_spec h n x v w I Hn OK D W) as (h' & r & -> & I' & L' & _). auto.
  - destruct K as (Hn & IK). destruct (denotes_total h n O Hn) as (v & D).
    destruct (pop_spec h n z v I Hn IK D) as (h' & r & -> & I' & L' & _). auto.
  - destruct K as (Hn & OK). destruct (operand_is_total h x I OK) as (w & W).
    destruct (json_add_spec h n p x w I Hn OK W) as (h' & r & -> & I' & L' & _). auto.
  - destruct (json_remove_spec h n p I K) as (h' & r & -> & I' & L' & _). auto.
  - destruct K as (Hn & OK). destruct (operand_is_total h x I OK) as (w & W).
    destruct (json_replace_spec h n p x w I Hn OK W) as (h' & r & -> & I' & L' & _). auto.
Qed.

Lemma inv_nil : inv [].
Proof.
  assert (G : forall n, getn [] n = blank) by (intro n; apply getn_out; simpl; lia).
  constructor.
  - constructor.
    + intros n k c C. exfalso. eapply child_at_blank; eauto.
    + intros n m. rewrite G. discriminate.
    + intros n p. rewrite G. discriminate.
  - intros n v. rewrite G. discriminate.
  - intros r p n q _ _. rewrite G. discriminate.
Qed.

Lemma history_inv h : history h -> inv h.
Proof. induction 1 as [|h o H IH K]; [apply inv_nil|]. now apply run_inv. Qed.

(** Evaluation of the keys of a location finds the node there. *)
Lemma located_eval p : forall h r n, shape h -> located h r p n -> eval_id p h r = Ok n.
Proof.
  induction p as [|k p IH]; intros h r n Sh L.
  - inversion L; subst; auto. destruct p; discriminate.
  - apply located_uncons in L as (c & C & L). cbn [eval_id].
    destruct (ndata (getn h r)) as [|b|x|s|ids|m] eqn:E;
      try (apply child_at_of in C; rewrite E in C; inversion C; discriminate).
    + destruct (child_at_arr _ _ _ _ _ E C) as (j & -> & Hj).
      rewrite <- str_of_Z_nat, py_int_str_of_Z. apply nth_error_bound in Hj as Lj.
      rewrite norm_index_nat by auto. rewrite Hj. auto.
    + apply (child_at_obj _ _ _ _ _ E) in C. rewrite (In_dget _ _ _ (sh_nodup h Sh r m E) C). auto.
Qed.

Lemma edge_exists h tp k t : child_at h tp k t -> exists i, edge_index (ndata (getn h tp)) k i.
Proof. intros [ids i c E Hi|m k' c E Hi]; rewrite E; simpl; eauto. Qed.
Lemma edge_fun d k i j : edge_index d k i -> edge_index d k j -> i = j.
Proof.
  destruct d; simpl; try tauto; try congruence.
  intros (a & -> & ->) (b & E & ->). apply str_of_nat_inj in E. congruence.
Qed.

