(** Facts about the shared vocabulary of Base.v and Json.v. *)
From Verif Require Export Base Json.

Global Arguments N.add : simpl never.
Global Arguments N.sub : simpl never.
Global Arguments N.mul : simpl never.
Global Arguments N.div : simpl never.
Global Arguments N.modulo : simpl never.
Global Arguments N.leb : simpl never.
Global Arguments N.ltb : simpl never.

(** ** Strings *)
Lemma str_eqb_spec a b : reflect (a = b) (str_eqb a b).
Proof.
  apply iff_reflect. revert b; induction a as [|x a IH]; destruct b as [|y b]; simpl;
    split; intro H; try discriminate; auto.
  - injection H as -> ->. rewrite N.eqb_refl. now apply IH.
  - apply andb_true_iff in H as [H1 H2]. apply N.eqb_eq in H1 as ->. f_equal. now apply IH.
Qed.

Lemma str_eqb_eq a b : str_eqb a b = true <-> a = b.
Proof. destruct (str_eqb_spec a b); split; congruence. Qed.
Lemma str_eqb_neq a b : str_eqb a b = false <-> a <> b.
Proof. destruct (str_eqb_spec a b); split; congruence. Qed.
Lemma str_eqb_refl a : str_eqb a a = true.
Proof. now apply str_eqb_eq. Qed.
Lemma str_eqb_sym a b : str_eqb a b = str_eqb b a.
Proof. destruct (str_eqb_spec a b), (str_eqb_spec b a); congruence. Qed.

Lemma str_eq_dec (a b : pystr) : {a = b} + {a <> b}.
Proof. destruct (str_eqb_spec a b); auto. Qed.

Lemma strs_eqb_spec a b : reflect (a = b) (strs_eqb a b).
Proof.
  apply iff_reflect. revert b; induction a as [|x a IH]; destruct b as [|y b]; simpl;
    split; intro H; try discriminate; auto.
  - injection H as -> ->. rewrite str_eqb_refl. now apply IH.
  - apply andb_true_iff in H as [H1 H2]. apply str_eqb_eq in H1 as ->. f_equal. now apply IH.
Qed.
Lemma strs_eqb_eq a b : strs_eqb a b = true <-> a = b.
Proof. destruct (strs_eqb_spec a b); split; congruence. Qed.
Lemma strs_eqb_refl a : strs_eqb a a = true.
Proof. now apply strs_eqb_eq. Qed.

Lemma mem_str_In k l : mem_str k l = true <-> In k l.
Proof.
  unfold mem_str. rewrite existsb_exists. split.
  - intros (x & Hx & E). apply str_eqb_eq in E as ->. exact Hx.
  - intro H. exists k. split; auto. apply str_eqb_refl.
Qed.

(** ** Dicts *)
Section Dict.
Context {A : Type}.
Implicit Types m : list (pystr * A).

Lemma dget_In k v m : dget k m = Some v -> In (k, v) m.
Proof.
  induction m as [|[k' v'] m IH]; simpl; [discriminate|].
  destruct (str_eqb_spec k k'); intro H.
  - injection H as ->. subst. now left.
  - right. auto.
Qed.

Lemma dget_None k m : dget k m = None <-> ~ In k (keys m).
Proof.
  induction m as [|[k' v'] m IH]; simpl; [tauto|].
  destruct (str_eqb_spec k k'); split; intro H; try discriminate.
  - subst. exfalso. apply H. now left.
  - intros [E|E]; [congruence|]. now apply IH in H.
  - apply IH. tauto.
Qed.

Lemma dmem_In k m : dmem k m = true <-> In k (keys m).
Proof.
  unfold dmem. destruct (dget k m) eqn:E; split; intro H; auto; try discriminate.
  - apply dget_In in E. apply (in_map fst) in E. exact E.
  - apply dget_None in E. contradiction.
Qed.

Lemma dmem_false k m : dmem k m = false <-> ~ In k (keys m).
Proof. rewrite <- dmem_In. destruct (dmem k m); split; congruence. Qed.

Lemma In_dget k v m : NoDup (keys m) -> In (k, v) m -> dget k m = Some v.
Proof.
  induction m as [|[k' v'] m IH]; simpl; intros ND H; [contradiction|].
  inversion ND; subst. destruct H as [H|H].
  - injection H as -> ->. now rewrite str_eqb_refl.
  - destruct (str_eqb_spec k k'); auto.
    subst. apply (in_map fst) in H. simpl in H. contradiction.
Qed.

Lemma nodup_keysb_NoDup m : nodup_keysb m = true <-> NoDup (keys m).
Proof.
  induction m as [|[k v] m IH]; simpl.
  - split; auto; constructor.
  - rewrite andb_true_iff, negb_true_iff, dmem_false, IH. split.
    + intros []; constructor; auto.
    + intro H; inversion H; auto.
Qed.

Lemma dget_dset_same k v m : dget k (dset k v m) = Some v.
Proof.
  induction m as [|[k' v'] m IH]; simpl; [now rewrite str_eqb_refl|].
  destruct (str_eqb_spec k k'); simpl.
  - subst. now rewrite str_eqb_refl.
  - destruct (str_eqb_spec k k'); congruence.
Qed.

Lemma dget_dset_other k k' v m : k <> k' -> dget k (dset k' v m) = dget k m.
Proof.
  intro N. induction m as [|[a b] m IH]; simpl.
  - destruct (str_eqb_spec k k'); congruence.
  - destruct (str_eqb_spec k' a); simpl.
    + subst. destruct (str_eqb_spec k a); congruence.
    + destruct (str_eqb_spec k a); auto.
Qed.

Lemma dget_dset k k' v m :
  dget k (dset k' v m) = if str_eqb k k' then Some v else dget k m.
Proof.
  destruct (str_eqb_spec k k'); subst; [apply dget_dset_same|now apply dget_dset_other].
Qed.

Lemma keys_dset k v m :
  keys (dset k v m) = if dmem k m then keys m else keys m ++ [k].
Proof.
  unfold dmem. induction m as [|[a b] m IH]; simpl; auto.
  destruct (str_eqb_spec k a); simpl; auto.
  rewrite IH. destruct (dget k m); auto.
Qed.

Lemma NoDup_app_single (k : pystr) l : NoDup l -> ~ In k l -> NoDup (l ++ [k]).
Proof.
  induction l as [|x l IH]; simpl; intros ND N.
  - constructor; auto; constructor.
  - inversion ND; subst. constructor; [|apply IH; tauto].
    rewrite in_app_iff; simpl. intros [H|[H|[]]]; auto; subst; tauto.
Qed.

Lemma NoDup_dset k v m : NoDup (keys m) -> NoDup (keys (dset k v m)).
Proof.
  intro H. rewrite keys_dset. destruct (dmem k m) eqn:E; auto.
  apply NoDup_app_single; auto. now apply dmem_false.
Qed.

Lemma dset_same_id k v m : dget k m = Some v -> dset k v m = m.
Proof.
  induction m as [|[a b] m IH]; simpl; [discriminate|].
  destruct (str_eqb_spec k a); intro H.
  - now injection H as ->.
  - now rewrite IH.
Qed.

Lemma dset_dset k v w m : dset k v (dset k w m) = dset k v m.
Proof.
  induction m as [|[a b] m IH]; simpl.
  - now rewrite str_eqb_refl.
  - destruct (str_eqb_spec k a); simpl.
    + subst. now rewrite str_eqb_refl.
    + destruct (str_eqb_spec k a); congruence.
Qed.

Lemma length_dset k v m : length (dset k v m) = if dmem k m then length m else S (length m).
Proof.
  unfold dmem. induction m as [|[a b] m IH]; simpl; auto.
  destruct (str_eqb_spec k a); simpl; auto. rewrite IH. destruct (dget k m); auto.
Qed.

Lemma keys_ddel_incl k x m : In x (keys (ddel k m)) -> In x (keys m).
Proof.
  induction m as [|[a b] m IH]; simpl; auto.
  destruct (str_eqb_spec k a); simpl; auto. tauto.
Qed.

Lemma NoDup_ddel k m : NoDup (keys m) -> NoDup (keys (ddel k m)).
Proof.
  induction m as [|[a b] m IH]; simpl; auto.
  intro H; inversion H; subst. destruct (str_eqb_spec k a); simpl; auto.
  constructor; auto. intro C. apply keys_ddel_incl in C. contradiction.
Qed.

Lemma dget_ddel_same k m : NoDup (keys m) -> dget k (ddel k m) = None.
Proof.
  intro ND. apply dget_None. induction m as [|[a b] m IH]; simpl in *; auto.
  inversion ND; subst. destruct (str_eqb_spec k a); simpl; subst; auto.
  intros [H|H]; [congruence|]. now apply IH.
Qed.

Lemma dget_ddel_other k k' m : k <> k' -> dget k (ddel k' m) = dget k m.
Proof.
  intro N. induction m as [|[a b] m IH]; simpl; auto.
  destruct (str_eqb_spec k' a); simpl.
  - subst. destruct (str_eqb_spec k a); congruence.
  - destruct (str_eqb_spec k a); auto.
Qed.

Lemma ddel_absent k m : dget k m = None -> ddel k m = m.
Proof.
  induction m as [|[a b] m IH]; simpl; auto.
  destruct (str_eqb_spec k a); [discriminate|]. intro H. now rewrite IH.
Qed.

Lemma ddel_dset_new k v m : dget k m = None -> ddel k (dset k v m) = m.
Proof.
  induction m as [|[a b] m IH]; simpl.
  - now rewrite str_eqb_refl.
  - destruct (str_eqb_spec k a); [discriminate|]. intro H. simpl.
    destruct (str_eqb_spec k a); [congruence|]. now rewrite IH.
Qed.
End Dict.

(** ** Lists *)
Section Lists.
Context {A : Type}.
Implicit Types l : list A.

Lemma length_update_nth n x l : length (update_nth n x l) = length l.
Proof. revert n; induction l; destruct n; simpl; auto. Qed.

Lemma nth_error_update_same n x l : (n < length l)%nat -> nth_error (update_nth n x l) n = Some x.
Proof.
  revert n; induction l; destruct n; simpl; intro H; try lia; auto.
  apply IHl. lia.
Qed.

Lemma nth_error_update_other n k x l : n <> k -> nth_error (update_nth n x l) k = nth_error l k.
Proof.
  revert n k; induction l; destruct n, k; simpl; intro H; auto; try congruence.
Qed.

Lemma update_nth_id n x l : nth_error l n = Some x -> update_nth n x l = l.
Proof.
  revert n; induction l; destruct n; simpl; intro H; try discriminate; auto.
  - now injection H as ->.
  - now rewrite IHl.
Qed.

Lemma update_nth_split n x l : (n < length l)%nat ->
  update_nth n x l = firstn n l ++ x :: skipn (S n) l.
Proof.
  revert n; induction l; destruct n; simpl; intro H; try lia; auto.
  rewrite IHl; auto. lia.
Qed.

Lemma remove_nth_split n l : (n < length l)%nat ->
  remove_nth n l = firstn n l ++ skipn (S n) l.
Proof.
  revert n; induction l; destruct n; simpl; intro H; try lia; auto.
  rewrite IHl; auto. lia.
Qed.

Lemma length_remove_nth n l : (n < length l)%nat -> length (remove_nth n l) = (length l - 1)%nat.
Proof.
  revert n; induction l; destruct n; simpl; intro H; try lia.
  rewrite IHl; lia.
Qed.

Lemma nth_error_cut n x l : nth_error l n = Some x -> l = firstn n l ++ x :: skipn (S n) l.
Proof.
  revert n; induction l; destruct n; simpl; intro H; try discriminate.
  - now injection H as ->.
  - f_equal. exact (IHl n H).
Qed.

Lemma length_insert_nth n x l : length (insert_nth n x l) = S (length l).
Proof.
  unfold insert_nth. rewrite app_length, firstn_length. simpl. rewrite skipn_length. lia.
Qed.

Lemma nth_error_insert n x l k : (n <= length l)%nat ->
  nth_error (insert_nth n x l) k =
    if Nat.ltb k n then nth_error l k else if Nat.eqb k n then Some x else nth_error l (k - 1).
Proof.
  unfold insert_nth. revert n k. induction l as [|y l IH]; intros n k H; simpl in H.
  - assert (n = O) by lia. subst. destruct k; simpl; auto.
    destruct (k - 0)%nat eqn:E, k; simpl in *; auto.
  - destruct n as [|n]; simpl.
    + destruct k; simpl; auto. now rewrite Nat.sub_0_r.
    + destruct k as [|k]; simpl; auto.
      rewrite IH by lia. unfold Nat.ltb; simpl.
      destruct k as [|k]; simpl.
      * destruct n; simpl; auto.
      * rewrite Nat.sub_0_r. reflexivity.
Qed.

Lemma nth_error_remove n l k : (n < length l)%nat ->
  nth_error (remove_nth n l) k = if Nat.ltb k n then nth_error l k else nth_error l (S k).
Proof.
  revert n k. induction l as [|y l IH]; intros n k H; simpl in H; [lia|].
  destruct n as [|n]; simpl.
  - destruct k; reflexivity.
  - destruct k as [|k]; simpl; auto. rewrite IH by lia. unfold Nat.ltb; simpl. reflexivity.
Qed.

Lemma insert_remove n l x : nth_error l n = Some x -> insert_nth n x (remove_nth n l) = l.
Proof.
  unfold insert_nth. revert n; induction l; destruct n; simpl; intro H; try discriminate.
  - now injection H as ->.
  - f_equal. auto.
Qed.

Lemma remove_insert n x l : (n <= length l)%nat -> remove_nth n (insert_nth n x l) = l.
Proof.
  unfold insert_nth. revert n; induction l; destruct n; simpl; intro H; try lia; auto.
  f_equal. apply IHl. lia.
Qed.
End Lists.

Lemma map_update_nth {A B} (f : A -> B) n x l :
  map f (update_nth n x l) = update_nth n (f x) (map f l).
Proof. revert n; induction l; destruct n; simpl; auto; now rewrite IHl. Qed.

Lemma norm_index_Some len i n :
  norm_index len i = Some n ->
  (n < len)%nat /\ (i = Z.of_nat n \/ i = Z.of_nat n - Z.of_nat len)%Z.
Proof.
  unfold norm_index. destruct (Z.ltb_spec i 0);
  match goal with |- context [if ?b then _ else _] => destruct b eqn:E end; try discriminate;
  intro H'; injection H' as <-; apply andb_true_iff in E as [E1 E2]; lia.
Qed.

Lemma norm_index_nat len n : (n < len)%nat -> norm_index len (Z.of_nat n) = Some n.
Proof.
  intro H. unfold norm_index. destruct (Z.ltb_spec (Z.of_nat n) 0); [lia|].
  replace ((0 <=? Z.of_nat n) && (Z.of_nat n <? Z.of_nat len))%Z with true.
  - now rewrite Nat2Z.id.
  - symmetry. apply andb_true_iff; lia.
Qed.

Lemma norm_index_out len i : (i >= Z.of_nat len)%Z -> norm_index len i = None.
Proof.
  intro H. unfold norm_index. destruct (Z.ltb_spec i 0); [lia|].
  replace ((0 <=? i) && (i <? Z.of_nat len))%Z with false; auto.
  symmetry. apply andb_false_iff. lia.
Qed.

Lemma clamp_index_nat len n : clamp_index len (Z.of_nat n) = Nat.min n len.
Proof. unfold clamp_index. destruct (Z.ltb_spec (Z.of_nat n) 0); [lia|]. now rewrite Nat2Z.id. Qed.

(** ** Decimal integers *)
Local Open Scope N_scope.

Lemma dec_aux_acc f n acc : dec_aux f n acc = dec_aux f n [] ++ acc.
Proof.
  revert n acc. induction f as [|f IH]; intros n acc; cbn [dec_aux]; auto.
  destruct (n <? 10); auto.
  rewrite IH, (IH _ [_]), <- app_assoc. reflexivity.
Qed.

Lemma size_nat_div10 n : 10 <= n -> (N.size_nat (n / 10) < N.size_nat n)%nat.
Proof.
  intro H.
  assert (S : forall a, N.size_nat a = N.to_nat (N.size a)).
  { intros [|p]; simpl; auto. induction p; simpl; auto; rewrite IHp; lia. }
  rewrite !S. apply Nat.compare_lt_iff. rewrite <- N2Nat.inj_compare. apply N.compare_lt_iff.
  assert (n / 10 <> 0) by (intro E; apply N.div_small_iff in E; lia).
  rewrite !N.size_log2 by lia.
  apply N.succ_lt_mono. rewrite <- !N.succ_lt_mono.
  assert (L : n / 10 <= n / 2) by (apply N.div_le_compat_l; lia).
  apply N.log2_le_mono in L.
  assert (n / 2 = N.div2 n) by (symmetry; apply N.div2_div).
  assert (1 < n) by lia.
  assert (N.log2 n = N.succ (N.log2 (N.div2 n))).
  { rewrite N.div2_spec, N.log2_shiftr. 
    assert (0 < N.log2 n) by (apply N.log2_pos; lia). lia. }
  rewrite H1 in L. lia.
Qed.

Lemma dec_aux_fuel f g n :
  (N.size_nat n < f)%nat -> (N.size_nat n < g)%nat -> dec_aux f n [] = dec_aux g n [].
Proof.
  revert g n. induction f as [|f IH]; intros g n Hf Hg; [lia|].
  destruct g as [|g]; [lia|]. cbn [dec_aux].
  destruct (N.ltb_spec n 10); auto.
  rewrite dec_aux_acc, (dec_aux_acc g). f_equal.
  pose proof (size_nat_div10 n H). apply IH; lia.
Qed.

Lemma str_of_N_small n : n < 10 -> str_of_N n = [48 + n].
Proof.
  intro H. unfold str_of_N. cbn [dec_aux]. destruct (N.ltb_spec n 10); [|lia].
  now rewrite N.mod_small.
Qed.

Lemma str_of_N_big n : 10 <= n -> str_of_N n = str_of_N (n / 10) ++ [48 + n mod 10].
Proof.
  intro H. unfold str_of_N at 1. cbn [dec_aux]. destruct (N.ltb_spec n 10); [lia|].
  rewrite dec_aux_acc. f_equal.
  pose proof (size_nat_div10 n H). unfold str_of_N. apply dec_aux_fuel; lia.
Qed.

Lemma N_ind10 (P : N -> Prop) :
  (forall n, n < 10 -> P n) -> (forall n, 10 <= n -> P (n / 10) -> P n) -> forall n, P n.
Proof.
  intros H1 H2 n. induction n as [n IH] using (well_founded_induction N.lt_wf_0).
  destruct (N.lt_ge_cases n 10); auto. apply H2; auto. apply IH. apply N.div_lt; lia.
Qed.

Definition ascii_digit (c : N) : bool := (48 <=? c) && (c <=? 57).

Lemma ascii_digit_48 d : d < 10 -> ascii_digit (48 + d) = true.
Proof. unfold ascii_digit. intro. apply andb_true_iff; split; apply N.leb_le; lia. Qed.

Lemma digit_val_ascii c : ascii_digit c = true -> digit_val c = Some (Z.of_N (c - 48)).
Proof.
  unfold ascii_digit, digit_val. intro H. cbn [digit_in nd_zeros].
  change (48 + 9) with 57. now rewrite H.
Qed.

Lemma digits_tail_app acc s c :
  forallb ascii_digit s = true -> ascii_digit c = true ->
  digits_tail acc (s ++ [c]) =
    option_map (fun z => 10 * z + Z.of_N (c - 48))%Z (digits_tail acc s).
Proof.
  revert acc. induction s as [|x s IH]; intros acc Hs Hc; cbn [digits_tail app].
  - rewrite digit_val_ascii; auto.
  - cbn [forallb] in Hs. apply andb_true_iff in Hs as [Hx Hs].
    rewrite (digit_val_ascii x Hx). auto.
Qed.

Lemma str_of_N_digits n : forallb ascii_digit (str_of_N n) = true.
Proof.
  induction n using N_ind10.
  - rewrite str_of_N_small by auto. cbn [forallb]. now rewrite ascii_digit_48.
  - rewrite str_of_N_big, forallb_app by auto. rewrite IHn. cbn [forallb andb].
    rewrite ascii_digit_48; auto. apply N.mod_lt; lia.
Qed.

Lemma str_of_N_nonempty n : exists c r, str_of_N n = c :: r /\ ascii_digit c = true.
Proof.
  pose proof (str_of_N_digits n) as H.
  assert (E : str_of_N n <> []).
  { destruct (N.lt_ge_cases n 10).
    - rewrite str_of_N_small; congruence.
    - rewrite str_of_N_big by auto. intro C. apply app_eq_nil in C as []. discriminate. }
  destruct (str_of_N n) as [|c r]; [congruence|]. simpl in H.
  apply andb_true_iff in H as []. eauto.
Qed.

Lemma digits_val_app s c :
  s <> [] -> forallb ascii_digit s = true -> ascii_digit c = true ->
  digits_val (s ++ [c]) = option_map (fun z => 10 * z + Z.of_N (c - 48))%Z (digits_val s).
Proof.
  destruct s as [|x s]; [congruence|]. intros _ Hs Hc. cbn [forallb] in Hs.
  apply andb_true_iff in Hs as [Hx Hs].
  cbn [digits_val app]. rewrite (digit_val_ascii x Hx). now apply digits_tail_app.
Qed.

Lemma digits_val_str_of_N n : digits_val (str_of_N n) = Some (Z.of_N n).
Proof.
  induction n using N_ind10.
  - rewrite str_of_N_small by auto. cbn [digits_val]. rewrite digit_val_ascii.
    + cbn [digits_tail]. f_equal. lia.
    + now apply ascii_digit_48.
  - assert (n mod 10 < 10) by (apply N.mod_lt; lia).
    rewrite str_of_N_big by auto. rewrite digits_val_app.
    + rewrite IHn. cbn [option_map]. apply f_equal.
      rewrite (N.add_comm 48), N.add_sub.
      pose proof (N.div_mod n 10 ltac:(discriminate)).
      set (q := n / 10) in *. set (r := n mod 10) in *. clearbody q r. lia.
    + destruct (str_of_N_nonempty (n / 10)) as (c & r & E & _). rewrite E. congruence.
    + apply str_of_N_digits.
    + now apply ascii_digit_48.
Qed.

Lemma int_space_digit c : ascii_digit c = true -> int_space c = false.
Proof.
  unfold ascii_digit, int_space. intro H. apply andb_true_iff in H as [H1 H2].
  apply N.leb_le in H1, H2.
  repeat match goal with
  | |- context [?a <=? ?b] => destruct (N.leb_spec a b); try lia
  | |- context [?a =? ?b] => destruct (N.eqb_spec a b); try lia
  end; auto.
Qed.

Lemma strip_space_id s :
  (forall c, In c s -> int_space c = false) -> strip_space s = s.
Proof.
  intro H. unfold strip_space.
  assert (D : forall t, (forall c, In c t -> int_space c = false) -> drop_space t = t).
  { intros [|c t] Ht; simpl; auto. rewrite Ht; [auto|now left]. }
  rewrite (D s H), D.
  - apply rev_involutive.
  - intros c Hc. apply H. now apply in_rev.
Qed.

Lemma digits_not_space s c : forallb ascii_digit s = true -> In c s -> int_space c = false.
Proof. intros H Hc. apply int_space_digit. rewrite forallb_forall in H. auto. Qed.

Lemma py_int_digits s : forallb ascii_digit s = true -> py_int s = digits_val s.
Proof.
  intro H. unfold py_int. rewrite strip_space_id by (intros; eapply digits_not_space; eauto).
  destruct s as [|c r]; auto. simpl in H. apply andb_true_iff in H as [H _].
  unfold ascii_digit in H. apply andb_true_iff in H as [H1 H2]. apply N.leb_le in H1, H2.
  destruct (N.eqb_spec c 43); [lia|]. destruct (N.eqb_spec c 45); [lia|]. reflexivity.
Qed.

Lemma py_int_str_of_N n : py_int (str_of_N n) = Some (Z.of_N n).
Proof. rewrite py_int_digits by apply str_of_N_digits. apply digits_val_str_of_N. Qed.

Lemma py_int_signed sign s : forallb ascii_digit s = true -> sign = 43 \/ sign = 45 ->
  py_int (sign :: s) = if sign =? 45 then option_map Z.opp (digits_val s) else digits_val s.
Proof.
  intros H S. unfold py_int. rewrite strip_space_id.
  - destruct S as [-> | ->]; reflexivity.
  - intros c [<-|Hc].
    + destruct S as [-> | ->]; reflexivity.
    + eapply digits_not_space; eauto.
Qed.

Lemma py_int_str_of_Z z : py_int (str_of_Z z) = Some z.
Proof.
  unfold str_of_Z. destruct (Z.ltb_spec z 0).
  - rewrite py_int_signed by (auto using str_of_N_digits). simpl.
    rewrite digits_val_str_of_N. simpl. f_equal. lia.
  - rewrite py_int_str_of_N. f_equal. lia.
Qed.

Lemma py_int_str_of_nat n : py_int (str_of_nat n) = Some (Z.of_nat n).
Proof. unfold str_of_nat. rewrite py_int_str_of_N. f_equal. lia. Qed.

Lemma str_of_N_inj a b : str_of_N a = str_of_N b -> a = b.
Proof.
  intro H. assert (E : py_int (str_of_N a) = py_int (str_of_N b)) by congruence.
  rewrite !py_int_str_of_N in E. injection E. lia.
Qed.
Lemma str_of_nat_inj a b : str_of_nat a = str_of_nat b -> a = b.
Proof. unfold str_of_nat. intro H. apply str_of_N_inj in H. lia. Qed.

(** Shape of printed numbers: "0", or no leading zero. *)
Lemma str_of_N_canonical n :
  str_of_N n = [48] \/
  exists c r, str_of_N n = c :: r /\ 49 <= c /\ c <= 57 /\ forallb ascii_digit r = true.
Proof.
  induction n using N_ind10.
  - rewrite str_of_N_small by auto. destruct (N.eq_dec n 0).
    + left. subst. reflexivity.
    + right. exists (48 + n), []. repeat split; auto; lia.
  - right. rewrite str_of_N_big by auto.
    assert (D : ascii_digit (48 + n mod 10) = true).
    { apply ascii_digit_48, N.mod_lt. lia. }
    destruct IHn as [E | (c & r & E & H1 & H2 & H3)].
    + exfalso. change [48] with (str_of_N 0) in E. apply str_of_N_inj in E.
      apply N.div_small_iff in E; lia.
    + exists c, (r ++ [48 + n mod 10]). rewrite E. repeat split; auto.
      rewrite forallb_app, H3. cbn [forallb andb]. now rewrite D.
Qed.

(** Printing back a canonical numeral. *)
Lemma str_of_N_snoc n d : 0 < n -> d < 10 -> str_of_N (10 * n + d) = str_of_N n ++ [48 + d].
Proof.
  intros Hn Hd. rewrite str_of_N_big by lia. 
  replace ((10 * n + d) / 10) with n. 2:{ apply N.div_unique with d; lia. }
  replace ((10 * n + d) mod 10) with d. 2:{ apply N.mod_unique with n; lia. }
  reflexivity.
Qed.

Lemma digits_tail_print acc r :
  0 < acc -> forallb ascii_digit r = true ->
  exists n, digits_tail (Z.of_N acc) r = Some (Z.of_N n) /\ str_of_N n = str_of_N acc ++ r /\ 0 < n.
Proof.
  revert acc. induction r as [|c r IH]; intros acc Ha Hr; cbn [digits_tail].
  - exists acc. rewrite app_nil_r. auto.
  - cbn [forallb] in Hr. apply andb_true_iff in Hr as [Hc Hr].
    rewrite digit_val_ascii by auto.
    unfold ascii_digit in Hc. apply andb_true_iff in Hc as [H1 H2]. apply N.leb_le in H1, H2.
    destruct (IH (10 * acc + (c - 48))) as (n & E1 & E2 & E3); auto; [lia|].
    exists n. split; [|split]; auto.
    + rewrite <- E1. f_equal. lia.
    + rewrite E2, str_of_N_snoc by lia. rewrite <- app_assoc. cbn [app].
      do 2 f_equal. lia.
Qed.

Lemma canonical_print s :
  (s = [48] \/ exists c r, s = c :: r /\ 49 <= c /\ c <= 57 /\ forallb ascii_digit r = true) ->
  exists n, digits_val s = Some (Z.of_N n) /\ str_of_N n = s.
Proof.
  intros [-> | (c & r & -> & H1 & H2 & H3)].
  - exists 0. split; reflexivity.
  - cbn [digits_val]. rewrite digit_val_ascii by (unfold ascii_digit; apply andb_true_iff; split; apply N.leb_le; lia).
    destruct (digits_tail_print (c - 48) r) as (n & E1 & E2 & _); auto; [lia|].
    exists n. split; auto. rewrite E2, str_of_N_small by lia. cbn [app]. f_equal. lia.
Qed.
