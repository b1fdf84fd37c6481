(** Proofs about JSONPatch as a sequence. *)
From Verif Require Export PatchSeq SpecSeq.
From Verif Require Import BaseFacts PatchFacts.
Open Scope Z_scope.

Lemma norm_means len i : match norm_index len i with Some k => means len i k | None => forall k, ~ means len i k end.
Proof.
  unfold norm_index, means. destruct (Z.ltb_spec i 0) as [L|L];
  match goal with |- context [if ?c then _ else _] => destruct c eqn:E end.
  - apply andb_prop in E. destruct E as [A B]. apply Z.leb_le in A. apply Z.ltb_lt in B. lia.
  - intros k [H1 [H2|[H2 H3]]]; apply andb_false_iff in E; destruct E as [A|B]; rewrite ?Z.leb_gt, ?Z.ltb_ge in *; lia.
  - apply andb_prop in E. destruct E as [A B]. apply Z.leb_le in A. apply Z.ltb_lt in B. lia.
  - intros k [H1 [H2|[H2 H3]]]; apply andb_false_iff in E; destruct E as [A|B]; rewrite ?Z.leb_gt, ?Z.ltb_ge in *; lia.
Qed.

Lemma means_norm len i k : means len i k -> norm_index len i = Some k.
Proof.
  intros M. pose proof (norm_means len i) as H. destruct (norm_index len i) as [k'|].
  - f_equal. unfold means in *. lia.
  - now elim (H k).
Qed.

Lemma clamp_place len i : place len i (clamp_index len i).
Proof. unfold place, clamp_index. destruct (Z.ltb_spec i 0); lia. Qed.

Lemma place_clamp len i k : place len i k -> clamp_index len i = k.
Proof. unfold place, clamp_index. destruct (Z.ltb_spec i 0); lia. Qed.

(** ** Positions of a slice. *)
Lemma range_up a b s (m : nat) : 0 < s -> (m < Z.to_nat (range_len a b s))%nat <-> a + Z.of_nat m * s < b.
Proof.
  intros S. unfold range_len. destruct (Z.ltb_spec s 0); [lia|]. destruct (Z.ltb_spec a b) as [L|L]; [|nia].
  pose proof (Z.div_mod (b - a - 1) s ltac:(lia)) as D. pose proof (Z.mod_pos_bound (b - a - 1) s S) as M.
  pose proof (Z.div_pos (b - a - 1) s ltac:(lia) S) as P. split; intros H'.
  - assert (Z.of_nat m <= (b - a - 1) / s) by lia. nia.
  - assert (Z.of_nat m <= (b - a - 1) / s); [|lia]. apply Z.div_le_lower_bound; nia.
Qed.
Lemma range_down a b s (m : nat) : s < 0 -> (m < Z.to_nat (range_len a b s))%nat <-> b < a + Z.of_nat m * s.
Proof.
  intros S. unfold range_len. destruct (Z.ltb_spec s 0); [|lia]. destruct (Z.ltb_spec b a) as [L|L]; [|nia].
  pose proof (Z.div_mod (a - b - 1) (- s) ltac:(lia)) as D. pose proof (Z.mod_pos_bound (a - b - 1) (- s) ltac:(lia)) as M.
  pose proof (Z.div_pos (a - b - 1) (- s) ltac:(lia) ltac:(lia)) as P. split; intros H'.
  - assert (Z.of_nat m <= (a - b - 1) / (- s)) by lia. nia.
  - assert (Z.of_nat m <= (a - b - 1) / (- s)); [|lia]. apply Z.div_le_lower_bound; nia.
Qed.

Lemma positions_up len start stop step : 0 < step ->
  exists a b, from_place len start a /\ to_place len stop b /\ (b <= len)%nat /\
    slice_positions len start stop step = map (fun k => Z.to_nat (Z.of_nat a + Z.of_nat k * step)) (seq 0 (Z.to_nat (range_len (Z.of_nat a) (Z.of_nat b) step))).
Proof.
  intros S. unfold slice_positions, slice_indices. destruct (Z.ltb_spec step 0); [lia|].
  exists (match start with None => 0 | Some i => clamp_index len i end)%nat, (match stop with None => len | Some i => clamp_index len i end)%nat.
  split; [destruct start; [apply clamp_place|reflexivity]|]. split; [destruct stop; [apply clamp_place|reflexivity]|].
  split; [destruct stop as [i|]; [unfold clamp_index; lia|lia]|].
  assert (A : forall i, bound (Z.of_nat len) 0 (Z.of_nat len) 0 (Some i) = Z.of_nat (clamp_index len i)).
  { intros i. unfold bound, clamp_index. destruct (Z.ltb_spec i 0); lia. }
  assert (B : forall i, bound (Z.of_nat len) 0 (Z.of_nat len) (Z.of_nat len) (Some i) = Z.of_nat (clamp_index len i)) by exact A.
  destruct start, stop; rewrite ?A, ?B; reflexivity.
Qed.

Lemma positions_down len start stop step : step < 0 ->
  exists a b, last_first len start a /\ last_stop len stop b /\ a < Z.of_nat len /\ -1 <= b /\
    slice_positions len start stop step = map (fun k => Z.to_nat (a + Z.of_nat k * step)) (seq 0 (Z.to_nat (range_len a b step))).
Proof.
  intros S. unfold slice_positions, slice_indices. destruct (Z.ltb_spec step 0); [|lia].
  exists (bound (Z.of_nat len) (-1) (Z.of_nat len - 1) (Z.of_nat len - 1) start), (bound (Z.of_nat len) (-1) (Z.of_nat len - 1) (-1) stop).
  unfold bound, last_first, last_stop. repeat apply conj.
  - destruct start as [i|]; [|reflexivity]. destruct (Z.ltb_spec i 0); lia.
  - destruct stop as [i|]; [|reflexivity]. destruct (Z.ltb_spec i 0); lia.
  - destruct start as [i|]; [destruct (Z.ltb_spec i 0)|]; lia.
  - destruct stop as [i|]; [destruct (Z.ltb_spec i 0)|]; lia.
  - reflexivity.
Qed.

Lemma from_place_fun len start a a' : from_place len start a -> from_place len start a' -> a = a'.
Proof. destruct start; cbn; unfold place; lia. Qed.
Lemma to_place_fun len start a a' : to_place len start a -> to_place len start a' -> a = a'.
Proof. destruct start; cbn; unfold place; lia. Qed.
Lemma last_first_fun len start a a' : last_first len start a -> last_first len start a' -> a = a'.
Proof. destruct start; cbn; lia. Qed.
Lemma last_stop_fun len start a a' : last_stop len start a -> last_stop len start a' -> a = a'.
Proof. destruct start; cbn; lia. Qed.

Lemma positions_selected len start stop step k : step <> 0 ->
  In k (slice_positions len start stop step) <-> selected len start stop step k.
Proof.
  intros S. destruct (Z.lt_trichotomy step 0) as [N|[Z|P]]; [|lia|].
  - destruct (positions_down len start stop step N) as (a & b & A & B & La & Lb & ->). rewrite in_map_iff. split.
    + intros (m & E & I). apply in_seq in I. destruct I as [_ I]. apply (range_down a b step m N) in I. unfold selected. split; [nia|].
      right. split; [exact N|]. exists a, b, m. repeat apply conj; auto; lia.
    + intros (Lk & [[X _]|(_ & a' & b' & m & A' & B' & E & I)]); [lia|].
      assert (a' = a) by (eapply last_first_fun; eassumption). assert (b' = b) by (eapply last_stop_fun; eassumption). subst a' b'.
      exists m. split; [lia|]. apply in_seq. split; [lia|]. apply (range_down a b step m N). lia.
  - destruct (positions_up len start stop step P) as (a & b & A & B & Lb & ->). rewrite in_map_iff. split.
    + intros (m & E & I). apply in_seq in I. destruct I as [_ I]. apply (range_up _ _ step m P) in I. unfold selected. split; [nia|].
      left. split; [exact P|]. exists a, b, m. repeat apply conj; auto; lia.
    + intros (Lk & [(_ & a' & b' & m & A' & B' & E & I)|[X _]]); [|lia].
      assert (a' = a) by (eapply from_place_fun; eassumption). assert (b' = b) by (eapply to_place_fun; eassumption). subst a' b'.
      exists m. split; [lia|]. apply in_seq. split; [lia|]. apply (range_up _ _ step m P). lia.
Qed.

Lemma sorted_map_seq (R : nat -> nat -> Prop) (f : nat -> nat) n : forall i, (forall x y, (i <= x)%nat -> (x < y)%nat -> (y < i + n)%nat -> R (f x) (f y)) ->
  StronglySorted R (map f (seq i n)).
Proof.
  induction n as [|n IH]; intros i H; [constructor|]. cbn. constructor.
  - apply IH. intros x y ? ? ?. apply H; lia.
  - apply Forall_forall. intros y I. apply in_map_iff in I. destruct I as (z & <- & I). apply in_seq in I. apply H; lia.
Qed.

Lemma positions_sorted_up len start stop step : 0 < step -> StronglySorted lt (slice_positions len start stop step).
Proof.
  intros P. destruct (positions_up len start stop step P) as (a & b & A & B & Lb & ->). apply sorted_map_seq. intros x y X Y Z. nia.
Qed.
Lemma positions_sorted_down len start stop step : step < 0 -> StronglySorted gt (slice_positions len start stop step).
Proof.
  intros P. destruct (positions_down len start stop step P) as (a & b & A & B & La & Lb & ->). apply sorted_map_seq. intros x y X Y Z.
  cbn in Z. apply (range_down a b step y P) in Z. nia.
Qed.

Lemma Forall2_len {A B} (R : A -> B -> Prop) a b : Forall2 R a b -> length a = length b.
Proof. induction 1; cbn; congruence. Qed.

Lemma picked_nth {A} (l : list A) ks : (forall k, In k ks -> (k < length l)%nat) -> Forall2 (fun k x => nth_error l k = Some x) ks (picked l ks).
Proof.
  induction ks as [|k ks IH]; intros H; [constructor|]. cbn. destruct (nth_error l k) as [x|] eqn:E.
  - cbn. constructor; [exact E|]. apply IH. intros; apply H; now right.
  - apply nth_error_None in E. specialize (H k (or_introl eq_refl)). lia.
Qed.

Lemma picked_app {A} (l : list A) a b : picked l (a ++ b) = picked l a ++ picked l b.
Proof. apply flat_map_app. Qed.
Lemma picked_shift {A} (l1 l2 : list A) ks : picked (l1 ++ l2) (map (fun k => (length l1 + k)%nat) ks) = picked l2 ks.
Proof.
  induction ks as [|k ks IH]; [reflexivity|]. unfold picked in *. cbn [map flat_map]. rewrite IH. f_equal.
  rewrite nth_error_app2 by lia. now replace (length l1 + k - length l1)%nat with k by lia.
Qed.
Lemma picked_all {A} (l : list A) : picked l (seq 0 (length l)) = l.
Proof.
  induction l as [|x l IH]; [reflexivity|]. cbn [length]. rewrite <- cons_seq, <- seq_shift. change (x :: l) with ([x] ++ l) at 1.
  unfold picked. cbn [flat_map]. cbn [nth_error app]. f_equal. exact (eq_trans (picked_shift [x] l (seq 0 (length l))) IH).
Qed.
Lemma picked_left {A} (l1 l2 : list A) ks : (forall k, In k ks -> (k < length l1)%nat) -> picked (l1 ++ l2) ks = picked l1 ks.
Proof.
  induction ks as [|k ks IH]; intros H; [reflexivity|]. unfold picked in *. cbn [flat_map]. rewrite IH by (intros; apply H; now right).
  now rewrite nth_error_app1 by (apply H; now left).
Qed.

Lemma map_seq_step1 a n : map (fun k => Z.to_nat (Z.of_nat a + Z.of_nat k * 1)) (seq 0 n) = seq a n.
Proof.
  revert a. induction n as [|n IH]; intros a; [reflexivity|]. cbn [seq map]. f_equal; [lia|]. rewrite <- (IH (S a)), <- seq_shift, map_map.
  apply map_ext. intros k. lia.
Qed.

Lemma seq_from a n : seq a n = map (fun k => (a + k)%nat) (seq 0 n).
Proof. rewrite <- map_seq_step1. apply map_ext. intros k. lia. Qed.

(** Slices with step 1. *)
Lemma seq_slice_plain p start stop a b : from_place (length p) start a -> to_place (length p) stop b ->
  seq_slice p start stop None = Ok (firstn (b - a) (skipn a p)).
Proof.
  intros A B. unfold seq_slice. cbn [Z.eqb]. f_equal. destruct (positions_up (length p) start stop 1 ltac:(lia)) as (a' & b' & A' & B' & Lb & ->).
  assert (a' = a) by (eapply from_place_fun; eassumption). assert (b' = b) by (eapply to_place_fun; eassumption). subst a' b'.
  rewrite map_seq_step1. assert (E : Z.to_nat (range_len (Z.of_nat a) (Z.of_nat b) 1) = (b - a)%nat).
  { unfold range_len. cbn [Z.ltb Z.compare]. destruct (Z.ltb_spec (Z.of_nat a) (Z.of_nat b)); rewrite ?Z.div_1_r; lia. }
  rewrite E. clear E. destruct (Nat.le_gt_cases b a) as [L|L].
  - now replace (b - a)%nat with 0%nat by lia.
  - assert (Hb : (b <= length p)%nat) by exact Lb. rewrite <- (firstn_skipn a p) at 1.
    assert (La : length (firstn a p) = a) by (rewrite firstn_length; lia).
    transitivity (picked (firstn a p ++ skipn a p) (map (fun k => (length (firstn a p) + k)%nat) (seq 0 (b - a)))).
    + rewrite La. f_equal. apply seq_from.
    + rewrite picked_shift. rewrite <- (firstn_skipn (b - a) (skipn a p)) at 1. rewrite picked_left.
      * assert (Lc : length (firstn (b - a) (skipn a p)) = (b - a)%nat) by (rewrite firstn_length, skipn_length; lia).
        rewrite <- Lc at 2. apply picked_all.
      * intros k I. apply in_seq in I. rewrite firstn_length, skipn_length. lia.
Qed.

(** ** Reversal by swapping. *)
Lemma nth_error_swap {A} (l : list A) i j x y : (i < length l)%nat -> (j < length l)%nat ->
  nth_error l i = Some x -> nth_error l j = Some y ->
  forall k, nth_error (update_nth j x (update_nth i y l)) k = if (k =? j)%nat then Some x else if (k =? i)%nat then Some y else nth_error l k.
Proof.
  intros Li Lj Hi Hj k. destruct (Nat.eqb_spec k j) as [->|Nj].
  - apply nth_error_update_same. now rewrite length_update_nth.
  - rewrite nth_error_update_other by auto. destruct (Nat.eqb_spec k i) as [->|Ni].
    + now apply nth_error_update_same.
    + now apply nth_error_update_other; auto.
Qed.

Lemma seq_get_nat p k : seq_get p (Z.of_nat k) = match nth_error p k with Some o => Ok o | None => Exn EIndex end.
Proof.
  unfold seq_get. destruct (Nat.lt_ge_cases k (length p)) as [L|L].
  - now rewrite norm_index_nat by exact L.
  - rewrite norm_index_out by lia. now rewrite (proj2 (nth_error_None p k) L).
Qed.
Lemma seq_set_nat p k o : (k < length p)%nat -> seq_set p (Z.of_nat k) (Given o) = (update_nth k o p, Ok tt).
Proof. intros L. unfold seq_set. cbn [made]. now rewrite norm_index_nat by exact L. Qed.

(** After the swaps of the first [i] positions. *)
Definition half (p q : list patchop) (i : nat) : Prop :=
  length q = length p /\
  forall k, (k < length p)%nat -> nth_error q k = if ((k <? i) || (length p - i <=? k))%nat then nth_error p (length p - 1 - k) else nth_error p k.

Lemma swaps_half p n : forall i q, (i + n <= length p / 2)%nat -> half p q i ->
  exists q', seq_swaps q (Z.of_nat (length p)) (seq i n) = (q', Ok tt) /\ half p q' (i + n).
Proof.
  induction n as [|n IH]; intros i q L H.
  - exists q. rewrite Nat.add_0_r. split; [reflexivity|exact H].
  - assert (D : (2 * (length p / 2) <= length p)%nat) by (apply Nat.mul_div_le; lia). destruct H as [Hl H].
    assert (Li : (i < length q)%nat) by lia. assert (Lj : (length p - 1 - i < length q)%nat) by lia.
    cbn [seq seq_swaps]. replace (Z.of_nat (length p) - Z.of_nat i - 1)%Z with (Z.of_nat (length p - 1 - i)) by lia. rewrite !seq_get_nat.
    destruct (nth_error q (length p - 1 - i)) as [x|] eqn:Ex; [|apply nth_error_None in Ex; lia].
    destruct (nth_error q i) as [y|] eqn:Ey; [|apply nth_error_None in Ey; lia].
    rewrite seq_set_nat by exact Li. rewrite seq_set_nat by (rewrite length_update_nth; exact Lj).
    destruct (IH (S i) (update_nth (length p - 1 - i) y (update_nth i x q))) as (q' & E & H').
    + lia.
    + split; [now rewrite !length_update_nth|]. intros k Lk.
      rewrite (nth_error_swap q i (length p - 1 - i) y x Li Lj Ey Ex k).
      destruct (Nat.eqb_spec k (length p - 1 - i)) as [->|Nj].
      * rewrite <- Ey. rewrite (H i) by lia. destruct (Nat.ltb_spec i i); [lia|]. destruct (Nat.leb_spec (length p - i) i); [lia|]. cbn [orb].
        replace (length p - 1 - (length p - 1 - i))%nat with i by lia.
        destruct (Nat.leb_spec (length p - S i) (length p - 1 - i)); [now rewrite orb_true_r|lia].
      * destruct (Nat.eqb_spec k i) as [->|Ni].
        -- rewrite <- Ex. rewrite (H (length p - 1 - i)%nat) by lia.
           destruct (Nat.ltb_spec (length p - 1 - i) i); [lia|]. destruct (Nat.leb_spec (length p - i) (length p - 1 - i)); [lia|]. cbn [orb].
           destruct (Nat.ltb_spec i (S i)); [reflexivity|lia].
        -- rewrite H by exact Lk. destruct (Nat.ltb_spec k i), (Nat.ltb_spec k (S i)), (Nat.leb_spec (length p - i) k), (Nat.leb_spec (length p - S i) k); cbn [orb]; try reflexivity; lia.
    + exists q'. split; [exact E|]. replace (i + S n)%nat with (S i + n)%nat by lia. exact H'.
Qed.

Lemma nth_error_rev {A} (l : list A) k : (k < length l)%nat -> nth_error (rev l) k = nth_error l (length l - 1 - k).
Proof.
  intros L. destruct l as [|d l']; [cbn in L; lia|]. set (l := d :: l') in *.
  rewrite (nth_error_nth' (rev l) d) by (rewrite rev_length; exact L). rewrite rev_nth by exact L.
  rewrite (nth_error_nth' l d) by lia. do 2 f_equal. lia.
Qed.

Lemma nth_error_same {A} (a b : list A) : length a = length b -> (forall k, (k < length a)%nat -> nth_error a k = nth_error b k) -> a = b.
Proof.
  revert b. induction a as [|x a IH]; intros [|y b] L H; try discriminate L; [reflexivity|]. f_equal.
  - specialize (H 0%nat ltac:(cbn; lia)). now injection H.
  - apply IH; [now injection L|]. intros k Lk. exact (H (S k) ltac:(cbn; lia)).
Qed.

Lemma seq_reverse_rev p : seq_reverse p = (rev p, Ok tt).
Proof.
  unfold seq_reverse. destruct (swaps_half p (length p / 2) 0 p) as (q & E & Hl & H).
  - lia.
  - split; [reflexivity|]. intros k Lk. destruct (Nat.ltb_spec k 0); [lia|]. destruct (Nat.leb_spec (length p - 0) k); [lia|]. reflexivity.
  - rewrite E. f_equal. apply nth_error_same; [now rewrite rev_length|]. rewrite Hl. intros k Lk. rewrite H, nth_error_rev by exact Lk.
    rewrite Nat.add_0_l. destruct (Nat.ltb_spec k (length p / 2)); [reflexivity|]. destruct (Nat.leb_spec (length p - length p / 2) k); [reflexivity|].
    cbn [orb]. f_equal. pose proof (Nat.div_mod (length p) 2 ltac:(lia)). pose proof (Nat.mod_upper_bound (length p) 2 ltac:(lia)). lia.
Qed.

Lemma seq_slice_rev p : seq_slice p None None (Some (-1)) = Ok (rev p).
Proof.
  unfold seq_slice. cbn [Z.eqb]. f_equal. destruct (positions_down (length p) None None (-1) ltac:(lia)) as (a & b & A & B & _ & _ & ->).
  cbn in A, B. subst a b.
  assert (E : Z.to_nat (range_len (Z.of_nat (length p) - 1) (-1) (-1)) = length p).
  { unfold range_len. cbn [Z.ltb Z.compare Z.opp]. destruct (Z.ltb_spec (-1) (Z.of_nat (length p) - 1)); rewrite ?Z.div_1_r; lia. }
  rewrite E. clear E.
  assert (F : Forall2 (fun k x => nth_error p k = Some x) (map (fun k => Z.to_nat (Z.of_nat (length p) - 1 + Z.of_nat k * -1)) (seq 0 (length p)))
    (picked p (map (fun k => Z.to_nat (Z.of_nat (length p) - 1 + Z.of_nat k * -1)) (seq 0 (length p))))).
  { apply picked_nth. intros j I. apply in_map_iff in I. destruct I as (m & <- & I). apply in_seq in I. lia. }
  pose proof (Forall2_len _ _ _ F) as Len. rewrite map_length, seq_length in Len.
  set (r := picked p _) in *. clearbody r. apply nth_error_same; [now rewrite rev_length|].
  - intros k Lk. destruct (nth_error r k) as [x|] eqn:Ex; [|apply nth_error_None in Ex; lia].
    assert (G : nth_error p (length p - 1 - k) = Some x).
    { assert (H : forall l1 l2, Forall2 (fun k x => nth_error p k = Some x) l1 l2 -> forall i j y, nth_error l1 i = Some j -> nth_error l2 i = Some y -> nth_error p j = Some y).
      { induction 1 as [|u v l1 l2 Q F' IH]; intros [|i] j y Hj Hy; try discriminate; cbn in *; [congruence|]. now apply (IH i). }
      apply (H _ _ F k); [|exact Ex]. rewrite nth_error_map. assert (Hs : nth_error (seq 0 (length p)) k = Some k).
      { rewrite (nth_error_nth' _ 0%nat) by (rewrite seq_length; lia). f_equal. rewrite seq_nth by lia. reflexivity. }
      rewrite Hs. cbn. f_equal. lia. }
    symmetry. rewrite nth_error_rev by lia. exact G.
Qed.

(** What is left after deleting positions. *)
Lemma without_kept {A} ks (l : list A) k : exists js,
  Forall2 (fun j x => nth_error l (j - k)%nat = Some x /\ (k <= j)%nat) js (without ks k l) /\ StronglySorted lt js /\
  forall j, In j js <-> (k <= j < k + length l)%nat /\ ~ In j ks.
Proof.
  revert k. induction l as [|x l IH]; intros k; cbn [without].
  - exists []. split; [constructor|]. split; [constructor|]. intro j. simpl. split; [intros []|lia].
  - destruct (IH (S k)) as (js & F & So & I).
    assert (F' : Forall2 (fun j y => nth_error (x :: l) (j - k)%nat = Some y /\ (k <= j)%nat) js (without ks (S k) l)).
    { clear - F. induction F as [|j y js r [E L] F IHF]; constructor; auto. split; [|lia].
      replace (j - k)%nat with (S (j - S k))%nat by lia. exact E. }
    assert (D : In k ks \/ ~ In k ks) by (destruct (in_dec Nat.eq_dec k ks); auto).
    destruct (existsb (Nat.eqb k) ks) eqn:X.
    + apply existsb_exists in X as (k' & X & Q). apply Nat.eqb_eq in Q as <-.
      exists js. split; [exact F'|]. split; [exact So|]. intro j. rewrite I. cbn [length]. split.
      * intros [B N]. split; [lia|exact N].
      * intros [B N]. split; [|exact N]. destruct (Nat.eq_dec j k) as [->|]; [contradiction|lia].
    + assert (N : ~ In k ks).
      { intro N. assert (existsb (Nat.eqb k) ks = true) by (apply existsb_exists; exists k; split; [exact N|apply Nat.eqb_refl]). congruence. }
      exists (k :: js). split; [|split].
      * constructor; [|exact F']. split; [now rewrite Nat.sub_diag|lia].
      * constructor; [exact So|]. apply Forall_forall. intros j Hj. apply I in Hj. lia.
      * intro j. cbn [length In]. rewrite I. split.
        -- intros [<-|[B M]]; [split; [lia|exact N]|split; [lia|exact M]].
        -- intros [B M]. destruct (Nat.eq_dec k j) as [->|]; [now left|right; split; [lia|exact M]].
Qed.
