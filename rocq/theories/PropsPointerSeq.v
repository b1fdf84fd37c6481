(** C94: a JSON pointer is a sequence of its keys. *)
From Coq Require Import String List Bool Lia ZArith Sorted.
From Verif Require Import BaseFacts PointerFacts PointerSeq SpecSeq PatchSeqFacts.
Import ListNotations.
Open Scope string_scope.
Open Scope list_scope.
Open Scope Z_scope.

Lemma item_at p i : pointer_item p (Z.of_nat i) = match nth_error p i with Some k => Ok k | None => Exn EIndex end.
Proof.
  unfold pointer_item, norm_index. destruct (Z.ltb_spec (Z.of_nat i) 0); [lia|]. destruct (Nat.lt_ge_cases i (length p)) as [L|L].
  - assert (A : (0 <=? Z.of_nat i) && (Z.of_nat i <? Z.of_nat (length p)) = true) by (apply andb_true_iff; split; [apply Z.leb_le|apply Z.ltb_lt]; lia). rewrite A, Nat2Z.id. reflexivity.
  - assert (A : (0 <=? Z.of_nat i) && (Z.of_nat i <? Z.of_nat (length p)) = false) by (apply andb_false_iff; right; apply Z.ltb_ge; lia). rewrite A.
    apply nth_error_None in L. now rewrite L.
Qed.

(** Indices: as [means] says; IndexError otherwise. *)
Theorem C94_item : forall p i,
  (forall k, means (length p) i k -> exists key, nth_error p k = Some key /\ pointer_item p i = Ok key) /\
  ((forall k, ~ means (length p) i k) -> pointer_item p i = Exn EIndex).
Proof.
  intros p i. split.
  - intros k (L & E). destruct (nth_error p k) as [key|] eqn:N; [|apply nth_error_None in N; lia]. exists key. split; [reflexivity|].
    unfold pointer_item, norm_index. destruct E as [<-|[Ni E]].
    + pose proof (item_at p k) as A. rewrite N in A. exact A.
    + destruct (Z.ltb_spec i 0); [|lia]. assert (A : (0 <=? i + Z.of_nat (length p)) && (i + Z.of_nat (length p) <? Z.of_nat (length p)) = true) by (apply andb_true_iff; split; [apply Z.leb_le|apply Z.ltb_lt]; lia).
      rewrite A. replace (Z.to_nat (i + Z.of_nat (length p))) with k by lia. now rewrite N.
  - intro H. unfold pointer_item, norm_index. set (j := if i <? 0 then i + Z.of_nat (length p) else i).
    destruct ((0 <=? j) && (j <? Z.of_nat (length p))) eqn:E; [|reflexivity]. exfalso. apply andb_true_iff in E. destruct E as [E1 E2]. apply Z.leb_le in E1. apply Z.ltb_lt in E2.
    apply (H (Z.to_nat j)). unfold means. subst j. destruct (Z.ltb_spec i 0); lia.
Qed.
Print Assumptions C94_item.

(** A slice with any bounds and step is the pointer of the keys at the
    positions that belong to it, in its direction; step 0 is a ValueError. *)
Theorem C94_slice : forall p start stop step, step <> 0 ->
  exists ks q, pointer_slices p start stop (Some step) = Ok q /\
    (forall k, In k ks <-> selected (length p) start stop step k) /\
    (0 < step -> StronglySorted lt ks) /\ (step < 0 -> StronglySorted gt ks) /\
    Forall2 (fun k key => nth_error p k = Some key) ks q.
Proof.
  intros p start stop step S. exists (slice_positions (length p) start stop step), (picked p (slice_positions (length p) start stop step)).
  unfold pointer_slices. destruct (Z.eqb_spec step 0) as [->|_]; [now destruct S|]. split; [reflexivity|]. split; [intro k; now apply positions_selected|].
  split; [apply positions_sorted_up|]. split; [apply positions_sorted_down|]. apply picked_nth. intros k I. now apply (positions_selected _ _ _ _ _ S) in I as [L _].
Qed.
Print Assumptions C94_slice.
Theorem C94_slice_zero : forall p start stop, pointer_slices p start stop (Some 0) = Exn EValue.
Proof. reflexivity. Qed.
Print Assumptions C94_slice_zero.

(** Iteration gives the keys. *)
Lemma iter_skip p : forall n i, (length p - i < n)%nat -> iter_from n p (Z.of_nat i) = Ok (skipn i p).
Proof.
  induction n as [|n IH]; intros i L; [lia|]. cbn [iter_from]. rewrite item_at. destruct (nth_error p i) as [k|] eqn:E.
  - replace (Z.of_nat i + 1) with (Z.of_nat (S i)) by lia. assert (Li : (i < length p)%nat) by (apply nth_error_Some; congruence). rewrite IH by lia. cbn [bind]. f_equal.
    clear -E. revert i E. induction p as [|a p IHp]; intros [|i] E; try discriminate E; [now injection E as ->|]. cbn [skipn] in *. now apply IHp.
  - apply nth_error_None in E. now rewrite skipn_all2.
Qed.
Theorem C94_iter : forall p n, (length p < n)%nat -> pointer_iter n p = Ok p.
Proof. intros p n L. exact (iter_skip p n 0 ltac:(lia)). Qed.
Print Assumptions C94_iter.
Theorem C94_contains : forall p k n, (length p < n)%nat -> exists b, pointer_contains n p k = Ok b /\ (b = true <-> In k p).
Proof.
  intros p k n L. unfold pointer_contains. rewrite C94_iter by exact L. cbn [bind]. eexists. split; [reflexivity|]. rewrite existsb_exists. split.
  - intros (v & I & E). apply str_eqb_eq in E. now subst v.
  - intro I. exists k. split; [exact I|apply str_eqb_refl].
Qed.
Print Assumptions C94_contains.
Theorem C94_count : forall p k n, (length p < n)%nat -> pointer_count n p k = Ok (count_occ (list_eq_dec N.eq_dec) p k).
Proof.
  intros p k n L. unfold pointer_count. rewrite C94_iter by exact L. cbn [bind]. f_equal. clear. induction p as [|v p IH]; [reflexivity|]. cbn [filter count_occ].
  destruct (list_eq_dec N.eq_dec v k) as [->|N]; [rewrite str_eqb_refl; cbn; now rewrite IH|]. destruct (str_eqb v k) eqn:E; [apply str_eqb_eq in E; contradiction|exact IH].
Qed.
Print Assumptions C94_count.
Theorem C94_reversed : forall p, pointer_reversed p = Ok (rev p).
Proof.
  intro p. unfold pointer_reversed. assert (G : forall is, Forall (fun i => (i < length p)%nat) is -> items_at p is = Ok (picked p is)).
  { induction 1 as [|i is H F IH]; [reflexivity|]. cbn [items_at]. rewrite item_at. unfold picked. cbn [flat_map]. destruct (nth_error p i) as [k|] eqn:E; [|apply nth_error_None in E; lia].
    cbn [bind]. rewrite IH. reflexivity. }
  rewrite G by (apply Forall_forall; intros i I; apply in_rev, in_seq in I; lia). f_equal.
  assert (R : forall is, picked p (rev is) = rev (picked p is)).
  { induction is as [|i is IH]; [reflexivity|]. cbn [rev]. rewrite picked_app, IH. unfold picked at 2 3. cbn [flat_map]. rewrite app_nil_r, rev_app_distr. f_equal. destruct (nth_error p i); reflexivity. }
  now rewrite R, picked_all.
Qed.
Print Assumptions C94_reversed.

(** index(key, start, stop) gives the first position of the key between the
    bounds, which are taken as those of slices; ValueError if there is none. *)
Lemma index_loop_spec p k stop b : match stop with None => b = length p | Some j => Z.of_nat b = Z.min (Z.max j 0) (Z.of_nat (length p)) end ->
  forall n i, (length p - i < n)%nat ->
  (forall m, (i <= m < b)%nat -> nth_error p m = Some k -> (forall l, (i <= l < m)%nat -> nth_error p l <> Some k) -> index_loop n p k stop (Z.of_nat i) = Ok (Z.of_nat m)) /\
  ((forall m, (i <= m < b)%nat -> nth_error p m <> Some k) -> index_loop n p k stop (Z.of_nat i) = Exn EValue).
Proof.
  intros B. induction n as [|n IH]; intros i L; [lia|]. cbn [index_loop].
  assert (Bl : (b <= length p)%nat) by (destruct stop; lia).
  assert (St : forall m, (i <= m < b)%nat -> match stop with Some j => j <=? Z.of_nat i | None => false end = false) by (intros m Hm; destruct stop as [j|]; [apply Z.leb_gt; lia|reflexivity]).
  replace (Z.of_nat i + 1) with (Z.of_nat (S i)) by lia. rewrite item_at. split.
  - intros m Hm Hk First. rewrite (St m Hm). assert (Lm : (m < length p)%nat) by (apply nth_error_Some; congruence). destruct (nth_error p i) as [v|] eqn:E; [|apply nth_error_None in E; lia].
    destruct (str_eqb v k) eqn:Q.
    + apply str_eqb_eq in Q. subst v. destruct (Nat.eq_dec i m) as [->|Ne]; [reflexivity|]. destruct (First i ltac:(lia) E).
    + assert (Ne : i <> m) by (intros ->; rewrite E in Hk; injection Hk as ->; rewrite str_eqb_refl in Q; discriminate Q).
      destruct (IH (S i) ltac:(lia)) as [A _]. apply A; [lia|exact Hk|]. intros l Hl. apply First. lia.
  - intros No. destruct (match stop with Some j => j <=? Z.of_nat i | None => false end) eqn:Sp; [reflexivity|]. destruct (nth_error p i) as [v|] eqn:E; [|reflexivity].
    assert (Li : (i < length p)%nat) by (apply nth_error_Some; congruence).
    assert (Lb : (i < b)%nat) by (destruct stop as [j|]; [apply Z.leb_gt in Sp; lia|lia]).
    destruct (str_eqb v k) eqn:Q; [apply str_eqb_eq in Q; subst v; destruct (No i ltac:(lia) E)|]. destruct (IH (S i) ltac:(lia)) as [_ A]. apply A. intros m Hm. apply No. lia.
Qed.
Theorem C94_index : forall p k start stop a b n, from_place (length p) (Some start) a -> to_place (length p) stop b -> (length p < n)%nat ->
  (forall m, (a <= m < b)%nat -> nth_error p m = Some k -> (forall l, (a <= l < m)%nat -> nth_error p l <> Some k) -> pointer_index n p k start stop = Ok (Z.of_nat m)) /\
  ((forall m, (a <= m < b)%nat -> nth_error p m <> Some k) -> pointer_index n p k start stop = Exn EValue).
Proof.
  intros p k start stop a b n A B L. cbn [from_place] in A. unfold place in A. unfold pointer_index. cbv zeta.
  set (stop' := match stop with Some j => Some (if j <? 0 then j + Z.of_nat (length p) else j) | None => None end).
  assert (B' : match stop' with None => b = length p | Some j => Z.of_nat b = Z.min (Z.max j 0) (Z.of_nat (length p)) end).
  { subst stop'. destruct stop as [j|]; [|exact B]. cbn [to_place] in B. unfold place in B. destruct (Z.ltb_spec j 0); lia. }
  set (s := if start <? 0 then Z.max (Z.of_nat (length p) + start) 0 else start).
  destruct (Z.le_gt_cases s (Z.of_nat (length p))) as [Ls|Ls].
  - assert (S : s = Z.of_nat a) by (subst s; destruct (Z.ltb_spec start 0); lia). rewrite S. apply (index_loop_spec p k stop' b B' n a). lia.
  - assert (Ea : a = length p) by (subst s; destruct (Z.ltb_spec start 0); lia).
    assert (Bl : (b <= length p)%nat) by (destruct stop'; lia). split; [intros m Hm; lia|]. intros _. destruct n as [|n]; [lia|]. cbn [index_loop].
    destruct (match stop' with Some j => j <=? s | None => false end); [reflexivity|].
    replace s with (Z.of_nat (Z.to_nat s)) by lia. rewrite item_at. assert (N : nth_error p (Z.to_nat s) = None) by (apply nth_error_None; lia). now rewrite N.
Qed.
Print Assumptions C94_index.

Example C94_case :
  let p := map lit ["a"; "b"; "a"; "c"] in
  pointer_item p (-1) = Ok (lit "c") /\ pointer_item p 4 = Exn EIndex /\
  pointer_slices p None None (Some (-2)) = Ok (map lit ["c"; "b"]) /\ pointer_slices p (Some (-3)) (Some 9) None = Ok (map lit ["b"; "a"; "c"]) /\
  pointer_iter 5 p = Ok p /\ pointer_contains 5 p (lit "x") = Ok false /\ pointer_count 5 p (lit "a") = Ok 2%nat /\
  pointer_index 5 p (lit "a") 1 None = Ok 2 /\ pointer_index 5 p (lit "a") 1 (Some (-2)) = Exn EValue /\ pointer_index 5 p (lit "a") (-9) (Some (-3)) = Ok 0 /\
  from_place (length p) (Some 1) 1 /\ to_place (length p) (Some (-2)) 2.
Proof. cbv zeta. repeat (split; [vm_compute; reflexivity|]). split; unfold from_place, to_place, place; cbn; lia. Qed.
