(** Patches of documents that differ in the order of members, and of operations
    in another order. *)
From Coq Require Import String List NArith ZArith Bool Lia Permutation.
From Verif Require Import BaseFacts JsonFacts PointerFacts Patch PatchFacts SpecPointer SpecEq SpecPatch SpecCommute.
Import ListNotations.
Open Scope nat_scope.

(** ** The relation *)
Definition same_opt (a b : option json) : Prop :=
  match a, b with Some x, Some y => same_doc x y | None, None => True | _, _ => False end.
Lemma same_opt_refl a : same_opt a a.
Proof. destruct a; cbn; [apply sd_refl|exact I]. Qed.

Lemma same_sym a b : same_doc a b -> same_doc b a.
Proof.
  induction 1 as [v|l l' L H IH|m m' K H IH]; [apply sd_refl|..].
  - apply sd_arr; [congruence|]. intros n x y Hx Hy. exact (IH n y x Hy Hx).
  - apply sd_obj; [intro k; symmetry; apply K|]. intros k x y Hx Hy. exact (IH k y x Hy Hx).
Qed.
Lemma same_trans a b : same_doc a b -> forall c, same_doc b c -> same_doc a c.
Proof.
  induction 1 as [v|l l' L H IH|m m' K H IH]; intros c C; [exact C|..].
  - inversion C as [v E1 E2|l1 l2 L2 H2 E1 E2|]; subst; [now apply sd_arr|]. apply sd_arr; [congruence|].
    intros n x z Hx Hz. destruct (nth_error l' n) as [y|] eqn:Hy; [exact (IH n x y Hx Hy z (H2 n y z Hy Hz))|].
    apply nth_error_None in Hy. assert (n < length l) by (apply nth_error_Some; congruence). lia.
  - inversion C as [v E1 E2| |m1 m2 K2 H2 E1 E2]; subst; [now apply sd_obj|].
    apply sd_obj; [intro k; rewrite K; apply K2|]. intros k x z Hx Hz.
    assert (In k (map fst m')) as Hk by (apply K; apply (in_map fst) in Hx; exact Hx).
    apply in_map_iff in Hk. destruct Hk as ([k' y] & E & Hy). cbn in E. subst k'. exact (IH k x y Hx Hy z (H2 k y z Hy Hz)).
Qed.

Lemma same_arr_inv l v : same_doc (JArr l) v -> exists l', v = JArr l' /\ length l = length l' /\
  (forall n, same_opt (nth_error l n) (nth_error l' n)).
Proof.
  intro H. inversion H as [v0 E1 E2|l1 l2 L H2 E1 E2|]; subst.
  - exists l. split; [reflexivity|split; [reflexivity|]]. intro n. apply same_opt_refl.
  - exists l2. split; [reflexivity|split; [exact L|]]. intro n.
    destruct (nth_error l n) as [x|] eqn:Hx, (nth_error l2 n) as [y|] eqn:Hy; cbn; [exact (H2 n x y Hx Hy)|..|exact I].
    + apply nth_error_None in Hy. assert (n < length l) by (apply nth_error_Some; congruence). lia.
    + apply nth_error_None in Hx. assert (n < length l2) by (apply nth_error_Some; congruence). lia.
Qed.
Lemma same_arr_intro l l' : (forall n, same_opt (nth_error l n) (nth_error l' n)) -> same_doc (JArr l) (JArr l').
Proof.
  intro H. apply sd_arr; [|intros n x y Hx Hy; specialize (H n); now rewrite Hx, Hy in H].
  destruct (Nat.lt_trichotomy (length l) (length l')) as [C|[C|C]]; [exfalso|exact C|exfalso].
  - specialize (H (length l)). rewrite (proj2 (nth_error_None l (length l))) in H by lia.
    destruct (nth_error l' (length l)) eqn:E; [exact H|apply nth_error_None in E; lia].
  - specialize (H (length l')). rewrite (proj2 (nth_error_None l' (length l'))) in H by lia.
    destruct (nth_error l (length l')) eqn:E; [exact H|apply nth_error_None in E; lia].
Qed.
Lemma same_obj_inv m v : jwf (JObj m) = true -> jwf v = true -> same_doc (JObj m) v -> exists m', v = JObj m' /\ forall k, same_opt (dget k m) (dget k m').
Proof.
  intros W W' H. inversion H as [v0 E1 E2| |m1 m2 K H2 E1 E2]; subst.
  - exists m. split; [reflexivity|]. intro k. apply same_opt_refl.
  - exists m2. split; [reflexivity|]. intro k.
    destruct (dget k m) as [x|] eqn:Hx, (dget k m2) as [y|] eqn:Hy; cbn; [exact (H2 k x y (dget_In _ _ _ Hx) (dget_In _ _ _ Hy))|..|exact I].
    + apply dget_None in Hy. apply Hy, K, (in_map fst _ (k, x)), dget_In, Hx.
    + apply dget_None in Hx. apply Hx, K, (in_map fst _ (k, y)), dget_In, Hy.
Qed.
Lemma same_obj_intro m m' : NoDup (keys m) -> NoDup (keys m') -> (forall k, same_opt (dget k m) (dget k m')) -> same_doc (JObj m) (JObj m').
Proof.
  intros N N' H. apply sd_obj.
  - assert (G : forall a b k, (same_opt (dget k a) (dget k b)) -> In k (map fst a) -> In k (map fst b)).
    { intros a b k S I. destruct (dget k b) as [y|] eqn:E; [exact (in_map fst _ _ (dget_In _ _ _ E))|].
      destruct (dget k a) eqn:E'; [destruct S|]. apply dget_None in E'. contradiction. }
    intro k. split; apply G; [apply H|]. specialize (H k). destruct (dget k m), (dget k m'); cbn in *; try tauto. now apply same_sym.
  - intros k x y Hx Hy. apply In_dget in Hx, Hy; [|assumption..]. specialize (H k). now rewrite Hx, Hy in H.
Qed.
Lemma same_scalar v v' : same_doc v v' -> match v with JArr _ | JObj _ => True | _ => v' = v end.
Proof. destruct 1 as [v| |]; [destruct v; reflexivity || exact I|exact I|exact I]. Qed.

(** Equality does not see the order of members. *)
Lemma same_jeq a b : same_doc a b -> forall v, jeq a v -> jeq b v.
Proof.
  induction 1 as [v|l l' L H IH|m m' K H IH]; intros c C; [exact C|..].
  - inversion C as [| | | |l1 l2 L2 H2 E1 E2|]; subst. apply jeq_arr; [congruence|]. intros n y z Hy Hz.
    destruct (nth_error l n) as [x|] eqn:Hx; [exact (IH n x y Hx Hy z (H2 n x z Hx Hz))|].
    apply nth_error_None in Hx. assert (n < length l') by (apply nth_error_Some; congruence). lia.
  - inversion C as [| | | | |m1 m2 K2 H2 E1 E2]; subst. apply jeq_obj; [intro k; rewrite <- K; apply K2|]. intros k y z Hy Hz.
    assert (In k (map fst m)) as Hk by (apply K; apply (in_map fst) in Hy; exact Hy).
    apply in_map_iff in Hk. destruct Hk as ([k' x] & E & Hx). cbn in E. subst k'. exact (IH k x y Hx Hy z (H2 k x z Hx Hz)).
Qed.
Lemma same_eqb a b v w : jwf a = true -> jwf b = true -> jwf v = true -> jwf w = true -> same_doc a b -> same_doc v w -> json_eqb a v = json_eqb b w.
Proof.
  intros Wa Wb Wv Ww S S'. apply eq_true_iff_eq. rewrite !json_eqb_jeq by assumption. split; intro J.
  - apply jeq_sym, (same_jeq _ _ S'), jeq_sym, (same_jeq _ _ S), J.
  - apply jeq_sym, (same_jeq _ _ (same_sym _ _ S')), jeq_sym, (same_jeq _ _ (same_sym _ _ S)), J.
Qed.

(** ** Documents that differ in the order of members *)
Lemma eval_same p : forall d e, jwf d = true -> jwf e = true -> same_doc d e -> same_result (eval_plain p d) (eval_plain p e).
Proof.
  induction p as [|k p IH]; intros d e Wd We S; [exact S|]. cbn [eval_plain]. destruct d as [| | | |l|m].
  1-4: apply same_scalar in S; subst e; reflexivity.
  - destruct (same_arr_inv _ _ S) as (l' & -> & L & H). destruct (fullmatch JSON_INDEX_RE k); [|reflexivity].
    destruct (py_int k) as [z|]; [|reflexivity]. rewrite <- L. destruct (norm_index (length l) z) as [n|]; [|reflexivity].
    specialize (H n). destruct (nth_error l n) as [x|] eqn:Hx, (nth_error l' n) as [y|] eqn:Hy; cbn in H; try contradiction; [|reflexivity].
    apply IH; [exact (jwf_nth _ _ _ Wd Hx)|exact (jwf_nth _ _ _ We Hy)|exact H].
  - destruct (same_obj_inv _ _ Wd We S) as (m' & -> & H). specialize (H k).
    destruct (dget k m) as [x|] eqn:Hx, (dget k m') as [y|] eqn:Hy; cbn in H; try contradiction; [|reflexivity].
    apply IH; [exact (jwf_dget _ _ _ Wd Hx)|exact (jwf_dget _ _ _ We Hy)|exact H].
Qed.

Lemma nth_update {A} (l : list A) i x n : nth_error (update_nth i x l) n = if n =? i then match nth_error l n with Some _ => Some x | None => None end else nth_error l n.
Proof. revert i n. induction l as [|y l IH]; intros [|i] [|n]; cbn; try reflexivity; [now destruct (n =? i)|apply IH]. Qed.
Lemma nth_insert {A} (l : list A) i x n : i <= length l -> nth_error (insert_nth i x l) n = if n <? i then nth_error l n else if n =? i then Some x else nth_error l (n - 1).
Proof.
  revert i n. induction l as [|y l IH]; intros [|i] [|n] H; cbn [length] in H; try lia; try reflexivity.
  - cbn. now rewrite Nat.sub_0_r.
  - cbn. now rewrite Nat.sub_0_r.
  - change (insert_nth (S i) x (y :: l)) with (y :: insert_nth i x l). cbn [nth_error]. rewrite IH by lia. change (S n <? S i) with (n <? i). change (S n =? S i) with (n =? i).
    destruct (n <? i) eqn:L; [reflexivity|]. destruct (n =? i) eqn:E; [reflexivity|]. apply Nat.ltb_ge in L. apply Nat.eqb_neq in E.
    destruct n as [|n]; [lia|]. cbn. now rewrite Nat.sub_0_r.
Qed.
Lemma nth_remove {A} (l : list A) i n : nth_error (remove_nth i l) n = if n <? i then nth_error l n else nth_error l (S n).
Proof.
  revert i n. induction l as [|y l IH]; intros [|i] [|n]; cbn [remove_nth nth_error]; try reflexivity; [now destruct (S n <? S i)|].
  rewrite IH. change (S n <? S i) with (n <? i). reflexivity.
Qed.

Lemma same_update l l' i x y : (forall n, same_opt (nth_error l n) (nth_error l' n)) -> same_doc x y -> same_doc (JArr (update_nth i x l)) (JArr (update_nth i y l')).
Proof.
  intros H S. apply same_arr_intro. intro n. rewrite !nth_update. specialize (H n). destruct (n =? i); [|exact H].
  now destruct (nth_error l n), (nth_error l' n).
Qed.
Lemma same_insert l l' i x y : i <= length l -> length l = length l' -> (forall n, same_opt (nth_error l n) (nth_error l' n)) -> same_doc x y ->
  same_doc (JArr (insert_nth i x l)) (JArr (insert_nth i y l')).
Proof.
  intros B L H S. apply same_arr_intro. intro n. rewrite !nth_insert by lia. destruct (n <? i); [apply H|]. destruct (n =? i); [exact S|apply H].
Qed.
Lemma same_remove l l' i : (forall n, same_opt (nth_error l n) (nth_error l' n)) -> same_doc (JArr (remove_nth i l)) (JArr (remove_nth i l')).
Proof. intros H. apply same_arr_intro. intro n. rewrite !nth_remove. destruct (n <? i); apply H. Qed.
Lemma same_dset m m' k x y : NoDup (keys m) -> NoDup (keys m') -> (forall j, same_opt (dget j m) (dget j m')) -> same_doc x y ->
  same_doc (JObj (dset k x m)) (JObj (dset k y m')).
Proof.
  intros N N' H S. apply same_obj_intro; [now apply NoDup_dset|now apply NoDup_dset|]. intro j. rewrite !dget_dset.
  destruct (str_eqb j k); [exact S|apply H].
Qed.
Lemma same_ddel m m' k : NoDup (keys m) -> NoDup (keys m') -> (forall j, same_opt (dget j m) (dget j m')) ->
  same_doc (JObj (ddel k m)) (JObj (ddel k m')).
Proof.
  intros N N' H. apply same_obj_intro; [now apply NoDup_ddel|now apply NoDup_ddel|]. intro j.
  destruct (str_eq_dec j k) as [->|D]; [now rewrite !dget_ddel_same|]. rewrite !dget_ddel_other by exact D. apply H.
Qed.

Lemma update_same p : forall w w' d e, jwf d = true -> jwf e = true -> same_doc w w' -> same_doc d e -> same_doc (update_at p w d) (update_at p w' e).
Proof.
  induction p as [|k p IH]; intros w w' d e Wd We Sw S; [exact Sw|]. cbn [update_at]. destruct d as [| | | |l|m].
  1-4: apply same_scalar in S; subst e; apply sd_refl.
  - destruct (same_arr_inv _ _ S) as (l' & -> & L & H). destruct (py_int k) as [z|]; [|exact S]. pose proof (H (Z.to_nat z)) as Hz.
    destruct (nth_error l (Z.to_nat z)) as [x|] eqn:Hx, (nth_error l' (Z.to_nat z)) as [y|] eqn:Hy; cbn in Hz; try contradiction; [|exact S].
    apply same_update; [exact H|]. apply IH; [exact (jwf_nth _ _ _ Wd Hx)|exact (jwf_nth _ _ _ We Hy)|exact Sw|exact Hz].
  - destruct (same_obj_inv _ _ Wd We S) as (m' & -> & H). pose proof (H k) as Hk.
    destruct (dget k m) as [x|] eqn:Hx, (dget k m') as [y|] eqn:Hy; cbn in Hk; try contradiction; [|exact S].
    apply same_dset; [exact (jwf_NoDup _ Wd)|exact (jwf_NoDup _ We)|exact H|].
    apply IH; [exact (jwf_dget _ _ _ Wd Hx)|exact (jwf_dget _ _ _ We Hy)|exact Sw|exact Hk].
Qed.

Definition same_target (r r' : res target) : Prop :=
  match r, r' with
  | Ok t, Ok t' => t_type t = t_type t' /\ t_index t = t_index t' /\ same_doc (t_parent t) (t_parent t') /\
      jwf (t_parent t) = true /\ jwf (t_parent t') = true /\ (forall l i, t_parent t = JArr l -> t_index t = PIndex i -> i <= length l)
  | Exn e, Exn e' => e = e'
  | _, _ => False
  end.
Lemma seq_same P P' n k : same_doc P P' -> jwf P = true -> jwf P' = true -> (forall l, P = JArr l -> length l = n) -> same_target (seq_target P n k) (seq_target P' n k).
Proof.
  intros S W W' L. unfold seq_target.
  assert (B : forall i l j, P = JArr l -> PIndex i = PIndex j -> i <= n -> j <= length l) by (intros i l j E [= <-] H; rewrite (L l E); exact H).
  destruct (str_eqb k (lit "-")); [cbn; eauto 9|]. destruct (py_int k) as [z|]; [|reflexivity].
  destruct (z =? Z.of_nat n)%Z; [cbn; eauto 9|]. destruct ((0 <=? z) && (z <? Z.of_nat n))%Z eqn:E; [|reflexivity].
  apply andb_true_iff in E. destruct E as [E1 E2]. apply Z.leb_le in E1. apply Z.ltb_lt in E2. cbn.
  repeat split; auto. intros l i El Ei. apply (B (Z.to_nat z) l i El Ei). lia.
Qed.
Lemma target_same p d e : jwf d = true -> jwf e = true -> same_doc d e -> same_target (mk_target d p) (mk_target e p).
Proof.
  intros Wd We S. destruct (path_cases p) as [->|(q & k & ->)].
  - cbn. repeat split; try apply sd_refl. intros l i E. discriminate E.
  - rewrite !mk_target_snoc. pose proof (eval_same q d e Wd We S) as H. pose proof (eval_plain_jwf q d) as Wq. pose proof (eval_plain_jwf q e) as Wq'.
    destruct (eval_plain q d) as [P|x|], (eval_plain q e) as [P'|x'|]; cbn in H; try contradiction.
    + cbn [as_patch_error bind]. specialize (Wq P Wd eq_refl). specialize (Wq' P' We eq_refl). destruct P as [| | |s|l|m].
      1-3: apply same_scalar in H; subst P'; reflexivity.
      * apply same_scalar in H. subst P'. cbn [local_target]. apply seq_same; auto using sd_refl. intros l E. discriminate E.
      * destruct (same_arr_inv _ _ H) as (l' & -> & L & _). cbn [local_target]. rewrite <- L. apply seq_same; auto. now intros l0 [= <-].
      * destruct (same_obj_inv _ _ Wq Wq' H) as (m' & -> & G). cbn. specialize (G k).
        assert (D : dmem k m = dmem k m').
        { apply eq_true_iff_eq. rewrite !dmem_In. destruct (dget k m) as [x|] eqn:E1, (dget k m') as [y|] eqn:E2; cbn in G; try contradiction.
          - split; intros _; [exact (in_map fst _ _ (dget_In _ _ _ E2))|exact (in_map fst _ _ (dget_In _ _ _ E1))].
          - apply dget_None in E1, E2. tauto. }
        rewrite D. repeat split; auto. intros l i E. discriminate E.
    + subst x'. cbn [as_patch_error]. destruct (is_pointer_error x); reflexivity.
Qed.

Lemma insert_same t t' v v' : same_target (Ok t) (Ok t') -> same_doc v v' -> same_result (parent_insert t v) (parent_insert t' v').
Proof.
  intros (_ & I & S & W & W' & B) V. unfold parent_insert. rewrite <- I. destruct (t_parent t) as [| | | |l|m].
  1-4: apply same_scalar in S; rewrite S; reflexivity.
  - destruct (same_arr_inv _ _ S) as (l' & -> & L & H). destruct (t_index t) as [i| |]; try reflexivity.
    cbn. apply same_insert; auto.
  - destruct (same_obj_inv _ _ W W' S) as (m' & -> & H). reflexivity.
Qed.
Lemma assign_same t t' v v' : same_target (Ok t) (Ok t') -> same_doc v v' -> same_result (parent_assign t v) (parent_assign t' v').
Proof.
  intros (_ & I & S & W & W' & B) V. unfold parent_assign. rewrite <- I. destruct (t_parent t) as [| | | |l|m].
  1-4: apply same_scalar in S; rewrite S; reflexivity.
  - destruct (same_arr_inv _ _ S) as (l' & -> & L & H). destruct (t_index t) as [i| |]; try reflexivity.
    cbn. now apply same_update.
  - pose proof W as Wm. destruct (same_obj_inv _ _ W W' S) as (m' & E & H). rewrite E in *. destruct (t_index t) as [i| |]; try reflexivity.
    cbn. apply same_dset; auto using jwf_NoDup.
Qed.
Lemma delete_same t t' : same_target (Ok t) (Ok t') -> same_result (parent_delete t) (parent_delete t').
Proof.
  intros (_ & I & S & W & W' & B). unfold parent_delete. rewrite <- I. destruct (t_parent t) as [| | | |l|m].
  1-4: apply same_scalar in S; rewrite S; reflexivity.
  - destruct (same_arr_inv _ _ S) as (l' & -> & L & H). destruct (t_index t) as [i| |]; try reflexivity.
    cbn. now apply same_remove.
  - pose proof W as Wm. destruct (same_obj_inv _ _ W W' S) as (m' & E & H). rewrite E in *. destruct (t_index t) as [i| |]; try reflexivity.
    cbn. apply same_ddel; auto using jwf_NoDup.
Qed.
Lemma result_put p d e r r' : jwf d = true -> jwf e = true -> same_doc d e -> same_result r r' ->
  same_result (let* w := r in Ok (in_parent d p w)) (let* w := r' in Ok (in_parent e p w)).
Proof.
  intros Wd We S H. destruct r as [w|x|], r' as [w'|x'|]; cbn in H; try contradiction; cbn [bind]; [|exact H].
  unfold in_parent. cbn. now apply update_same.
Qed.
Lemma add_same p d e v v' : jwf d = true -> jwf e = true -> same_doc d e -> same_doc v v' -> same_result (p_add d p v) (p_add e p v').
Proof.
  intros Wd We S V. unfold p_add. pose proof (target_same p d e Wd We S) as T.
  destruct (mk_target d p) as [t|x|], (mk_target e p) as [t'|x'|]; cbn [bind]; [pose proof (proj1 T) as H|(exact T || destruct T)..].
  rewrite <- H. destruct (t_type t); [exact V|..].
  1-2: apply result_put; auto; apply insert_same; [exact T|exact V].
  all: apply result_put; auto; apply assign_same; [exact T|exact V].
Qed.
Lemma remove_same p d e : jwf d = true -> jwf e = true -> same_doc d e -> same_result (p_remove d p) (p_remove e p).
Proof.
  intros Wd We S. unfold p_remove. pose proof (target_same p d e Wd We S) as T.
  destruct (mk_target d p) as [t|x|], (mk_target e p) as [t'|x'|]; cbn [bind]; [pose proof (proj1 T) as H|(exact T || destruct T)..].
  rewrite <- H. destruct (t_type t); [apply sd_refl|..]; try reflexivity.
  all: apply result_put; auto; apply delete_same; exact T.
Qed.
Lemma replace_same p d e v v' : jwf d = true -> jwf e = true -> same_doc d e -> same_doc v v' -> same_result (p_replace d p v) (p_replace e p v').
Proof.
  intros Wd We S V. unfold p_replace. pose proof (target_same p d e Wd We S) as T.
  destruct (mk_target d p) as [t|x|], (mk_target e p) as [t'|x'|]; cbn [bind]; [pose proof (proj1 T) as H|(exact T || destruct T)..].
  rewrite <- H. destruct (t_type t); [exact V|..]; try reflexivity.
  all: apply result_put; auto; apply assign_same; [exact T|exact V].
Qed.
Lemma test_same p d e v v' : jwf d = true -> jwf e = true -> jwf v = true -> jwf v' = true -> same_doc d e -> same_doc v v' ->
  same_result (p_test d p v) (p_test e p v').
Proof.
  intros Wd We Wv Wv' S V. unfold p_test. pose proof (target_same p d e Wd We S) as T.
  destruct (mk_target d p) as [t|x|], (mk_target e p) as [t'|x'|]; cbn [bind]; [pose proof (proj1 T) as H|(exact T || destruct T)..].
  assert (K : same_result (let* found := eval_plain p d in if json_eqb found v then Ok d else Exn EPatch)
    (let* found := eval_plain p e in if json_eqb found v' then Ok e else Exn EPatch)).
  { pose proof (eval_same p d e Wd We S) as G. destruct (eval_plain p d) as [f|x|] eqn:E1, (eval_plain p e) as [f'|x'|] eqn:E2; cbn in G; try contradiction; cbn [bind].
    - rewrite (same_eqb f f' v v') by (eauto using eval_plain_jwf). now destruct (json_eqb f' v').
    - exact G. }
  rewrite <- H. destruct (t_type t); try exact K; reflexivity.
Qed.
Lemma from_same f d e : jwf d = true -> jwf e = true -> same_doc d e -> same_result (eval_from d f) (eval_from e f).
Proof.
  intros Wd We S. destruct f as [f|]; [|reflexivity]. cbn [eval_from]. pose proof (eval_same f d e Wd We S) as G.
  destruct (eval_plain f d) as [x|x|], (eval_plain f e) as [y|y|]; cbn in G; try contradiction; cbn [as_patch_error]; [exact G|].
  subst y. destruct (is_pointer_error x); reflexivity.
Qed.

Lemma op_jwf o d d' : jwf d = true -> jwf (po_value o) = true -> op_apply o d = Ok d' -> jwf d' = true.
Proof.
  intros W V H. unfold op_apply in H. destruct (po_op o).
  - apply p_add_exact in H; [|exact W]. exact (spec_add_jwf _ _ _ _ _ H W V).
  - apply p_remove_exact in H; [|exact W]. exact (spec_remove_jwf _ _ _ _ H W).
  - apply p_replace_exact in H; [|exact W]. exact (spec_replace_jwf _ _ _ _ _ H W V).
  - apply p_move_exact in H; [|exact W]. destruct H as (g & v & d1 & _ & F & R & A). apply rfc_remove_int in R.
    exact (spec_add_jwf _ _ _ _ _ A (spec_remove_jwf _ _ _ _ R W) (refers_jwf _ _ _ W F)).
  - apply p_copy_exact in H; [|exact W]. destruct H as (g & v & _ & F & A). exact (spec_add_jwf _ _ _ _ _ A W (refers_jwf _ _ _ W F)).
  - apply p_test_exact in H; [|exact W|exact V]. destruct H as [-> _]. exact W.
Qed.
Lemma op_same o o' d e : jwf d = true -> jwf e = true -> jwf (po_value o) = true -> jwf (po_value o') = true ->
  same_op o o' -> same_doc d e -> same_result (op_apply o d) (op_apply o' e).
Proof.
  intros Wd We Wv Wv' (O & P & F & V) S. unfold op_apply. rewrite <- O, <- P, <- F. destruct (po_op o).
  - now apply add_same.
  - now apply remove_same.
  - now apply replace_same.
  - unfold p_move. pose proof (from_same (po_from o) d e Wd We S) as G. pose proof (eval_from_ok d (po_from o)) as Jd. pose proof (eval_from_ok e (po_from o)) as Je.
    destruct (eval_from d (po_from o)) as [x|x|], (eval_from e (po_from o)) as [y|y|]; cbn in G; try contradiction; cbn [bind]; [|exact G].
    destruct (po_from o) as [f|]; [|reflexivity]. pose proof (remove_same f d e Wd We S) as R.
    pose proof (p_remove_exact d f) as Kd. pose proof (p_remove_exact e f) as Ke.
    destruct (p_remove d f) as [d1|z|], (p_remove e f) as [e1|z'|]; cbn in R; try contradiction; cbn [bind]; [|exact R].
    apply add_same; auto; [apply (spec_remove_jwf _ _ _ _ (proj1 (Kd d1 Wd) eq_refl) Wd)|apply (spec_remove_jwf _ _ _ _ (proj1 (Ke e1 We) eq_refl) We)].
  - unfold p_copy. pose proof (from_same (po_from o) d e Wd We S) as G.
    destruct (eval_from d (po_from o)) as [x|x|], (eval_from e (po_from o)) as [y|y|]; cbn in G; try contradiction; cbn [bind]; [|exact G].
    now apply add_same.
  - now apply test_same.
Qed.
Lemma patch_same ops : forall ops' d e, Forall2 same_op ops ops' ->
  Forall (fun o => jwf (po_value o) = true) ops -> Forall (fun o => jwf (po_value o) = true) ops' -> jwf d = true -> jwf e = true -> same_doc d e ->
  same_result (patch_apply ops d) (patch_apply ops' e).
Proof.
  induction ops as [|o ops IH]; intros ops' d e H V V' Wd We S; inversion H as [|? o' ? ops'' Ho Hr]; subst; [exact S|].
  apply Forall_cons_iff in V, V'. destruct V as [V Vr], V' as [V' Vr']. cbn [patch_apply].
  pose proof (op_same o o' d e Wd We V V' Ho S) as G. pose proof (op_jwf o d) as Jd. pose proof (op_jwf o' e) as Je.
  destruct (op_apply o d) as [d1|x|], (op_apply o' e) as [e1|y|]; cbn in G; try contradiction; cbn [bind]; [|exact G]. apply IH; auto.
Qed.

(** ** Operations in another order *)
Definition along (o : patchop) (p : pointer) : patchop := mkOp (po_op o) p (po_value o) (po_from o).
Definition runs (o : patchop) (p : pointer) (d d' : json) : Prop := op_apply (along o p) d = Ok d'.
Definition local_op (o : patchop) (k : pystr) (P : json) : res json :=
  match po_op o with
  | ADD => local_add P k (po_value o)
  | REMOVE => local_remove P k
  | REPLACE => local_replace P k (po_value o)
  | _ => let* x := eval_plain [k] P in if json_eqb x (po_value o) then Ok P else Exn EPatch
  end.

Lemma update_id q : forall d P, jwf d = true -> eval_plain q d = Ok P -> update_at q P d = d.
Proof.
  induction q as [|k q IH]; intros d P W E; [now injection E as ->|]. cbn [eval_plain update_at] in *. destruct d as [| | | |l|m]; try discriminate E.
  - destruct (fullmatch JSON_INDEX_RE k) eqn:M; [|discriminate E]. apply index_match_rfc in M. rewrite (index_digits_val k M) in *.
    destruct (norm_index (length l) (Z.of_nat (N.to_nat (digits_value k)))) as [n|] eqn:Nn; [|discriminate E]. rewrite Nat2Z.id.
    destruct (Nat.lt_ge_cases (N.to_nat (digits_value k)) (length l)) as [B|B].
    + rewrite norm_index_nat in Nn by exact B. injection Nn as <-. destruct (nth_error l (N.to_nat (digits_value k))) as [x|] eqn:Hx; [|discriminate E].
      rewrite (IH x P (jwf_nth _ _ _ W Hx) E). f_equal. apply nth_error_split' in Hx. destruct Hx as (l1 & l2 & -> & <-). apply update_nth_at.
    + now rewrite (proj2 (nth_error_None _ _) B).
  - destruct (dget k m) as [x|] eqn:Hx; [|discriminate E]. rewrite (IH x P (jwf_dget _ _ _ W Hx) E). now rewrite dset_same_id.
Qed.

Lemma runs_snoc o q k d d' : one_place o -> jwf (po_value o) = true -> jwf d = true ->
  (runs o (q ++ [k]) d d' <-> at_parent d q (local_op o k) = Ok d').
Proof.
  intros [M C] V W. unfold runs, op_apply, local_op, along. cbn [po_op po_path po_value po_from]. destruct (po_op o); try congruence.
  - now rewrite p_add_snoc.
  - now rewrite p_remove_snoc.
  - now rewrite p_replace_snoc.
  - rewrite (p_test_exact _ _ _ _ W V). unfold rfc_test, at_parent. split.
    + intros (-> & x & R & J). assert (Wx := refers_jwf _ _ _ W R). apply (eval_plain_refers _ _ _ W) in R. rewrite eval_plain_app in R.
      destruct (eval_plain q d) as [P|e|] eqn:E; cbn [bind] in R; try discriminate R. cbn [as_patch_error bind]. rewrite R. cbn [bind].
      rewrite (proj2 (json_eqb_jeq _ _ Wx V) J). cbn [bind]. now rewrite (update_id _ _ _ W E).
    + destruct (eval_plain q d) as [P|e|] eqn:E; cbn [as_patch_error bind]; [|destruct (is_pointer_error e); discriminate|discriminate].
      destruct (eval_plain [k] P) as [x|e|] eqn:E2; cbn [bind]; try discriminate. destruct (json_eqb x (po_value o)) eqn:J; cbn [bind]; [|discriminate].
      intros [= <-]. rewrite (update_id _ _ _ W E). split; [reflexivity|]. exists x.
      assert (R : refers d (q ++ [k]) x) by (apply (eval_plain_refers _ _ _ W); rewrite eval_plain_app, E; exact E2).
      split; [exact R|]. exact (proj1 (json_eqb_jeq _ _ (refers_jwf _ _ _ W R) V) J).
Qed.

Lemma at_obj m k q f d' : at_parent (JObj m) (k :: q) f = Ok d' <-> exists x y, dget k m = Some x /\ at_parent x q f = Ok y /\ d' = JObj (dset k y m).
Proof.
  unfold at_parent. cbn [eval_plain update_at]. destruct (dget k m) as [x|] eqn:D.
  - split.
    + destruct (as_patch_error (eval_plain q x)) as [P| |] eqn:E; cbn [bind]; try discriminate.
      destruct (f P) as [P'| |] eqn:F; cbn [bind]; try discriminate. intros [= <-]. exists x, (update_at q P' x).
      split; [reflexivity|]. rewrite E. cbn [bind]. now rewrite F.
    + intros (x0 & y & [= <-] & H & ->). destruct (as_patch_error (eval_plain q x)) as [P| |]; cbn [bind] in *; try discriminate.
      destruct (f P) as [P'| |]; cbn [bind] in *; try discriminate. now injection H as <-.
  - split; [discriminate|]. now intros (x & y & E & _).
Qed.
Lemma at_arr l k q f d' : at_parent (JArr l) (k :: q) f = Ok d' <-> exists i x y, rfc_index_text k /\ py_int k = Some (Z.of_nat i) /\ nth_error l i = Some x /\
  at_parent x q f = Ok y /\ d' = JArr (update_nth i y l).
Proof.
  unfold at_parent. cbn [eval_plain update_at]. destruct (fullmatch JSON_INDEX_RE k) eqn:M.
  - apply index_match_rfc in M. rewrite (index_digits_val k M), Nat2Z.id. set (i := N.to_nat (digits_value k)).
    destruct (Nat.lt_ge_cases i (length l)) as [B|B].
    + rewrite norm_index_nat by exact B. destruct (nth_error l i) as [x|] eqn:D; [|apply nth_error_None in D; lia]. split.
      * destruct (as_patch_error (eval_plain q x)) as [P| |] eqn:E; cbn [bind]; try discriminate.
        destruct (f P) as [P'| |] eqn:F; cbn [bind]; try discriminate. intros [= <-]. exists i, x, (update_at q P' x).
        split; [exact M|]. split; [reflexivity|]. split; [exact D|]. rewrite E. cbn [bind]. now rewrite F.
      * intros (j & x0 & y & _ & [= Ej] & Dj & H & ->). assert (j = i) by lia. subst j. rewrite D in Dj. injection Dj as <-.
        destruct (as_patch_error (eval_plain q x)) as [P| |]; cbn [bind] in *; try discriminate.
        destruct (f P) as [P'| |]; cbn [bind] in *; try discriminate. now injection H as <-.
    + split.
      * destruct (norm_index (length l) (Z.of_nat i)) as [n|] eqn:Nn; [|discriminate]. exfalso. unfold norm_index in Nn.
        cbv zeta in Nn. replace (Z.of_nat i <? 0)%Z with false in Nn by (symmetry; apply Z.ltb_ge; lia).
        replace (Z.of_nat i <? Z.of_nat (length l))%Z with false in Nn by (symmetry; apply Z.ltb_ge; lia). rewrite andb_false_r in Nn. discriminate Nn.
      * intros (j & x0 & y & _ & [= Ej] & Dj & _). assert (j = i) by lia. subst j. rewrite (proj2 (nth_error_None _ _) B) in Dj. discriminate Dj.
  - split; [discriminate|]. intros (i & x & y & T & _). apply index_match_rfc in T. congruence.
Qed.
Lemma at_scalar d k q f d' : match d with JArr _ | JObj _ => False | _ => True end -> at_parent d (k :: q) f <> Ok d'.
Proof. destruct d; try contradiction; discriminate. Qed.

Lemma runs_obj o k p m d' : p <> [] -> one_place o -> jwf (po_value o) = true -> jwf (JObj m) = true ->
  (runs o (k :: p) (JObj m) d' <-> exists x y, dget k m = Some x /\ runs o p x y /\ d' = JObj (dset k y m)).
Proof.
  intros Np O V W. destruct (path_cases p) as [->|(q & c & ->)]; [congruence|]. rewrite app_comm_cons, (runs_snoc _ _ _ _ _ O V W), at_obj.
  split; intros (x & y & D & H & E); exists x, y; (split; [exact D|split; [|exact E]]); now apply (runs_snoc o q c x y O V (jwf_dget _ _ _ W D)).
Qed.
Lemma runs_arr o k p l d' : p <> [] -> one_place o -> jwf (po_value o) = true -> jwf (JArr l) = true ->
  (runs o (k :: p) (JArr l) d' <-> exists i x y, rfc_index_text k /\ py_int k = Some (Z.of_nat i) /\ nth_error l i = Some x /\ runs o p x y /\ d' = JArr (update_nth i y l)).
Proof.
  intros Np O V W. destruct (path_cases p) as [->|(q & c & ->)]; [congruence|]. rewrite app_comm_cons, (runs_snoc _ _ _ _ _ O V W), at_arr.
  split; intros (i & x & y & T & I & D & H & E); exists i, x, y; (split; [exact T|split; [exact I|split; [exact D|split; [|exact E]]]]); now apply (runs_snoc o q c x y O V (jwf_nth _ _ _ W D)).
Qed.
Lemma runs_scalar o k p d d' : one_place o -> jwf (po_value o) = true -> jwf d = true -> match d with JArr _ | JObj _ => False | _ => True end -> ~ runs o (k :: p) d d'.
Proof.
  intros O V W S. destruct (path_cases p) as [->|(q & c & ->)].
  - intro H. apply (runs_snoc o [] k d d' O V W) in H. unfold at_parent, local_op in H. cbn [eval_plain as_patch_error bind] in H.
    destruct O as [O1 O2]. destruct d as [| | |s|l|m]; try contradiction; destruct (po_op o); try congruence;
      unfold local_add, local_remove, local_replace in H; cbn [local_target bind] in H; try discriminate H.
    all: unfold seq_target in H; destruct (str_eqb k (lit "-")); [discriminate H|]; destruct (py_int k) as [z|]; [|discriminate H];
      destruct (z =? Z.of_nat (length s))%Z; [discriminate H|]; destruct ((0 <=? z) && (z <? Z.of_nat (length s)))%Z; discriminate H.
  - rewrite app_comm_cons, (runs_snoc _ _ _ _ _ O V W). now apply at_scalar.
Qed.

(** One member. *)
Definition put_at (k : pystr) (x : option json) (m : list (pystr * json)) : list (pystr * json) :=
  match x with Some v => dset k v m | None => ddel k m end.
Definition medit (o : patchop) (r : pointer) (old new : option json) : Prop :=
  match r with
  | [] => match po_op o with
          | ADD => new = Some (po_value o)
          | REMOVE => old <> None /\ new = None
          | REPLACE => old <> None /\ new = Some (po_value o)
          | _ => exists x, old = Some x /\ jeq x (po_value o) /\ new = Some x
          end
  | _ => exists x y, old = Some x /\ runs o r x y /\ new = Some y
  end.
Lemma dmem_dget {A} k (m : list (pystr * A)) : dmem k m = true <-> dget k m <> None.
Proof. rewrite dmem_In. pose proof (dget_None k m) as H. destruct (dget k m) as [x|]; [split; [discriminate|]; intros _|tauto]. destruct (in_dec str_eq_dec k (keys m)); [assumption|]. apply H in n. discriminate n. Qed.

Lemma runs_member o k r m d' : one_place o -> jwf (po_value o) = true -> jwf (JObj m) = true ->
  (runs o (k :: r) (JObj m) d' <-> exists new, medit o r (dget k m) new /\ d' = JObj (put_at k new m)).
Proof.
  intros O V W. destruct r as [|c r].
  - rewrite (runs_snoc o [] k _ _ O V W). unfold at_parent, local_op, medit. cbn [eval_plain as_patch_error bind update_at].
    destruct O as [O1 O2]. destruct (po_op o); try congruence.
    + unfold local_add. cbn [local_target bind]. assert (E : forall b : bool, (let* P' := match t_type (mkTarget (if b then OBJECT_PROPERTY else OBJECT_PROPERTY_NEW) (JObj m) (PKey k)) with
        | ROOT => Ok (po_value o) | ARRAY_ITEM | ARRAY_ITEM_NEW => parent_insert (mkTarget (if b then OBJECT_PROPERTY else OBJECT_PROPERTY_NEW) (JObj m) (PKey k)) (po_value o)
        | _ => parent_assign (mkTarget (if b then OBJECT_PROPERTY else OBJECT_PROPERTY_NEW) (JObj m) (PKey k)) (po_value o) end in Ok P') = Ok (JObj (dset k (po_value o) m))) by now intros [].
      rewrite E. split; [intros [= <-]; now exists (Some (po_value o))|]. now intros (new & -> & ->).
    + unfold local_remove. cbn [local_target bind t_type]. pose proof (dmem_dget k m) as D. destruct (dmem k m); cbn.
      * split; [intros [= <-]; exists None; split; [split; [now apply D|reflexivity]|reflexivity]|]. now intros (new & [_ ->] & ->).
      * split; [discriminate|]. intros (new & [N _] & _). apply D in N. discriminate N.
    + unfold local_replace. cbn [local_target bind t_type]. pose proof (dmem_dget k m) as D. destruct (dmem k m); cbn.
      * split; [intros [= <-]; exists (Some (po_value o)); split; [split; [now apply D|reflexivity]|reflexivity]|]. now intros (new & [_ ->] & ->).
      * split; [discriminate|]. intros (new & [N _] & _). apply D in N. discriminate N.
    + destruct (dget k m) as [x|] eqn:D; cbn [bind].
      * pose proof (json_eqb_jeq x (po_value o) (jwf_dget _ _ _ W D) V) as J. destruct (json_eqb x (po_value o)); cbn [bind].
        -- split; [intros [= <-]; exists (Some x); split; [exists x; intuition auto|cbn; now rewrite dset_same_id]|].
           intros (new & (y & [= <-] & _ & ->) & ->). cbn. now rewrite dset_same_id.
        -- split; [discriminate|]. intros (new & (y & [= <-] & Jy & _) & _). apply J in Jy. discriminate Jy.
      * split; [discriminate|]. now intros (new & (y & E & _) & _).
  - rewrite (runs_obj o k (c :: r) m d') by (discriminate || assumption). unfold medit. split.
    + intros (x & y & D & H & ->). exists (Some y). split; [|reflexivity]. now exists x, y.
    + intros (new & (x & y & D & H & ->) & ->). now exists x, y.
Qed.

Lemma runs_item o k r : stays_put o r -> one_place o -> jwf (po_value o) = true ->
  exists tok : Prop, forall l d', jwf (JArr l) = true ->
  (runs o (k :: r) (JArr l) d' <-> tok /\ exists i x y, py_int k = Some (Z.of_nat i) /\ nth_error l i = Some x /\ medit o r (Some x) (Some y) /\ d' = JArr (update_nth i y l)).
Proof.
  intros S O V. destruct r as [|c r].
  - destruct S as [S|S]; [congruence|]. destruct S as [S|S].
    + exists True. intros l e W. rewrite (runs_snoc o [] k _ _ O V W). unfold at_parent, local_op, medit. rewrite S. cbn [eval_plain as_patch_error bind update_at].
      pose proof (local_replace_spec (JArr l) k (po_value o)) as L. destruct (local_replace (JArr l) k (po_value o)) as [P'|x|] eqn:E.
      * specialize (L P' W). destruct L as [L _]. specialize (L eq_refl). inversion L as [l1 x l2 T E1 E2|]; subst. cbn [bind]. split.
        -- intros [= <-]. split; [exact I|]. exists (length l1), x, (po_value o). rewrite nth_error_at, update_nth_at. repeat split; auto. discriminate.
        -- intros (_ & i & y & z & T' & N & (_ & [= <-]) & ->). unfold int_reading in T. rewrite T in T'. injection T' as T'. assert (i = length l1) by lia. subst i. now rewrite update_nth_at.
      * split; [discriminate|]. intros (_ & i & y & z & T' & N & _ & _). exfalso. apply nth_error_split' in N. destruct N as (l1 & l2 & -> & <-).
        specialize (L (JArr (l1 ++ po_value o :: l2)) W). destruct L as [_ L]. discriminate L. now constructor.
      * split; [discriminate|]. intros (_ & i & y & z & T' & N & _ & _). exfalso. apply nth_error_split' in N. destruct N as (l1 & l2 & -> & <-).
        specialize (L (JArr (l1 ++ po_value o :: l2)) W). destruct L as [_ L]. discriminate L. now constructor.
    + exists (rfc_index_text k). intros l e W. unfold runs, op_apply, along. cbn [po_op po_path po_value po_from]. rewrite S, (p_test_exact _ _ _ _ W V). unfold rfc_test, medit. rewrite S. split.
      * intros (-> & x & R & J). apply refers_cons_child in R. destruct R as (y & C & R). inversion R; subst. inversion C as [|l0 k0 v0 T N]; subst.
        split; [exact T|]. exists (N.to_nat (digits_value k)), x, x. split; [now apply index_digits_val|]. split; [exact N|]. split; [now exists x|].
        apply nth_error_split' in N. destruct N as (l1 & l2 & -> & <-). now rewrite update_nth_at.
      * intros (T & i & x & y & T' & N & (z & [= <-] & J & [= ->]) & ->). rewrite (index_digits_val k T) in T'. injection T' as T'. assert (i = N.to_nat (digits_value k)) by lia. subst i.
        split; [|exists x; split; [|exact J]; apply refers_cons_child; exists x; split; [now constructor|constructor]].
        apply nth_error_split' in N. destruct N as (l1 & l2 & -> & <-). now rewrite update_nth_at.
  - exists (rfc_index_text k). intros l e W. rewrite (runs_arr o k (c :: r) l e) by (discriminate || assumption). unfold medit. split.
    + intros (i & x & y & T & I & D & H & ->). split; [exact T|]. exists i, x, y. split; [exact I|]. split; [exact D|]. split; [|reflexivity]. now exists x, y.
    + intros (T & i & x & y & I & D & (x0 & y0 & [= <-] & H & [= <-]) & ->). exists i, x, y. auto.
Qed.
Lemma runs_nowhere o k r l d' : no_position k -> one_place o -> jwf (po_value o) = true -> jwf (JArr l) = true -> ~ runs o (k :: r) (JArr l) d'.
Proof.
  intros [D P] O V W H. destruct r as [|c r].
  - apply (runs_snoc o [] k _ _ O V W) in H. unfold at_parent, local_op in H. cbn [eval_plain as_patch_error bind] in H.
    apply str_eqb_neq in D. destruct O as [O1 O2]. destruct (po_op o); try congruence.
    1-3: unfold local_add, local_remove, local_replace in H; cbn [local_target] in H; unfold seq_target in H; rewrite D, P in H; discriminate H.
    destruct (fullmatch JSON_INDEX_RE k); [rewrite P in H|]; discriminate H.
  - apply (runs_arr o k (c :: r) l d') in H; try (discriminate || assumption). destruct H as (i & x & y & _ & I & _). congruence.
Qed.

Lemma put_other k k' x m : k <> k' -> dget k (put_at k' x m) = dget k m.
Proof. intro N. destruct x; cbn; [now apply dget_dset_other|now apply dget_ddel_other]. Qed.
Lemma put_same k x m : NoDup (keys m) -> dget k (put_at k x m) = x.
Proof. intro N. destruct x; cbn; [apply dget_dset_same|now apply dget_ddel_same]. Qed.
Lemma put_NoDup k x m : NoDup (keys m) -> NoDup (keys (put_at k x m)).
Proof. intro N. destruct x; cbn; [now apply NoDup_dset|now apply NoDup_ddel]. Qed.
Lemma put_comm k1 k2 x1 x2 m : k1 <> k2 -> NoDup (keys m) -> same_doc (JObj (put_at k2 x2 (put_at k1 x1 m))) (JObj (put_at k1 x1 (put_at k2 x2 m))).
Proof.
  intros N D. assert (D1 := put_NoDup k1 x1 m D). assert (D2 := put_NoDup k2 x2 m D).
  apply same_obj_intro; [now apply put_NoDup|now apply put_NoDup|]. intro k.
  destruct (str_eq_dec k k1) as [E1|N1]; [subst k|destruct (str_eq_dec k k2) as [E2|N2]; [subst k|]].
  - rewrite put_other, !put_same by assumption. apply same_opt_refl.
  - rewrite put_same, put_other, put_same by assumption. apply same_opt_refl.
  - rewrite !put_other by assumption. apply same_opt_refl.
Qed.
Lemma runs_jwf o p d d' : jwf (po_value o) = true -> jwf d = true -> runs o p d d' -> jwf d' = true.
Proof. intros V W H. exact (op_jwf (along o p) d d' W V H). Qed.

Lemma part_here o1 o2 k1 r1 k2 r2 d d1 d12 :
  one_place o1 -> one_place o2 -> jwf (po_value o1) = true -> jwf (po_value o2) = true -> jwf d = true -> k1 <> k2 ->
  (no_position k1 \/ no_position k2 \/ stays_put o1 r1 /\ stays_put o2 r2 /\ py_int k1 <> py_int k2) ->
  runs o1 (k1 :: r1) d d1 -> runs o2 (k2 :: r2) d1 d12 ->
  exists d2 d21, runs o2 (k2 :: r2) d d2 /\ runs o1 (k1 :: r1) d2 d21 /\ same_doc d12 d21.
Proof.
  intros O1 O2 V1 V2 W N A R1 R2. assert (W1 := runs_jwf _ _ _ _ V1 W R1). destruct d as [| | | |l|m].
  1-4: exfalso; revert R1; now apply runs_scalar.
  - destruct A as [A|[A|(S1 & S2 & I)]].
    + exfalso. exact (runs_nowhere _ _ _ _ _ A O1 V1 W R1).
    + destruct (path_cases r1) as [->|(q & c & ->)].
      * assert (exists l1, d1 = JArr l1) as [l1 ->].
        { apply (runs_snoc o1 [] k1 _ _ O1 V1 W) in R1. unfold at_parent, local_op in R1. cbn [eval_plain as_patch_error bind update_at] in R1.
          destruct O1 as [O1 O1']. destruct (po_op o1); try congruence.
          - destruct (local_add (JArr l) k1 (po_value o1)) as [P| |] eqn:E; cbn [bind] in R1; try discriminate R1. injection R1 as <-.
            apply (local_add_spec _ _ _ _ W) in E. inversion E; subst; eauto.
          - destruct (local_remove (JArr l) k1) as [P| |] eqn:E; cbn [bind] in R1; try discriminate R1. injection R1 as <-.
            apply (local_remove_spec _ _ _ W) in E. inversion E; subst; eauto.
          - destruct (local_replace (JArr l) k1 (po_value o1)) as [P| |] eqn:E; cbn [bind] in R1; try discriminate R1. injection R1 as <-.
            apply (local_replace_spec _ _ _ _ W) in E. inversion E; subst; eauto.
          - destruct (if fullmatch JSON_INDEX_RE k1 then _ else _) as [x| |]; cbn [bind] in R1; try discriminate R1.
            destruct (json_eqb x (po_value o1)); cbn [bind] in R1; try discriminate R1. injection R1 as <-. eauto. }
        exfalso. exact (runs_nowhere _ _ _ _ _ A O2 V2 W1 R2).
      * apply runs_arr in R1; [|now destruct q|assumption..]. destruct R1 as (i & x & y & _ & _ & _ & _ & ->).
        exfalso. exact (runs_nowhere _ _ _ _ _ A O2 V2 W1 R2).
    + destruct (runs_item o1 k1 r1 S1 O1 V1) as (t1 & T1). destruct (runs_item o2 k2 r2 S2 O2 V2) as (t2 & T2).
      apply (T1 _ _ W) in R1. destruct R1 as (H1 & i1 & x1 & y1 & P1 & D1 & M1 & ->). apply (T2 _ _ W1) in R2. destruct R2 as (H2 & i2 & x2 & y2 & P2 & D2 & M2 & ->).
      assert (Ni : i1 <> i2) by congruence. assert (E21 : (i2 =? i1) = false) by (apply Nat.eqb_neq; congruence). assert (E12 : (i1 =? i2) = false) by now apply Nat.eqb_neq.
      rewrite nth_update, E21 in D2.
      assert (R : runs o2 (k2 :: r2) (JArr l) (JArr (update_nth i2 y2 l))) by (apply (T2 _ _ W); split; [exact H2|]; now exists i2, x2, y2).
      exists (JArr (update_nth i2 y2 l)), (JArr (update_nth i1 y1 (update_nth i2 y2 l))). split; [exact R|]. split.
      * apply (T1 _ _ (runs_jwf _ _ _ _ V2 W R)). split; [exact H1|]. exists i1, x1, y1. rewrite nth_update, E12. auto.
      * apply same_arr_intro. intro n. rewrite !nth_update. destruct (n =? i2) eqn:En2, (n =? i1) eqn:En1; try apply same_opt_refl.
        apply Nat.eqb_eq in En1, En2. congruence.
  - assert (D := jwf_NoDup _ W). apply (runs_member _ _ _ _ _ O1 V1 W) in R1. destruct R1 as (n1 & M1 & ->).
    apply (runs_member _ _ _ _ _ O2 V2 W1) in R2. destruct R2 as (n2 & M2 & ->). rewrite put_other in M2 by congruence.
    assert (R : runs o2 (k2 :: r2) (JObj m) (JObj (put_at k2 n2 m))) by (apply (runs_member _ _ _ _ _ O2 V2 W); now exists n2).
    exists (JObj (put_at k2 n2 m)), (JObj (put_at k1 n1 (put_at k2 n2 m))). split; [exact R|]. split; [|now apply put_comm].
    apply (runs_member _ _ _ _ _ O1 V1 (runs_jwf _ _ _ _ V2 W R)). exists n1. rewrite put_other by congruence. now split.
Qed.

Lemma part_below q : forall o1 o2 k1 r1 k2 r2 d d1 d12,
  one_place o1 -> one_place o2 -> jwf (po_value o1) = true -> jwf (po_value o2) = true -> jwf d = true -> k1 <> k2 ->
  (no_position k1 \/ no_position k2 \/ stays_put o1 r1 /\ stays_put o2 r2 /\ py_int k1 <> py_int k2) ->
  runs o1 (q ++ k1 :: r1) d d1 -> runs o2 (q ++ k2 :: r2) d1 d12 ->
  exists d2 d21, runs o2 (q ++ k2 :: r2) d d2 /\ runs o1 (q ++ k1 :: r1) d2 d21 /\ same_doc d12 d21.
Proof.
  induction q as [|c q IH]; intros o1 o2 k1 r1 k2 r2 d d1 d12 O1 O2 V1 V2 W N A R1 R2; [exact (part_here o1 o2 k1 r1 k2 r2 d d1 d12 O1 O2 V1 V2 W N A R1 R2)|].
  assert (N1 : q ++ k1 :: r1 <> []) by now destruct q. assert (N2 : q ++ k2 :: r2 <> []) by now destruct q.
  assert (W1 := runs_jwf _ _ _ _ V1 W R1). cbn [app] in *. destruct d as [| | | |l|m].
  1-4: exfalso; revert R1; now apply runs_scalar.
  - apply (runs_arr _ _ _ _ _ N1 O1 V1 W) in R1. destruct R1 as (i & x & y & T & P & D & R1 & ->).
    apply (runs_arr _ _ _ _ _ N2 O2 V2 W1) in R2. destruct R2 as (i' & y' & z & _ & P' & D' & R2 & ->).
    assert (i' = i) by (rewrite P in P'; injection P' as P'; lia). subst i'. rewrite nth_update, Nat.eqb_refl, D in D'. injection D' as <-.
    destruct (IH o1 o2 k1 r1 k2 r2 x y z O1 O2 V1 V2 (jwf_nth _ _ _ W D) N A R1 R2) as (y2 & z2 & Q2 & Q1 & S).
    assert (R : runs o2 (c :: q ++ k2 :: r2) (JArr l) (JArr (update_nth i y2 l))) by (apply (runs_arr _ _ _ _ _ N2 O2 V2 W); now exists i, x, y2).
    exists (JArr (update_nth i y2 l)), (JArr (update_nth i z2 (update_nth i y2 l))). split; [exact R|]. split.
    + apply (runs_arr _ _ _ _ _ N1 O1 V1 (runs_jwf _ _ _ _ V2 W R)). exists i, y2, z2. rewrite nth_update, Nat.eqb_refl, D. auto.
    + apply same_arr_intro. intro n. rewrite !nth_update. destruct (n =? i); [|apply same_opt_refl]. destruct (nth_error l n); [exact S|exact I].
  - apply (runs_obj _ _ _ _ _ N1 O1 V1 W) in R1. destruct R1 as (x & y & D & R1 & ->).
    apply (runs_obj _ _ _ _ _ N2 O2 V2 W1) in R2. destruct R2 as (y' & z & D' & R2 & ->). rewrite dget_dset_same in D'. injection D' as <-.
    destruct (IH o1 o2 k1 r1 k2 r2 x y z O1 O2 V1 V2 (jwf_dget _ _ _ W D) N A R1 R2) as (y2 & z2 & Q2 & Q1 & S).
    assert (R : runs o2 (c :: q ++ k2 :: r2) (JObj m) (JObj (dset c y2 m))) by (apply (runs_obj _ _ _ _ _ N2 O2 V2 W); now exists x, y2).
    exists (JObj (dset c y2 m)), (JObj (dset c z2 (dset c y2 m))). split; [exact R|]. split.
    + apply (runs_obj _ _ _ _ _ N1 O1 V1 (runs_jwf _ _ _ _ V2 W R)). exists y2, z2. now rewrite dget_dset_same.
    + rewrite !dset_dset. apply same_dset; [exact (jwf_NoDup _ W)|exact (jwf_NoDup _ W)|intro k; apply same_opt_refl|exact S].
Qed.

Lemma apart_sym a b : apart a b -> apart b a.
Proof.
  intros (A & B & q & k1 & r1 & k2 & r2 & E1 & E2 & N & H). split; [exact B|split; [exact A|]]. exists q, k2, r2, k1, r1.
  repeat split; auto. destruct H as [H|[H|(H1 & H2 & H3)]]; auto.
Qed.
Lemma apart_swap o1 o2 d d1 d12 : apart o1 o2 -> jwf (po_value o1) = true -> jwf (po_value o2) = true -> jwf d = true ->
  op_apply o1 d = Ok d1 -> op_apply o2 d1 = Ok d12 -> exists d2 d21, op_apply o2 d = Ok d2 /\ op_apply o1 d2 = Ok d21 /\ same_doc d12 d21.
Proof.
  intros (A & B & q & k1 & r1 & k2 & r2 & E1 & E2 & N & H) V1 V2 W R1 R2.
  assert (F : forall o, along o (po_path o) = o) by now intros [].
  pose proof (part_below q o1 o2 k1 r1 k2 r2 d d1 d12 A B V1 V2 W N H) as G. unfold runs in G. rewrite <- E1, <- E2, !F in G. exact (G R1 R2).
Qed.
Lemma any_order ops ops' : Permutation ops ops' -> forall d e, ForallOrdPairs apart ops -> Forall (fun o => jwf (po_value o) = true) ops -> jwf d = true ->
  patch_apply ops d = Ok e -> exists e', patch_apply ops' d = Ok e' /\ same_doc e e'.
Proof.
  assert (SR : forall o, same_op o o) by (intro o; repeat split; apply sd_refl).
  assert (SRs : forall l, Forall2 same_op l l) by (induction l; constructor; auto).
  induction 1 as [|o ops ops' P IH|o o' ops|a b c P1 IH1 P2 IH2]; intros d e A V W H.
  - exists e. split; [exact H|apply sd_refl].
  - cbn [patch_apply] in *. apply Forall_cons_iff in V. destruct V as [V Vr]. inversion A as [|? ? _ Ar]; subst.
    destruct (op_apply o d) as [d1| |] eqn:E; cbn [bind] in *; try discriminate H. exact (IH d1 e Ar Vr (op_jwf _ _ _ W V E) H).
  - cbn [patch_apply] in H. apply Forall_cons_iff in V. destruct V as [V Vr]. apply Forall_cons_iff in Vr. destruct Vr as [V' Vr]. inversion A as [|? ? A1 Ar]; subst.
    apply Forall_cons_iff in A1. destruct A1 as [A1 _].
    destruct (op_apply o' d) as [d1| |] eqn:E1; cbn [bind] in H; try discriminate H. destruct (op_apply o d1) as [d12| |] eqn:E2; cbn [bind] in H; try discriminate H.
    destruct (apart_swap o' o d d1 d12 A1 V V' W E1 E2) as (d2 & d21 & F1 & F2 & S). cbn [patch_apply]. rewrite F1. cbn [bind]. rewrite F2. cbn [bind].
    pose proof (patch_same ops ops d12 d21 (SRs ops) Vr Vr) as G. specialize (G (op_jwf _ _ _ (op_jwf _ _ _ W V E1) V' E2) (op_jwf _ _ _ (op_jwf _ _ _ W V' F1) V F2) S).
    rewrite H in G. destruct (patch_apply ops d21) as [e'| |]; cbn in G; try contradiction. now exists e'.
  - destruct (IH1 d e A V W H) as (e1 & H1 & S1).
    assert (A' : ForallOrdPairs apart b).
    { clear - P1 A. induction P1 as [|o l l' P IH|o o' l|l1 l2 l3 Q1 IH1 Q2 IH2]; auto.
      - inversion A as [|? ? H Ar]; subst. constructor; [|now apply IH]. apply (Permutation_Forall P H).
      - inversion A as [|? ? H Ar]; subst. inversion Ar as [|? ? H' Ar']; subst. apply Forall_cons_iff in H. destruct H as [H Hl].
        constructor; [constructor; [now apply apart_sym|exact H']|]. constructor; assumption. }
    destruct (IH2 d e1 A' (Permutation_Forall P1 V) W H1) as (e2 & H2 & S2). exists e2. split; [exact H2|]. exact (same_trans _ _ S1 _ S2).
Qed.
