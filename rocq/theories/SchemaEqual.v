(** Like instances are judged alike. *)
From Coq Require Import List Permutation Lia QArith Qpower.
From Verif Require Export SpecEqual SchemaAlike JsonFacts.
Import ListNotations.
Open Scope nat_scope.

(** ** Values. *)
Lemma like_number_sym a b : like_number a b -> like_number b a.
Proof. intros [->|H]; [now left|right; now apply same_number_sym]. Qed.
Lemma compare_like a b c : like_number a b -> num_compare a c = num_compare b c /\ num_compare c a = num_compare c b.
Proof.
  intros [->|H]; [auto|]. unfold same_number in H.
  destruct (num_finite a) as [(x & Ea)|[(s & ->)| ->]], (num_finite b) as [(y & Eb)|[(t & ->)| ->]]; rewrite ?Ea, ?Eb in H; cbn [num_Q] in H; try contradiction;
    try (destruct a; discriminate Ea || contradiction); try (destruct b; discriminate Eb || contradiction).
  - destruct (num_finite c) as [(z & Ec)|[(s & ->)| ->]].
    + rewrite (num_compare_Q _ _ _ _ Ea Ec), (num_compare_Q _ _ _ _ Eb Ec), (num_compare_Q _ _ _ _ Ec Ea), (num_compare_Q _ _ _ _ Ec Eb). split; f_equal; now rewrite H.
    + destruct a, b; try discriminate; destruct s; split; reflexivity.
    + destruct a, b; try discriminate; split; reflexivity.
  - subst t. auto.
Qed.
Lemma rel_like a b c : like_number a b -> num_gtb a c = num_gtb b c /\ num_geb a c = num_geb b c /\ num_ltb a c = num_ltb b c /\ num_leb a c = num_leb b c.
Proof. intro H. destruct (compare_like a b c H) as [A B]. unfold num_gtb, num_geb, num_ltb, num_leb. now rewrite A, B. Qed.
Lemma integral_Q n : integral n = true <-> exists z x, num_Q n = Some x /\ (x == inject_Z z)%Q.
Proof.
  destruct n as [z|m e| |]; cbn [integral num_Q].
  - split; [|reflexivity]. intros _. exists z, (inject_Z z). split; [reflexivity|reflexivity].
  - split.
    + intro H. destruct (0 <=? e)%Z eqn:E.
      * apply Z.leb_le in E. exists (m * 2 ^ e)%Z. eexists. split; [reflexivity|]. rewrite Qpower2_nonneg_Z by exact E. now rewrite inject_Z_mult.
      * apply Z.leb_gt in E. cbn [orb] in H. apply Z.eqb_eq in H. exists (m / 2 ^ (- e))%Z. eexists. split; [reflexivity|].
        assert (P : (2 ^ (- e) <> 0)%Z) by (apply Z.pow_nonzero; lia). apply Z.div_exact in H; [|exact P]. rewrite H at 1. rewrite Z.mul_comm, inject_Z_mult, <- (Qpower2_nonneg_Z (- e)) by lia.
        rewrite <- Qmult_assoc, <- Qpower_plus by (intro X; discriminate X). replace (- e + e)%Z with 0%Z by lia. change (Qpower (inject_Z 2) 0) with 1%Q. ring.
    + intros (z & x & [= <-] & H). destruct (0 <=? e)%Z eqn:E; [reflexivity|]. apply Z.leb_gt in E. cbn [orb]. apply Z.eqb_eq.
      assert (X : (inject_Z m == inject_Z (z * 2 ^ (- e)))%Q).
      { rewrite inject_Z_mult, <- (Qpower2_nonneg_Z (- e)) by lia. rewrite <- H, <- Qmult_assoc, <- Qpower_plus by (intro X; discriminate X). replace (e + - e)%Z with 0%Z by lia. change (Qpower (inject_Z 2) 0) with 1%Q. ring. }
      apply (proj1 (inject_Z_injective _ _)) in X. rewrite X. apply Z.mod_mul. apply Z.pow_nonzero; lia.
  - split; [discriminate|intros (z & x & H & _); discriminate].
  - split; [discriminate|intros (z & x & H & _); discriminate].
Qed.
Lemma integral_like a b : like_number a b -> integral a = integral b.
Proof.
  intros [->|H]; [reflexivity|]. assert (G : forall a b, same_number a b -> integral a = true -> integral b = true).
  { clear. intros a b H I. apply integral_Q in I. destruct I as (z & x & Ea & E). apply integral_Q. unfold same_number in H. rewrite Ea in H.
    destruct (num_Q b) as [y|]; [|contradiction]. exists z, y. split; [reflexivity|]. now rewrite <- H. }
  destruct (integral a) eqn:A, (integral b) eqn:B; auto; [rewrite (G _ _ H A) in B; discriminate|rewrite (G _ _ (same_number_sym _ _ H) B) in A; discriminate].
Qed.

Section Like.
Variable N : num -> num -> Prop.
Hypothesis Nlike : forall a b, N a b -> like_number a b.
Hypothesis Nsym : forall a b, N a b -> N b a.
Notation looks_like := (looks_like N) (only parsing).

Lemma like_sym a b : looks_like a b -> looks_like b a.
Proof.
  induction 1 as [| |p q H| |l l' HL H IH|m m' HK H IH]; constructor; auto.
  - intros n x y Hx Hy. exact (IH n y x Hy Hx).
  - intro k. symmetry. auto.
  - intros k x y Hx Hy. exact (IH k y x Hy Hx).
Qed.
Lemma like_length (m m' : list (pystr * json)) : (forall k, In k (map fst m) <-> In k (map fst m')) -> NoDup (keys m) -> NoDup (keys m') -> length m = length m'.
Proof.
  intros H Nd Nd'. assert (E : length (keys m) = length (keys m')) by (apply Nat.le_antisymm; apply NoDup_incl_length; auto; intros k; apply H).
  unfold keys in E. now rewrite !map_length in E.
Qed.
Lemma Forall2_same_length {A B} (R : A -> B -> Prop) l l' : Forall2 R l l' -> length l = length l'.
Proof. induction 1; cbn; congruence. Qed.
Lemma eqb_arr_nth l u : json_eqb (JArr l) (JArr u) = true <-> length l = length u /\ forall n x y, nth_error l n = Some x -> nth_error u n = Some y -> json_eqb x y = true.
Proof.
  rewrite json_eqb_arr. split.
  - intro F. split; [exact (Forall2_same_length _ _ _ F)|]. induction F as [|a b l u E F IH]; intros [|n] x y Hx Hy; try discriminate; cbn in *; [congruence|eauto].
  - revert u. induction l as [|a l IH]; intros [|b u] [HL H]; try discriminate; constructor; [exact (H 0 a b eq_refl eq_refl)|]. apply IH. split; [now injection HL|].
    intros n x y Hx Hy. exact (H (S n) x y Hx Hy).
Qed.
Lemma eqb_like_l x y : looks_like x y -> jwf x = true -> jwf y = true -> forall u, json_eqb x u = true -> json_eqb y u = true.
Proof.
  induction 1 as [| |a b H| |l l' HL H IH|m m' HK H IH]; intros Wx Wy u E; auto; destruct u as [| |c| |lu|mu]; try discriminate E.
  - cbn [json_eqb] in *. unfold num_eqb in *. now rewrite <- (proj1 (compare_like a b c (Nlike _ _ H))).
  - apply eqb_arr_nth in E. destruct E as [EL E]. apply eqb_arr_nth. split; [congruence|]. intros n w z Hw Hz.
    destruct (nth_error l n) as [v|] eqn:Hv; [|apply nth_error_None in Hv; assert (X : nth_error l' n <> None) by congruence; apply nth_error_Some in X; lia].
    apply jwf_arr in Wx, Wy. rewrite Forall_forall in Wx, Wy. apply (IH n v w Hv Hw); [exact (Wx _ (nth_error_In _ _ Hv))|exact (Wy _ (nth_error_In _ _ Hw))|]. exact (E n v z Hv Hz).
  - apply json_eqb_obj in E. destruct E as [EL E]. apply json_eqb_obj. apply jwf_obj in Wx as [Nx Wx], Wy as [Ny Wy]. rewrite Forall_forall in Wx, Wy.
    split; [now rewrite <- (like_length _ _ HK Nx Ny)|]. intros k w Hw. assert (K : In k (map fst m)) by (apply HK; now apply (in_map fst) in Hw).
    apply in_map_iff in K as ([k' v] & E' & Hv). cbn in E'; subst k'. destruct (E k v Hv) as (z & Dz & Ez). exists z. split; [exact Dz|].
    apply (IH k v w Hv Hw); [exact (Wx _ Hv)|exact (Wy _ Hw)|exact Ez].
Qed.
Lemma eqb_like_r x y : looks_like x y -> jwf x = true -> jwf y = true -> forall u, json_eqb u x = true -> json_eqb u y = true.
Proof.
  induction 1 as [| |a b H| |l l' HL H IH|m m' HK H IH]; intros Wx Wy u E; auto; destruct u as [| |c| |lu|mu]; try discriminate E.
  - cbn [json_eqb] in *. unfold num_eqb in *. now rewrite <- (proj2 (compare_like a b c (Nlike _ _ H))).
  - apply eqb_arr_nth in E. destruct E as [EL E]. apply eqb_arr_nth. split; [congruence|]. intros n z w Hz Hw.
    destruct (nth_error l n) as [v|] eqn:Hv; [|apply nth_error_None in Hv; assert (X : nth_error l' n <> None) by congruence; apply nth_error_Some in X; lia].
    apply jwf_arr in Wx, Wy. rewrite Forall_forall in Wx, Wy. apply (IH n v w Hv Hw); [exact (Wx _ (nth_error_In _ _ Hv))|exact (Wy _ (nth_error_In _ _ Hw))|]. exact (E n z v Hz Hv).
  - apply json_eqb_obj in E. destruct E as [EL E]. apply json_eqb_obj. apply jwf_obj in Wx as [Nx Wx], Wy as [Ny Wy]. rewrite Forall_forall in Wx, Wy.
    split; [now rewrite <- (like_length _ _ HK Nx Ny)|]. intros k z Hz. destruct (E k z Hz) as (v & Dv & Ez). apply dget_In in Dv.
    assert (K : In k (map fst m')) by (apply HK; now apply (in_map fst) in Dv).
    apply in_map_iff in K as ([k' w] & E' & Hw). cbn in E'; subst k'. exists w. split; [now apply In_dget|].
    apply (IH k v w Dv Hw); [exact (Wx _ Dv)|exact (Wy _ Hw)|exact Ez].
Qed.
Lemma eqb_like x y u : looks_like x y -> jwf x = true -> jwf y = true -> json_eqb x u = json_eqb y u /\ json_eqb u x = json_eqb u y.
Proof.
  intros L Wx Wy. pose proof (like_sym _ _ L) as L'. split.
  - destruct (json_eqb x u) eqn:A, (json_eqb y u) eqn:B; auto; [rewrite (eqb_like_l x y L Wx Wy u A) in B|rewrite (eqb_like_l y x L' Wy Wx u B) in A]; discriminate.
  - destruct (json_eqb u x) eqn:A, (json_eqb u y) eqn:B; auto; [rewrite (eqb_like_r x y L Wx Wy u A) in B|rewrite (eqb_like_r y x L' Wy Wx u B) in A]; discriminate.
Qed.

(** ** Lists in another order. *)
Definition bag {A} (P : A -> A -> Prop) (l l' : list A) : Prop := exists l2, Forall2 P l l2 /\ Permutation l2 l'.
Lemma bag_filter {A} (P : A -> A -> Prop) (p : A -> bool) l l' : (forall a b, P a b -> p a = p b) -> bag P l l' -> bag P (filter p l) (filter p l').
Proof.
  intros Hp (l2 & F & Pm). exists (filter p l2). split.
  - clear Pm. induction F as [|a b l l2 H F IH]; [constructor|]. cbn [filter]. rewrite (Hp a b H). destruct (p b); [constructor; assumption|exact IH].
  - clear F. induction Pm as [|a u v Pm IH|a b u|u v w Pm1 IH1 Pm2 IH2]; [constructor| | |now transitivity (filter p v)]; cbn [filter].
    + destruct (p a); [now constructor|exact IH].
    + destruct (p a), (p b); try reflexivity. constructor.
Qed.
Lemma bag_map {A B} (P : A -> A -> Prop) (Q : B -> B -> Prop) (f : A -> B) l l' : (forall a b, P a b -> Q (f a) (f b)) -> bag P l l' -> bag Q (map f l) (map f l').
Proof.
  intros Hf (l2 & F & Pm). exists (map f l2). split; [|now apply Permutation_map]. clear Pm. induction F; cbn [map]; constructor; auto.
Qed.
Lemma bag_length {A} (P : A -> A -> Prop) l l' : bag P l l' -> length l = length l'.
Proof. intros (l2 & F & Pm). rewrite (Forall2_same_length _ _ _ F). now apply Permutation_length. Qed.
Lemma all_some_perm {A} (l l' : list (option A)) : Permutation l l' ->
  orel (@Permutation A) (all_some l) (all_some l').
Proof.
  induction 1 as [|a l l' Pm IH|a b l|l l2 l3 Pm1 IH1 Pm2 IH2].
  - constructor.
  - cbn [all_some]. destruct a as [a|]; [|exact I]. destruct (all_some l), (all_some l'); cbn in *; try contradiction; [now constructor|exact I].
  - cbn [all_some]. destruct a as [a|], b as [b|]; cbn; auto; destruct (all_some l); cbn; auto. apply perm_swap.
  - destruct (all_some l), (all_some l2), (all_some l3); cbn in *; try contradiction; auto. now transitivity l1.
Qed.
Lemma orel_bag {A B} (P : B -> B -> Prop) (R : A -> A -> Prop) (f : B -> option A) l l' : (forall a b, P a b -> orel R (f a) (f b)) -> bag P l l' ->
  orel (bag R) (all_some (map f l)) (all_some (map f l')).
Proof.
  intros Hf (l2 & F & Pm).
  assert (X : orel (Forall2 R) (all_some (map f l)) (all_some (map f l2))).
  { clear Pm. induction F as [|a b l l2 H F IH]; [constructor|]. cbn [map all_some]. specialize (Hf a b H). destruct (f a), (f b); cbn in Hf; try contradiction; [|exact I].
    destruct (all_some (map f l)), (all_some (map f l2)); cbn in *; try contradiction; [now constructor|exact I]. }
  pose proof (all_some_perm _ _ (Permutation_map f Pm)) as Y.
  destruct (all_some (map f l)), (all_some (map f l2)), (all_some (map f l')); cbn in *; try contradiction; auto. now exists l1.
Qed.
Lemma bag_In {A} (P : A -> A -> Prop) l l' a : bag P l l' -> In a l -> exists b, In b l' /\ P a b.
Proof. intros (l2 & F & Pm) Ha. destruct (Forall2_In_l _ _ _ _ F Ha) as (b & Hb & Hp). exists b. split; [now apply (Permutation_in b Pm)|exact Hp]. Qed.
Lemma bag_In' {A} (P : A -> A -> Prop) l l' b : bag P l l' -> In b l' -> exists a, In a l /\ P a b.
Proof. intros (l2 & F & Pm) Hb. apply Forall2_In_r with (l' := l2); [exact F|]. now apply (Permutation_in b (Permutation_sym Pm)). Qed.
Lemma bag_accept os os' : bag oeq os os' -> all_accept os = all_accept os'.
Proof.
  intros (os2 & F & Pm). rewrite (all_accept_eq _ _ F). clear F. unfold all_accept. induction Pm as [|a l l' Pm IH|a b l|l l2 l3 Pm1 IH1 Pm2 IH2]; cbn [forallb]; auto.
  - now rewrite IH.
  - now rewrite !andb_assoc, (andb_comm (o_ok b)).
  - congruence.
Qed.

(** Members of objects, items of arrays. *)
Definition alike_values (x y : json) : Prop := looks_like x y /\ jwf x = true /\ jwf y = true.
Definition alike_member (a b : pystr * json) : Prop := fst a = fst b /\ alike_values (snd a) (snd b).
Lemma like_members x y : alike_values x y -> bag alike_member (members x) (members y).
Proof.
  intros (L & Wx & Wy). destruct L as [| | | | |m m' HK H]; try (exists []; split; constructor). cbn [members].
  apply jwf_obj in Wx as [Nx Wx], Wy as [Ny Wy]. rewrite Forall_forall in Wx, Wy.
  exists (map (fun kv => (fst kv, match dget (fst kv) m' with Some v => v | None => JNull end)) m).
  assert (D : forall k v, In (k, v) m -> exists w, dget k m' = Some w /\ In (k, w) m').
  { intros k v Hv. assert (K : In k (map fst m')) by (apply HK; now apply (in_map fst) in Hv). apply in_map_iff in K as ([k' w] & E & Hw). cbn in E; subst k'.
    exists w. split; [now apply In_dget|exact Hw]. }
  split.
  - assert (X : forall l, incl l m -> Forall2 alike_member l (map (fun kv => (fst kv, match dget (fst kv) m' with Some v => v | None => JNull end)) l)).
    { induction l as [|[k v] l IH]; intro Hi; cbn [map]; constructor; [|apply IH; intros a Ha; apply Hi; now right].
      assert (Hv : In (k, v) m) by (apply Hi; now left). destruct (D k v Hv) as (w & Dw & Hw). cbn [fst]. rewrite Dw. split; [reflexivity|]. cbn [snd].
      split; [exact (H k v w Hv Hw)|]. split; [exact (Wx _ Hv)|exact (Wy _ Hw)]. }
    apply X. apply incl_refl.
  - apply NoDup_Permutation.
    + apply (NoDup_map_inv fst). rewrite map_map. cbn [fst]. exact Nx.
    + apply (NoDup_map_inv fst). exact Ny.
    + intros [k w]. rewrite in_map_iff. split.
      * intros ([k' v] & E & Hv). apply pair_equal_spec in E. destruct E as [E1 E2]. cbn [fst] in *. subst k'. destruct (D k v Hv) as (w' & Dw & Hw). rewrite Dw in E2. now subst w'.
      * intro Hw. assert (K : In k (map fst m)) by (apply HK; now apply (in_map fst) in Hw). apply in_map_iff in K as ([k' v] & E & Hv). cbn in E; subst k'.
        exists (k, v). split; [|exact Hv]. cbn [fst]. now rewrite (In_dget k w m' Ny Hw).
Qed.
Lemma like_items x y : alike_values x y -> Forall2 alike_values (items x) (items y).
Proof.
  intros (L & Wx & Wy). destruct L as [| | | |l l' HL H|]; try constructor. cbn [items]. apply jwf_arr in Wx, Wy. revert l' HL H Wy.
  induction Wx as [|a l Wa Wl IH]; intros [|b l'] HL H Wy; try discriminate; [constructor|]. inversion Wy; subst. constructor.
  - split; [exact (H 0 a b eq_refl eq_refl)|auto].
  - apply IH; [now injection HL|intros n x y Hx Hy; exact (H (S n) x y Hx Hy)|assumption].
Qed.
Lemma like_type x y : looks_like x y -> type_of x = type_of y.
Proof. now destruct 1. Qed.
Lemma like_has x y : looks_like x y -> forall k, has x k = has y k.
Proof.
  intros L k. assert (G : forall x y, looks_like x y -> has x k = true -> has y k = true).
  { clear. intros x y L H. destruct L as [| | | | |m m' HK _]; auto. unfold has in *. cbn [members] in *. apply existsb_exists in H. destruct H as ([k' v] & Hv & E).
    apply str_eqb_eq in E. cbn in E. subst k'. assert (K : In k (map fst m')) by (apply HK; now apply (in_map fst) in Hv). apply in_map_iff in K as ([k' w] & E & Hw). cbn in E; subst k'.
    apply existsb_exists. exists (k, w). split; [exact Hw|]. apply str_eqb_eq. reflexivity. }
  destruct (has x k) eqn:A, (has y k) eqn:B; auto; [rewrite (G _ _ L A) in B|rewrite (G _ _ (like_sym _ _ L) B) in A]; discriminate.
Qed.

(** ** Judging. *)
Section Judging.
Variable W : world.
Variable choose : pystr -> list sid -> sid -> sid.
Hypothesis Fair : even_handed N W.

Lemma describes_like x y t : looks_like x y -> describes x t = describes y t.
Proof. intro L. unfold describes. rewrite (like_type _ _ L). f_equal. destruct L; try reflexivity. now rewrite (integral_like _ _ (Nlike _ _ H)). Qed.
Lemma existsb_ext_in {A} (f g : A -> bool) l : (forall a, f a = g a) -> existsb f l = existsb g l.
Proof. intro H. induction l as [|a l IH]; [reflexivity|]. cbn [existsb]. now rewrite H, IH. Qed.
Lemma forallb_ext_in {A} (f g : A -> bool) l : (forall a, f a = g a) -> forallb f l = forallb g l.
Proof. intro H. induction l as [|a l IH]; [reflexivity|]. cbn [forallb]. now rewrite H, IH. Qed.
Lemma distinct_like l l' : Forall2 alike_values l l' -> distinct l = distinct l'.
Proof.
  induction 1 as [|a b l l' H F IH]; [reflexivity|]. cbn [distinct]. rewrite IH. f_equal. f_equal. clear IH.
  induction F as [|c e l l' H' F IH]; [reflexivity|]. cbn [existsb]. rewrite IH. f_equal. destruct H as (L & Wa & Wb), H' as (L' & Wc & We).
  now rewrite (proj1 (eqb_like a b c L Wa Wb)), (proj2 (eqb_like c e b L' Wc We)).
Qed.
Lemma assertion_like k c x y : alike_values x y -> assertion W k c x = assertion W k c y.
Proof.
  intro V. pose proof V as (L & Wx & Wy). pose proof (like_has x y L) as Hh. pose proof (like_items x y V) as Hi. pose proof (bag_length _ _ _ (like_members x y V)) as Hl.
  destruct c; cbn [assertion]; try reflexivity.
  - destruct (kw_json k) as [[| | |t|l|]| | |]; try reflexivity; [now rewrite (describes_like x y t L)|].
    destruct (strings l) as [ts|]; [|reflexivity]. cbn [obind]. f_equal. apply existsb_ext_in. intro t. now apply describes_like.
  - destruct (kw_json k) as [[| | | |l|]| | |]; try reflexivity. f_equal. apply existsb_ext_in. intro u. exact (proj2 (eqb_like x y u L Wx Wy)).
  - destruct (kw_json k); try reflexivity. f_equal. exact (proj1 (eqb_like x y v L Wx Wy)).
  - destruct L; try reflexivity. destruct (limit_of _) as [m|]; [|reflexivity]. f_equal. now apply Fair.
  - destruct L as [| |a b H| | |]; try reflexivity. unfold limit_ok. destruct (limit_of _) as [m|]; [|reflexivity]. cbn [obind]. destruct (rel_like a b m (Nlike _ _ H)) as (-> & _). reflexivity.
  - destruct L as [| |a b H| | |]; try reflexivity. unfold limit_ok. destruct (limit_of _) as [m|]; [|reflexivity]. cbn [obind]. destruct (rel_like a b m (Nlike _ _ H)) as (_ & -> & _). reflexivity.
  - destruct L as [| |a b H| | |]; try reflexivity. unfold limit_ok. destruct (limit_of _) as [m|]; [|reflexivity]. cbn [obind]. destruct (rel_like a b m (Nlike _ _ H)) as (_ & _ & -> & _). reflexivity.
  - destruct L as [| |a b H| | |]; try reflexivity. unfold limit_ok. destruct (limit_of _) as [m|]; [|reflexivity]. cbn [obind]. destruct (rel_like a b m (Nlike _ _ H)) as (_ & _ & _ & ->). reflexivity.
  - destruct L; reflexivity.
  - destruct L; reflexivity.
  - destruct L; reflexivity.
  - destruct L; try reflexivity. cbn [items] in Hi. now rewrite (Forall2_same_length _ _ _ Hi).
  - destruct L; try reflexivity. cbn [items] in Hi. now rewrite (Forall2_same_length _ _ _ Hi).
  - destruct L; try reflexivity. cbn [items] in Hi. destruct (kw_json k) as [[]| | |]; try reflexivity. now rewrite (distinct_like _ _ Hi).
  - destruct L; try reflexivity. cbn [members] in Hl. now rewrite Hl.
  - destruct L; try reflexivity. cbn [members] in Hl. now rewrite Hl.
  - destruct L; try reflexivity. destruct (kw_json k) as [[| | | |l0|]| | |]; try reflexivity. destruct (strings l0) as [ns|]; [|reflexivity]. cbn [obind]. f_equal. now apply forallb_ext_in.
  - destruct L; try reflexivity. destruct (kw_json k) as [[| | | | |m0]| | |]; try reflexivity. f_equal. f_equal. apply map_ext. intros [n v]. cbn [fst snd]. destruct v; try reflexivity.
    destruct (strings l) as [ns|]; [|reflexivity]. cbn [obind]. f_equal. rewrite Hh. f_equal. now apply forallb_ext_in.
  - destruct (kw_format k) as [ts|]; [|reflexivity]. destruct (kw_json k) as [[]| | |]; try reflexivity. rewrite (like_type _ _ L). f_equal. f_equal. now apply Fair.
Qed.

Section Kw.
Variable jd : list sid -> sid -> json -> option outcome.
Hypothesis Hj : forall sc t x y, alike_values x y -> orel oeq (jd sc t x) (jd sc t y).

Lemma orel_all2 {A B C} (P : B -> C -> Prop) (R : A -> A -> Prop) (f : B -> option A) (g : C -> option A) l l' :
  (forall a b, P a b -> orel R (f a) (g b)) -> Forall2 P l l' -> orel (Forall2 R) (all_some (map f l)) (all_some (map g l')).
Proof.
  intros H F. induction F as [|a b l l' Hp F IH]; [constructor|]. cbn [map all_some]. specialize (H a b Hp). destruct (f a), (g b); cbn in H; try contradiction; [|exact I].
  destruct (all_some (map f l)), (all_some (map g l')); cbn in *; try contradiction; [now constructor|exact I].
Qed.
Lemma orel_all_like sc ts x y : alike_values x y -> orel (Forall2 oeq) (all_some (map (fun t => jd sc t x) ts)) (all_some (map (fun t => jd sc t y) ts)).
Proof. intro V. apply orel_all. intros t _. now apply Hj. Qed.
Lemma Forall2_skipn {A B} (R : A -> B -> Prop) n l l' : Forall2 R l l' -> Forall2 R (skipn n l) (skipn n l').
Proof. intro F. revert n. induction F as [|a b l l' H F IH]; intros [|n]; cbn [skipn]; try constructor; auto. Qed.
Lemma equal_rest sc st t l l' : Forall2 alike_values l l' -> orel oeq (judge_rest jd sc st t l) (judge_rest jd sc st t l').
Proof.
  intro F. unfold judge_rest, judge_all. rewrite <- (Forall2_same_length _ _ _ F). eapply orel_bind.
  - eapply orel_all2; [|exact (Forall2_skipn _ st _ _ F)]. intros a b V. exact (Hj sc t a b V).
  - intros os os' G. cbn [orel]. now apply names_eq.
Qed.
Lemma equal_pairs sc ts l l' : Forall2 alike_values l l' -> orel oeq (judge_pairs jd sc ts l) (judge_pairs jd sc ts l').
Proof.
  intro F. unfold judge_pairs. rewrite <- (Forall2_same_length _ _ _ F).
  assert (G : Forall2 (fun a b : sid * json => fst a = fst b /\ alike_values (snd a) (snd b)) (combine ts l) (combine ts l')).
  { clear Hj. revert ts. induction F as [|a b l l' H F IH]; intros [|t ts]; cbn [combine]; constructor; auto. }
  eapply orel_bind; [eapply orel_all2; [|exact G]|].
  - intros [t a] [t' b] [E V]. cbn [fst snd] in *. subst t'. now apply Hj.
  - intros os os' H. cbn [orel]. now apply names_eq.
Qed.
Lemma equal_members sc t todo todo' : bag alike_member todo todo' -> orel oeq (judge_members jd sc t todo) (judge_members jd sc t todo').
Proof.
  intro B. unfold judge_members, judge_all. rewrite !map_map. eapply orel_bind.
  - eapply (orel_bag alike_member); [|exact B]. intros a b [_ V]. exact (Hj sc t _ _ V).
  - intros os os' G. cbn [orel]. split; [exact (bag_accept _ _ G)|]. split; [|split; intro; reflexivity]. cbn [o_names]. intro a. rewrite !in_map_iff. split.
    + intros (m & <- & Hm). destruct (bag_In _ _ _ _ B Hm) as (m' & Hm' & E & _). exists m'. auto.
    + intros (m & <- & Hm). destruct (bag_In' _ _ _ _ B Hm) as (m' & Hm' & E & _). exists m'. auto.
Qed.
Lemma filtered_combine {A} (g : A -> option bool) l bs : all_some (map g l) = Some bs ->
  map fst (filter (fun kb => negb (snd kb)) (combine l bs)) = filter (fun a => match g a with Some b => negb b | None => false end) l.
Proof.
  revert bs. induction l as [|a l IH]; intros bs H; cbn [map all_some] in H.
  - injection H as <-. reflexivity.
  - cbn [filter]. destruct (g a) as [b|] eqn:G; [|discriminate]. destruct (all_some (map g l)) as [bs'|]; [|discriminate]. injection H as <-. cbn [combine filter snd].
    destruct b; cbn [negb map fst]; [|f_equal]; now apply IH.
Qed.

Lemma equal_std sc kws k c x y : alike_values x y -> orel oeq (judge_std W choose jd sc kws k c x) (judge_std W choose jd sc kws k c y).
Proof.
  intro V. pose proof V as (L & _ & _). pose proof (like_items x y V) as Hi. pose proof (like_members x y V) as Hm.
  assert (As : orel oeq (obind (assertion W k c x) (fun b => Some (plain b))) (obind (assertion W k c y) (fun b => Some (plain b)))) by (rewrite (assertion_like k c x y V); apply orel_refl).
  destruct c; cbn [judge_std]; try exact As; try apply orel_refl.
  - apply orel_bind_same. auto.
  - apply orel_bind_same. auto.
  - apply orel_bind_same. auto.
  - apply orel_bind_same. intro ts. eapply orel_bind; [apply orel_all_like, V|]. intros os os' F. cbn. apply gather_eq; [now apply all_accept_eq|exact F].
  - apply orel_bind_same. intro ts. eapply orel_bind; [apply orel_all_like, V|]. intros os os' F. cbn. apply gather_eq; [now apply exists_eq|exact F].
  - apply orel_bind_same. intro ts. eapply orel_bind; [apply orel_all_like, V|]. intros os os' F. cbn. apply gather_eq; [now rewrite (count_eq _ _ F)|exact F].
  - apply orel_bind_same. intro t. eapply orel_bind; [apply Hj, V|]. intros o o' E. cbn. rewrite (proj1 E). apply oeq_refl.
  - apply orel_bind_same. intro t. eapply orel_bind; [apply Hj, V|]. intros o o' E. cbn [orel]. apply gather_eq; [reflexivity|]. constructor; [exact E|constructor].
  - destruct (dget (lit "if") kws); [|apply orel_refl]. apply orel_bind_same. intro t. eapply orel_bind; [apply Hj, V|]. intros o o' E.
    rewrite <- (proj1 E). destruct (o_ok o); [|apply orel_refl]. apply orel_bind_same. auto.
  - destruct (dget (lit "if") kws); [|apply orel_refl]. apply orel_bind_same. intro t. eapply orel_bind; [apply Hj, V|]. intros o o' E.
    rewrite <- (proj1 E). destruct (o_ok o); [apply orel_refl|]. apply orel_bind_same. auto.
  - apply orel_bind_same. intro m. rewrite (filter_ext (fun nt : pystr * sid => has y (fst nt)) (fun nt => has x (fst nt))) by (intro; symmetry; apply (like_has _ _ L)).
    eapply orel_bind; [apply orel_all; auto|]. intros os os' F. cbn. apply gather_eq; [now apply all_accept_eq|exact F].
  - apply orel_bind_same. intro. apply equal_pairs, Hi.
  - apply orel_bind_same. intro t. apply equal_rest, Hi.
  - apply orel_bind_same. intro t. eapply orel_bind.
    + unfold judge_all. eapply orel_all2; [|exact Hi]. intros a b Va. exact (Hj sc t a b Va).
    + intros os os' F. cbv zeta. rewrite <- (count_eq _ _ F), <- (accepted_eq _ _ F). apply orel_refl.
  - apply orel_bind_same. intro m. cbv zeta.
    assert (B : bag alike_member (filter (fun kv => dmem (fst kv) m) (members x)) (filter (fun kv => dmem (fst kv) m) (members y))) by (apply bag_filter; [intros a b [E _]; now rewrite E|exact Hm]).
    eapply orel_bind.
    + eapply (orel_bag alike_member oeq); [|exact B]. intros a b [E Va]. rewrite E. apply orel_bind_same. intro t. apply Hj, Va.
    + intros os os' G. cbn [orel]. split; [exact (bag_accept _ _ G)|]. split; [|split; intro; reflexivity]. cbn [o_names]. intro a. rewrite !in_map_iff. split.
      * intros (p & <- & Hp). destruct (bag_In _ _ _ _ B Hp) as (p' & Hp' & E & _). exists p'. auto.
      * intros (p & <- & Hp). destruct (bag_In' _ _ _ _ B Hp) as (p' & Hp' & E & _). exists p'. auto.
  - apply orel_bind_same. intro m. eapply orel_bind.
    + eapply (orel_bag alike_member oeq); [|exact Hm]. intros a b [E Va]. rewrite E. apply orel_bind_same. intro bs. cbv zeta.
      eapply orel_bind; [apply orel_all; intros t _; apply Hj, Va|]. intros os os' F. cbn [orel]. apply names_eq, F.
    + intros os os' G. cbn [orel]. split; [exact (bag_accept _ _ G)|]. split; [|split; intro; reflexivity]. cbn [o_names]. intro a. rewrite !in_flat_map. split.
      * intros (o & Ho & Hin). destruct (bag_In _ _ _ _ G Ho) as (o' & Ho' & E). exists o'. split; [exact Ho'|]. now apply E.
      * intros (o & Ho & Hin). destruct (bag_In' _ _ _ _ G Ho) as (o' & Ho' & E). exists o'. split; [exact Ho'|]. now apply E.
  - apply orel_bind_same. intro t. cbv zeta. set (known := names_under (subm_of (dget (lit "properties") kws))). set (pats := names_under _).
    assert (B : bag alike_member (filter (fun kv => negb (mem_str (fst kv) known)) (members x)) (filter (fun kv => negb (mem_str (fst kv) known)) (members y)))
      by (apply bag_filter; [intros a b [E _]; now rewrite E|exact Hm]).
    set (rx := filter _ (members x)) in *. set (ry := filter _ (members y)) in *.
    assert (S : orel (bag eq) (all_some (map (fun kv => matches_any W pats (fst kv)) rx)) (all_some (map (fun kv => matches_any W pats (fst kv)) ry))).
    { eapply (orel_bag alike_member eq); [|exact B]. intros a b [E _]. rewrite E. destruct (matches_any W pats (fst b)); cbn; auto. }
    destruct (all_some (map _ rx)) as [bx|] eqn:Ex, (all_some (map _ ry)) as [by_|] eqn:Ey; cbn in S; try contradiction; cbn [obind]; [|exact I].
    rewrite (filtered_combine _ _ _ Ex), (filtered_combine _ _ _ Ey). apply equal_members. apply bag_filter; [|exact B]. intros a b [E _]. now rewrite E.
  - apply orel_bind_same. intro t. unfold judge_all. rewrite !map_map. eapply orel_bind.
    + eapply (orel_bag alike_member oeq); [|exact Hm]. intros a b [E _]. rewrite E. apply orel_refl.
    + intros os os' G. cbn. rewrite (bag_accept _ _ G). apply oeq_refl.
  - destruct (kw_json k); try apply orel_refl; [apply equal_rest, Hi|apply equal_pairs, Hi].
  - destruct (subs_of (dget (lit "items") kws)); [|apply orel_refl]. apply orel_bind_same. intro. apply equal_rest, Hi.
Qed.

Lemma equal_unevaluated sc o o' k c x y : alike_values x y -> oeq o o' -> orel oeq (judge_unevaluated jd sc o k c x) (judge_unevaluated jd sc o' k c y).
Proof.
  intros V (_ & E1 & E2 & E3). unfold judge_unevaluated. cbv zeta. pose proof (like_items x y V) as Hi. pose proof (like_members x y V) as Hm.
  assert (Nth : forall n, n < length (items x) -> alike_values (nth n (items x) JNull) (nth n (items y) JNull)).
  { clear - Hi. induction Hi as [|a b l l' H F IH]; intros n Hn; [cbn in Hn; lia|]. destruct n; [exact H|]. apply IH. cbn in Hn. lia. }
  assert (Q : forall ev ev', same_set ev ev' -> orel oeq
     (obind (sub_of (Some k)) (fun t => obind (judge_all jd sc t (map (fun n => nth n (items x) JNull) (filter (fun n => negb (existsb (Nat.eqb n) ev)) (seq 0 (length (items x))))))
        (fun os => Some (mkO (all_accept os) [] (filter (fun n => negb (existsb (Nat.eqb n) ev)) (seq 0 (length (items x)))) []))))
     (obind (sub_of (Some k)) (fun t => obind (judge_all jd sc t (map (fun n => nth n (items y) JNull) (filter (fun n => negb (existsb (Nat.eqb n) ev')) (seq 0 (length (items y))))))
        (fun os => Some (mkO (all_accept os) [] (filter (fun n => negb (existsb (Nat.eqb n) ev')) (seq 0 (length (items y)))) []))))).
  { intros ev ev' E. rewrite (filter_ext (fun n => negb (existsb (Nat.eqb n) ev')) (fun n => negb (existsb (Nat.eqb n) ev))) by (intro; now rewrite (exists_same _ _ E)).
    rewrite <- (Forall2_same_length _ _ _ Hi). apply orel_bind_same. intro t. unfold judge_all. rewrite !map_map. eapply orel_bind.
    - apply orel_all. intros n Hn. apply Hj, Nth. apply filter_In in Hn. destruct Hn as [Hn _]. apply in_seq in Hn. lia.
    - intros os os' F. cbn [orel]. now apply names_eq. }
  assert (M : orel oeq (obind (sub_of (Some k)) (fun t => judge_members jd sc t (filter (fun kv => negb (mem_str (fst kv) (o_names o))) (members x))))
                       (obind (sub_of (Some k)) (fun t => judge_members jd sc t (filter (fun kv => negb (mem_str (fst kv) (o_names o'))) (members y))))).
  { rewrite (filter_ext (fun kv => negb (mem_str (fst kv) (o_names o'))) (fun kv => negb (mem_str (fst kv) (o_names o)))) by (intro; now rewrite (mem_same _ _ E1)).
    apply orel_bind_same. intro t. apply equal_members. apply bag_filter; [|exact Hm]. intros a b [E _]. now rewrite E. }
  destruct c; try exact I; try exact M; apply Q; [|exact E2].
  intro a. rewrite !in_app_iff. now rewrite (E2 a), (E3 a).
Qed.

Lemma equal_code_rest sc st t l l' : Forall2 alike_values l l' -> orel oeq (code_rest jd sc st t l) (code_rest jd sc st t l').
Proof.
  intro F. unfold code_rest, judge_all. rewrite <- (Forall2_same_length _ _ _ F). eapply orel_bind.
  - eapply orel_all2; [|exact (Forall2_skipn _ st _ _ F)]. intros a b V. exact (Hj sc t a b V).
  - intros os os' G. cbn [orel]. rewrite (all_or_none_eq _ _ _ G). now apply names_eq.
Qed.
Lemma equal_code sc kws k c x y : alike_values x y -> orel oeq (code_std W choose jd sc kws k c x) (code_std W choose jd sc kws k c y).
Proof.
  intro V. pose proof (like_items x y V) as Hi.
  assert (Al : forall t, orel (Forall2 oeq) (judge_all jd sc t (items x)) (judge_all jd sc t (items y))).
  { intro t. unfold judge_all. eapply orel_all2; [|exact Hi]. intros a b Va. exact (Hj sc t a b Va). }
  assert (Lm : forall rel, orel oeq (code_limit jd sc kws rel k x) (code_limit jd sc kws rel k y)).
  { intro rel. unfold code_limit, code_count. destruct (dget _ kws) as [k'|]; [|apply orel_refl].
    destruct (sub_of (Some k')) as [t|]; cbn [obind]; [|exact I]. pose proof (Al t) as A.
    destruct (judge_all jd sc t (items x)) as [os|], (judge_all jd sc t (items y)) as [os'|]; cbn in A; try contradiction; cbn [obind]; [|exact I].
    rewrite (count_eq _ _ A). apply orel_refl. }
  destruct c; try exact (equal_std sc kws k _ x y V); cbn [code_std].
  - apply orel_bind_same. intro t. eapply orel_bind; [apply Hj, V|]. intros o o' (E & E1 & E2). cbn. rewrite E. split; [reflexivity|]. now split.
  - apply orel_bind_same. intro t. apply equal_code_rest, Hi.
  - apply orel_bind_same. intro t. eapply orel_bind; [apply Al|]. intros os os' F. cbv zeta. rewrite <- (count_eq _ _ F), <- (accepted_eq _ _ F). apply orel_refl.
  - destruct (kw_json k) as [|t|ts|]; try apply orel_refl; [|apply equal_pairs, Hi]. destruct (w_schema W t); [|apply equal_rest, Hi].
    destruct Hi; [apply orel_refl|apply Hj, V].
  - destruct (subs_of (dget (lit "items") kws)) as [ts|]; [|apply orel_refl]. apply orel_bind_same. intro t.
    eapply orel_bind; [apply equal_pairs, Hi|]. intros o o' E. rewrite (proj1 E). destruct (o_ok o'); [apply equal_code_rest, Hi|apply orel_refl].
  - apply Lm.
  - apply Lm.
Qed.
Lemma equal_code_unevaluated sc o o' k c x y : alike_values x y -> oeq o o' -> orel oeq (code_unevaluated jd sc o k c x) (code_unevaluated jd sc o' k c y).
Proof.
  intros V (_ & E1 & E2 & E3). unfold code_unevaluated, judge_unevaluated. cbv zeta. pose proof (like_items x y V) as Hi. pose proof (like_members x y V) as Hm.
  assert (Nth : forall n, n < length (items x) -> alike_values (nth n (items x) JNull) (nth n (items y) JNull)).
  { clear - Hi. induction Hi as [|a b l l' H F IH]; intros n Hn; [cbn in Hn; lia|]. destruct n; [exact H|]. apply IH. cbn in Hn. lia. }
  assert (Q : forall ev ev', same_set ev ev' -> orel oeq
     (obind (sub_of (Some k)) (fun t => obind (judge_all jd sc t (map (fun n => nth n (items x) JNull) (filter (fun n => negb (existsb (Nat.eqb n) ev)) (seq 0 (length (items x))))))
        (fun os => Some (mkO (all_accept os) [] (all_or_none os (length (items x))) []))))
     (obind (sub_of (Some k)) (fun t => obind (judge_all jd sc t (map (fun n => nth n (items y) JNull) (filter (fun n => negb (existsb (Nat.eqb n) ev')) (seq 0 (length (items y))))))
        (fun os => Some (mkO (all_accept os) [] (all_or_none os (length (items y))) []))))).
  { intros ev ev' E. rewrite (filter_ext (fun n => negb (existsb (Nat.eqb n) ev')) (fun n => negb (existsb (Nat.eqb n) ev))) by (intro; now rewrite (exists_same _ _ E)).
    rewrite <- (Forall2_same_length _ _ _ Hi). apply orel_bind_same. intro t. unfold judge_all. rewrite !map_map. eapply orel_bind.
    - apply orel_all. intros n Hn. apply Hj, Nth. apply filter_In in Hn. destruct Hn as [Hn _]. apply in_seq in Hn. lia.
    - intros os os' F. cbn [orel]. rewrite (all_or_none_eq _ _ _ F). now apply names_eq. }
  assert (M : orel oeq (obind (sub_of (Some k)) (fun t => judge_members jd sc t (filter (fun kv => negb (mem_str (fst kv) (o_names o))) (members x))))
                       (obind (sub_of (Some k)) (fun t => judge_members jd sc t (filter (fun kv => negb (mem_str (fst kv) (o_names o'))) (members y))))).
  { rewrite (filter_ext (fun kv => negb (mem_str (fst kv) (o_names o'))) (fun kv => negb (mem_str (fst kv) (o_names o)))) by (intro; now rewrite (mem_same _ _ E1)).
    apply orel_bind_same. intro t. apply equal_members. apply bag_filter; [|exact Hm]. intros a b [E _]. now rewrite E. }
  destruct c; try exact I; try exact M; apply Q; [|exact E2].
  intro a. rewrite !in_app_iff. now rewrite (E2 a), (E3 a).
Qed.

Lemma conclude_rel {A} (f g : A -> option outcome) l : (forall a, In a l -> orel oeq (f a) (g a)) -> orel oeq (conclude (map f l)) (conclude (map g l)).
Proof.
  intro H. apply conclude_like; intros a Ha; apply in_map_iff in Ha; destruct Ha as (b & <- & Hb); right.
  - exists (g b). split; [now apply in_map|auto].
  - exists (f b). split; [now apply in_map|apply orel_sym; auto].
Qed.
Lemma equal_object sc kws x y : alike_values x y -> orel oeq (judge_object W choose jd sc kws x) (judge_object W choose jd sc kws y).
Proof.
  intro V. unfold judge_object. cbv zeta. pose proof V as (L & _ & _).
  assert (C : filter (concerns y) (map snd kws) = filter (concerns x) (map snd kws)) by (apply filter_ext; intro k; unfold concerns; now rewrite (like_type _ _ L)).
  rewrite C. set (con := filter (concerns x) (map snd kws)).
  assert (E : orel oeq (conclude (map (judge_keyword W choose jd sc kws x) (filter (fun k => match late k with None => true | Some _ => false end) con)))
                       (conclude (map (judge_keyword W choose jd sc kws y) (filter (fun k => match late k with None => true | Some _ => false end) con)))).
  { apply conclude_rel. intros k _. unfold judge_keyword. destruct (kw_class k); [now apply equal_std|apply orel_refl]. }
  destruct (conclude (map (judge_keyword W choose jd sc kws x) _)) as [o|], (conclude (map (judge_keyword W choose jd sc kws y) _)) as [o'|]; cbn in E; try contradiction; [|exact I].
  rewrite <- (proj1 E). destruct (o_ok o); [|exact E].
  apply conclude_like; intros a Ha; destruct Ha as [<-|Ha]; right.
  - exists (Some o'). split; [now left|exact E].
  - apply in_flat_map in Ha. destruct Ha as (k & Hk & Ha). destruct (late k) as [c|] eqn:Hl; [|destruct Ha]. destruct Ha as [<-|[]].
    exists (judge_unevaluated jd sc o' k c y). split; [|now apply equal_unevaluated]. right. apply in_flat_map. exists k. split; [exact Hk|rewrite Hl; now left].
  - exists (Some o). split; [now left|apply oeq_sym, E].
  - apply in_flat_map in Ha. destruct Ha as (k & Hk & Ha). destruct (late k) as [c|] eqn:Hl; [|destruct Ha]. destruct Ha as [<-|[]].
    exists (judge_unevaluated jd sc o k c x). split; [|apply orel_sym; now apply equal_unevaluated]. right. apply in_flat_map. exists k. split; [exact Hk|rewrite Hl; now left].
Qed.
Lemma equal_code_object sc kws x y : alike_values x y -> orel oeq (code_object W choose jd sc kws x) (code_object W choose jd sc kws y).
Proof.
  intro V. unfold code_object. cbv zeta. pose proof V as (L & _ & _).
  assert (C : filter (concerns y) (map snd kws) = filter (concerns x) (map snd kws)) by (apply filter_ext; intro k; unfold concerns; now rewrite (like_type _ _ L)).
  rewrite C. set (con := filter (concerns x) (map snd kws)).
  assert (E : forall k, orel oeq (code_keyword W choose jd sc kws x k) (code_keyword W choose jd sc kws y k)).
  { intro k. unfold code_keyword. destruct (kw_class k); [now apply equal_code|apply orel_refl]. }
  eapply (orel_bind likes).
  { apply all_like; intros a Ha; apply in_map_iff in Ha; destruct Ha as (k & <- & Hk); right; eexists; (split; [apply in_map, Hk|]); [apply E|apply orel_sym, E]. }
  intros os os' F. eapply orel_bind; [|intros us us' F'; cbn [orel]; exact (likes_total _ _ _ _ F F')].
  apply all_like; intros a Ha; apply in_flat_map in Ha; destruct Ha as (k & Hk & Ha); (destruct (late k) as [c|] eqn:Hl; [|destruct Ha]); destruct Ha as [<-|[]]; right.
  - exists (code_unevaluated jd sc (gather true os') k c y). split; [apply in_flat_map; exists k; split; [exact Hk|rewrite Hl; now left]|].
    apply equal_code_unevaluated; [exact V|apply likes_gather, F].
  - exists (code_unevaluated jd sc (gather true os) k c x). split; [apply in_flat_map; exists k; split; [exact Hk|rewrite Hl; now left]|].
    apply orel_sym, equal_code_unevaluated; [exact V|apply likes_gather, F].
Qed.
End Kw.

Theorem equal_judge n : forall sc s x y, alike_values x y -> orel oeq (judge W choose n sc s x) (judge W choose n sc s y).
Proof.
  induction n as [|n IH]; intros sc s x y V; [exact I|]. cbn [judge]. destruct (w_schema W s) as [b|kws]; [apply orel_refl|]. exact (equal_object _ IH (s :: sc) kws x y V).
Qed.
Theorem equal_code_judge n : forall sc s x y, alike_values x y -> orel oeq (code_judge W choose n sc s x) (code_judge W choose n sc s y).
Proof.
  induction n as [|n IH]; intros sc s x y V; [exact I|]. cbn [code_judge]. destruct (w_schema W s) as [b|kws]; [apply orel_refl|]. exact (equal_code_object _ IH (s :: sc) kws x y V).
Qed.
End Judging.

Theorem equal_verdict W s x y b : even_handed N W -> looks_like x y -> jwf x = true -> jwf y = true -> verdict W s x b -> verdict W s y b.
Proof.
  intros F L Wx Wy (n & o & J & O). pose proof (equal_judge W (dynamic_choice W) F n [] s x y (conj L (conj Wx Wy))) as E. rewrite J in E.
  destruct (judge W (dynamic_choice W) n [] s y) as [o'|] eqn:J'; cbn in E; [|contradiction]. exists n, o'. split; [exact J'|]. now rewrite <- (proj1 E).
Qed.
Theorem equal_valid W d legacy fuel fuel' s i i' r r' : even_handed N W -> dialect legacy d -> good_world d W ->
  looks_like (i_val i) (i_val i') -> jwf (i_val i) = true -> jwf (i_val i') = true ->
  evaluate_root W fuel s i = Ok r -> evaluate_root W fuel' s i' = Ok r' -> r_valid r = r_valid r'.
Proof.
  intros F Hd Hg L Wx Wy E E'.
  destruct (evaluate_root_code W d legacy Hd Hg fuel s i r Wx E) as (o & J & ->), (evaluate_root_code W d legacy Hd Hg fuel' s i' r' Wy E') as (o' & J' & ->).
  pose proof (equal_code_judge W (code_choice W) F fuel [] s _ _ (conj L (conj Wx Wy))) as A. rewrite J in A.
  destruct (code_judge W (code_choice W) fuel [] s (i_val i')) as [o2|] eqn:J2; cbn in A; [|contradiction].
  rewrite (proj1 A). f_equal. exact (code_unique _ _ _ _ _ _ _ _ _ J2 J').
Qed.
End Like.

Lemma like_refl (N : num -> num -> Prop) a : (forall n, N n n) -> jwf a = true -> looks_like N a a.
Proof.
  induction a as [| | | |l IH|m IH] using json_induction; intros R W; constructor; auto.
  - intros n x y Hx Hy. assert (x = y) by congruence. subst y. apply jwf_arr in W. rewrite Forall_forall in IH, W. apply nth_error_In in Hx. auto.
  - tauto.
  - intros k x y Hx Hy. apply jwf_obj in W as [Nk W]. rewrite Forall_forall in IH, W. apply (In_dget k x m Nk) in Hx as Ex. apply (In_dget k y m Nk) in Hy as Ey.
    assert (x = y) by congruence. subst y. apply (IH (k, x)); auto.
Qed.
Lemma jeq_like x y : jeq x y -> looks_like like_number x y.
Proof. induction 1; constructor; auto; now right. Qed.
(** ** Exact decimals. *)
Lemma dec_multiple_scale c e f k : (0 <= k)%Z -> dec_multiple (c * 10 ^ k, e - k)%Z f = dec_multiple (c, e) f.
Proof.
  intro K. destruct f as [g h]. unfold dec_multiple. cbn [fst snd]. set (d := (Z.min e h - Z.min (e - k) h)%Z). assert (D : (0 <= d)%Z) by (unfold d; lia).
  assert (P : (0 < 10 ^ d)%Z) by (apply Z.pow_pos_nonneg; lia).
  replace (Z.abs (c * 10 ^ k) * 10 ^ (e - k - Z.min (e - k) h))%Z with (Z.abs c * 10 ^ (e - Z.min e h) * 10 ^ d)%Z.
  2:{ rewrite Z.abs_mul, (Z.abs_eq (10 ^ k)) by (apply Z.pow_nonneg; lia). rewrite <- !Z.mul_assoc, <- !Z.pow_add_r by lia. f_equal. f_equal. unfold d. lia. }
  replace (Z.abs g * 10 ^ (h - Z.min (e - k) h))%Z with (Z.abs g * 10 ^ (h - Z.min e h) * 10 ^ d)%Z.
  2:{ rewrite <- !Z.mul_assoc, <- !Z.pow_add_r by lia. f_equal. f_equal. unfold d. lia. }
  set (x := (Z.abs c * _)%Z). set (y := (Z.abs g * _)%Z). destruct (Z.eq_dec y 0) as [Y|Y].
  - rewrite Y. reflexivity.
  - rewrite Z.div_mul_cancel_r by lia. rewrite Z.mul_mod_distr_r by lia.
    assert (E1 : (y * 10 ^ d =? 0)%Z = (y =? 0)%Z) by (apply eq_true_iff_eq; rewrite !Z.eqb_eq; nia).
    assert (E2 : (x mod y * 10 ^ d =? 0)%Z = (x mod y =? 0)%Z) by (apply eq_true_iff_eq; rewrite !Z.eqb_eq; nia).
    now rewrite E1, E2.
Qed.
Lemma dec_scale c e f : (f <= e)%Z ->
  (inject_Z c * Qpower (inject_Z 10) e == inject_Z (c * 10 ^ (e - f)) * Qpower (inject_Z 10) f)%Q.
Proof.
  intro H. rewrite inject_Z_mult, Zpower_Qpower by lia. rewrite <- Qmult_assoc, <- Qpower_plus by (intro C; discriminate).
  replace (e - f + f)%Z with e by lia. reflexivity.
Qed.
Lemma dec_value_eq a b : (inject_Z (fst a) * Qpower (inject_Z 10) (snd a) == inject_Z (fst b) * Qpower (inject_Z 10) (snd b))%Q ->
  (forall m, dec_multiple a m = dec_multiple b m) /\ (fst a =? 0)%Z = (fst b =? 0)%Z.
Proof.
  destruct a as [c e], b as [g h]. cbn [fst snd]. intro E. set (f := Z.min e h).
  rewrite (dec_scale c e f), (dec_scale g h f) in E by (unfold f; lia).
  assert (P : ~ (Qpower (inject_Z 10) f == 0)%Q) by (apply Qpower_not_0; intro X; discriminate X).
  apply Qmult_inj_r in E; [|exact P]. apply (proj1 (inject_Z_injective _ _)) in E. split.
  - intro m. rewrite <- (dec_multiple_scale c e m (e - f)) by (unfold f; lia). rewrite <- (dec_multiple_scale g h m (h - f)) by (unfold f; lia).
    rewrite E. do 2 f_equal. lia.
  - apply eq_true_iff_eq. rewrite !Z.eqb_eq. assert (0 < 10 ^ (e - f) /\ 0 < 10 ^ (h - f))%Z by (split; apply Z.pow_pos_nonneg; unfold f; lia). split; intros ->; nia.
Qed.
Lemma dec_of_value W n x : num_Q n = Some x -> exactly_written W n -> exists d, dec_of W n = Some d /\ (inject_Z (fst d) * Qpower (inject_Z 10) (snd d) == x)%Q.
Proof.
  destruct n as [z|m e| |]; cbn [num_Q exactly_written dec_of]; intros E H; try discriminate; injection E as <-; eexists; (split; [reflexivity|]).
  - cbn [fst snd]. change (Qpower (inject_Z 10) 0) with 1%Q. ring.
  - exact H.
Qed.
Lemma on_par_multiple W a b m : on_par W a b -> is_multiple W a m = is_multiple W b m.
Proof.
  intros [->|(S & Ea & Eb)]; [reflexivity|]. unfold same_number in S. destruct (num_Q a) as [x|] eqn:Qa.
  - destruct (num_Q b) as [y|] eqn:Qb; [|contradiction]. destruct (dec_of_value W a x Qa Ea) as (d & Da & Va), (dec_of_value W b y Qb Eb) as (d' & Db & Vb).
    destruct (dec_value_eq d d') as [M Z]; [rewrite Va, Vb; exact S|]. unfold is_multiple. rewrite Da, Db. destruct (dec_of W m); [destruct d, d'; apply M|].
    destruct d as [c e], d' as [c' e']. cbn [fst] in Z. now rewrite Z.
  - destruct a; try discriminate Qa; [|destruct b; discriminate S || contradiction]. destruct b; cbn in S; try contradiction. reflexivity.
Qed.
Lemma on_par_like W a b : on_par W a b -> like_number a b.
Proof. intros [H|(H & _)]; [now left|now right]. Qed.
Lemma on_par_sym W a b : on_par W a b -> on_par W b a.
Proof. intros [->|(H & A & B)]; [now left|right; split; [now apply same_number_sym|auto]]. Qed.
Lemma on_par_fair W : fair_formats (on_par W) W -> even_handed (on_par W) W.
Proof. intro F. split; [exact F|]. intros a b m. apply on_par_multiple. Qed.
