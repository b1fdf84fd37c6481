(** The assertion keywords decide what SpecAssert.v says. *)
From Coq Require Import QArith Qpower List.
From Verif Require Export SpecAssert JsonFacts SchemaKw.
Import ListNotations.
Open Scope nat_scope.

Lemma checked_eq b msg (c0 c : rnode) : Ok (check b msg c0) = Ok c -> exists msg, c = check b msg c0.
Proof. intros [= <-]. eauto. Qed.
Lemma told_eq b msg (c0 c : rnode) : tell b msg c0 = Ok c -> exists msg, c = check b msg c0.
Proof. apply tell_ok. Qed.
Lemma limit_eq W bad y v before after c0 c : (exists n, v = KJ (JNum n)) -> limit W bad y v before after c0 = Ok c ->
  exists b, limit_ok (fun a b => negb (bad a b)) y v = Some b /\ exists msg, c = check b msg c0.
Proof. intros (n & ->) E. apply limit_tells in E. destruct E as (m & t & Hm & ->). injection Hm as <-. eexists. split; [reflexivity|eauto]. Qed.

Lemma eval_assertion W ev i k cl anc parent c0 c : value_ok k = true -> kw_class k = Std cl ->
  assertive cl = true -> cl <> KFormat -> applicable k i = true ->
  eval_std W ev k cl i anc parent c0 = Ok c ->
  exists b, assertion W k cl (i_val i) = Some b /\ exists msg, c = check b msg c0.
Proof.
  intros Vk Hc As Nf Ap E. unfold value_ok in Vk. rewrite Hc in Vk. apply andb_true_iff in Vk. destruct Vk as [_ Vk].
  unfold applicable in Ap. rewrite Hc in Ap. apply andb_true_iff in Ap. destruct Ap as [_ Ap].
  remember (i_val i) as x eqn:Hx.
  destruct cl; try discriminate As; try contradiction; clear As; cbn [eval_std assertion] in *.
  all: try (destruct (kw_json k) as [[| |n| | |]| | |]; try discriminate Vk;
            unfold inst_num, inst_len in E; rewrite <- Hx in E; destruct x; try discriminate Ap;
            solve [apply (limit_eq _ _ _ _ _ _ c0 c (ex_intro _ n eq_refl) E)]).
  - (* type *)
    assert (TS : exists ts, type_names (kw_json k) = ts /\ match kw_json k with
        | KJ (JStr t) => Some (describes x t)
        | KJ (JArr l) => obind (strings l) (fun ts => Some (existsb (describes x) ts))
        | _ => None end = Some (existsb (describes x) ts)).
    { destruct (kw_json k) as [[| | |t|l|]| | |]; try discriminate Vk; cbn [type_names].
      - exists [t]. cbn [existsb]. rewrite orb_false_r. now split.
      - destruct (strings l) as [ts|] eqn:Sl; [|discriminate]. exists ts. split; [now apply strings_flat|reflexivity]. }
    destruct TS as (ts & T1 & T2). rewrite T2. eexists. split; [reflexivity|].
    unfold e_type in E. rewrite T1, <- Hx in E. rewrite describes_any.
    destruct (mem_str (type_name (type_of x)) ts) eqn:M; cbn [bind orb] in *.
    { solve [exact (checked_eq _ _ _ _ E)|exact (told_eq _ _ _ _ E)]. }
    destruct x as [| |n| | |]; try (solve [exact (checked_eq _ _ _ _ E)|exact (told_eq _ _ _ _ E)]).
    destruct (mem_str (lit "integer") ts); cbn [andb] in *; [|solve [exact (checked_eq _ _ _ _ E)|exact (told_eq _ _ _ _ E)]].
    destruct (num_integral n) as [b| |] eqn:I; cbn [bind] in E; try discriminate.
    rewrite <- (num_integral_spec _ _ I). solve [exact (checked_eq _ _ _ _ E)|exact (told_eq _ _ _ _ E)].
  - (* enum *)
    unfold e_enum in E. destruct (kw_json k) as [[| | | |l|]| | |]; try discriminate Vk. cbn [iterated bind] in E. rewrite <- Hx in E.
    eexists. split; [reflexivity|]. solve [exact (checked_eq _ _ _ _ E)|exact (told_eq _ _ _ _ E)].
  - (* const *)
    unfold e_const in E. destruct (kw_json k) as [u| | |]; try discriminate E. rewrite <- Hx in E.
    eexists. split; [reflexivity|]. solve [exact (checked_eq _ _ _ _ E)|exact (told_eq _ _ _ _ E)].
  - (* multipleOf *)
    unfold e_multipleOf, inst_num in E. rewrite <- Hx in E. destruct (kw_json k) as [[| |n| | |]| | |]; try discriminate Vk. destruct x; try discriminate Ap.
    eexists. split; [reflexivity|]. solve [exact (checked_eq _ _ _ _ E)|exact (told_eq _ _ _ _ E)].
  - (* pattern *)
    unfold e_pattern in E. rewrite <- Hx in E. destruct (kw_json k) as [[| | |r| |]| | |]; try discriminate E. destruct x as [| | |t| |]; try discriminate.
    destruct (w_search W r t) as [b|]; try discriminate. eexists. split; [reflexivity|]. solve [exact (checked_eq _ _ _ _ E)|exact (told_eq _ _ _ _ E)].
  - (* uniqueItems *)
    unfold e_uniqueItems in E. rewrite <- Hx in E. destruct (kw_json k) as [[|b| | | |]| | |]; try discriminate Vk. destruct x as [| | | |l|]; try discriminate.
    cbn [truthy] in E. eexists. split; [reflexivity|].
    pose proof (uniquified_distinct [] l) as U. cbn [existsb length] in U. rewrite Nat.add_0_l in U.
    assert (U' : forallb (fun _ : json => negb false) l = true) by (clear; induction l; auto).
    rewrite U' in U. cbn [andb] in U. destruct b; cbn [negb orb].
    + rewrite U in E. solve [exact (checked_eq _ _ _ _ E)|exact (told_eq _ _ _ _ E)].
    + injection E as <-. now exists [].
  - (* required *)
    unfold e_required in E. destruct (kw_json k) as [[| | | |l|]| | |]; try discriminate Vk. cbn [iterated_nodes bind] in E. destruct (strings l) as [ns|] eqn:Sl; [|discriminate].
    destruct x eqn:Ex; try discriminate. rewrite Hx. cbn [obind]. eexists. split; [reflexivity|].
    rewrite forallb_has, <- (missing_names_spec i l ns Sl). solve [exact (checked_eq _ _ _ _ E)|exact (told_eq _ _ _ _ E)].
  - (* dependentRequired *)
    unfold e_dependentRequired in E. destruct (kw_json k) as [[| | | | |m]| | |]; try discriminate Vk. cbn [iterated_items bind] in E.
    destruct (missing_dependents i m) as [b| |] eqn:Md; cbn [bind] in E; try discriminate.
    destruct (dependents_missing i m b Md Vk) as (bs & Hb & Hb').
    destruct x eqn:Ex; try discriminate. rewrite Hx. cbn [obind]. rewrite Hb. cbn [obind].
    eexists. split; [reflexivity|]. rewrite Hb'. solve [exact (checked_eq _ _ _ _ E)|exact (told_eq _ _ _ _ E)].
Qed.

(** ** Numbers. *)
Lemma num_ltb_Q a b p q : num_Q a = Some p -> num_Q b = Some q -> num_ltb a b = true <-> (p < q)%Q.
Proof.
  intros Ha Hb. unfold num_ltb. rewrite (num_compare_Q a b p q Ha Hb). rewrite Qlt_alt. destruct (p ?= q)%Q; split; congruence.
Qed.
Lemma num_leb_Q a b p q : num_Q a = Some p -> num_Q b = Some q -> num_leb a b = true <-> (p <= q)%Q.
Proof.
  intros Ha Hb. unfold num_leb. rewrite (num_compare_Q a b p q Ha Hb). rewrite Qle_alt. destruct (p ?= q)%Q; split; congruence.
Qed.
Lemma not_ltb_Q a b p q : num_Q a = Some p -> num_Q b = Some q -> negb (num_ltb a b) = true <-> (q <= p)%Q.
Proof.
  intros Ha Hb. rewrite negb_true_iff, <- not_true_iff_false, (num_ltb_Q _ _ _ _ Ha Hb). split; [apply Qnot_lt_le|apply Qle_not_lt].
Qed.
Lemma not_leb_Q a b p q : num_Q a = Some p -> num_Q b = Some q -> negb (num_leb a b) = true <-> (q < p)%Q.
Proof.
  intros Ha Hb. rewrite negb_true_iff, <- not_true_iff_false, (num_leb_Q _ _ _ _ Ha Hb). split; [apply Qnot_le_lt|apply Qlt_not_le].
Qed.

Lemma integral_Q n : integral n = true <-> exists q z, num_Q n = Some q /\ (q == inject_Z z)%Q.
Proof.
  destruct n as [z|m e|s|]; cbn [integral num_Q].
  - split; [intros _; exists (inject_Z z), z; split; reflexivity|reflexivity].
  - destruct (Z.leb_spec 0 e) as [L|L]; cbn [orb].
    + split; [intros _|reflexivity]. exists (inject_Z m * Qpower (inject_Z 2) e)%Q, (m * 2 ^ e)%Z. split; [reflexivity|].
      rewrite (Qpower2_nonneg_Z e L), inject_Z_mult. reflexivity.
    + assert (P : (Qpower (inject_Z 2) e * inject_Z (2 ^ (- e)) == 1)%Q).
      { rewrite <- Qpower2_nonneg_Z by lia. rewrite <- Qpower_plus by discriminate. replace (e + - e)%Z with 0%Z by lia. reflexivity. }
      assert (P2 : (2 ^ (- e) <> 0)%Z) by (apply Z.pow_nonzero; lia).
      rewrite Z.eqb_eq. split.
      * intro M. apply Z.div_exact in M; [|exact P2]. exists (inject_Z m * Qpower (inject_Z 2) e)%Q, (m / 2 ^ (- e))%Z. split; [reflexivity|].
        rewrite M at 1. rewrite inject_Z_mult. rewrite (Qmult_comm (inject_Z (2 ^ (- e)))), <- Qmult_assoc, (Qmult_comm (inject_Z (2 ^ (- e)))), P. ring.
      * intros (q & z & [= <-] & H). assert (H2 : (inject_Z m == inject_Z (z * 2 ^ (- e)))%Q).
        { rewrite inject_Z_mult, <- H, <- Qmult_assoc, P. ring. }
        unfold Qeq in H2. cbn in H2. rewrite !Z.mul_1_r in H2. rewrite H2. apply Z.mod_mul. exact P2.
  - split; [discriminate|]. intros (q & z & H & _). discriminate.
  - split; [discriminate|]. intros (q & z & H & _). discriminate.
Qed.

Lemma finite_Q n : finite (JNum n) = true -> exists q, num_Q n = Some q.
Proof. destruct n; cbn; try discriminate; eauto. Qed.

Lemma within_le x v n : limit_of v = Some n -> finite (JNum x) = true -> finite (JNum n) = true ->
  negb (num_gtb x n) = true <-> within Qle x v.
Proof.
  intros Hv Fx Fn. destruct (finite_Q _ Fx) as [p Hp], (finite_Q _ Fn) as [q Hq]. unfold num_gtb. rewrite (not_ltb_Q _ _ _ _ Hq Hp).
  destruct v as [[| |n'| | |]| | |]; try discriminate. cbn in Hv. injection Hv as ->. split.
  - intro H. now exists n, p, q.
  - intros (n' & p' & q' & [= <-] & Hp' & Hq' & H). congruence.
Qed.
Lemma within_lt x v n : limit_of v = Some n -> finite (JNum x) = true -> finite (JNum n) = true ->
  negb (num_geb x n) = true <-> within Qlt x v.
Proof.
  intros Hv Fx Fn. destruct (finite_Q _ Fx) as [p Hp], (finite_Q _ Fn) as [q Hq]. unfold num_geb. rewrite (not_leb_Q _ _ _ _ Hq Hp).
  destruct v as [[| |n'| | |]| | |]; try discriminate. cbn in Hv. injection Hv as ->. split.
  - intro H. now exists n, p, q.
  - intros (n' & p' & q' & [= <-] & Hp' & Hq' & H). congruence.
Qed.
Lemma within_ge x v n : limit_of v = Some n -> finite (JNum x) = true -> finite (JNum n) = true ->
  negb (num_ltb x n) = true <-> within (fun p q => Qle q p) x v.
Proof.
  intros Hv Fx Fn. destruct (finite_Q _ Fx) as [p Hp], (finite_Q _ Fn) as [q Hq]. rewrite (not_ltb_Q _ _ _ _ Hp Hq).
  destruct v as [[| |n'| | |]| | |]; try discriminate. cbn in Hv. injection Hv as ->. split.
  - intro H. now exists n, p, q.
  - intros (n' & p' & q' & [= <-] & Hp' & Hq' & H). congruence.
Qed.
Lemma within_gt x v n : limit_of v = Some n -> finite (JNum x) = true -> finite (JNum n) = true ->
  negb (num_leb x n) = true <-> within (fun p q => Qlt q p) x v.
Proof.
  intros Hv Fx Fn. destruct (finite_Q _ Fx) as [p Hp], (finite_Q _ Fn) as [q Hq]. rewrite (not_leb_Q _ _ _ _ Hp Hq).
  destruct v as [[| |n'| | |]| | |]; try discriminate. cbn in Hv. injection Hv as ->. split.
  - intro H. now exists n, p, q.
  - intros (n' & p' & q' & [= <-] & Hp' & Hq' & H). congruence.
Qed.

(** ** The rest. *)
Lemma describes_type x t : describes x t = true <-> of_type t x.
Proof.
  unfold describes, of_type. rewrite orb_true_iff.
  destruct x; cbn [type_of type_name]; try (rewrite (str_eqb_eq _ t); split; [intros [H|H]; [now symmetry|discriminate]|intros ->; now left]).
  rewrite str_eqb_eq, andb_true_iff, str_eqb_eq, integral_Q. split.
  - intros [H|[H1 H2]]; [left|right]; auto.
  - intros [H|[H1 H2]]; [left|right]; auto.
Qed.

Lemma strings_In l ns : strings l = Some ns -> forall s, In (JStr s) l <-> In s ns.
Proof.
  revert ns. induction l as [|x l IH]; intros ns E s; cbn [strings] in E; [injection E as <-; reflexivity|].
  destruct x; try discriminate. destruct (strings l) as [ss|]; [|discriminate]. injection E as <-. cbn [In]. rewrite (IH _ eq_refl).
  split; (intros [H|H]; [left; congruence|now right]).
Qed.

Lemma has_In x name : has x name = true <-> has_name x name.
Proof.
  unfold has, has_name. rewrite existsb_exists. split.
  - intros ([k y] & Hin & E). cbn [fst] in E. apply str_eqb_eq in E. subst k. eauto.
  - intros (y & Hin). exists (name, y). split; [exact Hin|]. cbn [fst]. now apply str_eqb_eq.
Qed.

Lemma distinct_spec l : Forall (fun y => jwf y = true) l ->
  distinct l = true <-> (forall i j y z, i < j -> nth_error l i = Some y -> nth_error l j = Some z -> ~ jeq y z).
Proof.
  induction 1 as [|a l Ha Hl IH]; cbn [distinct]; [split; [intros _ [|i] j y z _ H; discriminate|reflexivity]|].
  rewrite andb_true_iff, negb_true_iff, <- not_true_iff_false, existsb_exists, IH. split.
  - intros [N D] [|i] [|j] y z L Hi Hj Q; try lia.
    + cbn in Hi, Hj. injection Hi as <-. apply N. exists z. split; [exact (nth_error_In _ _ Hj)|].
      apply json_eqb_jeq; auto. rewrite Forall_forall in Hl. exact (Hl _ (nth_error_In _ _ Hj)).
    + cbn in Hi, Hj. apply (D i j y z); auto. lia.
  - intros D. split.
    + intros (z & Hz & E). apply In_nth_error in Hz. destruct Hz as [j Hj]. apply (D 0 (S j) a z); cbn; auto; [lia|].
      apply json_eqb_jeq; auto. rewrite Forall_forall in Hl. exact (Hl _ (nth_error_In _ _ Hj)).
    + intros i j y z L Hi Hj. apply (D (S i) (S j)); cbn; auto. lia.
Qed.

Theorem assertion_holds W k c x b : kw_class k = Std c -> asserts c = true -> value_ok k = true ->
  jwf x = true -> finite x = true -> plain_value (kw_json k) (fun u => jwf u = true /\ finite u = true) ->
  assertion W k c x = Some b -> (b = true <-> holds c (kw_json k) x).
Proof.
  intros Hc Ha Vk Wx Fx Hp E. unfold value_ok in Vk. rewrite Hc in Vk. apply andb_true_iff in Vk. destruct Vk as [_ Vk].
  destruct (kw_json k) as [u| | |] eqn:Hv; [|destruct c; try discriminate Ha; try discriminate Vk; cbn [assertion] in E; rewrite Hv in E; destruct x; discriminate..].
  destruct Hp as [Wu Fu].
  destruct c; try discriminate Ha; cbn [assertion holds] in *; rewrite Hv in E.
  all: try (destruct u as [| |n| | |]; try discriminate Vk; destruct x; try discriminate E; unfold limit_ok in E; cbn [limit_of obind] in E; injection E as <-;
    first [apply within_le|apply within_lt|apply within_ge|apply within_gt]; auto).
  - (* type *)
    destruct u as [| | |t|l|]; try discriminate E.
    + injection E as <-. rewrite describes_type. split; [intro H; left; eauto|]. intros [(t' & [= <-] & H)|(l & t' & [=] & _)]. exact H.
    + destruct (strings l) as [ts|] eqn:Sl; [|discriminate]. injection E as <-. rewrite existsb_exists. split.
      * intros (t & Hin & H). right. exists l, t. split; [reflexivity|]. split; [now apply (strings_In _ _ Sl)|]. now apply describes_type.
      * intros [(t' & [=] & _)|(l' & t & [= <-] & Hin & H)]. exists t. split; [now apply (strings_In _ _ Sl)|]. now apply describes_type.
  - (* enum *)
    destruct u as [| | | |l|]; try discriminate E. injection E as <-. rewrite existsb_exists. rewrite jwf_arr in Wu. rewrite Forall_forall in Wu. split.
    + intros (u & Hin & H). exists l, u. split; [reflexivity|]. split; [exact Hin|]. apply json_eqb_jeq; auto.
    + intros (l' & u & [= <-] & Hin & H). exists u. split; [exact Hin|]. apply json_eqb_jeq; auto.
  - (* const *)
    injection E as <-. rewrite (json_eqb_jeq x u Wx Wu). split; [eauto|]. intros (u' & [= <-] & H). exact H.
  - (* uniqueItems *)
    destruct u as [|bu| | | |]; try discriminate Vk. destruct x as [| | | |l|]; try discriminate E. injection E as <-. rewrite jwf_arr in Wx.
    rewrite orb_true_iff, (distinct_spec l Wx). destruct bu; cbn [negb].
    + split; [intros [H|H]; [discriminate|intros _; exact H]|intro H; right; exact (H eq_refl)].
    + split; [intros _ [=]|now left].
  - (* required *)
    destruct x as [| | | | |mx]; try discriminate E. destruct u as [| | | |l|]; try discriminate E. destruct (strings l) as [ns|] eqn:Sl; [|discriminate].
    cbn [obind] in E. injection E as <-. rewrite forallb_forall. split.
    + intros H l' name [= <-] Hin. apply has_In, H. now apply (strings_In _ _ Sl).
    + intros H name Hin. apply has_In, (H l name eq_refl). now apply (strings_In _ _ Sl).
  - (* dependentRequired *)
    destruct x as [| | | | |mx]; try discriminate E. destruct u as [| | | | |m]; try discriminate E.
    destruct (all_some _) as [bs|] eqn:A in E; [|discriminate]. cbn [obind] in E. injection E as <-.
    rewrite forallb_forall. split.
    + intros H m' name l name' [= <-] Hin Hl Hn. rewrite forallb_forall in Vk. pose proof (Vk _ Hin) as V2. cbn [snd] in V2.
      destruct (strings l) as [ns|] eqn:Sl; [|discriminate].
      assert (Hb : In (negb (has (JObj mx) name) || forallb (has (JObj mx)) ns) bs).
      { apply (all_some_In _ _ A). apply in_map_iff. exists (name, JArr l). split; [|exact Hin]. cbn [fst snd]. now rewrite Sl. }
      specialize (H _ Hb). unfold id in H. apply orb_true_iff in H. destruct H as [H|H].
      * apply has_In in Hn. rewrite Hn in H. discriminate.
      * rewrite forallb_forall in H. apply has_In, H. now apply (strings_In _ _ Sl).
    + intros H b Hb. apply (all_some_In _ _ A) in Hb. apply in_map_iff in Hb. destruct Hb as ([name v] & Eb & Hin). cbn [fst snd] in Eb.
      destruct v as [| | | |l|]; try discriminate. destruct (strings l) as [ns|] eqn:Sl; [|discriminate]. cbn [obind] in Eb. injection Eb as <-. unfold id.
      destruct (has (JObj mx) name) eqn:Hn; [|reflexivity]. cbn [negb orb]. apply forallb_forall. intros name' Hn'. apply has_In in Hn.
      apply has_In. apply (H m name l name' eq_refl Hin); [now apply (strings_In _ _ Sl)|exact Hn].
Qed.

Lemma eval_holds W ev i k c anc parent n n' : kw_class k = Std c -> asserts c = true -> value_ok k = true ->
  jwf (i_val i) = true -> finite (i_val i) = true -> plain_value (kw_json k) (fun u => jwf u = true /\ finite u = true) ->
  applicable k i = true -> r_valid n = true ->
  eval_std W ev k c i anc parent n = Ok n' -> (r_valid n' = true <-> holds c (kw_json k) (i_val i)).
Proof.
  intros Hc Ha Vk Wx Fx Hp Ap Vn E.
  destruct (eval_assertion W ev i k c anc parent n n' Vk Hc) as (b & A & msg & ->); auto.
  { destruct c; auto; discriminate. } { intros ->. discriminate. }
  rewrite <- (assertion_holds W k c (i_val i) b); auto. unfold check. destruct b; cbn [fail r_valid]; [rewrite Vn; split; reflexivity|split; discriminate].
Qed.
