(** C93: the text of a float (repr, str and json.dumps of a float). *)
From Coq Require Import String List Bool Lia ZArith.
From Verif Require Import BaseFacts PropsText Repr SpecDecimal.
Import ListNotations.
Open Scope string_scope.
Open Scope list_scope.
Open Scope Z_scope.

Lemma dv_from s : forall a, fold_left (fun a c => 10 * a + (Z.of_N c - 48)) s a = a * 10 ^ Z.of_nat (length s) + decimal_value s.
Proof.
  unfold decimal_value. induction s as [|c s IH]; intro a; [cbn; lia|]. cbn [fold_left]. rewrite IH. rewrite (IH (10 * 0 + (Z.of_N c - 48))). cbn [length]. rewrite Nat2Z.inj_succ, Z.pow_succ_r by lia. lia.
Qed.
Lemma dv_app a b : decimal_value (a ++ b) = decimal_value a * 10 ^ Z.of_nat (length b) + decimal_value b.
Proof. unfold decimal_value at 1. rewrite fold_left_app. exact (dv_from b _). Qed.
Lemma dv_zeros n : decimal_value (repeat 48%N n) = 0.
Proof. induction n as [|n IH]; [reflexivity|]. cbn [repeat]. change (48%N :: repeat 48%N n) with ([48%N] ++ repeat 48%N n). rewrite dv_app, IH. reflexivity. Qed.
Lemma zeros_decimal n : Forall (fun c => (48 <= c <= 57)%N) (repeat 48%N n).
Proof. apply Forall_forall. intros x I. apply repeat_spec in I. subst. lia. Qed.
Lemma abs_text c : str_of_Z (Z.abs c) = str_of_N (Z.abs_N c).
Proof. unfold str_of_Z. destruct (Z.ltb_spec (Z.abs c) 0); [lia|]. f_equal. lia. Qed.
Lemma digits_text n : (0 < n)%N -> exists d r, str_of_N n = d :: r /\ d <> 48%N /\ Forall (fun c => (48 <= c <= 57)%N) (d :: r) /\ decimal_value (d :: r) = Z.of_N n.
Proof.
  intro P. destruct (integer_text n) as [I V]. destruct I as [E|(D & d & r & E & N)].
  - exfalso. rewrite E in V. change (decimal_value [48%N]) with 0 in V. lia.
  - exists d, r. rewrite E in V, D. split; [exact E|]. split; [exact N|]. split; [exact (proj2 D)|exact V].
Qed.
Lemma any_digits n : decimal (str_of_N n) /\ decimal_value (str_of_N n) = Z.of_N n.
Proof.
  destruct (integer_text n) as [[E|(D & _)] V]; split; auto. rewrite E. split; [discriminate|constructor; [lia|constructor]].
Qed.
Lemma exponent_text x : exponent_of (101%N :: (if x <? 0 then [45%N] else [43%N]) ++ (if Z.abs x <? 10 then [48%N] else []) ++ str_of_Z (Z.abs x)) x.
Proof.
  rewrite abs_text. destruct (any_digits (Z.abs_N x)) as [[Ne D] V]. set (t := (if Z.abs x <? 10 then [48%N] else []) ++ str_of_N (Z.abs_N x)).
  assert (T : decimal t /\ decimal_value t = Z.abs x).
  { unfold t. destruct (Z.abs x <? 10); cbn [app].
    - split; [split; [discriminate|constructor; [lia|exact D]]|]. change (48%N :: str_of_N (Z.abs_N x)) with ([48%N] ++ str_of_N (Z.abs_N x)). rewrite dv_app, V. change (decimal_value [48%N]) with 0. lia.
    - split; [split; [exact Ne|exact D]|]. rewrite V. lia. }
  destruct T as [Dt Vt]. destruct (Z.ltb_spec x 0); cbn [app].
  - replace x with (- decimal_value t) at 1 by lia. now constructor.
  - replace x with (decimal_value t) at 1 by lia. now constructor.
Qed.
Lemma signed_text c : signed (if c <? 0 then [45%N] else []) (if c <? 0 then -1 else 1).
Proof. destruct (c <? 0); constructor. Qed.
Lemma sign_abs c : (if c <? 0 then -1 else 1) * Z.abs c = c.
Proof. destruct (Z.ltb_spec c 0); lia. Qed.
Lemma same_refl c k : same_decimal c k c k.
Proof. exists k. lia. Qed.

(** Whatever the digits and the exponent, the text is that of a float and
    stands for exactly that number. *)
Theorem C93_decimal : forall c k, exists c' k', stands_for_decimal (decimal_text (c, k)) c' k' /\ same_decimal c' k' c k.
Proof.
  intros c k. unfold decimal_text. rewrite abs_text. destruct (Z.eqb_spec c 0) as [->|Nc].
  { exists 0, (-1). split; [|exists (Z.min (-1) k); lia]. exists [], [48%N], (46%N :: [48%N]), [48%N], [], 1, 0. split; [constructor|]. split; [now left|].
    split; [constructor; split; [discriminate|constructor; [lia|constructor]]|]. split; [constructor|]. split; [left; discriminate|]. repeat split; reflexivity. }
  destruct (digits_text (Z.abs_N c) ltac:(lia)) as (d & r & E & Nd & D & V). rewrite E. assert (Va : decimal_value (d :: r) = Z.abs c) by lia. set (point := Z.of_nat (length (d :: r)) + k).
  assert (Dd : (48 <= d <= 57)%N) by now inversion D. assert (Dr : Forall (fun c => (48 <= c <= 57)%N) r) by now inversion D.
  destruct ((point <=? -4) || (16 <? point)) eqn:Ex.
  - exists c, k. split; [|apply same_refl]. destruct (Z.ltb_spec 1 (Z.of_nat (length (d :: r)))) as [L|L]; cbn [length] in L.
    + exists (if c <? 0 then [45%N] else []), [d], (46%N :: r), r, (101%N :: (if point - 1 <? 0 then [45%N] else [43%N]) ++ (if Z.abs (point - 1) <? 10 then [48%N] else []) ++ str_of_Z (Z.abs (point - 1))), (if c <? 0 then -1 else 1), (point - 1).
      split; [apply signed_text|]. split; [right; split; [split; [discriminate|now constructor]|exists d, []; auto]|]. split; [constructor; split; [destruct r; [cbn in L; lia|discriminate]|exact Dr]|]. split; [apply exponent_text|].
      split; [left; discriminate|]. split; [reflexivity|]. split; [cbn [app]; rewrite Va; symmetry; apply sign_abs|]. unfold point. cbn [length]. lia.
    + assert (r = []) by (destruct r; [reflexivity|cbn in L; lia]). subst r.
      exists (if c <? 0 then [45%N] else []), [d], [], [], (101%N :: (if point - 1 <? 0 then [45%N] else [43%N]) ++ (if Z.abs (point - 1) <? 10 then [48%N] else []) ++ str_of_Z (Z.abs (point - 1))), (if c <? 0 then -1 else 1), (point - 1).
      split; [apply signed_text|]. split; [right; split; [split; [discriminate|now constructor]|exists d, []; auto]|]. split; [constructor|]. split; [apply exponent_text|].
      split; [right; discriminate|]. split; [reflexivity|]. split; [cbn [app]; rewrite Va; symmetry; apply sign_abs|]. unfold point. cbn [length]. lia.
  - apply orb_false_iff in Ex as [E1 E2]. apply Z.leb_gt in E1. apply Z.ltb_ge in E2. destruct (Z.leb_spec point 0) as [Lp|Lp].
    + exists c, k. split; [|apply same_refl]. unfold zeros. exists (if c <? 0 then [45%N] else []), [48%N], (46%N :: repeat 48%N (Z.to_nat (- point)) ++ d :: r), (repeat 48%N (Z.to_nat (- point)) ++ d :: r), [], (if c <? 0 then -1 else 1), 0.
      split; [apply signed_text|]. split; [now left|]. split; [constructor; split; [destruct (Z.to_nat (- point)); discriminate|apply Forall_app; split; [apply zeros_decimal|exact D]]|]. split; [constructor|].
      split; [left; discriminate|]. split; [rewrite app_nil_r; reflexivity|]. split.
      * rewrite app_assoc, dv_app, Va. change ([48%N] ++ repeat 48%N (Z.to_nat (- point))) with (repeat 48%N (S (Z.to_nat (- point)))). rewrite dv_zeros. cbn [Z.mul Z.add]. symmetry. rewrite sign_abs. reflexivity.
      * rewrite app_length, repeat_length. unfold point in *. lia.
    + destruct (Z.leb_spec 0 k) as [Lk|Lk].
      * exists (c * 10 ^ (k + 1)), (-1). split; [|exists (-1); replace (k - -1) with (k + 1) by lia; lia]. unfold zeros.
        exists (if c <? 0 then [45%N] else []), ((d :: r) ++ repeat 48%N (Z.to_nat k)), (46%N :: [48%N]), [48%N], [], (if c <? 0 then -1 else 1), 0.
        split; [apply signed_text|]. split; [right; split; [split; [discriminate|apply Forall_app; split; [exact D|apply zeros_decimal]]|exists d, (r ++ repeat 48%N (Z.to_nat k)); auto]|].
        split; [constructor; split; [discriminate|constructor; [lia|constructor]]|]. split; [constructor|]. split; [left; discriminate|]. split; [rewrite app_nil_r, <- app_assoc; reflexivity|]. split; [|reflexivity].
        rewrite <- app_assoc, dv_app, Va. replace (repeat 48%N (Z.to_nat k) ++ [48%N]) with (repeat 48%N (S (Z.to_nat k))) by (rewrite <- (repeat_cons (Z.to_nat k) 48%N); reflexivity). rewrite dv_zeros, repeat_length, Z.add_0_r.
        replace (Z.of_nat (S (Z.to_nat k))) with (k + 1) by lia. rewrite Z.mul_assoc, sign_abs. reflexivity.
      * exists c, k. split; [|apply same_refl]. assert (Lt : (Z.to_nat point < length (d :: r))%nat) by (unfold point; lia). assert (Lz : (0 < Z.to_nat point)%nat) by lia.
        pose proof (firstn_skipn (Z.to_nat point) (d :: r)) as Sp. set (a := firstn (Z.to_nat point) (d :: r)) in *. set (b := skipn (Z.to_nat point) (d :: r)) in *.
        assert (La : length b = (length (d :: r) - Z.to_nat point)%nat) by apply skipn_length. assert (Df : Forall (fun c => (48 <= c <= 57)%N) (a ++ b)) by now rewrite Sp. apply Forall_app in Df as [Da Db].
        assert (Ha : exists a', a = d :: a') by (unfold a; destruct (Z.to_nat point); [lia|cbn [firstn]; eauto]). destruct Ha as [a' Ha].
        exists (if c <? 0 then [45%N] else []), a, (46%N :: b), b, [], (if c <? 0 then -1 else 1), 0. split; [apply signed_text|].
        split; [right; split; [split; [rewrite Ha; discriminate|exact Da]|exists d, a'; auto]|]. split; [constructor; split; [assert (Lb : (0 < length b)%nat) by lia; destruct b; [cbn in Lb; lia|discriminate]|exact Db]|]. split; [constructor|].
        split; [left; discriminate|]. split; [rewrite app_nil_r; reflexivity|]. split; [rewrite Sp, Va; symmetry; apply sign_abs|]. rewrite La. unfold point in *. lia.
Qed.
Print Assumptions C93_decimal.

(** In particular it is a float for JSON and for Python, whatever the digits. *)
Theorem C93_float_text : forall c k, float_text (decimal_text (c, k)).
Proof.
  intros c k. destruct (C93_decimal c k) as (c' & k' & (g & i & ft & fd & et & u & x & G & I & F & E & Ne & -> & _) & _). exists g, i, ft, et.
  split; [destruct G; constructor|]. split; [exact I|]. split; [destruct F; now constructor|]. split; [|auto].
  destruct E as [|d D|d D]; [constructor|exact (exp_some 101%N [43%N] d ltac:(auto) ltac:(auto) D)|exact (exp_some 101%N [45%N] d ltac:(auto) ltac:(auto) D)].
Qed.
Print Assumptions C93_float_text.

Example C93_decimal_case :
  decimal_text (-12, -5) = lit "-0.00012" /\ decimal_text (12, -6) = lit "1.2e-05" /\ decimal_text (5, 15) = lit "5000000000000000.0" /\
  decimal_text (5, 16) = lit "5e+16" /\ decimal_text (3125, -3) = lit "3.125".
Proof. repeat split. Qed.
