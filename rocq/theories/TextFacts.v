(** The scanner of JSON text against the grammar. *)
From Verif Require Import BaseFacts SpecText.
Open Scope N_scope.

(** ** Blanks. *)
Lemma is_ws_iff c : is_ws c = true <-> c = 32 \/ c = 9 \/ c = 10 \/ c = 13.
Proof. unfold is_ws. rewrite !orb_true_iff, !N.eqb_eq. tauto. Qed.
Lemma ws_split s : exists w, blank w /\ s = w ++ ws s.
Proof.
  induction s as [|c r (w & B & E)]; [exists []; split; [constructor|reflexivity]|].
  cbn. destruct (is_ws c) eqn:W.
  - exists (c :: w). split; [constructor; [now apply is_ws_iff|exact B]|]. cbn. now rewrite <- E.
  - exists []. split; [constructor|reflexivity].
Qed.
Definition starts (s : pystr) : Prop := match s with [] => True | c :: _ => is_ws c = false end.
Lemma ws_starts s : starts (ws s).
Proof. induction s as [|c r IH]; cbn; [exact I|]. destruct (is_ws c) eqn:W; [exact IH|exact W]. Qed.
Lemma ws_blank w s : blank w -> starts s -> ws (w ++ s) = s.
Proof.
  intros B. induction B as [|c w H B IH]; cbn; intro S.
  - destruct s as [|c s]; [reflexivity|]. cbn in *. now rewrite S.
  - apply is_ws_iff in H. rewrite H. auto.
Qed.
Lemma ws_length s : (length (ws s) <= length s)%nat.
Proof. induction s as [|c r IH]; cbn; [lia|]. destruct (is_ws c); cbn; lia. Qed.

(** ** Strings. *)
Lemma hex_val_iff c v : hex_val c = Some v <-> hexadecimal c v.
Proof.
  unfold hex_val. split.
  - destruct ((48 <=? c) && (c <=? 57)) eqn:E1; [|destruct ((97 <=? c) && (c <=? 102)) eqn:E2; [|destruct ((65 <=? c) && (c <=? 70)) eqn:E3; [|discriminate]]]; intro H; injection H as <-.
    + apply andb_prop in E1 as [A B]. apply N.leb_le in A, B. replace c with (48 + (c - 48)) at 1 by lia. constructor. lia.
    + apply andb_prop in E2 as [A B]. apply N.leb_le in A, B. replace c with (97 + ((c - 87) - 10)) at 1 by lia. apply hex_af. lia.
    + apply andb_prop in E3 as [A B]. apply N.leb_le in A, B. replace c with (65 + ((c - 55) - 10)) at 1 by lia. apply hex_AF. lia.
  - intros [d H|d H|d H].
    + replace ((48 <=? 48 + d) && (48 + d <=? 57)) with true by (symmetry; rewrite andb_true_iff, !N.leb_le; lia). f_equal. lia.
    + replace ((48 <=? 97 + (d - 10)) && (97 + (d - 10) <=? 57)) with false by (symmetry; rewrite andb_false_iff, !N.leb_gt; lia).
      replace ((97 <=? 97 + (d - 10)) && (97 + (d - 10) <=? 102)) with true by (symmetry; rewrite andb_true_iff, !N.leb_le; lia). f_equal. lia.
    + replace ((48 <=? 65 + (d - 10)) && (65 + (d - 10) <=? 57)) with false by (symmetry; rewrite andb_false_iff, !N.leb_gt; lia).
      replace ((97 <=? 65 + (d - 10)) && (65 + (d - 10) <=? 102)) with false by (symmetry; rewrite andb_false_iff, !N.leb_gt; lia).
      replace ((65 <=? 65 + (d - 10)) && (65 + (d - 10) <=? 70)) with true by (symmetry; rewrite andb_true_iff, !N.leb_le; lia). f_equal. lia.
Qed.
Lemma hex4_iff a b c d u : hex4 a b c d = Some u <-> unit_of [a; b; c; d] u.
Proof.
  unfold hex4. split.
  - destruct (hex_val a) as [va|] eqn:A; [|discriminate]. destruct (hex_val b) as [vb|] eqn:B; [|discriminate].
    destruct (hex_val c) as [vc|] eqn:C; [|discriminate]. destruct (hex_val d) as [vd|] eqn:D; [|discriminate].
    intro H. injection H as <-. apply hex_val_iff in A, B, C, D.
    replace (((va * 16 + vb) * 16 + vc) * 16 + vd) with (4096 * va + 256 * vb + 16 * vc + vd) by lia. now constructor.
  - intro H. inversion H; subst. repeat match goal with X : hexadecimal _ _ |- _ => apply hex_val_iff in X; rewrite X end. f_equal. lia.
Qed.
Lemma unit_four_chars h u : unit_of h u -> exists a b c d, h = [a; b; c; d].
Proof. intros []. eauto. Qed.
Lemma high_iff c : high_surrogate c = true <-> leading c.
Proof. unfold high_surrogate, leading. rewrite andb_true_iff, !N.leb_le. tauto. Qed.
Lemma low_iff c : low_surrogate c = true <-> trailing c.
Proof. unfold low_surrogate, trailing. rewrite andb_true_iff, !N.leb_le. tauto. Qed.
Lemma join_value a b : join_surrogates a b = 65536 + 1024 * (a - 55296) + (b - 56320).
Proof. unfold join_surrogates. lia. Qed.
Lemma short_iff e c : short_escape e = Some c <-> escapes e c.
Proof.
  unfold short_escape. split.
  - repeat match goal with |- (if ?e =? ?n then _ else _) = _ -> _ => destruct (N.eqb_spec e n) as [->|]; [intro H; injection H as <-; constructor|] end. discriminate.
  - now intros [].
Qed.

Lemma emit_inv c x t r : emit c x = Some (t, r) -> exists t', t = c :: t' /\ x = Some (t', r).
Proof. destruct x as [[t' r']|]; cbn; [|discriminate]. intro H. injection H as <- <-. eauto. Qed.

Lemma scan_sound : forall n s t r, (length s < n)%nat -> scan_string s = Some (t, r) -> exists q, spells q t /\ s = q ++ 34 :: r.
Proof.
  induction n as [|n IH]; intros s t r L H; [lia|]. destruct s as [|c s]; [discriminate H|]. cbn in H, L.
  destruct (N.eqb_spec c 34) as [->|N34]. { injection H as <- <-. exists []. split; [constructor|reflexivity]. }
  destruct (N.eqb_spec c 92) as [->|N92].
  - destruct s as [|e r1]; [discriminate H|]. destruct (N.eqb_spec e 117) as [->|N117].
    + destruct r1 as [|h1 [|h2 [|h3 [|h4 r2]]]]; try discriminate H. cbn in L. destruct (hex4 h1 h2 h3 h4) as [u|] eqn:Hu; [|discriminate H].
      assert (Lone : ~ (leading u /\ goes_on r2) -> emit u (scan_string r2) = Some (t, r) -> exists q, spells q t /\ 92 :: 117 :: h1 :: h2 :: h3 :: h4 :: r2 = q ++ 34 :: r).
      { intros No E. apply emit_inv in E as (t' & -> & E). destruct (IH r2 t' r) as (q & Q & ->); [lia|exact E|].
        exists (92 :: 117 :: [h1; h2; h3; h4] ++ q). split; [|reflexivity]. apply sp_unit; [now apply hex4_iff| |exact Q].
        intros (Le & hh & w & rr & U & Tr & E'). apply No. split; [exact Le|]. exists hh, w, (rr ++ 34 :: r). rewrite E'. split; [exact U|]. split; [exact Tr|].
        cbn. now rewrite <- app_assoc. }
      destruct (high_surrogate u) eqn:Hi.
      * assert (Cut : forall b v k1 k2 k3 k4 r3, r2 = b :: v :: k1 :: k2 :: k3 :: k4 :: r3 -> ((b =? 92) && (v =? 117) = true -> hex4 k1 k2 k3 k4 <> None -> exists w, hex4 k1 k2 k3 k4 = Some w /\ low_surrogate w = false) ->
          ~ (leading u /\ goes_on r2)).
        { intros b v k1 k2 k3 k4 r3 -> Low (_ & hh & w & rr & U & Tr & E'). destruct (unit_four_chars _ _ U) as (a' & b' & c' & d' & ->). injection E' as -> -> -> -> -> -> _.
          apply hex4_iff in U. destruct Low as (w' & E1 & E2); [reflexivity|congruence|]. rewrite U in E1. injection E1 as <-. apply low_iff in Tr. congruence. }
        destruct r2 as [|b [|v [|k1 [|k2 [|k3 [|k4 r3]]]]]];
          try (apply Lone; [|exact H]; intros (_ & hh & w & rr & U & _ & E'); destruct (unit_four_chars _ _ U) as (a' & b' & c' & d' & ->); discriminate E').
        destruct ((b =? 92) && (v =? 117)) eqn:E'.
        -- destruct (hex4 k1 k2 k3 k4) as [w|] eqn:Hw; [|discriminate H]. destruct (low_surrogate w) eqn:Lo.
           ++ apply andb_prop in E' as [E1 E2]. apply N.eqb_eq in E1, E2. subst b v. apply emit_inv in H as (t' & -> & H).
              destruct (IH r3 t' r) as (q & Q & ->); [cbn in L; lia|exact H|].
              exists (92 :: 117 :: [h1; h2; h3; h4] ++ 92 :: 117 :: [k1; k2; k3; k4] ++ q). split; [|reflexivity]. rewrite join_value.
              apply sp_pair; try (now apply hex4_iff); [now apply high_iff|now apply low_iff|exact Q].
           ++ apply Lone; [|exact H]. apply (Cut b v k1 k2 k3 k4 r3 eq_refl). intros _ _. exists w. now rewrite Hw.
        -- apply Lone; [|exact H]. apply (Cut b v k1 k2 k3 k4 r3 eq_refl). intro X. congruence.
      * apply Lone; [|exact H]. intros (Le & _). apply high_iff in Le. congruence.
    + destruct (short_escape e) as [x|] eqn:Se; [|discriminate H]. apply emit_inv in H as (t' & -> & H).
      destruct (IH r1 t' r) as (q & Q & ->); [cbn in L; lia|exact H|]. exists (92 :: e :: q). split; [|reflexivity]. apply sp_escape; [now apply short_iff|exact Q].
  - destruct (N.ltb_spec c 32) as [|Ge]; [discriminate H|]. apply emit_inv in H as (t' & -> & H).
    destruct (IH s t' r) as (q & Q & ->); [lia|exact H|]. exists (c :: q). split; [|reflexivity]. now apply sp_char.
Qed.
Lemma scan_string_sound s t r : scan_string s = Some (t, r) -> exists q, spells q t /\ s = q ++ 34 :: r.
Proof. apply (scan_sound (S (length s))). lia. Qed.

Lemma pair_other {A} (x : N -> N -> N -> N -> pystr -> A) (y : A) r2 : ~ (exists r, r2 = 92 :: 117 :: r) ->
  match r2 with b :: v :: k1 :: k2 :: k3 :: k4 :: r3 => if (b =? 92) && (v =? 117) then x k1 k2 k3 k4 r3 else y | _ => y end = y.
Proof.
  intro H. destruct r2 as [|b [|v [|k1 [|k2 [|k3 [|k4 r3]]]]]]; try reflexivity. destruct ((b =? 92) && (v =? 117)) eqn:E; [|reflexivity].
  exfalso. apply H. apply andb_prop in E as [E1 E2]. apply N.eqb_eq in E1, E2. subst. eauto.
Qed.
Lemma scan_string_unit h1 h2 h3 h4 r2 : scan_string (92 :: 117 :: h1 :: h2 :: h3 :: h4 :: r2) =
  match hex4 h1 h2 h3 h4 with
  | None => None
  | Some u =>
      if high_surrogate u then
        match r2 with
        | b :: v :: k1 :: k2 :: k3 :: k4 :: r3 =>
            if (b =? 92) && (v =? 117) then
              match hex4 k1 k2 k3 k4 with
              | None => None
              | Some w => if low_surrogate w then emit (join_surrogates u w) (scan_string r3)
                          else emit u (scan_string r2)
              end
            else emit u (scan_string r2)
        | _ => emit u (scan_string r2)
        end
      else emit u (scan_string r2)
  end.
Proof. reflexivity. Qed.
Lemma scan_string_complete q t : spells q t -> forall r, scan_string (q ++ 34 :: r) = Some (t, r).
Proof.
  induction 1 as [|c q t G N34 N92 Q IH|e c q t E Q IH|h u q t U No Q IH|h u k w q t U Le K Tr Q IH]; intro r.
  - reflexivity.
  - cbn. replace (c =? 34) with false by (symmetry; now apply N.eqb_neq). replace (c =? 92) with false by (symmetry; now apply N.eqb_neq).
    replace (c <? 32) with false by (symmetry; now apply N.ltb_ge). now rewrite IH.
  - cbn. assert (E117 : (e =? 117) = false) by now destruct E. rewrite E117. apply short_iff in E. now rewrite E, IH.
  - destruct (unit_four_chars _ _ U) as (a & b & c & d & ->). pose proof U as U'. apply hex4_iff in U'. cbn [app]. rewrite scan_string_unit, U'.
    destruct (high_surrogate u) eqn:Hi; [|now rewrite IH].
    assert (Cases : (~ exists x, q ++ 34 :: r = 92 :: 117 :: x) \/ exists a' b' c' d' u' q', q = 92 :: 117 :: a' :: b' :: c' :: d' :: q' /\ unit_of [a'; b'; c'; d'] u').
    { clear - Q. destruct Q as [|c' q' t' G N34 N92 Q'|e c' q' t' E Q'|h' u' q' t' U1 No1 Q'|h' u' k' w' q' t' U1 Le1 K1 Tr1 Q'].
      - left. intros (x & X). discriminate X.
      - left. intros (x & X). injection X as X _. contradiction.
      - left. intros (x & X). injection X as -> _. inversion E.
      - right. destruct (unit_four_chars _ _ U1) as (a' & b' & c' & d' & ->). exists a', b', c', d', u', q'. auto.
      - right. destruct (unit_four_chars _ _ U1) as (a' & b' & c' & d' & ->). exists a', b', c', d', u', (92 :: 117 :: k' ++ q'). auto. }
    destruct Cases as [Other|(a' & b' & c' & d' & u' & q' & -> & U1)].
    + rewrite (pair_other (fun k1 k2 k3 k4 r3 => match hex4 k1 k2 k3 k4 with None => None | Some w => if low_surrogate w then emit (join_surrogates u w) (scan_string r3) else emit u (scan_string (q ++ 34 :: r)) end)) by exact Other.
      now rewrite IH.
    + pose proof U1 as U2. apply hex4_iff in U2. specialize (IH r). cbn [app] in IH |- *.
      rewrite U2, !N.eqb_refl. cbn [andb]. destruct (low_surrogate u') eqn:Lo; [|now rewrite IH].
      exfalso. apply No. split; [now apply high_iff|]. exists [a'; b'; c'; d'], u', q'. split; [exact U1|]. split; [now apply low_iff|reflexivity].
  - destruct (unit_four_chars _ _ U) as (a & b & c & d & ->). destruct (unit_four_chars _ _ K) as (a' & b' & c' & d' & ->).
    pose proof U as U'. apply hex4_iff in U'. pose proof K as K'. apply hex4_iff in K'. cbn [app]. rewrite scan_string_unit, U', K', !N.eqb_refl. cbn [andb].
    apply high_iff in Le. apply low_iff in Tr. rewrite Le, Tr, IH. cbn [emit]. now rewrite join_value.
Qed.

(** ** Numbers. *)
Lemma is_digit_iff c : is_digit c = true <-> 48 <= c <= 57.
Proof. unfold is_digit. rewrite andb_true_iff, !N.leb_le. tauto. Qed.
Lemma digit_span_sound s : forall d r, digit_span s = (d, r) -> Forall (fun c => 48 <= c <= 57) d /\ s = d ++ r.
Proof.
  induction s as [|c s IH]; cbn; intros d r H.
  - injection H as <- <-. split; [constructor|reflexivity].
  - destruct (is_digit c) eqn:D.
    + destruct (digit_span s) as [d' r'] eqn:E. injection H as <- <-. destruct (IH d' r' eq_refl) as [A ->]. split; [constructor; [now apply is_digit_iff|exact A]|reflexivity].
    + injection H as <- <-. split; [constructor|reflexivity].
Qed.
Definition no_digit (r : pystr) : Prop := match r with c :: _ => is_digit c = false | [] => True end.
Lemma digit_span_complete d : Forall (fun c => 48 <= c <= 57) d -> forall r, no_digit r -> digit_span (d ++ r) = (d, r).
Proof.
  induction 1 as [|c d H D IH]; intros r N; cbn.
  - destruct r as [|c r]; [reflexivity|]. cbn in *. now rewrite N.
  - apply is_digit_iff in H. now rewrite H, IH.
Qed.
Lemma int_part_sound s i r : int_part s = Some (i, r) -> integer_part i /\ s = i ++ r.
Proof.
  destruct s as [|c s]; cbn; [discriminate|]. destruct (N.eqb_spec c 48) as [->|N48].
  - intro H. injection H as <- <-. split; [now left|reflexivity].
  - destruct (is_digit c) eqn:D; [|discriminate]. destruct (digit_span s) as [d r'] eqn:E. intro H. injection H as <- <-.
    apply digit_span_sound in E as [A ->]. split; [right|reflexivity]. split; [|eauto]. split; [discriminate|]. constructor; [now apply is_digit_iff|exact A].
Qed.
Lemma int_part_complete i r : integer_part i -> no_digit r -> int_part (i ++ r) = Some (i, r).
Proof.
  intros [->|((_ & D) & c & d & -> & N48)] N; [reflexivity|]. cbn. inversion D as [|? ? D1 D2]; subst. apply N.eqb_neq in N48. apply is_digit_iff in D1.
  now rewrite N48, D1, digit_span_complete.
Qed.
Lemma frac_part_sound s f r : frac_part s = (f, r) -> fraction f /\ s = f ++ r.
Proof.
  destruct s as [|c s]; cbn; [intro H; injection H as <- <-; split; [constructor|reflexivity]|]. destruct (N.eqb_spec c 46) as [->|]; [|intro H; injection H as <- <-; split; [constructor|reflexivity]].
  destruct (digit_span s) as [d r'] eqn:E. apply digit_span_sound in E as [A ->]. destruct d as [|x d]; intro H; injection H as <- <-.
  - split; [constructor|reflexivity].
  - split; [|reflexivity]. constructor. split; [discriminate|exact A].
Qed.
Lemma frac_part_complete f r : fraction f -> no_digit r -> (f = [] -> forall r', r <> 46 :: r') -> frac_part (f ++ r) = (f, r).
Proof.
  intros [|d (Ne & D)] N P.
  - cbn. destruct r as [|c r]; [reflexivity|]. cbn. destruct (N.eqb_spec c 46) as [->|]; [|reflexivity]. now elim (P eq_refl r).
  - cbn. rewrite digit_span_complete by assumption. destruct d; [contradiction|reflexivity].
Qed.
Lemma exp_part_sound s e r : exp_part s = (e, r) -> exponent e /\ s = e ++ r.
Proof.
  destruct s as [|c s]; cbn; [intro H; injection H as <- <-; split; [constructor|reflexivity]|].
  destruct ((c =? 101) || (c =? 69)) eqn:Ec; [|intro H; injection H as <- <-; split; [constructor|reflexivity]].
  assert (Ec' : c = 101 \/ c = 69) by (apply orb_prop in Ec; rewrite !N.eqb_eq in Ec; exact Ec).
  assert (G : exists g r1, match s with x :: r' => if (x =? 43) || (x =? 45) then ([x], r') else ([], s) | [] => ([], s) end = (g, r1) /\ (g = [] \/ g = [43] \/ g = [45]) /\ s = g ++ r1).
  { destruct s as [|x s']; [exists [], []; auto|]. destruct ((x =? 43) || (x =? 45)) eqn:Ex; [|exists [], (x :: s'); auto].
    exists [x], s'. apply orb_prop in Ex. rewrite !N.eqb_eq in Ex. destruct Ex; subst; auto. }
  destruct G as (g & r1 & -> & G & ->). destruct (digit_span r1) as [d r'] eqn:E. apply digit_span_sound in E as [A ->].
  destruct d as [|x d]; intro H; injection H as <- <-.
  - split; [constructor|reflexivity].
  - split; [|cbn; now rewrite <- app_assoc]. constructor; [exact Ec'|exact G|]. split; [discriminate|exact A].
Qed.
Lemma exp_part_complete e r : exponent e -> no_digit r -> (forall c r', r = c :: r' -> c <> 101 /\ c <> 69) -> exp_part (e ++ r) = (e, r).
Proof.
  intros [|x g d Ex G (Ne & D)] N P.
  - cbn. destruct r as [|c r]; [reflexivity|]. cbn. destruct (P c r eq_refl) as [A B]. apply N.eqb_neq in A, B. now rewrite A, B.
  - assert (Ec : (x =? 101) || (x =? 69) = true) by (rewrite orb_true_iff, !N.eqb_eq; exact Ex).
    cbn [app exp_part]. rewrite Ec, <- app_assoc.
    assert (S : match g ++ d ++ r with x :: r' => if (x =? 43) || (x =? 45) then ([x], r') else ([], g ++ d ++ r) | [] => ([], g ++ d ++ r) end = (g, d ++ r)).
    { destruct G as [->|[->| ->]]; try reflexivity. cbn. destruct d as [|c d]; [contradiction|]. cbn. inversion D; subst.
      replace (c =? 43) with false by (symmetry; apply N.eqb_neq; lia). replace (c =? 45) with false by (symmetry; apply N.eqb_neq; lia). reflexivity. }
    rewrite S, digit_span_complete by assumption. destruct d; [contradiction|reflexivity].
Qed.

Lemma digits_tail_value s : forall acc, Forall (fun c => 48 <= c <= 57) s -> digits_tail acc s = Some (fold_left (fun a c => (10 * a + (Z.of_N c - 48))%Z) s acc).
Proof.
  induction s as [|c s IH]; intros acc D; [reflexivity|]. inversion D as [|? ? D1 D2]; subst. cbn [digits_tail fold_left].
  rewrite digit_val_ascii by (unfold ascii_digit; rewrite andb_true_iff, !N.leb_le; exact D1). rewrite IH by assumption. repeat f_equal. lia.
Qed.
Lemma digits_value s : decimal s -> digits_val s = Some (decimal_value s).
Proof.
  intros (Ne & D). destruct s as [|c s]; [contradiction|]. inversion D as [|? ? D1 D2]; subst. unfold decimal_value. cbn [digits_val fold_left].
  rewrite digit_val_ascii by (unfold ascii_digit; rewrite andb_true_iff, !N.leb_le; exact D1). rewrite digits_tail_value by assumption. repeat f_equal. lia.
Qed.
Lemma integer_decimal i : integer_part i -> decimal i.
Proof. intros [->|[H _]]; [|exact H]. split; [discriminate|]. constructor; [lia|constructor]. Qed.
Lemma decimal_ascii i : decimal i -> forallb ascii_digit i = true.
Proof. intros (_ & D). apply forallb_forall. intros c I. rewrite Forall_forall in D. specialize (D c I). unfold ascii_digit. now rewrite andb_true_iff, !N.leb_le. Qed.
Lemma py_int_value i : integer_part i -> py_int i = Some (decimal_value i) /\ py_int (45 :: i) = Some (- decimal_value i)%Z.
Proof.
  intro I. apply integer_decimal in I. pose proof (decimal_ascii _ I) as A. split.
  - rewrite py_int_digits by exact A. now apply digits_value.
  - rewrite (py_int_signed 45 i A) by auto. cbn. now rewrite digits_value.
Qed.

Section Scanner.
Context (F : floats).

Lemma sign_split (s : pystr) : exists g r, sign_part s = (g, r) /\ sign g /\ s = g ++ r.
Proof.
  destruct s as [|c s]; [exists [], []; repeat split; constructor|]. unfold sign_part. destruct (N.eqb_spec c 45) as [->|].
  - exists [45], s. repeat split; constructor.
  - exists [], (c :: s). repeat split; constructor.
Qed.

Lemma scan_number_sound s v r : scan_number F s = Ok (v, r) -> exists t, denotes F t v /\ s = t ++ r.
Proof.
  unfold scan_number. destruct (sign_split s) as (g & r0 & -> & G & ->). destruct (int_part r0) as [[i r1]|] eqn:Ei; [|discriminate].
  apply int_part_sound in Ei as [I ->]. destruct (frac_part r1) as [f r2] eqn:Ef. apply frac_part_sound in Ef as [Fr ->].
  destruct (exp_part r2) as [e r3] eqn:Ee. apply exp_part_sound in Ee as [Ex ->].
  assert (Fl : f <> [] \/ e <> [] -> exists t, denotes F t (JNum (f_parse F (g ++ i ++ f ++ e))) /\ g ++ i ++ f ++ e ++ r3 = t ++ r3).
  { intro Ne. exists (g ++ i ++ f ++ e). split; [|now rewrite !app_assoc]. apply d_float. exists g, i, f, e. auto 6. }
  destruct f as [|x f]; [destruct e as [|x e]|].
  - destruct (py_int_value i I) as [P1 P2]. destruct G; cbn [app].
    + rewrite P1. intro H. injection H as <- <-. exists i. split; [now constructor|reflexivity].
    + rewrite P2. intro H. injection H as <- <-. exists (45 :: i). split; [now apply d_neg|reflexivity].
  - intro H. injection H as <- <-. apply Fl. right. discriminate.
  - intro H. injection H as <- <-. apply Fl. left. discriminate.
Qed.

(** What may follow a value. *)
Definition stops (r : pystr) : Prop := match r with [] => True | c :: _ => is_ws c = true \/ c = 44 \/ c = 93 \/ c = 125 end.
Lemma stops_after r : stops r -> no_digit r /\ (forall c r', r = c :: r' -> c <> 101 /\ c <> 69 /\ c <> 46 /\ c <> 45).
Proof.
  destruct r as [|c r]; intro S; [split; [exact I|discriminate]|]. cbn in S. rewrite is_ws_iff in S.
  split; [cbn; apply not_true_iff_false; rewrite is_digit_iff; lia|]. intros c' r' E. injection E as <- _. lia.
Qed.

Lemma integer_head i : integer_part i -> exists c r, i = c :: r /\ 48 <= c <= 57.
Proof. intro I. apply integer_decimal in I as (Ne & D). destruct i as [|c r]; [contradiction|]. inversion D; subst. eauto. Qed.

Lemma scan_number_complete g i f e r : sign g -> integer_part i -> fraction f -> exponent e -> stops r ->
  scan_number F (g ++ i ++ f ++ e ++ r) =
  match f, e with
  | [], [] => match py_int (g ++ i) with Some z => Ok (JNum (NInt z), r) | None => Exn EValue end
  | _, _ => Ok (JNum (f_parse F (g ++ i ++ f ++ e)), r)
  end.
Proof.
  intros G I Fr Ex S. destruct (stops_after r S) as [Nd Nc].
  assert (E0 : sign_part (g ++ i ++ f ++ e ++ r) = (g, i ++ f ++ e ++ r)).
  { destruct G; [|reflexivity]. destruct (integer_head i I) as (c & i' & -> & B). cbn. replace (c =? 45) with false by (symmetry; apply N.eqb_neq; lia). reflexivity. }
  assert (E3 : exp_part (e ++ r) = (e, r)).
  { apply exp_part_complete; [exact Ex|exact Nd|]. intros c r' E. destruct (Nc c r' E). tauto. }
  assert (E2' : no_digit (e ++ r)).
  { destruct Ex as [|x g' d Ex' _ _]; [exact Nd|]. cbn. apply not_true_iff_false. rewrite is_digit_iff. lia. }
  assert (E2 : frac_part (f ++ e ++ r) = (f, e ++ r)).
  { apply frac_part_complete; [exact Fr|exact E2'|]. intros _ r' E. destruct Ex as [|x g' d Ex' _ _]; cbn in E.
    - destruct (Nc _ _ E) as (_ & _ & X & _). now apply X.
    - injection E as -> _. lia. }
  assert (E1 : int_part (i ++ f ++ e ++ r) = Some (i, f ++ e ++ r)).
  { apply int_part_complete; [exact I|]. destruct Fr as [|d D]; [exact E2'|reflexivity]. }
  unfold scan_number. rewrite E0, E1, E2, E3. reflexivity.
Qed.

(** ** Values. *)
Lemma drop_prefix_sound p s r : drop_prefix p s = Some r -> s = p ++ r.
Proof.
  revert s. induction p as [|x p IH]; intros s H; cbn in H.
  - now injection H as <-.
  - destruct s as [|y s]; [discriminate|]. destruct (N.eqb_spec x y) as [->|]; [|discriminate]. cbn. f_equal. auto.
Qed.
Lemma items_blank w t l : blank w -> items F t l -> items F (w ++ t) l.
Proof.
  intros B [w1 t1 w1' v B1 D B1'|w1 t1 w1' v r l' B1 D B1' R]; rewrite app_assoc; constructor; auto; now apply Forall_app.
Qed.
Lemma members_blank w t m : blank w -> members F t m -> members F (w ++ t) m.
Proof.
  intros B [w0 q k w1 w2 t' w3 v B0 Q B1 B2 D B3|w0 q k w1 w2 t' w3 v r m' B0 Q B1 B2 D B3 R]; rewrite app_assoc; constructor; auto; now apply Forall_app.
Qed.

Definition reads (value : pystr -> res (json * pystr)) : Prop :=
  forall s v r, value s = Ok (v, r) -> exists t, denotes F t v /\ s = t ++ r.
Lemma scan_items_sound value : reads value -> forall n acc s v r, scan_items value n acc s = Ok (v, r) ->
  exists t l, items F t l /\ v = JArr (acc ++ l) /\ s = t ++ 93 :: r.
Proof.
  intro V. induction n as [|n IH]; intros acc s v r H; [discriminate H|]. cbn in H.
  destruct (value s) as [[x r0]| |] eqn:E; cbn in H; try discriminate H. apply V in E as (t & D & ->).
  destruct (ws_split r0) as (w & B & Ew). destruct (ws r0) as [|c r']; [discriminate H|].
  destruct (N.eqb_spec c 93) as [->|N93].
  - injection H as <- <-. exists ([] ++ t ++ w), [x]. split; [constructor; [constructor|exact D|exact B]|]. split; [reflexivity|]. rewrite Ew. cbn. now rewrite <- app_assoc.
  - destruct (N.eqb_spec c 44) as [->|N44]; [|discriminate H]. destruct (ws_split r') as (w' & B' & Ew'). apply IH in H as (t' & l & I & -> & Es).
    exists ([] ++ t ++ w ++ 44 :: (w' ++ t')), (x :: l). split; [constructor; auto; [constructor|now apply items_blank]|].
    split; [now rewrite <- app_assoc|]. rewrite Ew, Ew', Es. cbn. rewrite <- !app_assoc. cbn. now rewrite <- !app_assoc.
Qed.
Lemma scan_members_sound value : reads value -> forall n acc s v r, scan_members value n acc s = Ok (v, r) ->
  exists t m, members F t m /\ v = JObj (fold_left (fun d kv => dset (fst kv) (snd kv) d) m acc) /\ s = t ++ 125 :: r.
Proof.
  intro V. induction n as [|n IH]; intros acc s v r H; [discriminate H|]. cbn in H.
  destruct s as [|q s]; [discriminate H|]. destruct (N.eqb_spec q 34) as [->|]; [|discriminate H].
  destruct (scan_string s) as [[k r1]|] eqn:Ek; [|discriminate H]. apply scan_string_sound in Ek as (qq & Q & ->).
  destruct (ws_split r1) as (w1 & B1 & E1). destruct (ws r1) as [|c r2]; [discriminate H|]. destruct (N.eqb_spec c 58) as [->|]; [|discriminate H].
  destruct (ws_split r2) as (w2 & B2 & E2). destruct (value (ws r2)) as [[x r3]| |] eqn:E; cbn in H; try discriminate H. apply V in E as (t & D & Et).
  destruct (ws_split r3) as (w3 & B3 & E3). destruct (ws r3) as [|c r4]; [discriminate H|].
  destruct (N.eqb_spec c 125) as [->|].
  - injection H as <- <-. exists ([] ++ 34 :: qq ++ 34 :: w1 ++ 58 :: w2 ++ t ++ w3), [(k, x)]. split; [constructor; auto; constructor|]. split; [reflexivity|].
    rewrite E1, E2, Et, E3. cbn. repeat (rewrite <- !app_assoc; cbn). reflexivity.
  - destruct (N.eqb_spec c 44) as [->|]; [|discriminate H]. destruct (ws_split r4) as (w4 & B4 & E4). apply IH in H as (t' & m & M & -> & Es).
    exists ([] ++ 34 :: qq ++ 34 :: w1 ++ 58 :: w2 ++ t ++ w3 ++ 44 :: (w4 ++ t')), ((k, x) :: m).
    split; [constructor; auto; [constructor|now apply members_blank]|]. split; [reflexivity|].
    rewrite E1, E2, Et, E3, E4, Es. cbn. repeat (rewrite <- !app_assoc; cbn). reflexivity.
Qed.
Lemma scan_once_sound n : reads (scan_once F n).
Proof.
  induction n as [|n IH]; intros s v r H; [discriminate H|]. destruct s as [|c s]; [discriminate H|]. cbn -[drop_prefix lit] in H.
  destruct (N.eqb_spec c 34) as [->|].
  { destruct (scan_string s) as [[t r']|] eqn:E; [|discriminate H]. injection H as <- <-. apply scan_string_sound in E as (q & Q & ->).
    exists (34 :: q ++ [34]). split; [now constructor|]. cbn. now rewrite <- app_assoc. }
  destruct (N.eqb_spec c 123) as [->|].
  { destruct (ws_split s) as (w & B & E). destruct (ws s) as [|d r']; [discriminate H|]. destruct (N.eqb_spec d 125) as [->|].
    - injection H as <- <-. exists (123 :: w ++ [125]). split; [now constructor|]. rewrite E. cbn. now rewrite <- app_assoc.
    - apply (scan_members_sound _ IH) in H as (t & m & M & -> & Es). exists (123 :: (w ++ t) ++ [125]). split; [apply d_object; now apply members_blank|].
      rewrite E, Es. cbn. repeat (rewrite <- !app_assoc; cbn). reflexivity. }
  destruct (N.eqb_spec c 91) as [->|].
  { destruct (ws_split s) as (w & B & E). destruct (ws s) as [|d r']; [discriminate H|]. destruct (N.eqb_spec d 93) as [->|].
    - injection H as <- <-. exists (91 :: w ++ [93]). split; [now constructor|]. rewrite E. cbn. now rewrite <- app_assoc.
    - apply (scan_items_sound _ IH) in H as (t & m & M & -> & Es). exists (91 :: (w ++ t) ++ [93]). split; [apply d_array; now apply items_blank|].
      rewrite E, Es. cbn. repeat (rewrite <- !app_assoc; cbn). reflexivity. }
  destruct (drop_prefix (lit "null") (c :: s)) as [r'|] eqn:E1.
  { apply drop_prefix_sound in E1. exists (lit "null"). apply pair_equal_spec in H as [<- <-] || (assert (X : v = JNull /\ r = r') by (split; congruence); destruct X as [-> ->]). split; [constructor|exact E1]. }
  destruct (drop_prefix (lit "true") (c :: s)) as [r'|] eqn:E2.
  { apply drop_prefix_sound in E2. exists (lit "true"). assert (X : v = JBool true /\ r = r') by (split; congruence). destruct X as [-> ->]. split; [constructor|exact E2]. }
  destruct (drop_prefix (lit "false") (c :: s)) as [r'|] eqn:E3.
  { apply drop_prefix_sound in E3. exists (lit "false"). assert (X : v = JBool false /\ r = r') by (split; congruence). destruct X as [-> ->]. split; [constructor|exact E3]. }
  destruct (drop_prefix (lit "NaN") (c :: s)); [discriminate H|]. destruct (drop_prefix (lit "Infinity") (c :: s)); [discriminate H|]. destruct (drop_prefix (lit "-Infinity") (c :: s)); [discriminate H|].
  now apply scan_number_sound.
Qed.

(** A text of a value begins with a character that is no blank and closes
    nothing. *)
Lemma denotes_head t v : denotes F t v -> exists c t', t = c :: t' /\ is_ws c = false /\ c <> 93 /\ c <> 125 /\ c <> 65279.
Proof.
  intros []; try (do 2 eexists; split; [reflexivity|]; repeat split; (reflexivity || discriminate)).
  - destruct (integer_head _ H) as (c & r & -> & B). exists c, r. split; [reflexivity|]. rewrite <- not_true_iff_false, is_ws_iff. lia.
  - destruct H as (g & i & f & e & [] & I & _ & _ & _ & ->).
    + destruct (integer_head _ I) as (c & r & -> & B). exists c, (r ++ f ++ e). split; [reflexivity|]. rewrite <- not_true_iff_false, is_ws_iff. lia.
    + exists 45, (i ++ f ++ e). repeat split; try reflexivity; discriminate.
Qed.
Lemma denotes_starts t v r : denotes F t v -> starts (t ++ r).
Proof. intro D. apply denotes_head in D as (c & t' & -> & W & _). exact W. Qed.

Scheme denotes_mind := Minimality for denotes Sort Prop
  with items_mind := Minimality for items Sort Prop
  with members_mind := Minimality for members Sort Prop.
Combined Scheme denotes_mutual from denotes_mind, items_mind, members_mind.

Definition finds (t : pystr) (v : json) : Prop :=
  forall n r, (length t < n)%nat -> stops r -> scan_once F n (t ++ r) = Ok (v, r).

Lemma stops_ws w r : blank w -> stops r -> stops (w ++ r).
Proof. intros [|c w' H B]; [auto|]. intros _. cbn. left. now apply is_ws_iff. Qed.

Lemma complete :
  (forall t v, denotes F t v -> finds t v)
  /\ (forall t l, items F t l -> forall f n acc r, (length t < f)%nat -> (length t < n)%nat ->
        scan_items (scan_once F f) n acc (ws (t ++ 93 :: r)) = Ok (JArr (acc ++ l), r))
  /\ (forall t m, members F t m -> forall f n acc r, (length t < f)%nat -> (length t < n)%nat ->
        scan_members (scan_once F f) n acc (ws (t ++ 125 :: r)) = Ok (JObj (fold_left (fun d kv => dset (fst kv) (snd kv) d) m acc), r)).
Proof.
  assert (Num : forall t v r n, scan_number F (t ++ r) = Ok (v, r) -> (exists c t', t = c :: t' /\ (48 <= c <= 57 \/ (c = 45 /\ exists d t'', t' = d :: t'' /\ 48 <= d <= 57))) -> (0 < n)%nat -> scan_once F n (t ++ r) = Ok (v, r)).
  { intros t v r n E (c & t' & -> & H) L. destruct n as [|n]; [lia|]. rewrite <- E. cbn [app]. cbn -[drop_prefix lit scan_number].
    replace (c =? 34) with false by (symmetry; apply N.eqb_neq; lia). replace (c =? 123) with false by (symmetry; apply N.eqb_neq; lia).
    replace (c =? 91) with false by (symmetry; apply N.eqb_neq; lia).
    assert (P : forall x p, x <> c -> drop_prefix (x :: p) (c :: t' ++ r) = None) by (intros x p Nx; cbn; apply N.eqb_neq in Nx; now rewrite Nx).
    change (lit "null") with (110 :: lit "ull"). change (lit "true") with (116 :: lit "rue"). change (lit "false") with (102 :: lit "alse").
    change (lit "NaN") with (78 :: lit "aN"). change (lit "Infinity") with (73 :: lit "nfinity").
    rewrite !P by lia. destruct H as [H|(-> & d & t'' & -> & H)].
    - change (lit "-Infinity") with (45 :: lit "Infinity"). now rewrite P by lia.
    - assert (Q : drop_prefix (lit "-Infinity") (45 :: (d :: t'') ++ r) = None).
      { change (lit "-Infinity") with (45 :: 73 :: lit "nfinity"). cbn [drop_prefix app]. rewrite N.eqb_refl. replace (73 =? d) with false by (symmetry; apply N.eqb_neq; lia). reflexivity. }
      now rewrite Q. }
  apply denotes_mutual.
  - intros [|n] r L S; [inversion L|]. reflexivity.
  - intros [|n] r L S; [inversion L|]. reflexivity.
  - intros [|n] r L S; [inversion L|]. reflexivity.
  - intros i I n r L S. apply Num; [|destruct (integer_head i I) as (c & t' & -> & B); eauto|lia].
    pose proof (scan_number_complete [] i [] [] r sign_none I frac_none exp_none S) as E. cbn [app] in E. rewrite E. destruct (py_int_value i I) as [P _]. now rewrite P.
  - intros i I n r L S. apply Num; [|destruct (integer_head i I) as (c & t' & -> & B); eauto 10|lia].
    pose proof (scan_number_complete [45] i [] [] r sign_minus I frac_none exp_none S) as E. cbn [app] in E |- *. rewrite E. destruct (py_int_value i I) as [_ P]. now rewrite P.
  - intros t T n r L S. destruct T as (g & i & f & e & G & I & Fr & Ex & Ne & ->). apply Num; [| |lia].
    + rewrite <- !app_assoc, scan_number_complete by assumption. destruct f; [destruct e; [destruct Ne as [Ne|Ne]; now elim Ne|]|]; reflexivity.
    + destruct (integer_head i I) as (c & t' & -> & B). destruct G; cbn; eauto 10.
  - intros t s Sp [|n] r L S; [inversion L|]. cbn. rewrite <- app_assoc. cbn. now rewrite (scan_string_complete _ _ Sp).
  - intros w B [|n] r L S; [inversion L|]. cbn. rewrite <- app_assoc. now rewrite ws_blank.
  - intros t l It IH [|n] r L S; [inversion L|]. cbn [app length] in L |- *. rewrite app_length in L. cbn in L. rewrite <- app_assoc. cbn [app].
    specialize (IH n n [] r ltac:(lia) ltac:(lia)). cbn. destruct (ws (t ++ 93 :: r)) as [|d r'] eqn:E.
    + destruct n; discriminate IH.
    + destruct (N.eqb_spec d 93) as [->|]; [|exact IH]. exfalso. destruct n as [|n]; [discriminate IH|]. cbn in IH.
      assert (X : exists c t', ws (t ++ 93 :: r) = c :: t' /\ c <> 93).
      { destruct It as [w t' w' v B D B'|w t' w' v r0 l' B D B' R]; rewrite <- app_assoc, ws_blank; auto; try (rewrite <- app_assoc; eapply denotes_starts; eassumption);
        apply denotes_head in D as (c & t0 & -> & _ & N93 & _); cbn; eauto. }
      destruct X as (c & t' & X & Nc). rewrite X in E. injection E as -> _. contradiction.
  - intros w B [|n] r L S; [inversion L|]. cbn. rewrite <- app_assoc. now rewrite ws_blank.
  - intros t l It IH [|n] r L S; [inversion L|]. cbn [app length] in L |- *. rewrite app_length in L. cbn in L. rewrite <- app_assoc. cbn [app].
    specialize (IH n n [] r ltac:(lia) ltac:(lia)). cbn. destruct (ws (t ++ 125 :: r)) as [|d r'] eqn:E.
    + destruct n; discriminate IH.
    + destruct (N.eqb_spec d 125) as [->|]; [|exact IH]. exfalso. destruct n as [|n]; discriminate IH.
  - intros w t w' v B D IH B' f n acc r Lf Ln. rewrite !app_length in Lf, Ln. destruct n as [|n]; [lia|].
    rewrite <- app_assoc, ws_blank; [|exact B|rewrite <- app_assoc; eapply denotes_starts; eassumption]. rewrite <- app_assoc. cbn.
    rewrite IH; [|lia|apply stops_ws; [exact B'|cbn; auto]]. cbn. rewrite ws_blank by (auto; reflexivity). reflexivity.
  - intros w t w' v r0 l B D IH B' It IHl f n acc r Lf Ln. repeat (rewrite app_length in Lf, Ln; cbn [length] in Lf, Ln). destruct n as [|n]; [lia|].
    rewrite <- app_assoc, ws_blank; [|exact B|rewrite <- app_assoc; eapply denotes_starts; eassumption]. rewrite <- !app_assoc. cbn [scan_items].
    rewrite IH; [|lia|apply stops_ws; [exact B'|cbn; auto]]. cbn [bind]. rewrite ws_blank by (auto; reflexivity). cbn. rewrite IHl by lia. now rewrite <- app_assoc.
  - intros w q k w1 w2 t w3 v B Sp B1 B2 D IH B3 f n acc r Lf Ln. repeat (rewrite app_length in Lf, Ln; cbn [length] in Lf, Ln). destruct n as [|n]; [lia|].
    rewrite <- app_assoc, ws_blank; [|exact B|reflexivity]. cbn [app]. repeat (rewrite <- !app_assoc; cbn [app]). cbn [scan_members]. rewrite N.eqb_refl, (scan_string_complete _ _ Sp).
    rewrite ws_blank by (auto; reflexivity). rewrite N.eqb_refl, ws_blank; [|exact B2|eapply denotes_starts; eassumption].
    rewrite IH; [|lia|apply stops_ws; [exact B3|cbn; auto]]. cbn [bind]. rewrite ws_blank by (auto; reflexivity). reflexivity.
  - intros w q k w1 w2 t w3 v r0 m B Sp B1 B2 D IH B3 It IHm f n acc r Lf Ln. repeat (rewrite app_length in Lf, Ln; cbn [length] in Lf, Ln). destruct n as [|n]; [lia|].
    rewrite <- app_assoc, ws_blank; [|exact B|reflexivity]. cbn [app]. repeat (rewrite <- !app_assoc; cbn [app]). cbn [scan_members]. rewrite N.eqb_refl, (scan_string_complete _ _ Sp).
    rewrite ws_blank by (auto; reflexivity). rewrite N.eqb_refl, ws_blank; [|exact B2|eapply denotes_starts; eassumption].
    rewrite IH; [|lia|apply stops_ws; [exact B3|cbn; auto]]. cbn [bind]. rewrite ws_blank by (auto; reflexivity). cbn. now rewrite IHm by lia.
Qed.
End Scanner.
