(** The model of [int()] accepts exactly the texts of the grammar. *)
From Verif Require Import Base BaseFacts Json JTreeFacts SpecPyInt.
From Coq Require Import Lia.
Open Scope nat_scope.

Lemma blank_iff c : blank c <-> int_space c = true.
Proof.
  unfold blank, int_space. split.
  - cbn [In]. intro H. repeat (destruct H as [<- | H]; [reflexivity|]). destruct H.
  - intro H. repeat rewrite orb_true_iff in H. repeat rewrite andb_true_iff in H.
    repeat rewrite N.leb_le in H. repeat rewrite N.eqb_eq in H. cbn [In]. lia.
Qed.

Lemma digit_in_iff zs c d : (forall z, In z zs -> forall z', In z' zs -> z = z' \/ z + 9 < z' \/ z' + 9 < z)%N ->
  digit_in zs c = Some d <-> exists z i, In z zs /\ (i < 10)%N /\ c = (z + i)%N /\ d = Z.of_N i.
Proof.
  induction zs as [|z zs IH]; intros A; cbn [digit_in].
  - split; [discriminate|]. intros (z & i & [] & _).
  - destruct ((z <=? c) && (c <=? z + 9))%N eqn:E.
    + apply andb_true_iff in E as [E1 E2]. apply N.leb_le in E1, E2. split.
      * intros [= <-]. exists z, (c - z)%N. split; [now left|]. lia.
      * intros (z' & i & I & L & -> & ->). f_equal. f_equal. destruct (A z (or_introl eq_refl) z' I) as [->|[F|F]]; lia.
    + rewrite IH by (intros; apply A; now right). apply andb_false_iff in E. rewrite !N.leb_gt in E. split.
      * intros (z' & i & I & R). exists z', i. split; [now right|auto].
      * intros (z' & i & [<-|I] & L & -> & ->); [lia|]. exists z', i. auto.
Qed.
Lemma zeros_apart : forall z, In z nd_zeros -> forall z', In z' nd_zeros -> (z = z' \/ z + 9 < z' \/ z' + 9 < z)%N.
Proof.
  assert (B : forallb (fun z => forallb (fun z' => (z =? z') || (z + 9 <? z') || (z' + 9 <? z))%N nd_zeros) nd_zeros = true)
    by (vm_compute; reflexivity).
  intros z I z' I'. rewrite forallb_forall in B. specialize (B z I). rewrite forallb_forall in B. specialize (B z' I').
  rewrite !orb_true_iff, N.eqb_eq, !N.ltb_lt in B. lia.
Qed.
Lemma decimal_iff c d : decimal c d <-> digit_val c = Some d.
Proof. symmetry. apply digit_in_iff, zeros_apart. Qed.
Lemma decimal_not_blank c d : decimal c d -> int_space c = false.
Proof.
  intros (z & i & I & L & -> & _). destruct (int_space (z + i)) eqn:E; auto. exfalso. apply blank_iff in E.
  assert (B : forallb (fun z => forallb (fun b => (b <? z) || (z + 9 <? b))%N
    [9; 10; 11; 12; 13; 32; 133; 160; 5760; 8192; 8193; 8194; 8195; 8196; 8197; 8198; 8199; 8200; 8201; 8202;
        8232; 8233; 8239; 8287; 12288]%N) nd_zeros = true) by (vm_compute; reflexivity).
  rewrite forallb_forall in B. specialize (B z I). rewrite forallb_forall in B. specialize (B _ E).
  rewrite orb_true_iff, !N.ltb_lt in B. lia.
Qed.

(** Digits, read from the left. *)
Inductive rest : Z -> pystr -> Z -> Prop :=
| rest_end a : rest a [] a
| rest_digit a c d s z : decimal c d -> rest (10 * a + d)%Z s z -> rest a (c :: s) z
| rest_sep a c d s z : decimal c d -> rest (10 * a + d)%Z s z -> rest a (95%N :: c :: s) z.

Lemma digits_tail_iff s : forall a z, digits_tail a s = Some z <-> rest a s z.
Proof.
  assert (Main : forall n s, length s <= n -> forall a z, digits_tail a s = Some z <-> rest a s z).
  2: { intros a z. eapply Main; eauto. }
  clear s. induction n as [|n IH]; intros s L a z.
  - destruct s; [|cbn in L; lia]. split; [intros [= <-]; constructor|]. intro R. now inversion R.
  - destruct s as [|c s]; [split; [intros [= <-]; constructor|intro R; now inversion R]|].
    cbn [digits_tail]. cbn in L. destruct (digit_val c) as [d|] eqn:E.
    + apply decimal_iff in E as E'. rewrite IH by lia. split; [intro R; eapply rest_digit; eauto|]. intro R. inversion R as [|? ? d' ? ? D' R'|? c' d' ? ? D' R']; subst.
      * apply decimal_iff in D'. rewrite E in D'. injection D' as <-. auto.
      * vm_compute in E. discriminate.
    + destruct (c =? 95)%N eqn:E95.
      * apply N.eqb_eq in E95 as ->. destruct s as [|c2 s2].
        { split; [discriminate|]. intro R. inversion R as [|? ? d' ? ? D' R'|? c' d' ? ? D' R']; subst. apply decimal_iff in D'. congruence. }
        cbn in L. destruct (digit_val c2) as [d|] eqn:E2.
        -- apply decimal_iff in E2 as E2'. rewrite IH by lia. split; [intro R; eapply rest_sep; eauto|]. intro R. inversion R as [|? ? d' ? ? D' R'|? c' d' ? ? D' R']; subst.
           ++ apply decimal_iff in D'. congruence.
           ++ apply decimal_iff in D'. rewrite E2 in D'. injection D' as <-. auto.
        -- split; [discriminate|]. intro R. inversion R as [|? ? d' ? ? D' R'|? c' d' ? ? D' R']; subst; apply decimal_iff in D'; congruence.
      * split; [discriminate|]. intro R. inversion R as [|? ? d' ? ? D' R'|? c' d' ? ? D' R']; subst.
        -- apply decimal_iff in D'. congruence.
        -- discriminate.
Qed.

Lemma rest_snoc a s z c d : rest a s z -> decimal c d -> rest a (s ++ [c]) (10 * z + d)%Z.
Proof. intros R D. induction R; cbn [app]; [econstructor; eauto; constructor|eapply rest_digit; eauto|eapply rest_sep; eauto]. Qed.
Lemma rest_snoc_sep a s z c d : rest a s z -> decimal c d -> rest a (s ++ [95%N; c]) (10 * z + d)%Z.
Proof. intros R D. induction R; cbn [app]; [eapply rest_sep; eauto; constructor|eapply rest_digit; eauto|eapply rest_sep; eauto]. Qed.

Lemma numeral_iff s z : numeral s z <-> digits_val s = Some z.
Proof.
  assert (F : numeral s z -> exists c d t, s = c :: t /\ decimal c d /\ rest d t z).
  { intro H. induction H as [c d D|s z c d H (c0 & d0 & t & -> & D0 & R) D|s z c d H (c0 & d0 & t & -> & D0 & R) D].
    - exists c, d, []. repeat split; auto. constructor.
    - exists c0, d0, (t ++ [c]). repeat split; auto. now apply rest_snoc.
    - exists c0, d0, (t ++ [95%N; c]). repeat split; auto. now apply rest_snoc_sep. }
  assert (G : forall a t z, rest a t z -> forall p, numeral p a -> numeral (p ++ t) z).
  { intros a t z' R. induction R as [a|a c d s' z' D R IH|a c d s' z' D R IH]; intros p P.
    - now rewrite app_nil_r.
    - replace (p ++ c :: s') with ((p ++ [c]) ++ s') by now rewrite <- app_assoc. apply IH. now constructor.
    - replace (p ++ 95%N :: c :: s') with ((p ++ [95%N; c]) ++ s') by now rewrite <- app_assoc. apply IH. now constructor. }
  split.
  - intro H. destruct (F H) as (c & d & t & -> & D & R). cbn [digits_val]. apply decimal_iff in D. rewrite D. now apply digits_tail_iff.
  - destruct s as [|c t]; [discriminate|]. cbn [digits_val]. destruct (digit_val c) as [d|] eqn:E; [|discriminate].
    intro H. apply digits_tail_iff in H. apply (G d t z H [c]). constructor. now apply decimal_iff.
Qed.

(** No text of a number begins or ends with a blank. *)
Lemma numeral_ends s z : numeral s z -> exists c t, s = t ++ [c] /\ int_space c = false.
Proof.
  intro H. destruct H as [c d D|s z c d _ D|s z c d _ D]; apply decimal_not_blank in D.
  - now exists c, [].
  - now exists c, s.
  - exists c, (s ++ [95%N]). now rewrite <- app_assoc.
Qed.
Lemma numeral_starts s z : numeral s z -> exists c t, s = c :: t /\ int_space c = false /\ c <> 43%N /\ c <> 45%N.
Proof.
  intro H. apply numeral_iff in H. destruct s as [|c t]; [discriminate|]. exists c, t. cbn [digits_val] in H.
  destruct (digit_val c) as [d|] eqn:E; [|discriminate]. split; auto. apply decimal_iff in E as D. split; [eapply decimal_not_blank; eauto|].
  split; intros ->; vm_compute in E; discriminate.
Qed.
Lemma signed_ends s z : signed s z -> exists c t, s = t ++ [c] /\ int_space c = false.
Proof.
  intros [s' z' H|s' z' H|s' z' H]; destruct (numeral_ends _ _ H) as (c & t & -> & B); eauto.
  - now exists c, (43%N :: t).
  - now exists c, (45%N :: t).
Qed.
Lemma signed_starts s z : signed s z -> exists c t, s = c :: t /\ int_space c = false.
Proof.
  intros [s' z' H|s' z' H|s' z' H].
  - destruct (numeral_starts _ _ H) as (c & t & -> & B & _); eauto.
  - now exists 43%N, s'.
  - now exists 45%N, s'.
Qed.

Lemma drop_space_app a s : Forall blank a -> drop_space (a ++ s) = drop_space s.
Proof. intro F. induction F as [|c a B F IH]; auto. cbn [app drop_space]. apply blank_iff in B. now rewrite B. Qed.
Lemma drop_space_split s : exists a, Forall blank a /\ s = a ++ drop_space s.
Proof.
  induction s as [|c s (a & F & E)]; [exists []; auto|]. cbn [drop_space]. destruct (int_space c) eqn:B.
  - exists (c :: a). split; [constructor; auto; now apply blank_iff|]. cbn [app]. now f_equal.
  - exists []. auto.
Qed.
Lemma strip_space_split s : exists a b, Forall blank a /\ Forall blank b /\ s = a ++ strip_space s ++ b.
Proof.
  unfold strip_space. destruct (drop_space_split s) as (a & Fa & Ea).
  destruct (drop_space_split (rev (drop_space s))) as (b & Fb & Eb).
  exists a, (rev b). split; auto. split; [now apply Forall_rev|]. rewrite Ea at 1. f_equal.
  rewrite <- rev_app_distr, <- Eb. now rewrite rev_involutive.
Qed.
Lemma strip_space_of a b t z : Forall blank a -> Forall blank b -> signed t z -> strip_space (a ++ t ++ b) = t.
Proof.
  intros Fa Fb S. unfold strip_space. rewrite drop_space_app by auto.
  destruct (signed_starts _ _ S) as (c & u & E & B).
  assert (D : drop_space (t ++ b) = t ++ b) by (rewrite E; cbn [app drop_space]; now rewrite B).
  rewrite D, rev_app_distr, drop_space_app by now apply Forall_rev.
  destruct (signed_ends _ _ S) as (c' & u' & E' & B').
  assert (D' : drop_space (rev t) = rev t) by (rewrite E', rev_app_distr; cbn [rev app drop_space]; now rewrite B').
  rewrite D'. apply rev_involutive.
Qed.

Theorem py_int_iff s z : py_int s = Some z <-> int_text s z.
Proof.
  split.
  - intro H. destruct (strip_space_split s) as (a & b & Fa & Fb & E). exists a, b, (strip_space s). repeat split; auto.
    unfold py_int in H. destruct (strip_space s) as [|c r]; [discriminate|].
    destruct (c =? 43)%N eqn:E1; [apply N.eqb_eq in E1 as ->; apply sg_plus; now apply numeral_iff|].
    destruct (c =? 45)%N eqn:E2; [apply N.eqb_eq in E2 as ->|apply sg_none; now apply numeral_iff].
    destruct (digits_val r) as [x|] eqn:D; [|discriminate]. injection H as <-. apply sg_minus. now apply numeral_iff.
  - intros (a & b & t & Fa & Fb & -> & S). unfold py_int. rewrite (strip_space_of a b t z Fa Fb S).
    destruct S as [s z H|s z H|s z H].
    + destruct (numeral_starts _ _ H) as (c & u & -> & _ & N1 & N2). apply numeral_iff in H.
      apply N.eqb_neq in N1, N2. now rewrite N1, N2.
    + rewrite N.eqb_refl. now apply numeral_iff.
    + apply numeral_iff in H. change (45 =? 43)%N with false. rewrite N.eqb_refl, H. reflexivity.
Qed.
Lemma int_text_fun s z z' : int_text s z -> int_text s z' -> z = z'.
Proof. intros H H'. apply py_int_iff in H, H'. congruence. Qed.
Lemma int_text_str n : int_text (str_of_nat n) (Z.of_nat n).
Proof. apply py_int_iff. rewrite <- str_of_Z_nat. apply py_int_str_of_Z. Qed.
