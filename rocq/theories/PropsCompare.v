(** C82: the ordering methods of JSON. *)
From Coq Require Import String List Bool Lia QArith Lqa.
From Verif Require Import BaseFacts JsonFacts SpecCompare.
Import ListNotations.
Open Scope list_scope.
Open Scope nat_scope.

(** How two numbers compare, against the order of rationals. *)
Lemma num_compare_spec a b :
  match num_compare a b with
  | Some Lt => less a b /\ ~ same_number a b /\ ~ less b a
  | Some Eq => ~ less a b /\ same_number a b /\ ~ less b a
  | Some Gt => ~ less a b /\ ~ same_number a b /\ less b a
  | None => (a = NNan \/ b = NNan) /\ ~ less a b /\ ~ same_number a b /\ ~ less b a
  end.
Proof.
  assert (F : forall x y, num_Q a = Some x -> num_Q b = Some y ->
     (less a b <-> (x < y)%Q) /\ (less b a <-> (y < x)%Q) /\ (same_number a b <-> (x == y)%Q)).
  { intros x y Ha Hb. unfold same_number. rewrite Ha, Hb. split; [|split; [|reflexivity]].
    - unfold less. destruct a; try discriminate Ha; destruct b; try discriminate Hb;
      (split; [intros (x' & y' & Ex & Ey & L); rewrite Ex in Ha; rewrite Ey in Hb; injection Ha as <-; injection Hb as <-; exact L|eauto]).
    - unfold less. destruct a; try discriminate Ha; destruct b; try discriminate Hb;
      (split; [intros (x' & y' & Ex & Ey & L); rewrite Ex in Hb; rewrite Ey in Ha; injection Ha as <-; injection Hb as <-; exact L|eauto]). }
  destruct (num_finite a) as [(x & Ea)|[(s & ->)| ->]], (num_finite b) as [(y & Eb)|[(t & ->)| ->]].
  - rewrite (num_compare_Q a b x y Ea Eb). destruct (F x y Ea Eb) as (F1 & F2 & F3).
    destruct (Qcompare_spec x y) as [E|E|E]; repeat split; try (apply F1 || apply F2 || apply F3; lra); intro X; (apply F1 in X || apply F2 in X || apply F3 in X); lra.
  - destruct a; try discriminate Ea; destruct t; cbn; unfold same_number; cbn; repeat split; auto; congruence.
  - destruct a; try discriminate Ea; cbn; unfold same_number; cbn; auto.
  - destruct b; try discriminate Eb; destruct s; cbn; unfold same_number; cbn; repeat split; auto; congruence.
  - destruct s, t; cbn; unfold same_number; cbn; repeat split; auto; intros [? ?] || intro; congruence.
  - destruct s; cbn; unfold same_number; cbn; auto.
  - destruct b; try discriminate Eb; cbn; unfold same_number; cbn; auto.
  - destruct t; cbn; unfold same_number; cbn; auto.
  - cbn. unfold same_number. cbn. auto.
Qed.

Lemma before_irrefl a b : before a b -> a <> b.
Proof. induction 1; try congruence. intros E. injection E as E _. lia. Qed.
Lemma before_asym a b : before a b -> ~ before b a.
Proof.
  induction 1 as [| |x a b H IH]; intro X; inversion X; subst; try lia. contradiction.
Qed.
Lemma str_compare_spec a : forall b,
  match str_compare a b with Lt => before a b | Eq => a = b | Gt => before b a end.
Proof.
  induction a as [|x a IH]; intros [|y b]; cbn; try constructor. destruct (N.compare_spec x y) as [->|L|L].
  - specialize (IH b). destruct (str_compare a b); [now subst|now constructor|now constructor].
  - now constructor.
  - now constructor.
Qed.

Lemma op_true_num o x y : match num_compare x y with Some c => op_true o c | None => false end = true <->
  means_op o (less x y) (same_number x y) (less y x).
Proof.
  pose proof (num_compare_spec x y) as H. destruct (num_compare x y) as [[]|]; destruct o; cbn; split; intro X; try reflexivity; try discriminate X; tauto.
Qed.
Lemma op_true_str o s t : op_true o (str_compare s t) = true <-> means_op o (before s t) (s = t) (before t s).
Proof.
  pose proof (str_compare_spec s t) as H. destruct (str_compare s t).
  - subst t. assert (A : ~ before s s) by (intro X; now apply (before_irrefl _ _ X)). destruct o; cbn; split; intro X; try reflexivity; try discriminate X; tauto.
  - pose proof (before_irrefl _ _ H). pose proof (before_asym _ _ H). destruct o; cbn; split; intro X; try reflexivity; try discriminate X; tauto.
  - pose proof (before_irrefl _ _ H). pose proof (before_asym _ _ H). assert (s <> t) by congruence. destruct o; cbn; split; intro X; try reflexivity; try discriminate X; tauto.
Qed.

Lemma jwf_items l : jwf (JArr l) = true -> forall x, In x l -> jwf x = true.
Proof. cbn. intros H x I. rewrite forallb_forall in H. auto. Qed.

Lemma as_number_counts a x : as_number a = Some x <-> counts a x.
Proof.
  split.
  - destruct a as [|[]|n| | |]; cbn; intro E; try discriminate E; injection E as <-; constructor.
  - now intros [].
Qed.

Ltac nonum := try match goal with
  | H : counts (JStr _) _ |- _ => solve [inversion H]
  | H : counts (JArr _) _ |- _ => solve [inversion H]
  end; try discriminate.

(** What each comparison gives: the relation, if the values are comparable, and
    a TypeError otherwise. *)
Lemma compare_exact o : forall a b, jwf a = true -> jwf b = true ->
  (data_compare o a b = Ok true /\ comparable a b /\ holds o a b)
  \/ (data_compare o a b = Ok false /\ comparable a b /\ ~ holds o a b)
  \/ (data_compare o a b = Exn EType /\ ~ comparable a b /\ ~ holds o a b).
Proof.
  assert (Num : forall a b x y, as_number a = Some x -> as_number b = Some y ->
    (data_compare o a b = Ok true /\ comparable a b /\ holds o a b) \/ (data_compare o a b = Ok false /\ comparable a b /\ ~ holds o a b)).
  { intros a b x y Ea Eb.
    assert (E : data_compare o a b = Ok match num_compare x y with Some c => op_true o c | None => false end) by (destruct a; cbn in *; try discriminate Ea; injection Ea as <-; now rewrite Eb).
    assert (Ca : counts a x) by (now apply as_number_counts). assert (Cb : counts b y) by (now apply as_number_counts). assert (C : comparable a b) by (econstructor; eassumption). pose proof (op_true_num o x y) as T. rewrite E.
    destruct (match num_compare x y with Some c => op_true o c | None => false end); [left|right]; split; auto; split; auto.
    - apply (h_num o a b x y Ca Cb). now apply T.
    - intro H. enough (false = true) by discriminate. apply T. inversion H; subst; try discriminate. rewrite <- as_number_counts in *. congruence. }
  assert (Err : forall a b, (as_number a = None \/ as_number b = None) -> (forall s t, ~ (a = JStr s /\ b = JStr t)) -> (forall l l', ~ (a = JArr l /\ b = JArr l')) ->
    data_compare o a b = Exn EType /\ ~ comparable a b /\ ~ holds o a b).
  { intros a b N S A. split; [|split].
    - destruct a, b; cbn; try reflexivity; cbn in N; try (destruct N; discriminate); [elim (S s s0); auto|elim (A l l0); auto].
    - intro C. inversion C; subst; try (eapply A; now split); try (eapply S; now split). rewrite <- as_number_counts in *. destruct N; congruence.
    - intro C. inversion C; subst; try (eapply A; now split); try (eapply S; now split). rewrite <- as_number_counts in *. destruct N; congruence. }
  assert (Str : forall s t,
    (data_compare o (JStr s) (JStr t) = Ok true /\ comparable (JStr s) (JStr t) /\ holds o (JStr s) (JStr t))
    \/ (data_compare o (JStr s) (JStr t) = Ok false /\ comparable (JStr s) (JStr t) /\ ~ holds o (JStr s) (JStr t))
    \/ (data_compare o (JStr s) (JStr t) = Exn EType /\ ~ comparable (JStr s) (JStr t) /\ ~ holds o (JStr s) (JStr t))).
  { intros s t. pose proof (op_true_str o s t) as T.
    assert (E : data_compare o (JStr s) (JStr t) = Ok (op_true o (str_compare s t))) by reflexivity. rewrite E.
    destruct (op_true o (str_compare s t)).
    - left. split; [reflexivity|]. split; [apply c_str|apply h_str; now apply T].
    - right. left. split; [reflexivity|]. split; [apply c_str|]. intro H. enough (false = true) by discriminate. apply T. inversion H; subst; nonum. assumption. }
  assert (Other : forall a b, (forall s, a <> JStr s) -> (forall l, a <> JArr l) ->
    (data_compare o a b = Ok true /\ comparable a b /\ holds o a b) \/ (data_compare o a b = Ok false /\ comparable a b /\ ~ holds o a b)
    \/ (data_compare o a b = Exn EType /\ ~ comparable a b /\ ~ holds o a b)).
  { intros a b Ns Na. destruct (as_number a) as [x|] eqn:Ea; [destruct (as_number b) as [y|] eqn:Eb|].
    - destruct (Num a b x y Ea Eb) as [H|H]; auto.
    - right. right. apply Err; [auto| |]; intros u v [X _]; [elim (Ns u X)|elim (Na u X)].
    - right. right. apply Err; [auto| |]; intros u v [X _]; [elim (Ns u X)|elim (Na u X)]. }
  induction a as [|u|n|s|l IH|m _] using json_induction; intros b Wa Wb; try (apply Other; discriminate).
  - destruct b as [| | |t| |]; try (right; right; apply Err; [auto| |]; intros u v [X Y]; first [discriminate X|discriminate Y]). apply Str.
  - destruct b as [| | | |l'|]; try (right; right; apply Err; [auto| |]; intros u v [X Y]; first [discriminate X|discriminate Y]).
      revert Wa l' Wb. induction IH as [|x l IH _ IHl]; intros Wa l' Wb.
      * destruct l' as [|y l']; cbn; (destruct o; [| | |]); cbn.
        all: first [left; split; [reflexivity|]; split; [constructor|constructor; cbn; tauto]
          | right; left; split; [reflexivity|]; split; [constructor|]; intro H; inversion H; subst; nonum; cbn in *; tauto].
      * destruct l' as [|y l'].
        -- clear IH IHl. cbn. destruct o; cbn.
           all: first [left; split; [reflexivity|]; split; [constructor|constructor; cbn; tauto]
             | right; left; split; [reflexivity|]; split; [constructor|]; intro H; inversion H; subst; nonum; cbn in *; tauto].
        -- assert (Wx : jwf x = true) by (apply (jwf_items _ Wa); now left). assert (Wy : jwf y = true) by (apply (jwf_items _ Wb); now left).
           assert (Wl : jwf (JArr l) = true) by (cbn in Wa; apply andb_prop in Wa; apply Wa). assert (Wl' : jwf (JArr l') = true) by (cbn in Wb; apply andb_prop in Wb; apply Wb).
           pose proof (json_eqb_jeq x y Wx Wy) as Q.
           assert (E : data_compare o (JArr (x :: l)) (JArr (y :: l')) = if json_eqb x y then data_compare o (JArr l) (JArr l') else data_compare o x y) by reflexivity.
           rewrite E. clear E. destruct (json_eqb x y).
           ++ assert (Qt : jeq x y) by (now apply Q). destruct (IHl Wl l' Wl') as [(A & B & C)|[(A & B & C)|(A & B & C)]]; rewrite A.
              ** left. split; [reflexivity|]. split; [now apply c_same|now apply h_same].
              ** right. left. split; [reflexivity|]. split; [now apply c_same|]. intro H. inversion H; subst; nonum; contradiction.
              ** right. right. split; [reflexivity|]. split; intro H; inversion H; subst; nonum; contradiction.
           ++ assert (Qf : ~ jeq x y) by (intro X; apply Q in X; discriminate X). destruct (IH y Wx Wy) as [(A & B & C)|[(A & B & C)|(A & B & C)]]; rewrite A.
              ** left. split; [reflexivity|]. split; [now apply c_differ|now apply h_differ].
              ** right. left. split; [reflexivity|]. split; [now apply c_differ|]. intro H. inversion H; subst; nonum; contradiction.
              ** right. right. split; [reflexivity|]. split; intro H; inversion H; subst; nonum; contradiction.
Qed.

Theorem C82_exact : forall o a b, jwf a = true -> jwf b = true ->
  (comparable a b -> exists t, data_compare o a b = Ok t /\ (t = true <-> holds o a b))
  /\ (~ comparable a b -> data_compare o a b = Exn EType).
Proof.
  intros o a b Wa Wb. destruct (compare_exact o a b Wa Wb) as [(A & B & C)|[(A & B & C)|(A & B & C)]]; rewrite A; (split; [intro D|intro D]); try contradiction; auto.
  - exists true. split; [reflexivity|]. tauto.
  - exists false. split; [reflexivity|]. split; [intro X; discriminate X|contradiction].
Qed.
Print Assumptions C82_exact.

(** The mirror images: a < b says the same as b > a, and a <= b as b >= a. *)
Definition mirror (o : cmpop) : cmpop :=
  match o with OGe => OLe | OGt => OLt | OLe => OGe | OLt => OGt end.
Lemma holds_mirror o a b : holds o a b -> holds (mirror o) b a.
Proof.
  induction 1 as [a b x y Ca Cb M|s t M|M|x l M|x l M|x y l l' E H IH|x y l l' E H IH].
  - apply (h_num _ b a y x Cb Ca). destruct o; cbn in *; try tauto; destruct M as [M|M]; auto; right; now apply same_number_sym.
  - apply h_str. destruct o; cbn in *; try tauto; destruct M as [M|M]; auto.
  - apply h_both. now destruct o.
  - apply h_long. now destruct o.
  - apply h_short. now destruct o.
  - apply h_same; [now apply jeq_sym|exact IH].
  - apply h_differ; [intro X; apply E; now apply jeq_sym|exact IH].
Qed.
Lemma comparable_sym a b : comparable a b -> comparable b a.
Proof.
  induction 1 as [a b x y Ca Cb|s t|l|l|x y l l' E H IH|x y l l' E H IH]; try (now constructor).
  - exact (c_num b a y x Cb Ca).
  - apply c_same; [now apply jeq_sym|exact IH].
  - apply c_differ; [intro X; apply E; now apply jeq_sym|exact IH].
Qed.
Theorem C82_mirror : forall o a b, jwf a = true -> jwf b = true -> data_compare o a b = data_compare (mirror o) b a.
Proof.
  intros o a b Wa Wb.
  assert (M : mirror (mirror o) = o) by now destruct o.
  destruct (compare_exact o a b Wa Wb) as [(A & B & C)|[(A & B & C)|(A & B & C)]],
           (compare_exact (mirror o) b a Wb Wa) as [(A' & B' & C')|[(A' & B' & C')|(A' & B' & C')]]; rewrite A, A'; try reflexivity; exfalso.
  1: apply C', holds_mirror, C.
  1: apply C', holds_mirror, C.
  1: apply holds_mirror in C'; rewrite M in C'; contradiction.
  1: apply B', comparable_sym, B.
  1: apply holds_mirror in C'; rewrite M in C'; contradiction.
  1: apply comparable_sym in B'; contradiction.
Qed.
Print Assumptions C82_mirror.

(** On the documented types the four methods and [==] are one total order. *)
Theorem C82_total : forall a b, alike a b ->
  (data_compare OLt a b = Ok true /\ json_eqb a b = false /\ data_compare OGt a b = Ok false
   \/ data_compare OLt a b = Ok false /\ json_eqb a b = true /\ data_compare OGt a b = Ok false
   \/ data_compare OLt a b = Ok false /\ json_eqb a b = false /\ data_compare OGt a b = Ok true)
  /\ (data_compare OLe a b = Ok true <-> data_compare OLt a b = Ok true \/ json_eqb a b = true)
  /\ (data_compare OGe a b = Ok true <-> data_compare OGt a b = Ok true \/ json_eqb a b = true).
Proof.
  intros a b [x y Nx Ny|s t]; cbn.
  - pose proof (num_compare_spec x y) as H. pose proof (num_eqb_same x y) as Q. destruct (num_compare x y) as [[]|]; cbn.
    + replace (num_eqb x y) with true by (symmetry; tauto). tauto.
    + replace (num_eqb x y) with false by (symmetry; apply not_true_iff_false; tauto). intuition discriminate.
    + replace (num_eqb x y) with false by (symmetry; apply not_true_iff_false; tauto). intuition discriminate.
    + destruct H as [[H|H] _]; contradiction.
  - pose proof (str_compare_spec s t) as H. pose proof (str_eqb_spec s t) as Q. destruct (str_compare s t); cbn.
    + subst t. destruct Q as [_|Q]; [|now elim Q]. tauto.
    + apply before_irrefl in H. destruct Q as [Q|_]; [contradiction|]. intuition discriminate.
    + apply before_irrefl in H. destruct Q as [Q|_]; [now elim H|]. intuition discriminate.
Qed.
Print Assumptions C82_total.

Lemma less_trans a b c : less a b -> less b c -> less a c.
Proof.
  assert (F : forall a b x y, num_Q a = Some x -> num_Q b = Some y -> less a b -> (x < y)%Q).
  { intros u v x y Eu Ev H. unfold less in H. destruct u; try discriminate Eu; destruct v; try discriminate Ev;
    destruct H as (x' & y' & Ex & Ey & H); rewrite Ex in Eu; rewrite Ey in Ev; injection Eu as <-; injection Ev as <-; exact H. }
  assert (G : forall a b x y, num_Q a = Some x -> num_Q b = Some y -> (x < y)%Q -> less a b).
  { intros u v x y Eu Ev H. unfold less. destruct u; try discriminate Eu; destruct v; try discriminate Ev; eauto. }
  destruct (num_finite a) as [(x & Ea)|[(s & ->)| ->]], (num_finite b) as [(y & Eb)|[(t & ->)| ->]], (num_finite c) as [(z & Ec)|[(u & ->)| ->]]; intros H1 H2.
  1: apply (F _ _ _ _ Ea Eb) in H1; apply (F _ _ _ _ Eb Ec) in H2; apply (G _ _ _ _ Ea Ec); lra.
  all: repeat match goal with E : num_Q ?v = Some _ |- _ => destruct v; try discriminate E; clear E end; cbn in *; intuition congruence.
Qed.
Lemma less_same_l a b c : same_number a b -> less b c -> less a c.
Proof.
  intros H1 H2. pose proof (num_compare_spec a c) as S. destruct (num_compare a c) as [[]|].
  - destruct S as (_ & S & _). apply same_number_sym in H1. pose proof (same_number_trans _ _ _ H1 S) as X.
    pose proof (num_compare_spec b c) as T. destruct (num_compare b c) as [[]|]; tauto.
  - tauto.
  - destruct S as (_ & _ & S). pose proof (less_trans _ _ _ H2 S) as X. pose proof (num_compare_spec b a) as T. apply same_number_sym in H1. destruct (num_compare b a) as [[]|]; tauto.
  - exfalso. destruct S as ([ -> | -> ] & _); destruct b; cbn in *; auto; destruct s; tauto.
Qed.
Lemma less_same_r a b c : less a b -> same_number b c -> less a c.
Proof.
  intros H1 H2. pose proof (num_compare_spec a c) as S. destruct (num_compare a c) as [[]|].
  - destruct S as (_ & S & _). apply same_number_sym in H2. pose proof (same_number_trans _ _ _ S H2) as X.
    pose proof (num_compare_spec a b) as T. destruct (num_compare a b) as [[]|]; tauto.
  - tauto.
  - destruct S as (_ & _ & S). pose proof (less_trans _ _ _ S H1) as X. pose proof (num_compare_spec c b) as T. apply same_number_sym in H2. destruct (num_compare c b) as [[]|]; tauto.
  - exfalso. destruct S as ([ -> | -> ] & _); destruct b; cbn in *; auto; destruct s; tauto.
Qed.
Lemma before_trans a b c : before a b -> before b c -> before a c.
Proof.
  intros H. revert c. induction H as [x r|x y a b L|x a b H IH]; intros c H'; inversion H'; subst; constructor; auto; lia.
Qed.
Lemma ok_true (b : bool) : Ok b = Ok true -> b = true.
Proof. congruence. Qed.
Theorem C82_transitive : forall o a b c, alike a b -> alike b c ->
  data_compare o a b = Ok true -> data_compare o b c = Ok true -> data_compare o a c = Ok true.
Proof.
  intros o a b c H1 H2. destruct H1 as [x y Nx Ny|s t]; inversion H2 as [y' z _ Nz E1 E2|t' u E1 E2]; subst; cbn; intros E3 E4; apply ok_true in E3; apply ok_true in E4; f_equal.
  - apply op_true_num in E3. apply op_true_num in E4. apply op_true_num.
    destruct o; cbn in *; [destruct E3 as [E3|E3], E4 as [E4|E4]| |destruct E3 as [E3|E3], E4 as [E4|E4]|];
    first [left; eapply less_trans; eassumption
      | left; eapply less_same_l; [|eassumption]; now apply same_number_sym
      | left; eapply less_same_l; eassumption
      | left; eapply less_same_r; [eassumption|]; now apply same_number_sym
      | left; eapply less_same_r; eassumption
      | right; eapply same_number_trans; eassumption
      | eapply less_trans; eassumption].
  - apply op_true_str in E3. apply op_true_str in E4. apply op_true_str.
    destruct o; cbn in *; [destruct E3 as [E3|E3], E4 as [E4|E4]| |destruct E3 as [E3|E3], E4 as [E4|E4]|]; subst;
    first [now right | now left | left; eapply before_trans; eassumption | eapply before_trans; eassumption].
Qed.
Print Assumptions C82_transitive.

(** The docstrings name numbers and strings only, but booleans and arrays are
    compared too, and among those the methods are not an order that goes with
    [==]: true and 1 are each at most the other, and not equal. *)
Theorem C82_documented_refuted :
  ~ (forall o a b t, jwf a = true -> jwf b = true -> data_compare o a b = Ok t ->
       (exists x y, a = JNum x /\ b = JNum y) \/ (exists s u, a = JStr s /\ b = JStr u)).
Proof.
  intro H. destruct (H OLt (JBool false) (JBool true) true eq_refl eq_refl eq_refl) as [(x & y & E & _)|(s & u & E & _)]; discriminate E.
Qed.
Print Assumptions C82_documented_refuted.
Theorem C82_antisymmetric_refuted :
  ~ (forall a b, jwf a = true -> jwf b = true -> data_compare OLe a b = Ok true -> data_compare OLe b a = Ok true -> json_eqb a b = true).
Proof. intro H. specialize (H (JBool true) (JNum (NInt 1%Z)) eq_refl eq_refl eq_refl eq_refl). discriminate H. Qed.
Print Assumptions C82_antisymmetric_refuted.

(** [1, "b"] < [1.0, "c"]; 0.5 < 1 < 10^400; "Z" < "a"; [1, {}] against [1, []]
    raises, [1, {}] against [2, []] does not; an array of true against one of 1
    decides nothing although more items follow. *)
Example C82_case :
  let n z := JNum (NInt z) in let s c := JStr [c] in
  data_compare OLt (JArr [n 1%Z; s 98%N]) (JArr [JNum (NDyad 1%Z 0%Z); s 99%N]) = Ok true
  /\ data_compare OLt (JNum (NDyad 1%Z (-1)%Z)) (n 1%Z) = Ok true
  /\ data_compare OGe (n (10 ^ 400)%Z) (n 1%Z) = Ok true
  /\ data_compare OGe (JNum NNan) (n 1%Z) = Ok false /\ data_compare OLe (JNum NNan) (n 1%Z) = Ok false
  /\ data_compare OLt (s 90%N) (s 97%N) = Ok true
  /\ data_compare OLt (JArr [n 1%Z; JObj []]) (JArr [n 1%Z; JArr []]) = Exn EType
  /\ data_compare OLt (JArr [n 1%Z; JObj []]) (JArr [n 2%Z; JArr []]) = Ok true
  /\ data_compare OLe (JArr [JBool true; n 5%Z]) (JArr [n 1%Z; n 0%Z]) = Ok true
  /\ data_compare OGe (JArr [JBool true; n 5%Z]) (JArr [n 1%Z; n 0%Z]) = Ok true
  /\ alike (n 1%Z) (JNum (NDyad 1%Z (-1)%Z))
  /\ comparable (JArr [n 1%Z; JObj []]) (JArr [n 2%Z; JArr []])
  /\ ~ comparable (JArr [n 1%Z; JObj []]) (JArr [n 1%Z; JArr []]).
Proof.
  cbv zeta. repeat match goal with |- _ /\ _ => split; [solve [vm_compute; reflexivity]|] end.
  split; [constructor; discriminate|]. split.
  - destruct (compare_exact OLt (JArr [JNum (NInt 1%Z); JObj []]) (JArr [JNum (NInt 2%Z); JArr []]) eq_refl eq_refl) as [(A & B & _)|[(A & B & _)|(A & B & _)]]; [exact B|exact B|].
    vm_compute in A. discriminate A.
  - destruct (compare_exact OLt (JArr [JNum (NInt 1%Z); JObj []]) (JArr [JNum (NInt 1%Z); JArr []]) eq_refl eq_refl) as [(A & B & _)|[(A & B & _)|(A & B & _)]]; [| |exact B];
    vm_compute in A; discriminate A.
Qed.
