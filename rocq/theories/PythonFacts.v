(** What repr() writes are expressions for the same value, and an expression
    has one value. *)
From Coq Require Import List Lia Bool NArith.
From Verif Require Import BaseFacts JsonFacts ReprObjects SpecPython TextFacts PropsText.
Import ListNotations.
Open Scope N_scope.

(** ** Writing. *)
Lemma plain_repr s : repr_str s = repr_str_by printable s.
Proof. reflexivity. Qed.

Lemma printable_sensible : sensible printable.
Proof.
  intros c H. unfold printable in H. apply orb_true_iff in H. destruct H as [H|H]; rewrite ?andb_true_iff, ?N.leb_le, ?N.ltb_lt, ?negb_true_iff in H; [lia|].
  destruct H as [[H1 _] H2]. split; [lia|]. intros [A B]. apply N.leb_le in A, B. rewrite A, B in H2. discriminate H2.
Qed.

Lemma spells_by pr q s : sensible pr -> py_quote q -> Forall (fun c => c <= 1114111) s -> py_spells q (flat_map (repr_char_by pr q) s) s.
Proof.
  intros P Q V. induction V as [|c s Hc V IH]; [constructor|]. cbn [flat_map]. unfold repr_char_by at 1.
  destruct (N.eqb_spec c q) as [->|Nq].
  { cbn [orb app]. apply py_escape; [|exact IH]. destruct Q as [-> | ->]; constructor. }
  destruct (N.eqb_spec c 92) as [->|N92]; [cbn [orb app]; apply py_escape; [constructor|exact IH]|]. cbn [orb].
  destruct (N.eqb_spec c 9) as [->|N9]; [cbn [app]; apply py_escape; [constructor|exact IH]|].
  destruct (N.eqb_spec c 10) as [->|N10]; [cbn [app]; apply py_escape; [constructor|exact IH]|].
  destruct (N.eqb_spec c 13) as [->|N13]; [cbn [app]; apply py_escape; [constructor|exact IH]|].
  destruct (pr c) eqn:Pc; [cbn [app]; destruct (P c Pc); apply py_char; assumption|].
  destruct (N.ltb_spec c 256).
  { cbn [app]. pose proof (N.div_mod c 16 ltac:(lia)) as E. rewrite E at 3. apply py_x; [apply hex_digit_value, N.div_lt_upper_bound; lia|apply hex_digit_value, N.mod_lt; lia|exact IH]. }
  destruct (N.ltb_spec c 65536).
  { cbn [app]. apply py_u; [now apply hex4_text_unit|exact IH]. }
  cbn [app]. rewrite <- app_assoc. pose proof (N.div_mod c 65536 ltac:(lia)) as E. rewrite E at 3.
  apply py_U; [apply hex4_text_unit, N.div_lt_upper_bound; lia|apply hex4_text_unit, N.mod_lt; lia|lia|exact IH].
Qed.
(** With [printable] the code points need no bound: beyond the last one all
    are printed as they are. *)
Lemma spells_plain q s : py_quote q -> py_spells q (flat_map (repr_char q) s) s.
Proof.
  intros Q. induction s as [|c s IH]; [constructor|]. cbn [flat_map]. destruct (N.leb_spec c 1114111).
  - change (repr_char q c) with (repr_char_by printable q c). assert (V : Forall (fun c => c <= 1114111) [c]) by (constructor; [assumption|constructor]).
    pose proof (spells_by printable q [c] printable_sensible Q V) as S. cbn [flat_map] in S. rewrite app_nil_r in S. revert S IH. generalize (repr_char_by printable q c) (flat_map (repr_char q) s). clear.
    intros a b S IH. remember [c] as w eqn:W. destruct S as [|c0 t s0 A1 A2 A3 A4 S|e c0 t s0 A S|x y vx vy t s0 A B S|h u t s0 A S|h u k v t s0 A B C S]; [discriminate W|..];
    (injection W as W1 W2; rewrite <- W1; subst s0; inversion S; subst t; rewrite ?app_nil_r; cbn [app]).
    + now apply py_char. + now apply py_escape. + now apply py_x. + now apply py_u. + rewrite <- app_assoc. now apply py_U.
  - unfold repr_char at 1.
    assert (Cq : (c =? q) || (c =? 92) = false) by (apply orb_false_iff; split; apply N.eqb_neq; destruct Q; lia).
    assert (C9 : (c =? 9) = false) by (apply N.eqb_neq; lia). assert (C10 : (c =? 10) = false) by (apply N.eqb_neq; lia). assert (C13 : (c =? 13) = false) by (apply N.eqb_neq; lia).
    assert (Cp : printable c = true).
    { unfold printable. apply orb_true_iff. right. apply andb_true_iff. split; [apply andb_true_iff; split; [apply N.leb_le; lia|apply negb_true_iff, N.eqb_neq; lia]|].
      apply negb_true_iff, andb_false_iff. right. apply N.leb_gt. lia. }
    rewrite Cq, C9, C10, C13, Cp. cbn [app]. apply py_char; [lia|destruct Q; lia|lia|lia|exact IH].
Qed.
Lemma quote_used s : exists q, py_quote q /\ repr_str s = q :: flat_map (repr_char q) s ++ [q].
Proof. unfold repr_str. cbv zeta. destruct (existsb (N.eqb 39) s && negb (existsb (N.eqb 34) s)); eexists; (split; [|reflexivity]); [now right|now left]. Qed.
Lemma python_str F s : python F (repr_str s) (JStr s).
Proof. destruct (quote_used s) as (q & Q & ->). apply py_str; [exact Q|now apply spells_plain]. Qed.
Lemma python_str_by F pr s : sensible pr -> Forall (fun c => c <= 1114111) s -> python F (repr_str_by pr s) (JStr s).
Proof.
  intros P V. unfold repr_str_by. cbv zeta. destruct (existsb (N.eqb 39) s && negb (existsb (N.eqb 34) s)); apply py_str; try (apply spells_by; try assumption); unfold py_quote; auto.
Qed.

Lemma commas_py_items F ts l : l <> [] -> Forall2 (python F) ts l -> py_items F (commas ts) l.
Proof.
  intros Ne H. induction H as [|t v ts l D H IH]; [contradiction|]. destruct H as [|t' v' ts l D' H]; [now apply pi_last|].
  change (commas (t :: t' :: ts)) with (t ++ 44 :: 32 :: commas (t' :: ts)). apply pi_more; [exact D|]. apply IH. discriminate.
Qed.
Lemma commas_entries F (m : list (pystr * json)) ts : m <> [] ->
  Forall2 (fun kv t => exists u, python F u (snd kv) /\ t = repr_str (fst kv) ++ 58 :: 32 :: u) m ts -> py_entries F (commas ts) m.
Proof.
  intros Ne H. induction H as [|[k v] t m ts (u & D & ->) H IH]; [contradiction|]. cbn [fst snd] in *. destruct (quote_used k) as (q & Q & E). rewrite E.
  replace ((q :: flat_map (repr_char q) k ++ [q]) ++ 58 :: 32 :: u) with (q :: flat_map (repr_char q) k ++ q :: 58 :: 32 :: u) by (cbn [app]; now rewrite <- app_assoc).
  destruct H as [|kv' t' m ts D' H]; [cbn [commas]; apply pn_last; auto using spells_plain|].
  assert (C : forall t, commas (t :: t' :: ts) = t ++ 44 :: 32 :: commas (t' :: ts)) by reflexivity. rewrite C. cbn [app]. rewrite <- app_assoc. cbn [app].
  apply pn_more; auto using spells_plain. apply IH. discriminate.
Qed.

Lemma repr_python F v : jwf v = true -> ~ non_finite v -> agree F v -> exists v', python F (repr_value F v) v' /\ again v v'.
Proof.
  induction v as [|[]|[z|m e|b|]|s|l IH|m IH] using json_induction; intros W Nf A; cbn [repr_value].
  - exists JNull. split; [apply py_none|constructor].
  - exists (JBool true). split; [apply py_true|constructor].
  - exists (JBool false). split; [apply py_false|constructor].
  - exists (JNum (NInt z)). split; [|constructor]. unfold str_of_Z. destruct (integer_text (Z.abs_N z)) as [I V]. destruct (Z.ltb_spec z 0).
    + replace z with (- decimal_value (str_of_N (Z.abs_N z)))%Z at 2 by (rewrite V; lia). now apply py_neg.
    + replace z with (decimal_value (str_of_N (Z.abs_N z))) at 2 by (rewrite V; lia). now apply py_int.
  - destruct (A m e (fl_here m e)) as (T & m' & e' & E & Q). exists (JNum (NDyad m' e')). split; [|now constructor]. rewrite <- E. now apply py_float.
  - destruct Nf. constructor.
  - destruct Nf. constructor.
  - exists (JStr s). split; [apply python_str|constructor].
  - assert (X : exists l', Forall2 (python F) (map (repr_value F) l) l' /\ Forall2 again l l').
    { assert (W' : forall x, In x l -> jwf x = true) by (cbn in W; rewrite forallb_forall in W; exact W).
      assert (N' : forall x, In x l -> ~ non_finite x) by (intros x I X; apply Nf; econstructor; eassumption).
      assert (A' : forall x, In x l -> agree F x) by (intros x I m e Fl; apply A; econstructor; eassumption). clear W Nf A.
      induction IH as [|x l Hx _ IHl]; [exists []; split; constructor|].
      destruct (Hx (W' x (or_introl eq_refl)) (N' x (or_introl eq_refl)) (A' x (or_introl eq_refl))) as (x' & D & Ag).
      destruct (IHl (fun y I => W' y (or_intror I)) (fun y I => N' y (or_intror I)) (fun y I => A' y (or_intror I))) as (l' & D' & Ag'). exists (x' :: l'). split; constructor; auto. }
    destruct X as (l' & D & Ag). exists (JArr l'). split; [|now constructor]. unfold repr_list. destruct l' as [|x l'].
    + inversion Ag. subst l. apply py_nil.
    + apply py_list, commas_py_items; [discriminate|exact D].
  - apply jwf_obj in W as [Nd W]. rewrite Forall_forall in W. unfold repr_dict. rewrite map_map. cbn [fst snd].
    assert (X : exists m', Forall2 (fun kv t => exists u, python F u (snd kv) /\ t = repr_str (fst kv) ++ 58 :: 32 :: u) m' (map (fun kv => repr_str (fst kv) ++ 58 :: 32 :: repr_value F (snd kv)) m) /\
                Forall2 (fun a b => fst a = fst b /\ again (snd a) (snd b)) m m').
    { assert (N' : forall k x, In (k, x) m -> ~ non_finite x) by (intros k x I X; apply Nf; econstructor; eassumption).
      assert (A' : forall k x, In (k, x) m -> agree F x) by (intros k x I m0 e Fl; apply A; econstructor; eassumption). clear A Nd Nf.
      induction IH as [|[k x] m Hx _ IHm]; [exists []; split; constructor|]. cbn [snd] in Hx.
      destruct (Hx (W (k, x) (or_introl eq_refl)) (N' k x (or_introl eq_refl)) (A' k x (or_introl eq_refl))) as (x' & D & Ag).
      destruct IHm as (m' & D' & Ag'); [intros kv I; apply W; now right|intros k' y I; apply (N' k' y); now right|intros k' y I; apply (A' k' y); now right|].
      exists ((k, x') :: m'). split; constructor; cbn; auto. exists (repr_value F x). auto. }
    destruct X as (m' & D & Ag).
    assert (K : keys m' = keys m) by (clear - Ag; induction Ag as [|a b m m' (E & _) _ IH]; [reflexivity|]; change (fst b :: keys m' = fst a :: keys m); now rewrite E, IH).
    exists (JObj m'). split; [|now constructor]. destruct m' as [|kv m'].
    + inversion Ag. subst m. apply py_empty.
    + rewrite <- (collect_distinct (kv :: m')) by (rewrite K; exact Nd). apply py_dict, commas_entries; [discriminate|exact D].
Qed.

(** ** One value only. *)
Lemma unit_len h u : unit_of h u -> length h = 4%nat.
Proof. now destruct 1. Qed.
Lemma hexadecimal_unique c v v' : hexadecimal c v -> hexadecimal c v' -> v = v'.
Proof. intros A B. inversion A; inversion B; lia. Qed.
Lemma unit_unique h u u' : unit_of h u -> unit_of h u' -> u = u'.
Proof.
  intros A B. inversion A as [a b c d va vb vc vd A1 A2 A3 A4 E1 E2]. subst h u. inversion B as [a' b' c' d' wa wb wc wd B1 B2 B3 B4 E1 E2]. subst.
  now rewrite (hexadecimal_unique _ _ _ A1 B1), (hexadecimal_unique _ _ _ A2 B2), (hexadecimal_unique _ _ _ A3 B3), (hexadecimal_unique _ _ _ A4 B4).
Qed.
Lemma split_same {A} (a b : list A) x y : length a = length b -> a ++ x = b ++ y -> a = b /\ x = y.
Proof.
  revert b. induction a as [|c a IH]; intros [|d b] L E; try discriminate L; [now split|]. injection L as L. cbn [app] in E. injection E as -> E. destruct (IH b L E) as [-> ->]. now split.
Qed.
Lemma escapes_not e c : py_escapes e c -> e <> 120 /\ e <> 117 /\ e <> 85.
Proof. destruct 1; repeat split; discriminate. Qed.
Lemma escapes_unique e c c' : py_escapes e c -> py_escapes e c' -> c = c'.
Proof. destruct 1; inversion 1; reflexivity. Qed.

Lemma spelling_unique q t s : py_quote q -> py_spells q t s -> forall t' s' r r', py_spells q t' s' -> t ++ q :: r = t' ++ q :: r' -> t = t' /\ s = s' /\ r = r'.
Proof.
  intros Q H. assert (Q92 : q <> 92) by (destruct Q; lia).
  induction H as [|c t s A1 A2 A3 A4 H IH|e c t s A H IH|a b va vb t s A B H IH|h u t s A H IH|h u k w t s A B C H IH]; intros t' s' r r' H' E;
  destruct H' as [|c' t' s' B1 B2 B3 B4 H'|e' c' t' s' B' H'|a' b' va' vb' t' s' A' B' H'|h' u' t' s' A' H'|h' u' k' w' t' s' A' B' C' H']; cbn [app] in E;
  repeat rewrite <- app_assoc in E;
  try (injection E; intros; exfalso; congruence);
  try (match goal with P : py_escapes _ _ |- _ => destruct (escapes_not _ _ P) as (? & ? & ?); injection E; intros; exfalso; congruence end).
  - injection E as ->. auto.
  - injection E as <- E. destruct (IH _ _ _ _ H' E) as (-> & -> & ->). auto.
  - injection E as <- E. destruct (IH _ _ _ _ H' E) as (-> & -> & ->). rewrite (escapes_unique _ _ _ A B'). auto.
  - injection E as <- <- E. destruct (IH _ _ _ _ H' E) as (-> & -> & ->). rewrite (hexadecimal_unique _ _ _ A A'), (hexadecimal_unique _ _ _ B B'). auto.
  - injection E as E. apply split_same in E; [|now rewrite (unit_len _ _ A), (unit_len _ _ A')]. destruct E as [<- E]. destruct (IH _ _ _ _ H' E) as (-> & -> & ->). rewrite (unit_unique _ _ _ A A'). auto.
  - injection E as E. apply split_same in E; [|now rewrite (unit_len _ _ A), (unit_len _ _ A')]. destruct E as [<- E]. apply split_same in E; [|now rewrite (unit_len _ _ B), (unit_len _ _ B')]. destruct E as [<- E].
    destruct (IH _ _ _ _ H' E) as (-> & -> & ->). rewrite (unit_unique _ _ _ A A'), (unit_unique _ _ _ B B'). auto.
Qed.

(** Where an expression ends. *)
Definition closes (r : pystr) : Prop := match r with [] => True | c :: _ => c = 44 \/ c = 93 \/ c = 125 \/ c = 41 end.
Definition of_number (c : N) : bool := ((48 <=? c) && (c <=? 57)) || (c =? 46) || (c =? 101) || (c =? 69) || (c =? 43) || (c =? 45).
Definition starts_number (c : N) : Prop := 48 <= c <= 57 \/ c = 45.
Lemma decimal_numeric d : decimal d -> Forall (fun c => of_number c = true) d.
Proof. intros [_ D]. refine (Forall_impl _ _ D). intros c [A B]. unfold of_number. apply N.leb_le in A, B. now rewrite A, B. Qed.
Lemma integer_decimal i : integer_part i -> decimal i.
Proof. intros [->|[D _]]; [|exact D]. split; [discriminate|]. constructor; [lia|constructor]. Qed.
Lemma decimal_head d : decimal d -> exists c r, d = c :: r /\ 48 <= c <= 57.
Proof. intros [N D]. destruct D as [|c r H D]; [now destruct N|eauto]. Qed.
Lemma float_numeric t : float_text t -> Forall (fun c => of_number c = true) t /\ (exists c r, t = c :: r /\ starts_number c) /\ ~ Forall (fun c => 48 <= c <= 57 \/ c = 45) t.
Proof.
  intros (g & i & f & e & G & I & Fr & Ex & Ne & ->). apply integer_decimal in I. destruct (decimal_head i I) as (c & i' & Ei & Hc).
  assert (Ng : Forall (fun c => of_number c = true) g) by (destruct G; repeat constructor).
  assert (Nf : Forall (fun c => of_number c = true) f) by (destruct Fr as [|d D]; [constructor|constructor; [reflexivity|now apply decimal_numeric]]).
  assert (Nx : Forall (fun c => of_number c = true) e).
  { destruct Ex as [|x s d X S D]; [constructor|]. constructor; [destruct X as [-> | ->]; reflexivity|]. apply Forall_app. split; [destruct S as [->|[->| ->]]; repeat constructor|now apply decimal_numeric]. }
  split; [apply Forall_app; split; [exact Ng|]; apply Forall_app; split; [now apply decimal_numeric|]; apply Forall_app; auto|]. split.
  - destruct G; [exists c, (i' ++ f ++ e); split; [now rewrite Ei|now left]|eexists _, _; split; [reflexivity|now right]].
  - intro X. apply Forall_app in X as [_ X]. apply Forall_app in X as [_ X]. apply Forall_app in X as [X Y]. destruct Ne as [Ne|Ne].
    + destruct Fr; [now destruct Ne|]. inversion X; lia.
    + destruct Ex as [|x s d Hx S D]; [now destruct Ne|]. inversion Y; lia.
Qed.
Lemma span_unique t t' r r' : Forall (fun c => of_number c = true) t -> Forall (fun c => of_number c = true) t' -> closes r -> closes r' -> t ++ r = t' ++ r' -> t = t' /\ r = r'.
Proof.
  intros A. revert t'. assert (Nc : forall c l, closes (c :: l) -> of_number c = true -> False) by (intros c l [->|[->|[->| ->]]] X; discriminate X).
  induction A as [|c t Hc A IH]; intros t' A' C C' E; destruct A' as [|c' t' Hc' A'].
  - now split. - cbn [app] in E. subst r. now destruct (Nc c' _ C). - cbn [app] in E. subst r'. now destruct (Nc c _ C').
  - cbn [app] in E. injection E as <- E. destruct (IH _ A' C C' E) as [-> ->]. now split.
Qed.

Inductive numeral_of (F : floats) : pystr -> json -> Prop :=
| no_int i : integer_part i -> numeral_of F i (JNum (NInt (decimal_value i)))
| no_neg i : integer_part i -> numeral_of F (45 :: i) (JNum (NInt (- decimal_value i)))
| no_float t : float_text t -> numeral_of F t (JNum (f_parse F t)).
Lemma numeral_numeric F t v : numeral_of F t v -> Forall (fun c => of_number c = true) t /\ exists c r, t = c :: r /\ starts_number c.
Proof.
  intros [i I|i I|t' T].
  - apply integer_decimal in I. split; [now apply decimal_numeric|]. destruct (decimal_head i I) as (c & r & E & H). exists c, r. split; [exact E|now left].
  - apply integer_decimal in I. split; [constructor; [reflexivity|now apply decimal_numeric]|]. exists 45, i. split; [reflexivity|now right].
  - destruct (float_numeric t' T) as (A & B & _). auto.
Qed.
Lemma integer_plain i : integer_part i -> Forall (fun c => 48 <= c <= 57 \/ c = 45) i.
Proof. intro I. apply integer_decimal in I. destruct I as [_ D]. refine (Forall_impl _ _ D). auto. Qed.
Lemma numeral_unique F t v v' : numeral_of F t v -> numeral_of F t v' -> v = v'.
Proof.
  intros A B. destruct A as [i I|i I|t T]; inversion B as [j J E1 E2|j J E1 E2|u U E1 E2]; subst; try reflexivity.
  - apply integer_decimal in I. destruct (decimal_head _ I) as (c & r & E & H). injection E as <- _. lia.
  - destruct (float_numeric _ U) as (_ & _ & N). destruct N. now apply integer_plain.
  - apply integer_decimal in J. destruct (decimal_head _ J) as (c & r & E & H). injection E as <- _. lia.
  - destruct (float_numeric _ U) as (_ & _ & N). destruct N. constructor; [now right|now apply integer_plain].
  - destruct (float_numeric _ T) as (_ & _ & N). destruct N. now apply integer_plain.
  - destruct (float_numeric _ T) as (_ & _ & N). destruct N. constructor; [now right|now apply integer_plain].
Qed.

Scheme python_min := Minimality for python Sort Prop
  with py_items_min := Minimality for py_items Sort Prop
  with py_entries_min := Minimality for py_entries Sort Prop.
Combined Scheme python_mut from python_min, py_items_min, py_entries_min.

(** The kinds of expressions, by their first characters. *)
Inductive shape (F : floats) (t : pystr) (v : json) : Prop :=
| sh_none : t = lit "None" -> v = JNull -> shape F t v
| sh_true : t = lit "True" -> v = JBool true -> shape F t v
| sh_false : t = lit "False" -> v = JBool false -> shape F t v
| sh_number : numeral_of F t v -> shape F t v
| sh_str q b s : py_quote q -> py_spells q b s -> t = q :: b ++ [q] -> v = JStr s -> shape F t v
| sh_nil : t = [91; 93] -> v = JArr [] -> shape F t v
| sh_list b l : py_items F b l -> t = 91 :: b ++ [93] -> v = JArr l -> shape F t v
| sh_empty : t = [123; 125] -> v = JObj [] -> shape F t v
| sh_dict b m : py_entries F b m -> t = 123 :: b ++ [125] -> v = JObj (collect m) -> shape F t v.
Lemma shape_of F t v : python F t v -> shape F t v.
Proof.
  intro H. destruct H.
  - now apply sh_none. - now apply sh_true. - now apply sh_false. - apply sh_number. now constructor. - apply sh_number. now constructor. - apply sh_number. now constructor.
  - now apply (sh_str F _ _ q t s). - now apply sh_nil. - now apply (sh_list F _ _ t l). - now apply sh_empty. - now apply (sh_dict F _ _ t m).
Qed.
Definition kind (c : N) : N :=
  if c =? 78 then 0 else if c =? 84 then 1 else if c =? 70 then 2 else if ((48 <=? c) && (c <=? 57)) || (c =? 45) then 3
  else if (c =? 39) || (c =? 34) then 4 else if c =? 91 then 5 else if c =? 123 then 6 else 7.
Lemma starts_kind c : starts_number c -> kind c = 3.
Proof.
  intro H. unfold kind. destruct (N.eqb_spec c 78), (N.eqb_spec c 84), (N.eqb_spec c 70); try (destruct H; lia).
  assert (X : ((48 <=? c) && (c <=? 57)) || (c =? 45) = true); [|now rewrite X]. apply orb_true_iff. destruct H as [[A B]|A]; [left|right]; [apply andb_true_iff; split; now apply N.leb_le|now apply N.eqb_eq].
Qed.
Lemma python_head F t v : python F t v -> exists c r, t = c :: r /\ kind c <> 7.
Proof.
  intro H. destruct (shape_of F t v H) as [-> _| -> _| -> _|Nu|q b s Q _ -> _| -> _|b l _ -> _| -> _|b m _ -> _]; try (eexists _, _; split; [reflexivity|]; vm_compute; discriminate).
  - destruct (numeral_numeric F t v Nu) as (_ & c & r & E & S). exists c, r. split; [exact E|]. rewrite (starts_kind c S). discriminate.
  - exists q, (b ++ [q]). split; [reflexivity|]. destruct Q as [-> | ->]; vm_compute; discriminate.
Qed.
Definition vkind (v : json) : N :=
  match v with JNull => 0 | JBool true => 1 | JBool false => 2 | JNum _ => 3 | JStr _ => 4 | JArr _ => 5 | JObj _ => 6 end.
Lemma numeral_num F t v : numeral_of F t v -> exists n, v = JNum n.
Proof. destruct 1; eauto. Qed.
Lemma python_kind F t v : python F t v -> exists c r, t = c :: r /\ kind c = vkind v.
Proof.
  intro H. destruct (shape_of F t v H) as [-> ->| -> ->| -> ->|Nu|q b s Q _ -> ->| -> ->|b l _ -> ->| -> ->|b m _ -> ->]; try (eexists _, _; split; [reflexivity|]; vm_compute; reflexivity).
  - destruct (numeral_numeric F t v Nu) as (_ & c & r & E & S). destruct (numeral_num F t v Nu) as [n ->]. exists c, r. split; [exact E|]. now rewrite (starts_kind c S).
  - exists q, (b ++ [q]). split; [reflexivity|]. destruct Q as [-> | ->]; vm_compute; reflexivity.
Qed.
Lemma same_kind F t v t' v' r r' : python F t v -> python F t' v' -> t ++ r = t' ++ r' -> vkind v = vkind v'.
Proof.
  intros A B E. destruct (python_kind F t v A) as (c & u & -> & K). destruct (python_kind F t' v' B) as (c' & u' & -> & K'). cbn [app] in E. injection E as <- _. congruence.
Qed.
Lemma not_closed F t v r r' c : python F t v -> t ++ r = c :: r' -> kind c <> 7.
Proof. intros A E. destruct (python_kind F t v A) as (d & u & -> & K). cbn [app] in E. injection E as <- _. rewrite K. destruct v as [|[]| | | |]; discriminate. Qed.
Lemma items_open F b l r r' : py_items F b l -> b ++ r = 93 :: r' -> False.
Proof. intros [t v A|t v u l' A _] E; rewrite <- ?app_assoc in E; now apply (not_closed F t v _ _ _ A E). Qed.
Lemma entries_open F b m r r' : py_entries F b m -> b ++ r = 125 :: r' -> False.
Proof. intros [q k s t v [-> | ->]|q k s t v u m' [-> | ->]] E; discriminate E. Qed.

Lemma number_case F t v : numeral_of F t v -> python F t v -> forall t' v' r r', python F t' v' -> closes r -> closes r' -> t ++ r = t' ++ r' -> t = t' /\ v = v' /\ r = r'.
Proof.
  intros Nt P t' v' r r' H' C C' E. pose proof (same_kind F _ _ _ _ _ _ P H' E) as K. destruct (numeral_num _ _ _ Nt) as [n Ev].
  assert (Nt' : numeral_of F t' v').
  { destruct (shape_of _ _ _ H') as [_ X|_ X|_ X|X|? ? ? _ _ _ X|_ X|? ? _ _ X|_ X|? ? _ _ X]; try exact X; rewrite X, Ev in K; discriminate K. }
  destruct (span_unique t t' r r' (proj1 (numeral_numeric _ _ _ Nt)) (proj1 (numeral_numeric _ _ _ Nt')) C C' E) as [<- <-]. split; [reflexivity|]. split; [|reflexivity].
  exact (numeral_unique F t v v' Nt Nt').
Qed.

Lemma python_prefix F :
  (forall t v, python F t v -> forall t' v' r r', python F t' v' -> closes r -> closes r' -> t ++ r = t' ++ r' -> t = t' /\ v = v' /\ r = r') /\
  (forall t l, py_items F t l -> forall t' l' r r', py_items F t' l' -> t ++ 93 :: r = t' ++ 93 :: r' -> t = t' /\ l = l' /\ r = r') /\
  (forall t m, py_entries F t m -> forall t' m' r r', py_entries F t' m' -> t ++ 125 :: r = t' ++ 125 :: r' -> t = t' /\ m = m' /\ r = r').
Proof.
  apply python_mut.
  - intros t' v' r r' H' C C' E. pose proof (same_kind F _ _ _ _ _ _ (py_none F) H' E) as K.
    destruct (shape_of _ _ _ H') as [X V|_ X|_ X|X|? ? ? _ _ _ X|_ X|? ? _ _ X|_ X|? ? _ _ X]; try (rewrite X in K; discriminate K); [|destruct (numeral_num _ _ _ X) as [n ->]; discriminate K].
    subst t' v'. apply app_inv_head in E. auto.
  - intros t' v' r r' H' C C' E. pose proof (same_kind F _ _ _ _ _ _ (py_true F) H' E) as K.
    destruct (shape_of _ _ _ H') as [_ X|Y X|_ X|X|? ? ? _ _ _ X|_ X|? ? _ _ X|_ X|? ? _ _ X]; try (rewrite X in K; discriminate K); [|destruct (numeral_num _ _ _ X) as [n ->]; discriminate K].
    subst t' v'. apply app_inv_head in E. auto.
  - intros t' v' r r' H' C C' E. pose proof (same_kind F _ _ _ _ _ _ (py_false F) H' E) as K.
    destruct (shape_of _ _ _ H') as [_ X|_ X|Y X|X|? ? ? _ _ _ X|_ X|? ? _ _ X|_ X|? ? _ _ X]; try (rewrite X in K; discriminate K); [|destruct (numeral_num _ _ _ X) as [n ->]; discriminate K].
    subst t' v'. apply app_inv_head in E. auto.
  - intros i I. apply number_case; now constructor.
  - intros i I. apply number_case; [now apply no_neg|now apply py_neg].
  - intros t T. apply number_case; [now apply no_float|now apply py_float].
  - intros q t s Q S t' v' r r' H' C C' E. pose proof (same_kind F _ _ _ _ _ _ (py_str F q t s Q S) H' E) as K.
    destruct (shape_of _ _ _ H') as [_ X|_ X|_ X|X|q' b s' Q' S' Y X|_ X|? ? _ _ X|_ X|? ? _ _ X]; try (rewrite X in K; discriminate K); [destruct (numeral_num _ _ _ X) as [n ->]; discriminate K|].
    subst t' v'. cbn [app] in E. injection E as <- E. rewrite <- !app_assoc in E. cbn [app] in E. destruct (spelling_unique q t s Q S b s' r r' S' E) as (-> & -> & ->). auto.
  - intros t' v' r r' H' C C' E. pose proof (same_kind F _ _ _ _ _ _ (py_nil F) H' E) as K.
    destruct (shape_of _ _ _ H') as [_ X|_ X|_ X|X|? ? ? _ _ _ X|Y X|b l I Y X|_ X|? ? _ _ X]; try (rewrite X in K; discriminate K); [destruct (numeral_num _ _ _ X) as [n ->]; discriminate K| |].
    + subst t' v'. injection E as ->. auto.
    + subst t' v'. cbn [app] in E. injection E as E. rewrite <- app_assoc in E. symmetry in E. destruct (items_open F _ _ _ _ I E).
  - intros t l I IH t' v' r r' H' C C' E. pose proof (same_kind F _ _ _ _ _ _ (py_list F t l I) H' E) as K.
    destruct (shape_of _ _ _ H') as [_ X|_ X|_ X|X|? ? ? _ _ _ X|Y X|b l' I' Y X|_ X|? ? _ _ X]; try (rewrite X in K; discriminate K); [destruct (numeral_num _ _ _ X) as [n ->]; discriminate K| |].
    + subst t' v'. cbn [app] in E. injection E as E. rewrite <- app_assoc in E. destruct (items_open F _ _ _ _ I E).
    + subst t' v'. cbn [app] in E. injection E as E. rewrite <- !app_assoc in E. cbn [app] in E. destruct (IH _ _ _ _ I' E) as (-> & -> & ->). auto.
  - intros t' v' r r' H' C C' E. pose proof (same_kind F _ _ _ _ _ _ (py_empty F) H' E) as K.
    destruct (shape_of _ _ _ H') as [_ X|_ X|_ X|X|? ? ? _ _ _ X|_ X|? ? _ _ X|Y X|b m I Y X]; try (rewrite X in K; discriminate K); [destruct (numeral_num _ _ _ X) as [n ->]; discriminate K| |].
    + subst t' v'. injection E as ->. auto.
    + subst t' v'. cbn [app] in E. injection E as E. rewrite <- app_assoc in E. symmetry in E. destruct (entries_open F _ _ _ _ I E).
  - intros t m I IH t' v' r r' H' C C' E. pose proof (same_kind F _ _ _ _ _ _ (py_dict F t m I) H' E) as K.
    destruct (shape_of _ _ _ H') as [_ X|_ X|_ X|X|? ? ? _ _ _ X|_ X|? ? _ _ X|Y X|b m' I' Y X]; try (rewrite X in K; discriminate K); [destruct (numeral_num _ _ _ X) as [n ->]; discriminate K| |].
    + subst t' v'. cbn [app] in E. injection E as E. rewrite <- app_assoc in E. destruct (entries_open F _ _ _ _ I E).
    + subst t' v'. cbn [app] in E. injection E as E. rewrite <- !app_assoc in E. cbn [app] in E. destruct (IH _ _ _ _ I' E) as (-> & -> & ->). auto.
  - intros t v P IH t' l' r r' I' E. destruct I' as [t' v' P'|t' v' u l' P' I'].
    + destruct (IH _ _ (93 :: r) (93 :: r') P') as (-> & -> & X); [cbn; auto|cbn; auto|exact E|]. injection X as ->. auto.
    + rewrite <- app_assoc in E. cbn [app] in E. destruct (IH _ _ (93 :: r) (44 :: 32 :: u ++ 93 :: r') P') as (_ & _ & X); [cbn; auto|cbn; auto|exact E|]. discriminate X.
  - intros t v u l P IH I IHl t' l' r r' I' E. rewrite <- app_assoc in E. cbn [app] in E. destruct I' as [t' v' P'|t' v' u' l' P' I'].
    + destruct (IH _ _ (44 :: 32 :: u ++ 93 :: r) (93 :: r') P') as (_ & _ & X); [cbn; auto|cbn; auto|exact E|]. discriminate X.
    + rewrite <- app_assoc in E. cbn [app] in E. destruct (IH _ _ (44 :: 32 :: u ++ 93 :: r) (44 :: 32 :: u' ++ 93 :: r') P') as (-> & -> & X); [cbn; auto|cbn; auto|exact E|]. injection X as X.
      destruct (IHl _ _ _ _ I' X) as (-> & -> & ->). auto.
  - intros q k s t v Q S P IH t' m' r r' I' E. cbn [app] in E. rewrite <- app_assoc in E. cbn [app] in E. destruct I' as [q' k' s' t' v' Q' S' P'|q' k' s' t' v' u m' Q' S' P' I']; cbn [app] in E; rewrite <- app_assoc in E; cbn [app] in E; injection E as <- E.
    + destruct (spelling_unique q k s Q S _ _ _ _ S' E) as (-> & -> & X). injection X as X. destruct (IH _ _ (125 :: r) (125 :: r') P') as (-> & -> & Y); [cbn; auto|cbn; auto|exact X|]. injection Y as ->. auto.
    + destruct (spelling_unique q k s Q S _ _ _ _ S' E) as (_ & _ & X). injection X as X. rewrite <- app_assoc in X. cbn [app] in X.
      destruct (IH _ _ (125 :: r) (44 :: 32 :: u ++ 125 :: r') P') as (_ & _ & Y); [cbn; auto|cbn; auto|exact X|]. discriminate Y.
  - intros q k s t v u m Q S P IH I IHm t' m' r r' I' E. cbn [app] in E. rewrite <- app_assoc in E. cbn [app] in E. destruct I' as [q' k' s' t' v' Q' S' P'|q' k' s' t' v' u' m' Q' S' P' I']; cbn [app] in E; rewrite <- (app_assoc k') in E; cbn [app] in E; injection E as <- E.
    + destruct (spelling_unique q k s Q S _ _ _ _ S' E) as (_ & _ & X). injection X as X. rewrite <- app_assoc in X. cbn [app] in X.
      destruct (IH _ _ (44 :: 32 :: u ++ 125 :: r) (125 :: r') P') as (_ & _ & Y); [cbn; auto|cbn; auto|exact X|]. discriminate Y.
    + destruct (spelling_unique q k s Q S _ _ _ _ S' E) as (-> & -> & X). injection X as X. rewrite <- !app_assoc in X. cbn [app] in X.
      destruct (IH _ _ (44 :: 32 :: u ++ 125 :: r) (44 :: 32 :: u' ++ 125 :: r') P') as (-> & -> & Y); [cbn; auto|cbn; auto|exact X|]. injection Y as Y.
      destruct (IHm _ _ _ _ I' Y) as (-> & -> & ->). auto.
Qed.
Lemma python_unique F t v v' : python F t v -> python F t v' -> v = v'.
Proof. intros A B. destruct (proj1 (python_prefix F) t v A t v' [] [] B I I eq_refl) as (_ & E & _). exact E. Qed.
