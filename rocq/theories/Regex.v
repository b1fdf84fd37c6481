(** Regular expressions: the fragment of Python's [re] used by
    jschon/jsonpointer.py:25-32, and an executable [fullmatch]. *)
From Verif Require Export Base.

(** A character class is a list of inclusive code point ranges, possibly
    negated. *)
Inductive regex : Set :=
| RNone                                         (* matches nothing *)
| REps                                          (* matches the empty string *)
| RClass (neg : bool) (ranges : list (N * N))   (* [...] or [^...] *)
| RCat (r1 r2 : regex)                          (* r1 r2 *)
| RAlt (r1 r2 : regex)                          (* r1|r2 *)
| RStar (r : regex).                            (* r*  *)

Definition in_ranges (rs : list (N * N)) (c : N) : bool :=
  existsb (fun p => (fst p <=? c)%N && (c <=? snd p)%N) rs.

Definition class_ok (neg : bool) (rs : list (N * N)) (c : N) : bool :=
  xorb neg (in_ranges rs c).

(** The language of a regular expression. *)
Inductive lang : regex -> pystr -> Prop :=
| LEps : lang REps []
| LClass neg rs c : class_ok neg rs c = true -> lang (RClass neg rs) [c]
| LCat r1 r2 s1 s2 : lang r1 s1 -> lang r2 s2 -> lang (RCat r1 r2) (s1 ++ s2)
| LAltL r1 r2 s : lang r1 s -> lang (RAlt r1 r2) s
| LAltR r1 r2 s : lang r2 s -> lang (RAlt r1 r2) s
| LStarNil r : lang (RStar r) []
| LStarCons r s1 s2 : lang r s1 -> lang (RStar r) s2 -> lang (RStar r) (s1 ++ s2).

(** Executable matching by derivatives. *)
Fixpoint nullable (r : regex) : bool :=
  match r with
  | RNone => false
  | REps => true
  | RClass _ _ => false
  | RCat a b => nullable a && nullable b
  | RAlt a b => nullable a || nullable b
  | RStar _ => true
  end.

Fixpoint deriv (c : N) (r : regex) : regex :=
  match r with
  | RNone => RNone
  | REps => RNone
  | RClass neg rs => if class_ok neg rs c then REps else RNone
  | RCat a b => if nullable a then RAlt (RCat (deriv c a) b) (deriv c b)
                else RCat (deriv c a) b
  | RAlt a b => RAlt (deriv c a) (deriv c b)
  | RStar a => RCat (deriv c a) (RStar a)
  end.

(** [re.compile(r).fullmatch(s) is not None]. *)
Fixpoint fullmatch (r : regex) (s : pystr) : bool :=
  match s with
  | [] => nullable r
  | c :: t => fullmatch (deriv c r) t
  end.

(** Shorthands for transcribing the patterns. *)
Definition rchar (c : N) : regex := RClass false [(c, c)].
Definition ropt (r : regex) : regex := RAlt r REps.

(** ** Correctness of the matcher. *)

Lemma nullable_lang r : nullable r = true <-> lang r [].
Proof.
  induction r; simpl; split; intro H; try discriminate; try solve [inversion H].
  - constructor.
  - reflexivity.
  - apply andb_true_iff in H as [H1 H2].
    change (@nil N) with ((@nil N) ++ []). constructor; firstorder.
  - inversion H; subst.
    match goal with E : _ ++ _ = [] |- _ => apply app_eq_nil in E as [-> ->] end.
    apply andb_true_iff; firstorder.
  - apply orb_true_iff in H as [H|H]; [apply LAltL | apply LAltR]; firstorder.
  - apply orb_true_iff. inversion H; subst; firstorder.
  - constructor.
  - reflexivity.
Qed.

Lemma star_nonempty r c s :
  lang (RStar r) (c :: s) ->
  exists s1 s2, s = s1 ++ s2 /\ lang r (c :: s1) /\ lang (RStar r) s2.
Proof.
  intro H. remember (RStar r) as q eqn:Eq. remember (c :: s) as t eqn:Et.
  revert s c Et. induction H; intros s0 c0 Et; try discriminate.
  injection Eq as ->.
  destruct s1 as [|x s1].
  - apply (IHlang2 eq_refl). exact Et.
  - simpl in Et. injection Et as -> <-. exists s1, s2. auto.
Qed.

Lemma deriv_lang r c s : lang (deriv c r) s <-> lang r (c :: s).
Proof.
  revert s; induction r; simpl; intro s.
  - split; intro H; inversion H.
  - split; intro H; inversion H.
  - destruct (class_ok neg ranges c) eqn:E.
    + split; intro H; inversion H; subst; constructor; auto.
    + split; intro H; inversion H; subst; congruence.
  - assert (C : lang (RCat (deriv c r1) r2) s <->
                exists s1 s2, s = s1 ++ s2 /\ lang r1 (c :: s1) /\ lang r2 s2).
    { split.
      - intro H; inversion H; subst. do 2 eexists. repeat split; eauto. now apply IHr1.
      - intros (s1 & s2 & -> & H1 & H2). constructor; auto. now apply IHr1. }
    assert (D : lang (RCat r1 r2) (c :: s) <->
                lang (RCat (deriv c r1) r2) s \/ (nullable r1 = true /\ lang r2 (c :: s))).
    { rewrite C. split.
      - intro H; inversion H as [| |? ? s1 s2 H1 H2 E1 E2| | | | ]; subst.
        destruct s1 as [|x s1].
        + right. simpl in E2; subst. split; auto. now apply nullable_lang.
        + left. simpl in E2. injection E2 as -> <-. eauto.
      - intros [(s1 & s2 & -> & H1 & H2) | [H1 H2]].
        + change (c :: s1 ++ s2) with ((c :: s1) ++ s2). now constructor.
        + change (c :: s) with ([] ++ c :: s). constructor; auto. now apply nullable_lang. }
    rewrite D. destruct (nullable r1).
    + split.
      * intro H; inversion H; subst; auto. right; split; auto. now apply IHr2.
      * intros [H|[_ H]]; [apply LAltL|apply LAltR]; auto. now apply IHr2.
    + split; auto. intros [H|[H _]]; auto; discriminate.
  - split; intro H; inversion H; subst.
    + apply LAltL; now apply IHr1.
    + apply LAltR; now apply IHr2.
    + apply LAltL; now apply IHr1.
    + apply LAltR; now apply IHr2.
  - split; intro H.
    + inversion H; subst. change (c :: s1 ++ s2) with ((c :: s1) ++ s2).
      constructor; auto. now apply IHr.
    + apply star_nonempty in H as (s1 & s2 & -> & H1 & H2).
      constructor; auto. now apply IHr.
Qed.

Lemma fullmatch_lang r s : fullmatch r s = true <-> lang r s.
Proof.
  revert r; induction s as [|c s IH]; intro r; simpl.
  - apply nullable_lang.
  - rewrite IH. apply deriv_lang.
Qed.
