(** Facts about the code judgement. *)
From Coq Require Import List.
From Verif Require Export SchemaStrict.
Import ListNotations.
Open Scope nat_scope.

(** ** More steps do not change it. *)
Section Mono.
Variable W : world.
Variable choose choose' : pystr -> list sid -> sid -> sid.
Variable jd jd' : list sid -> sid -> json -> option outcome.
Hypothesis H : forall sc t y, ext (jd sc t y) (jd' sc t y).

Lemma ext_code_rest sc st t l : ext (code_rest jd sc st t l) (code_rest jd' sc st t l).
Proof. apply ext_bind; [apply ext_judge_all, H|intro; apply ext_refl]. Qed.
Lemma ext_code_count sc kws x : ext (code_count jd sc kws x) (code_count jd' sc kws x).
Proof.
  unfold code_count. destruct (dget _ kws); [|apply ext_refl]. apply ext_bind; [apply ext_refl|]. intro. apply ext_bind; [apply ext_judge_all, H|intro; apply ext_refl].
Qed.
Lemma ext_code_std sc kws k c x : same_choice choose choose' k -> ext (code_std W choose jd sc kws k c x) (code_std W choose' jd' sc kws k c x).
Proof.
  intro Hc. destruct c; try (apply ext_judge_std; assumption); cbn [code_std].
  - apply ext_bind; [apply ext_refl|]. intro. apply ext_bind; [apply H|intro; apply ext_refl].
  - apply ext_bind; [apply ext_refl|]. intro. apply ext_code_rest.
  - apply ext_bind; [apply ext_refl|]. intro. apply ext_bind; [apply ext_judge_all, H|]. intro. apply ext_refl.
  - destruct (kw_json k) as [|t| |]; try apply ext_refl; [|apply ext_judge_pairs, H]. destruct (w_schema W t); [|apply ext_judge_rest, H].
    destruct (items x); [apply ext_refl|apply H].
  - destruct (subs_of _); [|apply ext_refl]. apply ext_bind; [apply ext_refl|]. intro. apply ext_bind; [apply ext_judge_pairs, H|]. intro o.
    destruct (o_ok o); [apply ext_code_rest|apply ext_refl].
  - apply ext_bind; [apply ext_code_count|intro; apply ext_refl].
  - apply ext_bind; [apply ext_code_count|intro; apply ext_refl].
Qed.
Lemma ext_code_unevaluated sc o k c x : ext (code_unevaluated jd sc o k c x) (code_unevaluated jd' sc o k c x).
Proof.
  destruct c; try (apply ext_judge_unevaluated; assumption); cbn [code_unevaluated]; cbv zeta;
    (apply ext_bind; [apply ext_refl|]; intro; apply ext_bind; [apply ext_judge_all, H|intro; apply ext_refl]).
Qed.
Lemma ext_code_object sc kws x : (forall key k, In (key, k) kws -> same_choice choose choose' k) ->
  ext (code_object W choose jd sc kws x) (code_object W choose' jd' sc kws x).
Proof.
  intro Hc. unfold code_object. cbv zeta. apply ext_bind.
  - apply ext_all. set (early := filter _ _).
    assert (He : forall k, In k early -> same_choice choose choose' k).
    { intros k Hk. unfold early in Hk. rewrite !filter_In, in_map_iff in Hk. destruct Hk as [[([key k'] & <- & Hk) _] _]. exact (Hc _ _ Hk). }
    clearbody early. induction early as [|k l IH]; constructor; [|apply IH; intros; apply He; now right]. unfold code_keyword.
    destruct (kw_class k); [apply ext_code_std, He; now left|apply ext_refl].
  - intro os. apply ext_bind; [|intro; apply ext_refl]. apply ext_all.
    induction (filter (concerns x) (map snd kws)) as [|k l IH]; [constructor|]. cbn [flat_map]. destruct (late k); [|exact IH]. constructor; [apply ext_code_unevaluated|exact IH].
Qed.
End Mono.

Lemma code_mono W choose n : forall sc s x, ext (code_judge W choose n sc s x) (code_judge W choose (S n) sc s x).
Proof.
  induction n as [|n IH]; intros sc s x; [now left|]. cbn [code_judge]. destruct (w_schema W s); [apply ext_refl|].
  apply ext_code_object; [exact IH|]. intros key k _ _ sc' t. reflexivity.
Qed.
Lemma code_more W choose n m sc s x o : n <= m -> code_judge W choose n sc s x = Some o -> code_judge W choose m sc s x = Some o.
Proof. intros Hl E. induction Hl as [|m Hl IH]; [exact E|]. exact (ext_some _ _ _ (code_mono W choose m sc s x) IH). Qed.
(** The code judgement is unique. *)
Theorem code_unique W choose n m sc s x o o' : code_judge W choose n sc s x = Some o -> code_judge W choose m sc s x = Some o' -> o = o'.
Proof.
  intros E E'. destruct (Nat.le_ge_cases n m) as [L|L].
  - apply (code_more W choose n m) in E; [congruence|exact L].
  - apply (code_more W choose m n) in E'; [congruence|exact L].
Qed.
(** It depends on the choices made for dynamic references only. *)
Lemma code_choice_only W c1 c2 : (forall s kws key k, w_schema W s = SObj kws -> In (key, k) kws -> same_choice c1 c2 k) ->
  forall n sc s x, code_judge W c1 n sc s x = code_judge W c2 n sc s x.
Proof.
  intros Hc n. induction n as [|n IH]; intros sc s x; [reflexivity|]. cbn [code_judge]. destruct (w_schema W s) as [|kws] eqn:Hs; [reflexivity|].
  assert (E : ext (code_object W c1 (code_judge W c1 n) (s :: sc) kws x) (code_object W c2 (code_judge W c2 n) (s :: sc) kws x)).
  { apply ext_code_object; [intros; rewrite IH; apply ext_refl|]. intros. eapply Hc; eauto. }
  assert (E' : ext (code_object W c2 (code_judge W c2 n) (s :: sc) kws x) (code_object W c1 (code_judge W c1 n) (s :: sc) kws x)).
  { apply ext_code_object; [intros; rewrite IH; apply ext_refl|]. intros key k Hk D sc' t. symmetry. exact (Hc s kws key k Hs Hk D sc' t). }
  destruct E as [E|E]; [|exact E]. destruct E' as [E'|E']; congruence.
Qed.
