(** C26: the order in which keywords are evaluated. *)
From Coq Require Import Permutation.
From Verif Require Import DepsFacts.
Open Scope nat_scope.

(** For any keyword classes whatsoever: what _resolve_dependencies yields is
    every class present, once, after everything present it depends on. *)
Theorem C26_order_respects_dependencies :
  forall (C : Type) (eqb : C -> C -> bool) (deps_of : C -> list pystr),
  (forall a b, reflect (a = b) (eqb a b)) ->
  forall fuel kw order, NoDup (keys kw) -> NoDup (map snd kw) ->
  resolve_dependencies eqb deps_of fuel kw = Ok order ->
  Permutation order (map snd kw) /\
  (forall c d n, In c order -> In n (deps_of c) -> dget n kw = Some d -> before d c order).
Proof.
  intros C eqb deps_of S fuel kw order NK NC H.
  destruct (resolve_sound eqb deps_of S fuel kw order NK NC H) as [[P B] _].
  split; [exact P|]. intros c d n Hc Hn Hd. apply B; [exact Hc|now exists n].
Qed.
Print Assumptions C26_order_respects_dependencies.

(** It ends exactly when some order respecting the dependencies exists and no
    class names a present keyword twice; the number of turns is then the
    number of keywords. *)
Theorem C26_ends_iff_orderable :
  forall (C : Type) (eqb : C -> C -> bool) (deps_of : C -> list pystr),
  (forall a b, reflect (a = b) (eqb a b)) ->
  forall kw, NoDup (keys kw) -> NoDup (map snd kw) ->
  ((exists order, resolve_dependencies eqb deps_of (length kw) kw = Ok order) <->
   ((exists g, good_order deps_of kw g) /\ no_repeats deps_of kw)).
Proof.
  intros C eqb deps_of S kw NK NC. split.
  - intros [l H]. destruct (resolve_sound eqb deps_of S _ kw l NK NC H) as [G R]. split; [now exists l|exact R].
  - intros [[g G] R]. exact (resolve_complete eqb deps_of S kw g NK NC G R).
Qed.
Print Assumptions C26_ends_iff_orderable.

(** Otherwise it never returns, however long one waits. *)
Theorem C26_unorderable_never_ends :
  forall (C : Type) (eqb : C -> C -> bool) (deps_of : C -> list pystr),
  (forall a b, reflect (a = b) (eqb a b)) ->
  forall kw, NoDup (keys kw) -> NoDup (map snd kw) ->
  ~ ((exists g, good_order deps_of kw g) /\ no_repeats deps_of kw) ->
  forall fuel, resolve_dependencies eqb deps_of fuel kw = Fuel.
Proof. intros C eqb deps_of S kw NK NC H. exact (resolve_diverges eqb deps_of S kw NK NC H). Qed.
Print Assumptions C26_unorderable_never_ends.

(** With the standard classes (and annotation classes for unrecognised keys)
    it always ends, whatever keywords the schema contains and in whatever
    order they are written. *)
Theorem C26_standard_keywords_end :
  forall kw, NoDup (keys kw) -> (forall k c, In (k, c) kw -> key_of c = k) ->
  exists order, resolve_dependencies kwclass_eqb depends_on (length kw) kw = Ok order.
Proof. exact resolve_standard. Qed.
Print Assumptions C26_standard_keywords_end.

(** The order is fully determined: at every turn the first written keyword
    that waits for no remaining one. *)
Theorem C26_exact :
  forall (C : Type) (eqb : C -> C -> bool) (deps_of : C -> list pystr),
  (forall a b, reflect (a = b) (eqb a b)) ->
  forall fuel kw order, NoDup (keys kw) -> NoDup (map snd kw) ->
  resolve_dependencies eqb deps_of fuel kw = Ok order ->
  in_turn (depends deps_of kw) (map snd kw) order /\
  forall order', in_turn (depends deps_of kw) (map snd kw) order' -> order' = order.
Proof.
  intros C eqb deps_of S fuel kw order NK NC H. pose proof (resolve_turns eqb deps_of S fuel kw order NK NC H) as T.
  split; [exact T|]. intros o' T'. exact (in_turn_unique _ _ _ _ T' T).
Qed.
Print Assumptions C26_exact.

(** A schema with unevaluatedProperties, then and an unknown keyword written
    before what they depend on. *)
Definition C26_kw : list (pystr * kwclass) :=
  map (fun c => (key_of c, c))
    [Std KUnevaluatedProperties; Std KThen; Std KMinContains; Unknown (lit "x"); Std KProperties;
     Std KMaxContains; Std KIf; Std KContains].

Example C26_case :
  NoDup (keys C26_kw) /\ (forall k c, In (k, c) C26_kw -> key_of c = k) /\
  resolve_dependencies kwclass_eqb depends_on 8 C26_kw =
  Ok [Unknown (lit "x"); Std KProperties; Std KIf; Std KThen; Std KUnevaluatedProperties; Std KContains;
      Std KMaxContains; Std KMinContains].
Proof.
  split; [|split].
  - now apply nodup_keysb_NoDup.
  - intros k c H. unfold C26_kw in H. apply in_map_iff in H as (x & E & _). now inversion E.
  - vm_compute. reflexivity.
Qed.

(** Two extension keywords that depend on each other: the hypothesis of
    C26_unorderable_never_ends is met. *)
Example C26_cycle_case :
  let deps (b : bool) := if b then [lit "f"] else [lit "t"] in
  let kw := [(lit "t", true); (lit "f", false)] in
  ~ ((exists g, good_order deps kw g) /\ no_repeats deps kw).
Proof.
  intros deps kw [[g [P B]] _].
  assert (T : In true g) by (apply (Permutation_in _ (Permutation_sym P)); now left).
  assert (F : In false g) by (apply (Permutation_in _ (Permutation_sym P)); right; now left).
  assert (L : length g = 2) by (apply Permutation_length in P; exact P).
  assert (B1 : before false true g) by (apply B; [exact T|exists (lit "f"); split; [now left|reflexivity]]).
  assert (B2 : before true false g) by (apply B; [exact F|exists (lit "t"); split; [now left|reflexivity]]).
  destruct B1 as (a & b & c & E), B2 as (a' & b' & c' & E').
  destruct g as [|x [|y [|z g]]]; try discriminate.
  destruct a as [|? [|? [|? ?]]]; cbn in E; try discriminate.
  destruct a' as [|? [|? [|? ?]]]; cbn in E'; try discriminate; try congruence.
  all: try (inversion E; destruct b; discriminate).
  all: try (inversion E'; destruct b'; discriminate).
Qed.
