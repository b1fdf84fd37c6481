(** Schemas do not change once they have been constructed. *)
From Coq Require Import List Lia Bool.
From Verif Require Export BuildFacts.
Import ListNotations.
Open Scope nat_scope.

Definition below (n : nat) (c c' : cat) : Prop := forall i, i < n -> nth_error (c_objs c') i = nth_error (c_objs c) i.
Lemma below_refl n c : below n c c. Proof. intros i _. reflexivity. Qed.
Lemma below_trans n a b c : below n a b -> below n b c -> below n a c.
Proof. intros H H' i Hi. rewrite H', H by exact Hi. reflexivity. Qed.
Lemma old_below n c c' : same_old c c' -> n <= size c -> below n c c'.
Proof. intros [_ H] L i Hi. apply H. unfold size in L. lia. Qed.

(** From a catalog that developed from [c0]: it still does, and nothing below
    [n] changes. *)
Definition guarded (c0 : cat) (n : nat) (c c' : cat) : Prop :=
  kept c0 c -> sane c -> n <= size c -> kept c0 c' /\ sane c' /\ n <= size c' /\ below n c c'.
Lemma pre_guarded c0 n : preorder (guarded c0 n).
Proof.
  split; [intros c K S L; auto using below_refl|]. intros a b c H H' K S L. destruct (H K S L) as (K1 & S1 & L1 & B1).
  destruct (H' K1 S1 L1) as (K2 & S2 & L2 & B2). split; [exact K2|]. split; [exact S2|]. split; [exact L2|]. exact (below_trans _ _ _ _ B1 B2).
Qed.
Lemma guarded_intro {A} c0 n (x : M A) Q : framed kept x -> safe n x Q ->
  (forall c, kept c0 c -> sane c -> n <= size c -> below n c (snd (x c))) -> framed (guarded c0 n) x.
Proof.
  intros K S B c Kc Sc L. split; [exact (kept_trans _ _ _ Kc (K c))|]. destruct (S c Sc L) as (S1 & L1 & _). split; [exact S1|]. split; [lia|]. now apply B.
Qed.

Section Stays.
Variable E : env.
Hypothesis Docs : forall u doc, load_json (e_lib E) (e_sources E) u = Ok doc -> jwf doc = true.

Lemma below_set_ref n s key t d c : n <= s -> below n c (snd (set_ref s key t d c)).
Proof.
  intros H i Hi. unfold set_ref, update, modify. cbn [snd]. destruct (nth_error (c_objs c) s) as [x|] eqn:Hx; [|reflexivity].
  unfold put_obj. cbn [c_objs]. apply nth_set_nth_other. lia.
Qed.

Section Refs.
Variable f : nat.
Hypothesis Hres : forall c0 n s, sane c0 -> s < size c0 -> (forall t, within (c_objs c0) s t -> n <= t) -> framed (guarded c0 n) (resolve_references E f s).

Lemma below_construct n id v u m c : jwf v = true -> sane c -> n <= size c -> below n c (snd (construct E f id v u m c)).
Proof.
  intros J S L. unfold construct, construct_with, bindM. destruct (build E id v u m None c) as [r cb] eqn:B.
  pose proof (framed_build E id v u m None c) as Ob. rewrite B in Ob. cbn [snd] in Ob. pose proof (old_below n _ _ Ob L) as Lb.
  destruct r as [s| |]; [|exact Lb|exact Lb]. destruct v; try exact Lb. destruct (build_made E id _ u m c s cb S J B) as (Es & Ls & _ & Md).
  pose proof (sane_build E _ _ _ _ _ _ _ S B) as Sb.
  assert (W : forall t, within (c_objs cb) s t -> n <= t).
  { intros t W. pose proof (within_later E _ _ _ _ _ _ _ _ (proj1 Sb) Md W). lia. }
  destruct (Hres cb n s Sb Ls W cb (kept_refl _) Sb) as (_ & _ & _ & Br); [lia|]. pose proof (below_trans _ _ _ _ Lb Br) as R.
  destruct (resolve_references E f s cb) as [[?| |] c2]; exact R.
Qed.
Lemma below_get n id u m c : sane c -> n <= size c -> below n c (snd (get_schema E f id u m c)).
Proof.
  intros S L. unfold get_schema, get_schema_with. unfold bindM at 1, read at 1. destruct (cached id u (c_cache c)) as [s|]; [apply below_refl|]. cbv zeta.
  unfold bindM at 1, read at 1. set (known := match u_frag u with Some _ => cached id (no_fragment u) (c_cache c) | None => None end).
  assert (T : forall r c1, below n c c1 -> below n c (snd ((match r with
      | (_, Some s) => ret s
      | (s, None) =>
          match u_frag u with
          | Some ((_ :: _) as f) =>
              do objs <- read c_objs;
              do n <- lift (pointer_to_catalog (let* p := parse_uri_fragment f in sn_walk (objs_world objs) (SNSchema s) p));
              match n with SNSchema t => ret t | SNJson _ => throw ECatalog end
          | _ => ret s
          end
      end) c1))).
  { intros [s [s'|]] c1 B1; [exact B1|]. destruct (u_frag u) as [[|ch g]|]; [exact B1| |exact B1]. unfold bindM, read, lift.
    destruct (pointer_to_catalog _) as [[t|j]| |]; exact B1. }
  unfold bindM at 1. destruct known as [s|]; [exact (T (s, None) c (below_refl n c))|].
  unfold bindM at 1, lift at 1. destruct (load_json (e_lib E) (e_sources E) (no_fragment u)) as [doc| |] eqn:Ld; [|apply below_refl|apply below_refl].
  pose proof (below_construct n id doc (Some (no_fragment u)) m c (Docs _ _ Ld) S L) as B. unfold construct in B. unfold bindM at 1.
  destruct (construct_with E (resolve_references E f) id doc (Some (no_fragment u)) m c) as [[s| |] c1]; [|exact B|exact B]. cbn [snd] in B.
  exact (T (s, cached id u (c_cache c1)) c1 B).
Qed.
Lemma pre_below n : preorder (below n).
Proof. split; [apply below_refl|apply below_trans]. Qed.
Lemma absolute_same s j c : snd (absolute_reference E s j c) = c.
Proof.
  unfold absolute_reference, bindM, lift, read. destruct (match j with KJ v => parse_uri E v | _ => Exn EType end); try reflexivity.
  destruct (ul_absolute (e_lib E) (no_fragment a)); [reflexivity|]. now destruct (base_uri (c_objs c) s).
Qed.
(** Looking a schema up and then only setting references. *)
Lemma below_then n id u m c (k : sid -> M unit) : sane c -> n <= size c -> (forall t, framed (below n) (k t)) ->
  below n c (snd (bindM (get_schema E f id u m) k c)).
Proof.
  intros S L Hk. pose proof (below_get n id u m c S L) as B. unfold bindM. destruct (get_schema E f id u m c) as [[t| |] c1]; [|exact B|exact B].
  exact (below_trans _ _ _ _ B (Hk t c1)).
Qed.
Lemma below_resolve_keyword n s key k c : n <= s -> sane c -> n <= size c -> below n c (snd (resolve_keyword E (resolve_references E f) s key k c)).
Proof.
  intros Hn S L. assert (Hset : forall t d, framed (below n) (set_ref s key t d)) by (intros t d c'; now apply below_set_ref).
  unfold resolve_keyword. unfold bindM at 1, read at 1. cbv zeta. set (id := match nth_error (c_objs c) s with Some o => so_cache o | None => [] end).
  assert (Abs : forall k' : sid -> M unit, (forall t, framed (below n) (k' t)) ->
    below n c (snd ((do u <- absolute_reference E s (kw_json k); do t <- get_schema_with E (resolve_references E f) id u (metaschema_uri (c_objs c) s); k' t) c))).
  { intros k' Hk. pose proof (absolute_same s (kw_json k) c) as A. unfold bindM at 1. destruct (absolute_reference E s (kw_json k) c) as [[u| |] c1]; cbn [snd] in A; subst c1; [|apply below_refl|apply below_refl].
    now apply below_then. }
  destruct (kw_class k) as [kc|]; [|now apply Abs]. destruct kc; try now apply Abs.
  - apply Abs. intro t. framing (pre_below n); [apply Hset|]. destruct a1; [apply Hset|framing (pre_below n)].
  - destruct (base_uri (c_objs c) s) as [b|]; [|apply below_refl]. now apply below_then.
Qed.
End Refs.

Lemma resolve_guarded f : forall c0 n s, sane c0 -> s < size c0 -> (forall t, within (c_objs c0) s t -> n <= t) -> framed (guarded c0 n) (resolve_references E f s).
Proof.
  induction f as [|f IH]; intros c0 n s S0 Hs W; [intro c; apply pre_guarded|]. cbn [resolve_references]. intros c Kc Sc Lc. unfold bindM at 1, read at 1.
  assert (K : forall kk, In kk (schema_keywords (objs_world (c_objs c)) s) -> forall t, subschema_of (snd kk) t -> t < size c0 /\ forall t', within (c_objs c0) t t' -> n <= t').
  { intros [key k] Hk t Sub. apply keywords_in in Hk. destruct Hk as (kws & Ha & Hk). assert (Wt : within (c_objs c) s t) by exact (within_step _ _ _ _ _ _ _ (within_self _ _) Ha Hk Sub).
    destruct (within_back _ _ _ _ Kc S0 Hs Wt) as [Ht W0]. split; [exact Ht|]. intros t' W'. apply W. exact (within_trans _ _ _ _ W0 W'). }
  assert (Hn : n <= s) by (apply W; constructor).
  refine (framed_each _ (pre_guarded c0 n) _ _ _ c Kc Sc Lc). intros kk Hk. destruct (reference_class (kw_class (snd kk))).
  - eapply guarded_intro; [apply kept_resolve_keyword, kept_resolve|apply safe_resolve_keyword, safe_resolve|]. intros c1 K1 S1 L1. now apply below_resolve_keyword.
  - specialize (K kk Hk). unfold subschema_of in K. destruct (kw_json (snd kk)) as [v|t|l|m].
    + apply (framed_ret _ (pre_guarded c0 n)).
    + destruct (K t eq_refl). now apply IH.
    + apply (framed_each _ (pre_guarded c0 n)). intros t Ht. destruct (K t Ht). now apply IH.
    + apply (framed_each _ (pre_guarded c0 n)). intros t Ht. destruct (K (snd t)) as [? ?]; [exact (in_map snd _ _ Ht)|]. now apply IH.
Qed.

(** Constructing and looking up leave all schemas made before as they are,
    whatever the outcome. *)
Theorem construct_stays f id v u m c : jwf v = true -> sane c -> same_old c (snd (construct E f id v u m c)).
Proof.
  intros J S. split; [exact (proj1 (proj2 (safe_construct E f 0 id v u m c S (Nat.le_0_l _))))|]. exact (below_construct f (resolve_guarded f) (size c) id v u m c J S (Nat.le_refl _)).
Qed.
Theorem get_stays f id u m c : sane c -> same_old c (snd (get_schema E f id u m c)).
Proof.
  intros S. split; [exact (proj1 (proj2 (safe_get_schema E f 0 id u m c S (Nat.le_0_l _))))|]. exact (below_get f (resolve_guarded f) (size c) id u m c S (Nat.le_refl _)).
Qed.
End Stays.
Lemma develops_stays c c' : sane c -> develops c c' -> sane c' /\ same_old c c'.
Proof.
  intros S H. induction H as [|E f id v u m c' D J H [S' O]|E f id u m c' D H [S' O]|id c' H [S' O]].
  - split; [exact S|apply pre_old].
  - split; [apply (safe_construct E f 0 id v u m c' S' (Nat.le_0_l _))|]. eapply (proj2 pre_old); [exact O|]. now apply construct_stays.
  - split; [apply (safe_get_schema E f 0 id u m c' S' (Nat.le_0_l _))|]. eapply (proj2 pre_old); [exact O|]. now apply get_stays.
  - split; [now apply sane_leave|exact O].
Qed.
