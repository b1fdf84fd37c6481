(** Which schema objects construction can change. *)
From Coq Require Import List Lia Bool.
From Verif Require Export CatalogFacts SchemaTerm SpecBuild.
Import ListNotations.
Open Scope nat_scope.

(** ** set_nth. *)
Lemma length_set_nth {A} n (x : A) l : length (set_nth n x l) = length l.
Proof. revert n. induction l as [|y l IH]; intros [|n]; cbn; auto. Qed.
Lemma nth_set_nth_same {A} n (x : A) l : n < length l -> nth_error (set_nth n x l) n = Some x.
Proof. revert n. induction l as [|y l IH]; intros [|n] H; cbn in *; try lia; auto. apply IH. lia. Qed.
Lemma nth_set_nth_other {A} n m (x : A) l : n <> m -> nth_error (set_nth n x l) m = nth_error l m.
Proof. revert n m. induction l as [|y l IH]; intros [|n] [|m] H; cbn; auto; try congruence. Qed.

(** ** Relations kept by a computation, whatever its outcome. *)
Definition framed {A} (P : cat -> cat -> Prop) (x : M A) : Prop := forall c, P c (snd (x c)).
Definition preorder (P : cat -> cat -> Prop) : Prop := (forall c, P c c) /\ (forall a b c, P a b -> P b c -> P a c).

Section Framed.
Variable P : cat -> cat -> Prop.
Hypothesis HP : preorder P.
Lemma framed_ret {A} (a : A) : framed P (ret a). Proof. intro c. apply HP. Qed.
Lemma framed_throw {A} e : framed P (@throw A e). Proof. intro c. apply HP. Qed.
Lemma framed_lift {A} (r : res A) : framed P (lift r). Proof. intro c. apply HP. Qed.
Lemma framed_read {A} (f : cat -> A) : framed P (read f). Proof. intro c. apply HP. Qed.
Lemma framed_modify f : (forall c, P c (f c)) -> framed P (modify f). Proof. intros H c. apply H. Qed.
Lemma framed_bind {A B} (x : M A) (f : A -> M B) : framed P x -> (forall a, framed P (f a)) -> framed P (bindM x f).
Proof.
  intros Hx Hf c. specialize (Hx c). unfold bindM. destruct (x c) as [[a| |] c1]; cbn [snd] in *; auto. destruct HP as [_ T]. exact (T _ _ _ Hx (Hf a c1)).
Qed.
Lemma framed_each {A} (f : A -> M unit) l : (forall a, In a l -> framed P (f a)) -> framed P (each_ f l).
Proof.
  induction l as [|a l IH]; intro H; [apply framed_ret|]. apply framed_bind; [apply H; now left|]. intros _. apply IH. intros; apply H; now right.
Qed.
Lemma framed_mapM {A B} (f : A -> M B) l : (forall a, In a l -> framed P (f a)) -> framed P (mapM f l).
Proof.
  induction l as [|a l IH]; intro H; [apply framed_ret|]. apply framed_bind; [apply H; now left|]. intros y. apply framed_bind; [|intro; apply framed_ret].
  apply IH. intros; apply H; now right.
Qed.
End Framed.
Lemma framed_weaken {A} (P Q : cat -> cat -> Prop) (x : M A) : (forall a b, P a b -> Q a b) -> framed P x -> framed Q x.
Proof. intros H Hx c. apply H, Hx. Qed.

(** All objects made before stay as they are; all but one do; all do up to
    resolution of references. *)
Definition same_old (c c' : cat) : Prop :=
  length (c_objs c) <= length (c_objs c') /\ forall i, i < length (c_objs c) -> nth_error (c_objs c') i = nth_error (c_objs c) i.
Definition same_but (s : sid) (c c' : cat) : Prop :=
  length (c_objs c) <= length (c_objs c') /\ forall i, i < length (c_objs c) -> i <> s -> nth_error (c_objs c') i = nth_error (c_objs c) i.
Definition same_shape (c c' : cat) : Prop :=
  length (c_objs c) <= length (c_objs c') /\
  forall i o, nth_error (c_objs c) i = Some o -> exists o', nth_error (c_objs c') i = Some o' /\ shape o' = shape o.

Lemma pre_old : preorder same_old.
Proof. split; [split; auto|]. intros a b c [L H] [L' H']. split; [lia|]. intros i Hi. rewrite H', H by lia. reflexivity. Qed.
Lemma pre_but s : preorder (same_but s).
Proof. split; [split; auto|]. intros a b c [L H] [L' H']. split; [lia|]. intros i Hi N. rewrite H', H by (lia || assumption). reflexivity. Qed.
Lemma pre_shape : preorder same_shape.
Proof.
  split; [split; eauto|]. intros a b c [L H] [L' H']. split; [lia|]. intros i o Ho. destruct (H _ _ Ho) as (o1 & H1 & E1). destruct (H' _ _ H1) as (o2 & H2 & E2).
  exists o2. split; [exact H2|congruence].
Qed.
Lemma old_but s a b : same_old a b -> same_but s a b.
Proof. intros [L H]. split; auto. Qed.
Lemma old_shape a b : same_old a b -> same_shape a b.
Proof.
  intros [L H]. split; [exact L|]. intros i o Ho. exists o. split; [|reflexivity]. rewrite H; [exact Ho|]. apply nth_error_Some. congruence.
Qed.

Lemma framed_cache_schema P : preorder P -> (forall c k, P c (mkCat (c_objs c) k)) -> forall id u s, framed P (cache_schema id u s).
Proof. intros _ H id u s c. apply H. Qed.
Lemma cache_old c k : same_old c (mkCat (c_objs c) k).
Proof. split; auto. Qed.
Lemma framed_update_but s f : framed (same_but s) (update s f).
Proof.
  intro c. unfold update, modify. cbn [snd]. destruct (nth_error (c_objs c) s) as [o|]; [|apply pre_but]. unfold put_obj, same_but. cbn [c_objs].
  rewrite length_set_nth. split; [lia|]. intros i _ N. apply nth_set_nth_other. congruence.
Qed.
Lemma framed_caching s id u : framed (same_but s) (cache_schema id u s).
Proof. intro c. apply old_but, cache_old. Qed.
Lemma framed_uncaching s id u : framed (same_but s) (uncache_schema id u).
Proof. intro c. apply old_but, cache_old. Qed.

Ltac framing P :=
  repeat lazymatch goal with
    | |- framed _ (bindM _ _) => apply (framed_bind _ P); [|intro]
    | |- framed _ (ret _) => apply (framed_ret _ P)
    | |- framed _ (throw _) => apply (framed_throw _ P)
    | |- framed _ (lift _) => apply (framed_lift _ P)
    | |- framed _ (read _) => apply (framed_read _ P)
    | |- framed _ (update _ _) => apply framed_update_but
    | |- framed _ (cache_schema _ _ _) => apply framed_caching
    | |- framed _ (uncache_schema _ _) => apply framed_uncaching
    end.

Lemma framed_set_uri L s u : framed (same_but s) (set_uri L s u).
Proof.
  pose proof (pre_but s) as P. unfold set_uri. apply (framed_bind _ P); [apply (framed_read _ P)|]. intros [o|]; [|apply (framed_ret _ P)].
  destruct (match so_uri o with Some u' => uri_same L u' u | None => false end); [apply (framed_ret _ P)|].
  framing P. destruct (so_uri o); framing P.
Qed.

Section Frames.
Variable E : env.

Lemma framed_init_id next s v : framed (same_but s) (init_id E next s v).
Proof.
  pose proof (pre_but s) as P. unfold init_id. framing P; [|apply framed_set_uri]. destruct (ul_absolute (e_lib E) a); [framing P|].
  destruct (base_uri a1 s); framing P.
Qed.
Lemma framed_init_anchor s v : framed (same_but s) (init_anchor E s v).
Proof. pose proof (pre_but s) as P. unfold init_anchor. framing P. destruct v, (base_uri a s), (nth_error a s); framing P. Qed.
Lemma framed_init_schema s v : framed (same_but s) (init_schema E s v).
Proof. pose proof (pre_but s) as P. unfold init_schema. framing P. Qed.

(** What a member can do when it is made into schemas. *)
Definition calm (x : member) : Prop :=
  (forall up, framed same_old (mb_schema x up)) /\ (forall k b up, In (k, b) (mb_items x) -> framed same_old (b up)).

Lemma framed_keyword_json s key c x : calm x -> framed same_old (keyword_json s key c x).
Proof.
  intros [H1 H2]. pose proof pre_old as P. unfold keyword_json.
  assert (T : forall ms, framed same_old (try_mixins s key x ms)).
  { induction ms as [|m ms IH]; [apply (framed_throw _ P)|]. cbn [try_mixins]. destruct (jsonify s key x m) as [j|] eqn:J; [|exact IH].
    unfold jsonify in J. destruct m, (mb_value x); try discriminate J; injection J as <-; try apply (framed_ret _ P);
      (apply (framed_bind _ P); [|intro; apply (framed_ret _ P)]); try apply H1; apply (framed_mapM _ P); intros [k b] Hb; cbn [fst snd].
    - exact (H2 _ _ _ Hb).
    - apply (framed_bind _ P); [exact (H2 _ _ _ Hb)|intro; apply (framed_ret _ P)]. }
  destruct (mixins c) as [|m ms]; [apply (framed_ret _ P)|apply T].
Qed.
Lemma framed_make_keyword s key c x : calm x -> framed (same_but s) (make_keyword E s key c x).
Proof.
  intro H. pose proof (pre_but s) as P. unfold make_keyword. apply (framed_bind _ P).
  { apply (framed_weaken same_old); [apply old_but|now apply framed_keyword_json]. }
  intro j. destruct c as [c|k]; [|framing P].
  destruct c; try solve [framing P]; try solve [apply (framed_bind _ P); [first [apply framed_init_schema|apply framed_init_id|apply framed_init_anchor]|intro; apply (framed_ret _ P)]].
  - destruct (mb_value x); try solve [framing P]. destruct (str_eqb s0 (lit "#")); framing P.
  - destruct (mb_value x); try solve [framing P]. destruct (e_regex E s0); framing P.
Qed.
Lemma framed_add_keyword s members key c : (forall k x, In (k, x) members -> calm x) -> framed (same_but s) (add_keyword E s members key c).
Proof.
  intro H. pose proof (pre_but s) as P. unfold add_keyword. destruct (dget key members) as [x|] eqn:D; [|framing P].
  apply dget_In in D. apply (framed_bind _ P); [exact (framed_make_keyword _ _ _ _ (H _ _ D))|]. intro k. apply framed_update_but.
Qed.
Lemma framed_metaschema P s : preorder P -> framed P (metaschema E s).
Proof. intro H. unfold metaschema. framing H. destruct (metaschema_uri a s) as [u|]; [destruct (e_dialect E u)|]; framing H. Qed.
Lemma framed_classes P s ks : preorder P -> framed P (classes E s ks).
Proof. intro H. unfold classes. apply (framed_mapM _ H). intros key _. framing H. now apply framed_metaschema. Qed.
Lemma framed_build_object s members : (forall k x, In (k, x) members -> calm x) -> framed (same_but s) (build_object E s members).
Proof.
  intro H. pose proof (pre_but s) as P. unfold build_object. framing P.
  - destruct a as [[[u|] m [up|] ch d]|]; try solve [framing P]. apply framed_set_uri.
  - unfold bootstrap. apply (framed_bind _ P); [now apply framed_add_keyword|]. intros _. apply (framed_bind _ P); [now apply framed_add_keyword|]. intros _.
    destruct (dmem (lit "$id") members); [|framing P]. apply (framed_bind _ P); [now apply framed_metaschema|]. intro d. now apply framed_add_keyword.
  - now apply framed_classes.
  - apply (framed_each _ P). intros c _. now apply framed_add_keyword.
Qed.
Lemma framed_new id u m up d : framed same_old (new_schema id u m up d).
Proof.
  intro c. unfold new_schema, bindM, read, modify, cache_schema, ret. destruct u as [u|]; cbn; (split; cbn; [rewrite app_length; cbn; lia|]);
    intros i Hi; now rewrite nth_error_app1.
Qed.

(** The member that [build] makes of a document. *)
Definition numbered (id : pystr) : nat -> list json -> list (pystr * builder) :=
  fix number (k : nat) (l : list json) : list (pystr * builder) :=
    match l with
    | [] => []
    | x :: r => (str_of_nat k, fun up => build E id x None None (Some up)) :: number (S k) r
    end.
Definition member_of (id : pystr) (v : json) : member :=
  mkMember v (fun up => build E id v None None (Some up))
    (match v with
     | JArr l => numbered id 0 l
     | JObj m => map (fun kv => (fst kv, fun up => build E id (snd kv) None None (Some up))) m
     | _ => []
     end).
Lemma build_object_eq id ms u m up : build E id (JObj ms) u m up =
  (do s <- new_schema id u m up (SObj []); do _ <- build_object E s (map (fun kv => (fst kv, member_of id (snd kv))) ms); ret s).
Proof. reflexivity. Qed.

Lemma in_numbered id kb k l : In kb (numbered id k l) ->
  exists i v, nth_error l i = Some v /\ kb = (str_of_nat (k + i), fun up => build E id v None None (Some up)).
Proof.
  revert k. induction l as [|x l IH]; intros k H; [destruct H|]. cbn in H. destruct H as [<-|H].
  - exists 0, x. now rewrite Nat.add_0_r.
  - destruct (IH _ H) as (i & v & Hi & ->). exists (S i), v. split; [exact Hi|]. now rewrite Nat.add_succ_r.
Qed.

Lemma new_schema_eq id u m up d c : new_schema id u m up d c =
  (Ok (length (c_objs c)), mkCat (c_objs c ++ [mkObj u m up id d])
     (match u with Some u => add_schema id u (length (c_objs c)) (c_cache c) | None => c_cache c end)).
Proof. unfold new_schema, bindM, read, modify, cache_schema, ret. now destruct u. Qed.

(** Constructing a document changes no schema object made before. *)
Lemma framed_build id v : forall u m up, framed same_old (build E id v u m up).
Proof.
  assert (G : forall n v, jsize v < n -> forall u m up, framed same_old (build E id v u m up)).
  { induction n as [|n IH]; intros w Hn u m up; [lia|]. destruct w as [|b|x|x|l|ms]; try apply framed_new;
      try solve [cbn [build]; apply (framed_bind _ pre_old); [apply framed_new|intro; apply (framed_throw _ pre_old)]].
    rewrite build_object_eq. intro c. unfold bindM at 1. rewrite new_schema_eq. set (s := length (c_objs c)). set (c1 := mkCat _ _).
    assert (L1 : length (c_objs c1) = S s) by (unfold c1; cbn; rewrite app_length; cbn; unfold s; lia).
    assert (F : framed (same_but s) (build_object E s (map (fun kv => (fst kv, member_of id (snd kv))) ms))).
    { apply framed_build_object. intros k x Hx. apply in_map_iff in Hx. destruct Hx as ([k' v'] & [= <- <-] & Hv). cbn [snd].
      apply jsize_members in Hv. cbn [snd] in Hv. split.
      - intro up'. apply IH. lia.
      - intros k b up' Hb. cbn [mb_items member_of] in Hb. destruct v' as [|?|?|?|l|m']; try destruct Hb.
        + apply in_numbered in Hb. destruct Hb as (i & w & Hi & [= _ ->]). apply nth_error_In, jsize_items in Hi. apply IH. lia.
        + apply in_map_iff in Hb. destruct Hb as ([k1 v1] & [= <- <-] & Hv1). apply jsize_members in Hv1. cbn [snd] in *. apply IH. lia. }
    specialize (F c1). unfold bindM. destruct (build_object E s _ c1) as [[a| |] c2] eqn:B; cbn [snd ret] in *;
      (destruct F as [L F]; split; [lia|]; intros i Hi; rewrite F by lia; unfold c1; cbn [c_objs]; now rewrite nth_error_app1). }
  exact (G (S (jsize v)) v (Nat.lt_succ_diag_r _)).
Qed.
End Frames.
