(** C48, C49: sources and caches of the catalog. *)
From Coq Require Import String List Bool Lia.
From Verif Require Import CatalogFacts SchemaCases.
Import ListNotations.
Open Scope string_scope.
Open Scope list_scope.
Open Scope nat_scope.

(** ** C48 *)

(** After any registrations: the source registered last for the longest
    registered prefix is asked for the rest of the URI. *)
Theorem C48_longest : forall L h u p src,
  loadable L u -> longest L h (uri_str u) p -> latest L h p src ->
  exists rest, uri_str u = p ++ rest /\
    load_json L (register L h []) u = match src rest with Exn _ => Exn ECatalog | e => e end.
Proof.
  intros L h u p src V Lo La. exists (skipn (length p) (uri_str u)). split; [|now apply load_longest].
  destruct Lo as (_ & [r ->] & _). f_equal. clear. induction p; [reflexivity|exact IHp].
Qed.
Print Assumptions C48_longest.

(** There is such a prefix and such a source whenever some prefix matches, and
    the prefix is the only one. *)
Theorem C48_exists : forall L h u,
  (exists p src, longest L h (uri_str u) p /\ latest L h p src) \/ (forall p, registered L h p -> ~ is_prefix p (uri_str u)).
Proof.
  intros L h u. destruct (longest_or_none L h (uri_str u)) as [[p H]|H]; [|now right]. left.
  destruct (registered_latest L h p (proj1 H)) as [src Hs]. now exists p, src.
Qed.
Print Assumptions C48_exists.
Theorem C48_unique : forall L h s p q, longest L h s p -> longest L h s q -> p = q.
Proof.
  intros L h s p q (R & P & M) (R' & P' & M'). apply (same_prefix p q s P P'). specialize (M q R' P'). specialize (M' p R P). lia.
Qed.
Print Assumptions C48_unique.

Theorem C48_no_source : forall L h u,
  (forall p, registered L h p -> ~ is_prefix p (uri_str u)) -> load_json L (register L h []) u = Exn ECatalog.
Proof.
  intros L h u N. destruct (loadable_dec L u) as [V|V]; [now apply load_none|]. unfold load_json. now rewrite (proj2 (validate_loadable L u) V).
Qed.
Print Assumptions C48_no_source.
Theorem C48_not_loadable : forall L t u, ~ loadable L u -> load_json L t u = Exn ECatalog.
Proof. intros L t u V. unfold load_json. now rewrite (proj2 (validate_loadable L u) V). Qed.
Print Assumptions C48_not_loadable.

(** A stand-in for rfc3986 that accepts everything. *)
Definition lax : urilib :=
  mkLib (fun s => mkUri s None) (fun u _ => u) (fun _ => true) (fun _ => true) (fun _ => true) (fun _ => true) u_base (fun _ _ => false).
Definition says_so (s : string) : source := fun rest => Ok (JArr [text s; JStr rest]).
Definition http (s : string) : uri := mkUri (lit ("http://" ++ s)%string) None.
Definition registrations : list (option uri * source) :=
  [(Some (http "a/"), says_so "old"); (None, says_so "any"); (Some (http "a/b/"), says_so "deep");
   (Some (http "a"), says_so "no slash"); (Some (http "a/"), says_so "new")].
Example C48_case :
  longest lax registrations (uri_str (http "a/c")) (lit "http://a/")
  /\ load_json lax (register lax registrations []) (http "a/c") = Ok (JArr [text "new"; text "c"])
  /\ load_json lax (register lax registrations []) (http "a/b/c") = Ok (JArr [text "deep"; text "c"])
  /\ load_json lax (register lax registrations []) (http "e") = Ok (JArr [text "any"; text "http://e"])
  /\ load_json lax (register lax [(Some (http "a/"), says_so "old")] []) (http "e") = Exn ECatalog.
Proof.
  split; [|vm_compute; auto]. split; [exists (Some (http "a/")), (says_so "old"); split; [now left|]; split; [|reflexivity]; repeat split; now exists (lit "http://a")|].
  split; [now exists (lit "c")|]. intros q (b & src & Hin & S) [r E]. assert (X : length q <= length (uri_str (http "a/c"))) by (rewrite E, app_length; lia).
  destruct Hin as [[= <- <-]|[[= <- <-]|[[= <- <-]|[[= <- <-]|[[= <- <-]|[]]]]]]; cbn [stands_for] in S.
  - destruct S as [_ ->]. cbn. lia.
  - rewrite S. cbn. lia.
  - destruct S as [_ ->]. cbn in E. discriminate E.
  - destruct S as [(_ & _ & _ & _ & [x Hx]) ->]. cbn. lia.
  - destruct S as [_ ->]. cbn. lia.
Qed.

(** ** C49 *)

(** After any history, a lookup finds what was added last and has not been
    removed since. *)
Theorem C49_last_added : forall h c u s, cached c u (history h) = Some s <-> stays h c u s.
Proof. exact history_cached. Qed.
Print Assumptions C49_last_added.

(** Programs with nested blocks and exceptions.  What never mentions a cache
    leaves its entries alone. *)
Theorem C49_independent : forall c p h u,
  Forall (foreign c) p -> cached c u (fst (run_cmds p (history h))) = cached c u (history h).
Proof.
  intros c p h u F. pose proof (tidy_history h) as T. revert T. generalize (history h). intros t T.
  assert (H : tidy (fst (run_cmds p t)) /\ cached c u (fst (run_cmds p t)) = cached c u t); [|apply H].
  apply (run_cmds_ind (fun t' => tidy t' /\ cached c u t' = cached c u t)); [|auto]. rewrite Forall_forall in *. intros x Hx t' [T' E'].
  split; [now apply run_cmd_tidy|]. rewrite <- E'. now apply run_cmd_foreign; auto.
Qed.
Print Assumptions C49_independent.

(** Leaving a block, normally or by an exception, empties its cache and no
    other. *)
Theorem C49_block : forall c p h, dmem c (history h) = false ->
  let '(inside, raised) := run_cmds p (history h) in
  let '(after, raised') := run_cmd (CBlock c p) (history h) in
  raised' = raised /\ dmem c after = false /\
  forall c' u, cached c' u after = if str_eqb c' c then None else cached c' u inside.
Proof.
  intros c p h N. pose proof (run_cmds_tidy p _ (tidy_history h)) as T. rewrite run_block. unfold enter_cache. rewrite N.
  destruct (run_cmds p (history h)) as [t' r]. cbn [fst] in T. split; [reflexivity|]. split.
  - unfold dmem, leave_cache. now rewrite dget_ddel_same by apply T.
  - intros c' u. now apply cached_leave.
Qed.
Print Assumptions C49_block.
Theorem C49_in_use : forall c p t, dmem c t = true -> run_cmd (CBlock c p) t = (t, true).
Proof. intros c p t H. rewrite run_block. unfold enter_cache. now rewrite H. Qed.
Print Assumptions C49_in_use.

Definition u1 : uri := http "a". Definition u2 : uri := mkUri (lit "http://a") (Some []).
Example C49_case :
  stays [Added (lit "x") u1 1; Added (lit "y") u1 2; Deleted (lit "x") u2; Left (lit "y")] (lit "x") u1 1
  /\ cached (lit "y") u1 (history [Added (lit "x") u1 1; Added (lit "y") u1 2; Left (lit "y")]) = None
  /\ (let r := run_cmd (CBlock (lit "y") [CAdd (lit "y") u1 3; CAdd (lit "x") u2 4; CRaise; CDel (lit "x") u1]) (history [Added (lit "x") u1 1]) in
      snd r = true /\ cached (lit "y") u1 (fst r) = None /\ cached (lit "x") u2 (fst r) = Some 4 /\ cached (lit "x") u1 (fst r) = Some 1)
  /\ dmem (lit "y") (history [Added (lit "x") u1 1]) = false /\ dmem (lit "x") (history [Added (lit "x") u1 1]) = true.
Proof.
  split; [|vm_compute; auto 10]. exists [], [Added (lit "y") u1 2; Deleted (lit "x") u2; Left (lit "y")]. split; [reflexivity|].
  intros e [<-|[<-|[<-|[]]]]; cbn; [intros [E _]|intros [_ E]|intro E]; discriminate E.
Qed.
