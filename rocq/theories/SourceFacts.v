(** Proofs about file names. *)
From Verif Require Export Source SpecSource.
From Verif Require Import BaseFacts PointerFacts.
Open Scope nat_scope.

Lemma enter_skip d x : real_part x = false -> enter d x = d.
Proof.
  unfold real_part, enter. intros H. destruct (str_eqb x []); [reflexivity|]. destruct (str_eqb x (lit ".")); [reflexivity|discriminate H].
Qed.

Lemma enter_filter l : forall d, fold_left enter (filter real_part l) d = fold_left enter l d.
Proof.
  induction l as [|x l IH]; intros d; [reflexivity|]. cbn [filter fold_left]. destruct (real_part x) eqn:R; cbn [fold_left].
  - apply IH.
  - rewrite (enter_skip d x R). apply IH.
Qed.

Lemma split_parts s : Forall (fun t => ~ In 47%N t) (split_char 47 s).
Proof.
  induction s as [|c s IH]; cbn [split_char]; [repeat constructor; now intros []|]. destruct (N.eqb_spec c 47) as [E|E].
  - constructor; [now intros []|exact IH].
  - destruct (split_char 47 s) as [|t ts]; [repeat constructor; intros [X|[]]; auto|]. inversion IH as [|? ? H1 H2]. subst. constructor; [|exact H2].
    intros [X|X]; auto.
Qed.

Lemma Forall_filter {A} (P : A -> Prop) f l : Forall P l -> Forall P (filter f l).
Proof. induction 1; cbn; [constructor|]. destruct (f x); [constructor|]; assumption. Qed.

Lemma split_slashed l : l <> [] -> Forall (fun t => ~ In 47%N t) l -> split_char 47 (slashed l) = l.
Proof.
  induction l as [|x l IH]; intros N F; [now elim N|]. inversion F as [|? ? H1 H2]. subst. destruct l as [|y l]; [apply split_noslash; exact H1|].
  change (slashed (x :: y :: l)) with (x ++ 47%N :: slashed (y :: l)). rewrite split_app by exact H1. f_equal. apply IH; [discriminate|exact H2].
Qed.

Lemma slashed_snoc l x s : slashed (l ++ [x]) ++ s = slashed (l ++ [x ++ s]).
Proof.
  induction l as [|y l IH]; [reflexivity|]. destruct l as [|z l].
  - cbn. now rewrite <- app_assoc.
  - change (slashed ((y :: z :: l) ++ [x])) with (y ++ 47%N :: slashed ((z :: l) ++ [x])).
    change (slashed ((y :: z :: l) ++ [x ++ s])) with (y ++ 47%N :: slashed ((z :: l) ++ [x ++ s])).
    rewrite <- IH, <- app_assoc. reflexivity.
Qed.

Definition is_root (r : pystr) : Prop := r = [] \/ r = [47%N] \/ r = [47; 47]%N.

Lemma posix_root_is s : is_root (posix_root s).
Proof. unfold is_root, posix_root. destruct (slashes s) as [|[|[|n]]]; auto. Qed.

Lemma posix_root_nil s : posix_root s = [] <-> match s with c :: _ => c <> 47%N | [] => True end.
Proof.
  unfold posix_root. destruct s as [|c s]; cbn; [tauto|]. destruct (N.eqb_spec c 47) as [E|E].
  - destruct (slashes s) as [|[|n]]; split; intro X; try discriminate X; elim X; exact E.
  - tauto.
Qed.

(** Where the walk begins. *)
Definition origin (cwd : list pystr) (root : pystr) : list pystr := match root with [] => cwd | _ => [] end.

Lemma origin_root cwd s : match s with c :: _ => if N.eqb c 47 then [] else cwd | [] => cwd end = origin cwd (posix_root s).
Proof.
  unfold posix_root. destruct s as [|c s]; cbn; [reflexivity|]. destruct (N.eqb c 47); [|reflexivity]. now destruct (slashes s) as [|[|n]].
Qed.

Lemma leads_path cwd s : leads_to cwd s = fold_left enter (pp_parts (path_of s)) (origin cwd (pp_root (path_of s))).
Proof. unfold leads_to, path_of. cbn [pp_parts pp_root]. now rewrite enter_filter, origin_root. Qed.

(** A rooted text with proper parts. *)
Lemma leads_rooted cwd r l : is_root r -> l <> [] -> Forall (fun t => ~ In 47%N t /\ t <> []) l ->
  leads_to cwd (r ++ slashed l) = fold_left enter l (origin cwd r).
Proof.
  intros R N F. assert (F1 : Forall (fun t => ~ In 47%N t) l) by (eapply Forall_impl; [|exact F]; now intros a [? ?]).
  unfold leads_to. destruct R as [ -> |[ -> | -> ]].
  - cbn [app]. rewrite split_slashed by assumption. f_equal. destruct l as [|x l]; [now elim N|]. inversion F as [|? ? [H1 H2] H3]. subst.
    assert (E : exists c r, slashed (x :: l) = c :: r /\ c <> 47%N).
    { destruct x as [|c x]; [now elim H2|]. exists c. destruct l; cbn [slashed app]; eexists; (split; [reflexivity|]); intros X; apply H1; left; exact X. }
    destruct E as (c & q & -> & Hc). destruct (N.eqb_spec c 47); [now elim Hc|reflexivity].
  - cbn [app split_char N.eqb Pos.eqb fold_left origin]. rewrite split_slashed by assumption. reflexivity.
  - cbn [app split_char N.eqb Pos.eqb fold_left origin]. rewrite split_slashed by assumption. reflexivity.
Qed.

(** The suffix goes to the last part. *)
Fixpoint suffixed (s : pystr) (l : list pystr) : list pystr :=
  match l with [] => [] | [x] => [x ++ s] | x :: r => x :: suffixed s r end.
Lemma suffixed_snoc s l x : suffixed s (l ++ [x]) = l ++ [x ++ s].
Proof. induction l as [|y l IH]; [reflexivity|]. cbn [app suffixed]. rewrite IH. destruct l; reflexivity. Qed.

Lemma suffixed_app s a b : b <> [] -> suffixed s (a ++ b) = a ++ suffixed s b.
Proof. intros N. destruct (exists_last N) as (q & x & ->). now rewrite app_assoc, !suffixed_snoc, app_assoc. Qed.

Lemma path_str_suffix p s : pp_parts p <> [] -> Forall (fun t => t <> []) (pp_parts p) -> path_str p ++ s = pp_root p ++ slashed (suffixed s (pp_parts p)).
Proof.
  intros N F. destruct p as [r l]. cbn in *. destruct (exists_last N) as (q & x & ->). rewrite suffixed_snoc, <- slashed_snoc, app_assoc. f_equal.
  unfold path_str. cbn [pp_root pp_parts]. destruct (r ++ slashed (q ++ [x])) eqn:E; [|reflexivity]. exfalso.
  apply app_eq_nil in E. destruct E as [_ E]. apply Forall_app in F. destruct F as [_ F]. inversion F as [|? ? H _]. subst.
  destruct q as [|y [|z q]]; cbn in E; [auto| |]; apply app_eq_nil in E; destruct E as [_ E]; discriminate E.
Qed.

Lemma suffixed_proper s l : ~ In 47%N s -> Forall (fun t => ~ In 47%N t /\ t <> []) l -> Forall (fun t => ~ In 47%N t /\ t <> []) (suffixed s l).
Proof.
  intros Hs. induction l as [|x l IH]; intros F; [constructor|]. inversion F as [|? ? [H1 H2] H3]. subst. destruct l as [|y l].
  - constructor; [|constructor]. split.
    + rewrite in_app_iff. tauto.
    + intros E. apply app_eq_nil in E. tauto.
  - constructor; [split; assumption|]. exact (IH H3).
Qed.

Lemma parts_proper s : Forall (fun t => ~ In 47%N t /\ t <> []) (pp_parts (path_of s)).
Proof.
  unfold path_of. cbn. apply Forall_forall. intros x Hx. apply filter_In in Hx. destruct Hx as [I R]. split.
  - exact (proj1 (Forall_forall _ _) (split_parts s) x I).
  - intros ->. discriminate R.
Qed.

Lemma leads_str cwd p s : is_root (pp_root p) -> pp_parts p <> [] -> Forall (fun t => ~ In 47%N t /\ t <> []) (pp_parts p) -> ~ In 47%N s ->
  leads_to cwd (path_str p ++ s) = fold_left enter (suffixed s (pp_parts p)) (origin cwd (pp_root p)).
Proof.
  intros R N F Hs. rewrite path_str_suffix; [|exact N|eapply Forall_impl; [|exact F]; now intros a [? ?]].
  apply leads_rooted; [exact R| |now apply suffixed_proper]. destruct (pp_parts p) as [|x [|y l]]; [now elim N| |]; cbn; discriminate.
Qed.

Lemma suffixed_nil l : suffixed [] l = l.
Proof. induction l as [|x [|y l] IH]; [reflexivity|cbn; now rewrite app_nil_r|]. cbn [suffixed] in *. now rewrite IH. Qed.

Lemma leads_str_plain cwd p : is_root (pp_root p) -> Forall (fun t => ~ In 47%N t /\ t <> []) (pp_parts p) ->
  leads_to cwd (path_str p) = fold_left enter (pp_parts p) (origin cwd (pp_root p)).
Proof.
  intros R F. destruct (pp_parts p) as [|x l] eqn:E.
  - unfold path_str. rewrite E. destruct R as [ -> |[ -> | -> ]]; reflexivity.
  - rewrite <- E in *. rewrite <- (app_nil_r (path_str p)), leads_str, suffixed_nil; auto. congruence.
Qed.

Lemma join_rel a b : pp_root b = [] -> path_join a b = mkPath (pp_root a) (pp_parts a ++ pp_parts b).
Proof. unfold path_join. now intros ->. Qed.

Definition fixed (suffix : option pystr) : pystr := match suffix with Some s => s | None => [] end.

Lemma local_below cwd base suffix rel : pp_root (path_of rel) = [] -> pp_parts (path_of rel) <> [] -> ~ In 47%N (fixed suffix) ->
  leads_to cwd (local_file base suffix rel) = fold_left enter (suffixed (fixed suffix) (pp_parts (path_of rel))) (leads_to cwd base).
Proof.
  intros R N S. unfold local_file. fold (fixed suffix). rewrite (join_rel _ _ R). rewrite leads_str; cbn [pp_root pp_parts].
  - rewrite suffixed_app by exact N. rewrite fold_left_app, (leads_path cwd base). reflexivity.
  - apply posix_root_is.
  - intros E. apply app_eq_nil in E. tauto.
  - apply Forall_app. split; apply parts_proper.
  - exact S.
Qed.

Lemma enter_names l d : Forall (fun t => real_part t = true /\ t <> lit "..") l -> fold_left enter l d = rev l ++ d.
Proof.
  intros F. revert d. induction F as [|x l [H1 H2] F IH]; intros d; [reflexivity|]. cbn [fold_left rev]. rewrite IH, <- app_assoc. cbn [app]. f_equal.
  unfold enter. unfold real_part in H1. destruct (str_eqb x []); [discriminate H1|]. destruct (str_eqb x (lit ".")); [discriminate H1|]. cbn [orb].
  now rewrite (proj2 (str_eqb_neq x (lit "..")) H2).
Qed.

Lemma suffixed_names s l : Forall (fun t => real_part t = true /\ t <> lit "..") l -> Forall (fun t => real_part t = true /\ t <> lit "..") (suffixed s l).
Proof.
  induction l as [|x l IH]; intros F; [constructor|]. inversion F as [|? ? [H1 H2] H3]. subst. destruct l as [|y l].
  - constructor; [|constructor]. clear -H1 H2. unfold real_part in *. apply andb_prop in H1. destruct H1 as [A B].
    apply negb_true_iff, str_eqb_neq in A. apply negb_true_iff, str_eqb_neq in B.
    destruct x as [|c x]; [now elim A|]. destruct x as [|e x].
    + assert (C : c <> 46%N) by (intros ->; now apply B). split.
      * apply andb_true_intro. split; apply negb_true_iff, str_eqb_neq; intros E; [discriminate E|]. apply C. now injection E.
      * intros E. apply C. now injection E.
    + split.
      * apply andb_true_intro. split; apply negb_true_iff, str_eqb_neq; intros E; discriminate E.
      * intros E. apply H2. cbn in E. injection E as -> -> E. destruct x; [reflexivity|discriminate E].
  - constructor; [split; assumption|]. exact (IH H3).
Qed.

Lemma downward_parts rel : downward rel ->
  pp_root (path_of rel) = [] /\ pp_parts (path_of rel) <> [] /\ Forall (fun t => real_part t = true /\ t <> lit "..") (pp_parts (path_of rel)).
Proof.
  intros (A & U & x & I & N1 & N2). split; [now apply posix_root_nil|]. cbn [path_of pp_parts]. split.
  - intros E. assert (Hx : In x (filter real_part (split_char 47 rel))).
    { apply filter_In. split; [exact I|]. unfold real_part. now rewrite (proj2 (str_eqb_neq _ _) N1), (proj2 (str_eqb_neq _ _) N2). }
    rewrite E in Hx. destruct Hx.
  - apply Forall_forall. intros y Hy. apply filter_In in Hy. destruct Hy as [Iy Ry]. split; [exact Ry|exact (U y Iy)].
Qed.
