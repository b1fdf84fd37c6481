(** The trees that evaluation returns: keys, evaluation paths and instance
    paths of the nodes. *)
From Coq Require Import List Lia.
From Verif Require Export SchemaPlaced.
From Verif Require Import SpecPointer PatchFacts.
Import ListNotations.
Open Scope nat_scope.

(** At the same place or one step below. *)
Definition near (p q : path) : Prop := q = p \/ exists k, q = p ++ [k].
Section Shape.
Variable i0 : inst.
Definition known (p : path) : Prop := exists q v, p = i_path i0 ++ q /\ refers (i_val i0) q v.
Definition child_ok (n : rnode) (kc : (pystr * path) * rnode) : Prop :=
  r_key (snd kc) = Some (fst (fst kc)) /\ r_path (snd kc) = r_path n ++ [fst (fst kc)] /\ r_inst (snd kc) = snd (fst kc) /\
  known (snd (fst kc)) /\ near (r_inst n) (snd (fst kc)).
Inductive shaped : rnode -> Prop :=
| shaped_i n : NoDup (map fst (r_children n)) -> Forall (child_ok n) (r_children n) -> Forall (fun kc => shaped (snd kc)) (r_children n) -> shaped n.
(** An instance that occurs in the evaluation: a part of [i0], or the name
    of a member in place of the member. *)
Definition part (i : inst) : Prop :=
  exists q v, i_path i = i_path i0 ++ q /\ refers (i_val i0) q v /\ (i_val i = v \/ exists s, i_val i = JStr s).

Lemma part_known i : part i -> known (i_path i). Proof. intros (q & v & E & R & _). now exists q, v. Qed.
Lemma refers_snoc d q v k v' : refers d q v -> child v k v' -> refers d (q ++ [k]) v'.
Proof. intros R C. induction R as [d|d k1 d1 ks v C1 R IH]; cbn [app]; [eapply refers_down; [exact C|constructor]|eapply refers_down; [exact C1|auto]]. Qed.
Lemma items_from_part p q vs l : p = i_path i0 ++ q -> refers (i_val i0) q (JArr vs) -> forall k, (forall j v, nth_error l j = Some v -> nth_error vs (k + j) = Some v) ->
  Forall (fun j => part j /\ near p (i_path j)) (items_from p k l).
Proof.
  intros E R. induction l as [|v l IH]; intros k H; cbn [items_from]; constructor.
  - split; [|right; now exists (str_of_nat k)]. exists (q ++ [str_of_nat k]), v. cbn [i_path i_val]. split; [subst p; now rewrite app_assoc|]. split; [|now left].
    eapply refers_snoc; [exact R|]. apply child_nat. rewrite <- (Nat.add_0_r k). now apply H.
  - apply IH. intros j w Hj. replace (S k + j) with (k + S j) by lia. now apply H.
Qed.
Lemma items_part i : part i -> Forall (fun j => part j /\ near (i_path i) (i_path j)) (items_of i).
Proof.
  intros (q & v & E & R & V). unfold items_of. destruct (i_val i) as [| | | |l|] eqn:I; try constructor. destruct V as [<-|(s & V)]; [|discriminate].
  now apply (items_from_part (i_path i) q l l E R).
Qed.
Lemma members_part i : part i -> Forall (fun nj => part (snd nj) /\ near (i_path i) (i_path (snd nj))) (members_of i).
Proof.
  intros (q & v & E & R & V). unfold members_of. destruct (i_val i) as [| | | | |m] eqn:I; try constructor. destruct V as [<-|(s & V)]; [|discriminate].
  apply Forall_forall. intros [n j] H. apply in_map_iff in H. destruct H as ([k w] & [= <- <-] & H). cbn [fst snd i_path]. split; [|right; now exists k].
  exists (q ++ [k]), w. cbn [i_path i_val]. split; [rewrite E; now rewrite app_assoc|]. split; [|now left]. eapply refers_snoc; [exact R|]. now constructor.
Qed.

Definition whole (n : rnode) : Prop := NoDup (map fst (r_children n)) /\ Forall (child_ok n) (r_children n) /\ Forall (fun kc => shaped (snd kc)) (r_children n).
Lemma whole_shaped n : whole n -> shaped n. Proof. intros (A & B & C). now constructor. Qed.
Definition over_ (n n' : rnode) : Prop := whole n' /\ same n n'.
Lemma over_refl n : whole n -> over_ n n. Proof. intro K. split; [exact K|apply same_refl]. Qed.
Lemma over_trans a b c : same a b -> over_ b c -> over_ a c. Proof. intros S [K S']. split; [exact K|exact (same_trans _ _ _ S S')]. Qed.
Lemma cdrop_keys k m : forall x, In x (map fst (cdrop k m)) -> In x (map fst m).
Proof. induction m as [|[k' v] m IH]; intros x; cbn [cdrop]; [auto|]. destruct (ckey_eqb k k'); [now right|]. intros [<-|H]; [now left|right; auto]. Qed.
Lemma cput_keys k v m : forall x, In x (map fst (cput k v m)) -> x = k \/ In x (map fst m).
Proof.
  induction m as [|[k' w] m IH]; intros x; cbn [cput]; [intros [<-|[]]; now left|].
  destruct (ckey_eqb k k'); [right; exact H|]. intros [<-|H]; [right; now left|]. destruct (IH x H); [now left|right; now right].
Qed.
Lemma NoDup_cdrop k m : NoDup (map fst m) -> NoDup (map fst (cdrop k m)).
Proof.
  induction m as [|[k' v] m IH]; cbn [cdrop map fst]; intro N; [constructor|]. inversion N as [|? ? Nk Nm]; subst. destruct (ckey_eqb k k'); [exact Nm|].
  cbn [map fst]. constructor; [|auto]. intro H. apply Nk. exact (cdrop_keys _ _ _ H).
Qed.
Lemma NoDup_cput k v m : NoDup (map fst m) -> NoDup (map fst (cput k v m)).
Proof.
  induction m as [|[k' w] m IH]; cbn [cput map fst]; intro N; [constructor; [intros []|constructor]|]. inversion N as [|? ? Nk Nm]; subst.
  destruct (ckey_eqb_spec k k') as [->|Ne]; cbn [map fst]; [now constructor|]. constructor; [|auto]. intro H. apply cput_keys in H. destruct H; [congruence|auto].
Qed.
(** The child of a node, as [close_child] leaves it. *)
Lemma whole_put n key i c : whole n -> child_ok n ((key, i_path i), c) -> shaped c -> whole (put_child n key i c).
Proof.
  intros (A & B & C) O S. unfold put_child. split; [cbn; now apply NoDup_cput|]. split; cbn [with_children r_children]; apply Forall_cput; try assumption.
Qed.
Lemma whole_close n key i c : whole n -> child_ok n ((key, i_path i), c) -> shaped c -> whole (close_child n key i c).
Proof.
  intros W O S. unfold close_child. destruct (r_discard c); [|now apply whole_put]. destruct W as (A & B & C).
  split; [cbn; now apply NoDup_cdrop|]. split; cbn [with_children r_children]; apply Forall_cdrop; assumption.
Qed.
Lemma child_same n key p c c' : same c c' -> child_ok n ((key, p), c) -> child_ok n ((key, p), c').
Proof. intros (A & B & _ & _ & E) (O1 & O2 & O3 & O4). cbn [fst snd] in *. unfold child_ok. cbn [fst snd]. rewrite A, B, E. auto. Qed.
Lemma child_of n n' kc : same n n' -> child_ok n kc -> child_ok n' kc.
Proof. intros (A & B & _ & _ & E) (O1 & O2 & O3 & O4 & O5). unfold child_ok. rewrite B, E. auto. Qed.
Lemma new_child_ok n key i s : known (i_path i) -> near (r_inst n) (i_path i) -> child_ok n ((key, i_path i), new_child n key i s).
Proof. intros K N. repeat split; assumption. Qed.
Lemma new_whole n key i s : whole (new_child n key i s). Proof. repeat split; constructor. Qed.

Variable W : world.
Variable ev : sid -> inst -> list sid -> rnode -> res rnode.
Hypothesis Hev : forall s i anc n, part i -> near (r_inst n) (i_path i) -> whole n -> Post (over_ n) (ev s i anc n).
Definition over1 {B} n (rb : rnode * B) : Prop := over_ n (fst rb).
Definition ahead (n : rnode) (j : inst) : Prop := part j /\ near (r_inst n) (i_path j).
Lemma ahead_same n n' j : same n n' -> ahead n j -> ahead n' j.
Proof. intros (_ & _ & _ & _ & E) [A B]. split; [exact A|now rewrite E]. Qed.

Lemma shape_in_child result anc i key s : whole result -> ahead result i -> Post (over1 result) (in_child ev result anc i key s).
Proof.
  intros K [P N]. unfold in_child. eapply post_bind; [apply Hev; [exact P|now left|apply new_whole]|]. intros c [Kc Sc]. split; [|apply same_close].
  apply whole_close; [exact K| |now apply whole_shaped]. eapply child_same; [exact Sc|]. apply new_child_ok; [now apply part_known|exact N].
Qed.
Lemma shape_branches i anc l : forall k result, whole result -> ahead result i -> Post (over1 result) (branches ev i anc k l result).
Proof.
  induction l as [|s l IH]; intros k result K A; cbn [branches]; [now apply over_refl|].
  eapply post_bind; [now apply shape_in_child|]. intros [r c] [K1 S1]. cbn [fst] in *.
  eapply post_bind; [apply IH; [exact K1|exact (ahead_same _ _ _ S1 A)]|]. intros [r2 bs] D. exact (over_trans _ _ _ S1 D).
Qed.
Lemma shape_pairwise anc : forall js l k result, whole result -> Forall (ahead result) js -> Post (over1 result) (pairwise ev anc k js l result).
Proof.
  induction js as [|j js IH]; intros l k result K A; cbn [pairwise]; [now apply over_refl|]. destruct l as [|s l]; [now apply over_refl|].
  inversion A as [|? ? Aj Ajs]; subst. eapply post_bind; [now apply shape_in_child|]. intros [r c] [K1 S1]. cbn [fst] in *.
  eapply post_bind; [apply IH; [exact K1|]|].
  - eapply Forall_impl; [|exact Ajs]. intro. apply (ahead_same _ _ _ S1).
  - intros [r2 bs] D. exact (over_trans _ _ _ S1 D).
Qed.
Lemma shape_dependents i anc m : forall result, whole result -> ahead result i -> Post (over1 result) (dependents ev i anc m result).
Proof.
  induction m as [|[name s] m IH]; intros result K A; cbn [dependents]; [now apply over_refl|].
  destruct (has_member i name); [|now apply IH]. eapply post_bind; [now apply shape_in_child|]. intros [r c] [K1 S1]. cbn [fst] in *.
  eapply post_bind; [apply IH; [exact K1|exact (ahead_same _ _ _ S1 A)]|]. intros [r2 [g b]] D. exact (over_trans _ _ _ S1 D).
Qed.
Lemma shape_named subs anc : forall l result, whole result -> Forall (fun nj => ahead result (snd nj)) l -> Post (over1 result) (named ev subs anc l result).
Proof.
  induction l as [|[name j] l IH]; intros result K A; cbn [named]; [now apply over_refl|]. inversion A as [|? ? Aj Al]; subst. cbn [snd] in Aj.
  destruct (dget name subs) as [s|] eqn:E; [|auto]. eapply post_bind; [now apply shape_in_child|]. intros [r c] [K1 S1]. cbn [fst] in *.
  eapply post_bind; [apply IH; [exact K1|]|].
  - eapply Forall_impl; [|exact Al]. intro. apply (ahead_same _ _ _ S1).
  - intros [r2 [g b]] D. exact (over_trans _ _ _ S1 D).
Qed.
Lemma shape_matching anc name j : forall subs result, whole result -> ahead result j -> Post (over1 result) (matching W ev subs anc name j result).
Proof.
  induction subs as [|[r s] subs IH]; intros result K A; cbn [matching]; [now apply over_refl|].
  destruct (w_search W r name) as [[|]|]; [|now apply IH|exact I]. eapply post_bind; [now apply shape_in_child|]. intros [r1 c] [K1 S1]. cbn [fst] in *.
  eapply post_bind; [apply IH; [exact K1|exact (ahead_same _ _ _ S1 A)]|]. intros [r2 [g b]] D. exact (over_trans _ _ _ S1 D).
Qed.
Lemma shape_patterned subs anc : forall l result, whole result -> Forall (fun nj => ahead result (snd nj)) l -> Post (over1 result) (patterned W ev subs anc l result).
Proof.
  induction l as [|[name j] l IH]; intros result K A; cbn [patterned]; [now apply over_refl|]. inversion A as [|? ? Aj Al]; subst. cbn [snd] in Aj.
  eapply post_bind; [now apply shape_matching|]. intros [r1 [g b]] [K1 S1]. cbn [fst] in *. eapply post_bind; [apply IH; [exact K1|]|].
  - eapply Forall_impl; [|exact Al]. intro. apply (ahead_same _ _ _ S1).
  - intros [r2 [g' b']] D. exact (over_trans _ _ _ S1 D).
Qed.
Lemma shape_each s anc : forall l result, whole result -> Forall (ahead result) l -> Post (over1 result) (each ev s anc l result).
Proof.
  induction l as [|j l IH]; intros result K A; cbn [each]; [now apply over_refl|]. inversion A as [|? ? [Pj Nj] Al]; subst.
  eapply post_bind; [now apply Hev|]. intros n [K1 S1]. cbv zeta.
  assert (D1 : over_ result (if passed n then n else pass_ n)) by (destruct (passed n); split; assumption). destruct D1 as [K2 S2].
  eapply post_bind; [apply IH; [exact K2|]|].
  - eapply Forall_impl; [|exact Al]. intro. apply (ahead_same _ _ _ S2).
  - intros [r bs] D. exact (over_trans _ _ _ S2 D).
Qed.
Lemma shape_each_noreset s anc : forall l result, whole result -> Forall (ahead result) l -> Post (over_ result) (each_noreset ev s anc l result).
Proof.
  induction l as [|j l IH]; intros result K A; cbn [each_noreset]; [now apply over_refl|]. inversion A as [|? ? [Pj Nj] Al]; subst.
  eapply post_bind; [now apply Hev|]. intros n [K1 S1]. eapply post_weaken; [|apply IH; [exact K1|]].
  - intros r D. exact (over_trans _ _ _ S1 D).
  - eapply Forall_impl; [|exact Al]. intro. apply (ahead_same _ _ _ S1).
Qed.
Lemma Forall_skipn {A} (P : A -> Prop) n : forall l, Forall P l -> Forall P (skipn n l).
Proof. induction n as [|n IH]; intros [|a l] H; cbn; auto. inversion H; auto. Qed.
Lemma shape_items_from start_ s i anc result : whole result -> Forall (ahead result) (items_of i) -> Post (over_ result) (e_items_from ev start_ s i anc result).
Proof.
  intros K A. unfold e_items_from. eapply post_bind; [apply shape_each; [exact K|now apply Forall_skipn]|]. intros [r bs] D. cbn [Post].
  destruct (positions false start_ bs); exact D.
Qed.
Lemma unskipped_all (P : inst -> Prop) skip : forall l k, Forall P l -> Forall P (map snd (unskipped skip k l)).
Proof. induction l as [|j l IH]; intros k H; cbn [unskipped map]; [constructor|]. inversion H; subst. destruct (mem_json _ _); cbn [map]; auto. Qed.
Lemma shape_unevaluated_from last skip s i anc result : whole result -> Forall (ahead result) (items_of i) -> Post (over_ result) (e_unevaluated_from ev last skip s i anc result).
Proof.
  intros K A. unfold e_unevaluated_from. cbv zeta. eapply post_bind; [apply shape_each; [exact K|now apply unskipped_all, Forall_skipn]|]. intros [r bs] D. cbn [Post].
  destruct (failing _ _ _); exact D.
Qed.
Lemma shape_members todo s anc result : whole result -> Forall (fun nj => ahead result (snd nj)) todo -> Post (over_ result) (e_members ev todo s anc result).
Proof.
  intros K A. unfold e_members. eapply post_bind; [apply shape_each; [exact K|]|].
  - apply Forall_map. exact A.
  - intros [r bs] D. cbn [Post]. destruct (failing _ _ _); exact D.
Qed.
Lemma additional_all (P : pystr * inst -> Prop) known_ patterns : forall l, Forall P l -> Post (Forall P) (additional W known_ patterns l).
Proof.
  induction l as [|[name j] l IH]; intro H; cbn [additional]; [constructor|]. inversion H as [|? ? Hj Hl]; subst. destruct (mem_str name known_); [auto|].
  apply post_any. intro m. eapply post_bind; [apply IH, Hl|]. intros rest R. cbn [Post]. destruct m; [exact R|now constructor].
Qed.

Lemma shape_std k c i anc parent result : part i -> r_inst result = i_path i -> whole result -> Post (over_ result) (eval_std W ev k c i anc parent result).
Proof.
  intros P R K.
  assert (Q : over_ result result) by (now apply over_refl).
  assert (Ah : ahead result i) by (split; [exact P|left; congruence]).
  assert (It : Forall (ahead result) (items_of i)).
  { eapply Forall_impl; [|exact (items_part i P)]. intros j [A B]. split; [exact A|]. now rewrite R. }
  assert (Me : Forall (fun nj => ahead result (snd nj)) (members_of i)).
  { eapply Forall_impl; [|exact (members_part i P)]. intros j [A B]. split; [exact A|]. now rewrite R. }
  assert (Sub : forall g, (forall t, Post (over_ result) (g t)) -> Post (over_ result) (with_sub (kw_json k) g)).
  { intros g H. unfold with_sub. destruct (kw_json k); try exact I. apply H. }
  assert (Subs : forall g, (forall t, Post (over_ result) (g t)) -> Post (over_ result) (with_subs (kw_json k) g)).
  { intros g H. unfold with_subs. destruct (kw_json k) as [[| | |[|]| |]| | |]; try exact I; apply H. }
  assert (Pref : forall g, (forall t, Post (over_ result) (g t)) -> Post (over_ result) (with_prefix (kw_json k) i g)).
  { intros g H. unfold with_prefix. destruct (kw_json k) as [[| | |t| |]| | |]; try exact I; try apply H. destruct t, (items_of i); try exact I; apply H. }
  assert (Subm : forall g, (forall t, Post (over_ result) (g t)) -> Post (over_ result) (with_subm (kw_json k) g)).
  { intros g H. unfold with_subm. destruct (kw_json k); try exact I. apply H. }
  assert (Ck : forall b msg, over_ result (check b msg result)) by (intros b msg; destruct b; exact Q).
  assert (L : forall bad x before after, Post (over_ result) (limit W bad x (kw_json k) before after result)) by (intros; apply post_limit; intros; apply Ck).
  assert (Te : forall b msg, Post (over_ result) (tell b msg result)) by (intros; apply post_tell; intros; apply Ck).
  assert (An : Post (over_ result) (e_annotation (kw_json k) result)).
  { unfold e_annotation. destruct (kw_json k); try exact I. exact Q. }
  assert (E : forall t, Post (over_ result) (ev t i anc result)) by (intros t; apply Hev; [exact P|left; congruence|exact K]).
  assert (Er : forall t, Post (over_ result) (let* r := ev t i anc result in Ok (refschema r t))).
  { intro t. eapply post_bind; [apply E|]. intros r O. exact O. }
  assert (Dis : Post (over_ result) (Ok (discard result))) by exact Q.
  destruct c; cbn [eval_std]; try exact Q; try apply L; try exact An.
  - unfold e_ref. destruct (kw_ref k); [apply Er|exact I].
  - unfold e_dynamicRef. destruct (kw_ref k); [|exact I]. apply post_any. intro t. apply Er.
  - unfold e_recursiveRef. destruct (kw_ref k); [|exact I]. apply post_any. intro a. apply post_any. intro t. apply Er.
  - apply Subs. intro l. unfold e_allOf. eapply post_bind; [now apply shape_branches|]. intros [r bs] Q1. cbn [Post]. destruct (forallb _ _); exact Q1.
  - apply Subs. intro l. unfold e_anyOf. eapply post_bind; [now apply shape_branches|]. intros [r bs] Q1. cbn [Post]. destruct (existsb _ _); exact Q1.
  - apply Subs. intro l. unfold e_oneOf. eapply post_bind; [now apply shape_branches|]. intros [r bs] Q1. cbn [Post]. destruct (Nat.eqb _ _); exact Q1.
  - apply Sub. intro t. unfold e_not. eapply post_bind; [apply E|]. intros r Q1. cbn [Post]. destruct (passed r); exact Q1.
  - apply Sub. intro t. unfold e_if. eapply post_bind; [apply E|]. intros r Q1. exact Q1.
  - apply Sub. intro t. unfold e_branch. destruct (sibling _ _ _); [|exact Dis]. destruct (Bool.eqb _ _); [apply E|exact Dis].
  - apply Sub. intro t. unfold e_branch. destruct (sibling _ _ _); [|exact Dis]. destruct (Bool.eqb _ _); [apply E|exact Dis].
  - apply Subm. intro m. unfold e_dependentSchemas. eapply post_bind; [now apply shape_dependents|]. intros [r [g b]] Q1. cbn [Post]. destruct b; exact Q1.
  - apply Pref. intro l. unfold e_prefixItems. eapply post_bind; [now apply shape_pairwise|]. intros [r bs] Q1. cbn [Post].
    destruct (positions false 0 bs); [|exact Q1]. destruct bs; exact Q1.
  - apply Sub. intro t. unfold e_items. destruct (sibling _ _ _); [|now apply shape_items_from]. apply post_any. intros [|[]]; try exact I. now apply shape_items_from.
  - apply Sub. intro t. unfold e_unevaluatedItems. cbv zeta. apply post_any. intros [z|]; [|exact Dis]. destruct (_ || _); [exact Dis|]. apply post_any. intro sk.
    now apply shape_unevaluated_from.
  - apply Sub. intro t. unfold e_contains. eapply post_bind; [now apply shape_each|]. intros [r bs] Q1. cbv zeta. cbn [Post]. destruct (positions true 0 bs); exact Q1.
  - apply Subm. intro m. unfold e_properties. eapply post_bind; [now apply shape_named|]. intros [r [g b]] Q1. cbn [Post]. destruct b; exact Q1.
  - apply Subm. intro m. unfold e_patternProperties. eapply post_bind; [now apply shape_patterned|]. intros [r [g b]] Q1. cbn [Post]. destruct b; exact Q1.
  - apply Sub. intro t. unfold e_additionalProperties. apply post_any. intro a. apply post_any. intro b.
    eapply post_bind; [exact (additional_all _ a b _ Me)|]. intros todo T. now apply shape_members.
  - apply Sub. intro t. unfold e_unevaluatedProperties. cbv zeta. do 4 (apply post_any; intro). apply shape_members; [exact K|]. apply Forall_forall. intros nj H.
    apply filter_In in H. rewrite Forall_forall in Me. now apply Me.
  - apply Sub. intro t. unfold e_propertyNames. cbv zeta. eapply post_bind; [apply shape_each; [exact K|]|].
    + rewrite map_map. cbn [snd]. apply Forall_map. eapply Forall_impl; [|exact Me]. intros [name j] [(q & v & Eq & Rf & V) N]. cbn [snd fst] in *.
      split; [|exact N]. exists q, v. cbn [i_path i_val]. split; [exact Eq|]. split; [exact Rf|]. right. now exists name.
    + intros [r bs] Q1. cbn [Post]. destruct (failing _ _ _); exact Q1.
  - unfold e_items_2019. destruct (items_of i) as [|j js] eqn:J; [exact Q|]. rewrite <- J in *. destruct (kw_json k) as [|t|l|]; try exact Q.
    + destruct (w_schema W t); [apply E|]. eapply post_bind; [now apply shape_each_noreset|]. intros r Q1. cbn [Post]. destruct (passed r); exact Q1.
    + eapply post_bind; [now apply shape_pairwise|]. intros [r bs] Q1. cbn [Post]. destruct (positions false 0 bs); exact Q1.
  - apply Sub. intro t. unfold e_additionalItems. destruct (sibling _ _ _) as [n|]; [|exact Dis]. destruct (r_annot n) as [| |[]| | |]; try exact Dis. now apply shape_items_from.
  - apply Sub. intro t. unfold e_unevaluatedItems_2019. cbv zeta. destruct (last_evaluated_2019 _ _); [|exact Dis]. destruct (_ || _); [exact Dis|]. now apply shape_unevaluated_from.
  - apply Sub. intro t. unfold e_unevaluatedProperties. cbv zeta. do 4 (apply post_any; intro). apply shape_members; [exact K|]. apply Forall_forall. intros nj H.
    apply filter_In in H. rewrite Forall_forall in Me. now apply Me.
  - unfold e_type. cbv zeta. apply post_any. intro b. apply Te.
  - unfold e_enum. apply post_any. intro l. apply Ck.
  - unfold e_const. destruct (kw_json k); try exact I. apply Ck.
  - unfold e_multipleOf. destruct (kw_json k) as [[]| | |]; try exact I; apply Te.
  - unfold e_pattern. destruct (kw_json k) as [[]| | |]; try exact I. destruct (i_val i); try exact I. destruct (w_search _ _ _); [|exact I]. apply Te.
  - unfold e_uniqueItems. destruct (i_val i); try exact I. destruct (truthy _); [|exact Q]. apply Ck.
  - unfold e_maxContains. destruct (sibling _ _ _); [|exact Q]. destruct (is_null _); [exact Q|]. apply post_any. intro n. apply L.
  - unfold e_required. destruct (kw_json k) as [v| | |]; try exact I. apply post_any. intro l. apply Ck.
  - unfold e_dependentRequired. destruct (kw_json k) as [v| | |]; try exact I. apply post_any. intro m. apply post_any. intro. apply Te.
  - unfold e_format. destruct (kw_json k) as [v| | |]; try exact I. cbv zeta.
    assert (N : Post (over_ result) (Ok (noassert (annotate result v)))) by exact Q.
    destruct (kw_format k); [|exact N]. destruct v; try exact N. destruct (mem_type _ _); [|exact N]. cbn [Post]. destruct (w_format W s (i_val i)); exact Q.
  - unfold e_contentSchema. destruct (sibling _ _ _); [exact An|exact Dis].
Qed.

Lemma shape_keyword k i anc parent result : part i -> r_inst result = i_path i -> whole parent -> whole result ->
  Post (fun pr => over_ parent (fst pr) /\ over_ result (snd pr)) (eval_keyword W ev k i anc parent result).
Proof.
  intros P R Kp K. unfold eval_keyword.
  assert (X : forall e, Post (over_ result) e -> Post (fun pr => over_ parent (fst pr) /\ over_ result (snd pr)) (let* r := e in Ok (parent, r))).
  { intros e H. eapply post_bind; [exact H|]. intros r O. split; [now apply over_refl|exact O]. }
  destruct (kw_class k) as [c|].
  - destruct c; try (apply X; now apply shape_std). unfold e_minContains. destruct (sibling parent i (lit "contains")) as [cn|] eqn:Sc.
    + apply post_any. intro n. destruct (num_of (kw_json k)); [|exact I]. cbv zeta. apply post_told. intro t. cbn [Post fst snd]. split; [|destruct (num_leb _ _); (split; [exact K|repeat split])].
      assert (Put : over_ parent (put_child parent (lit "contains") i (pass_ cn))).
      { split; [|repeat split]. unfold sibling in Sc. apply cget_In in Sc. pose proof Kp as (_ & B & C). rewrite Forall_forall in B, C. apply whole_put; [exact Kp|exact (B _ Sc)|].
        pose proof (C _ Sc) as H. cbn [snd] in H. inversion H; subst. now constructor. }
      destruct (_ && _); [|now apply over_refl]. destruct (sibling parent i (lit "maxContains")) as [m|]; [|exact Put]. destruct (r_valid m); [exact Put|now apply over_refl].
    + split; now apply over_refl.
  - apply X. unfold e_annotation. destruct (kw_json k); try exact I. split; [exact K|repeat split].
Qed.

Lemma shape_keywords s i anc : forall kws node, part i -> near (r_inst node) (i_path i) -> whole node -> Post (over_ node) (eval_keywords W ev s kws i anc node).
Proof.
  induction kws as [|[key k] kws IH]; intros node P N K; cbn [eval_keywords]; [now apply over_refl|].
  destruct (applicable k i); [|auto]. cbv zeta. set (c0 := new_child node key i s).
  assert (O0 : child_ok node ((key, i_path i), c0)) by (apply new_child_ok; [now apply part_known|exact N]).
  eapply post_bind; [apply shape_keyword; [exact P|reflexivity|apply whole_put; [exact K|exact O0|apply whole_shaped, new_whole]|apply new_whole]|].
  intros [p c] [[K1 S1] [K2 S2]]. cbn [fst snd] in *.
  assert (Sp : same node p) by (refine (same_trans _ (put_child node key i c0) _ _ S1); repeat split).
  assert (S0 : same node (close_child p key i c)) by (exact (same_trans _ _ _ Sp (same_close p key i c))).
  eapply post_weaken; [|apply IH; [exact P| |]].
  - intros n' D. exact (over_trans _ _ _ S0 D).
  - destruct S0 as (_ & _ & _ & _ & ->). exact N.
  - apply whole_close; [exact K1| |now apply whole_shaped]. apply (child_of _ _ _ Sp). exact (child_same _ _ _ _ _ S2 O0).
Qed.
End Shape.

Theorem evaluate_shape i0 W fuel : forall s i anc n, part i0 i -> near (r_inst n) (i_path i) -> whole i0 n -> Post (over_ i0 n) (evaluate W fuel s i anc n).
Proof.
  induction fuel as [|f IH]; intros s i anc n P N K; [exact I|]. cbn [evaluate]. destruct (w_schema W s) as [[|]|kws].
  - now apply over_refl.
  - split; [exact K|repeat split].
  - eapply post_bind; [now apply (shape_keywords i0 W _ IH)|]. intros n' D. cbn [Post]. unfold finish. destruct (existsb _ _); exact D.
Qed.
Theorem evaluate_root_shape W fuel s i r : evaluate_root W fuel s i = Ok r -> shaped i r /\ same (new_root s i) r.
Proof.
  intro E. unfold evaluate_root in E. pose proof (evaluate_shape i W fuel s i [] (new_root s i)) as H. rewrite E in H. cbn [Post] in H.
  destruct H as [K S].
  - exists [], (i_val i). split; [now rewrite app_nil_r|]. split; [constructor|now left].
  - now left.
  - repeat split; constructor.
  - split; [now apply whole_shaped|exact S].
Qed.
