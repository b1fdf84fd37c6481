(** The operations of JSON Patch on Python objects in which no object occurs
    twice. *)
From Verif Require Import PatchFacts.
From Verif Require Export PatchHeapTree.
From Coq Require Import Lia Permutation.
Open Scope nat_scope.

(** ** Editing the members of one object. *)
Lemma reads_all_app h l1 l2 ds1 ds2 S1 S2 : reads_all h l1 ds1 S1 -> reads_all h l2 ds2 S2 -> reads_all h (l1 ++ l2) (ds1 ++ ds2) (S1 ++ S2).
Proof. intros H K. induction H; cbn; auto. rewrite <- app_assoc. constructor; auto. Qed.
Lemma reads_all_cut h l ds S i : reads_all h l ds S ->
  exists S1 S2, S = S1 ++ S2 /\ reads_all h (firstn i l) (firstn i ds) S1 /\ reads_all h (skipn i l) (skipn i ds) S2.
Proof.
  intros H. revert i. induction H as [|v vs d ds S S' R RA IH]; intros [|i].
  - exists [], []. repeat split; constructor.
  - exists [], []. repeat split; constructor.
  - exists [], (S ++ S'). cbn. repeat split; constructor; auto.
  - destruct (IH i) as (S1 & S2 & -> & A & B). exists (S ++ S1), S2. cbn. rewrite app_assoc. repeat split; auto. now constructor.
Qed.
(** The objects of the changed members are those of the members and the new
    ones, without some that were dropped. *)
Definition drawn (S' S Sn : list nat) : Prop := exists R, Permutation (S' ++ R) (S ++ Sn).
Lemma drawn_insert S1 S2 Sn : drawn (S1 ++ Sn ++ S2) (S1 ++ S2) Sn.
Proof. exists []. rewrite app_nil_r, <- app_assoc. apply Permutation_app_head, Permutation_app_comm. Qed.
Lemma drawn_replace S0 S1 Sn : drawn (Sn ++ S1) (S0 ++ S1) Sn.
Proof.
  exists S0. rewrite <- app_assoc. etransitivity; [apply Permutation_app_comm|].
  etransitivity; [|apply Permutation_app; [apply Permutation_app_comm|reflexivity]]. reflexivity.
Qed.
Lemma drawn_remove S0 S1 : drawn S1 (S0 ++ S1) [].
Proof. exists S0. rewrite app_nil_r. apply Permutation_app_comm. Qed.
Lemma drawn_front S0 S' S Sn : drawn S' S Sn -> drawn (S0 ++ S') (S0 ++ S) Sn.
Proof. intros [R P]. exists R. rewrite <- !app_assoc. now apply Permutation_app_head. Qed.

Lemma reads_insert h l ds S i v x Sn : reads_all h l ds S -> reads h v x Sn ->
  exists S', reads_all h (insert_nth i v l) (insert_nth i x ds) S' /\ drawn S' S Sn.
Proof.
  intros H V. destruct (reads_all_cut _ _ _ _ i H) as (S1 & S2 & -> & A & B). exists (S1 ++ Sn ++ S2). split; [|apply drawn_insert].
  unfold insert_nth. apply reads_all_app; auto. now constructor.
Qed.
Lemma reads_update h l ds S v x Sn : reads_all h l ds S -> reads h v x Sn -> forall i,
  exists S', reads_all h (update_nth i v l) (update_nth i x ds) S' /\ drawn S' S Sn.
Proof.
  intros H V. induction H as [|w vs d ds S S' R RA IH]; intros i.
  - exists []. split; [destruct i; constructor|]. exists Sn. reflexivity.
  - destruct i as [|i]; cbn [update_nth].
    + exists (Sn ++ S'). split; [now constructor|apply drawn_replace].
    + destruct (IH i) as (S2 & A & D). exists (S ++ S2). split; [now constructor|now apply drawn_front].
Qed.
Lemma reads_remove h l ds S : reads_all h l ds S -> forall i,
  exists S', reads_all h (remove_nth i l) (remove_nth i ds) S' /\ drawn S' S [].
Proof.
  intros H. induction H as [|w vs d ds S S' R RA IH]; intros i.
  - exists []. split; [destruct i; constructor|]. exists []. reflexivity.
  - destruct i as [|i]; cbn [remove_nth].
    + exists S'. split; [auto|apply drawn_remove].
    + destruct (IH i) as (S2 & A & D). exists (S ++ S2). split; [now constructor|now apply drawn_front].
Qed.
Lemma reads_dset h k v x Sn m : reads h v x Sn -> forall dm S, map fst m = map fst dm -> reads_all h (map snd m) (map snd dm) S ->
  exists S', map fst (dset k v m) = map fst (dset k x dm) /\ reads_all h (map snd (dset k v m)) (map snd (dset k x dm)) S' /\ drawn S' S Sn.
Proof.
  intros V. induction m as [|[k' w] m IH]; intros [|[k2 d] dm] S K H; cbn in *; try discriminate.
  - inversion H; subst. exists (Sn ++ []). split; [reflexivity|]. split; [repeat constructor; auto|]. exists []. now rewrite !app_nil_r.
  - injection K as -> K. inversion H as [|v1 vs1 d1 ds1 S0 S' R RA]; subst. destruct (str_eqb k k2); cbn.
    + exists (Sn ++ S'). split; [now rewrite K|]. split; [now constructor|apply drawn_replace].
    + destruct (IH _ _ K RA) as (S2 & E & A & D). exists (S0 ++ S2). split; [now rewrite E|]. split; [now constructor|now apply drawn_front].
Qed.
Lemma reads_ddel h k m : forall dm S, map fst m = map fst dm -> reads_all h (map snd m) (map snd dm) S ->
  exists S', map fst (ddel k m) = map fst (ddel k dm) /\ reads_all h (map snd (ddel k m)) (map snd (ddel k dm)) S' /\ drawn S' S [].
Proof.
  induction m as [|[k' w] m IH]; intros [|[k2 d] dm] S K H; cbn in *; try discriminate.
  - inversion H; subst. exists []. split; [reflexivity|]. split; [constructor|]. exists []. reflexivity.
  - injection K as -> K. inversion H as [|v1 vs1 d1 ds1 S0 S' R RA]; subst. destruct (str_eqb k k2); cbn.
    + exists S'. split; [auto|]. split; [auto|apply drawn_remove].
    + destruct (IH _ _ K RA) as (S2 & E & A & D). exists (S0 ++ S2). split; [now rewrite E|]. split; [now constructor|now apply drawn_front].
Qed.

(** ** Editing the object that a pointer leads to. *)
Definition obj_reads (h : heap) (o : pyobj) (x : json) (S : list nat) : Prop :=
  match o, x with
  | OList l, JArr ds => reads_all h l ds S
  | ODict m, JObj dm => map fst m = map fst dm /\ reads_all h (map snd m) (map snd dm) S
  | _, _ => False
  end.
Lemma walked_edit h q doc d S a x : walked h q doc d S (VRef a) x -> NoDup S ->
  exists o Sx, nth_error h a = Some o /\ obj_reads h o x Sx /\
  forall o' y Sy Sn, obj_reads h o' y Sy -> drawn Sy Sx Sn -> NoDup (S ++ Sn) ->
  exists S', reads (update_nth a o' h) doc (update_at q y d) S' /\ NoDup S'.
Proof.
  intros (Sx & S1 & S2 & X & -> & _ & K) N.
  assert (O : exists o Sx', Sx = a :: Sx' /\ nth_error h a = Some o /\ obj_reads h o x Sx').
  { inversion X as [? ? E|a1 l ds S0 E L|a1 m dm S0 E Km L]; subst; [discriminate E| |].
    - exists (OList l), S0. auto.
    - exists (ODict m), S0. cbn. auto. }
  destruct O as (o & Sx' & -> & E & O). exists o, Sx'. split; [exact E|]. split; [exact O|].
  intros o' y Sy Sn O' [R P] N2. exists (S1 ++ (a :: Sy) ++ S2).
  assert (PP : Permutation ((S1 ++ (a :: Sy) ++ S2) ++ R) ((S1 ++ (a :: Sx') ++ S2) ++ Sn)).
  { rewrite <- !app_assoc. apply Permutation_app_head. cbn. apply perm_skip.
    rewrite !app_assoc. transitivity ((Sy ++ R) ++ S2).
    { rewrite <- !app_assoc. apply Permutation_app_head, Permutation_app_comm. }
    rewrite P, <- !app_assoc. apply Permutation_app_head, Permutation_app_comm. }
  pose proof (Permutation_NoDup (Permutation_sym PP) N2) as N3. apply NoDup_app_inv in N3 as (N3 & _ & _).
  split; [|exact N3].
  assert (Ny : ~ In a Sy).
  { apply NoDup_app_inv in N3 as (_ & N3 & _). cbn in N3. inversion N3; subst. rewrite in_app_iff in *. tauto. }
  assert (Ns : ~ In a (S1 ++ S2)).
  { pose proof (NoDup_remove_2 _ _ _ N) as Nr. rewrite !in_app_iff in *. tauto. }
  assert (La : a < length h) by (apply nth_error_Some; congruence).
  assert (F : forall b, In b Sy -> nth_error (update_nth a o' h) b = nth_error h b).
  { intros b B. apply nth_error_update_other. congruence. }
  apply K.
  - intros b B. apply nth_error_update_other. congruence.
  - destruct o' as [l|m], y as [| | | |ds|dm]; try contradiction; cbn in O'.
    + econstructor; [now apply nth_error_update_same|]. eapply reads_all_frame; eauto.
    + destruct O' as [Kk O']. econstructor; [now apply nth_error_update_same|exact Kk|]. eapply reads_all_frame; eauto.
Qed.
Lemma walked_more h h2 q doc d S w x : reads h doc d S -> walked h q doc d S w x -> walked (h ++ h2) q doc d S w x.
Proof.
  intros D (Sx & S1 & S2 & X & -> & F & K). exists Sx, S1, S2. split; [now apply reads_more|]. split; [auto|]. split; [exact F|].
  intros h' y Sy Fr Y. apply K; auto. intros a A. rewrite Fr by auto. apply nth_error_app1. apply (reads_range _ _ _ _ _ D).
  rewrite !in_app_iff in *. tauto.
Qed.
Lemma walked_atom h q doc d S w x : walked h q doc d S w x -> (exists a, w = VRef a) \/ atom w = Some x.
Proof. intros (Sx & S1 & S2 & X & _). destruct X; eauto. Qed.

Definition edits (doc : pyval) (q : pointer) (d : json) (r : res unit * heap) (r0 : res json) : Prop :=
  match fst r, r0 with
  | Ok _, Ok y => exists S', reads (snd r) doc (update_at q y d) S' /\ NoDup S'
  | Exn e, Exn e' => e = e'
  | _, _ => False
  end.
Section Edit.
Variables (h : heap) (q : pointer) (doc : pyval) (d : json) (S : list nat) (t : htarget) (t0 : target).
Hypothesis W : walked h q doc d S (ht_parent t) (t_parent t0).
Hypothesis N : NoDup S.
Hypothesis I : ht_index t = t_index t0.
Lemma hinsert_reads v x Sn : reads h v x Sn -> NoDup (S ++ Sn) -> edits doc q d (hinsert t v h) (parent_insert t0 x).
Proof.
  intros V Nn. unfold hinsert, parent_insert. rewrite I. destruct (walked_atom _ _ _ _ _ _ _ W) as [[a Ea]|Ea].
  - rewrite Ea in W |- *. destruct (walked_edit _ _ _ _ _ _ _ W N) as (o & Sx & E & O & K). unfold hbind, hget. rewrite E.
    destruct o as [l|m], (t_parent t0) as [| | | |ds|dm] eqn:P; try contradiction; destruct (t_index t0) as [i|k|]; try reflexivity.
    cbn in O. destruct (reads_insert _ _ _ _ i _ _ _ O V) as (S' & R & D). unfold edits. cbn. apply (K (OList _) (JArr _) S' Sn); auto.
  - destruct (ht_parent t) as [| | | |a]; inversion Ea as [E]; cbn; rewrite <- ?E; reflexivity.
Qed.
Lemma hassign_reads v x Sn : reads h v x Sn -> NoDup (S ++ Sn) -> edits doc q d (hassign t v h) (parent_assign t0 x).
Proof.
  intros V Nn. unfold hassign, parent_assign. rewrite I. destruct (walked_atom _ _ _ _ _ _ _ W) as [[a Ea]|Ea].
  - rewrite Ea in W |- *. destruct (walked_edit _ _ _ _ _ _ _ W N) as (o & Sx & E & O & K). unfold hbind, hget. rewrite E.
    destruct o as [l|m], (t_parent t0) as [| | | |ds|dm] eqn:P; try contradiction; destruct (t_index t0) as [i|k|]; try reflexivity; cbn in O.
    + destruct (reads_update _ _ _ _ _ _ _ O V i) as (S' & R & D). unfold edits. cbn. apply (K (OList _) (JArr _) S' Sn); auto.
    + destruct O as [Kk O]. destruct (reads_dset _ k _ _ _ _ V _ _ Kk O) as (S' & E2 & R & D). unfold edits. cbn. apply (K (ODict _) (JObj _) S' Sn); cbn; auto.
  - destruct (ht_parent t) as [| | | |a]; inversion Ea as [E]; cbn; rewrite <- ?E; reflexivity.
Qed.
Lemma hdelete_reads : edits doc q d (hdelete t h) (parent_delete t0).
Proof.
  unfold hdelete, parent_delete. rewrite I. assert (Nn : NoDup (S ++ [])) by now rewrite app_nil_r.
  destruct (walked_atom _ _ _ _ _ _ _ W) as [[a Ea]|Ea].
  - rewrite Ea in W |- *. destruct (walked_edit _ _ _ _ _ _ _ W N) as (o & Sx & E & O & K). unfold hbind, hget. rewrite E.
    destruct o as [l|m], (t_parent t0) as [| | | |ds|dm] eqn:P; try contradiction; destruct (t_index t0) as [i|k|]; try reflexivity; cbn in O.
    + destruct (reads_remove _ _ _ _ O i) as (S' & R & D). unfold edits. cbn. apply (K (OList _) (JArr _) S' []); auto.
    + destruct O as [Kk O]. destruct (reads_ddel _ k _ _ _ Kk O) as (S' & E2 & R & D). unfold edits. cbn. apply (K (ODict _) (JObj _) S' []); cbn; auto.
  - destruct (ht_parent t) as [| | | |a]; inversion Ea as [E]; cbn; rewrite <- ?E; reflexivity.
Qed.
End Edit.

(** ** Targets. *)
Definition hlocal (h : heap) (parent : pyval) (key : pystr) : res htarget :=
  match parent with
  | VStr s => hseq_target parent (length s) key
  | VRef a =>
      match nth_error h a with
      | Some (OList l) => hseq_target parent (length l) key
      | Some (ODict m) => Ok (mkHTarget (if dmem key m then OBJECT_PROPERTY else OBJECT_PROPERTY_NEW) parent (PKey key))
      | None => Exn EOther
      end
  | _ => Exn EAssertion
  end.
Lemma hnode_snoc doc q k h : hnode doc (q ++ [k]) h = let* P := as_patch_error (heval q doc h) in hlocal h P k.
Proof.
  unfold hnode. destruct (q ++ [k]) eqn:E; [destruct q; discriminate|]. rewrite <- E.
  rewrite slice_init, item_last. unfold bind. destruct (as_patch_error (heval q doc h)); auto.
Qed.
Definition same_target (t : htarget) (t0 : target) (w : pyval) (x : json) : Prop :=
  ht_type t = t_type t0 /\ ht_index t = t_index t0 /\ ht_parent t = w /\ t_parent t0 = x.
Lemma hseq_reads w x n k : match hseq_target w n k, seq_target x n k with
  | Ok t, Ok t0 => same_target t t0 w x | Exn e, Exn e' => e = e' | _, _ => False end.
Proof.
  unfold hseq_target, seq_target. destruct (str_eqb _ _); [repeat split|]. destruct (py_int k); [|reflexivity].
  destruct (_ =? _)%Z; [repeat split|]. destruct (_ && _)%bool; [repeat split|reflexivity].
Qed.
Lemma dmem_reads {A B} k (m : list (pystr * A)) (m' : list (pystr * B)) : map fst m = map fst m' -> dmem k m = dmem k m'.
Proof.
  unfold dmem. revert m'. induction m as [|[k1 v] m IH]; intros [|[k2 v'] m']; cbn; try discriminate; auto. intros [= -> E].
  destruct (str_eqb k k2); auto.
Qed.
Lemma hlocal_reads h w x S k : reads h w x S -> match hlocal h w k, local_target x k with
  | Ok t, Ok t0 => same_target t t0 w x | Exn e, Exn e' => e = e' | _, _ => False end.
Proof.
  intros [v d E|a l ds S0 E L|a m dm S0 E K L]; cbn [hlocal local_target].
  - destruct v as [| | |s|a]; inversion E; subst; try reflexivity. apply hseq_reads.
  - rewrite E. rewrite (reads_all_len _ _ _ _ L). apply hseq_reads.
  - rewrite E, (dmem_reads k m dm K). repeat split.
Qed.
Lemma hnode_reads h doc d S q k : reads h doc d S -> match hnode doc (q ++ [k]) h, mk_target d (q ++ [k]) with
  | Ok t, Ok t0 => ht_type t = t_type t0 /\ ht_index t = t_index t0 /\ walked h q doc d S (ht_parent t) (t_parent t0) /\ t_type t0 <> ROOT
  | Exn e, Exn e' => e = e'
  | _, _ => False
  end.
Proof.
  intros D. rewrite hnode_snoc, mk_target_snoc. pose proof (heval_reads h q doc d S D) as H.
  destruct (heval q doc h) as [w|e|], (eval_plain q d) as [x|e'|]; try contradiction; cbn [as_patch_error].
  - cbn [bind]. assert (X := H). destruct H as (Sx & _ & _ & R & _). pose proof (hlocal_reads _ _ _ _ k R) as L.
    destruct (hlocal h w k) as [t| |], (local_target x k) as [t0| |] eqn:T; try contradiction; auto.
    destruct L as (A & B & <- & <-). apply local_target_root in T. auto.
  - subst. destruct (is_pointer_error e'); reflexivity.
Qed.

(** ** The operations. *)
Definition matches (r : res pyval * heap) (r0 : res json) : Prop :=
  match fst r, r0 with
  | Ok v, Ok d => exists S, reads (snd r) v d S /\ NoDup S
  | Exn e, Exn e' => e = e'
  | _, _ => False
  end.
Lemma edits_matches (c : hm unit) doc q k d r0 h : edits doc q d (c h) r0 ->
  matches ((do _ <- c in hret (Ok doc)) h) (let* w := r0 in Ok (in_parent d (q ++ [k]) w)).
Proof.
  unfold edits, matches, hbind, in_parent. rewrite slice_init. destruct (c h) as [[[]|e|] h']; cbn; destruct r0; cbn; auto; try contradiction.
Qed.
Lemma h_add_reads fuel h doc d S p v x Sv : reads h doc d S -> NoDup S -> reads h v x Sv -> NoDup Sv -> length Sv < fuel ->
  matches (h_add fuel doc p v h) (p_add d p x).
Proof.
  intros D N V Nv L. destruct (deepcopy_reads fuel v h x Sv V Nv L) as (v' & h2 & Sn & E & R & Nn & F).
  unfold h_add, p_add. destruct (path_cases p) as [->|(q & k & ->)].
  - unfold hbind at 1, hlook. cbn [hnode mk_target bind]. unfold hbind. rewrite E. cbn. exists Sn. auto.
  - pose proof (hnode_reads h doc d S q k D) as H. unfold hbind at 1, hlook.
    destruct (hnode doc (q ++ [k]) h) as [t|e|], (mk_target d (q ++ [k])) as [t0|e'|]; try contradiction; cbn [bind]; [|exact H].
    destruct H as (Et & Ei & W & Nr). unfold hbind at 1. rewrite E. rewrite Et.
    assert (NN : NoDup (S ++ Sn)).
    { apply NoDup_app_intro; auto. intros a A B. apply F in B. apply (reads_range _ _ _ _ _ D) in A. lia. }
    pose proof (walked_more h h2 _ _ _ _ _ _ D W) as W2.
    destruct (t_type t0); [congruence| | | |]; apply edits_matches; eauto using hinsert_reads, hassign_reads.
Qed.
Lemma h_remove_reads h doc d S p : reads h doc d S -> NoDup S -> matches (h_remove doc p h) (p_remove d p).
Proof.
  intros D N. unfold h_remove, p_remove. destruct (path_cases p) as [->|(q & k & ->)].
  - unfold hbind at 1, hlook. cbn. exists []. split; repeat constructor.
  - pose proof (hnode_reads h doc d S q k D) as H. unfold hbind at 1, hlook.
    destruct (hnode doc (q ++ [k]) h) as [t|e|], (mk_target d (q ++ [k])) as [t0|e'|]; try contradiction; cbn [bind]; [|exact H].
    destruct H as (Et & Ei & W & Nr). rewrite Et.
    destruct (t_type t0); try congruence; try reflexivity; apply edits_matches; eauto using hdelete_reads.
Qed.
Lemma h_replace_reads fuel h doc d S p v x Sv : reads h doc d S -> NoDup S -> reads h v x Sv -> NoDup Sv -> length Sv < fuel ->
  matches (h_replace fuel doc p v h) (p_replace d p x).
Proof.
  intros D N V Nv L. destruct (deepcopy_reads fuel v h x Sv V Nv L) as (v' & h2 & Sn & E & R & Nn & F).
  unfold h_replace, p_replace. destruct (path_cases p) as [->|(q & k & ->)].
  - unfold hbind at 1, hlook. cbn [hnode mk_target bind]. unfold hbind. rewrite E. cbn. exists Sn. auto.
  - pose proof (hnode_reads h doc d S q k D) as H. unfold hbind at 1, hlook.
    destruct (hnode doc (q ++ [k]) h) as [t|e|], (mk_target d (q ++ [k])) as [t0|e'|]; try contradiction; cbn [bind]; [|exact H].
    destruct H as (Et & Ei & W & Nr). unfold hbind at 1. rewrite E. rewrite Et.
    assert (NN : NoDup (S ++ Sn)).
    { apply NoDup_app_intro; auto. intros a A B. apply F in B. apply (reads_range _ _ _ _ _ D) in A. lia. }
    pose proof (walked_more h h2 _ _ _ _ _ _ D W) as W2.
    destruct (t_type t0); try congruence; try reflexivity; apply edits_matches; eauto using hassign_reads.
Qed.

(** The value at [from]. *)
Lemma walked_part h q doc d S w x : walked h q doc d S w x -> NoDup S -> exists Sx, reads h w x Sx /\ NoDup Sx /\ incl Sx S.
Proof.
  intros (Sx & S1 & S2 & X & -> & _) N. exists Sx. apply NoDup_app_inv in N as (_ & N & _). apply NoDup_app_inv in N as (N & _ & _).
  split; [auto|]. split; [auto|]. intros a A. rewrite !in_app_iff. auto.
Qed.
Lemma heval_app q : forall r v h, heval (q ++ r) v h = match heval q v h with Ok w => heval r w h | e => e end.
Proof.
  induction q as [|k q IH]; intros r v h; [reflexivity|]. cbn. destruct v as [| | | |a]; auto. destruct (nth_error h a) as [[l|m]|]; auto.
  - destruct (fullmatch _ k); auto. destruct (py_int k); auto. destruct (norm_index _ _); auto. destruct (nth_error l _); auto.
  - destruct (dget k m); auto.
Qed.
Lemma eval_app q : forall r d, eval_plain (q ++ r) d = match eval_plain q d with Ok w => eval_plain r w | e => e end.
Proof.
  induction q as [|k q IH]; intros r d; [reflexivity|]. cbn. destruct d as [| | | |l|m]; auto.
  - destruct (fullmatch _ k); auto. destruct (py_int k); auto. destruct (norm_index _ _); auto. destruct (nth_error l _); auto.
  - destruct (dget k m); auto.
Qed.
(** Removing the value at [f] from its parent leaves the value as it is. *)
Lemma h_remove_value h doc d S f w x r h' : reads h doc d S -> NoDup S -> heval f doc h = Ok w -> eval_plain f d = Ok x ->
  h_remove doc f h = (Ok r, h') -> exists Sx, reads h' w x Sx /\ NoDup Sx /\ length Sx <= vol d.
Proof.
  intros D N E E0 H. destruct (path_cases f) as [->|(q & k & ->)].
  - cbn in *. injection H as <- <-. injection E as <-. injection E0 as <-. exists S. split; auto. split; auto. now rewrite (proj1 (reads_vol h) _ _ _ D).
  - pose proof (heval_reads h q doc d S D) as Wq. rewrite heval_app in E. rewrite eval_app in E0.
    destruct (heval q doc h) as [wp| |] eqn:Eq; try discriminate. destruct (eval_plain q d) as [xp| |] eqn:Eq0; try contradiction.
    destruct (walked_part _ _ _ _ _ _ _ Wq N) as (Sp & Rp & Np & Ip).
    pose proof (heval_reads h [k] wp xp Sp Rp) as Wk. rewrite E, E0 in Wk. destruct (walked_part _ _ _ _ _ _ _ Wk Np) as (Sx & Rx & Nx & Ix).
    assert (Lx : length Sx <= vol d).
    { rewrite <- (proj1 (reads_vol h) _ _ _ D). apply NoDup_incl_length; auto. intros a A. auto. }
    unfold h_remove in H. unfold hbind at 1, hlook in H. rewrite hnode_snoc, Eq in H. cbn [as_patch_error bind] in H.
    destruct wp as [| | | |a]; try discriminate E.
    assert (P : exists o', h' = update_nth a o' h).
    { destruct (hlocal h (VRef a) k) as [t| |] eqn:T; try discriminate H.
      assert (Pt : ht_parent t = VRef a).
      { unfold hlocal in T. destruct (nth_error h a) as [[l|m]|]; try discriminate; [now apply hseq_parent in T|now injection T as <-]. }
      assert (X : exists o', snd (hdelete t h) = update_nth a o' h \/ exists e, fst (hdelete t h) = Exn e).
      { unfold hdelete. rewrite Pt. unfold hbind, hget. destruct (nth_error h a) as [[l|m]|].
        - destruct (ht_index t); cbn; first [eexists; left; reflexivity|exists (OList []); right; eauto].
        - destruct (ht_index t); cbn; first [eexists; left; reflexivity|exists (OList []); right; eauto].
        - exists (OList []). cbn. eauto. }
      destruct X as (o' & [X|[e X]]).
      - destruct (ht_type t); try discriminate H.
        + unfold hlocal in T. injection H as <- <-. destruct (nth_error h a) as [o|] eqn:Na; [|discriminate].
          exists o. symmetry. now apply update_nth_id.
        + exists o'. unfold hbind, hret in H. destruct (hdelete t h) as [[[]| |] h1]; cbn in *; congruence.
        + exists o'. unfold hbind, hret in H. destruct (hdelete t h) as [[[]| |] h1]; cbn in *; congruence.
      - destruct (ht_type t); try discriminate H.
        + unfold hlocal in T. injection H as <- <-. destruct (nth_error h a) as [o|] eqn:Na; [|discriminate].
          exists o. symmetry. now apply update_nth_id.
        + unfold hbind, hret in H. destruct (hdelete t h) as [[[]| |] h1]; cbn in *; congruence.
        + unfold hbind, hret in H. destruct (hdelete t h) as [[[]| |] h1]; cbn in *; congruence. }
    destruct P as (o' & ->).
    destruct Wk as (Sy & S1 & S2 & Ry & -> & Fa & _). specialize (Fa ltac:(discriminate) a eq_refl).
    apply NoDup_app_inv in Np as (_ & Np & Dj).
    exists Sy. split; [|split].
    + eapply reads_frame; eauto. intros b B. apply nth_error_update_other. intros <-. apply (Dj a Fa). apply in_or_app. auto.
    + apply NoDup_app_inv in Np as (Np & _). auto.
    + apply NoDup_app_inv in Np as (Np & _ & _). rewrite <- (proj1 (reads_vol h) _ _ _ D). apply NoDup_incl_length; auto.
      intros b B. apply Ip. rewrite !in_app_iff. auto.
Qed.

Definition op_reads (h : heap) (o : hpatchop) (o0 : patchop) : Prop :=
  ho_op o = po_op o0 /\ ho_path o = po_path o0 /\ ho_from o = po_from o0 /\ is_tree h (ho_value o) (po_value o0).
Lemma h_apply_reads fuel h o o0 doc d : is_tree h doc d -> op_reads h o o0 -> vol d < fuel -> vol (po_value o0) < fuel ->
  matches (h_apply fuel o doc h) (op_apply o0 d).
Proof.
  intros (S & D & N) (E1 & E2 & E3 & (Sv & V & Nv)) L Lv. rewrite <- (proj1 (reads_vol h) _ _ _ V) in Lv.
  pose proof (proj1 (reads_vol h) _ _ _ D) as Ld.
  assert (From : forall f, match heval_from doc f h, eval_from d f with
    | Ok w, Ok x => exists g, f = Some g /\ heval g doc h = Ok w /\ eval_plain g d = Ok x /\ walked h g doc d S w x
    | Exn e, Exn e' => e = e' | _, _ => False end).
  { intros [f|]; cbn; [|reflexivity]. pose proof (heval_reads h f doc d S D) as H.
    destruct (heval f doc h) as [w|e|] eqn:A, (eval_plain f d) as [x|e'|] eqn:B; try contradiction; cbn; [eauto|]. subst. destruct (is_pointer_error e'); reflexivity. }
  unfold h_apply, op_apply. rewrite E1, E2, E3. destruct (po_op o0).
  - eapply h_add_reads; eauto.
  - eapply h_remove_reads; eauto.
  - eapply h_replace_reads; eauto.
  - unfold h_move, p_move, hbind at 1, hlook. specialize (From (po_from o0)).
    destruct (heval_from doc (po_from o0) h) as [w|e|], (eval_from d (po_from o0)) as [x|e'|]; try contradiction; cbn [bind]; [|exact From].
    destruct From as (f & -> & Ef & Ef0 & W). pose proof (h_remove_reads h doc d S f D N) as R. unfold hbind.
    destruct (h_remove doc f h) as [[r|e|] h'] eqn:Er; unfold matches in R; cbn [fst snd] in R; destruct (p_remove d f) as [d1|e'|]; try contradiction; cbn [bind]; [|exact R].
    destruct R as (S1 & R1 & N1). destruct (h_remove_value _ _ _ _ _ _ _ _ _ D N Ef Ef0 Er) as (Sx & Rx & Nx & Lx).
    eapply h_add_reads; eauto. lia.
  - unfold h_copy, p_copy, hbind at 1, hlook. specialize (From (po_from o0)).
    destruct (heval_from doc (po_from o0) h) as [w|e|], (eval_from d (po_from o0)) as [x|e'|]; try contradiction; cbn [bind]; [|exact From].
    destruct From as (f & _ & Ef & Ef0 & W). destruct (walked_part _ _ _ _ _ _ _ W N) as (Sx & Rx & Nx & Ix).
    eapply h_add_reads; eauto. pose proof (NoDup_incl_length Nx Ix). lia.
  - assert (X : matches ((do found <- hlook (heval (po_path o0) doc) in do a <- hlook (hread fuel found) in do b <- hlook (hread fuel (ho_value o)) in
       if json_eqb a b then hret (Ok doc) else hret (Exn EPatch)) h)
       (let* found := eval_plain (po_path o0) d in if json_eqb found (po_value o0) then Ok d else Exn EPatch)).
    { unfold hbind at 1, hlook. pose proof (heval_reads h (po_path o0) doc d S D) as H.
      destruct (heval (po_path o0) doc h) as [w|e|], (eval_plain (po_path o0) d) as [x|e'|]; try contradiction; cbn [bind]; [|exact H].
      destruct (walked_part _ _ _ _ _ _ _ H N) as (Sx & Rx & Nx & Ix). pose proof (NoDup_incl_length Nx Ix) as Lx.
      unfold hbind. rewrite (hread_reads fuel w h x Sx Rx) by lia. rewrite (hread_reads fuel _ h _ Sv V) by lia.
      destruct (json_eqb x (po_value o0)); [exists S; auto|reflexivity]. }
    unfold h_test, p_test. destruct (path_cases (po_path o0)) as [P|(q & k & P)].
    + rewrite P in *. unfold hbind at 1, hlook. cbn [hnode mk_target bind ht_type t_type]. exact X.
    + unfold hbind at 1, hlook. rewrite P in *. pose proof (hnode_reads h doc d S q k D) as H.
      destruct (hnode doc (q ++ [k]) h) as [t|e|], (mk_target d (q ++ [k])) as [t0|e'|]; try contradiction; cbn [bind]; [|exact H].
      destruct H as (Et & _ & _ & _). rewrite Et. destruct (t_type t0); try reflexivity; exact X.
Qed.

(** ** Patches. *)
Fixpoint enough (ops : list patchop) (d : json) : nat :=
  match ops with
  | [] => 0
  | o :: r => S (vol d + vol (po_value o) + match op_apply o d with Ok d' => enough r d' | _ => 0 end)
  end.
(** The objects of the value are all among the first [n]. *)
Definition of_old (n : nat) (h : heap) (v : pyval) : Prop := forall d S a, reads h v d S -> In a S -> a < n.
Lemma of_old_keeps n h h' v d : as_before n h h' -> of_old n h v -> is_tree h v d -> is_tree h' v d /\ of_old n h' v.
Proof.
  intros (_ & B) O (S & R & N). split.
  - exists S. split; auto. eapply reads_frame; eauto.
  - intros d' S' a R' A. assert (R2 : reads h' v d S) by (eapply reads_frame; eauto).
    enough (S' = S) by (subst; eauto). clear -R' R2.
    revert d S R2. apply (reads_mut h' (fun v d' S' _ => forall d S, reads h' v d S -> S' = S)
      (fun l ds' S' _ => forall ds S, reads_all h' l ds S -> S' = S)) with (p := v) (j := d') (l := S'); auto; clear; intros.
    + inversion H; subst; auto; discriminate.
    + inversion H0; subst; [discriminate| |congruence]. f_equal. assert (l0 = l) by congruence. subst. eauto.
    + inversion H0; subst; [discriminate|congruence|]. f_equal. assert (m0 = m) by congruence. subst. eauto.
    + now inversion H.
    + inversion H1; subst. f_equal; eauto.
Qed.
Lemma h_apply_all_reads n fuel : forall ops ops0 h doc d, n <= length h -> closed_above n h -> above n doc -> is_tree h doc d ->
  Forall2 (op_reads h) ops ops0 -> Forall (fun o => of_old n h (ho_value o)) ops -> enough ops0 d <= fuel ->
  matches (h_apply_all fuel ops doc h) (patch_apply ops0 d).
Proof.
  induction ops as [|o ops IH]; intros ops0 h doc d Ln C A D O B L; inversion O as [|? o0 ? ops1 O1 O2]; subst; cbn [h_apply_all patch_apply].
  - exact D.
  - cbn [enough] in L. inversion B as [|? ? B1 B2]; subst.
    pose proof (h_apply_reads fuel h o o0 doc d D O1 ltac:(lia) ltac:(lia)) as M.
    pose proof (iso_apply n fuel o doc A h Ln C) as (Bf & C' & A').
    unfold hbind. destruct (h_apply fuel o doc h) as [[r|e|] h'] eqn:E; unfold matches in M; cbn [fst snd] in *;
      destruct (op_apply o0 d) as [d1|e'|]; try contradiction; cbn [bind]; [|exact M].
    apply IH; auto.
    + destruct Bf. lia.
    + clear -O2 B2 Bf. revert B2. induction O2 as [|x y l l' (E1 & E2 & E3 & T) F IHF]; intros B2; constructor; inversion B2; subst; auto.
      repeat split; auto. eapply of_old_keeps; eauto.
    + clear -O2 B2 Bf. revert B2. induction O2 as [|x y l l' (E1 & E2 & E3 & T) F IHF]; intros B2; constructor; inversion B2; subst; auto.
      eapply of_old_keeps; eauto.
    + lia.
Qed.
Lemma evaluate_reads fuel ops ops0 h doc d : is_tree h doc d -> Forall2 (op_reads h) ops ops0 -> vol d + enough ops0 d < fuel ->
  matches (h_evaluate fuel ops doc h) (patch_apply ops0 d).
Proof.
  intros (S & R & N) O L. unfold h_evaluate, hbind at 1. pose proof (proj1 (reads_vol h) _ _ _ R) as V.
  destruct (deepcopy_reads fuel doc h d S R N ltac:(lia)) as (v' & h2 & Sn & E & Rn & Nn & F).
  pose proof (iso_deepcopy (length h) fuel doc h (le_n _) (closed_above_length h)) as (Bf & C & A).
  rewrite E in *. cbn [fst snd] in *. apply (h_apply_all_reads (length h)); auto.
  - rewrite app_length. lia.
  - exists Sn. auto.
  - assert (K : forall v x, is_tree h v x -> is_tree (h ++ h2) v x).
    { intros v x (S0 & R0 & N0). exists S0. split; auto. now apply reads_more. }
    clear -O K. induction O as [|x y l l' (E1 & E2 & E3 & T) Fa IHF]; constructor; auto. repeat split; auto.
  - clear -O Bf. induction O as [|x y l l' (E1 & E2 & E3 & (S0 & R0 & N0)) Fa IHF]; constructor; auto.
    eapply of_old_keeps; [exact Bf| |exists S0; eauto]. intros d S a R A. eapply reads_range; eauto.
  - lia.
Qed.
