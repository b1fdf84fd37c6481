(** C100: the lists and dicts that JSON.value hands out. *)
From Coq Require Import String List NArith ZArith Bool Lia.
From Verif Require Import JsonFacts JTreeOps SpecTreeAny SpecInherit JTreeSim JSeq JSeqFacts JAlias SpecAlias AliasFacts.
Import ListNotations.
Open Scope string_scope.
Open Scope list_scope.
Open Scope nat_scope.

(** ** C100.  Reading: in a program that leaves alone what it is given, [value]
    gives the value that the node spells, however it has been edited. *)
Theorem C100_value : forall t n, reached t -> n < length (s_heap t) ->
  exists r w, fst (value_ref t n) = Ok r /\ denotes (s_heap t) n w /\ shows (s_store (snd (value_ref t n))) r w.
Proof.
  intros t n R Hn. apply reached_good in R as G. destruct (value_ref_spec t n G Hn) as (r & u & E & F & G' & C). rewrite E. cbn [fst snd].
  destruct (coherent_total _ n (good_heap t G) Hn) as (w & D). exists r, w. split; [reflexivity|]. split; [exact D|].
  apply (good_shows u n r w G'); [|exact C]. rewrite (proj1 F). exact D.
Qed.
Print Assumptions C100_value.

(** What has been handed out does not change with the document: no action of
    the library changes a list or dict, in any state whatever. *)
Lemma read_each_store rd : (forall t c, exists l, s_store (snd (rd t c)) = s_store t ++ l) ->
  forall ids t, exists l, s_store (snd (read_each rd t ids)) = s_store t ++ l.
Proof.
  intros H. induction ids as [|c ids IH]; intro t; cbn [read_each]; [exists []; cbn; now rewrite app_nil_r|].
  destruct (H t c) as (l & L). destruct (rd t c) as [[v|e|] u]; cbn [snd] in *; try (exists l; exact L).
  destruct (IH u) as (l' & L'). destruct (read_each rd u ids) as [[x|e|] w]; cbn [snd] in *; exists (l ++ l'); now rewrite L', L, app_assoc.
Qed.
Lemma value_ref_store f : forall t n, exists l, s_store (snd (value_ref_f f t n)) = s_store t ++ l.
Proof.
  assert (N : forall t : state, exists l, s_store t = s_store t ++ l) by (intro t; exists []; now rewrite app_nil_r).
  induction f as [|f IH]; intros t n; cbn [value_ref_f]; [apply N|].
  destruct (cached_value t n); [apply N|]. destruct (ndata (getn (s_heap t) n)) as [|b|x|s|ids|m]; try (exists []; cbn; now rewrite app_nil_r).
  - destruct (read_each_store (value_ref_f f) IH ids t) as (l & L). destruct (read_each (value_ref_f f) t ids) as [[y|e|] u]; cbn [snd] in *;
      [|exists l; exact L..]. exists (l ++ [PList y]). cbn. now rewrite L, app_assoc.
  - destruct (read_each_store (value_ref_f f) IH (map snd m) t) as (l & L).
    destruct (read_each (value_ref_f f) t (map snd m)) as [[y|e|] u]; cbn [snd] in *;
      [|exists l; exact L..]. exists (l ++ [PDict (combine (map fst m) y)]). cbn. now rewrite L, app_assoc.
Qed.
Lemma act_store t x : exists l, s_store (act t x) = s_store t ++ l.
Proof.
  assert (N : forall t : state, exists l, s_store t = s_store t ++ l) by (intro u; exists []; now rewrite app_nil_r).
  assert (P : forall o, exists l, s_store (snd (operand_content t o)) = s_store t ++ l).
  { intros [v|b]; cbn [operand_content]; [apply N|]. destruct (value_ref_store (S (length (s_heap t))) t b) as (l & L).
    unfold value_ref. destruct (value_ref_f _ t b) as [[r|e|] u]; exists l; exact L. }
  destruct x as [v|n|n i o|n i|n z o]; cbn [act].
  - exists []. cbn. now rewrite app_nil_r.
  - apply value_ref_store.
  - destruct (P o) as (l & L). destruct (operand_content t o) as [[v|e|] u]; cbn [snd] in L; [|exists l; exact L..].
    destruct (setitem _ _ _ _) as [[y|e|] h]; exists l; exact L.
  - destruct (getitem _ _ _); exists []; cbn; now rewrite app_nil_r.
  - destruct (ndata _); try apply N. destruct (P o) as (l & L). destruct (operand_content t o) as [[v|e|] u]; cbn [snd] in L; exists l; exact L.
Qed.
Theorem C100_snapshot : forall xs t r w, shows (s_store t) r w -> shows (s_store (fold_left act xs t)) r w.
Proof.
  induction xs as [|x xs IH]; intros t r w H; [exact H|]. cbn [fold_left]. apply IH. destruct (act_store t x) as (l & ->). now apply shows_more.
Qed.
Print Assumptions C100_snapshot.

(** The parts of what [value] gives are what [value] gives for the children:
    the very same lists and dicts, not copies. *)
Theorem C100_shared : forall t n a ids, reached t -> n < length (s_heap t) -> ndata (getn (s_heap t) n) = DArr ids ->
  fst (value_ref t n) = Ok (PRef a) ->
  exists l, nth_error (s_store (snd (value_ref t n))) a = Some (PList l) /\
    Forall2 (fun c x => value_ref (snd (value_ref t n)) c = (Ok x, snd (value_ref t n))) ids l.
Proof.
  intros t n a ids R Hn Ed Ev. apply reached_good in R as G. destruct (value_ref_spec t n G Hn) as (r & u & E & F & G' & C).
  rewrite E in *. cbn [fst snd] in *. injection Ev as ->. destruct (good_link u G' n _ C) as [_ L]. unfold linked in L.
  rewrite (proj1 F), Ed in L. destruct L as (b & l & Q & S & FA). injection Q as <-. exists l. split; [exact S|].
  revert FA. apply Forall2_more. intros c x Cc. unfold value_ref. cbn [value_ref_f]. now rewrite Cc.
Qed.
Print Assumptions C100_shared.
Theorem C100_shared_object : forall t n a m, reached t -> n < length (s_heap t) -> ndata (getn (s_heap t) n) = DObj m ->
  fst (value_ref t n) = Ok (PRef a) ->
  exists l, nth_error (s_store (snd (value_ref t n))) a = Some (PDict (combine (map fst m) l)) /\
    Forall2 (fun c x => value_ref (snd (value_ref t n)) c = (Ok x, snd (value_ref t n))) (map snd m) l.
Proof.
  intros t n a m R Hn Ed Ev. apply reached_good in R as G. destruct (value_ref_spec t n G Hn) as (r & u & E & F & G' & C).
  rewrite E in *. cbn [fst snd] in *. injection Ev as ->. destruct (good_link u G' n _ C) as [_ L]. unfold linked in L.
  rewrite (proj1 F), Ed in L. destruct L as (b & l & Q & S & FA). injection Q as <-. exists l. split; [exact S|].
  revert FA. apply Forall2_more. intros c x Cc. unfold value_ref. cbn [value_ref_f]. now rewrite Cc.
Qed.
Print Assumptions C100_shared_object.

(** A node used as an operand is copied by value. *)
Theorem C100_operand : forall t b, reached t -> b < length (s_heap t) ->
  exists w, fst (operand_content t (ONode b)) = Ok w /\ denotes (s_heap t) b w.
Proof.
  intros t b R Hb. apply reached_good in R as G. destruct (coherent_total _ b (good_heap t G) Hb) as (w & D).
  destruct (operand_content_spec t (ONode b) w G Hb D) as (u & -> & _). exists w. auto.
Qed.
Print Assumptions C100_operand.

(** ** A caller that changes what it was given changes what [value] gives
    next: the list is the one in the cache.  So does one that changes a part
    of it, or what it got from a node above; the node itself is as before, and
    is no longer equal to its value. *)
Definition num (z : Z) : json := JNum (NInt z).
Definition start100 : state := act (mkState [] [] []) (ANew (JObj [(lit "a", JArr [num 1; num 2]); (lit "b", num 3)])).
Theorem C100_value_refuted : exists t n a o r w w', reached t /\ n < length (s_heap t) /\
  fst (value_ref t n) = Ok (PRef a) /\ Forall (fun x => match x with PAtom _ => True | PRef _ => False end) (parts o) /\
  let u := change a o (snd (value_ref t n)) in
  s_heap u = s_heap t /\ denotes (s_heap u) n w /\
  fst (value_ref u n) = Ok r /\ shows (s_store (snd (value_ref u n))) r w' /\ w' <> w.
Proof.
  exists start100, 1, 0, (PList [PAtom (num 1)]), (PRef 0), (JArr [num 1; num 2]), (JArr [num 1]).
  split. { apply reached_act; [apply reached_start|vm_compute; reflexivity]. }
  split; [vm_compute; lia|]. split; [vm_compute; reflexivity|]. split; [repeat constructor|]. cbv zeta.
  split; [vm_compute; reflexivity|]. split.
  { apply den_arr with (ids := [2; 3]); [vm_compute; reflexivity|reflexivity|].
    intros [|[|[|i]]] c v Hc Hv; try discriminate; injection Hc as <-; injection Hv as <-; apply den_num; vm_compute; reflexivity. }
  split; [vm_compute; reflexivity|]. split; [|discriminate].
  apply shows_list with (l := [PAtom (num 1)]); [vm_compute; reflexivity|reflexivity|].
  intros [|[|i]] x v Hx Hv; try discriminate; injection Hx as <-; injection Hv as <-; constructor.
Qed.
Print Assumptions C100_value_refuted.

Example C100_case : let t := act start100 (ARead 0) in
  reached t /\ ndata (getn (s_heap t) 1) = DArr [2; 3] /\
  fst (value_ref t 0) = Ok (PRef 1) /\ fst (value_ref t 1) = Ok (PRef 0) /\
  s_store t = [PList [PAtom (num 1); PAtom (num 2)]; PDict [(lit "a", PRef 0); (lit "b", PAtom (num 3))]] /\
  (let u := act t (AInsert 1 1%Z (ONode 1)) in
   reached u /\ value_ref u 1 <> value_ref t 1 /\ fst (value_ref u 1) = Ok (PRef 3) /\
   shows (s_store u) (PRef 0) (JArr [num 1; num 2]) /\
   content (s_store (snd (value_ref u 1))) (PRef 3) = Ok (JArr [num 1; JArr [num 1; num 2]; num 2])).
Proof.
  cbv zeta.
  assert (R : reached (act start100 (ARead 0))).
  { apply reached_act; [apply reached_act; [apply reached_start|vm_compute; reflexivity]|vm_compute; lia]. }
  split; [exact R|]. split; [vm_compute; reflexivity|]. split; [vm_compute; reflexivity|]. split; [vm_compute; reflexivity|]. split; [vm_compute; reflexivity|].
  split; [apply reached_act; [exact R|vm_compute; lia]|].
  split; [intro X; apply (f_equal fst) in X; vm_compute in X; discriminate|]. split; [vm_compute; reflexivity|]. split; [|vm_compute; reflexivity].
  apply shows_list with (l := [PAtom (num 1); PAtom (num 2)]); [vm_compute; reflexivity|reflexivity|].
  intros [|[|[|i]]] x v Hx Hv; try discriminate; injection Hx as <-; injection Hv as <-; constructor.
Qed.
