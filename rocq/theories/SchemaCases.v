(** Small worlds for concrete cases, and a decision procedure for the
    conditions of the theorems on them. *)
From Coq Require Import List.
From Verif Require Export DepsFacts SchemaStrict.
Import ListNotations.
Open Scope nat_scope.

(** A keyword of dialect [d]. *)
Definition kw_in (d : list stdclass) (key : string) (v : kjson) : pystr * keyword :=
  (lit key, mkKw (match find_class d (lit key) with Some c => Std c | None => Unknown (lit key) end) v None false [] None).
Definition ref_in (d : list stdclass) (key : string) (t : sid) : pystr * keyword :=
  (lit key, mkKw (match find_class d (lit key) with Some c => Std c | None => Unknown (lit key) end)
              (KJ (JStr (lit "#"))) (Some t) false [] None).
Definition dynref (fragment : string) (t : sid) : pystr * keyword :=
  (lit "$dynamicRef", mkKw (Std KDynamicRef) (KJ (JStr (lit "#"))) (Some t) true (lit fragment) None).

(** re.search for a pattern without special characters: a substring test. *)
Fixpoint starts (r s : pystr) : bool :=
  match r, s with
  | [], _ => true
  | a :: r', b :: s' => N.eqb a b && starts r' s'
  | _ :: _, [] => false
  end.
Fixpoint occurs (r s : pystr) : bool :=
  starts r s || match s with [] => false | _ :: s' => occurs r s' end.

(** A world given by the list of its schemas; the other schemas accept. *)
Definition small (l : list snode) : world :=
  mkWorld (fun s => nth s l (SBool true)) (fun _ => None) (fun _ _ => None)
    (fun r s => Some (occurs r s)) (fun m e => (m, e)) (fun _ _ => true) (fun _ _ => []).

Definition with_bases (W : world) (base : sid -> option pystr) (anchor : pystr -> pystr -> option sid) : world :=
  mkWorld (w_schema W) base anchor (w_search W) (w_repr W) (w_format W) (w_uri W).

Definition obj (m : list (string * json)) : json := JObj (map (fun kv => (lit (fst kv), snd kv)) m).
Definition text (s : string) : json := JStr (lit s).
Definition int (z : Z) : json := JNum (NInt z).
Definition root (x : json) : inst := mkInst [] x.

Definition valid_of (r : res rnode) : option bool := match r with Ok n => Some (r_valid n) | _ => None end.

(** ** Deciding the conditions. *)
Fixpoint earlierb (n k : pystr) (l : list pystr) : bool :=
  match l with
  | [] => false
  | x :: r => (str_eqb x n && mem_str k r) || earlierb n k r
  end.
Lemma earlierb_sound n k l : earlierb n k l = true -> earlier n k l.
Proof.
  induction l as [|x r IH]; [discriminate|]. cbn [earlierb]. intro H. apply orb_true_iff in H. destruct H as [H|H].
  - apply andb_true_iff in H. destruct H as [H1 H2]. destruct (str_eqb_spec x n) as [->|]; [|discriminate].
    apply mem_str_In in H2. apply in_split in H2. destruct H2 as (l1 & l2 & ->). exists [], l1, l2. reflexivity.
  - destruct (IH H) as (l1 & l2 & l3 & ->). now exists (x :: l1), l2, l3.
Qed.

Definition good_kwb (d : list stdclass) (ks : list pystr) (kv : pystr * keyword) : bool :=
  value_ok (snd kv)
  && kwclass_eqb (kw_class (snd kv)) (match find_class d (fst kv) with Some c => Std c | None => Unknown (fst kv) end)
  && forallb (fun n => negb (mem_str n ks) || earlierb n (fst kv) ks) (depends_on (kw_class (snd kv))).
Definition good_nodeb (d : list stdclass) (s : snode) : bool :=
  match s with
  | SBool _ => true
  | SObj kws => nodup_keysb kws && forallb (good_kwb d (keys kws)) kws
  end.
Lemma good_small d l : forallb (good_nodeb d) l = true -> good_world d (small l).
Proof.
  intros H s kws Hs. cbn in Hs. rewrite forallb_forall in H.
  destruct (nth_in_or_default s l (SBool true)) as [I|I]; [|rewrite I in Hs; discriminate].
  rewrite Hs in I. specialize (H _ I). cbn [good_nodeb] in H. apply andb_true_iff in H. destruct H as [H1 H2].
  split; [now apply nodup_keysb_NoDup|]. intros key k Hk. rewrite forallb_forall in H2. specialize (H2 _ Hk).
  unfold good_kwb in H2. cbn [fst snd] in H2. apply andb_true_iff in H2. destruct H2 as [H2 H3]. apply andb_true_iff in H2.
  destruct H2 as [H2 H4]. split; [exact H2|]. split; [destruct (kwclass_eqb_spec (kw_class k) (match find_class d key with Some c => Std c | None => Unknown key end)); [assumption|discriminate]|].
  intros n Hn Hin. rewrite forallb_forall in H3. specialize (H3 _ Hn). apply orb_true_iff in H3. destruct H3 as [H3|H3].
  - apply negb_true_iff in H3. apply mem_str_In in Hin. congruence.
  - now apply earlierb_sound.
Qed.

Definition uses_none (c : stdclass) (l : list snode) : bool :=
  forallb (fun s => match s with SBool _ => true
                    | SObj kws => forallb (fun kv => negb (kwclass_eqb (kw_class (snd kv)) (Std c))) kws end) l.
Lemma uses_small c l : uses_none c l = true -> ~ uses (small l) c.
Proof.
  intros H (s & kws & key & k & Hs & Hk & Hc). cbn in Hs. unfold uses_none in H. rewrite forallb_forall in H.
  destruct (nth_in_or_default s l (SBool true)) as [I|I]; [|rewrite I in Hs; discriminate].
  rewrite Hs in I. specialize (H _ I). cbn in H. rewrite forallb_forall in H. specialize (H _ Hk). cbn [snd] in H. rewrite Hc in H.
  apply negb_true_iff in H. destruct (kwclass_eqb_spec (Std c) (Std c)); [discriminate|contradiction].
Qed.
Definition static_refs (l : list snode) : bool :=
  forallb (fun s => match s with SBool _ => true
                    | SObj kws => forallb (fun kv => negb (kw_dynamic (snd kv))) kws end) l.
Lemma plain_small l : static_refs l = true -> plain_dynamics (small l).
Proof.
  intros H s kws key k Hs Hk D. exfalso. cbn in Hs. unfold static_refs in H. rewrite forallb_forall in H.
  destruct (nth_in_or_default s l (SBool true)) as [I|I]; [|rewrite I in Hs; discriminate].
  rewrite Hs in I. specialize (H _ I). cbn in H. rewrite forallb_forall in H. specialize (H _ Hk). cbn [snd] in H. rewrite D in H. discriminate.
Qed.
Definition no_bool_items (l : list snode) : bool :=
  forallb (fun s => match s with SBool _ => true
                    | SObj kws => forallb (fun kv => negb (kwclass_eqb (kw_class (snd kv)) (Std KItems2019))
                                     || match kw_json (snd kv) with
                                        | KSub t => match nth t l (SBool true) with SBool _ => false | SObj _ => true end
                                        | _ => true
                                        end) kws end) l.
Lemma no_misjudged_small l : uses_none KNot l = true -> no_bool_items l = true -> no_misjudged (small l).
Proof.
  intros U H. split; [now apply uses_small|]. intros s kws key k t b Hs Hk Hc Hj Ht. cbn in Hs, Ht. unfold no_bool_items in H.
  rewrite forallb_forall in H. destruct (nth_in_or_default s l (SBool true)) as [I|I]; [|rewrite I in Hs; discriminate].
  rewrite Hs in I. specialize (H _ I). cbn in H. rewrite forallb_forall in H. specialize (H _ Hk). cbn [snd] in H.
  rewrite Hc, Hj, Ht in H. destruct (kwclass_eqb_spec (Std KItems2019) (Std KItems2019)); [discriminate|contradiction].
Qed.
Lemma no_unevaluated_small l :
  uses_none KUnevaluatedItems l && uses_none KUnevaluatedProperties l
  && uses_none KUnevaluatedItems2019 l && uses_none KUnevaluatedProperties2019 l = true -> no_unevaluated (small l).
Proof. intro H. rewrite !andb_true_iff in H. destruct H as [[[A B] C] D]. repeat split; now apply uses_small. Qed.
