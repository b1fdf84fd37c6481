(** C99: keys(), items() and values() of a node, after any editing. *)
From Coq Require Import String List NArith ZArith Bool Lia.
From Verif Require Import JsonFacts JTreeOps SpecTreeAny SpecInherit JTreeSim JSeq JSeqFacts PropsTree PropsTreeAny JViews.
Import ListNotations.
Open Scope string_scope.
Open Scope list_scope.
Open Scope nat_scope.

Lemma coherent_jwf h n v : coherent h -> denotes h n v -> jwf v = true.
Proof. intros (g & H & I) D. apply (E_denotes h g n v H) in D. exact (denotes_jwf g n v (inv_shape g I) D). Qed.
Lemma members_bound h n m : coherent h -> ndata (getn h n) = DObj m -> forall k c, In (k, c) m -> c < length h.
Proof. intros C E k c Hc. apply (coherent_ordered _ C n k). econstructor; eauto. Qed.
Lemma all_members h (m : list (pystr * id)) (kvs : list (pystr * json)) : map fst m = map fst kvs ->
  (forall i k c k' v, nth_error m i = Some (k, c) -> nth_error kvs i = Some (k', v) -> denotes h c v) ->
  Forall2 (fun a b => fst a = fst b /\ denotes h (snd a) (snd b)) m kvs.
Proof.
  revert kvs. induction m as [|[k c] m IH]; intros [|[k' v] kvs] E H; try discriminate; constructor; cbn in *.
  - injection E as E _. split; [exact E|]. exact (H 0 k c k' v eq_refl eq_refl).
  - injection E as _ E. apply IH; [exact E|]. intros i a b a' b' X Y. exact (H (S i) a b a' b' X Y).
Qed.
Lemma pairs_all h n m l : ndata (getn h n) = DObj m -> (forall k c, In (k, c) l -> dget k m = Some c) ->
  pairs_of h n (map (fun kc => OVal (JStr (fst kc))) l) = Ok (map (fun kc => (OVal (JStr (fst kc)), snd kc)) l).
Proof.
  intros E. induction l as [|[k c] l IH]; intro H; [reflexivity|]. cbn [map pairs_of index_by fst snd]. unfold getitem at 1. rewrite E.
  rewrite (H k c (or_introl eq_refl)). cbn [bind]. rewrite IH by (intros; apply H; now right). reflexivity.
Qed.

(** ** C99.  The views of an object. *)
Theorem C99_lists : forall h n m, any_history h -> denotes h n (JObj m) ->
  exists cs, Forall2 (denotes h) cs (map snd m) /\
    view_len h n = Ok (length m) /\
    keys_list h n = Ok (map (fun kv => OVal (JStr (fst kv))) m) /\
    values_list h n = Ok cs /\
    items_list h n = Ok (combine (map (fun kv => OVal (JStr (fst kv))) m) cs).
Proof.
  intros h n m H D. apply any_history_coherent in H as C. pose proof (coherent_jwf _ _ _ C D) as W. apply jwf_obj in W as [ND _].
  inversion D as [| | | | |? ms ? Ed Ek F]; subst. exists (map snd ms).
  assert (F2 := all_members h ms m Ek F).
  assert (K : map (fun kc : pystr * id => OVal (JStr (fst kc))) ms = map (fun kv : pystr * json => OVal (JStr (fst kv))) m).
  { transitivity (map (fun k => OVal (JStr k)) (map fst ms)); [now rewrite map_map|]. rewrite Ek. now rewrite map_map. }
  assert (P : items_list h n = Ok (map (fun kc => (OVal (JStr (fst kc)), snd kc)) ms)).
  { unfold items_list, iter_operands. rewrite Ed. cbn [bind]. apply (pairs_all h n ms ms Ed). intros k c I. apply In_dget; [|exact I].
    unfold keys. rewrite Ek. exact ND. }
  split; [|split; [|split; [|split]]].
  - clear - F2. induction F2 as [|a b l l' [_ A] _ IH]; cbn; constructor; assumption.
  - unfold view_len, json_len. rewrite Ed. f_equal. rewrite <- (map_length fst ms), Ek. apply map_length.
  - unfold keys_list, iter_operands. rewrite Ed. now rewrite K.
  - unfold values_list. rewrite P. cbn [bind]. now rewrite map_map.
  - rewrite P, <- K. f_equal. clear. induction ms as [|a ms IH]; cbn; [reflexivity|now rewrite IH].
Qed.
Print Assumptions C99_lists.

(** [(k, o) in n.items()]. *)
Theorem C99_items_in : forall h n k o w m, any_history h -> operand_ok h o -> operand_is h o w -> denotes h n (JObj m) ->
  nan_free w = true /\ jwf w = true \/ o = OVal w ->
  items_contain h n (IStr k) o = Ok (match find (fun kv => str_eqb (fst kv) k) m with Some (_, x) => json_eqb x w | None => false end).
Proof.
  intros h n k o w m H OK Wo D R. apply any_history_coherent in H as C. unfold items_contain.
  assert (R' : json_eqb w w = true \/ o = OVal w) by (destruct R as [[? ?]|?]; auto using json_eqb_refl).
  pose proof (any_getitem h n (IStr k) (JObj m) C D) as G. cbn [py_get] in G.
  destruct (find (fun kv => str_eqb (fst kv) k) m) as [[k' x]|]; cbn [option_map snd] in G.
  - destruct G as (c & key & -> & Ch & Dc). apply item_matches_spec; auto. exact (proj2 (coherent_ordered _ C n key c Ch)).
  - destruct G as (e & G). unfold getitem in *. inversion D as [| | | | |? ms ? Ed Ek _]; subst. rewrite Ed in *.
    now destruct (dget k ms).
Qed.
Print Assumptions C99_items_in.

(** [o in n.values()]. *)
Lemma search_all h n o w m : coherent h -> operand_ok h o -> operand_is h o w -> json_eqb w w = true \/ o = OVal w ->
  ndata (getn h n) = DObj m -> forall l kvs, (forall k c, In (k, c) l -> dget k m = Some c) ->
  Forall2 (fun a b => fst a = fst b /\ denotes h (snd a) (snd b)) l kvs ->
  values_search h n (map (fun kc => OVal (JStr (fst kc))) l) o = Ok (existsb (fun kv => json_eqb (snd kv) w) kvs).
Proof.
  intros C OK Wo R E. induction l as [|[k c] l IH]; intros kvs H F; inversion F as [|? [k' x] ? kvs' [_ D] F']; subst; [reflexivity|].
  cbn [map values_search index_by fst snd] in *. unfold getitem at 1. rewrite E, (H k c (or_introl eq_refl)). cbn [bind].
  assert (L : c < length h) by (apply (members_bound h n m C E k), dget_In, H; now left).
  rewrite (item_matches_spec h c o x w C L OK D Wo R). cbn [bind existsb snd].
  destruct (json_eqb x w); [reflexivity|]. apply IH; [intros; apply H; now right|exact F'].
Qed.
Theorem C99_values_in : forall h n o w m, any_history h -> operand_ok h o -> operand_is h o w -> denotes h n (JObj m) ->
  nan_free w = true /\ jwf w = true \/ o = OVal w ->
  values_contain h n o = Ok (existsb (fun kv => json_eqb (snd kv) w) m).
Proof.
  intros h n o w m H OK Wo D R. apply any_history_coherent in H as C.
  assert (R' : json_eqb w w = true \/ o = OVal w) by (destruct R as [[? ?]|?]; auto using json_eqb_refl).
  pose proof (coherent_jwf _ _ _ C D) as W. apply jwf_obj in W as [ND _]. inversion D as [| | | | |? ms ? Ed Ek F]; subst.
  unfold values_contain, iter_operands. rewrite Ed. cbn [bind]. apply (search_all h n o w ms); auto.
  - intros k c I. apply In_dget; [|exact I]. unfold keys. rewrite Ek. exact ND.
  - exact (all_members h ms m Ek F).
Qed.
Print Assumptions C99_values_in.

(** Views of two objects: [a.keys() == b.keys()] when they have the same
    names, [a.items() == b.items()] when [a == b]. *)
Lemma all_in_spec {A} (f : A -> res bool) (g : A -> bool) l : (forall x, In x l -> f x = Ok (g x)) -> all_in f l = Ok (forallb g l).
Proof.
  induction l as [|x l IH]; intro H; [reflexivity|]. cbn [all_in forallb]. rewrite (H x) by now left. cbn [bind].
  destruct (g x); [|reflexivity]. apply IH. intros; apply H; now right.
Qed.
Lemma len_obj h n m : denotes h n (JObj m) -> view_len h n = Ok (length m).
Proof.
  intro D. inversion D as [| | | | |? ms ? Ed Ek _]; subst. unfold view_len, json_len. rewrite Ed. f_equal.
  rewrite <- (map_length fst ms), Ek. apply map_length.
Qed.
Theorem C99_keys_equal : forall h a b m m', any_history h -> denotes h a (JObj m) -> denotes h b (JObj m') ->
  exists e, keys_equal h a b = Ok e /\ (e = true <-> forall k, In k (map fst m) <-> In k (map fst m')).
Proof.
  intros h a b m m' H Da Db. apply any_history_coherent in H as C.
  pose proof (coherent_jwf _ _ _ C Da) as Wa. apply jwf_obj in Wa as [Na _].
  pose proof (coherent_jwf _ _ _ C Db) as Wb. apply jwf_obj in Wb as [Nb _]. unfold keys in Na, Nb.
  unfold keys_equal. rewrite (len_obj h a m Da), (len_obj h b m' Db). cbn [bind].
  assert (Le : length m = length (map fst m)) by now rewrite map_length.
  assert (Le' : length m' = length (map fst m')) by now rewrite map_length.
  destruct (Nat.eqb_spec (length m) (length m')) as [L|L].
  - inversion Da as [| | | | |? ms ? Ed Ek _]; subst. inversion Db as [| | | | |? ms' ? Ed' Ek' _]; subst.
    unfold keys_list, iter_operands. rewrite Ed. cbn [bind].
    rewrite (all_in_spec _ (fun o => match o with OVal (JStr k) => existsb (str_eqb k) (map fst m') | _ => false end)).
    + eexists. split; [reflexivity|]. rewrite forallb_forall.
      assert (I : (forall k, In k (map fst ms) -> In k (map fst m')) <->
        (forall o, In o (map (fun kc : pystr * id => OVal (JStr (fst kc))) ms) ->
           match o with OVal (JStr k) => existsb (str_eqb k) (map fst m') | _ => false end = true)).
      { split.
        - intros G o Ho. apply in_map_iff in Ho as ([k c] & <- & Hk). cbn [fst]. apply existsb_exists. exists k. split; [|apply str_eqb_refl].
          apply G. now apply (in_map fst) in Hk.
        - intros G k Hk. apply in_map_iff in Hk as ([k' c] & <- & Hk). cbn [fst].
          specialize (G (OVal (JStr k')) (in_map (fun kc : pystr * id => OVal (JStr (fst kc))) _ _ Hk)). cbn in G.
          apply existsb_exists in G as (x & Hx & E). destruct (str_eqb_spec k' x); [now subst|discriminate]. }
      rewrite <- I, Ek. split; intros G k; [|apply G]. split; [apply G|].
      apply (NoDup_length_incl Na); [lia|exact G].
    + intros o Ho. apply in_map_iff in Ho as ([k c] & <- & Hk). cbn [fst]. unfold keys_contain, json_contains. rewrite Ed'. f_equal.
      rewrite <- Ek'. clear. induction ms' as [|x l IH]; [reflexivity|]. cbn [existsb map]. rewrite <- IH. f_equal. cbn [key_matches].
      destruct (str_eqb_spec (fst x) k), (str_eqb_spec k (fst x)); congruence.
  - exists false. split; [reflexivity|]. split; [discriminate|]. intro G. exfalso. apply L. rewrite Le, Le'.
    apply Nat.le_antisymm; apply NoDup_incl_length; auto; intros k; apply G.
Qed.
Print Assumptions C99_keys_equal.

Theorem C99_items_equal : forall h a b m m', any_history h -> denotes h a (JObj m) -> denotes h b (JObj m') ->
  nan_free (JObj m) = true -> items_equal h a b = Ok (json_eqb (JObj m) (JObj m')).
Proof.
  intros h a b m m' H Da Db Nn. apply any_history_coherent in H as C.
  pose proof (coherent_jwf _ _ _ C Da) as Wa. pose proof (coherent_jwf _ _ _ C Db) as Wb.
  apply jwf_obj in Wa as [Na Wa]. apply jwf_obj in Wb as [Nb Wb]. rewrite Forall_forall in Wa, Wb.
  unfold items_equal. rewrite (len_obj h a m Da), (len_obj h b m' Db). cbn [bind].
  destruct (Nat.eqb_spec (length m) (length m')) as [L|L].
  2: { f_equal. symmetry. apply not_true_iff_false. intro E. apply json_eqb_obj in E as [E _]. contradiction. }
  inversion Da as [| | | | |? ms ? Ed Ek F]; subst. pose proof (all_members h ms m Ek F) as F2.
  unfold iter_operands. rewrite Ed. cbn [bind].
  assert (M : forall k c, In (k, c) ms -> dget k ms = Some c).
  { intros k c I. apply In_dget; [|exact I]. unfold keys. rewrite Ek. exact Na. }
  set (g := fun o => match o with OVal (JStr k) => match dget k m, dget k m' with Some x, Some y => json_eqb y x | _, _ => false end | _ => false end).
  assert (X : forall k c, In (k, c) ms -> exists x, In (k, x) m /\ denotes h c x).
  { clear - F2. induction F2 as [|[k c] [k' x] l l' [A B] _ IH]; intros k0 c0 []; cbn in *.
    - injection H as -> ->. subst. eauto.
    - destruct (IH _ _ H) as (y & Hy & D). eauto. }
  rewrite (all_in_spec _ g).
  - f_equal. apply eq_iff_eq_true. rewrite forallb_forall, json_eqb_obj. split.
    + intro G. split; [exact L|]. intros k v Hk.
      assert (I : In k (map fst ms)) by (rewrite Ek; now apply (in_map fst) in Hk).
      apply in_map_iff in I as ([k' c] & E & I). cbn in E. subst k'.
      specialize (G (OVal (JStr k)) (in_map (fun kc : pystr * id => OVal (JStr (fst kc))) _ _ I)). unfold g in G.
      rewrite (In_dget k v m Na Hk) in G. destruct (dget k m') as [v'|] eqn:E'; [|discriminate]. exists v'. split; [reflexivity|].
      rewrite json_eqb_sym; [exact G|exact (Wa (k, v) Hk)|exact (Wb (k, v') (dget_In _ _ _ E'))].
    + intros [_ G] o Ho. apply in_map_iff in Ho as ([k c] & <- & Hk). cbn [fst g]. unfold g.
      destruct (X k c Hk) as (x & Hx & _). rewrite (In_dget k x m Na Hx). destruct (G k x Hx) as (v' & E' & Q). rewrite E'.
      rewrite json_eqb_sym; [exact Q|exact (Wb (k, v') (dget_In _ _ _ E'))|exact (Wa (k, x) Hx)].
  - intros o Ho. apply in_map_iff in Ho as ([k c] & <- & Hk). cbn [fst index_by]. unfold getitem at 1. rewrite Ed, (M k c Hk). cbn [bind].
    destruct (X k c Hk) as (x & Hx & Dx). unfold g. rewrite (In_dget k x m Na Hx).
    assert (Nx : nan_free x = true) by (cbn [nan_free] in Nn; rewrite forallb_forall in Nn; exact (Nn (k, x) Hx)).
    rewrite (C99_items_in h b k (ONode c) x m' H (members_bound h a ms C Ed k c Hk) Dx Db (or_introl (conj Nx (Wa (k, x) Hx)))). f_equal.
    clear. induction m' as [|[k' y] l IH]; [reflexivity|]. cbn [find dget fst].
    destruct (str_eqb_spec k' k), (str_eqb_spec k k'); try congruence; exact IH.
Qed.
Print Assumptions C99_items_equal.

(** The views of an array: its keys are its items; pairs and values can be
    made only of an empty one.  A pair is looked for by its position. *)
Theorem C99_array : forall h n l, denotes h n (JArr l) ->
  view_len h n = Ok (length l) /\
  (exists cs, Forall2 (denotes h) cs l /\ keys_list h n = Ok (map ONode cs)) /\
  items_list h n = (match l with [] => Ok [] | _ => Exn EType end) /\
  values_list h n = (match l with [] => Ok [] | _ => Exn EType end).
Proof.
  intros h n l D. inversion D as [| | | |? ids ? Ed Len F|]; subst. split; [|split; [|split]].
  - unfold view_len, json_len. rewrite Ed. now rewrite Len.
  - exists ids. split; [|unfold keys_list, iter_operands; now rewrite Ed].
    clear Ed D. revert l Len F. induction ids as [|c ids IH]; intros [|x l] Len F; try discriminate; constructor.
    + exact (F 0 c x eq_refl eq_refl).
    + apply IH; auto. intros i c' v' Hc Hv. exact (F (S i) c' v' Hc Hv).
  - unfold items_list, iter_operands. rewrite Ed. destruct ids, l; try discriminate; reflexivity.
  - unfold values_list, items_list, iter_operands. rewrite Ed. destruct ids, l; try discriminate; reflexivity.
Qed.
Print Assumptions C99_array.

(** {"a": 1, "b": [1, 2]} beside {"b": [1, 2], "a": 1} and {"a": 2, "b": 1},
    after some editing. *)
Definition views99 : heap :=
  let h := run [] (OpNew (JObj [(lit "a", PropsTree.num 1); (lit "b", JArr [PropsTree.num 1; PropsTree.num 2])])) in
  let h := run h (OpNew (JObj [(lit "b", JArr [PropsTree.num 1]); (lit "a", PropsTree.num 1)])) in
  let h := run h (OpInsert 6 1%Z (OVal (PropsTree.num 2))) in
  run h (OpNew (JObj [(lit "a", PropsTree.num 2); (lit "b", PropsTree.num 1)])).

Definition n99 : Z -> json := PropsTree.num.
Example C99_case : any_history views99 /\
  (exists m, denotes views99 0 (JObj m) /\ denotes views99 5 (JObj (rev m)) /\ nan_free (JObj m) = true) /\
  values_list views99 5 = Ok [6; 8] /\ items_list views99 0 = Ok [(OVal (JStr (lit "a")), 1); (OVal (JStr (lit "b")), 2)] /\
  items_equal views99 0 5 = Ok true /\ keys_equal views99 5 10 = Ok true /\ items_equal views99 0 10 = Ok false /\
  items_contain views99 0 (IStr (lit "b")) (ONode 6) = Ok true /\ items_contain views99 0 (IStr (lit "c")) (OVal JNull) = Ok false /\
  values_contain views99 10 (OVal (n99 1)) = Ok true /\ values_contain views99 0 (OVal (n99 2)) = Ok false /\
  keys_contain views99 0 (OVal (JStr (lit "b"))) = Ok true /\ items_list views99 6 = Exn EType /\
  items_contain views99 6 (IInt (-1)%Z) (OVal (n99 2)) = Ok true /\ items_contain views99 6 (IInt 2%Z) (OVal (n99 2)) = Exn EIndex.
Proof.
  assert (H : any_history views99).
  { unfold views99. cbv zeta. repeat (apply any_step); [apply any_start|..]; cbn [any_ok operand_ok];
      repeat match goal with |- _ /\ _ => split end;
      try (apply Nat.ltb_lt; vm_compute; reflexivity); try (vm_compute; reflexivity). }
  split; [exact H|]. split; [|vm_compute; repeat split].
  exists [(lit "a", n99 1); (lit "b", JArr [n99 1; n99 2])].
  assert (G : forall n v, n < length views99 -> fst (read_value views99 n) = Ok v -> denotes views99 n v).
  { intros n v L R. destruct (C89_values views99 n H L) as (w & Rw & D & _). rewrite R in Rw. injection Rw as ->. exact D. }
  split; [|split]; [apply G; [apply Nat.ltb_lt|]; vm_compute; reflexivity..|vm_compute; reflexivity].
Qed.
