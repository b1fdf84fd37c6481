(** C106: arrays and strings as sequences. *)
From Coq Require Import String List Lia ZArith.
From Verif Require Import BaseFacts JsonFacts JTreeOps SpecTreeAny SpecInherit JTreeSim JSeq JSeqFacts PropsTree JLoose JLooseOps SpecSlice JSliceFacts PropsInherit SpecChars.
Import ListNotations.
Open Scope string_scope.
Open Scope list_scope.
Open Scope nat_scope.

Lemma means_norm len z k : means len z k <-> norm_index len z = Some k.
Proof.
  unfold means, norm_index. set (j := if (z <? 0)%Z then (z + Z.of_nat len)%Z else z). split.
  - intros [L E]. assert (J : j = Z.of_nat k) by (subst j; destruct (Z.ltb_spec z 0); lia).
    assert (B : ((0 <=? j) && (j <? Z.of_nat len))%Z = true) by (apply andb_true_iff; split; [apply Z.leb_le|apply Z.ltb_lt]; lia). rewrite B, J, Nat2Z.id. reflexivity.
  - destruct ((0 <=? j) && (j <? Z.of_nat len))%Z eqn:B; [|discriminate]. intros [= <-]. apply andb_true_iff in B as [B1 B2]. apply Z.leb_le in B1. apply Z.ltb_lt in B2.
    split; [lia|]. subst j. destruct (Z.ltb_spec z 0); lia.
Qed.
Lemma seq_at h n v l : denotes h n v -> consists_of v l -> forall z,
  match norm_index (length l) z with
  | Some k => exists g x, getitem_any h n (IInt z) = Ok g /\ nth_error l k = Some x /\ got_is h g x
  | None => getitem_any h n (IInt z) = Exn EIndex
  end.
Proof.
  intros D Co z. destruct Co as [l|s]; inversion D as [| | |? s' Ed|? ids ? Ed Len F|]; subst; unfold getitem_any, getitem; rewrite Ed.
  - rewrite Len. destruct (norm_index (length l) z) as [k|] eqn:N; [|reflexivity]. pose proof (norm_index_bound _ _ _ N) as B.
    destruct (nth_error ids k) as [c|] eqn:Hc; [|apply nth_error_None in Hc; lia]. destruct (nth_error l k) as [x|] eqn:Hx; [|apply nth_error_None in Hx; lia].
    exists (GNode c), x. split; [reflexivity|]. split; [reflexivity|exact (F k c x Hc Hx)].
  - rewrite map_length. unfold char_at. destruct (norm_index (length s) z) as [k|] eqn:N; [|reflexivity]. pose proof (norm_index_bound _ _ _ N) as B.
    destruct (nth_error s k) as [c|] eqn:Hc; [|apply nth_error_None in Hc; lia]. exists (GText [c]), (JStr [c]). split; [reflexivity|]. split; [|reflexivity]. now rewrite nth_error_map, Hc.
Qed.

(** [n[z]]: as for Python's sequences; a str is no index. *)
Theorem C106_item : forall h n v l z, denotes h n v -> consists_of v l ->
  (forall k, means (length l) z k -> exists g x, getitem_any h n (IInt z) = Ok g /\ nth_error l k = Some x /\ got_is h g x) /\
  ((forall k, ~ means (length l) z k) -> getitem_any h n (IInt z) = Exn EIndex) /\
  (forall k, getitem_any h n (IStr k) = Exn EType).
Proof.
  intros h n v l z D Co. pose proof (seq_at h n v l D Co z) as A. split; [|split].
  - intros k M. apply means_norm in M. now rewrite M in A.
  - intro No. destruct (norm_index (length l) z) as [k|] eqn:N; [|exact A]. apply means_norm in N. destruct (No k N).
  - intro k. destruct Co as [l|s]; inversion D as [| | |? s' Ed|? ids ? Ed Len F|]; subst; unfold getitem_any, getitem; now rewrite Ed.
Qed.
Print Assumptions C106_item.

(** [iter(n)] and [reversed(n)]. *)
Lemma items_two h ids l : length ids = length l -> (forall i c v, nth_error ids i = Some c -> nth_error l i = Some v -> denotes h c v) -> Forall2 (denotes h) ids l.
Proof.
  revert l. induction ids as [|c ids IH]; intros [|x l] Len F; try discriminate; constructor; [exact (F 0 c x eq_refl eq_refl)|].
  apply IH; [now injection Len|]. intros i c' v' Hc Hv. exact (F (S i) c' v' Hc Hv).
Qed.
Theorem C106_iter : forall h n v l, denotes h n v -> consists_of v l -> exists gs, iter_any h n = Ok gs /\ Forall2 (got_is h) gs l.
Proof.
  intros h n v l D Co. destruct Co as [l|s]; inversion D as [| | |? s' Ed|? ids ? Ed Len F|]; subst; unfold iter_any; rewrite Ed; eexists; (split; [reflexivity|]).
  - pose proof (items_two h ids l Len F) as F2. clear - F2. induction F2; constructor; auto.
  - clear. induction s; constructor; [reflexivity|assumption].
Qed.
Print Assumptions C106_iter.
Lemma seq_len h n v l : denotes h n v -> consists_of v l -> json_len h n = Ok (length l).
Proof. intros D Co. destruct Co as [l|s]; inversion D as [| | |? s' Ed|? ids ? Ed Len F|]; subst; unfold json_len; rewrite Ed; [now rewrite Len|now rewrite map_length]. Qed.
Theorem C106_reversed : forall h n v l, denotes h n v -> consists_of v l -> exists gs, reversed_any h n = Ok gs /\ Forall2 (got_is h) gs (rev l).
Proof.
  intros h n v l D Co. unfold reversed_any. rewrite (seq_len h n v l D Co). cbn [bind].
  assert (G : forall k, k <= length l -> exists gs, gets h n (rev (seq 0 k)) = Ok gs /\ Forall2 (got_is h) gs (rev (firstn k l))).
  { induction k as [|k IH]; intro L; [exists []; split; [reflexivity|constructor]|]. destruct IH as (gs & E & F); [lia|].
    rewrite seq_S, rev_app_distr. cbn [rev app Nat.add gets]. pose proof (seq_at h n v l D Co (Z.of_nat k)) as A. rewrite norm_index_nat in A by lia. destruct A as (g & x & -> & Hx & Gx). cbn [bind]. rewrite E. cbn [bind].
    exists (g :: gs). split; [reflexivity|]. assert (X : firstn (S k) l = firstn k l ++ [x]).
    { clear - Hx. revert k Hx. induction l as [|y l IH]; intros [|k] Hx; [discriminate Hx|discriminate Hx|now injection Hx as ->|]. cbn [firstn app]. f_equal. now apply IH. }
    rewrite X, rev_app_distr. constructor; assumption. }
  destruct (G (length l) (le_n _)) as (gs & E & F). rewrite firstn_all in F. eauto.
Qed.
Print Assumptions C106_reversed.

(** [o in n] and [n.count(o)] look for items equal to the value; the last
    hypothesis leaves out nodes with NaN, which are found by identity. *)
Lemma key_matches_eqb h s o w : operand_is h o w -> key_matches h s o = json_eqb (JStr s) w.
Proof.
  destruct o as [x|b]; cbn [operand_is key_matches].
  - intros ->. destruct x; reflexivity.
  - intro D. inversion D as [? Ed|? ? Ed|? ? Ed|? ? Ed|? ? ? Ed|? ? ? Ed]; subst; now rewrite Ed.
Qed.
Lemma got_matches_eqb h g o x w : coherent h -> operand_ok h o -> operand_is h o w -> json_eqb w w = true \/ o = OVal w ->
  got_is h g x -> (forall c, g = GNode c -> c < length h) -> got_matches h g o = Ok (json_eqb x w).
Proof.
  intros C OK W R G B. destruct g as [c|s]; cbn [got_is got_matches] in *; [exact (item_matches_spec h c o x w C (B c eq_refl) OK G W R)|]. subst x. now rewrite (key_matches_eqb h s o w W).
Qed.
Lemma got_bound h n i g : coherent h -> getitem_any h n (IInt i) = Ok g -> forall c, g = GNode c -> c < length h.
Proof.
  intros C H c ->. unfold getitem_any, getitem in H. destruct (ndata (getn h n)) as [|b|x|s|ids|m] eqn:Ed; try discriminate H.
  - destruct (char_at s i); discriminate H.
  - destruct (norm_index (length ids) i) as [k|]; [|discriminate H]. destruct (nth_error ids k) as [c'|] eqn:Hc; [|discriminate H]. injection H as ->. exact (items_bound h n ids C Ed c (nth_error_In _ _ Hc)).
Qed.
Lemma iter_bound h n gs : coherent h -> iter_any h n = Ok gs -> forall c, In (GNode c) gs -> c < length h.
Proof.
  intros C H c I. unfold iter_any in H. destruct (ndata (getn h n)) as [|b|x|s|ids|m] eqn:Ed; try discriminate H; injection H as <-; apply in_map_iff in I as (y & E & I); try discriminate E.
  injection E as <-. exact (items_bound h n ids C Ed y I).
Qed.
Theorem C106_search : forall h n v l o w, any_history h -> operand_ok h o -> operand_is h o w -> denotes h n v -> consists_of v l ->
  nan_free w = true /\ jwf w = true \/ o = OVal w ->
  contains_any h n o = Ok (existsb (fun x => json_eqb x w) l) /\ count_any h n o = Ok (length (filter (fun x => json_eqb x w) l)).
Proof.
  intros h n v l o w H OK W D Co R. apply any_history_coherent in H as C.
  assert (R' : json_eqb w w = true \/ o = OVal w) by (destruct R as [[? ?]|?]; auto using json_eqb_refl).
  destruct (C106_iter h n v l D Co) as (gs & E & F). pose proof (iter_bound h n gs C E) as B. unfold contains_any, count_any. rewrite E. cbn [bind]. clear E D Co.
  induction F as [|g x gs l Gx F IH]; [split; reflexivity|]. destruct IH as [IH1 IH2]; [intros c I; apply B; now right|].
  cbn [any_match count_match existsb filter]. rewrite (got_matches_eqb h g o x w C OK W R' Gx) by (intros c ->; apply B; now left). cbn [bind].
  rewrite IH1, IH2. cbn [bind]. destruct (json_eqb x w); split; reflexivity.
Qed.
Print Assumptions C106_search.

(** [n.index(o, start, stop)]: the first position between the bounds, which are
    those of slices, at which there is an equal item; ValueError if there is
    none. *)
Lemma index_steps_spec h n v l o w stop b : coherent h -> operand_ok h o -> operand_is h o w -> json_eqb w w = true \/ o = OVal w -> denotes h n v -> consists_of v l ->
  match stop with None => b = length l | Some j => Z.of_nat b = Z.min (Z.max j 0) (Z.of_nat (length l)) end ->
  forall f i, length l - i < f ->
  (forall m x, i <= m < b -> nth_error l m = Some x -> json_eqb x w = true -> (forall k y, i <= k < m -> nth_error l k = Some y -> json_eqb y w = false) -> index_steps f h n o stop (Z.of_nat i) = Ok (Z.of_nat m)) /\
  ((forall m x, i <= m < b -> nth_error l m = Some x -> json_eqb x w = false) -> index_steps f h n o stop (Z.of_nat i) = Exn EValue).
Proof.
  intros C OK W R D Co B. induction f as [|f IH]; intros i L; [lia|]. cbn [index_steps].
  assert (Bl : b <= length l) by (destruct stop; lia).
  assert (St : forall m, i <= m < b -> match stop with Some j => (j <=? Z.of_nat i)%Z | None => false end = false) by (intros m Hm; destruct stop as [j|]; [apply Z.leb_gt; lia|reflexivity]).
  replace (Z.of_nat i + 1)%Z with (Z.of_nat (S i)) by lia. pose proof (seq_at h n v l D Co (Z.of_nat i)) as A.
  assert (At : i < length l -> exists x, nth_error l i = Some x /\ match getitem_any h n (IInt (Z.of_nat i)) with
      | Ok g => let* b := got_matches h g o in if b then Ok (Z.of_nat i) else index_steps f h n o stop (Z.of_nat (S i))
      | Exn EIndex => Exn EValue | Exn e => Exn e | Fuel => Fuel end = if json_eqb x w then Ok (Z.of_nat i) else index_steps f h n o stop (Z.of_nat (S i))).
  { intro Li. rewrite norm_index_nat in A by exact Li. destruct A as (g & x & E & Hx & Gx). exists x. split; [exact Hx|]. rewrite E. now rewrite (got_matches_eqb h g o x w C OK W R Gx (got_bound h n _ g C E)). }
  split.
  - intros m x Hm Hx Ex First. rewrite (St m Hm). destruct (At ltac:(lia)) as (y & Hy & ->).
    destruct (json_eqb y w) eqn:Q.
    + destruct (Nat.eq_dec i m) as [->|Ne]; [reflexivity|]. rewrite (First i y ltac:(lia) Hy) in Q. discriminate Q.
    + assert (Ne : i <> m) by (intros ->; congruence). destruct (IH (S i) ltac:(lia)) as [G _]. apply (G m x); [lia|exact Hx|exact Ex|]. intros k z Hk. apply First. lia.
  - intros No. destruct (match stop with Some j => (j <=? Z.of_nat i)%Z | None => false end) eqn:Sp; [reflexivity|]. destruct (Nat.lt_ge_cases i (length l)) as [Li|Li].
    + destruct (At Li) as (y & Hy & ->). assert (Lb : i < b) by (destruct stop as [j|]; [apply Z.leb_gt in Sp; lia|lia]). rewrite (No i y ltac:(lia) Hy).
      destruct (IH (S i) ltac:(lia)) as [_ G]. apply G. intros m x Hm. apply No. lia.
    + destruct (norm_index (length l) (Z.of_nat i)) as [k|] eqn:N; [|now rewrite A]. apply means_norm in N. destruct N. lia.
Qed.
Theorem C106_index : forall h n v l o w start stop a b f, any_history h -> operand_ok h o -> operand_is h o w -> denotes h n v -> consists_of v l ->
  nan_free w = true /\ jwf w = true \/ o = OVal w -> from_place (length l) (Some start) a -> to_place (length l) stop b -> length l < f ->
  (forall m x, a <= m < b -> nth_error l m = Some x -> json_eqb x w = true -> (forall k y, a <= k < m -> nth_error l k = Some y -> json_eqb y w = false) ->
     index_any f h n o start stop = Ok (Z.of_nat m)) /\
  ((forall m x, a <= m < b -> nth_error l m = Some x -> json_eqb x w = false) -> index_any f h n o start stop = Exn EValue).
Proof.
  intros h n v l o w start stop a b f H OK W D Co R A B L. apply any_history_coherent in H as C.
  assert (R' : json_eqb w w = true \/ o = OVal w) by (destruct R as [[? ?]|?]; auto using json_eqb_refl).
  cbn [from_place] in A. unfold place in A. unfold index_any. rewrite (seq_len h n v l D Co).
  set (stop' := match stop with Some j => Some (if (j <? 0)%Z then (j + Z.of_nat (length l))%Z else j) | None => None end).
  assert (B' : match stop' with None => b = length l | Some j => Z.of_nat b = Z.min (Z.max j 0) (Z.of_nat (length l)) end).
  { subst stop'. destruct stop as [j|]; [|exact B]. cbn [to_place] in B. unfold place in B. destruct (Z.ltb_spec j 0); lia. }
  set (s := if (start <? 0)%Z then Z.max (Z.of_nat (length l) + start) 0 else start).
  assert (E : (let* start := if (start <? 0)%Z then let* len := Ok (length l) in Ok (Z.max (Z.of_nat len + start) 0) else Ok start in
    let* stop := match stop with None => Ok None | Some j => if (j <? 0)%Z then let* len := Ok (length l) in Ok (Some (j + Z.of_nat len)%Z) else Ok (Some j) end in
    index_steps f h n o stop start) = index_steps f h n o stop' s).
  { subst stop' s. destruct (start <? 0)%Z; cbn [bind]; destruct stop as [j|]; cbn [bind]; try reflexivity; destruct (j <? 0)%Z; reflexivity. }
  rewrite E. destruct (Z.le_gt_cases s (Z.of_nat (length l))) as [Ls|Ls].
  - assert (Sa : s = Z.of_nat a) by (subst s; destruct (Z.ltb_spec start 0); lia). rewrite Sa. apply (index_steps_spec h n v l o w stop' b C OK W R' D Co B' f a). lia.
  - assert (Ea : a = length l) by (subst s; destruct (Z.ltb_spec start 0); lia).
    assert (Bl : b <= length l) by (destruct stop'; lia). split; [intros m x Hm; lia|]. intros _. destruct f as [|f]; [lia|]. cbn [index_steps].
    destruct (match stop' with Some j => (j <=? s)%Z | None => false end); [reflexivity|]. pose proof (seq_at h n v l D Co s) as X.
    destruct (norm_index (length l) s) as [k|] eqn:N; [|now rewrite X]. apply means_norm in N. destruct N. lia.
Qed.
Print Assumptions C106_index.

(** Objects: reversed() and index() ask for the item 0, 1 and so on, a KeyError;
    unless there is none to ask for, which is a ValueError of index(). *)
Definition counted (len : nat) (z y : Z) : Prop := (0 <= z /\ y = z \/ z < 0 /\ y = Z.of_nat len + z)%Z.
Theorem C106_object : forall h n m, denotes h n (JObj m) ->
  reversed_any h n = (match m with [] => Ok [] | _ => Exn EKey end) /\
  (forall f o start, index_any (S f) h n o start None = Exn EKey) /\
  (forall f o start stop lo hi, counted (length m) start lo -> counted (length m) stop hi ->
     index_any (S f) h n o start (Some stop) = Exn (if (Z.max lo 0 <? hi)%Z then EKey else EValue)).
Proof.
  intros h n m D. inversion D as [| | | | |? ms ? Ed Ek F]; subst.
  assert (Lm : length ms = length m) by (rewrite <- (map_length fst ms), Ek; apply map_length).
  assert (G : forall z, getitem_any h n (IInt z) = Exn EKey) by (intro z; unfold getitem_any, getitem; now rewrite Ed).
  assert (Len : json_len h n = Ok (length m)) by (unfold json_len; now rewrite Ed, Lm). split; [|split].
  - unfold reversed_any. rewrite Len. cbn [bind]. destruct m as [|kv m]; [reflexivity|]. cbn [length]. rewrite seq_S, rev_app_distr. cbn [rev app gets]. now rewrite G.
  - intros f o start. unfold index_any. rewrite Len. destruct (start <? 0)%Z; cbn [bind index_steps]; now rewrite G.
  - intros f o start stop lo hi A B. unfold index_any. rewrite Len. unfold counted in A, B.
    destruct (Z.ltb_spec start 0) as [S0|S0]; cbn [bind]; destruct (Z.ltb_spec stop 0) as [J0|J0]; cbn [bind index_steps]; rewrite G;
      (match goal with |- context [(?x <=? ?y)%Z] => destruct (Z.leb_spec x y) end); destruct (Z.ltb_spec (Z.max lo 0) hi); try reflexivity; lia.
Qed.
Print Assumptions C106_object.

(** Nothing that edits does anything to a string: setting and deleting raise
    TypeError, inserting and appending AttributeError; clear(), reverse() and
    extend() return only if there is nothing to do. *)
Definition unchanged (h h' : heap) : Prop := forall m, m < length h -> keeps h h' m.
Lemma set_text h n s i o w : slice_history h -> n < length h -> denotes h n (JStr s) -> operand_ok h o -> operand_is h o w ->
  exists h', setitem h n i o = (Exn EType, h') /\ unchanged h h'.
Proof.
  intros H Hn D OK W. apply slice_history_loose in H as C.
  destruct (loose_made h n o w (index_str i) C Hn OK W) as (h0 & h1 & E0 & E1 & I1 & G & _). pose proof (loose_none h h1 n C G) as K.
  exists h1. split; [|exact K]. unfold setitem. rewrite E0. cbn [hbind]. rewrite E1. pose proof (K n Hn _ D) as D1. inversion D1 as [| | |? ? Ed| |]; subst. rewrite Ed. now destruct i.
Qed.
Theorem C106_readonly : forall h n s, slice_history h -> n < length h -> denotes h n (JStr s) ->
  (forall i o w, operand_ok h o -> operand_is h o w -> exists h', setitem h n i o = (Exn EType, h') /\ unchanged h h') /\
  (forall i, delitem h n i = (Exn EType, h)) /\
  (forall z o, insert h n z o = (Exn EAttribute, h)) /\ (forall o, append h n o = (Exn EAttribute, h)) /\
  (forall os, extend h n os = (match os with [] => Ok tt | _ => Exn EAttribute end, h)) /\
  (forall z, (forall k, means (length s) z k -> pop_any h n z = (Exn EType, h)) /\ ((forall k, ~ means (length s) z k) -> pop_any h n z = (Exn EIndex, h))) /\
  (forall f, clear_any (S f) h n = (match s with [] => Ok tt | _ => Exn EType end, h)) /\
  (exists h', reverse_any h n = (match s with _ :: _ :: _ => Exn EType | _ => Ok tt end, h') /\ unchanged h h') /\
  popitem_text h n = (Exn (match s with [] => EKey | _ => EType end), h) /\
  (forall k o, setdefault_any h n k o = (Exn EType, h) /\ get_any h n (IStr k) o = Exn EType).
Proof.
  intros h n s H Hn D. inversion D as [| | |? ? Ed| |]; subst.
  assert (Dl : forall i, delitem h n i = (Exn EType, h)) by (intro i; unfold delitem; rewrite Ed; now destruct i).
  assert (In : forall z o, insert h n z o = (Exn EAttribute, h)) by (intros z o; unfold insert; now rewrite Ed).
  assert (Ap : forall o, append h n o = (Exn EAttribute, h)) by (intro o; unfold append; now rewrite Ed, In).
  assert (Gz : forall z, getitem_any h n (IInt z) = let* t := char_at s z in Ok (GText t)) by (intro z; unfold getitem_any; now rewrite Ed).
  assert (Gs : forall k, getitem_any h n (IStr k) = Exn EType) by (intro k; unfold getitem_any; now rewrite Ed).
  assert (Po : forall z, (forall k, means (length s) z k -> pop_any h n z = (Exn EType, h)) /\ ((forall k, ~ means (length s) z k) -> pop_any h n z = (Exn EIndex, h))).
  { intro z. unfold pop_any. rewrite Gz. unfold char_at. split.
    - intros k M. apply means_norm in M as N. rewrite N. destruct M as [L _]. destruct (nth_error s k) as [c|] eqn:Hc; [|apply nth_error_None in Hc; lia]. cbn [bind]. now rewrite Dl.
    - intro No. destruct (norm_index (length s) z) as [k|] eqn:N; [apply means_norm in N; destruct (No k N)|reflexivity]. }
  split; [intros i o w OK W; exact (set_text h n s i o w H Hn D OK W)|]. split; [exact Dl|]. split; [exact In|]. split; [exact Ap|].
  split; [intros [|o os]; [reflexivity|]; cbn [extend]; now rewrite Ap|]. split; [exact Po|]. split; [|split; [|split]].
  - intro f. cbn [clear_any]. destruct s as [|c s].
    + destruct (Po (-1)%Z) as [_ E]. rewrite E; [reflexivity|]. intros k [L _]. cbn in L. lia.
    + destruct (Po (-1)%Z) as [E _]. rewrite (E (length s)); [reflexivity|]. split; [cbn; lia|]. right. cbn [length]. lia.
  - unfold reverse_any, json_len. rewrite Ed. destruct s as [|c [|d s]]; [exists h; split; [reflexivity|intros m _ v; auto]|exists h; split; [reflexivity|intros m _ v; auto]|].
    cbn [length Nat.div2 reverse_any_from]. unfold swap_any. set (len := S (S (length s))). assert (Ll : length (c :: d :: s) = len) by reflexivity.
    rewrite !Gz. unfold char_at. rewrite Ll, !norm_index_nat by (subst len; lia). destruct (nth_error (c :: d :: s) (len - 0 - 1)) as [x|] eqn:Hx; [|apply nth_error_None in Hx; cbn in Hx; subst len; lia].
    cbn [bind nth_error as_operand]. destruct (set_text h n (c :: d :: s) (IInt (Z.of_nat 0)) (OVal (JStr [x])) (JStr [x]) H Hn D eq_refl eq_refl) as (h' & -> & K). exists h'. split; [reflexivity|exact K].
  - unfold popitem_text, iter_any. rewrite Ed. destruct s as [|c s]; [reflexivity|]. cbn [map]. now rewrite Gs.
  - intros k o. unfold setdefault_any, get_any. now rewrite Gs.
Qed.
Print Assumptions C106_readonly.

(** Extending an array by a string appends its characters. *)
Theorem C106_extend : forall h n m l s, any_history h -> n < length h -> denotes h n (JArr l) -> denotes h m (JStr s) ->
  exists h', extend_any h n m = (Ok tt, h') /\ denotes h' n (JArr (l ++ map (fun c => JStr [c]) s)).
Proof.
  intros h n m l s H Hn D Dm. inversion Dm as [| | |? ? Ed| |]; subst. unfold extend_any, iter_any. rewrite Ed.
  assert (Rd : Forall2 (ready h n) (map as_operand (map (fun c => GText [c]) s)) (map (fun c => JStr [c]) s)).
  { clear. induction s; constructor; [|assumption]. split; [reflexivity|]. split; [reflexivity|exact I]. }
  destruct (C90_extend h n _ _ l H Hn D Rd) as (h' & E & K & _). exists h'. split; [exact E|exact K].
Qed.
Print Assumptions C106_extend.

(** On arrays and objects these are the methods of JSeq.v and JTree.v. *)
Theorem C106_same : forall h n, (forall s, ndata (getn h n) <> DStr s) ->
  (forall i, getitem_any h n i = (let* c := getitem h n i in Ok (GNode c))) /\
  (forall o, contains_any h n o = json_contains h n o) /\
  (forall z, pop_any h n z = (let (r, h') := pop h n z in (let* c := r in Ok (GNode c), h'))).
Proof.
  intros h n N. assert (G : forall i, getitem_any h n i = (let* c := getitem h n i in Ok (GNode c))).
  { intro i. unfold getitem_any. destruct (ndata (getn h n)) as [|b|x|s|ids|m] eqn:Ed; try reflexivity. destruct (N s eq_refl). }
  split; [exact G|]. split.
  - intro o. unfold contains_any, json_contains, iter_any. destruct (ndata (getn h n)) as [|b|x|s|ids|m] eqn:Ed; try reflexivity; [destruct (N s eq_refl)| |]; cbn [bind].
    + clear. generalize 0. induction ids as [|c ids IH]; intro k; [reflexivity|]. cbn [map any_match find_item got_matches]. destruct (item_matches h c o) as [[]| |]; cbn [bind]; [reflexivity| |reflexivity|reflexivity].
      apply IH.
    + clear. induction m as [|kc m IH]; [reflexivity|]. cbn [map any_match existsb got_matches bind]. destruct (key_matches h (fst kc) o); [reflexivity|exact IH].
  - intro z. unfold pop_any, pop. rewrite G. destruct (getitem h n (IInt z)) as [c| |]; cbn [bind]; try reflexivity. destruct (delitem h n (IInt z)) as [[x|e|] h']; reflexivity.
Qed.
Print Assumptions C106_same.

(** A claim that fails: [t in n] tells whether the text occurs in the string,
    as for Python's str.  Only single characters are found. *)
Definition abc : heap := fst (new_doc (JStr (lit "abc")) []).
Theorem C106_substring_refuted : exists h n s t, any_history h /\ denotes h n (JStr s) /\ (exists a b, s = a ++ t ++ b) /\ contains_any h n (OVal (JStr t)) = Ok false.
Proof.
  exists abc, 0, (lit "abc"), (lit "ab"). split; [exact (any_step [] (OpNew (JStr (lit "abc"))) any_start eq_refl)|]. split; [apply den_str; reflexivity|]. split; [exists [], (lit "c"); reflexivity|vm_compute; reflexivity].
Qed.
Print Assumptions C106_substring_refuted.
(** An array with a string in it. *)
Definition beads : json := JArr [JStr (lit "noon"); JNull; JStr (lit "n"); JNull].
Definition heap106 : heap := fst (new_doc beads []).
Example C106_case :
  any_history heap106 /\ denotes heap106 1 (JStr (lit "noon")) /\ ndata (getn heap106 0) = DArr [1; 2; 3; 4] /\
  getitem_any heap106 1 (IInt (-4)) = Ok (GText (lit "n")) /\ getitem_any heap106 1 (IInt 4) = Exn EIndex /\ getitem_any heap106 1 (IStr (lit "0")) = Exn EType /\
  contains_any heap106 1 (ONode 3) = Ok true /\ count_any heap106 1 (OVal (JStr (lit "o"))) = Ok 2 /\ contains_any heap106 1 (OVal (JStr (lit "oo"))) = Ok false /\
  index_any 9 heap106 1 (OVal (JStr (lit "n"))) 1 None = Ok 3%Z /\ index_any 9 heap106 1 (OVal (JStr (lit "n"))) 1 (Some (-1)%Z) = Exn EValue /\
  index_any 9 heap106 0 (OVal JNull) (-2) None = Ok 3%Z /\ index_any 9 heap106 0 (OVal JNull) 2 (Some 3%Z) = Exn EValue /\
  reversed_any heap106 0 = Ok [GNode 4; GNode 3; GNode 2; GNode 1] /\
  fst (reverse_any heap106 1) = Exn EType /\ fst (reverse_any heap106 3) = Ok tt /\ fst (clear_any 9 heap106 1) = Exn EType /\
  fst (read_value (snd (extend_any heap106 0 3)) 0) = Ok (JArr [JStr (lit "noon"); JNull; JStr (lit "n"); JNull; JStr (lit "n")]).
Proof.
  split; [exact (any_step [] (OpNew beads) any_start eq_refl)|]. split; [apply den_str; vm_compute; reflexivity|]. repeat (split; [vm_compute; reflexivity|]). vm_compute. reflexivity.
Qed.
