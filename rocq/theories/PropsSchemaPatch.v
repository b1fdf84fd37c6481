(** C105: the JSON Patch methods on a constructed schema. *)
From Coq Require Import String List Bool Lia ZArith.
From Verif Require Import PyIntFacts SpecTreeAny JTreeSim PointerFacts PropsLenient PatchFacts SchemaCases PatchSpots ReadBackFacts PropsBuild PropsEdit PropsLookup.
Import ListNotations.
Open Scope string_scope.
Open Scope list_scope.
Open Scope nat_scope.

Definition value_of (op : patching) : option json := match op with PatchAdd v | PatchReplace v => Some v | PatchRemove => None end.

Lemma form_node E objs k j x : node_of E objs (SNJson j) x ->
  match form_of k j with
  | FArray n => exists l, x = JArr l /\ length l = n
  | FObject h => exists d, x = JObj d /\ (h = true <-> In k (keys d))
  | FOther => (forall l, x <> JArr l) /\ forall d, x <> JObj d
  end.
Proof.
  intro N. destruct j as [w|t|ts|ts]; cbn [form_of node_of] in *.
  - subst w. destruct x as [|z0|z1|z2|l|d]; try (split; discriminate); [exists l; auto|]. exists d. split; [reflexivity|]. apply dmem_In.
  - contradiction.
  - destruct N as (l & -> & L & _). exists l. auto.
  - destruct N as (d & -> & K & _). exists d. split; [reflexivity|]. rewrite <- K. apply dmem_In.
Qed.
Lemma item_index_ok n k i : item_index n k = Ok i -> exists z, int_text k z /\ position n z = Some i.
Proof. unfold item_index. destruct (py_int k) as [z|] eqn:T; [|discriminate]. destruct (norm_index n z) as [i'|] eqn:P; [|discriminate]. intros [= <-]. exists z. split; [now apply py_int_iff|now rewrite position_norm]. Qed.
Lemma as_json_ok {A} (r : res A) x : JTree.as_json_error r = Ok x -> r = Ok x.
Proof. destruct r as [y|e|]; cbn; try (destruct (is_pointer_error e)); congruence. Qed.

Lemma insert_inv n v x x' : amends (InsertItem n v) x x' -> exists l1 l2, n = length l1 /\ x = JArr (l1 ++ l2) /\ x' = JArr (l1 ++ v :: l2).
Proof. intro A. inversion A; subst; eauto. Qed.
Lemma add_right E objs a k j x e : node_of E objs (SNJson j) x -> amendment_for (PatchAdd a) (form_of k j) k = Ok e ->
  item_of e = Some a /\ forall x', amends e x x' -> adds text_reading k a x x'.
Proof.
  intros N H. pose proof (form_node E objs k j x N) as F. destruct (form_of k j) as [n|h|]; cbn [amendment_for] in H; [| |discriminate H].
  - destruct F as (l & -> & L). destruct (str_eqb_spec k (lit "-")) as [->|Nk].
    + injection H as <-. split; [reflexivity|]. intros x' A. apply insert_inv in A as (l1 & l2 & H2 & Hl & ->). injection Hl as ->. subst n. rewrite app_length in H2. assert (l2 = []) by (destruct l2; [reflexivity|cbn in H2; lia]). subst l2. rewrite app_nil_r. apply adds_end. reflexivity.
    + destruct (py_int k) as [z|] eqn:T; [|discriminate H]. apply py_int_iff in T. destruct (Z.eqb_spec z (Z.of_nat n)) as [->|Nz].
      * injection H as <-. split; [reflexivity|]. intros x' A. apply insert_inv in A as (l1 & l2 & H2 & Hl & ->). injection Hl as ->. apply adds_item. unfold text_reading. now rewrite <- H2.
      * destruct ((0 <=? z) && (z <? Z.of_nat n))%Z eqn:R; [|discriminate H]. injection H as <-. split; [reflexivity|]. apply andb_true_iff in R as [R1 R2]. apply Z.leb_le in R1.
        intros x' A. apply insert_inv in A as (l1 & l2 & H2 & Hl & ->). injection Hl as ->. apply adds_item. unfold text_reading. rewrite <- H2. now rewrite Z2Nat.id.
  - destruct F as (d & -> & _). injection H as <-. split; [reflexivity|]. intros x' A. inversion A as [| | |? ? ? ? ? Nm|? ? ? Nm|]; subst; [apply adds_set|now apply adds_new].
Qed.
Lemma remove_right E objs k j x e : node_of E objs (SNJson j) x -> amendment_for PatchRemove (form_of k j) k = Ok e ->
  item_of e = None /\ exists k', reads_as x [k] [k'] /\ forall x', amends e x x' -> removes rfc_reading k' x x'.
Proof.
  intros N H. pose proof (form_node E objs k j x N) as F. destruct (form_of k j) as [n|h|]; cbn [amendment_for] in H; [| |discriminate H].
  - destruct F as (l & -> & L). destruct (JTree.as_json_error (item_index n k)) as [i| |] eqn:Q; try discriminate H. cbn [bind] in H. injection H as <-. split; [reflexivity|].
    apply as_json_ok in Q. apply item_index_ok in Q as (z & T & P). subst n. destruct (position_nth l z i P) as (y & Hy). exists (str_of_nat i). split; [econstructor; eauto; constructor|].
    intros x' A. inversion A as [| |l1 y' l2 H1 H2| | |]; subst. apply removes_item. destruct (index_text_nat (length l1)) as [Tx V]. split; [exact Tx|now symmetry].
  - destruct F as (d & -> & Hh). destruct h; [|discriminate H]. injection H as <-. split; [reflexivity|]. assert (I : In k (keys d)) by now apply Hh. apply in_map_iff in I as ([k' y] & Ek & I). cbn in Ek. subst k'.
    exists k. split; [econstructor; [exact I|constructor]|]. intros x' A. inversion A; subst. apply removes_member.
Qed.
Lemma replace_right E objs a k j x e : node_of E objs (SNJson j) x -> amendment_for (PatchReplace a) (form_of k j) k = Ok e -> jwf x = true ->
  item_of e = Some a /\ exists k', reads_as x [k] [k'] /\ forall x', amends e x x' -> replaces rfc_reading k' a x x'.
Proof.
  intros N H J. pose proof (form_node E objs k j x N) as F. destruct (form_of k j) as [n|h|]; cbn [amendment_for] in H; [| |discriminate H].
  - destruct F as (l & -> & L). destruct (JTree.as_json_error (item_index n k)) as [i| |] eqn:Q; try discriminate H. cbn [bind] in H. injection H as <-. split; [reflexivity|].
    apply as_json_ok in Q. apply item_index_ok in Q as (z & T & P). subst n. destruct (position_nth l z i P) as (y & Hy). exists (str_of_nat i). split; [econstructor; eauto; constructor|].
    intros x' A. inversion A as [l1 y' l2 v H1 H2 H3| | | | |]; subst. apply replaces_item. destruct (index_text_nat (length l1)) as [Tx V]. split; [exact Tx|now symmetry].
  - destruct F as (d & -> & Hh). destruct h; [|discriminate H]. injection H as <-. split; [reflexivity|]. assert (I : In k (keys d)) by now apply Hh. apply in_map_iff in I as ([k' y] & Ek & I). cbn in Ek. subst k'.
    exists k. split; [econstructor; [exact I|constructor]|]. intros x' A. inversion A as [| | |n1 x1 v1 m1 m2 Nm|n1 v1 m1 Nm|]; subst; [apply replaces_member|]. exfalso. apply Nm. exact (in_map fst _ _ I).
Qed.
Lemma reads_further w p q x k k' : jwf w = true -> reads_as w p q -> refers w q x -> reads_as x [k] [k'] -> reads_as w (p ++ [k]) (q ++ [k']).
Proof.
  intros J R. revert J. induction R as [d|m j v p q I R IH|l j z i v p q T P N R IH]; intros J F Rx.
  - inversion F; subst. exact Rx.
  - inversion F as [|? ? d' ? ? C F']; subst. inversion C as [? ? ? I'|]; subst. assert (d' = v) by (pose proof (In_dget _ _ _ (jwf_NoDup _ J) I); pose proof (In_dget _ _ _ (jwf_NoDup _ J) I'); congruence). subst d'.
    cbn [app]. econstructor; [exact I|]. apply IH; auto. exact (jwf_dget _ _ _ J (In_dget _ _ _ (jwf_NoDup _ J) I)).
  - inversion F as [|? ? d' ? ? C F']; subst. apply child_nat in C. assert (d' = v) by congruence. subst d'. cbn [app]. econstructor; eauto. apply IH; auto. exact (jwf_nth _ _ _ J N).
Qed.

Lemma path_of_key path p k : mk_pointer [path] = Ok (p ++ [k]) -> JTree.path_empty path = false.
Proof.
  destruct path as [[|a s]|[|a l]]; try reflexivity; intro H; exfalso; cbn in H; injection H as H; now destruct p.
Qed.

(** What a patch that returns has done: edited a value inside the document, or
    crossed out a member of a schema. *)
Definition crossed_out (c c' : cat) (r : sid) (q : list pystr) (k : pystr) (g : list (sid * pystr)) : Prop :=
  exists s kws, reached (c_objs c) r q s /\ keywords_at (c_objs c) s kws /\ In k (keys kws) /\ g = [(s, k)] /\ c' = c.
Lemma patch_ok E c m u v d p0 r op path p k g c' : worked E c -> part_at E c m u v d p0 r -> jwf v = true -> (forall a, value_of op = Some a -> jwf a = true) ->
  mk_pointer [path] = Ok (p ++ [k]) -> schema_patch E r op path [] c = (Ok g, c') ->
  exists w q x, refers v p0 w /\ reads_as w p q /\ refers w q x /\ jwf w = true /\ jwf x = true /\
    (op = PatchRemove /\ crossed_out c c' r q k g \/
     g = [] /\ exists j e v', node_of E (c_objs c) (SNJson j) x /\ amendment_for op (form_of k j) k = Ok e /\ amended e (p0 ++ q) v v' /\ made E (c_objs c') m None u v' d None).
Proof.
  intros Wk [Md R] J Ja MP H. pose proof (worked_sane _ _ Wk) as S. unfold schema_patch in H.
  assert (Em : JTree.path_empty path = false) by (exact (path_of_key _ _ _ MP)). rewrite Em in H.
  apply bind_ok in H as (p1 & c1 & H1 & H). apply lift_ok in H1 as [H1 <-]. assert (p1 = p ++ [k]) by congruence. subst p1. clear H1.
  apply bind_ok in H as (objs & c1 & H1 & H). apply read_ok in H1 as [Ho <-]. rewrite shown_nil in Ho. subst objs.
  apply bind_ok in H as (n & c1 & H1 & H). apply lift_ok in H1 as [H1 <-]. apply as_json_ok in H1. rewrite removelast_last in H1. rewrite last_last in H. cbv zeta in H.
  assert (Mv : some_made E (c_objs c) v d) by (repeat eexists; eauto). destruct (reached_value E _ _ _ _ _ Mv R) as (w & Mw & Fw).
  destruct (walk_stands E (c_objs c) p r [] (AtSchema r) w n (reach_self _ _) Mw H1) as (q & x & St & N & Fx & Rd). cbn [app] in St. pose proof (refers_jwf _ _ _ J Fw) as Jw. pose proof (refers_jwf _ _ _ Jw Fx) as Jx.
  exists w, q, x. split; [exact Fw|]. split; [exact Rd|]. split; [exact Fx|]. split; [exact Jw|]. split; [exact Jx|]. destruct n as [s|s key ws j]; cbn [stands_in sn_spot] in *.
  - left. unfold patch_keyword in H. destruct (nth_error (c_objs c) s) as [o|] eqn:Hs; [|discriminate H]. destruct (so_data o) as [|kws] eqn:Hd; [discriminate H|]. destruct op as [a| |a]; [discriminate H| |destruct (dmem k kws); discriminate H].
    destruct (dmem k kws) eqn:D; [|discriminate H]. apply ret_ok in H as [<- <-]. split; [reflexivity|]. exists s, kws. split; [exact St|]. split; [exists o; auto|]. split; [now apply dmem_In|auto].
  - right. apply bind_ok in H as (e & c1 & He & H). apply lift_ok in He as [He <-]. apply bind_ok in H as (y & c1 & Ha & H). apply ret_ok in H as [<- <-]. split; [reflexivity|].
    destruct St as (p' & kws & kw & -> & Rs & _). exists j, e.
    assert (Je : forall a, item_of e = Some a -> jwf a = true).
    { intros a Ie. apply Ja. destruct op as [b| |b]; cbn [value_of].
      - destruct (add_right _ _ _ _ _ _ _ N He) as (I & _). congruence.
      - destruct (remove_right _ _ _ _ _ _ N He) as (I & _). congruence.
      - destruct (replace_right _ _ _ _ _ _ _ N He Jx) as (I & _). congruence. }
    destruct (C102_edited E c m u v d (p0 ++ p') s key ws e y c1 Wk (conj Md (reached_trans _ _ _ _ _ _ R Rs)) Je Ha) as (v' & A & Md'). exists v'. rewrite app_assoc. auto.
Qed.

(** add: the value is added as RFC 6902 says, at the place the path is read
    as, and the schema is the one that the new document describes. *)
Theorem C105_add : forall E c m u v d p0 r a path p k g c',
  worked E c -> part_at E c m u v d p0 r -> jwf v = true -> jwf a = true ->
  mk_pointer [path] = Ok (p ++ [k]) -> schema_patch E r (PatchAdd a) path [] c = (Ok g, c') ->
  g = [] /\ exists w q v', refers v p0 w /\ reads_as w p q /\ spec_add text_reading (p0 ++ q ++ [k]) a v v' /\ made E (c_objs c') m None u v' d None.
Proof.
  intros E c m u v d p0 r a path p k g c' Wk Pa J Ja MP H.
  destruct (patch_ok E c m u v d p0 r (PatchAdd a) path p k g c' Wk Pa J) as (w & q & x & Fw & Rd & Fx & Jw & Jx & [(X & _)|(-> & j & e & v' & N & He & A & Md')]); auto; [now intros a' [= <-]|discriminate X|].
  split; [reflexivity|]. exists w, q, v'. split; [exact Fw|]. split; [exact Rd|]. split; [|exact Md']. right. exists (p0 ++ q), k. split; [now rewrite app_assoc|].
  apply (amended_edited _ e _ _ _ x J A (refers_app _ _ _ _ _ Fw Fx)). exact (proj2 (add_right _ _ _ _ _ _ _ N He)).
Qed.
Print Assumptions C105_add.

(** replace: likewise. *)
Theorem C105_replace : forall E c m u v d p0 r a path p k g c',
  worked E c -> part_at E c m u v d p0 r -> jwf v = true -> jwf a = true ->
  mk_pointer [path] = Ok (p ++ [k]) -> schema_patch E r (PatchReplace a) path [] c = (Ok g, c') ->
  g = [] /\ exists w q v', refers v p0 w /\ reads_as w (p ++ [k]) q /\ rfc_replace (p0 ++ q) a v v' /\ made E (c_objs c') m None u v' d None.
Proof.
  intros E c m u v d p0 r a path p k g c' Wk Pa J Ja MP H.
  destruct (patch_ok E c m u v d p0 r (PatchReplace a) path p k g c' Wk Pa J) as (w & q & x & Fw & Rd & Fx & Jw & Jx & [(X & _)|(-> & j & e & v' & N & He & A & Md')]); auto; [now intros a' [= <-]|discriminate X|].
  split; [reflexivity|]. destruct (replace_right _ _ _ _ _ _ _ N He Jx) as (_ & k' & Rk & Rep). exists w, (q ++ [k']), v'. split; [exact Fw|]. split; [exact (reads_further _ _ _ _ _ _ Jw Rd Fx Rk)|]. split; [|exact Md'].
  right. exists (p0 ++ q), k'. split; [now rewrite app_assoc|]. exact (amended_edited _ e _ _ _ x J A (refers_app _ _ _ _ _ Fw Fx) Rep).
Qed.
Print Assumptions C105_replace.

(** remove: likewise, except for a member of a schema, which is only crossed
    out: what evaluation works with is as before. *)
Theorem C105_remove : forall E c m u v d p0 r path p k g c',
  worked E c -> part_at E c m u v d p0 r -> jwf v = true ->
  mk_pointer [path] = Ok (p ++ [k]) -> schema_patch E r PatchRemove path [] c = (Ok g, c') ->
  exists w, refers v p0 w /\
    ((g = [] /\ exists q v', reads_as w (p ++ [k]) q /\ rfc_remove (p0 ++ q) v v' /\ made E (c_objs c') m None u v' d None) \/
     (exists q, reads_as w p q /\ crossed_out c c' r q k g)).
Proof.
  intros E c m u v d p0 r path p k g c' Wk Pa J MP H.
  destruct (patch_ok E c m u v d p0 r PatchRemove path p k g c' Wk Pa J) as (w & q & x & Fw & Rd & Fx & Jw & Jx & [(X & Cr)|(-> & j & e & v' & N & He & A & Md')]); auto; [discriminate|exists w; split; [exact Fw|right; exists q; auto]|].
  exists w. split; [exact Fw|]. left. split; [reflexivity|]. destruct (remove_right _ _ _ _ _ _ N He) as (_ & k' & Rk & Rem). exists (q ++ [k']), v'. split; [exact (reads_further _ _ _ _ _ _ Jw Rd Fx Rk)|]. split; [|exact Md'].
  right. exists (p0 ++ q), k'. split; [now rewrite app_assoc|]. exact (amended_edited _ e _ _ _ x J A (refers_app _ _ _ _ _ Fw Fx) Rem).
Qed.
Print Assumptions C105_remove.

(** A patch that raises leaves every schema as it was. *)
Definition from_spot E (op : patching) (k : pystr) (objs : list sobj) (n : spot) : M (list (sid * pystr)) :=
  match n with
  | AtSchema s => patch_keyword op [] s k (nth_error objs s)
  | AtValue s key q j => do e <- lift (amendment_for op (form_of k j) k); do _ <- amend_schema E s key q e; ret []
  end.
Lemma patch_walk E r op path p k c : mk_pointer [path] = Ok (p ++ [k]) ->
  schema_patch E r op path [] c =
  match spot_walk (c_objs c) (AtSchema r) p with
  | Ok n => from_spot E op k (c_objs c) n c
  | Exn e => (JTree.as_json_error (Exn e), c)
  | Fuel => (Fuel, c)
  end.
Proof.
  intro MP. unfold schema_patch. rewrite (path_of_key _ _ _ MP). unfold bindM at 1. rewrite MP. cbn [lift]. unfold bindM at 1, read at 1. rewrite shown_nil. rewrite removelast_last, last_last. cbv zeta.
  unfold bindM at 1. destruct (spot_walk (c_objs c) (AtSchema r) p) as [n|e|]; cbn [JTree.as_json_error lift]; [destruct n; reflexivity| |reflexivity]. destruct (is_pointer_error e); reflexivity.
Qed.
Lemma keyword_same op gone s k o c : snd (patch_keyword op gone s k o c) = c.
Proof. unfold patch_keyword. destruct o as [o|]; [|reflexivity]. destruct (so_data o) as [|kws]; [reflexivity|]. destruct op; [reflexivity| |]; destruct (dmem k kws); reflexivity. Qed.
Lemma patch_cases E r op path c m u v d p0 : worked E c -> part_at E c m u v d p0 r ->
  snd (schema_patch E r op path [] c) = c \/
  exists s p key q e y c', part_at E c m u v d p s /\ amend_schema E s key q e c = (y, c') /\ snd (schema_patch E r op path [] c) = c' /\
    forall ex, fst (schema_patch E r op path [] c) = Exn ex -> y = Exn ex.
Proof.
  intros Wk [Md R]. destruct (schema_patch E r op path [] c) as [y0 c0] eqn:H. cbn [fst snd]. unfold schema_patch in H. destruct (JTree.path_empty path); [left; unfold throw, lift in H; congruence|].
  unfold bindM at 1 in H. destruct (mk_pointer [path]) as [p|e|]; cbn [lift] in H; [|left; congruence|left; congruence].
  unfold bindM at 1, read in H. rewrite shown_nil in H. unfold bindM at 1 in H.
  destruct (spot_walk (c_objs c) (AtSchema r) (removelast p)) as [n|e|] eqn:Wn; cbn [JTree.as_json_error lift] in H; [|left; destruct (is_pointer_error e); cbn [lift] in H; congruence|left; congruence]. cbv zeta in H.
  destruct n as [s|s key ws j]; [left; pose proof (keyword_same op [] s (last p []) (nth_error (c_objs c) s) c) as Z; rewrite H in Z; exact Z|].
  assert (Mv : some_made E (c_objs c) v d) by (repeat eexists; eauto). destruct (reached_value E _ _ _ _ _ Mv R) as (w & Mw & Fw).
  destruct (walk_stands E (c_objs c) _ r [] (AtSchema r) w _ (reach_self _ _) Mw Wn) as (q & x & St & N & Fx & Rd). cbn [app stands_in] in St. destruct St as (p' & kws & kw & _ & Rs & _).
  unfold bindM at 1 in H. destruct (amendment_for op (form_of (last p []) j) (last p [])) as [e|e|]; cbn [lift] in H; [|left; congruence|left; congruence].
  right. unfold bindM in H. destruct (amend_schema E s key ws e c) as [y c'] eqn:Ha. exists s, (p0 ++ p'), key, ws, e, y, c'. split; [split; [exact Md|exact (reached_trans _ _ _ _ _ _ R Rs)]|]. split; [exact Ha|].
  unfold ret in H. destruct y; split; try congruence; intros; congruence.
Qed.
Theorem C105_failed : forall E c m u v d p0 r op path ex c',
  worked E c -> part_at E c m u v d p0 r -> schema_patch E r op path [] c = (Exn ex, c') ->
  (forall i, i < length (c_objs c) -> nth_error (c_objs c') i = nth_error (c_objs c) i) /\
  forall m' b u' v' r' up, made E (c_objs c) m' b u' v' r' up -> made E (c_objs c') m' b u' v' r' up.
Proof.
  intros E c m u v d p0 r op path ex c' Wk Pa H. destruct (patch_cases E r op path c m u v d p0 Wk Pa) as [X|(s & p & key & q & e & y & c1 & Ps & Ha & X & Y)]; rewrite H in X; cbn [snd] in X; subst.
  - auto.
  - rewrite H in Y. specialize (Y ex eq_refl). subst y. exact (C102_failed E c m u v d p s key q e c1 ex Wk Ps Ha).
Qed.
Print Assumptions C105_failed.

(** What follows a patch is again a catalog to which these theorems apply. *)
Theorem C105_worked : forall E c m u v d p0 r op path,
  worked E c -> part_at E c m u v d p0 r -> worked E (snd (schema_patch E r op path [] c)).
Proof.
  intros E c m u v d p0 r op path Wk Pa. destruct (patch_cases E r op path c m u v d p0 Wk Pa) as [X|(s & p & key & q & e & y & c1 & Ps & Ha & X & Y)]; rewrite X; [exact Wk|].
  pose proof (work_edit E c m u v d p s key q e Wk Ps) as Z. now rewrite Ha in Z.
Qed.
Print Assumptions C105_worked.

(** A path whose parent is not there: JSONError, or ValueError if a key that
    is no integer is looked up in an array; nothing happens. *)
Theorem C105_nowhere : forall E c m b u w r up op path p k,
  made E (c_objs c) m b u w r up -> jwf w = true -> mk_pointer [path] = Ok (p ++ [k]) -> (forall q, ~ reads_as w p q) ->
  exists v j, ends_at w p v j /\ ((not_integer v j /\ schema_patch E r op path [] c = (Exn EValue, c)) \/ (~ not_integer v j /\ schema_patch E r op path [] c = (Exn EJSON, c))).
Proof.
  intros E c m b u w r up op path p k Md J MP No. rewrite (patch_walk _ _ _ _ _ _ _ MP). assert (Mw : some_made E (c_objs c) w r) by (repeat eexists; eauto).
  pose proof (walk_exact E (c_objs c) p r w Mw J) as X. pose proof (spot_walk_sn (c_objs c) p (AtSchema r)) as Y. cbn [sn_spot] in Y. rewrite Y in X. clear Y.
  destruct (spot_walk (c_objs c) (AtSchema r) p) as [n|e|]; [|destruct X as (x & j & En & X); exists x, j; split; [exact En|]|contradiction].
  - exfalso. destruct (sn_spot n); destruct X as (q & Rd & _); exact (No _ Rd).
  - destruct X as [[NI ->]|[NI ->]]; [left|right]; auto.
Qed.
Print Assumptions C105_nowhere.

(** add and replace for a member of a schema that has keywords: AttributeError
    (JSONError for the replacement of one that it has not), and nothing
    happens; remove of one that it has not: JSONError.  The root itself:
    AttributeError. *)
Theorem C105_own_member : forall E c m b u w r up op path p k q s kws,
  made E (c_objs c) m b u w r up -> jwf w = true -> mk_pointer [path] = Ok (p ++ [k]) -> reads_as w p q -> reached (c_objs c) r q s -> keywords_at (c_objs c) s kws ->
  schema_patch E r op path [] c =
  match op with
  | PatchAdd _ => (Exn EAttribute, c)
  | PatchReplace _ => (Exn (if dmem k kws then EAttribute else EJSON), c)
  | PatchRemove => (if dmem k kws then Ok [(s, k)] else Exn EJSON, c)
  end.
Proof.
  intros E c m b u w r up op path p k q s kws Md J MP Rd Rs (o & Ho & Hd). rewrite (patch_walk _ _ _ _ _ _ _ MP). assert (Mw : some_made E (c_objs c) w r) by (repeat eexists; eauto).
  pose proof (walk_reads E (c_objs c) p (SNSchema r) w Mw) as X. pose proof (spot_walk_sn (c_objs c) p (AtSchema r)) as Y. cbn [sn_spot] in Y. rewrite Y in X. clear Y.
  destruct (spot_walk (c_objs c) (AtSchema r) p) as [n|e|]; [| |contradiction].
  - destruct X as (q' & w' & Rd' & _ & Wq). pose proof (reads_fun _ _ _ _ J Rd Rd'). subst q'. pose proof (reached_walk E _ _ _ _ _ Mw Rs) as Wt. assert (Es : sn_spot n = SNSchema s) by congruence.
    destruct n as [s'|]; [|discriminate Es]. cbn [sn_spot] in Es. injection Es as ->. cbn [from_spot]. unfold patch_keyword. rewrite Ho, Hd. destruct op; [reflexivity| |]; destruct (dmem k kws); reflexivity.
  - exfalso. destruct X as (x & j & En & _). exact (ends_nowhere _ _ _ _ _ J En Rd).
Qed.
Print Assumptions C105_own_member.
Theorem C105_root : forall E r op path gone c, JTree.path_empty path = true -> schema_patch E r op path gone c = (Exn EAttribute, c).
Proof. intros E r op path gone c H. unfold schema_patch. now rewrite H. Qed.
Print Assumptions C105_root.

(** Claim: once remove has returned, the schema evaluates as the document that
    it reads back as.  False: a removed keyword no longer shows in the value,
    and is evaluated as before. *)
Theorem C105_remove_keyword_refuted :
  exists E c m u v r g, worked E c /\ part_at E c m u v r [] r /\ jwf v = true /\
    schema_patch E r PatchRemove (PStr (lit "/properties")) [] c = (Ok g, c) /\
    schema_value 9 (shown g (c_objs c)) r = Some (obj [("$id", text "http://a/x"); ("$defs", obj [("y", obj [("type", text "string")])])]) /\
    says c (obj [("p", text "a")]) = Some false.
Proof.
  exists E102, cat102, (Some META), (Some (e_uuid E102 0)), cabinet, 0, [(0, lit "properties")]. destruct cabinet_part as [A [B _]]. split; [exact A|]. split; [split; [exact B|constructor]|].
  split; [vm_compute; reflexivity|]. split; [|split; vm_compute; reflexivity].
  assert (X : fst (schema_patch E102 0 PatchRemove (PStr (lit "/properties")) [] cat102) = Ok [(0, lit "properties")]) by (vm_compute; reflexivity).
  destruct (schema_patch E102 0 PatchRemove (PStr (lit "/properties")) [] cat102) as [y c'] eqn:H. cbn [fst] in X. subst y. f_equal.
  assert (MP : mk_pointer [PStr (lit "/properties")] = Ok ([] ++ [lit "properties"])) by (vm_compute; reflexivity).
  rewrite (patch_walk _ _ _ _ _ _ _ MP) in H. cbn [spot_walk from_spot] in H. pose proof (keyword_same PatchRemove [] 0 (lit "properties") (nth_error (c_objs cat102) 0) cat102) as Z. rewrite H in Z. exact Z.
Qed.
Print Assumptions C105_remove_keyword_refuted.

(** Each operation on [cabinet], from the root and from an inner schema. *)
Example C105_case :
  worked E102 cat102 /\ part_at E102 cat102 (Some META) (Some (e_uuid E102 0)) cabinet 0 [lit "properties"; lit "p"] 2 /\
  (let r := schema_patch E102 2 (PatchAdd (obj [("type", text "string")])) (PStr (lit "/allOf/-")) [] cat102 in
   fst r = Ok [] /\ says cat102 (obj [("p", int 1)]) = Some true /\ says (snd r) (obj [("p", int 1)]) = Some false) /\
  (let r := schema_patch E102 0 (PatchReplace (JBool false)) (PStr (lit "/properties/p/allOf/0")) [] cat102 in
   fst r = Ok [] /\ says (snd r) (obj [("p", int 1)]) = Some false /\ says (snd r) (obj [("q", int 1)]) = Some true) /\
  (let r := schema_patch E102 0 PatchRemove (PStr (lit "/properties/p/allOf/-1")) [] cat102 in
   fst r = Ok [] /\ says (snd r) (obj [("p", text "a")]) = Some true /\
   schema_value 9 (c_objs (snd r)) 2 = Some (obj [("allOf", JArr [JBool true])])) /\
  fst (schema_patch E102 0 PatchRemove (PStr (lit "/properties/p/allOf/x/y")) [] cat102) = Exn EValue /\
  fst (schema_patch E102 0 PatchRemove (PStr (lit "/properties/z/allOf")) [] cat102) = Exn EJSON /\
  fst (schema_patch E102 0 (PatchAdd (JBool true)) (PStr (lit "/not")) [] cat102) = Exn EAttribute.
Proof.
  destruct cabinet_part as [A B]. split; [exact A|]. split; [exact B|]. cbv zeta. split; [split; [vm_compute; reflexivity|split; vm_compute; reflexivity]|].
  split; [split; [vm_compute; reflexivity|split; vm_compute; reflexivity]|]. split; [split; [vm_compute; reflexivity|split; vm_compute; reflexivity]|].
  split; [vm_compute; reflexivity|]. split; vm_compute; reflexivity.
Qed.
(** After keywords have been crossed out a patch that returns does what it
    would have done before, so that the theorems above apply to it as well. *)
Lemma show_nth gone objs : forall i s, nth_error (show_from gone s objs) i = option_map (show_one gone (s + i)) (nth_error objs i).
Proof.
  induction objs as [|o r IH]; intros i s; [now destruct i|]. destruct i as [|i]; cbn [show_from nth_error]; [now rewrite Nat.add_0_r|]. rewrite IH. now replace (S s + i) with (s + S i) by lia.
Qed.
Lemma dget_filter {A} (f : pystr -> bool) k (m : list (pystr * A)) x : dget k (filter (fun kk => f (fst kk)) m) = Some x -> dget k m = Some x.
Proof.
  induction m as [|[k' y] m IH]; cbn [filter fst]; [discriminate|]. cbn [dget]. destruct (f k') eqn:F; cbn [dget]; destruct (str_eqb_spec k k') as [->|N]; auto.
  intro H. exfalso. clear IH. induction m as [|[k y'] m IH]; [discriminate H|]. cbn [filter fst] in H. destruct (f k) eqn:F'; [|now apply IH]. cbn [dget] in H. destruct (str_eqb_spec k' k) as [<-|N]; [congruence|now apply IH].
Qed.
Lemma shown_child gone objs n k n' : spot_child (shown gone objs) n k = Ok n' -> spot_child objs n k = Ok n'.
Proof.
  destruct n as [s|s key q j]; [|auto]. cbn [spot_child]. unfold shown. rewrite show_nth. destruct (nth_error objs s) as [o|]; [|discriminate]. cbn [option_map]. unfold show_one.
  destruct (so_data o) as [b|kws] eqn:D; [rewrite D; discriminate|]. cbn [with_data so_data]. destruct (dget k (filter _ kws)) as [kw|] eqn:G; [|discriminate].
  apply (dget_filter (fun x => negb (is_gone gone (0 + s) x))) in G. now rewrite G.
Qed.
Lemma shown_walk gone objs p : forall n n', spot_walk (shown gone objs) n p = Ok n' -> spot_walk objs n p = Ok n'.
Proof.
  induction p as [|k p IH]; intros n n' H; [exact H|]. cbn [spot_walk] in *. destruct (spot_child (shown gone objs) n k) as [m| |] eqn:C; try discriminate H. rewrite (shown_child _ _ _ _ _ C). exact (IH _ _ H).
Qed.
Theorem C105_again : forall E r op path gone c g c', schema_patch E r op path gone c = (Ok g, c') ->
  exists g', schema_patch E r op path [] c = (Ok g', c') /\ g = g' ++ gone /\ (forall s k, In (s, k) g' -> ~ In (s, k) gone).
Proof.
  intros E r op path gone c g c' H. unfold schema_patch in *. destruct (JTree.path_empty path); [discriminate H|].
  apply bind_ok in H as (p & c1 & H1 & H). apply lift_ok in H1 as [H1 <-]. unfold bindM at 1. rewrite H1. cbn [lift].
  apply bind_ok in H as (objs & c1 & H2 & H). apply read_ok in H2 as [Ho <-]. subst objs. unfold bindM at 1, read at 1. rewrite shown_nil.
  apply bind_ok in H as (n & c1 & H2 & H). apply lift_ok in H2 as [H2 <-]. apply as_json_ok in H2. pose proof (shown_walk _ _ _ _ _ H2) as H3. unfold bindM at 1. rewrite H3. cbn [JTree.as_json_error lift]. cbv zeta in *.
  destruct n as [s|s key q j].
  - unfold patch_keyword in *. unfold shown in H. rewrite show_nth in H. destruct (nth_error (c_objs c) s) as [o|]; [|discriminate H]. cbn [option_map] in H. unfold show_one in H.
    destruct (so_data o) as [b|kws] eqn:D; [rewrite D in H; discriminate H|]. cbn [with_data so_data] in H. destruct op as [a| |a]; [discriminate H| |destruct (dmem _ (filter _ kws)); discriminate H].
    destruct (dmem (last p []) (filter _ kws)) eqn:M; [|discriminate H]. apply ret_ok in H as [<- <-]. apply dmem_In in M. apply in_map_iff in M as ([k x] & Ek & I). cbn [fst] in Ek. subst k. apply filter_In in I as [I G].
    assert (D' : dmem (last p []) kws = true) by (apply dmem_In; exact (in_map fst _ _ I)). rewrite D'. exists [(s, last p [])]. split; [reflexivity|]. split; [reflexivity|].
    intros s' k' [X|[]] Q. injection X as <- <-. cbn [fst] in G. apply negb_true_iff in G. unfold is_gone in G. assert (T : existsb (fun g => Nat.eqb (fst g) (0 + s) && str_eqb (snd g) (last p [])) gone = true) by (apply existsb_exists; exists (s, last p []); split; [exact Q|]; cbn [fst snd]; rewrite Nat.eqb_refl; cbn [andb]; now destruct (str_eqb_spec (last p []) (last p []))).
    cbn [Nat.add] in *. congruence.
  - apply bind_ok in H as (e & c1 & He & H). apply lift_ok in He as [He <-]. apply bind_ok in H as (y & c1 & Ha & H). apply ret_ok in H as [<- <-]. exists []. split; [|split; [reflexivity|intros ? ? []]].
    unfold bindM at 1. rewrite He. cbn [lift]. unfold bindM. rewrite Ha. reflexivity.
Qed.
Print Assumptions C105_again.
(** Two removals: the first member is gone for the second. *)
Example C105_again_case :
  fst (schema_patch E102 0 PatchRemove (PStr (lit "/$defs")) [(0, lit "properties")] cat102) = Ok [(0, lit "$defs"); (0, lit "properties")] /\
  fst (schema_patch E102 0 PatchRemove (PStr (lit "/properties")) [(0, lit "properties")] cat102) = Exn EJSON /\
  fst (schema_patch E102 0 PatchRemove (PStr (lit "/properties/p")) [(0, lit "properties")] cat102) = Exn EJSON.
Proof. split; [vm_compute; reflexivity|]. split; vm_compute; reflexivity. Qed.
