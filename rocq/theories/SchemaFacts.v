(** Basic facts about result trees, the dynamic scope and the loops of keyword
    evaluation. *)
From Coq Require Import Permutation.
From Verif Require Export SpecSchema JsonFacts.
From Verif Require Import DepsFacts.
Open Scope nat_scope.

(** ** Induction over result trees. *)
Lemma rnode_induction (P : rnode -> Prop) :
  (forall n, Forall (fun kc => P (snd kc)) (r_children n) -> P n) -> forall n, P n.
Proof.
  intro H. fix IH 1. intros [k p rp s ip v a d an er rf cs]. apply H. cbn [r_children].
  induction cs as [|[ck c] cs IHcs]; constructor; [apply IH|exact IHcs].
Qed.

(** ** Collecting. *)
Definition own_annotation (inst : option path) (key : option pystr) (n : rnode) : list json :=
  if negb (is_null (r_annot n))
     && match key with None => true | Some k => opt_str_eqb k (r_key n) end
     && match inst with None => true | Some p => strs_eqb p (r_inst n) end
  then [r_annot n] else [].

Lemma collect_annotations_eq inst key n :
  collect_annotations inst key n =
  if r_valid n && negb (r_discard n) then
    own_annotation inst key n ++ flat_map (fun kc => collect_annotations inst key (snd kc)) (r_children n)
  else [].
Proof.
  destruct n as [k p rp s ip v a d an er rf cs]. cbn [r_children r_valid r_discard]. unfold own_annotation. cbn [collect_annotations r_valid r_discard r_annot r_key r_inst r_children].
  destruct (v && negb d); [|reflexivity]. f_equal.
  induction cs as [|[ck c] cs IH]; [reflexivity|]. cbn [flat_map snd]. now rewrite <- IH.
Qed.

(** [n] and everything below it concerns the instance at [p] or deeper. *)
Fixpoint under (p : path) (n : rnode) {struct n} : Prop :=
  (exists q, r_inst n = p ++ q) /\
  (fix go (cs : list ((pystr * path) * rnode)) : Prop :=
     match cs with [] => True | (_, c) :: r => under p c /\ go r end) (r_children n).

Lemma under_eq p n :
  under p n <-> (exists q, r_inst n = p ++ q) /\ Forall (fun kc => under p (snd kc)) (r_children n).
Proof.
  destruct n as [k pp rp s ip v a d an er rf cs]. cbn [under r_inst r_children].
  split; intros [H1 H2]; (split; [exact H1|]).
  - induction cs as [|[ck c] cs IH]; constructor; [apply H2|apply IH, H2].
  - induction H2 as [|[ck c] cs Hc Hcs IH]; [exact I|]. now split.
Qed.

Lemma under_deeper p q n : under (p ++ q) n -> under p n.
Proof.
  revert p q. induction n as [n IH] using rnode_induction. intros p q. rewrite !under_eq. intros [[r Hr] H].
  split; [exists (q ++ r); now rewrite Hr, app_assoc|].
  rewrite Forall_forall in *. intros kc Hk. exact (IH kc Hk p q (H kc Hk)).
Qed.

Lemma strs_eqb_longer p q r : q <> [] -> strs_eqb p ((p ++ q) ++ r) = false.
Proof.
  intro Hq. destruct (strs_eqb_spec p ((p ++ q) ++ r)) as [E|]; [|reflexivity].
  apply (f_equal (@length pystr)) in E. rewrite !app_length in E. destruct q; [congruence|cbn in E; lia].
Qed.

Lemma collect_deeper p q key n : q <> [] -> under (p ++ q) n -> collect_annotations (Some p) key n = [].
Proof.
  intro Hq. induction n as [n IH] using rnode_induction. intro H. rewrite under_eq in H. destruct H as [[r Hr] H].
  rewrite collect_annotations_eq. destruct (r_valid n && negb (r_discard n)); [|reflexivity].
  replace (own_annotation (Some p) key n) with (@nil json).
  2: { unfold own_annotation. rewrite Hr, strs_eqb_longer by exact Hq. now rewrite andb_false_r. }
  cbn [app]. induction (r_children n) as [|kc cs IHcs]; [reflexivity|].
  inversion H; inversion IH; subst. cbn [flat_map]. rewrite IHcs by assumption.
  now rewrite H6.
Qed.

(** ** Children. *)
Lemma ckey_eqb_spec a b : reflect (a = b) (ckey_eqb a b).
Proof.
  destruct a as [k p], b as [k' p']. unfold ckey_eqb. cbn [fst snd].
  destruct (str_eqb_spec k k'); cbn [andb]; [|right; congruence].
  destruct (strs_eqb_spec p p'); [left|right]; congruence.
Qed.

Lemma cget_In k m v : cget k m = Some v -> In (k, v) m.
Proof.
  induction m as [|[k' v'] m IH]; cbn [cget]; [discriminate|].
  destruct (ckey_eqb_spec k k'); [intros [= ->]; left; congruence|right; auto].
Qed.

Lemma cget_None k m : cget k m = None <-> ~ In k (map fst m).
Proof.
  induction m as [|[k' v'] m IH]; cbn [cget map fst]; [tauto|].
  destruct (ckey_eqb_spec k k') as [->|N]; [split; [discriminate|intro H; destruct H; now left]|].
  rewrite IH. split; [intros H [E|E]; [congruence|auto]|intros H E; apply H; now right].
Qed.

Lemma In_cget k m v : NoDup (map fst m) -> In (k, v) m -> cget k m = Some v.
Proof.
  induction m as [|[k' v'] m IH]; cbn [cget map fst]; intros N H; [destruct H|].
  inversion N; subst. destruct H as [H|H].
  - injection H as -> ->. destruct (ckey_eqb_spec k k); congruence.
  - destruct (ckey_eqb_spec k k') as [->|]; [|auto].
    destruct H2. change k' with (fst (k', v)). now apply in_map.
Qed.

Lemma cget_app k m1 m2 : cget k (m1 ++ m2) = match cget k m1 with Some v => Some v | None => cget k m2 end.
Proof.
  induction m1 as [|[k' v'] m IH]; cbn [cget app]; [reflexivity|]. now destruct (ckey_eqb_spec k k').
Qed.

Lemma cput_new k v m : cget k m = None -> cput k v m = m ++ [(k, v)].
Proof.
  induction m as [|[k' v'] m IH]; cbn [cget cput app]; [reflexivity|].
  destruct (ckey_eqb_spec k k'); [discriminate|]. intro H. now rewrite IH.
Qed.

Lemma cput_app_new k v m1 m2 : cget k m1 = None -> cput k v (m1 ++ m2) = m1 ++ cput k v m2.
Proof.
  induction m1 as [|[k' v'] m IH]; cbn [cget cput app]; [reflexivity|].
  destruct (ckey_eqb_spec k k'); [discriminate|]. intro H. now rewrite IH.
Qed.

Lemma cput_put k v w m : cput k v (cput k w m) = cput k v m.
Proof.
  induction m as [|[k' v'] m IH]; cbn [cput].
  - destruct (ckey_eqb_spec k k); [reflexivity|congruence].
  - destruct (ckey_eqb_spec k k') as [->|N]; cbn [cput].
    + destruct (ckey_eqb_spec k' k'); [reflexivity|congruence].
    + destruct (ckey_eqb_spec k k'); [congruence|]. now rewrite IH.
Qed.

Lemma cdrop_put_new k v m : cget k m = None -> cdrop k (cput k v m) = m.
Proof.
  induction m as [|[k' v'] m IH]; cbn [cget cput cdrop].
  - intros _. destruct (ckey_eqb_spec k k); [reflexivity|congruence].
  - destruct (ckey_eqb_spec k k'); [discriminate|]. intro H. cbn [cdrop].
    destruct (ckey_eqb_spec k k'); [congruence|]. now rewrite IH.
Qed.

Lemma cget_put_same k v m : cget k (cput k v m) = Some v.
Proof.
  induction m as [|[k' v'] m IH]; cbn [cput cget].
  - destruct (ckey_eqb_spec k k); [reflexivity|congruence].
  - destruct (ckey_eqb_spec k k') as [->|N]; cbn [cget].
    + destruct (ckey_eqb_spec k' k'); [reflexivity|congruence].
    + destruct (ckey_eqb_spec k k'); [congruence|]. exact IH.
Qed.

Lemma cget_put_other k k' v m : k <> k' -> cget k (cput k' v m) = cget k m.
Proof.
  intro N. induction m as [|[k1 v1] m IH]; cbn [cput cget].
  - destruct (ckey_eqb_spec k k'); [congruence|reflexivity].
  - destruct (ckey_eqb_spec k' k1) as [->|]; cbn [cget].
    + destruct (ckey_eqb_spec k k1); [congruence|reflexivity].
    + now rewrite IH.
Qed.

Lemma cput_keys k v m : map fst (cput k v m) = if existsb (ckey_eqb k) (map fst m) then map fst m else map fst m ++ [k].
Proof.
  induction m as [|[k1 v1] m IH]; cbn [cput map fst existsb]; [reflexivity|].
  destruct (ckey_eqb_spec k k1) as [->|]; cbn [map fst orb]; [reflexivity|]. rewrite IH. now destruct (existsb _ _).
Qed.

Lemma Forall_cput (P : (pystr * path) * rnode -> Prop) k v m : P (k, v) -> Forall P m -> Forall P (cput k v m).
Proof.
  intros Hv H. induction H as [|[k1 v1] m H1 H2 IH]; cbn [cput]; [now constructor|].
  destruct (ckey_eqb_spec k k1) as [->|]; constructor; auto.
Qed.

(** ** The dynamic scope.  The code meets a schema several times in a row. *)
Inductive stutter : list sid -> list sid -> Prop :=
| st_nil : stutter [] []
| st_cons x a b : stutter a b -> stutter (x :: a) (x :: b)
| st_dup x a b : stutter (x :: a) b -> stutter (x :: x :: a) b.

Lemma dynamic_target_dup W f x a : forall checked cur t,
  dynamic_target W f (x :: x :: a) checked cur = Ok t -> dynamic_target W f (x :: a) checked cur = Ok t.
Proof.
  intros checked cur t. cbn [dynamic_target]. destruct (w_base W x) as [b|]; [|auto].
  destruct (mem_str b checked) eqn:E; [auto|].
  assert (M : mem_str b (b :: checked) = true) by (cbn; now rewrite str_eqb_refl).
  destruct (w_anchor W b f) as [t'|].
  - destruct (has_dynamic_anchor W t' f); cbn [bind]; try discriminate. now rewrite M.
  - now rewrite M.
Qed.

Lemma dynamic_target_stutter W f a b : stutter a b -> forall checked cur t,
  dynamic_target W f a checked cur = Ok t -> dynamic_target W f b checked cur = Ok t.
Proof.
  induction 1 as [|x a b H IH|x a b H IH]; intros checked cur t; [auto| |].
  - cbn [dynamic_target]. destruct (w_base W x) as [u|]; [|apply IH]. destruct (mem_str u checked); [apply IH|].
    destruct (w_anchor W u f) as [t'|]; [|apply IH]. destruct (has_dynamic_anchor W t' f); cbn [bind]; try discriminate. apply IH.
  - intro E. apply IH. now apply dynamic_target_dup.
Qed.

Lemma recursive_target_stutter W a b : stutter a b -> forall cur t,
  recursive_target W a cur = Ok t -> recursive_target W b cur = Ok t.
Proof.
  induction 1 as [|x a b H IH|x a b H IH]; intros cur t; [auto| |].
  - cbn [recursive_target]. destruct (has_recursive_anchor W x); cbn [bind]; try discriminate. apply IH.
  - intro E. apply IH. revert E. cbn [recursive_target]. destruct (has_recursive_anchor W x) as [y| |]; cbn [bind]; try discriminate.
    now destruct y.
Qed.

(** The rule the code follows for dynamic references: like [outermost], but a
    resource counts at the innermost place where it occurs. *)
Fixpoint visited_choice (W : world) (f : pystr) (scope : list sid) (checked : list pystr) (cur : sid) : sid :=
  match scope with
  | [] => cur
  | s :: r =>
      match w_base W s with
      | Some b => if mem_str b checked then visited_choice W f r checked cur
                  else visited_choice W f r (b :: checked) (match anchored W f s with Some t => t | None => cur end)
      | None => visited_choice W f r checked cur
      end
  end.
Definition code_choice (W : world) (f : pystr) (scope : list sid) (static : sid) : sid := visited_choice W f scope [] static.

Lemma has_dynamic_anchor_declares W t f y : has_dynamic_anchor W t f = Ok y -> declares_dynamic W t f = y.
Proof.
  unfold has_dynamic_anchor, declares_dynamic. destruct (w_schema W t) as [|kws]; [discriminate|].
  intros [= <-]. destruct (dget _ kws) as [k|]; [|reflexivity]. destruct (kw_json k) as [v| | |]; try reflexivity.
  destruct v as [| | |s| |]; try reflexivity. destruct s; reflexivity.
Qed.

Lemma dynamic_target_choice W f scope : forall checked cur t,
  dynamic_target W f scope checked cur = Ok t -> visited_choice W f scope checked cur = t.
Proof.
  induction scope as [|s r IH]; intros checked cur t; cbn [dynamic_target visited_choice]; [congruence|].
  unfold anchored. destruct (w_base W s) as [b|]; cbn [obind]; [|apply IH]. destruct (mem_str b checked); [apply IH|].
  destruct (w_anchor W b f) as [t'|]; cbn [obind]; [|apply IH].
  destruct (has_dynamic_anchor W t' f) as [y| |] eqn:E; cbn [bind]; try discriminate.
  rewrite (has_dynamic_anchor_declares _ _ _ _ E). destruct y; apply IH.
Qed.

Lemma has_recursive_anchor_declares W t y : has_recursive_anchor W t = Ok y -> declares_recursive W t = y.
Proof.
  unfold has_recursive_anchor, declares_recursive. destruct (w_schema W t) as [|kws]; [discriminate|].
  intros [= <-]. destruct (dget _ kws) as [k|]; [|reflexivity]. destruct (kw_json k) as [v| | |]; try reflexivity.
  destruct v as [|[]| | | |]; reflexivity.
Qed.

Lemma recursive_target_choice W scope : forall cur t,
  recursive_target W scope cur = Ok t ->
  t = match outermost (fun s => if declares_recursive W s then Some s else None) scope with Some t => t | None => cur end.
Proof.
  induction scope as [|s r IH]; intros cur t; cbn [recursive_target outermost]; [congruence|].
  destruct (has_recursive_anchor W s) as [y| |] eqn:E; cbn [bind]; try discriminate.
  rewrite (has_recursive_anchor_declares _ _ _ E). intro H. apply IH in H. rewrite H.
  destruct (outermost _ r); [reflexivity|]. now destruct y.
Qed.

(** ** Failing with a message that has to be written first. *)
Lemma tell_ok b m r r' : tell b m r = Ok r' -> exists t, r' = check b t r.
Proof.
  unfold tell. destruct b; [intros [= <-]; exists []; reflexivity|]. destruct m as [t| |]; cbn [bind]; try discriminate. intros [= <-]. exists t. reflexivity.
Qed.
Lemma limit_tells W bad x v before after r r' : limit W bad x v before after r = Ok r' ->
  exists y t, num_of v = Some y /\ r' = check (negb (bad x y)) t r.
Proof. unfold limit. destruct (num_of v) as [y|]; [|discriminate]. intro H. apply tell_ok in H. destruct H as [t ->]. eauto. Qed.

Lemma all_texts_fuel (l : list (res pystr)) : Forall (fun t => t <> Fuel) l -> Text.all_texts l <> Fuel.
Proof.
  induction 1 as [|t l Ht _ IH]; cbn [Text.all_texts]; [discriminate|]. destruct t; cbn [bind]; [|discriminate|congruence].
  destruct (Text.all_texts l); cbn [bind]; [discriminate|discriminate|congruence].
Qed.
Lemma dumps_fuel F v : Text.json_dumps F v <> Fuel.
Proof.
  induction v as [|[]|[]|s|l IH|m IH] using json_induction; cbn [Text.json_dumps]; try discriminate.
  - assert (X : Text.all_texts (map (Text.json_dumps F) l) <> Fuel) by (apply all_texts_fuel; now apply Forall_map).
    destruct (Text.all_texts _); cbn [bind]; [discriminate|discriminate|congruence].
  - assert (X : Text.all_texts (map (fun kv => let* t := Text.json_dumps F (snd kv) in Ok (Text.string_text (fst kv) ++ 58%N :: 32%N :: t)) m) <> Fuel).
    { apply all_texts_fuel, Forall_map. revert IH. apply Forall_impl. intros [k v] Hv. cbn [snd fst] in *. destruct (Text.json_dumps F v); cbn [bind]; [discriminate|discriminate|congruence]. }
    destruct (Text.all_texts _); cbn [bind]; [discriminate|discriminate|congruence].
Qed.
Lemma said_fuel W before v after : said W before v after <> Fuel.
Proof.
  unfold said. destruct v; try discriminate. pose proof (dumps_fuel (writer W) v) as D. destruct (Text.json_dumps _ v); cbn [bind]; [discriminate|discriminate|congruence].
Qed.
Lemma tell_fuel b m r : m <> Fuel -> tell b m r <> Fuel.
Proof. unfold tell. intro H. destruct b; [discriminate|]. destruct m; cbn [bind]; [discriminate|discriminate|congruence]. Qed.
Lemma missing_fuel W m : repr_missing W m <> Fuel.
Proof.
  induction m as [|[name l] m IH]; cbn [repr_missing]; [discriminate|].
  assert (X : Text.all_texts (map (Repr.repr_node (writer W)) l) <> Fuel).
  { apply all_texts_fuel, Forall_forall. intros t Ht. apply in_map_iff in Ht. destruct Ht as (v & <- & _). unfold Repr.repr_node.
    pose proof (dumps_fuel (writer W) v) as D. destruct (Text.json_dumps _ v); cbn [bind]; [discriminate|discriminate|congruence]. }
  destruct (Text.all_texts _); cbn [bind]; [|discriminate|congruence]. destruct (repr_missing W m); cbn [bind]; [discriminate|discriminate|congruence].
Qed.

(** Texts depend on how floats are written, and on nothing else. *)
Section Ext.
Variables F F' : Text.floats.
Hypothesis HF : forall m e, Text.f_repr F m e = Text.f_repr F' m e.
Lemma dumps_ext v : Text.json_dumps F v = Text.json_dumps F' v.
Proof.
  induction v as [|[]|[]|s|l IH|m IH] using json_induction; cbn [Text.json_dumps]; try reflexivity.
  - now rewrite HF.
  - replace (map (Text.json_dumps F') l) with (map (Text.json_dumps F) l); [reflexivity|]. apply map_ext_Forall. exact IH.
  - match goal with |- (let* _ := Text.all_texts ?a in _) = (let* _ := Text.all_texts ?b in _) => replace b with a; [reflexivity|] end.
    apply map_ext_Forall. revert IH. apply Forall_impl. intros [k v] Hv. cbn [snd fst] in *. now rewrite Hv.
Qed.
Lemma repr_value_ext v : Repr.repr_value F v = Repr.repr_value F' v.
Proof.
  induction v as [|[]|[]|s|l IH|m IH] using json_induction; cbn [Repr.repr_value]; try reflexivity.
  - apply HF.
  - f_equal. now apply map_ext_Forall.
  - f_equal. apply map_ext_Forall. revert IH. apply Forall_impl. intros [k v] Hv. cbn [snd fst] in *. now rewrite Hv.
Qed.
Lemma repr_node_ext v : Repr.repr_node F v = Repr.repr_node F' v.
Proof. unfold Repr.repr_node. now rewrite dumps_ext, repr_value_ext. Qed.
End Ext.
