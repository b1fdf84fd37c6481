(** Alike worlds judge alike. *)
From Coq Require Import List.
From Verif Require Export SpecAlike SchemaCode.
Import ListNotations.
Open Scope nat_scope.

Definition same_set {A} (l l' : list A) : Prop := forall a, In a l <-> In a l'.
Definition oeq (o o' : outcome) : Prop :=
  o_ok o = o_ok o' /\ same_set (o_names o) (o_names o') /\ same_set (o_places o) (o_places o') /\ same_set (o_found o) (o_found o').
Definition orel {A} (R : A -> A -> Prop) (a b : option A) : Prop :=
  match a, b with Some x, Some y => R x y | None, None => True | _, _ => False end.

Lemma oeq_refl o : oeq o o.
Proof. repeat split; auto. Qed.
Lemma oeq_sym o o' : oeq o o' -> oeq o' o.
Proof. intros (A & B & C & D). split; [auto|]. repeat split; intro; (apply B || apply C || apply D); auto. Qed.
Lemma orel_refl a : orel oeq a a.
Proof. destruct a; cbn; auto using oeq_refl. Qed.
Lemma orel_sym a b : orel oeq a b -> orel oeq b a.
Proof. destruct a, b; cbn; auto using oeq_sym. Qed.
Lemma orel_bind {A B} (R : A -> A -> Prop) (S : B -> B -> Prop) a b f g : orel R a b -> (forall x y, R x y -> orel S (f x) (g y)) -> orel S (obind a f) (obind b g).
Proof. destruct a, b; cbn; intros H F; try contradiction; auto. Qed.
Lemma orel_bind_same {A B} (S : B -> B -> Prop) (a : option A) f g : (forall x, orel S (f x) (g x)) -> orel S (obind a f) (obind a g).
Proof. destruct a; cbn; auto. Qed.
Lemma orel_all {A B} (R : A -> A -> Prop) (f g : B -> option A) l : (forall x, In x l -> orel R (f x) (g x)) ->
  orel (Forall2 R) (all_some (map f l)) (all_some (map g l)).
Proof.
  induction l as [|b l IH]; intro H; cbn [map all_some]; [cbn; constructor|]. pose proof (H b (or_introl eq_refl)) as X.
  assert (Y := IH (fun x Hx => H x (or_intror Hx))). destruct (f b), (g b); cbn in X; try contradiction; [|exact I].
  destruct (all_some (map f l)), (all_some (map g l)); cbn in *; try contradiction; [|exact I]. now constructor.
Qed.

Lemma all_accept_eq os os' : Forall2 oeq os os' -> all_accept os = all_accept os'.
Proof. induction 1 as [|a b l l' H F IH]; [reflexivity|]. cbn [all_accept forallb]. rewrite (proj1 H). unfold all_accept in IH. now rewrite IH. Qed.
Lemma exists_eq os os' : Forall2 oeq os os' -> existsb o_ok os = existsb o_ok os'.
Proof. induction 1 as [|a b l l' H F IH]; [reflexivity|]. cbn [existsb]. now rewrite (proj1 H), IH. Qed.
Lemma count_eq os os' : Forall2 oeq os os' -> count os = count os'.
Proof. unfold count. induction 1 as [|a b l l' H F IH]; [reflexivity|]. cbn [filter]. rewrite (proj1 H). destruct (o_ok b); cbn [length]; now rewrite IH. Qed.
Lemma accepted_eq os os' : Forall2 oeq os os' -> forall k, accepted k os = accepted k os'.
Proof. induction 1 as [|a b l l' H F IH]; intro k; [reflexivity|]. cbn [accepted]. rewrite (proj1 H). destruct (o_ok b); now rewrite IH. Qed.

Lemma gather_In b os :
  (forall name, In name (o_names (gather b os)) <-> exists o, In o os /\ o_ok o = true /\ In name (o_names o)) /\
  (forall n, In n (o_places (gather b os)) <-> exists o, In o os /\ o_ok o = true /\ In n (o_places o)) /\
  (forall n, In n (o_found (gather b os)) <-> exists o, In o os /\ o_ok o = true /\ In n (o_found o)).
Proof.
  unfold gather. cbn [o_names o_places o_found].
  split; [|split]; intro a; rewrite in_flat_map; split; intros (o & H); exists o; rewrite filter_In in *; tauto.
Qed.
(** Each accepting outcome on one side has its like on the other. *)
Lemma gather_like b os os' :
  (forall o, In o os -> o_ok o = true -> oeq o (plain true) \/ exists o', In o' os' /\ oeq o o') ->
  (forall o, In o os' -> o_ok o = true -> oeq o (plain true) \/ exists o', In o' os /\ oeq o o') -> oeq (gather b os) (gather b os').
Proof.
  intros H H'. destruct (gather_In b os) as (A & B & C), (gather_In b os') as (A' & B' & C'). split; [reflexivity|].
  assert (G : forall (T : Type) (proj : outcome -> list T), proj (plain true) = [] -> (forall o o', oeq o o' -> same_set (proj o) (proj o')) ->
    forall l l', (forall o, In o l -> o_ok o = true -> oeq o (plain true) \/ exists o', In o' l' /\ oeq o o') ->
    forall a, (exists o, In o l /\ o_ok o = true /\ In a (proj o)) -> exists o, In o l' /\ o_ok o = true /\ In a (proj o)).
  { intros T proj Hn Hp l l' HL a (o & Ho & V & Ia). destruct (HL o Ho V) as [E|(o' & Ho' & E)].
    - apply (Hp _ _ E) in Ia. rewrite Hn in Ia. destruct Ia.
    - exists o'. split; [exact Ho'|]. split; [now rewrite <- (proj1 E)|]. now apply (Hp _ _ E). }
  split; [|split]; intro a.
  - rewrite A, A'. split; apply (G _ o_names); auto; intros o o' E; apply E.
  - rewrite B, B'. split; apply (G _ o_places); auto; intros o o' E; apply E.
  - rewrite C, C'. split; apply (G _ o_found); auto; intros o o' E; apply E.
Qed.
Lemma Forall2_In_l {A B} (R : A -> B -> Prop) l l' a : Forall2 R l l' -> In a l -> exists b, In b l' /\ R a b.
Proof. induction 1 as [|x y l l' H F IH]; intros Ha; [destruct Ha|]. destruct Ha as [<-|Ha]; [exists y; split; [now left|exact H]|]. destruct (IH Ha) as (b & Hb & Hr). exists b. split; [now right|exact Hr]. Qed.
Lemma Forall2_In_r {A B} (R : A -> B -> Prop) l l' b : Forall2 R l l' -> In b l' -> exists a, In a l /\ R a b.
Proof. induction 1 as [|x y l l' H F IH]; intros Ha; [destruct Ha|]. destruct Ha as [<-|Ha]; [exists x; split; [now left|exact H]|]. destruct (IH Ha) as (a & Hb & Hr). exists a. split; [now right|exact Hr]. Qed.
Lemma gather_eq b b' os os' : b = b' -> Forall2 oeq os os' -> oeq (gather b os) (gather b' os').
Proof.
  intros <- F. apply gather_like; intros o Ho _; right.
  - exact (Forall2_In_l _ _ _ _ F Ho).
  - destruct (Forall2_In_r _ _ _ _ F Ho) as (o' & H & E). exists o'. split; [exact H|now apply oeq_sym].
Qed.
Lemma names_eq b names os os' : Forall2 oeq os os' -> oeq (mkO (all_accept os) names b []) (mkO (all_accept os') names b []).
Proof. intro F. rewrite (all_accept_eq _ _ F). apply oeq_refl. Qed.

(** Lists of outcomes with the same members, apart from trivial ones. *)
Definition covered (l l' : list (option outcome)) : Prop :=
  forall a, In a l -> orel oeq a (Some (plain true)) \/ exists b, In b l' /\ orel oeq a b.
Lemma all_some_None {A} (l : list (option A)) : all_some l = None <-> In None l.
Proof.
  induction l as [|[a|] l IH]; cbn [all_some In].
  - split; [discriminate|intros []].
  - destruct (all_some l) as [xs|]; split.
    + discriminate.
    + intros [H|H]; [discriminate|]. apply IH in H. discriminate.
    + intros _. right. now apply IH.
    + reflexivity.
  - split; auto.
Qed.
Lemma conclude_like l l' : covered l l' -> covered l' l -> orel oeq (conclude l) (conclude l').
Proof.
  intros H H'.
  assert (R : forall a b, covered a b -> existsb rejects a = true -> existsb rejects b = true).
  { clear. intros a b C E. apply existsb_exists in E. destruct E as ([o|] & Ho & E); [|discriminate]. cbn [rejects] in E.
    destruct (C _ Ho) as [X|([o'|] & Hb & X)]; cbn in X; try contradiction.
    - destruct X as (X & _). rewrite X in E. discriminate.
    - apply existsb_exists. exists (Some o'). split; [exact Hb|]. cbn [rejects]. now rewrite <- (proj1 X). }
  assert (N : forall a b, covered a b -> all_some a = None -> all_some b = None).
  { clear. intros a b C E. apply all_some_None in E. apply all_some_None. destruct (C _ E) as [X|([o'|] & Hb & X)]; cbn in X; try contradiction. exact Hb. }
  unfold conclude. destruct (existsb rejects l) eqn:E.
  - rewrite (R _ _ H E). apply orel_refl.
  - replace (existsb rejects l') with false; [|symmetry; apply not_true_is_false; intro X; rewrite (R _ _ H' X) in E; discriminate].
    destruct (all_some l) as [os|] eqn:A; [|rewrite (N _ _ H A); exact I].
    destruct (all_some l') as [os'|] eqn:A'; [|rewrite (N _ _ H' A') in A; discriminate]. cbn [orel].
    assert (G : forall l l' os os', all_some l = Some os -> all_some l' = Some os' -> covered l l' ->
                forall o, In o os -> o_ok o = true -> oeq o (plain true) \/ exists o', In o' os' /\ oeq o o').
    { clear. intros l l' os os' A A' C o Ho _. apply (all_some_In _ _ A) in Ho. destruct (C _ Ho) as [X|([o'|] & Hb & X)]; cbn in X; try contradiction; [now left|].
      right. exists o'. split; [|exact X]. now apply (all_some_In _ _ A'). }
    apply gather_like; [exact (G l l' os os' A A' H)|exact (G l' l os' os A' A H')].
Qed.

(** The same for outcomes that are all demanded. *)
Definition likes (os os' : list outcome) : Prop :=
  (forall o, In o os -> oeq o (plain true) \/ exists o', In o' os' /\ oeq o o') /\
  (forall o, In o os' -> oeq o (plain true) \/ exists o', In o' os /\ oeq o o').
Lemma all_like l l' : covered l l' -> covered l' l -> orel likes (all_some l) (all_some l').
Proof.
  intros H H'.
  assert (N : forall a b, covered a b -> all_some a = None -> all_some b = None).
  { clear. intros a b C E. apply all_some_None in E. apply all_some_None. destruct (C _ E) as [X|([o'|] & Hb & X)]; cbn in X; try contradiction. exact Hb. }
  assert (G : forall l l' os os', all_some l = Some os -> all_some l' = Some os' -> covered l l' ->
                forall o, In o os -> oeq o (plain true) \/ exists o', In o' os' /\ oeq o o').
  { clear. intros l l' os os' A A' C o Ho. apply (all_some_In _ _ A) in Ho. destruct (C _ Ho) as [X|([o'|] & Hb & X)]; cbn in X; try contradiction; [now left|].
    right. exists o'. split; [|exact X]. now apply (all_some_In _ _ A'). }
  destruct (all_some l) as [os|] eqn:A; [|rewrite (N _ _ H A); exact I].
  destruct (all_some l') as [os'|] eqn:A'; [|rewrite (N _ _ H' A') in A; discriminate]. cbn [orel]. split; [exact (G l l' os os' A A' H)|exact (G l' l os' os A' A H')].
Qed.
Lemma likes_accept os os' : likes os os' -> all_accept os = all_accept os'.
Proof.
  assert (G : forall a b, (forall o, In o a -> oeq o (plain true) \/ exists o', In o' b /\ oeq o o') -> all_accept b = true -> all_accept a = true).
  { clear. intros a b H E. unfold all_accept in *. rewrite forallb_forall in *. intros o Ho. destruct (H o Ho) as [X|(o' & Ho' & X)]; [exact (proj1 X)|].
    rewrite (proj1 X). auto. }
  intros [H H']. apply eq_true_iff_eq. split; eauto.
Qed.
Lemma likes_gather b os os' : likes os os' -> oeq (gather b os) (gather b os').
Proof. intros [H H']. apply gather_like; auto. Qed.
Lemma likes_app os os' us us' : likes os os' -> likes us us' -> likes (os ++ us) (os' ++ us').
Proof.
  intros [A A'] [B B']. split; intros o Ho; apply in_app_or in Ho; destruct Ho as [Ho|Ho].
  - destruct (A o Ho) as [X|(o' & X & Y)]; [now left|right]. exists o'. split; [apply in_or_app; now left|exact Y].
  - destruct (B o Ho) as [X|(o' & X & Y)]; [now left|right]. exists o'. split; [apply in_or_app; now right|exact Y].
  - destruct (A' o Ho) as [X|(o' & X & Y)]; [now left|right]. exists o'. split; [apply in_or_app; now left|exact Y].
  - destruct (B' o Ho) as [X|(o' & X & Y)]; [now left|right]. exists o'. split; [apply in_or_app; now right|exact Y].
Qed.
Lemma likes_total os os' us us' : likes os os' -> likes us us' -> oeq (gather (all_accept (os ++ us)) (os ++ us)) (gather (all_accept (os' ++ us')) (os' ++ us')).
Proof. intros A B. pose proof (likes_app _ _ _ _ A B) as C. rewrite (likes_accept _ _ C). now apply likes_gather. Qed.
Lemma all_or_none_eq os os' len : Forall2 oeq os os' -> all_or_none os len = all_or_none os' len.
Proof. intros []; reflexivity. Qed.

(** The neighbours that a keyword consults. *)
Definition asked (c : stdclass) : list pystr :=
  match c with
  | KThen | KElse => [lit "if"]
  | KItems => [lit "prefixItems"]
  | KAdditionalItems => [lit "items"]
  | KContains => [lit "minContains"; lit "maxContains"]
  | KMinContains | KMaxContains => [lit "contains"]
  | KAdditionalProperties => [lit "properties"; lit "patternProperties"]
  | KDynamicRef => [lit "$dynamicAnchor"]
  | KRecursiveRef => [lit "$recursiveAnchor"]
  | _ => []
  end.
Definition firm_class (c : stdclass) : bool := match c with KFormat => false | c => negb (inert_class c) end.
Definition asked_known (d : list stdclass) : bool :=
  forallb (fun c => forallb (fun key => match find_class d key with Some c' => firm_class c' | None => false end) (asked c)) d.
Lemma dialect_asks legacy d : dialect legacy d -> asked_known d = true.
Proof. destruct legacy; cbn [dialect]; [intros ->|intros [-> | ->]]; vm_compute; reflexivity. Qed.

Section Alike.
Variable W W' : world.
Variable d : list stdclass.
Variable legacy : bool.
Hypothesis Hd : dialect legacy d.
Hypothesis Hg : good_world d W.
Hypothesis Hg' : good_world d W'.
Hypothesis Ha : alike W W'.

Lemma alike_dget s kws kws' key c : w_schema W s = SObj kws -> w_schema W' s = SObj kws' ->
  find_class d key = Some c -> firm_class c = true -> dget key kws = dget key kws'.
Proof.
  intros Hs Hs' Hc Hf. pose proof (proj2 Ha s) as A. rewrite Hs, Hs' in A. cbn in A.
  destruct (Hg _ _ Hs) as [Nd G], (Hg' _ _ Hs') as [Nd' G'].
  assert (F : forall k, kw_class k = Std c -> inert k = false).
  { intros k E. unfold inert. rewrite E. destruct c; try discriminate Hf; reflexivity. }
  destruct (dget key kws) as [k|] eqn:D.
  - apply dget_In in D. destruct (G _ _ D) as (_ & E & _). rewrite Hc in E. apply (A key k (F k E)) in D. symmetry. now apply In_dget.
  - destruct (dget key kws') as [k|] eqn:D'; [|reflexivity]. apply dget_In in D'. destruct (G' _ _ D') as (_ & E & _). rewrite Hc in E.
    apply (A key k (F k E)) in D'. apply (In_dget _ _ _ Nd) in D'. congruence.
Qed.

Lemma asks c key : In c d -> In key (asked c) -> exists c', find_class d key = Some c' /\ firm_class c' = true.
Proof.
  intros Hc Hk. pose proof (dialect_asks _ _ Hd) as X. unfold asked_known in X. rewrite forallb_forall in X. specialize (X _ Hc). rewrite forallb_forall in X.
  specialize (X _ Hk). destruct (find_class d key) as [c'|]; [|discriminate]. eauto.
Qed.

Lemma alike_dynamic f t : In KDynamicRef d -> declares_dynamic W t f = declares_dynamic W' t f.
Proof.
  intro Hk. unfold declares_dynamic. pose proof (proj2 Ha t) as A. destruct (w_schema W t) as [b|kws] eqn:Hs, (w_schema W' t) as [b'|kws'] eqn:Hs'; cbn in A; try contradiction; auto.
  destruct (asks KDynamicRef (lit "$dynamicAnchor") Hk (or_introl eq_refl)) as (c & Hc & Hf). now rewrite (alike_dget t kws kws' _ c Hs Hs' Hc Hf).
Qed.
Lemma alike_recursive t : In KRecursiveRef d -> declares_recursive W t = declares_recursive W' t.
Proof.
  intro Hk. unfold declares_recursive. pose proof (proj2 Ha t) as A. destruct (w_schema W t) as [b|kws] eqn:Hs, (w_schema W' t) as [b'|kws'] eqn:Hs'; cbn in A; try contradiction; auto.
  destruct (asks KRecursiveRef (lit "$recursiveAnchor") Hk (or_introl eq_refl)) as (c & Hc & Hf). now rewrite (alike_dget t kws kws' _ c Hs Hs' Hc Hf).
Qed.
Lemma alike_visited f sc : In KDynamicRef d -> forall checked cur, visited_choice W f sc checked cur = visited_choice W' f sc checked cur.
Proof.
  intro Hk. destruct Ha as [(Hb & Han & _) _]. induction sc as [|s sc IH]; intros checked cur; [reflexivity|]. cbn [visited_choice]. unfold anchored.
  rewrite <- Hb. destruct (w_base W s) as [b|]; [|apply IH]. destruct (mem_str b checked); [apply IH|]. cbn [obind]. rewrite <- Han.
  destruct (w_anchor W b f) as [t|]; cbn [obind]; [|apply IH]. rewrite <- (alike_dynamic f t Hk). destruct (declares_dynamic W t f); apply IH.
Qed.
Lemma alike_choice f sc t : In KDynamicRef d -> code_choice W f sc t = code_choice W' f sc t.
Proof. intro Hk. apply alike_visited, Hk. Qed.
Lemma alike_recursive_choice sc t : In KRecursiveRef d -> recursive_choice W sc t = recursive_choice W' sc t.
Proof.
  intro Hk. unfold recursive_choice. rewrite <- (alike_recursive t Hk). destruct (declares_recursive W t); [|reflexivity].
  replace (outermost (fun s => if declares_recursive W' s then Some s else None) sc) with (outermost (fun s => if declares_recursive W s then Some s else None) sc); [reflexivity|].
  induction sc as [|s sc IH]; [reflexivity|]. cbn [outermost]. now rewrite IH, (alike_recursive s Hk).
Qed.

Lemma alike_matches patterns name : matches_any W patterns name = matches_any W' patterns name.
Proof. destruct Ha as [(_ & _ & Hr & _) _]. induction patterns as [|r rs IH]; [reflexivity|]. cbn [matches_any]. now rewrite Hr, IH. Qed.
Lemma alike_assertion k c x : assertion W k c x = assertion W' k c x.
Proof.
  destruct Ha as [(_ & _ & Hr & Hp & Hf) _]. destruct c; cbn [assertion]; try reflexivity.
  - destruct x; try reflexivity. destruct (limit_of _) as [m|]; [|reflexivity]. f_equal. unfold is_multiple.
    assert (D : forall n, dec_of W n = dec_of W' n) by (intros []; cbn; now rewrite ?Hp). now rewrite !D.
  - destruct x; try reflexivity. destruct (kw_json k) as [[]| | |]; try reflexivity. apply Hr.
  - destruct (kw_format k) as [ts|]; [|reflexivity]. destruct (kw_json k) as [[]| | |]; try reflexivity. now rewrite Hf.
Qed.

Section Kw.
Variable jd jd' : list sid -> sid -> json -> option outcome.
Hypothesis Hj : forall sc t x, orel oeq (jd sc t x) (jd' sc t x).
Notation J := (judge_std W (code_choice W) jd).
Notation J' := (judge_std W' (code_choice W') jd').

Lemma alike_all sc t l : orel (Forall2 oeq) (judge_all jd sc t l) (judge_all jd' sc t l).
Proof. apply orel_all. auto. Qed.
Lemma alike_members sc t todo : orel oeq (judge_members jd sc t todo) (judge_members jd' sc t todo).
Proof. apply (orel_bind _ _ _ _ _ _ (alike_all sc t (map snd todo))). intros os os' F. cbn. now apply names_eq. Qed.
Lemma alike_rest sc st t l : orel oeq (judge_rest jd sc st t l) (judge_rest jd' sc st t l).
Proof. apply (orel_bind _ _ _ _ _ _ (alike_all sc t (skipn st l))). intros os os' F. cbn. now apply names_eq. Qed.
Lemma alike_pairs sc ts l : orel oeq (judge_pairs jd sc ts l) (judge_pairs jd' sc ts l).
Proof. eapply orel_bind; [apply orel_all; auto|]. intros os os' F. cbn. now apply names_eq. Qed.

Lemma alike_std s kws kws' sc k c x : w_schema W s = SObj kws -> w_schema W' s = SObj kws' -> In c d ->
  orel oeq (J sc kws k c x) (J' sc kws' k c x).
Proof.
  intros Hs Hs' Hc.
  assert (D : forall key, In key (asked c) -> dget key kws = dget key kws').
  { intros key Hk. destruct (asks c key Hc Hk) as (c' & F & V). exact (alike_dget s kws kws' key c' Hs Hs' F V). }
  destruct Ha as [(_ & _ & Hr & _) _].
  assert (As : orel oeq (obind (assertion W k c x) (fun b => Some (plain b))) (obind (assertion W' k c x) (fun b => Some (plain b)))).
  { rewrite alike_assertion. apply orel_refl. }
  destruct c; cbn [judge_std]; try exact As; try apply orel_refl; cbn [asked In] in D.
  - apply orel_bind_same. auto.
  - apply orel_bind_same. intro t. rewrite (alike_choice _ _ _ Hc). auto.
  - apply orel_bind_same. intro t. rewrite (alike_recursive_choice _ _ Hc). auto.
  - apply orel_bind_same. intro ts. eapply orel_bind; [apply orel_all; auto|]. intros os os' F. cbn. apply gather_eq; [now apply all_accept_eq|exact F].
  - apply orel_bind_same. intro ts. eapply orel_bind; [apply orel_all; auto|]. intros os os' F. cbn. apply gather_eq; [now apply exists_eq|exact F].
  - apply orel_bind_same. intro ts. eapply orel_bind; [apply orel_all; auto|]. intros os os' F. cbn. apply gather_eq; [now rewrite (count_eq _ _ F)|exact F].
  - apply orel_bind_same. intro t. eapply orel_bind; [apply Hj|]. intros o o' E. cbn. rewrite (proj1 E). apply oeq_refl.
  - apply orel_bind_same. intro t. eapply orel_bind; [apply Hj|]. intros o o' E. cbn [orel]. apply gather_eq; [reflexivity|]. constructor; [exact E|constructor].
  - rewrite <- (D _ (or_introl eq_refl)). destruct (dget (lit "if") kws); [|apply orel_refl]. apply orel_bind_same. intro t. eapply orel_bind; [apply Hj|]. intros o o' E.
    rewrite <- (proj1 E). destruct (o_ok o); [|apply orel_refl]. apply orel_bind_same. auto.
  - rewrite <- (D _ (or_introl eq_refl)). destruct (dget (lit "if") kws); [|apply orel_refl]. apply orel_bind_same. intro t. eapply orel_bind; [apply Hj|]. intros o o' E.
    rewrite <- (proj1 E). destruct (o_ok o); [apply orel_refl|]. apply orel_bind_same. auto.
  - apply orel_bind_same. intro m. eapply orel_bind; [apply orel_all; auto|]. intros os os' F. cbn. apply gather_eq; [now apply all_accept_eq|exact F].
  - apply orel_bind_same. intro. apply alike_pairs.
  - apply orel_bind_same. intro t. rewrite <- (D _ (or_introl eq_refl)). apply alike_rest.
  - apply orel_bind_same. intro t. eapply orel_bind; [apply alike_all|]. intros os os' F. cbv zeta. rewrite <- (count_eq _ _ F), <- (accepted_eq _ _ F).
    rewrite <- (D _ (or_introl eq_refl)), <- (D _ (or_intror (or_introl eq_refl))). apply orel_refl.
  - apply orel_bind_same. intro m. eapply orel_bind; [apply orel_all; intros kv _; apply orel_bind_same; auto|]. intros os os' F. cbn. now apply names_eq.
  - apply orel_bind_same. intro m. eapply orel_bind.
    + apply orel_all. intros kv _. rewrite (map_ext (fun rt => w_search W' (fst rt) (fst kv)) (fun rt => w_search W (fst rt) (fst kv))) by (intro; symmetry; apply Hr).
      apply orel_bind_same. intro bs. cbv zeta. eapply orel_bind; [apply orel_all; auto|]. intros os os' F. cbn [orel]. apply names_eq, F.
    + intros os os' F. cbn [orel]. rewrite (all_accept_eq _ _ F). split; [reflexivity|]. split; [|split; intro; reflexivity]. intro a. cbn [o_names]. rewrite !in_flat_map.
      split; intros (o & Ho & Hi).
      * destruct (Forall2_In_l _ _ _ _ F Ho) as (o' & Ho' & E). exists o'. split; [exact Ho'|]. now apply E.
      * destruct (Forall2_In_r _ _ _ _ F Ho) as (o' & Ho' & E). exists o'. split; [exact Ho'|]. now apply E.
  - apply orel_bind_same. intro t. cbv zeta. rewrite <- (D _ (or_introl eq_refl)), <- (D _ (or_intror (or_introl eq_refl))).
    match goal with |- context [map (fun kv => matches_any W' ?p (fst kv)) ?l] =>
      rewrite (map_ext (fun kv => matches_any W' p (fst kv)) (fun kv => matches_any W p (fst kv))) by (intro; symmetry; apply alike_matches) end.
    apply orel_bind_same. intro bs. apply alike_members.
  - apply orel_bind_same. intro t. eapply orel_bind; [apply alike_all|]. intros os os' F. cbn. rewrite (all_accept_eq _ _ F). apply oeq_refl.
  - destruct (kw_json k); try apply orel_refl; [apply alike_rest|apply alike_pairs].
  - rewrite <- (D _ (or_introl eq_refl)). destruct (subs_of (dget (lit "items") kws)); [|apply orel_refl]. apply orel_bind_same. intro. apply alike_rest.
Qed.

Notation C := (code_std W (code_choice W) jd).
Notation C' := (code_std W' (code_choice W') jd').
Lemma alike_code_rest sc st t l : orel oeq (code_rest jd sc st t l) (code_rest jd' sc st t l).
Proof.
  apply (orel_bind _ _ _ _ _ _ (alike_all sc t (skipn st l))). intros os os' F. cbn. rewrite (all_or_none_eq _ _ _ F). now apply names_eq.
Qed.
Lemma alike_code s kws kws' sc k c x : w_schema W s = SObj kws -> w_schema W' s = SObj kws' -> In c d ->
  orel oeq (C sc kws k c x) (C' sc kws' k c x).
Proof.
  intros Hs Hs' Hc.
  assert (D : forall key, In key (asked c) -> dget key kws = dget key kws').
  { intros key Hk. destruct (asks c key Hc Hk) as (c' & F & V). exact (alike_dget s kws kws' key c' Hs Hs' F V). }
  assert (Lm : forall rel, dget (lit "contains") kws = dget (lit "contains") kws' -> orel oeq (code_limit jd sc kws rel k x) (code_limit jd' sc kws' rel k x)).
  { intros rel E. unfold code_limit, code_count. rewrite <- E. destruct (dget _ kws) as [k'|]; [|apply orel_refl].
    destruct (sub_of (Some k')) as [t|]; cbn [obind]; [|exact I]. pose proof (alike_all sc t (items x)) as A.
    destruct (judge_all jd sc t (items x)) as [os|], (judge_all jd' sc t (items x)) as [os'|]; cbn in A; try contradiction; cbn [obind]; [|exact I].
    rewrite (count_eq _ _ A). apply orel_refl. }
  destruct c; try exact (alike_std s kws kws' sc k _ x Hs Hs' Hc); cbn [code_std]; cbn [asked In] in D.
  - apply orel_bind_same. intro t. eapply orel_bind; [apply Hj|]. intros o o' (E & E1 & E2). cbn. rewrite E. split; [reflexivity|]. now split.
  - apply orel_bind_same. intro t. rewrite <- (D _ (or_introl eq_refl)). apply alike_code_rest.
  - apply orel_bind_same. intro t. eapply orel_bind; [apply alike_all|]. intros os os' F. cbv zeta. rewrite <- (count_eq _ _ F), <- (accepted_eq _ _ F).
    rewrite <- (D _ (or_introl eq_refl)), <- (D _ (or_intror (or_introl eq_refl))). apply orel_refl.
  - destruct (kw_json k) as [|t|ts|]; try apply orel_refl; [|apply alike_pairs]. pose proof (proj2 Ha t) as A.
    destruct (w_schema W t), (w_schema W' t); cbn in A; try contradiction; [|apply alike_rest]. destruct (items x); [apply orel_refl|apply Hj].
  - rewrite <- (D _ (or_introl eq_refl)). destruct (subs_of (dget (lit "items") kws)) as [ts|]; [|apply orel_refl]. apply orel_bind_same. intro t.
    eapply orel_bind; [apply alike_pairs|]. intros o o' E. rewrite (proj1 E). destruct (o_ok o'); [apply alike_code_rest|apply orel_refl].
  - apply Lm. apply D. now left.
  - apply Lm. apply D. now left.
Qed.

Lemma mem_same l l' : same_set l l' -> forall k, mem_str k l = mem_str k l'.
Proof.
  intros E k. destruct (mem_str k l) eqn:A, (mem_str k l') eqn:B; auto.
  - apply mem_str_In, E, mem_str_In in A. congruence.
  - apply mem_str_In, E, mem_str_In in B. congruence.
Qed.
Lemma exists_same l l' : same_set l l' -> forall k, existsb (Nat.eqb k) l = existsb (Nat.eqb k) l'.
Proof.
  intros E k. assert (X : forall l, existsb (Nat.eqb k) l = true <-> In k l).
  { intro m. rewrite existsb_exists. split; [intros (n & H & Q); apply Nat.eqb_eq in Q; now subst|intro H; exists k; split; [exact H|apply Nat.eqb_refl]]. }
  destruct (existsb (Nat.eqb k) l) eqn:A, (existsb (Nat.eqb k) l') eqn:B; auto.
  - apply X, E, X in A. congruence.
  - apply X, E, X in B. congruence.
Qed.
Lemma alike_unevaluated sc o o' k c x : oeq o o' -> orel oeq (judge_unevaluated jd sc o k c x) (judge_unevaluated jd' sc o' k c x).
Proof.
  intros (_ & E1 & E2 & E3). unfold judge_unevaluated. cbv zeta.
  assert (L : forall ev ev', same_set ev ev' -> orel oeq
     (obind (sub_of (Some k)) (fun t => obind (judge_all jd sc t (map (fun n => nth n (items x) JNull) (filter (fun n => negb (existsb (Nat.eqb n) ev)) (seq 0 (length (items x))))))
        (fun os => Some (mkO (all_accept os) [] (filter (fun n => negb (existsb (Nat.eqb n) ev)) (seq 0 (length (items x)))) []))))
     (obind (sub_of (Some k)) (fun t => obind (judge_all jd' sc t (map (fun n => nth n (items x) JNull) (filter (fun n => negb (existsb (Nat.eqb n) ev')) (seq 0 (length (items x))))))
        (fun os => Some (mkO (all_accept os) [] (filter (fun n => negb (existsb (Nat.eqb n) ev')) (seq 0 (length (items x)))) []))))).
  { intros ev ev' E. rewrite (filter_ext (fun n => negb (existsb (Nat.eqb n) ev')) (fun n => negb (existsb (Nat.eqb n) ev))) by (intro; now rewrite (exists_same _ _ E)).
    apply orel_bind_same. intro t. eapply orel_bind; [apply alike_all|]. intros os os' F. cbn [orel]. now apply names_eq. }
  assert (M : orel oeq (obind (sub_of (Some k)) (fun t => judge_members jd sc t (filter (fun kv => negb (mem_str (fst kv) (o_names o))) (members x))))
                       (obind (sub_of (Some k)) (fun t => judge_members jd' sc t (filter (fun kv => negb (mem_str (fst kv) (o_names o'))) (members x))))).
  { rewrite (filter_ext (fun kv => negb (mem_str (fst kv) (o_names o'))) (fun kv => negb (mem_str (fst kv) (o_names o)))) by (intro; now rewrite (mem_same _ _ E1)).
    apply orel_bind_same. intro t. apply alike_members. }
  destruct c; try exact I; try exact M; apply L; [|exact E2].
  intro a. rewrite !in_app_iff. now rewrite (E2 a), (E3 a).
Qed.

Lemma alike_code_unevaluated sc o o' k c x : oeq o o' -> orel oeq (code_unevaluated jd sc o k c x) (code_unevaluated jd' sc o' k c x).
Proof.
  intros (_ & E1 & E2 & E3). unfold code_unevaluated, judge_unevaluated. cbv zeta.
  assert (L : forall ev ev', same_set ev ev' -> orel oeq
     (obind (sub_of (Some k)) (fun t => obind (judge_all jd sc t (map (fun n => nth n (items x) JNull) (filter (fun n => negb (existsb (Nat.eqb n) ev)) (seq 0 (length (items x))))))
        (fun os => Some (mkO (all_accept os) [] (all_or_none os (length (items x))) []))))
     (obind (sub_of (Some k)) (fun t => obind (judge_all jd' sc t (map (fun n => nth n (items x) JNull) (filter (fun n => negb (existsb (Nat.eqb n) ev')) (seq 0 (length (items x))))))
        (fun os => Some (mkO (all_accept os) [] (all_or_none os (length (items x))) []))))).
  { intros ev ev' E. rewrite (filter_ext (fun n => negb (existsb (Nat.eqb n) ev')) (fun n => negb (existsb (Nat.eqb n) ev))) by (intro; now rewrite (exists_same _ _ E)).
    apply orel_bind_same. intro t. eapply orel_bind; [apply alike_all|]. intros os os' F. cbn [orel]. rewrite (all_or_none_eq _ _ _ F). now apply names_eq. }
  assert (M : orel oeq (obind (sub_of (Some k)) (fun t => judge_members jd sc t (filter (fun kv => negb (mem_str (fst kv) (o_names o))) (members x))))
                       (obind (sub_of (Some k)) (fun t => judge_members jd' sc t (filter (fun kv => negb (mem_str (fst kv) (o_names o'))) (members x))))).
  { rewrite (filter_ext (fun kv => negb (mem_str (fst kv) (o_names o'))) (fun kv => negb (mem_str (fst kv) (o_names o)))) by (intro; now rewrite (mem_same _ _ E1)).
    apply orel_bind_same. intro t. apply alike_members. }
  destruct c; try exact I; try exact M; apply L; [|exact E2].
  intro a. rewrite !in_app_iff. now rewrite (E2 a), (E3 a).
Qed.

Lemma find_class_In dd key c : find_class dd key = Some c -> In c dd.
Proof. induction dd as [|c' r IH]; [discriminate|]. cbn [find_class]. destruct (str_eqb _ _); [intros [= ->]; now left|right; auto]. Qed.
Lemma inert_trivial jj WW ch sc kws x k : inert k = true -> concerns x k = true -> judge_keyword WW ch jj sc kws x k = Some (plain true) /\ late k = None.
Proof.
  unfold inert, concerns, judge_keyword, late. destruct (kw_class k) as [c|]; [|auto]. intros Hi Hc.
  destruct c; try discriminate Hi; cbn [judge_std assertion]; auto; [discriminate Hc|]. destruct (kw_format k); [discriminate|]. auto.
Qed.

Lemma alike_object s kws kws' sc x : w_schema W s = SObj kws -> w_schema W' s = SObj kws' ->
  orel oeq (judge_object W (code_choice W) jd sc kws x) (judge_object W' (code_choice W') jd' sc kws' x).
Proof.
  intros Hs Hs'. pose proof (proj2 Ha s) as A. rewrite Hs, Hs' in A. cbn in A.
  assert (Cl : forall key k c, In (key, k) kws -> kw_class k = Std c -> In c d).
  { intros key k c Hk Hc. destruct (Hg _ _ Hs) as [_ G]. destruct (G _ _ Hk) as (_ & E & _). rewrite Hc in E. apply (find_class_In d key). destruct (find_class d key); congruence. }
  assert (Cl' : forall key k c, In (key, k) kws' -> kw_class k = Std c -> In c d).
  { intros key k c Hk Hc. destruct (Hg' _ _ Hs') as [_ G]. destruct (G _ _ Hk) as (_ & E & _). rewrite Hc in E. apply (find_class_In d key). destruct (find_class d key); congruence. }
  unfold judge_object. cbv zeta.
  set (con := filter (concerns x) (map snd kws)). set (con' := filter (concerns x) (map snd kws')).
  assert (K : forall k, In k con <-> exists key, In (key, k) kws /\ concerns x k = true).
  { intro k. unfold con. rewrite filter_In, in_map_iff. split; [intros [([key k0] & <- & H) C]; eauto|intros (key & H & C); split; [now exists (key, k)|exact C]]. }
  assert (K' : forall k, In k con' <-> exists key, In (key, k) kws' /\ concerns x k = true).
  { intro k. unfold con'. rewrite filter_In, in_map_iff. split; [intros [([key k0] & <- & H) C]; eauto|intros (key & H & C); split; [now exists (key, k)|exact C]]. }
  assert (Both : forall k, inert k = false -> In k con <-> In k con').
  { intros k Hi. rewrite K, K'. split; intros (key & H & C); exists key; (split; [now apply A|exact C]). }
  assert (Jk : forall k, In k con -> orel oeq (judge_keyword W (code_choice W) jd sc kws x k) (judge_keyword W' (code_choice W') jd' sc kws' x k)).
  { intros k Hk. apply K in Hk. destruct Hk as (key & Hk & _). unfold judge_keyword. destruct (kw_class k) as [c|] eqn:Hc; [|apply orel_refl].
    exact (alike_std s kws kws' sc k c x Hs Hs' (Cl key k c Hk Hc)). }
  pose (ear := fun k => match late k with None => true | Some _ => false end).
  assert (E : orel oeq (conclude (map (judge_keyword W (code_choice W) jd sc kws x) (filter ear con)))
                       (conclude (map (judge_keyword W' (code_choice W') jd' sc kws' x) (filter ear con')))).
  { apply conclude_like; intros a Hin; apply in_map_iff in Hin; destruct Hin as (k & <- & Hk); apply filter_In in Hk; destruct Hk as [Hk L].
    - destruct (inert k) eqn:Hi.
      + left. apply K in Hk. destruct Hk as (key & Hk & C). rewrite (proj1 (inert_trivial _ _ _ _ _ _ _ Hi C)). apply orel_refl.
      + right. exists (judge_keyword W' (code_choice W') jd' sc kws' x k). split; [|exact (Jk k Hk)]. apply in_map, filter_In. split; [now apply Both|exact L].
    - destruct (inert k) eqn:Hi.
      + left. apply K' in Hk. destruct Hk as (key & Hk & C). rewrite (proj1 (inert_trivial _ _ _ _ _ _ _ Hi C)). apply orel_refl.
      + right. apply (Both k Hi) in Hk. exists (judge_keyword W (code_choice W) jd sc kws x k). split; [|apply orel_sym, (Jk k Hk)]. apply in_map, filter_In. auto. }
  unfold ear in E. destruct (conclude (map (judge_keyword W _ _ _ _ _) _)) as [o|], (conclude (map (judge_keyword W' _ _ _ _ _) _)) as [o'|]; cbn in E; try contradiction; [|exact I].
  rewrite <- (proj1 E). destruct (o_ok o); [|exact E].
  assert (L : forall k, In k con -> late k <> None -> inert k = false).
  { intros k Hk Hl. destruct (inert k) eqn:Hi; [|reflexivity]. apply K in Hk. destruct Hk as (key & Hk & C). exfalso. apply Hl.
    exact (proj2 (inert_trivial jd W (code_choice W) sc kws x k Hi C)). }
  assert (L' : forall k, In k con' -> late k <> None -> inert k = false).
  { intros k Hk Hl. destruct (inert k) eqn:Hi; [|reflexivity]. apply K' in Hk. destruct Hk as (key & Hk & C). exfalso. apply Hl.
    exact (proj2 (inert_trivial jd W (code_choice W) sc kws x k Hi C)). }
  apply conclude_like; intros a Hin; destruct Hin as [<-|Hin].
  - right. exists (Some o'). split; [now left|exact E].
  - apply in_flat_map in Hin. destruct Hin as (k & Hk & Hin). destruct (late k) as [c|] eqn:Hl; [|destruct Hin]. destruct Hin as [<-|[]].
    right. exists (judge_unevaluated jd' sc o' k c x). split; [|now apply alike_unevaluated]. right. apply in_flat_map. exists k. split; [|rewrite Hl; now left].
    apply Both; [|exact Hk]. apply L; [exact Hk|congruence].
  - right. exists (Some o). split; [now left|apply oeq_sym, E].
  - apply in_flat_map in Hin. destruct Hin as (k & Hk & Hin). destruct (late k) as [c|] eqn:Hl; [|destruct Hin]. destruct Hin as [<-|[]].
    right. exists (judge_unevaluated jd sc o k c x). split; [|apply orel_sym; now apply alike_unevaluated]. right. apply in_flat_map. exists k. split; [|rewrite Hl; now left].
    apply Both; [|exact Hk]. apply L'; [exact Hk|congruence].
Qed.
Lemma inert_code jj WW ch sc kws x k : inert k = true -> concerns x k = true -> code_keyword WW ch jj sc kws x k = Some (plain true) /\ late k = None.
Proof.
  unfold inert, concerns, code_keyword, late. destruct (kw_class k) as [c|]; [|auto]. intros Hi Hc.
  destruct c; try discriminate Hi; cbn [code_std judge_std assertion]; auto; [discriminate Hc|]. destruct (kw_format k); [discriminate|]. auto.
Qed.
Lemma alike_code_object s kws kws' sc x : w_schema W s = SObj kws -> w_schema W' s = SObj kws' ->
  orel oeq (code_object W (code_choice W) jd sc kws x) (code_object W' (code_choice W') jd' sc kws' x).
Proof.
  intros Hs Hs'. pose proof (proj2 Ha s) as A. rewrite Hs, Hs' in A. cbn in A.
  assert (Cl : forall key k c, In (key, k) kws -> kw_class k = Std c -> In c d).
  { intros key k c Hk Hc. destruct (Hg _ _ Hs) as [_ G]. destruct (G _ _ Hk) as (_ & E & _). rewrite Hc in E. apply (find_class_In d key). destruct (find_class d key); congruence. }
  assert (Cl' : forall key k c, In (key, k) kws' -> kw_class k = Std c -> In c d).
  { intros key k c Hk Hc. destruct (Hg' _ _ Hs') as [_ G]. destruct (G _ _ Hk) as (_ & E & _). rewrite Hc in E. apply (find_class_In d key). destruct (find_class d key); congruence. }
  unfold code_object. cbv zeta.
  set (con := filter (concerns x) (map snd kws)). set (con' := filter (concerns x) (map snd kws')).
  assert (K : forall k, In k con <-> exists key, In (key, k) kws /\ concerns x k = true).
  { intro k. unfold con. rewrite filter_In, in_map_iff. split; [intros [([key k0] & <- & H) C]; eauto|intros (key & H & C); split; [now exists (key, k)|exact C]]. }
  assert (K' : forall k, In k con' <-> exists key, In (key, k) kws' /\ concerns x k = true).
  { intro k. unfold con'. rewrite filter_In, in_map_iff. split; [intros [([key k0] & <- & H) C]; eauto|intros (key & H & C); split; [now exists (key, k)|exact C]]. }
  assert (Both : forall k, inert k = false -> In k con <-> In k con').
  { intros k Hi. rewrite K, K'. split; intros (key & H & C); exists key; (split; [now apply A|exact C]). }
  assert (Jk : forall k, In k con -> orel oeq (code_keyword W (code_choice W) jd sc kws x k) (code_keyword W' (code_choice W') jd' sc kws' x k)).
  { intros k Hk. apply K in Hk. destruct Hk as (key & Hk & _). unfold code_keyword. destruct (kw_class k) as [c|] eqn:Hc; [|apply orel_refl].
    exact (alike_code s kws kws' sc k c x Hs Hs' (Cl key k c Hk Hc)). }
  pose (ear := fun k => match late k with None => true | Some _ => false end).
  assert (E : orel likes (all_some (map (code_keyword W (code_choice W) jd sc kws x) (filter ear con)))
                         (all_some (map (code_keyword W' (code_choice W') jd' sc kws' x) (filter ear con')))).
  { apply all_like; intros a Hin; apply in_map_iff in Hin; destruct Hin as (k & <- & Hk); apply filter_In in Hk; destruct Hk as [Hk L].
    - destruct (inert k) eqn:Hi.
      + left. apply K in Hk. destruct Hk as (key & Hk & Co). rewrite (proj1 (inert_code _ _ _ _ _ _ _ Hi Co)). apply orel_refl.
      + right. exists (code_keyword W' (code_choice W') jd' sc kws' x k). split; [|exact (Jk k Hk)]. apply in_map, filter_In. split; [now apply Both|exact L].
    - destruct (inert k) eqn:Hi.
      + left. apply K' in Hk. destruct Hk as (key & Hk & Co). rewrite (proj1 (inert_code _ _ _ _ _ _ _ Hi Co)). apply orel_refl.
      + right. apply (Both k Hi) in Hk. exists (code_keyword W (code_choice W) jd sc kws x k). split; [|apply orel_sym, (Jk k Hk)]. apply in_map, filter_In. auto. }
  unfold ear in E. eapply orel_bind; [exact E|]. intros os os' F.
  assert (L : forall k, In k con -> late k <> None -> inert k = false).
  { intros k Hk Hl. destruct (inert k) eqn:Hi; [|reflexivity]. apply K in Hk. destruct Hk as (key & Hk & Co). exfalso. apply Hl.
    exact (proj2 (inert_code jd W (code_choice W) sc kws x k Hi Co)). }
  assert (L' : forall k, In k con' -> late k <> None -> inert k = false).
  { intros k Hk Hl. destruct (inert k) eqn:Hi; [|reflexivity]. apply K' in Hk. destruct Hk as (key & Hk & Co). exfalso. apply Hl.
    exact (proj2 (inert_code jd W (code_choice W) sc kws x k Hi Co)). }
  eapply orel_bind; [|intros us us' F'; cbn [orel]; exact (likes_total _ _ _ _ F F')].
  apply all_like; intros a Hin; apply in_flat_map in Hin; destruct Hin as (k & Hk & Hin); (destruct (late k) as [c|] eqn:Hl; [|destruct Hin]); destruct Hin as [<-|[]]; right.
  - exists (code_unevaluated jd' sc (gather true os') k c x). split; [|apply alike_code_unevaluated, likes_gather, F]. apply in_flat_map. exists k. split; [|rewrite Hl; now left].
    apply Both; [|exact Hk]. apply L; [exact Hk|congruence].
  - exists (code_unevaluated jd sc (gather true os) k c x). split; [|apply orel_sym, alike_code_unevaluated, likes_gather, F]. apply in_flat_map. exists k. split; [|rewrite Hl; now left].
    apply Both; [|exact Hk]. apply L'; [exact Hk|congruence].
Qed.
End Kw.

Theorem alike_judge n : forall sc s x, orel oeq (judge W (code_choice W) n sc s x) (judge W' (code_choice W') n sc s x).
Proof.
  induction n as [|n IH]; intros sc s x; [exact I|]. cbn [judge]. pose proof (proj2 Ha s) as A.
  destruct (w_schema W s) as [b|kws] eqn:Hs, (w_schema W' s) as [b'|kws'] eqn:Hs'; cbn in A; try contradiction.
  - subst b'. apply orel_refl.
  - exact (alike_object _ _ IH s kws kws' (s :: sc) x Hs Hs').
Qed.

Theorem alike_code_judge n : forall sc s x, orel oeq (code_judge W (code_choice W) n sc s x) (code_judge W' (code_choice W') n sc s x).
Proof.
  induction n as [|n IH]; intros sc s x; [exact I|]. cbn [code_judge]. pose proof (proj2 Ha s) as A.
  destruct (w_schema W s) as [b|kws] eqn:Hs, (w_schema W' s) as [b'|kws'] eqn:Hs'; cbn in A; try contradiction.
  - subst b'. apply orel_refl.
  - exact (alike_code_object _ _ IH s kws kws' (s :: sc) x Hs Hs').
Qed.

(** Firm keywords are used in both or in neither. *)
Lemma alike_uses c : firm_class c = true -> uses W' c -> uses W c.
Proof.
  intros Hf (s & kws' & key & k & Hs' & Hk & Hc). pose proof (proj2 Ha s) as A. rewrite Hs' in A. destruct (w_schema W s) as [|kws] eqn:Hs; cbn in A; [contradiction|].
  exists s, kws, key, k. split; [exact Hs|]. split; [|exact Hc]. apply A; [|exact Hk]. unfold inert. rewrite Hc. destruct c; try discriminate Hf; reflexivity.
Qed.
Lemma alike_no_unevaluated : no_unevaluated W -> no_unevaluated W'.
Proof. intros (A & B & C & D). split; [|split; [|split]]; intro H; [apply A|apply B|apply C|apply D]; (apply alike_uses; [reflexivity|exact H]). Qed.
Lemma alike_no_misjudged : no_misjudged W -> no_misjudged W'.
Proof.
  intros [A B]. split; [intro H; apply A; apply alike_uses; [reflexivity|exact H]|]. intros s kws' key k t b Hs' Hk Hc Hj Ht.
  pose proof (proj2 Ha s) as E. rewrite Hs' in E. destruct (w_schema W s) as [|kws] eqn:Hs; cbn in E; [contradiction|].
  pose proof (proj2 Ha t) as F. rewrite Ht in F. destruct (w_schema W t) as [b'|] eqn:Hwt; cbn in F; [|contradiction].
  refine (B s kws key k t b' Hs _ Hc Hj Hwt). apply E; [|exact Hk]. unfold inert. rewrite Hc. reflexivity.
Qed.

Theorem alike_valid fuel fuel' s i r r' : jwf (i_val i) = true ->
  evaluate_root W fuel s i = Ok r -> evaluate_root W' fuel' s i = Ok r' -> r_valid r = r_valid r'.
Proof.
  intros Hw E E'. destruct (evaluate_root_code W d legacy Hd Hg fuel s i r Hw E) as (o & J & ->), (evaluate_root_code W' d legacy Hd Hg' fuel' s i r' Hw E') as (o' & J' & ->).
  pose proof (alike_code_judge fuel [] s (i_val i)) as A. rewrite J in A.
  destruct (code_judge W' (code_choice W') fuel [] s (i_val i)) as [o2|] eqn:J2; cbn in A; [|contradiction].
  rewrite (proj1 A). f_equal. exact (code_unique _ _ _ _ _ _ _ _ _ J2 J').
Qed.
End Alike.
