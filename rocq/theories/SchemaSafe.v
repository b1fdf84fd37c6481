(** Evaluation raises nothing on sound schemas and instances. *)
From Coq Require Import List Lia.
From Verif Require Export SpecSound SchemaPlaced SchemaTerm.
Import ListNotations.
Open Scope nat_scope.

Definition Safe {A} (P : A -> Prop) (e : res A) : Prop := match e with Ok a => P a | Exn _ => False | Fuel => True end.
Lemma safe_bind {A B} (P : A -> Prop) (Q : B -> Prop) e g : Safe P e -> (forall a, P a -> Safe Q (g a)) -> Safe Q (bind e g).
Proof. destruct e; cbn; auto. Qed.
Lemma dumps_finite F v : finite_numbers v = true -> exists t, Text.json_dumps F v = Ok t.
Proof.
  assert (T : forall l, Forall (fun r => exists t, r = Ok t) l -> exists ts, Text.all_texts l = Ok ts).
  { induction 1 as [|r l [t ->] _ [ts IH]]; cbn [Text.all_texts]; [eauto|]. rewrite IH. cbn [bind]. eauto. }
  induction v as [|[]|[]|s|l IH|m IH] using json_induction; cbn [Text.json_dumps finite_numbers]; intro Fv; try discriminate; eauto.
  - rewrite forallb_forall in Fv. destruct (T (map (Text.json_dumps F) l)) as [ts ->]; [|cbn [bind]; eauto].
    apply Forall_map, Forall_forall. intros v Hv. exact (proj1 (Forall_forall _ _) IH v Hv (Fv v Hv)).
  - rewrite forallb_forall in Fv. match goal with |- context [Text.all_texts ?l] => destruct (T l) as [ts ->] end; [|cbn [bind]; eauto].
    apply Forall_map, Forall_forall. intros kv Hv. destruct (proj1 (Forall_forall _ _) IH kv Hv (Fv kv Hv)) as [t ->]. cbn [bind]. eauto.
Qed.
Lemma said_finite W before v after : finite_numbers v = true -> exists t, said W before (KJ v) after = Ok t.
Proof. intro Fv. destruct (dumps_finite (writer W) v Fv) as [t E]. unfold said. rewrite E. cbn [bind]. eauto. Qed.
Lemma said_plain W before v after : (exists u, v = KJ u /\ finite_numbers u = true) -> exists t, said W before v after = Ok t.
Proof. intros (u & -> & Fu). now apply said_finite. Qed.
Lemma missing_finite W m : Forall (fun nl => Forall (fun v => finite_numbers v = true) (snd nl)) m -> exists ts, repr_missing W m = Ok ts.
Proof.
  induction 1 as [|[name l] m Hl _ [ts IH]]; cbn [repr_missing]; [eauto|]. cbn [snd] in Hl. rewrite IH.
  assert (T : exists us, Text.all_texts (map (Repr.repr_node (writer W)) l) = Ok us).
  { induction Hl as [|v l Fv _ [us IHl]]; cbn [map Text.all_texts]; [eauto|]. rewrite IHl. unfold Repr.repr_node at 1. destruct (dumps_finite (writer W) v Fv) as [t ->]. cbn [bind]. eauto. }
  destruct T as [us ->]. cbn [bind]. eauto.
Qed.
Lemma strings_finite l ns : strings l = Some ns -> forallb finite_numbers l = true.
Proof.
  revert ns. induction l as [|v l IH]; intros ns H; [reflexivity|]. cbn [strings] in H. cbn [forallb]. destruct v; try discriminate H. cbn [finite_numbers andb].
  destruct (strings l) as [ms|] eqn:E; [now apply (IH ms)|discriminate H].
Qed.

Lemma safe_weaken {A} (P Q : A -> Prop) e : (forall a, P a -> Q a) -> Safe P e -> Safe Q e.
Proof. destruct e; cbn; auto. Qed.

(** ** Annotations, by the class of the keyword. *)
Definition shape_of (c : stdclass) (a : json) : Prop :=
  a = JNull \/
  match c with
  | KPrefixItems => a = JBool true \/ exists z, a = JNum (NInt z)
  | KContains | KProperties | KPatternProperties | KAdditionalProperties | KUnevaluatedProperties | KUnevaluatedProperties2019 => exists l, a = JArr l
  | _ => True
  end.

Lemma finite_items i j : finite_numbers (i_val i) = true -> In j (items_of i) -> finite_numbers (i_val j) = true.
Proof.
  unfold items_of. destruct (i_val i); intros F H; try destruct H. cbn [finite_numbers] in F. rewrite forallb_forall in F. apply F.
  revert H. generalize 0. induction l as [|x l IH]; intros n H; [destruct H|]. cbn [items_from] in H. destruct H as [<-|H]; [now left|right].
  apply (IH (fun y Hy => F y (or_intror Hy)) _ H).
Qed.
Lemma finite_members i nj : finite_numbers (i_val i) = true -> In nj (members_of i) -> finite_numbers (i_val (snd nj)) = true.
Proof.
  unfold members_of. destruct (i_val i); intros F H; try destruct H. cbn [finite_numbers] in F. rewrite forallb_forall in F.
  apply in_map_iff in H. destruct H as (kv & <- & H). cbn [snd i_val]. exact (F kv H).
Qed.

Lemma in_dialect d key c : find_class d key = Some c -> In c d.
Proof.
  induction d as [|c' l IH]; cbn [find_class]; [discriminate|]. destruct (str_eqb _ _); [intros [= ->]; now left|]. intro H. right. auto.
Qed.

Section Safe.
Variable W : world.
Variable d : list stdclass.
Hypothesis Hg : good_world d W.
Hypothesis Hs : forall s kws key k, w_schema W s = SObj kws -> In (key, k) kws -> typed k = true /\ compiles W k /\ aimed W k.

Definition shape (key : pystr) (a : json) : Prop := match find_class d key with Some c => shape_of c a | None => True end.
Inductive mild : rnode -> Prop :=
| mild_i n : (forall key, r_key n = Some key -> shape key (r_annot n)) -> Forall (fun kc => mild (snd kc)) (r_children n) -> mild n.
Definition mildly (n : rnode) : Prop := Forall (fun kc => mild (snd kc)) (r_children n).
(** The child of a schema's node stands for a keyword. *)
Definition right (kc : (pystr * path) * rnode) : Prop :=
  r_key (snd kc) = Some (fst (fst kc)) /\
  exists s kws k, w_schema W s = SObj kws /\ In (fst (fst kc), k) kws /\ at_ W (snd kc) (sn_of (kw_json k)).
Definition rightly (n : rnode) : Prop := Forall right (r_children n).
Definition objects (l : list sid) : Prop := Forall (is_object W) l.
(** What a keyword's own results leave. *)
Definition left (n n' : rnode) : Prop := done W n n' /\ mildly n' /\ r_annot n' = r_annot n.
Definition left1 {B} n (rb : rnode * B) : Prop := left n (fst rb).
(** What evaluating a schema into a node leaves. *)
Definition gone (n n' : rnode) : Prop := left n n' /\ rightly n'.
Definition gone1 {B} n (rb : rnode * B) : Prop := gone n (fst rb).
Definition may (s : sid) (i : inst) (anc : list sid) (n : rnode) : Prop :=
  finite_numbers (i_val i) = true /\ kin W n /\ (r_schema n = s -> at_ W n (SNSchema s)) /\ mildly n /\ rightly n /\ r_annot n = JNull /\ objects (r_schema n :: anc).

Lemma shape_null key : shape key JNull. Proof. unfold shape. destruct (find_class d key); [now left|exact I]. Qed.
Lemma left_refl n : kin W n -> mildly n -> left n n.
Proof. intros K M. split; [now apply done_refl|]. split; [exact M|reflexivity]. Qed.
Lemma left_trans a b c : left a b -> left b c -> left a c.
Proof. intros ([_ S] & _ & A) (D & M & A'). split; [exact (done_trans _ _ _ _ S D)|]. split; [exact M|congruence]. Qed.
Lemma gone_trans a b c : gone a b -> gone b c -> gone a c.
Proof. intros [L _] [L' R]. split; [exact (left_trans _ _ _ L L')|exact R]. Qed.
Lemma mildly_close n key i c : mildly n -> mild c -> mildly (close_child n key i c).
Proof.
  intros K P. unfold close_child. destruct (r_discard c); unfold mildly; cbn [put_child with_children r_children]; [now apply Forall_cdrop|now apply Forall_cput].
Qed.
Lemma close_annot n key i c : r_annot (close_child n key i c) = r_annot n.
Proof. unfold close_child. destruct (r_discard c); reflexivity. Qed.

Section Ev.
Variable ev : sid -> inst -> list sid -> rnode -> res rnode.
Hypothesis Hev : forall s i anc n, may s i anc n -> Safe (gone n) (ev s i anc n).

Lemma safe_in_child sn result anc i key s : finite_numbers (i_val i) = true -> kin W result -> mildly result -> objects (r_schema result :: anc) ->
  at_ W result sn -> sn_child W sn key = Ok (SNSchema s) ->
  Safe (left1 result) (in_child ev result anc i key s).
Proof.
  intros F K M O A L. unfold in_child.
  assert (A0 : at_ W (new_child result key i (r_schema result)) (SNSchema s)).
  { unfold at_, schema_node, new_child in *. cbn [r_schema r_relpath]. rewrite Nat.eqb_refl, sn_walk_app, A. cbn [bind sn_walk]. now rewrite L. }
  eapply safe_bind; [apply Hev|].
  { split; [exact F|]. split; [constructor|]. split; [intros _; exact A0|]. split; [constructor|]. split; [constructor|]. split; [reflexivity|].
    cbn [new_child r_schema]. constructor; [now inversion O|exact O]. }
  intros c (([Kc Sc] & Mc & Ac) & _). unfold Safe, left1. cbn [fst]. split; [split; [|apply same_close]|].
  - apply kin_close; [exact K|]. econstructor; [exact (at_same _ _ _ _ Sc A0)|exact Kc].
  - split; [|apply close_annot]. apply mildly_close; [exact M|]. constructor; [|exact Mc].
    intros key' E. rewrite Ac. apply shape_null.
Qed.
Lemma objects_left a b anc : left a b -> objects (r_schema a :: anc) -> objects (r_schema b :: anc).
Proof. intros ((_ & S) & _) O. destruct S as (_ & _ & _ & S & _). now rewrite S. Qed.
Lemma at_left a b sn : left a b -> at_ W a sn -> at_ W b sn.
Proof. intros ((_ & S) & _) A. exact (at_same _ _ _ _ S A). Qed.
Lemma left_kin a b : left a b -> kin W b. Proof. now intros ((K & _) & _). Qed.
Lemma left_mildly a b : left a b -> mildly b. Proof. now intros (_ & M & _). Qed.
Hint Resolve objects_left at_left left_kin left_mildly left_refl : safe.

Lemma safe_branches sn i anc l : finite_numbers (i_val i) = true ->
  forall k result, kin W result -> mildly result -> objects (r_schema result :: anc) -> at_ W result sn ->
  (forall j s, nth_error l j = Some s -> leads_to W sn (str_of_nat (k + j)) s) ->
  Safe (left1 result) (branches ev i anc k l result).
Proof.
  intro F. induction l as [|s l IH]; intros k result K M O A L; cbn [branches]; [now apply left_refl|].
  eapply safe_bind; [apply (safe_in_child sn); try assumption; rewrite <- (Nat.add_0_r k); now apply L|]. intros [r c] L1. unfold left1 in L1. cbn [fst] in *.
  eapply safe_bind; [apply IH; eauto with safe|].
  - intros j s' H. replace (S k + j) with (k + S j) by lia. now apply L.
  - intros [r2 bs] D. exact (left_trans _ _ _ L1 D).
Qed.
Lemma safe_pairwise sn anc : forall js l k result, (forall j, In j js -> finite_numbers (i_val j) = true) -> kin W result -> mildly result -> objects (r_schema result :: anc) -> at_ W result sn ->
  (forall j s, nth_error l j = Some s -> leads_to W sn (str_of_nat (k + j)) s) ->
  Safe (left1 result) (pairwise ev anc k js l result).
Proof.
  induction js as [|j js IH]; intros l k result F K M O A L; cbn [pairwise]; [now apply left_refl|]. destruct l as [|s l]; [now apply left_refl|].
  eapply safe_bind; [apply (safe_in_child sn); try assumption; [apply F; now left|rewrite <- (Nat.add_0_r k); now apply L]|]. intros [r c] L1. unfold left1 in L1. cbn [fst] in *.
  eapply safe_bind; [apply IH; eauto with safe|].
  - intros; apply F; now right.
  - intros j' s' H. replace (S k + j') with (k + S j') by lia. now apply L.
  - intros [r2 bs] D. exact (left_trans _ _ _ L1 D).
Qed.
Lemma safe_dependents sn i anc m : finite_numbers (i_val i) = true -> forall result, kin W result -> mildly result -> objects (r_schema result :: anc) -> at_ W result sn ->
  (forall name s, In (name, s) m -> leads_to W sn name s) ->
  Safe (left1 result) (dependents ev i anc m result).
Proof.
  intro F. induction m as [|[name s] m IH]; intros result K M O A L; cbn [dependents]; [now apply left_refl|].
  assert (L' : forall name s, In (name, s) m -> leads_to W sn name s) by (intros; apply L; now right).
  destruct (has_member i name); [|auto].
  eapply safe_bind; [apply (safe_in_child sn); try assumption; apply L; now left|]. intros [r c] L1. unfold left1 in L1. cbn [fst] in *.
  eapply safe_bind; [apply IH; eauto with safe|]. intros [r2 [g b]] D. exact (left_trans _ _ _ L1 D).
Qed.
Lemma safe_named sn subs anc : (forall name s, dget name subs = Some s -> leads_to W sn name s) -> forall l result,
  (forall nj, In nj l -> finite_numbers (i_val (snd nj)) = true) -> kin W result -> mildly result -> objects (r_schema result :: anc) -> at_ W result sn ->
  Safe (left1 result) (named ev subs anc l result).
Proof.
  intros L. induction l as [|[name j] l IH]; intros result F K M O A; cbn [named]; [now apply left_refl|].
  assert (F' : forall nj, In nj l -> finite_numbers (i_val (snd nj)) = true) by (intros; apply F; now right).
  destruct (dget name subs) as [s|] eqn:E; [|auto].
  eapply safe_bind; [apply (safe_in_child sn); try assumption; [apply (F (name, j)); now left|now apply L]|]. intros [r c] L1. unfold left1 in L1. cbn [fst] in *.
  eapply safe_bind; [apply IH; eauto with safe|]. intros [r2 [g b]] D. exact (left_trans _ _ _ L1 D).
Qed.
Lemma safe_matching sn anc name j : finite_numbers (i_val j) = true -> forall subs result, kin W result -> mildly result -> objects (r_schema result :: anc) -> at_ W result sn ->
  (forall r s, In (r, s) subs -> leads_to W sn r s /\ forall x, w_search W r x <> None) ->
  Safe (left1 result) (matching W ev subs anc name j result).
Proof.
  intro F. induction subs as [|[r s] subs IH]; intros result K M O A L; cbn [matching]; [now apply left_refl|].
  assert (L' : forall r s, In (r, s) subs -> leads_to W sn r s /\ forall x, w_search W r x <> None) by (intros; apply L; now right).
  destruct (L r s (or_introl eq_refl)) as [Lr Cr]. specialize (Cr name).
  destruct (w_search W r name) as [[|]|]; [|auto|congruence].
  eapply safe_bind; [apply (safe_in_child sn); assumption|]. intros [r1 c] L1. unfold left1 in L1. cbn [fst] in *.
  eapply safe_bind; [apply IH; eauto with safe|]. intros [r2 [g b]] D. exact (left_trans _ _ _ L1 D).
Qed.
Lemma safe_patterned sn subs anc : (forall r s, In (r, s) subs -> leads_to W sn r s /\ forall x, w_search W r x <> None) -> forall l result,
  (forall nj, In nj l -> finite_numbers (i_val (snd nj)) = true) -> kin W result -> mildly result -> objects (r_schema result :: anc) -> at_ W result sn ->
  Safe (left1 result) (patterned W ev subs anc l result).
Proof.
  intro L. induction l as [|[name j] l IH]; intros result F K M O A; cbn [patterned]; [now apply left_refl|].
  assert (F' : forall nj, In nj l -> finite_numbers (i_val (snd nj)) = true) by (intros; apply F; now right).
  eapply safe_bind; [apply (safe_matching sn); try assumption; apply (F (name, j)); now left|]. intros [r1 [g b]] L1. unfold left1 in L1. cbn [fst] in *.
  eapply safe_bind; [apply IH; eauto with safe|]. intros [r2 [g' b']] D. exact (left_trans _ _ _ L1 D).
Qed.
Lemma safe_each s anc : forall l result, (forall j, In j l -> finite_numbers (i_val j) = true) -> kin W result -> mildly result -> rightly result ->
  r_annot result = JNull -> objects (r_schema result :: anc) -> at_ W result (SNSchema s) -> Safe (left1 result) (each ev s anc l result).
Proof.
  induction l as [|j l IH]; intros result F K M R N O A; cbn [each]; [now apply left_refl|].
  eapply safe_bind; [apply Hev; repeat (split; try assumption); [apply F; now left|auto]|]. intros n [L1 R1]. cbv zeta.
  assert (L2 : left result (if passed n then n else pass_ n)) by (destruct (passed n); exact L1).
  assert (R2 : rightly (if passed n then n else pass_ n)) by (destruct (passed n); exact R1).
  assert (N2 : r_annot (if passed n then n else pass_ n) = JNull) by (destruct L2 as (_ & _ & N2); congruence).
  eapply safe_bind; [apply IH; eauto with safe; intros; apply F; now right|]. intros [r bs] D. exact (left_trans _ _ _ L2 D).
Qed.
Lemma safe_each_noreset s anc : forall l result, (forall j, In j l -> finite_numbers (i_val j) = true) -> kin W result -> mildly result -> rightly result ->
  r_annot result = JNull -> objects (r_schema result :: anc) -> at_ W result (SNSchema s) -> Safe (left result) (each_noreset ev s anc l result).
Proof.
  induction l as [|j l IH]; intros result F K M R N O A; cbn [each_noreset]; [now apply left_refl|].
  eapply safe_bind; [apply Hev; repeat (split; try assumption); [apply F; now left|auto]|]. intros n [L1 R1].
  assert (N1 : r_annot n = JNull) by (destruct L1 as (_ & _ & N1); congruence).
  eapply safe_weaken; [|apply IH; eauto with safe; intros; apply F; now right]. intros r D. exact (left_trans _ _ _ L1 D).
Qed.

(** ** What is read from the parent. *)
Lemma collect_shape inst key : forall n, mild n -> forall a, In a (collect_annotations inst (Some key) n) -> shape key a /\ a <> JNull.
Proof.
  induction n as [n IH] using rnode_induction. intros M a H. inversion M as [? S C]; subst. rewrite collect_annotations_eq in H.
  destruct (r_valid n && negb (r_discard n)); [|destruct H]. apply in_app_or in H. destruct H as [H|H].
  - unfold own_annotation in H. destruct (negb (is_null (r_annot n))) eqn:Nn; [|destruct H]. destruct (r_key n) as [key'|] eqn:Kn; cbn [opt_str_eqb andb] in H; [|destruct H].
    destruct (str_eqb_spec key key') as [->|]; [|destruct H]. cbn [andb] in H.
    destruct (match inst with Some p => _ | None => _ end); [|destruct H]. destruct H as [<-|[]]. split; [now apply S|].
    intro E. rewrite E in Nn. discriminate.
  - apply in_flat_map in H. destruct H as (kc & H1 & H2). rewrite Forall_forall in IH, C. exact (IH kc H1 (C kc H1) a H2).
Qed.
Lemma union_safe key c : find_class d key = Some c -> (forall a, shape_of c a -> a <> JNull -> exists l, a = JArr l) ->
  forall l, (forall a, In a l -> shape key a /\ a <> JNull) -> exists u, union_annots l = Ok u.
Proof.
  intros Fc A. induction l as [|a l IH]; intro H; [now exists []|]. destruct (H a (or_introl eq_refl)) as [S N]. unfold shape in S. rewrite Fc in S.
  destruct (A a S N) as [l' ->]. cbn [union_annots]. destruct IH as [u E]; [intros b Hb; apply H; now right|]. rewrite E. cbn [bind]. eauto.
Qed.
Lemma last_safe key : find_class d key = Some KPrefixItems -> forall l z, (forall a, In a l -> shape key a /\ a <> JNull) -> exists u, last_evaluated z l = Ok u.
Proof.
  intros Fc. induction l as [|a l IH]; intros z H; [cbn; eauto|]. destruct (H a (or_introl eq_refl)) as [S N]. unfold shape in S. rewrite Fc in S.
  destruct S as [S|[->|[z' ->]]]; [congruence|cbn; eauto|]. cbn [last_evaluated]. apply IH. intros b Hb. apply H. now right.
Qed.
Lemma sibling_right parent i key n : rightly parent -> sibling parent i key = Some n ->
  exists s kws k, w_schema W s = SObj kws /\ In (key, k) kws /\ at_ W n (sn_of (kw_json k)).
Proof.
  intros R H. unfold sibling in H. apply cget_In in H. pose proof (proj1 (Forall_forall _ _) R _ H) as (_ & s & kws & k & A). cbn [fst snd] in A. eauto.
Qed.
Lemma sibling_mild parent i key n : rightly parent -> mildly parent -> sibling parent i key = Some n -> shape key (r_annot n).
Proof.
  intros R M H. unfold sibling in H. apply cget_In in H. pose proof (proj1 (Forall_forall _ _) R _ H) as (K & _). cbn [fst snd] in K.
  pose proof (proj1 (Forall_forall _ _) M _ H) as Mn. cbn [snd] in Mn. inversion Mn; subst. auto.
Qed.
Lemma class_of s kws key k c : w_schema W s = SObj kws -> In (key, k) kws -> find_class d key = Some c -> kw_class k = Std c.
Proof. intros Ws H F. destruct (Hg s kws Ws) as [_ V]. destruct (V key k H) as (_ & E & _). now rewrite F in E. Qed.
Lemma names_safe parent i key c : rightly parent -> find_class d key = Some c -> c = KProperties \/ c = KPatternProperties ->
  exists l, sibling_names W parent i key = Ok l /\ (c = KPatternProperties -> forall r x, In r l -> w_search W r x <> None).
Proof.
  intros R F C. unfold sibling_names. destruct (sibling parent i key) as [n|] eqn:E; [|exists []; split; [reflexivity|contradiction]].
  destruct (sibling_right _ _ _ _ R E) as (s & kws & k & Ws & H & A). pose proof (class_of _ _ _ _ _ Ws H F) as Kc.
  destruct (Hs s kws key k Ws H) as (T & (_ & Cp) & _). unfold at_ in A. rewrite A. cbn [bind]. unfold typed in T. rewrite Kc in T.
  destruct C as [->| ->]; destruct (kw_json k) as [| | |m] eqn:J; try discriminate; cbn [sn_of]; exists (keys m).
  - split; [reflexivity|discriminate].
  - split; [reflexivity|]. intros _ r x Hr. unfold keys in Hr. apply in_map_iff in Hr. destruct Hr as ([r' t] & <- & Hr). exact (Cp m r' t x Kc eq_refl Hr).
Qed.
Lemma any_search_safe name : forall l, (forall r x, In r l -> w_search W r x <> None) -> exists b, any_search W l name = Ok b.
Proof.
  induction l as [|r l IH]; intro H; [cbn; eauto|]. cbn [any_search]. pose proof (H r name (or_introl eq_refl)) as Hr.
  destruct (w_search W r name) as [[|]|]; [eauto|apply IH; intros; apply H; now right|congruence].
Qed.
Lemma additional_safe known patterns : (forall r x, In r patterns -> w_search W r x <> None) -> forall l,
  exists todo, additional W known patterns l = Ok todo /\ forall nj, In nj todo -> In nj l.
Proof.
  intro H. induction l as [|[name j] l [todo [E I]]]; [exists []; split; [reflexivity|intros ? []]|]. cbn [additional].
  destruct (mem_str name known); [exists todo; split; [exact E|intros; right; auto]|].
  destruct (any_search_safe name patterns H) as [b ->]. cbn [bind]. rewrite E. cbn [bind]. destruct b; eexists; (split; [reflexivity|]).
  - intros; right; auto.
  - intros nj [->|Hn]; [now left|right; auto].
Qed.
Lemma dynamic_safe k chain : (forall b t, w_anchor W b (kw_fragment k) = Some t -> is_object W t) -> forall checked cur,
  exists t, dynamic_target W (kw_fragment k) chain checked cur = Ok t.
Proof.
  intro H. induction chain as [|u chain IH]; intros checked cur; cbn [dynamic_target]; [eauto|].
  destruct (w_base W u) as [b|]; [|auto]. destruct (mem_str b checked); [auto|]. destruct (w_anchor W b (kw_fragment k)) as [found|] eqn:E; [|auto].
  destruct (H b found E) as [kws Ws]. unfold has_dynamic_anchor. rewrite Ws. cbn [bind]. auto.
Qed.
Lemma recursive_safe chain : objects chain -> forall cur, exists t, recursive_target W chain cur = Ok t.
Proof.
  induction 1 as [|u chain [kws Ws] O IH]; intro cur; cbn [recursive_target]; [eauto|]. unfold has_recursive_anchor. rewrite Ws. cbn [bind]. auto.
Qed.

(** ** The keywords. *)
Variable legacy : bool.
Hypothesis Hd : dialect legacy d.
Lemma has_prefix c : In c d -> c = KItems \/ c = KUnevaluatedItems -> find_class d (lit "prefixItems") = Some KPrefixItems.
Proof.
  intros I C. unfold dialect in Hd. destruct legacy; [|destruct Hd as [E|E]; rewrite E; vm_compute; reflexivity].
  exfalso. rewrite Hd in I. destruct C as [-> | ->]; vm_compute in I; intuition discriminate.
Qed.
Lemma has_contains : find_class d (lit "contains") = Some KContains.
Proof. unfold dialect in Hd. destruct legacy; [|destruct Hd as [E|E]]; [rewrite Hd|rewrite E|rewrite E]; vm_compute; reflexivity. Qed.
Lemma has_properties : find_class d (lit "properties") = Some KProperties.
Proof. unfold dialect in Hd. destruct legacy; [|destruct Hd as [E|E]]; [rewrite Hd|rewrite E|rewrite E]; vm_compute; reflexivity. Qed.
Lemma has_pattern : find_class d (lit "patternProperties") = Some KPatternProperties.
Proof. unfold dialect in Hd. destruct legacy; [|destruct Hd as [E|E]]; [rewrite Hd|rewrite E|rewrite E]; vm_compute; reflexivity. Qed.
Lemma has_additional : find_class d (lit "additionalProperties") = Some KAdditionalProperties.
Proof. unfold dialect in Hd. destruct legacy; [|destruct Hd as [E|E]]; [rewrite Hd|rewrite E|rewrite E]; vm_compute; reflexivity. Qed.
Lemma has_unevaluated : find_class d (lit "unevaluatedProperties") = Some (if legacy then KUnevaluatedProperties2019 else KUnevaluatedProperties).
Proof. unfold dialect in Hd. destruct legacy; [|destruct Hd as [E|E]]; [rewrite Hd|rewrite E|rewrite E]; vm_compute; reflexivity. Qed.

Definition told (c : stdclass) (n n' : rnode) : Prop := done W n n' /\ mildly n' /\ shape_of c (r_annot n').
Section Keyword.
Variable i : inst.
Variable anc : list sid.
Variable parent result : rnode.
Hypothesis Fi : finite_numbers (i_val i) = true.
Hypothesis Pr : rightly parent.
Hypothesis Pm : mildly parent.
Hypothesis Pn : r_annot parent = JNull.
Hypothesis Rc : r_children result = [].
Hypothesis Rn : r_annot result = JNull.
Hypothesis Ro : objects (r_schema result :: anc).

Lemma fresh_kin : kin W result. Proof. unfold kin. rewrite Rc. constructor. Qed.
Lemma fresh_mild : mildly result. Proof. unfold mildly. rewrite Rc. constructor. Qed.
Lemma fresh_right : rightly result. Proof. unfold rightly. rewrite Rc. constructor. Qed.
Lemma parent_mild : mild parent. Proof. constructor; [|exact Pm]. intros key _. rewrite Pn. apply shape_null. Qed.
Lemma told_same c n' : same result n' -> r_children n' = [] -> shape_of c (r_annot n') -> told c result n'.
Proof. intros S C A. split; [split; [unfold kin; rewrite C; constructor|exact S]|]. split; [unfold mildly; rewrite C; constructor|exact A]. Qed.
Lemma told_here c : told c result result.
Proof. apply told_same; [apply same_refl|exact Rc|]. left. exact Rn. Qed.
Lemma told_left c n' : left result n' -> told c result n'.
Proof. intros (D & M & A). split; [exact D|]. split; [exact M|]. left. congruence. Qed.
Lemma told_fail c n' e : left result n' -> told c result (fail n' e).
Proof. intros (D & M & A). split; [exact D|]. split; [exact M|]. left. cbn. congruence. Qed.
Lemma told_annot c n' a : left result n' -> shape_of c a -> told c result (annotate n' a).
Proof. intros (D & M & A) S. split; [exact D|]. split; [exact M|exact S]. Qed.
Lemma told_check c b msg : told c result (check b msg result).
Proof. destruct b; [apply told_here|]. apply told_same; [repeat split|exact Rc|left; exact Rn]. Qed.
Lemma told_tell c b msg : (exists t, msg = Ok t) -> Safe (told c result) (tell b msg result).
Proof. intros [t ->]. unfold tell. destruct b; [apply told_here|]. cbn [bind Safe]. apply told_check. Qed.
Hint Resolve fresh_kin fresh_mild fresh_right told_here told_left : safe.

Lemma may_here t j : finite_numbers (i_val j) = true -> at_ W result (SNSchema t) -> may t j anc result.
Proof. intros F A. split; [exact F|]. split; [apply fresh_kin|]. split; [auto|]. split; [apply fresh_mild|]. split; [apply fresh_right|]. now split. Qed.

Lemma each_here t l : (forall j, In j l -> finite_numbers (i_val j) = true) -> at_ W result (SNSchema t) -> Safe (left1 result) (each ev t anc l result).
Proof. intros F A. apply safe_each; auto with safe. Qed.
Lemma items_from_safe c start_ t : c <> KPrefixItems -> shape_of c (JBool true) -> at_ W result (SNSchema t) -> Safe (told c result) (e_items_from ev start_ t i anc result).
Proof.
  intros Nc Sc A. unfold e_items_from. eapply safe_bind; [apply each_here; [|exact A]|].
  - intros j H. apply finite_items with i; [exact Fi|]. exact (skipn_In _ _ _ H).
  - intros [r bs] L. unfold left1 in L. cbn [fst] in L. cbn [Safe]. destruct (positions false start_ bs); [|now apply told_fail].
    apply told_annot; [exact L|]. destruct bs; [now left|exact Sc].
Qed.
Lemma unevaluated_from_safe c last skip t : shape_of c (JBool true) -> at_ W result (SNSchema t) -> Safe (told c result) (e_unevaluated_from ev last skip t i anc result).
Proof.
  intros Sc A. unfold e_unevaluated_from. cbv zeta. eapply safe_bind; [apply each_here; [|exact A]|].
  - intros j H. apply in_map_iff in H. destruct H as (kj & <- & H). apply finite_items with i; [exact Fi|]. apply unskipped_In in H. exact (skipn_In _ _ _ H).
  - intros [r bs] L. unfold left1 in L. cbn [fst] in L. cbn [Safe]. destruct (failing _ _ _); [|now apply told_fail].
    apply told_annot; [exact L|]. destruct bs; [now left|exact Sc].
Qed.
Lemma members_safe c todo t : (forall l, shape_of c (JArr l)) -> (forall nj, In nj todo -> In nj (members_of i)) -> at_ W result (SNSchema t) ->
  Safe (told c result) (e_members ev todo t anc result).
Proof.
  intros Sc T A. unfold e_members. eapply safe_bind; [apply each_here; [|exact A]|].
  - intros j H. apply in_map_iff in H. destruct H as (nj & <- & H). apply finite_members with i; [exact Fi|auto].
  - intros [r bs] L. unfold left1 in L. cbn [fst] in L. cbn [Safe]. destruct (failing _ _ _); [|now apply told_fail]. apply told_annot; [exact L|apply Sc].
Qed.

Lemma safe_std s kws key k c : w_schema W s = SObj kws -> In (key, k) kws -> kw_class k = Std c -> applicable k i = true -> at_ W result (sn_of (kw_json k)) ->
  (forall t, goes W k c (r_schema result :: anc) t -> Safe (gone result) (ev t i anc result)) ->
  Safe (told c result) (eval_std W ev k c i anc parent result).
Proof.
  intros Ws Hk KC Ap A G. destruct (Hs s kws key k Ws Hk) as (T & (Cp & Cpp) & (Ad & Ar)). destruct (Hg s kws Ws) as [_ V]. destruct (V key k Hk) as (Vk & Fc & _). clear V.
  assert (Id : In c d). { rewrite KC in Fc. destruct (find_class d key) eqn:E; [|discriminate]. injection Fc as <-. exact (in_dialect _ _ _ E). }
  unfold value_ok in Vk. apply andb_true_iff in Vk. destruct Vk as [Vm Vk]. rewrite KC in Vk. unfold typed in T. rewrite KC in T.
  unfold applicable in Ap. rewrite KC in Ap. apply andb_true_iff in Ap. destruct Ap as [_ Ap]. cbn [instance_types] in Ap.
  assert (Q : told c result result) by apply told_here.
  assert (Sub : forall g, (exists t, kw_json k = KSub t) -> (forall t, at_ W result (SNSchema t) -> Safe (told c result) (g t)) -> Safe (told c result) (with_sub (kw_json k) g)).
  { intros g [t E] H. rewrite E in *. apply H, A. }
  assert (Subs : forall g, (exists l, kw_json k = KSubs l) -> (forall l, at_ W result (SNJson (KSubs l)) -> Safe (told c result) (g l)) -> Safe (told c result) (with_subs (kw_json k) g)).
  { intros g [l E] H. rewrite E in *. apply H, A. }
  assert (Pref : forall g, (exists l, kw_json k = KSubs l) -> (forall l, at_ W result (SNJson (KSubs l)) -> Safe (told c result) (g l)) -> Safe (told c result) (with_prefix (kw_json k) i g)).
  { intros g [l E] H. rewrite E in *. apply H, A. }
  assert (Subm : forall g, (exists m, kw_json k = KSubm m) -> (forall m, kw_json k = KSubm m -> at_ W result (SNJson (KSubm m)) -> NoDup (keys m) -> Safe (told c result) (g m)) -> Safe (told c result) (with_subm (kw_json k) g)).
  { intros g [m E] H. rewrite E in *. apply H; [reflexivity|exact A|]. now apply nodup_keysb_NoDup. }
  assert (L : forall bad x before after, (exists y, kw_json k = KJ (JNum y) /\ finite_numbers (JNum y) = true) -> Safe (told c result) (limit W bad x (kw_json k) before after result)).
  { intros bad x before after (y & E & Fy). unfold limit. rewrite E. apply told_tell, said_finite, Fy. }
  assert (An : (exists v, kw_json k = KJ v) -> (forall v, shape_of c v) -> Safe (told c result) (e_annotation (kw_json k) result)).
  { intros [v E] Sv. rewrite E. cbn [e_annotation Safe]. apply told_same; [repeat split|exact Rc|apply Sv]. }
  assert (E : forall t, at_ W result (SNSchema t) -> Safe (gone result) (ev t i anc result)) by (intros t At; now apply Hev, may_here).
  assert (Er : forall t, goes W k c (r_schema result :: anc) t -> Safe (told c result) (let* r := ev t i anc result in Ok (refschema r t))).
  { intros t Gt. eapply safe_bind; [exact (G t Gt)|]. intros r [Lr _]. exact (told_left c r Lr). }
  assert (Dis : Safe (told c result) (Ok (discard result))) by (apply told_same; [repeat split|exact Rc|left; exact Rn]).
  assert (Fi' : forall j, In j (items_of i) -> finite_numbers (i_val j) = true) by (intros j; now apply finite_items).
  assert (Fm' : forall nj, In nj (members_of i) -> finite_numbers (i_val (snd nj)) = true) by (intros nj; now apply finite_members).
  assert (Col : forall key' a, In a (collect_annotations (Some (i_path i)) (Some key') parent) -> shape key' a /\ a <> JNull) by (intros key' a; apply collect_shape, parent_mild).
  destruct c; cbn [eval_std]; try exact Q;
    try (apply L; destruct (kw_json k) as [[| |[]| | |]| | |]; try discriminate; eexists; split; reflexivity; fail);
    try (apply An; [destruct (kw_json k); try discriminate; eauto|intro; right; exact I]; fail);
    try (apply Sub; [destruct (kw_json k); try discriminate; eauto|]; intros t At);
    try (apply Subs; [destruct (kw_json k); try discriminate; eauto|]; intros l Al);
    try (apply Pref; [destruct (kw_json k); try discriminate; eauto|]; intros l Al);
    try (apply Subm; [destruct (kw_json k); try discriminate; eauto|]; intros m Jm Am Nm).
  - unfold e_ref. destruct (kw_ref k) as [t0|] eqn:R; [|discriminate]. apply Er. now exists t0.
  - unfold e_dynamicRef. destruct (kw_ref k) as [t0|] eqn:R; [|discriminate]. destruct (kw_dynamic k) eqn:Dy.
    + destruct (dynamic_safe k (r_schema result :: anc) (fun b t => Ad b t KC eq_refl) [] t0) as [t Et]. rewrite Et. cbn [bind]. apply Er. exists t0. split; [exact R|]. now rewrite Dy.
    + cbn [bind]. apply Er. exists t0. split; [exact R|]. now rewrite Dy.
  - unfold e_recursiveRef. destruct (kw_ref k) as [t0|] eqn:R; [|discriminate]. destruct (Ar t0 KC eq_refl) as [kws0 W0].
    destruct (has_recursive_anchor W t0) as [a| |] eqn:Ha; [|unfold has_recursive_anchor in Ha; rewrite W0 in Ha; discriminate..]. cbn [bind]. destruct a.
    + destruct (recursive_safe _ Ro t0) as [t Et]. rewrite Et. cbn [bind]. apply Er. exists t0. split; [exact R|]. now exists true.
    + cbn [bind]. apply Er. exists t0. split; [exact R|]. now exists false.
  - unfold e_allOf. eapply safe_bind; [apply (safe_branches _ i anc l Fi 0 result fresh_kin fresh_mild Ro Al), leads_nth|]. intros [r bs] Q1. cbn [Safe]. destruct (forallb _ _); [now apply told_left|now apply told_fail].
  - unfold e_anyOf. eapply safe_bind; [apply (safe_branches _ i anc l Fi 0 result fresh_kin fresh_mild Ro Al), leads_nth|]. intros [r bs] Q1. cbn [Safe]. destruct (existsb _ _); [now apply told_left|now apply told_fail].
  - unfold e_oneOf. eapply safe_bind; [apply (safe_branches _ i anc l Fi 0 result fresh_kin fresh_mild Ro Al), leads_nth|]. intros [r bs] Q1. cbn [Safe]. destruct (Nat.eqb _ _); [now apply told_left|now apply told_fail].
  - unfold e_not. eapply safe_bind; [apply E, At|]. intros r [Q1 _]. cbn [Safe]. destruct (passed r); [now apply told_fail|exact (told_left _ _ Q1)].
  - unfold e_if. eapply safe_bind; [apply E, At|]. intros r [Q1 _]. exact (told_left _ _ Q1).
  - unfold e_branch. destruct (sibling _ _ _) as [sb|]; [|exact Dis]. destruct (Bool.eqb _ _); [|exact Dis]. eapply safe_weaken; [|apply E, At]. intros r [Q1 _]. exact (told_left _ _ Q1).
  - unfold e_branch. destruct (sibling _ _ _) as [sb|]; [|exact Dis]. destruct (Bool.eqb _ _); [|exact Dis]. eapply safe_weaken; [|apply E, At]. intros r [Q1 _]. exact (told_left _ _ Q1).
  - unfold e_dependentSchemas. eapply safe_bind; [apply (safe_dependents _ i anc m Fi result fresh_kin fresh_mild Ro Am); intros; now apply leads_in|].
    intros [r [g b]] Q1. cbn [Safe]. destruct b; [apply told_annot; [exact Q1|right; exact I]|now apply told_fail].
  - unfold e_prefixItems. eapply safe_bind; [apply (safe_pairwise _ anc (items_of i) l 0 result Fi' fresh_kin fresh_mild Ro Al), leads_nth|]. intros [r bs] Q1. cbn [Safe].
    destruct (positions false 0 bs); [|now apply told_fail]. destruct bs; [now apply told_left|]. apply told_annot; [exact Q1|]. right. destruct (Nat.eqb _ _); [now left|right; unfold jint; eauto].
  - unfold e_items. destruct (sibling _ _ _) as [n|] eqn:Sp; [|apply items_from_safe; [discriminate|right; exact I|exact At]].
    destruct (sibling_right _ _ _ _ Pr Sp) as (s' & kws' & k' & Ws' & H' & A'). pose proof (class_of _ _ _ _ _ Ws' H' (has_prefix _ Id (or_introl eq_refl))) as Kc'.
    destruct (Hs s' kws' _ k' Ws' H') as (T' & _). unfold typed in T'. rewrite Kc' in T'. unfold at_ in A'. rewrite A'. cbn [bind].
    destruct (kw_json k'); try discriminate. cbn [sn_of]. apply items_from_safe; [discriminate|right; exact I|exact At].
  - unfold e_unevaluatedItems. cbv zeta. destruct (last_safe _ (has_prefix _ Id (or_intror eq_refl)) _ (-1)%Z (Col _)) as [[z|] ->]; cbn [bind]; [|exact Dis].
    destruct (_ || _); [exact Dis|]. destruct (union_safe _ _ has_contains) with (l := collect_annotations (Some (i_path i)) (Some (lit "contains")) parent) as [u ->]; [intros a [S|S] N; [contradiction|exact S]|apply Col|].
    cbn [bind]. apply unevaluated_from_safe; [right; exact I|exact At].
  - unfold e_contains. eapply safe_bind; [apply each_here; [exact Fi'|exact At]|]. intros [r bs] Q1. cbv zeta. cbn [Safe].
    assert (X : told KContains result (annotate r (JArr (positions true 0 bs)))) by (apply told_annot; [exact Q1|right; eauto]). destruct (positions true 0 bs); exact X.
  - unfold e_properties. eapply safe_bind; [apply (safe_named (SNJson (KSubm m)))|].
    + intros name t H. apply leads_in; [exact Nm|now apply dget_In].
    + exact Fm'.
    + apply fresh_kin.
    + apply fresh_mild.
    + exact Ro.
    + exact Am.
    + intros [r [g b]] Q1. cbn [Safe]. destruct b; [apply told_annot; [exact Q1|right; eauto]|now apply told_fail].
  - unfold e_patternProperties. eapply safe_bind; [apply (safe_patterned (SNJson (KSubm m)))|].
    + intros r t H. split; [now apply leads_in|]. intro x. exact (Cpp m r t x KC Jm H).
    + exact Fm'.
    + apply fresh_kin.
    + apply fresh_mild.
    + exact Ro.
    + exact Am.
    + intros [r [g b]] Q1. cbn [Safe]. destruct b; [apply told_annot; [exact Q1|right; eauto]|now apply told_fail].
  - unfold e_additionalProperties. destruct (names_safe parent i _ _ Pr has_properties (or_introl eq_refl)) as (known & -> & _). cbn [bind].
    destruct (names_safe parent i _ _ Pr has_pattern (or_intror eq_refl)) as (pats & -> & Hp). cbn [bind].
    destruct (additional_safe known pats (Hp eq_refl) (members_of i)) as (todo & -> & Ht). cbn [bind]. apply members_safe; [right; eauto|exact Ht|exact At].
  - unfold e_unevaluatedProperties. cbv zeta.
    destruct (union_safe _ _ has_properties (fun a S N => match S with or_introl e => False_ind _ (N e) | or_intror x => x end) _ (Col _)) as [u1 ->]. cbn [bind].
    destruct (union_safe _ _ has_pattern (fun a S N => match S with or_introl e => False_ind _ (N e) | or_intror x => x end) _ (Col _)) as [u2 ->]. cbn [bind].
    destruct (union_safe _ _ has_additional (fun a S N => match S with or_introl e => False_ind _ (N e) | or_intror x => x end) _ (Col _)) as [u3 ->]. cbn [bind].
    destruct (union_safe _ _ has_unevaluated) with (l := collect_annotations (Some (i_path i)) (Some (lit "unevaluatedProperties")) parent) as [u4 ->]; [intros a S N; destruct legacy; destruct S as [S|S]; (contradiction || exact S)|apply Col|]. cbn [bind].
    apply members_safe; [right; eauto|intros nj Hn; apply filter_In in Hn; exact (proj1 Hn)|exact At].
  - unfold e_propertyNames. cbv zeta. eapply safe_bind; [apply each_here; [|exact At]|].
    + intros j H. rewrite map_map in H. apply in_map_iff in H. destruct H as (nj & <- & _). reflexivity.
    + intros [r bs] Q1. cbn [Safe]. destruct (failing _ _ _); [now apply told_left|now apply told_fail].
  - unfold e_items_2019. destruct (items_of i) as [|j js] eqn:J; [exact Q|]. rewrite <- J in *. destruct (kw_json k) as [|t|l|]; try discriminate.
    + destruct (w_schema W t) as [bb|kws1]; [eapply safe_weaken; [|apply E, A]; intros r [Q1 _]; exact (told_left _ _ Q1)|].
      eapply safe_bind; [apply safe_each_noreset; auto with safe|]. intros r Q1. cbn [Safe]. destruct (passed r); [apply told_annot; [exact Q1|right; exact I]|now apply told_left].
    + eapply safe_bind; [apply (safe_pairwise _ anc (items_of i) l 0 result Fi' fresh_kin fresh_mild Ro A), leads_nth|]. intros [r bs] Q1. cbn [Safe].
      destruct (positions false 0 bs); [apply told_annot; [exact Q1|right; exact I]|now apply told_fail].
  - unfold e_additionalItems. destruct (sibling _ _ _) as [n|]; [|exact Dis]. destruct (r_annot n) as [| |[]| | |]; try exact Dis. apply items_from_safe; [discriminate|right; exact I|exact At].
  - unfold e_unevaluatedItems_2019. cbv zeta. destruct (last_evaluated_2019 _ _); [|exact Dis]. destruct (_ || _); [exact Dis|]. apply unevaluated_from_safe; [right; exact I|exact At].
  - unfold e_unevaluatedProperties. cbv zeta.
    destruct (union_safe _ _ has_properties (fun a S N => match S with or_introl e => False_ind _ (N e) | or_intror x => x end) _ (Col _)) as [u1 ->]. cbn [bind].
    destruct (union_safe _ _ has_pattern (fun a S N => match S with or_introl e => False_ind _ (N e) | or_intror x => x end) _ (Col _)) as [u2 ->]. cbn [bind].
    destruct (union_safe _ _ has_additional (fun a S N => match S with or_introl e => False_ind _ (N e) | or_intror x => x end) _ (Col _)) as [u3 ->]. cbn [bind].
    destruct (union_safe _ _ has_unevaluated) with (l := collect_annotations (Some (i_path i)) (Some (lit "unevaluatedProperties")) parent) as [u4 ->]; [intros a S N; destruct legacy; destruct S as [S|S]; (contradiction || exact S)|apply Col|]. cbn [bind].
    apply members_safe; [right; eauto|intros nj Hn; apply filter_In in Hn; exact (proj1 Hn)|exact At].
  - unfold e_type. cbv zeta. eapply safe_bind with (P := fun _ => True); [|intros b _; apply told_tell, said_plain; destruct (kw_json k) as [[| | |?|l|]| | |]; try discriminate Vk; eexists; (split; [reflexivity|]); [reflexivity|]; cbn [finite_numbers]; destruct (strings l) eqn:Sl; [now apply (strings_finite l l0)|discriminate]].
    destruct (mem_str _ _); [exact I|]. destruct (i_val i) as [| |n| | |]; try exact I. destruct (mem_str _ _); [|exact I]. destruct n; try exact I; discriminate Fi.
  - unfold e_enum. destruct (kw_json k) as [[]| | |]; try discriminate. cbn [iterated bind]. apply told_check.
  - unfold e_const. destruct (kw_json k); try discriminate. apply told_check.
  - unfold e_multipleOf. destruct (kw_json k) as [[| |y| | |]| | |]; try discriminate. assert (Fy : finite_numbers (JNum y) = true) by (destruct y; (reflexivity || discriminate)).
    apply told_tell. destruct (invalid_operation _ _ _); [|apply said_finite, Fy]. destruct (dumps_finite (writer W) _ Fi) as [a ->]. destruct (dumps_finite (writer W) _ Fy) as [b ->]. cbn [bind]. eauto.
  - unfold e_pattern. destruct (kw_json k) as [[| | |rx| |]| | |] eqn:J; try discriminate. destruct (i_val i) as [| | |x| |]; try discriminate Ap.
    pose proof (Cp rx x KC eq_refl) as C0. destruct (w_search W rx x); [apply told_tell, said_finite; reflexivity|congruence].
  - unfold e_uniqueItems. destruct (i_val i); try discriminate Ap. destruct (truthy _); [apply told_check|exact Q].
  - unfold e_maxContains. destruct (sibling _ _ _) as [n|] eqn:Sc; [|exact Q]. pose proof (sibling_mild _ _ _ _ Pr Pm Sc) as S. unfold shape in S. rewrite has_contains in S.
    destruct S as [S|[l S]]; rewrite S; [exact Q|]. cbn [is_null annot_len bind]. apply L. destruct (kw_json k) as [[| |[]| | |]| | |]; try discriminate; eexists; split; reflexivity.
  - unfold e_required. destruct (kw_json k) as [[]| | |]; try discriminate. cbn [iterated_nodes bind]. apply told_check.
  - unfold e_dependentRequired. destruct (kw_json k) as [[| | | | |m]| | |]; try discriminate. cbn [iterated_items bind]. eapply safe_bind with (P := fun missing => Forall (fun nl => Forall (fun v => finite_numbers v = true) (snd nl)) missing);
      [|intros b Fb; apply told_tell; destruct (missing_finite W b Fb) as [ts ->]; cbn [bind]; eauto].
    clear - Vk. induction m as [|[name deps] m IH]; [constructor|]. cbn [forallb snd] in Vk. apply andb_true_iff in Vk. destruct Vk as [V1 V2].
    cbn [missing_dependents]. destruct (has_member i name); [|auto]. destruct deps as [| | | |l|]; try discriminate. cbn [iterated_nodes bind]. eapply safe_bind; [exact (IH V2)|]. intros rest Fr. cbn [Safe].
    destruct (strings l) as [ns|] eqn:Sl; [|discriminate]. pose proof (strings_finite l ns Sl) as Fs. rewrite forallb_forall in Fs.
    assert (Fm : Forall (fun v => finite_numbers v = true) (missing_names i l)) by (apply Forall_forall; intros v Hv; apply Fs; unfold missing_names in Hv; apply filter_In in Hv; exact (proj1 Hv)).
    destruct (missing_names i l); [exact Fr|]. constructor; assumption.
  - unfold e_format. clear Ap. destruct (kw_json k) as [[| | |v| |]| | |]; try discriminate. cbv zeta.
    assert (X : forall n', same result n' -> r_children n' = [] -> Safe (told KFormat result) (Ok n')) by (intros; apply told_same; [assumption|assumption|right; exact I]).
    destruct (kw_format k); [|apply X; [repeat split|exact Rc]]. destruct (mem_type _ _); [|apply X; [repeat split|exact Rc]]. unfold check. destruct (w_format _ _ _); apply X; repeat split; exact Rc.
  - unfold e_contentSchema. destruct (sibling _ _ _); [apply An; [destruct (kw_json k); try discriminate; eauto|intro; right; exact I]|exact Dis].
Qed.

Lemma safe_keyword s kws key k : kin W parent -> w_schema W s = SObj kws -> In (key, k) kws -> applicable k i = true -> at_ W result (sn_of (kw_json k)) ->
  (forall c t, kw_class k = Std c -> goes W k c (r_schema result :: anc) t -> Safe (gone result) (ev t i anc result)) ->
  Safe (fun pr => (gone parent (fst pr)) /\ done W result (snd pr) /\ mildly (snd pr) /\ shape key (r_annot (snd pr))) (eval_keyword W ev k i anc parent result).
Proof.
  intros Kp Ws Hk Ap A G. destruct (Hg s kws Ws) as [_ V]. destruct (V key k Hk) as (Vk & Fc & _). clear V.
  assert (P : gone parent parent) by (split; [now apply left_refl|exact Pr]).
  assert (X : forall c e, kw_class k = Std c -> Safe (told c result) e ->
    Safe (fun pr => (gone parent (fst pr)) /\ done W result (snd pr) /\ mildly (snd pr) /\ shape key (r_annot (snd pr))) (let* r := e in Ok (parent, r))).
  { intros c e KC H. eapply safe_bind; [exact H|]. intros r (D & M & S). split; [exact P|]. split; [exact D|]. split; [exact M|].
    cbn [snd]. unfold shape. rewrite KC in Fc. destruct (find_class d key); [|exact I]. injection Fc as <-. exact S. }
  unfold eval_keyword. destruct (kw_class k) as [c|u] eqn:KC.
  - assert (Y : Safe (told c result) (eval_std W ev k c i anc parent result)) by (eapply safe_std; eauto).
    destruct c; try (eapply X; [reflexivity|exact Y]). clear X Y. unfold e_minContains.
    assert (R : forall n', same result n' -> r_children n' = [] -> r_annot n' = JNull -> done W result n' /\ mildly n' /\ shape key (r_annot n')).
    { intros n' S C N. split; [split; [unfold kin; rewrite C; constructor|exact S]|]. split; [unfold mildly; rewrite C; constructor|]. rewrite N. apply shape_null. }
    destruct (sibling parent i (lit "contains")) as [cn|] eqn:Sc; [|split; [exact P|]; cbn [snd]; apply R; [apply same_refl|exact Rc|exact Rn]].
    pose proof (sibling_mild _ _ _ _ Pr Pm Sc) as Sh. unfold shape in Sh. rewrite has_contains in Sh.
    assert (N : exists n, (if is_null (r_annot cn) then Ok 0 else annot_len (r_annot cn)) = Ok n) by (destruct Sh as [Sh|[l Sh]]; rewrite Sh; cbn; eauto).
    destruct N as [n ->]. cbn [bind]. unfold value_ok in Vk. apply andb_true_iff in Vk. destruct Vk as [_ Vk]. rewrite KC in Vk.
    destruct (Hs s kws key k Ws Hk) as (T & _). unfold typed in T. rewrite KC in T.
    destruct (kw_json k) as [[| |y| | |]| | |]; try discriminate. assert (Fy : finite_numbers (JNum y) = true) by (destruct y; (reflexivity || discriminate)).
    cbn [num_of]. cbv zeta. match goal with |- context [tell ?b (said W ?x ?v ?z) result] => assert (Tl : exists t, tell b (said W x v z) result = Ok (check b t result)) end.
    { destruct (said_finite W "The array has too few elements matching the ""contains"" subschema (minimum " (JNum y) ")" Fy) as [t ->]. exists t. unfold tell. destruct (num_leb _ _); reflexivity. }
    destruct Tl as [t ->]. cbn [bind Safe]. split.
    + cbn [fst].
      assert (Put : gone parent (put_child parent (lit "contains") i (pass_ cn))).
      { unfold sibling in Sc. apply cget_In in Sc. split; [split; [split; [|repeat split]|split; [|reflexivity]]|].
        - unfold kin, put_child. cbn [with_children r_children]. apply Forall_cput; [|exact Kp].
          pose proof (proj1 (Forall_forall _ _) Kp _ Sc) as Pc. cbn [snd] in *. inversion Pc as [m sn Am Cm]; subst. econstructor; [exact Am|exact Cm].
        - unfold mildly, put_child. cbn [with_children r_children]. apply Forall_cput; [|exact Pm].
          pose proof (proj1 (Forall_forall _ _) Pm _ Sc) as Pc. cbn [snd] in *. inversion Pc; subst. constructor; assumption.
        - unfold rightly, put_child. cbn [with_children r_children]. apply Forall_cput; [|exact Pr].
          exact (proj1 (Forall_forall _ _) Pr _ Sc). }
      destruct (_ && _); [|exact P]. destruct (sibling parent i (lit "maxContains")) as [m|]; [|exact Put]. destruct (r_valid m); [exact Put|exact P].
    + cbn [snd]. unfold check. destruct (num_leb _ _); apply R; try exact Rc; try exact Rn; repeat split.
  - destruct (Hs s kws key k Ws Hk) as (T & _). unfold typed in T. rewrite KC in T. destruct (kw_json k) as [v| | |]; try discriminate. cbn [e_annotation bind Safe].
    split; [exact P|]. cbn [snd]. split; [split; [|repeat split]|].
    + unfold kin. cbn [r_children noassert annotate]. rewrite Rc. constructor.
    + split; [unfold mildly; cbn [r_children noassert annotate]; rewrite Rc; constructor|]. unfold shape. destruct (find_class d key); [discriminate|exact I].
Qed.
End Keyword.
End Ev.

Lemma goes_in_place s kws key k c chain t : w_schema W s = SObj kws -> In (key, k) kws -> kw_class k = Std c -> goes W k c chain t -> in_place W s t.
Proof.
  intros Ws Hk KC (t0 & R & G). destruct c; try contradiction.
  - subst t0. eapply ip_ref; eauto.
  - assert (S0 : in_place W s t0) by (eapply ip_ref; eauto). destruct (kw_dynamic k) eqn:D; [|now injection G as <-].
    destruct (dynamic_target_In _ _ _ _ _ _ G) as [->|(b & Ha & Hd)]; [exact S0|]. eapply ip_dynamic; eauto.
  - assert (S0 : in_place W s t0) by (eapply ip_ref; eauto). destruct G as (a & A & G). destruct a; [|now injection G as <-].
    destruct (recursive_target_In _ _ _ _ G) as [->|Hd]; [exact S0|]. eapply ip_recursive; eauto.
Qed.

Variable legacy : bool.
Hypothesis Hd : dialect legacy d.
Hypothesis Hn : forall s, ~ in_place W s s.

Lemma safe_keywords f s kws0 i : w_schema W s = SObj kws0 -> finite_numbers (i_val i) = true ->
  (forall s i anc n, may s i anc n -> Safe (gone n) (evaluate W f s i anc n)) ->
  forall anc kws node, (forall key k, In (key, k) kws -> In (key, k) kws0) -> may s i anc node ->
  Safe (gone node) (eval_keywords W (evaluate W f) s kws i anc node).
Proof.
  intros Ws Fi Hev anc. induction kws as [|[key k] kws IH]; intros node Sub (_ & K & A & M & R & N & O); cbn [eval_keywords]; [split; [now apply left_refl|exact R]|].
  assert (Hk : In (key, k) kws0) by (apply Sub; now left).
  assert (Sub' : forall key k, In (key, k) kws -> In (key, k) kws0) by (intros; apply Sub; now right).
  destruct (applicable k i) eqn:Ap; [|apply IH; [exact Sub'|repeat (split; try assumption)]]. cbv zeta. set (c0 := new_child node key i s).
  assert (A0 : at_ W c0 (sn_of (kw_json k))).
  { unfold at_, schema_node, c0, new_child. cbn [r_schema r_relpath]. destruct (Hg s kws0 Ws) as [Nd _].
    assert (B : sn_child W (SNSchema s) key = Ok (sn_of (kw_json k))) by (cbn [sn_child]; unfold schema_keywords; rewrite Ws; now rewrite (In_dget _ _ _ Nd Hk)).
    destruct (Nat.eqb_spec s (r_schema node)) as [E|E].
    - rewrite sn_walk_app. specialize (A (eq_sym E)). unfold at_, schema_node in A. rewrite <- E in A. rewrite A. cbn [bind sn_walk]. now rewrite B.
    - cbn [sn_walk]. now rewrite B. }
  assert (Kp : kin W (put_child node key i c0)).
  { unfold kin, put_child. cbn [with_children r_children]. apply Forall_cput; [|exact K]. econstructor; [exact A0|constructor]. }
  assert (Mp : mildly (put_child node key i c0)).
  { unfold mildly, put_child. cbn [with_children r_children]. apply Forall_cput; [|exact M]. constructor; [|constructor]. intros. apply shape_null. }
  assert (Rp : rightly (put_child node key i c0)).
  { unfold rightly, put_child. cbn [with_children r_children]. apply Forall_cput; [|exact R]. split; [reflexivity|]. exists s, kws0, k. auto. }
  assert (Oc : objects (r_schema c0 :: r_schema node :: anc)).
  { constructor; [|exact O]. exists kws0. exact Ws. }
  eapply safe_bind; [apply (safe_keyword _ Hev legacy Hd i (r_schema node :: anc) _ c0 Fi Rp Mp N eq_refl eq_refl Oc s kws0 key k Kp Ws Hk Ap A0)|].
  - intros c t KC G. apply Hev. split; [exact Fi|]. split; [constructor|]. split.
    + intro E. exfalso. apply (Hn s). cbn [c0 new_child r_schema] in E. pose proof (goes_in_place _ _ _ _ _ _ _ Ws Hk KC G) as G'. now rewrite <- E in G'.
    + split; [constructor|]. split; [constructor|]. split; [reflexivity|exact Oc].
  - intros [p c] ((((K1 & S1) & M1 & N1) & R1) & (K2 & S2) & M2 & Sh). cbn [fst snd] in *.
    assert (S0 : same node (close_child p key i c)).
    { refine (same_trans _ _ _ (same_trans _ (put_child node key i c0) _ _ S1) (same_close p key i c)). repeat split. }
    assert (Kc : r_key c = Some key) by (destruct S2 as (S2 & _); exact S2).
    assert (Ac : at_ W c (sn_of (kw_json k))) by exact (at_same _ _ _ _ S2 A0).
    assert (L0 : left node (close_child p key i c)).
    { split; [split; [|exact S0]|split].
      - apply kin_close; [exact K1|]. econstructor; [exact Ac|exact K2].
      - apply mildly_close; [exact M1|]. constructor; [|exact M2]. intros key' E. rewrite Kc in E. injection E as <-. exact Sh.
      - rewrite close_annot. exact N1. }
    eapply safe_weaken; [|apply IH].
    + intros n' [L' R']. split; [exact (left_trans _ _ _ L0 L')|exact R'].
    + exact Sub'.
    + split; [exact Fi|]. split; [exact (left_kin _ _ L0)|]. split; [|split; [exact (left_mildly _ _ L0)|split; [|split]]].
      * intro E. apply (at_same _ _ _ _ S0). apply A. destruct S0 as (_ & _ & _ & S0 & _). congruence.
      * unfold close_child. destruct (r_discard c); unfold rightly; cbn [put_child with_children r_children]; [now apply Forall_cdrop|apply Forall_cput; [|exact R1]].
        split; [exact Kc|]. exists s, kws0, k. auto.
      * rewrite close_annot. change (r_annot p = JNull). rewrite N1. exact N.
      * destruct S0 as (_ & _ & _ & S0 & _). rewrite S0. exact O.
Qed.

Theorem evaluate_safe fuel : forall s i anc n, may s i anc n -> Safe (gone n) (evaluate W fuel s i anc n).
Proof.
  induction fuel as [|f IH]; intros s i anc n H; [exact I|]. cbn [evaluate]. pose proof H as (F & K & A & M & R & N & O).
  destruct (w_schema W s) as [[|]|kws] eqn:Ws.
  - split; [now apply left_refl|exact R].
  - split; [split; [split; [exact K|repeat split]|split; [exact M|reflexivity]]|exact R].
  - eapply safe_bind; [apply (safe_keywords f s kws i Ws F IH anc kws n); [auto|exact H]|].
    intros n' D. cbn [Safe]. unfold finish. destruct (existsb _ _); exact D.
Qed.
Theorem evaluate_root_safe fuel s i : finite_numbers (i_val i) = true -> forall e, evaluate_root W fuel s i <> Exn e.
Proof.
  intros F e E. unfold evaluate_root in E. destruct (w_schema W s) as [b|kws] eqn:Ws.
  { destruct fuel; cbn [evaluate] in E; [discriminate|]. rewrite Ws in E. destruct b; discriminate. }
  pose proof (evaluate_safe fuel s i [] (new_root s i)) as H. rewrite E in H. apply H. clear H.
  split; [exact F|]. split; [constructor|]. split; [reflexivity|]. split; [constructor|]. split; [constructor|]. split; [reflexivity|].
  constructor; [|constructor]. exists kws. exact Ws.
Qed.
End Safe.
