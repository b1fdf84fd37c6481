(** Facts about metaschemas. *)
From Coq Require Import Permutation.
From Verif Require Export SpecMeta BuildStays.
From Verif Require Import BaseFacts DepsFacts.
Open Scope nat_scope.

(** ** Dicts of classes. *)
Lemma dget_dset {A} k k' (v : A) m : dget k (dset k' v m) = if str_eqb k k' then Some v else dget k m.
Proof.
  induction m as [|[k0 v0] m IH]; [cbn; reflexivity|]. cbn. destruct (str_eqb k' k0) eqn:E; cbn.
  - apply str_eqb_eq in E. subst. destruct (str_eqb k k0); reflexivity.
  - rewrite IH. destruct (str_eqb k k0) eqn:E1; [|reflexivity]. destruct (str_eqb k k') eqn:E2; [|reflexivity].
    apply str_eqb_eq in E1, E2. subst. rewrite str_eqb_refl in E. discriminate.
Qed.
Lemma update_offers d cs key : dget key (update_classes d cs) = match offered cs key with Some c => Some c | None => dget key d end.
Proof.
  unfold update_classes, offered. rewrite <- fold_left_rev_right. induction (rev cs) as [|c l IH]; [reflexivity|]. cbn. rewrite dget_dset.
  rewrite (str_eqb_sym key (std_key c)). destruct (str_eqb (std_key c) key); [reflexivity|exact IH].
Qed.
Lemma last_offer_app a b key : last_offer (a ++ b) key = match last_offer b key with Some c => Some c | None => last_offer a key end.
Proof. induction a as [|v a IH]; cbn; [now destruct (last_offer b key)|]. rewrite IH. now destruct (last_offer b key). Qed.
Lemma defaults_offer vs : forall d key, dget key (fold_left (fun d v => update_classes d (v_classes v)) vs d) =
  match last_offer vs key with Some c => Some c | None => dget key d end.
Proof.
  induction vs as [|v vs IH]; intros d key; [reflexivity|]. cbn. rewrite IH, update_offers. destruct (last_offer vs key); [reflexivity|]. reflexivity.
Qed.

Lemma get_known vs u : get_vocabulary vs u = match find (fun v => uri_eqb (v_uri v) u) vs with Some v => Ok v | None => Exn ECatalog end.
Proof. reflexivity. Qed.
Section Env.
Variable E : env.
Notation L := (e_lib E).

Lemma gather_offers st l : forall d d' key, gather_classes E (mc_vocabs st) l d = (d', None) ->
  dget key d' = match last_offer (known_among E st (keys l)) key with Some c => Some c | None => dget key d end.
Proof.
  induction l as [|[n r] l IH]; intros d d' key H; [injection H as <-; reflexivity|]. cbn [gather_classes] in H. change (known_among E st (keys ((n, r) :: l))) with ((match known_as st (ul_parse L n) with Some v => [v] | None => [] end) ++ known_among E st (keys l)).
  rewrite last_offer_app. unfold known_as at 1.
  destruct (uri_validate L true true true true _) as [[]| |]; try discriminate H. rewrite get_known in H. destruct (find _ (mc_vocabs st)) as [v|].
  - rewrite (IH _ _ key H), update_offers. cbn [last_offer]. destruct (last_offer (known_among E st (keys l)) key); reflexivity.
  - destruct (truthy (KJ r)); [discriminate H|]. rewrite (IH _ _ key H). cbn [last_offer]. destruct (last_offer (known_among E st (keys l)) key); reflexivity.
Qed.
Lemma gather_known st l : forall d d', gather_classes E (mc_vocabs st) l d = (d', None) -> forall n r, In (n, r) l -> truthy (KJ r) = true -> known_as st (ul_parse L n) <> None.
Proof.
  induction l as [|[n0 r0] l IH]; intros d d' H n r Hin T; [destruct Hin|]. cbn [gather_classes] in H.
  destruct (uri_validate L true true true true _) as [[]| |]; try discriminate H. rewrite get_known in H. unfold known_as. destruct Hin as [X|Hin].
  - injection X as -> ->. destruct (find _ (mc_vocabs st)) as [v|]; [discriminate|]. rewrite T in H. discriminate H.
  - destruct (find _ (mc_vocabs st)) as [v|]; [exact (IH _ _ H n r Hin T)|]. destruct (truthy (KJ r0)); [discriminate H|]. exact (IH _ _ H n r Hin T).
Qed.

(** ** When creation succeeds. *)
Lemma new_ok f u v core defaults st s st' : new_metaschema E f u v core defaults st = (Ok s, st') ->
  exists ms vc d, v = JObj ms /\ s = length (c_objs (mc_cat st)) /\
    core_vocabulary E (mc_vocabs st) (dget (lit "$vocabulary") ms) core = Ok vc /\
    match dget (lit "$vocabulary") ms with Some x => vocabulary_keyword E (mc_vocabs st) vc x | None => ([], None) end = (d, None) /\
    same_id E u ms = true /\
    let own := mkMeta (v_uri vc) (complete_classes (match dget (lit "$vocabulary") ms with Some _ => true | None => false end) vc defaults d) in
    construct (with_dialects E (fun w => if uri_eqb w u then Some (provided own) else known_dialects st w)) f meta_id v (Some u) None (mc_cat st) = (Ok s, mc_cat st') /\
    mc_vocabs st' = mc_vocabs st /\
    exists m, mc_metas st' = (s, m) :: mc_metas st /\
      m = if negb (dmem (lit "$id") ms) || has_keyword (mc_cat st') s (lit "$id") then own else mkMeta (v_uri vc) d.
Proof.
  intro H. unfold new_metaschema in H. destruct v as [| | | | |ms]; try discriminate H.
  destruct (core_vocabulary E (mc_vocabs st) (dget (lit "$vocabulary") ms) core) as [vc| |] eqn:Cv; try discriminate H.
  destruct (match dget (lit "$vocabulary") ms with Some x => vocabulary_keyword E (mc_vocabs st) vc x | None => ([], None) end) as [d raised] eqn:Vk.
  destruct raised as [e|].
  { exfalso. match type of H with (let '(r, c) := ?x in _) = _ => destruct x as [r c] eqn:X end. injection H as -> _.
    unfold bindM in X. destruct (new_schema meta_id (Some u) None None (SObj []) (mc_cat st)) as [[s1| |] c1]; [|discriminate X|discriminate X].
    match type of X with (let (r, c') := ?x in _) = _ => destruct x as [[[]| |] c2] end; discriminate X. }
  destruct (same_id E u ms) eqn:Si; [|discriminate H].
  destruct (construct _ f meta_id (JObj ms) (Some u) None (mc_cat st)) as [r c] eqn:C. apply pair_equal_spec in H. destruct H as [-> <-]. cbn [mc_cat mc_vocabs mc_metas].
  exists ms, vc, d. split; [reflexivity|].
  assert (Es : s = length (c_objs (mc_cat st))).
  { unfold construct, construct_with, bindM in C. rewrite build_object_eq in C. unfold bindM in C. rewrite new_schema_eq in C.
    match type of C with (match (match ?b with _ => _ end) with _ => _ end) = _ => destruct b as [[?| |] c1] end; [|discriminate C|discriminate C]. cbn [ret] in C.
    match type of C with (match ?b with _ => _ end) = _ => destruct b as [[?| |] c2] end; [|discriminate C|discriminate C]. injection C as <- _. reflexivity. }
  split; [exact Es|]. split; [exact Cv|]. split; [exact Vk|]. split; [exact Si|]. split; [exact C|]. split; [reflexivity|].
  rewrite <- Es. eexists. split; [reflexivity|]. destruct (negb (dmem (lit "$id") ms) || has_keyword c s (lit "$id")); reflexivity.
Qed.
End Env.

(** ** The catalogs that arise are those of SpecBuild.v. *)
Definition no_dialects (E : env) : env := with_dialects E (fun _ => None).
Lemma no_metaschema E s c : exists e, metaschema (no_dialects E) s c = (Exn e, c).
Proof.
  unfold metaschema, bindM, read. destruct (metaschema_uri (c_objs c) s); [|eexists; reflexivity]. cbn [e_dialect no_dialects with_dialects]. eexists. reflexivity.
Qed.
Lemma bind_ok {A B} (x : M A) (f : A -> M B) c a c' : x c = (Ok a, c') -> bindM x f c = f a c'.
Proof. intro H. unfold bindM. now rewrite H. Qed.
Lemma bind_exn {A B} (x : M A) (f : A -> M B) c e c' : x c = (Exn e, c') -> bindM x f c = (Exn e, c').
Proof. intro H. unfold bindM. now rewrite H. Qed.
Lemma bind_fuel {A B} (x : M A) (f : A -> M B) c c' : x c = (Fuel, c') -> bindM x f c = (Fuel, c').
Proof. intro H. unfold bindM. now rewrite H. Qed.
Lemma broken_reachable E u x e c :
  snd ((do s <- new_schema meta_id (Some u) None None (SObj []);
        do _ <- match x with
                | Some x => add_keyword E s [(lit "$schema", mkMember x (fun _ => throw EOther) [])] (lit "$schema") (Std KSchema_)
                | None => ret tt
                end;
        throw e : M sid) c) =
  snd (construct (no_dialects E) 0 meta_id (JObj (match x with Some x => [(lit "$schema", x)] | None => [] end ++ [([], JNull)])) (Some u) None c).
Proof.
  rewrite (bind_ok _ _ _ _ _ (new_schema_eq _ _ _ _ _ c)). set (c1 := mkCat _ _). set (s := length (c_objs c)).
  assert (Ho : nth_error (c_objs c1) s = Some (mkObj (Some u) None None meta_id (SObj []))) by (unfold c1, s; cbn [c_objs]; apply nth_last).
  unfold construct, construct_with. set (doc := _ ++ _). rewrite build_object_eq. set (mem := map _ doc).
  assert (Tail : forall c2, exists e', (do cs <- classes (no_dialects E) s (filter (fun key => negb (mem_str key bootstrapped)) (keys mem));
                                        do order <- lift (resolve_dependencies kwclass_eqb depends_on (length cs) cs);
                                        each_ (fun c => add_keyword (no_dialects E) s mem (key_of c) c) order) c2 = (Exn e', c2)).
  { intro c2. replace (filter (fun key => negb (mem_str key bootstrapped)) (keys mem)) with [@nil N] by (unfold mem, doc; destruct x; reflexivity).
    destruct (no_metaschema E s c2) as [e' H]. exists e'. apply bind_exn. unfold classes. cbn [mapM]. apply bind_exn. now apply bind_exn. }
  assert (Boot : exists r c2, (match x with
                | Some x => add_keyword E s [(lit "$schema", mkMember x (fun _ => throw EOther) [])] (lit "$schema") (Std KSchema_)
                | None => ret tt
                end) c1 = (r, c2) /\ bootstrap (no_dialects E) s mem c1 = (r, c2)).
  { assert (Hs : add_keyword (no_dialects E) s mem (lit "$schema") (Std KSchema_) c1 = (match x with
                | Some x => add_keyword E s [(lit "$schema", mkMember x (fun _ => throw EOther) [])] (lit "$schema") (Std KSchema_)
                | None => ret tt
                end) c1) by (unfold mem, doc; destruct x; reflexivity).
    destruct (match x with Some x0 => add_keyword E s [(lit "$schema", mkMember x0 (fun _ => throw EOther) [])] (lit "$schema") (Std KSchema_) | None => ret tt end c1) as [r c2] eqn:R.
    exists r, c2. split; [reflexivity|]. unfold bootstrap.
    destruct r as [[]| |]; [rewrite (bind_ok _ _ _ _ _ Hs)|now apply bind_exn|now apply bind_fuel].
    replace (add_keyword (no_dialects E) s mem (lit "$vocabulary") (Std KVocabulary_)) with (@ret unit tt) by (unfold mem, doc; destruct x; reflexivity).
    unfold bindM at 1, ret at 1. replace (dmem (lit "$id") mem) with false by (unfold mem, doc; destruct x; reflexivity). reflexivity. }
  destruct Boot as (r & c2 & H1 & H2).
  assert (Hb : exists rb, build_object (no_dialects E) s mem c1 = (rb, c2) /\ forall a, rb <> Ok a).
  { unfold build_object. unfold bindM at 1, read at 1. rewrite Ho. unfold bindM at 1, ret at 1. destruct r as [[]| |].
    - rewrite (bind_ok _ _ _ _ _ H2). destruct (Tail c2) as [e' T]. exists (Exn e'). split; [exact T|discriminate].
    - rewrite (bind_exn _ _ _ _ _ H2). eexists. split; [reflexivity|discriminate].
    - rewrite (bind_fuel _ _ _ _ H2). eexists. split; [reflexivity|discriminate]. }
  transitivity c2.
  - destruct r as [[]| |]; [rewrite (bind_ok _ _ _ _ _ H1)|rewrite (bind_exn _ _ _ _ _ H1)|rewrite (bind_fuel _ _ _ _ H1)]; reflexivity.
  - destruct Hb as (rb & B & Hb2).
    assert (X : (do s <- new_schema meta_id (Some u) None None (SObj []); do _ <- build_object (no_dialects E) s mem; ret s) c = (match rb with Ok _ => Ok s | Exn e => Exn e | Fuel => Fuel end, c2)).
    { rewrite (bind_ok _ _ _ _ _ (new_schema_eq _ _ _ _ _ c)). fold c1 s. destruct rb as [a| |]; [now destruct (Hb2 a)|now apply bind_exn|now apply bind_fuel]. }
    destruct rb as [a| |]; [now destruct (Hb2 a)|now rewrite (bind_exn _ _ _ _ _ X)|now rewrite (bind_fuel _ _ _ _ X)].
Qed.

Lemma new_reachable E f u v core defaults st : reachable (mc_cat st) -> reachable (mc_cat (snd (new_metaschema E f u v core defaults st))).
Proof.
  intro R. unfold new_metaschema. destruct v; try exact R. destruct (core_vocabulary _ _ _ _) as [vc| |]; try exact R.
  destruct (match dget (lit "$vocabulary") m with Some x => vocabulary_keyword E (mc_vocabs st) vc x | None => ([], None) end) as [d [e|]].
  - match goal with |- context [let '(r, c) := ?x in _] => destruct x as [r c] eqn:X end. cbn [snd mc_cat].
    replace c with (snd (r, c)) by reflexivity. rewrite <- X. rewrite broken_reachable. now apply reach_construct.
  - destruct (same_id E u m); [|exact R]. match goal with |- context [let '(r, c) := ?x in _] => destruct x as [r c] eqn:X end. cbn [snd mc_cat].
    replace c with (snd (r, c)) by reflexivity. rewrite <- X. now apply reach_construct.
Qed.
Lemma create_reachable E see f u core defaults st : reachable (mc_cat st) -> reachable (mc_cat (snd (create_metaschema E see f u core defaults st))).
Proof.
  intro R. unfold create_metaschema. destruct (let* v := _ in _) as [[[v vc] vs]| |]; try exact R.
  pose proof (new_reachable E f u v vc vs st R) as N. destruct (new_metaschema E f u v vc vs st) as [[s| |] st']; exact N.
Qed.
Lemma runs_reachable see st : runs see st -> reachable (mc_cat st).
Proof.
  induction 1 as [|u cs st _ IH|E f u core ds st _ IH|E f u st _ IH|E f id v u m st _ IH|E f id u m st _ IH|id st _ IH].
  - constructor.
  - exact IH.
  - now apply create_reachable.
  - unfold get_metaschema. destruct (cached_metaschema st u); [exact IH|now apply create_reachable].
  - now apply reach_construct.
  - now apply reach_get.
  - now apply reach_leave.
Qed.

(** ** The classes of a metaschema. *)
Lemma offered_key cs key c : offered cs key = Some c -> std_key c = key /\ In c cs.
Proof. unfold offered. intro H. apply find_some in H. destruct H as [H1 H2]. apply str_eqb_eq in H2. split; [exact H2|]. now apply in_rev. Qed.
Lemma last_offer_In vs key c : last_offer vs key = Some c -> exists v, In v vs /\ offered (v_classes v) key = Some c.
Proof.
  induction vs as [|v vs IH]; [discriminate|]. cbn. destruct (last_offer vs key) as [c'|].
  - intro H. injection H as ->. destruct (IH eq_refl) as (v' & H1 & H2). exists v'. auto.
  - intro H. exists v. auto.
Qed.
Lemma last_offer_none vs key : last_offer vs key = None -> forall v, In v vs -> offered (v_classes v) key = None.
Proof.
  induction vs as [|v vs IH]; [intros _ v []|]. cbn. destruct (last_offer vs key); [discriminate|]. intros H v' [->|Hin]; [exact H|exact (IH eq_refl v' Hin)].
Qed.
Lemma every_one c : In c every_class.
Proof. destruct c; vm_compute; tauto. Qed.
Definition well_keyed (d : kwdict) : Prop := forall key c, dget key d = Some c -> std_key c = key.
Lemma find_filter P d key : find_class (filter P d) key = find (fun c => str_eqb (std_key c) key && P c) d.
Proof.
  induction d as [|c d IH]; [reflexivity|]. cbn. destruct (P c); cbn; [rewrite andb_true_r; now rewrite IH|rewrite andb_false_r; exact IH].
Qed.
Lemma find_exactly {A} (P : A -> bool) l x : In x l -> P x = true -> (forall y, P y = true -> y = x) -> find P l = Some x.
Proof.
  intros Hin Hx H. destruct (find P l) as [y|] eqn:F; [apply find_some in F; now rewrite (H y (proj2 F))|]. rewrite (find_none P l F x Hin) in Hx. discriminate.
Qed.
Lemma find_provided m key : well_keyed (m_classes m) -> key <> lit "$id" -> find_class (provided m) key = dget key (m_classes m).
Proof.
  intros W Hk. unfold provided. rewrite find_filter. destruct (dget key (m_classes m)) as [c|] eqn:D.
  - pose proof (W key c D) as Kc. apply find_exactly; [apply every_one| |].
    + rewrite Kc, str_eqb_refl. cbn [andb]. destruct (str_eqb_spec key (lit "$id")); [contradiction|]. rewrite D. apply N.eqb_refl.
    + intros y H. apply andb_true_iff in H. destruct H as [H1 H2]. apply str_eqb_eq in H1. rewrite H1 in H2. destruct (str_eqb_spec key (lit "$id")); [contradiction|].
      rewrite D in H2. apply N.eqb_eq in H2. now apply tag_inj.
  - destruct (find _ every_class) as [y|] eqn:F; [|reflexivity]. apply find_some in F. destruct F as [_ H]. apply andb_true_iff in H. destruct H as [H1 H2].
    apply str_eqb_eq in H1. rewrite H1 in H2. destruct (str_eqb_spec key (lit "$id")); [contradiction|]. rewrite D in H2. discriminate.
Qed.
Lemma find_id m : find_class (provided m) (lit "$id") = Some (id_class (m_core m)).
Proof.
  unfold provided. rewrite find_filter.
  assert (K : std_key (id_class (m_core m)) = lit "$id") by (unfold id_class; destruct (mem_str _ _); reflexivity).
  apply find_exactly; [apply every_one| |].
  - rewrite K, str_eqb_refl. apply N.eqb_refl.
  - intros y H. apply andb_true_iff in H. destruct H as [H1 H2]. rewrite H1 in H2. apply N.eqb_eq in H2. now apply tag_inj.
Qed.
Lemma provided_ext m m' : id_class (m_core m) = id_class (m_core m') -> (forall key, dget key (m_classes m) = dget key (m_classes m')) -> provided m = provided m'.
Proof. intros H1 H2. unfold provided. apply filter_ext. intro c. now rewrite H1, H2. Qed.

(** Vocabularies with different keys offer the same in any order. *)
Lemma last_offer_perm vs vs' : NoDup (map std_key (flat_map v_classes vs)) -> Permutation vs vs' -> forall key, last_offer vs key = last_offer vs' key.
Proof.
  intros N P key.
  assert (U : forall v v' c c', In v vs -> In v' vs -> offered (v_classes v) key = Some c -> offered (v_classes v') key = Some c' -> c = c').
  { intros v v' c c' H1 H2 O1 O2. destruct (offered_key _ _ _ O1) as [K1 I1], (offered_key _ _ _ O2) as [K2 I2].
    assert (J1 : In c (flat_map v_classes vs)) by (apply in_flat_map; eauto). assert (J2 : In c' (flat_map v_classes vs)) by (apply in_flat_map; eauto).
    revert J1 J2 N. generalize (flat_map v_classes vs). intros l J1 J2 N. induction l as [|a l IH]; [destruct J1|]. inversion N as [|? ? N1 N2]; subst.
    destruct J1 as [->|J1], J2 as [->|J2]; [reflexivity|exfalso; apply N1; apply in_map_iff; eauto|exfalso; apply N1; apply in_map_iff; exists c; split; [congruence|exact J1]|now apply IH]. }
  destruct (last_offer vs key) as [c|] eqn:A, (last_offer vs' key) as [c'|] eqn:B; [..|reflexivity].
  - destruct (last_offer_In _ _ _ A) as (v & V1 & V2), (last_offer_In _ _ _ B) as (v' & V3 & V4). f_equal.
    exact (U v v' c c' V1 (Permutation_in _ (Permutation_sym P) V3) V2 V4).
  - destruct (last_offer_In _ _ _ A) as (v & V1 & V2). rewrite (last_offer_none _ _ B v (Permutation_in _ P V1)) in V2. discriminate.
  - destruct (last_offer_In _ _ _ B) as (v & V1 & V2). rewrite (last_offer_none _ _ A v (Permutation_in _ (Permutation_sym P) V1)) in V2. discriminate.
Qed.
