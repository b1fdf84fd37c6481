(** Construction succeeds exactly for buildable documents. *)
From Coq Require Import List Lia Bool Permutation.
From Verif Require Import SpecAccept NameFacts BuildInv.
Import ListNotations.
Open Scope nat_scope.

(** [x] succeeds in [c] if [b], and else raises an exception. *)
Definition ends {A} (x : M A) (c : cat) (b : bool) : Prop :=
  match fst (x c) with Ok _ => b = true | Exn _ => b = false | Fuel => False end.
Lemma ends_ret {A} (a : A) c : ends (ret a) c true. Proof. reflexivity. Qed.
Lemma ends_read {A} (f : cat -> A) c : ends (read f) c true. Proof. reflexivity. Qed.
Lemma ends_modify f c : ends (modify f) c true. Proof. reflexivity. Qed.
Lemma ends_throw {A} e c : ends (@throw A e) c false. Proof. reflexivity. Qed.
Lemma ends_bind {A B} (x : M A) (f : A -> M B) c b1 b2 : ends x c b1 -> (forall a c', x c = (Ok a, c') -> ends (f a) c' b2) -> ends (bindM x f) c (b1 && b2).
Proof.
  unfold ends, bindM. intros H F. destruct (x c) as [[a|e|] c'] eqn:X; cbn [fst] in *; [|now rewrite H|exact H].
  specialize (F a c' eq_refl). rewrite H. exact F.
Qed.
Lemma ends_then {A B} (x : M A) (f : A -> M B) c b : ends x c true -> (forall a c', x c = (Ok a, c') -> ends (f a) c' b) -> ends (bindM x f) c b.
Proof. intros H F. change b with (true && b). now apply ends_bind. Qed.
Lemma ends_last {A B} (x : M A) (f : A -> M B) c b : ends x c b -> (forall a c', x c = (Ok a, c') -> ends (f a) c' true) -> ends (bindM x f) c b.
Proof. intros H F. rewrite <- (andb_true_r b). now apply ends_bind. Qed.

Section Accept.
Variable E : env.
Variable id : pystr.

Definition judged (v : json) : Prop := forall u m up c,
  upward (c_objs c) -> (forall p ks, up = Some (p, ks) -> p < length (c_objs c) /\ base_uri (c_objs c) p <> None) ->
  ends (build E id v u m up) c (buildable E (outer_meta c m up) v).

Lemma children_ends s key : forall L D c,
  Forall2 (fun (kb : pystr * builder) v => judged v /\ well_built E id v /\ forall up, snd kb up = build E id v None None (Some up)) L D ->
  upward (c_objs c) -> s < length (c_objs c) -> base_uri (c_objs c) s <> None ->
  ends (mapM (fun kb => snd kb (s, [key; fst kb])) L) c (forallb (buildable E (metaschema_uri (c_objs c) s)) D).
Proof.
  induction L as [|kb L IH]; intros D c F U Hs B; inversion F as [|x v l D' (J & W & Hb) F']; subst; [reflexivity|].
  cbn [mapM forallb]. apply ends_bind.
  - rewrite Hb. apply (J None None (Some (s, [key; fst kb])) c U). intros p ks [= <- <-]. now split.
  - intros t c' R. rewrite Hb in R. assert (O : same_old c c') by exact (framed_run _ _ _ _ _ (framed_build E id v None None _) R).
    destruct (W _ _ _ _ _ _ U (up_below s _ c Hs) R) as (_ & _ & U' & _ & _). apply ends_last; [|intros; apply ends_ret].
    rewrite <- (old_metaschema c c' s O U Hs). apply IH; [exact F'|exact U'|destruct O; lia|now rewrite (old_base c c' s O U Hs)].
Qed.
Lemma ends_mapM_pair {B} (f : pystr * builder -> M B) L : forall c b, ends (mapM f L) c b -> ends (mapM (fun kb => do t <- f kb; ret (fst kb, t)) L) c b.
Proof.
  assert (G : forall c, match fst (mapM f L c), fst (mapM (fun kb => do t <- f kb; ret (fst kb, t)) L c) with
              | Ok _, Ok _ | Exn _, Exn _ | Fuel, Fuel => snd (mapM f L c) = snd (mapM (fun kb => do t <- f kb; ret (fst kb, t)) L c) | _, _ => False end).
  { induction L as [|x L IH]; intro c; [reflexivity|]. cbn [mapM]. unfold bindM, ret. destruct (f x c) as [[t|e|] c1]; cbn [fst snd]; try reflexivity.
    specialize (IH c1). unfold bindM, ret in IH. destruct (mapM f L c1) as [[ts|e|] c2]; cbn [fst snd] in IH;
    destruct (mapM (fun kb c => match match f kb c with (Ok a, c') => (Ok (fst kb, a), c') | (Exn e, c') => (Exn e, c') | (Fuel, c') => (Fuel, c') end with x => x end) L c1) as [[r|e'|] c3];
    cbn [fst snd] in *; try destruct IH; try exact IH; reflexivity. }
  intros c b. specialize (G c). unfold ends. destruct (fst (mapM f L c)), (fst (mapM (fun kb => do t <- f kb; ret (fst kb, t)) L c)); tauto.
Qed.

(** The subschemas of a keyword. *)
Definition parts (M : option uri) (c : kwclass) (v : json) : bool :=
  match c with
  | Unknown _ => true
  | Std c =>
      if one_schema c || many_schemas c || named_schemas c then
        match v with
        | JBool _ => one_schema c
        | JObj m' => if one_schema c then buildable E M v else named_schemas c && forallb (fun kv' => buildable E M (snd kv')) m'
        | JArr l => many_schemas c && forallb (buildable E M) l
        | JStr _ => many_schemas c
        | _ => false
        end
      else true
  end.
Definition fit (v : json) : Prop :=
  ready E id v /\ judged v /\ match v with JArr l => Forall judged l | JObj m => Forall (fun kv => judged (snd kv)) m | _ => True end.

Lemma numbered_fit l : forall k, Forall judged l -> Forall (well_built E id) l ->
  Forall2 (fun (kb : pystr * builder) v => judged v /\ well_built E id v /\ forall up, snd kb up = build E id v None None (Some up)) (numbered E id k l) l.
Proof. induction l as [|v l IH]; intros k F G; inversion F; inversion G; subst; constructor; [cbn; auto|]. now apply IH. Qed.
Lemma named_fit m : Forall (fun kv => judged (snd kv)) m -> Forall (fun kv => well_built E id (snd kv)) m ->
  Forall2 (fun (kb : pystr * builder) v => judged v /\ well_built E id v /\ forall up, snd kb up = build E id v None None (Some up))
    (map (fun kv => (fst kv, fun up => build E id (snd kv) None None (Some up))) m) (map snd m).
Proof. induction m as [|[k v] m IH]; intros F G; inversion F; inversion G; subst; constructor; [cbn; auto|]. now apply IH. Qed.

Lemma forallb_mapped {A B} (f : A -> B) g l : forallb (fun x => g (f x)) l = forallb g (map f l).
Proof. induction l as [|x l IH]; [reflexivity|]. cbn. now rewrite IH. Qed.

Lemma keyword_json_ends s key c v st : fit v -> upward (c_objs st) -> s < length (c_objs st) -> base_uri (c_objs st) s <> None ->
  ends (keyword_json s key c (member_of E id v)) st (parts (metaschema_uri (c_objs st) s) c v).
Proof.
  intros ((Wv & Wi) & J & Ji) U Hs B.
  assert (One : ends (do t <- build E id v None None (Some (s, [key])); ret (KSub t)) st (buildable E (metaschema_uri (c_objs st) s) v)).
  { apply ends_last; [|intros; apply ends_ret]. apply (J None None (Some (s, [key])) st U). intros p ks [= <- <-]. now split. }
  assert (Many : forall l, v = JArr l -> ends (do ts <- mapM (fun kb => snd kb (s, [key; fst kb])) (numbered E id 0 l); ret (KSubs ts)) st (forallb (buildable E (metaschema_uri (c_objs st) s)) l)).
  { intros l ->. apply ends_last; [|intros; apply ends_ret]. apply children_ends; auto. now apply numbered_fit. }
  assert (Named : forall m, v = JObj m -> ends (do ts <- mapM (fun kb => do t <- snd kb (s, [key; fst kb]); ret (fst kb, t))
                     (map (fun kv => (fst kv, fun up => build E id (snd kv) None None (Some up))) m); ret (KSubm ts)) st
                     (forallb (fun kv => buildable E (metaschema_uri (c_objs st) s) (snd kv)) m)).
  { intros m ->. apply ends_last; [|intros; apply ends_ret]. apply (ends_mapM_pair (fun kb : pystr * builder => snd kb (s, [key; fst kb]))).
    rewrite forallb_mapped. apply children_ends; auto. apply named_fit; [exact Ji|exact (proj2 Wi)]. }
  unfold keyword_json, parts. destruct c as [c|k]; [|apply ends_ret].
  destruct c; try apply ends_ret; cbn [mixins one_schema many_schemas named_schemas orb]; cbn [try_mixins jsonify mb_value member_of mb_schema mb_items];
    (destruct v as [|b|x|x|l|m]; try apply ends_throw; try exact One; try apply ends_ret; try (apply Many; reflexivity); try (apply Named; reflexivity)).
Qed.

Lemma validate_ends (L : urilib) rs rn af an u c : ends (lift (uri_validate L rs rn af an u)) c
  (ul_conforms L u && (negb rs || ul_has_scheme L u) && (negb rn || ul_normal L u) && (af || match u_frag u with Some _ => false | None => true end)
   && (an || match u_frag u with Some (_ :: _) => false | _ => true end)).
Proof.
  unfold ends, lift, uri_validate. destruct (ul_conforms L u), rs, rn, af, an, (ul_has_scheme L u), (ul_normal L u), (u_frag u) as [[|]|]; reflexivity.
Qed.
Lemma set_uri_ends L s u c : ends (set_uri L s u) c true.
Proof.
  unfold set_uri. apply ends_then; [apply ends_read|]. intros o c' _. destruct o as [o|]; [|apply ends_ret].
  destruct (match so_uri o with Some u' => uri_same L u' u | None => false end); [apply ends_ret|].
  apply ends_then; [destruct (so_uri o); [apply ends_modify|apply ends_ret]|]. intros _ c1 _. apply ends_then; [apply ends_modify|]. intros _ c2 _. apply ends_modify.
Qed.
Lemma init_id_ends next s v c : base_uri (c_objs c) s <> None -> ends (init_id E next s v) c (takes_value E (Std (if next then KIdNext else KId_)) v).
Proof.
  intro B. unfold init_id. destruct v as [|b|x|t|l|m]; try (destruct next; reflexivity). apply ends_then; [reflexivity|]. intros u c' Q. apply lift_ok in Q. destruct Q as [[= <-] <-].
  set (u := ul_parse (e_lib E) t).
  assert (Q : takes_value E (Std (if next then KIdNext else KId_)) (JStr t) =
     (ul_conforms (e_lib E) u && (negb false || ul_has_scheme (e_lib E) u) && (negb false || ul_normal (e_lib E) u) && (negb next || match u_frag u with Some _ => false | None => true end)
      && (next || match u_frag u with Some (_ :: _) => false | _ => true end)) && true).
  { rewrite !andb_true_r. destruct next; cbn; now rewrite ?andb_true_r. }
  rewrite Q. apply ends_bind; [apply validate_ends|]. intros y c' R. apply lift_ok in R. destruct R as [_ <-].
  apply ends_then; [apply ends_read|]. intros objs c' R. apply read_ok in R. destruct R as [-> <-].
  apply ends_then; [|intros; apply set_uri_ends]. destruct (ul_absolute (e_lib E) u); [apply ends_ret|]. destruct (base_uri (c_objs c) s); [apply ends_ret|now destruct B].
Qed.
Lemma init_anchor_ends s v c o : nth_error (c_objs c) s = Some o -> base_uri (c_objs c) s <> None -> ends (init_anchor E s v) c (takes_value E (Std KAnchor) v).
Proof.
  intros N B. unfold init_anchor. apply ends_then; [apply ends_read|]. intros objs c' R. apply read_ok in R. destruct R as [-> <-]. rewrite N.
  destruct (base_uri (c_objs c) s); [|now destruct B]. destruct v; reflexivity.
Qed.
Lemma init_schema_ends s v c : ends (init_schema E s v) c (takes_value E (Std KSchema_) v).
Proof.
  unfold init_schema. destruct v as [|b|x|t|l|m]; try reflexivity. apply ends_then; [reflexivity|]. intros u c' Q. apply lift_ok in Q. destruct Q as [[= <-] <-].
  apply ends_last; [|intros; apply ends_modify]. unfold ends, lift, uri_validate. cbn [fst takes_value]. set (u := ul_parse (e_lib E) t).
  destruct (ul_conforms (e_lib E) u), (ul_has_scheme (e_lib E) u), (ul_normal (e_lib E) u), (u_frag u) as [[|]|]; reflexivity.
Qed.

Lemma make_keyword_ends s key c v st o : fit v -> upward (c_objs st) -> nth_error (c_objs st) s = Some o -> base_uri (c_objs st) s <> None ->
  ends (make_keyword E s key c (member_of E id v)) st (parts (metaschema_uri (c_objs st) s) c v && takes_value E c v).
Proof.
  intros F U N B. assert (Hs : s < length (c_objs st)) by (apply nth_error_Some; congruence). unfold make_keyword. apply ends_bind; [now apply keyword_json_ends|].
  intros j st1 R. destruct (keyword_json_ok E id s key c v st j st1 (proj1 F) U Hs R) as (U1 & O & _).
  assert (N1 : nth_error (c_objs st1) s = Some o) by (destruct O as [_ O]; now rewrite O).
  assert (B1 : base_uri (c_objs st1) s <> None) by now rewrite (old_base st st1 s O U Hs).
  cbn [mb_value member_of]. destruct c as [c|k]; [|apply ends_ret].
  destruct c; try apply ends_ret; try (apply ends_last; [|intros; apply ends_ret]).
  - apply init_schema_ends.
  - exact (init_id_ends false s v st1 B1).
  - exact (init_id_ends true s v st1 B1).
  - exact (init_anchor_ends s v st1 o N1 B1).
  - destruct v; reflexivity.
  - exact (init_anchor_ends s v st1 o N1 B1).
  - destruct v as [|b|x|t|l|m]; try reflexivity. cbn [takes_value]. destruct (str_eqb t (lit "#")); reflexivity.
  - destruct v as [|b|x|t|l|m]; try reflexivity. cbn [takes_value]. destruct (e_regex E t); reflexivity.
  - destruct v as [|b|x|t|l|m]; try reflexivity. unfold ends, lift. cbn [fst init_format takes_value]. unfold is_format_enabled.
    destruct (mem_str t (e_formats E)); [|reflexivity]. destruct (e_validators E t); reflexivity.
Qed.

Lemma ends_part {A B} (x : M A) (f : A -> M B) c b1 b : ends x c b1 -> (b = true -> b1 = true) -> (forall a c', x c = (Ok a, c') -> b1 = true -> ends (f a) c' b) -> ends (bindM x f) c b.
Proof.
  unfold ends, bindM. intros H I F. destruct (x c) as [[a|e|] c'] eqn:X; cbn [fst] in *; [exact (F a c' eq_refl H)| |exact H].
  destruct b; [|reflexivity]. specialize (I eq_refl). congruence.
Qed.
Definition item (M : option uri) (key : pystr) (v : json) : bool :=
  nameable key && match class_for E M key with None => false | Some c => takes_value E c v && parts M c v end.
Lemma buildable_object m doc : buildable E m (JObj doc) = forallb (fun kv => item (applies E m doc) (fst kv) (snd kv)) doc.
Proof. reflexivity. Qed.

Lemma metaschema_run s st : metaschema E s st =
  match metaschema_uri (c_objs st) s with
  | None => (Exn ESchema, st)
  | Some u => match e_dialect E u with Some d => (Ok d, st) | None => (Exn ECatalog, st) end
  end.
Proof. unfold metaschema, bindM, read. destruct (metaschema_uri (c_objs st) s) as [u|]; [|reflexivity]. destruct (e_dialect E u); reflexivity. Qed.

Section Object.
Variables (c0 : cat) (up : option (sid * list pystr)) (doc : list (pystr * json)) (u m : option uri).
Let s : sid := length (c_objs c0).
Hypothesis U0 : upward (c_objs c0).
Hypothesis Up0 : forall p ks, up = Some (p, ks) -> p < s.
Hypothesis Nd : NoDup (keys doc).
Hypothesis Fd : forall key v, dget key doc = Some v -> fit v.
Let gu := given_uri E c0 u up (JObj doc).
Hypothesis Bs : base_of gu (outer_base c0 up) <> None.
Let Mu := applies E (outer_meta c0 m up) doc.
Let Bu := base_of (own_uri E gu (outer_base c0 up) doc) (outer_base c0 up).
Notation members := (map (fun kv => (fst kv, member_of E id (snd kv))) doc).
Notation stg := (stage E id c0 up doc Mu Bu).
Let b := forallb (fun kv => item Mu (fst kv) (snd kv)) doc.

Lemma item_true key v : b = true -> dget key doc = Some v -> item Mu key v = true.
Proof. intros Hb D. unfold b in Hb. rewrite forallb_forall in Hb. exact (Hb (key, v) (dget_In _ _ _ D)). Qed.

Definition one_ok (key : pystr) (c : kwclass) : bool := match dget key doc with Some v => parts Mu c v && takes_value E c v | None => true end.
Lemma add_ends key c st kws u' m' : stg st kws u' m' -> base_of u' (outer_base c0 up) <> None -> (mixins c = [] \/ outer_meta c0 m' up = Mu) ->
  ends (add_keyword E s members key c) st (one_ok key c).
Proof.
  intros S B Mm. unfold add_keyword, one_ok. rewrite (dget_mapped (member_of E id)). destruct (dget key doc) as [v|] eqn:D; [|apply ends_ret].
  apply ends_last; [|intros; apply ends_modify]. pose proof S as (O & U & N & _).
  assert (Q : parts Mu c v = parts (metaschema_uri (c_objs st) s) c v).
  { destruct Mm as [Mm|Mm]; [|rewrite <- Mm; f_equal; symmetry; exact (stage_meta E id c0 up doc Mu Bu U0 Up0 _ _ _ _ S)]. destruct c as [c|k]; [|reflexivity]. destruct c; try reflexivity; discriminate Mm. }
  rewrite Q. apply (make_keyword_ends s key c v st _ (Fd key v D) U N). intro X. apply B. rewrite <- X. symmetry. exact (stage_base E id c0 up doc Mu Bu U0 Up0 _ _ _ _ S).
Qed.

Lemma ready_doc key v : dget key doc = Some v -> ready E id v.
Proof. intro D. exact (proj1 (Fd key v D)). Qed.

Lemma item_class key v c : b = true -> dget key doc = Some v -> class_for E Mu key = Some c -> parts Mu c v && takes_value E c v = true.
Proof. intros Hb D C. pose proof (item_true key v Hb D) as H. unfold item in H. rewrite C in H. apply andb_true_iff in H. destruct H as [_ H]. now rewrite andb_comm. Qed.

Definition boot_ok : bool :=
  one_ok (lit "$schema") (Std KSchema_) && (negb (dmem (lit "$id") doc) || match class_for E Mu (lit "$id") with Some c => one_ok (lit "$id") c | None => false end).
Lemma boot_needed : b = true -> boot_ok = true.
Proof.
  intro Hb. unfold boot_ok, one_ok. apply andb_true_iff. split.
  - destruct (dget (lit "$schema") doc) as [v|] eqn:D; [|reflexivity]. exact (item_class _ v (Std KSchema_) Hb D eq_refl).
  - unfold dmem. destruct (dget (lit "$id") doc) as [v|] eqn:D; [|reflexivity]. cbn [negb orb]. pose proof (item_true _ v Hb D) as H. unfold item in H.
    destruct (class_for E Mu (lit "$id")) as [c|]; [|discriminate H]. apply andb_true_iff in H. destruct H as [_ H]. now rewrite andb_comm.
Qed.

Lemma bootstrap_ends st : stg st [] gu m -> ends (bootstrap E s members) st boot_ok.
Proof.
  intro S0. unfold bootstrap, boot_ok. apply ends_bind; [apply (add_ends _ _ _ _ _ _ S0 Bs); now left|]. intros x st1 R1.
  assert (S1 : exists kws m', stg st1 kws gu m' /\ outer_meta c0 m' up = Mu /\ forall key, In key (keys kws) -> key = lit "$schema").
  { destruct (step_ok E id c0 up doc Mu Bu Up0 _ (Std KSchema_) _ _ _ _ _ _ S0 (ready_doc (lit "$schema")) (fun F => F) eq_refl R1) as [(D & S1 & _)|(v & k & u' & m' & D & S1 & Kc & Mv)].
    - exists [], m. split; [exact S1|]. split; [unfold Mu, applies; now rewrite D|intros ? []].
    - cbn in Mv. destruct Mv as (t & -> & -> & ->). exists [(lit "$schema", k)], (Some (ul_parse (e_lib E) t)). split; [exact S1|].
      split; [unfold Mu, applies; now rewrite D|]. intros key [<-|[]]. reflexivity. }
  destruct S1 as (kws1 & m1 & S1 & HM & K1).
  assert (Nv : ~ In (lit "$vocabulary") (keys kws1)) by (intro X; apply K1 in X; discriminate X).
  assert (Vo : one_ok (lit "$vocabulary") (Std KVocabulary_) = true) by (unfold one_ok; destruct (dget (lit "$vocabulary") doc); reflexivity).
  pose proof (add_ends (lit "$vocabulary") _ _ _ _ _ S1 Bs (or_introl (eq_refl : mixins (Std KVocabulary_) = []))) as Xv. rewrite Vo in Xv. apply ends_then; [exact Xv|]. clear Xv. intros y st2 R2.
  assert (S2 : exists kws, stg st2 kws gu m1 /\ forall key, In key (keys kws) -> key = lit "$schema" \/ key = lit "$vocabulary").
  { destruct (step_ok E id c0 up doc Mu Bu Up0 _ (Std KVocabulary_) _ _ _ _ _ _ S1 (ready_doc (lit "$vocabulary")) Nv eq_refl R2) as [(D & S2 & _)|(v & k & u' & m' & D & S2 & Kc & Mv)].
    - exists kws1. split; [exact S2|]. intros key X. left. now apply K1.
    - cbn in Mv. destruct Mv as [-> ->]. eexists. split; [exact S2|]. intros key X. unfold keys in X. rewrite map_app, in_app_iff in X. destruct X as [X|[X|[]]]; [left; now apply K1|right; now symmetry]. }
  destruct S2 as (kws2 & S2 & K2).
  assert (Dm : dmem (lit "$id") members = dmem (lit "$id") doc) by (unfold dmem; rewrite (dget_mapped (member_of E id)); now destruct (dget (lit "$id") doc)).
  rewrite Dm. destruct (dmem (lit "$id") doc); [|apply ends_ret]. cbn [negb orb].
  assert (Hm : metaschema_uri (c_objs st2) s = Mu) by (rewrite <- HM; exact (stage_meta E id c0 up doc Mu Bu U0 Up0 _ _ _ _ S2)).
  assert (C : class_for E Mu (lit "$id") = match Mu with None => None | Some u => match e_dialect E u with None => None
     | Some d => Some (Std (match find_class d (lit "$id") with Some KId_ => KId_ | _ => KIdNext end)) end end) by reflexivity.
  rewrite C. unfold ends, bindM. rewrite metaschema_run, Hm. clear C Hm. destruct Mu as [mu|] eqn:EM; [|reflexivity]. destruct (e_dialect E mu) as [d|]; [|reflexivity].
  replace (match find_class d (lit "$id") with Some KId_ => Std KId_ | _ => Std KIdNext end) with (Std match find_class d (lit "$id") with Some KId_ => KId_ | _ => KIdNext end) by (destruct (find_class d (lit "$id")) as [[]|]; reflexivity).
  rewrite <- EM in *. apply (add_ends _ _ _ _ _ _ S2 Bs). left. destruct (find_class d (lit "$id")) as [[]|]; reflexivity.
Qed.

Lemma boot_names key : In key bootstrapped -> key = lit "$schema" \/ key = lit "$vocabulary" \/ key = lit "$id".
Proof. cbn [bootstrapped In]. intros [<-|[<-|[<-|[]]]]; tauto. Qed.
Lemma class_of_key d key w : e_dialect E w = Some d -> mem_str key bootstrapped = false -> nameable key = true ->
  exists c, get_kwclass d key = Ok c /\ class_for E (Some w) key = Some c.
Proof.
  intros D B K. unfold get_kwclass. destruct (find_class d key) as [c|] eqn:F.
  - exists (Std c). split; [reflexivity|]. apply (class_of_get E d key (Std c) w D); [|exact B]. unfold get_kwclass. now rewrite F.
  - pose proof (nameable_class key) as Q. rewrite K in Q. exists (Unknown key). split; [exact Q|]. apply (class_of_get E d _ _ w D); [|exact B]. unfold get_kwclass. now rewrite F.
Qed.
Definition known (key : pystr) : bool := nameable key && match class_for E Mu key with Some _ => true | None => false end.
Lemma classes_ends st kws u' m' ks : stg st kws u' m' -> outer_meta c0 m' up = Mu -> (forall key, In key ks -> mem_str key bootstrapped = false) ->
  ends (classes E s ks) st (forallb known ks).
Proof.
  intros S HM. assert (Hm : metaschema_uri (c_objs st) s = Mu) by (rewrite <- HM; exact (stage_meta E id c0 up doc Mu Bu U0 Up0 _ _ _ _ S)).
  induction ks as [|key ks IH]; intro Hk; [reflexivity|].
  assert (Kk : match fst ((do d <- metaschema E s; do c <- lift (get_kwclass d key); ret (key, c)) st) with Ok _ => known key = true | Exn _ => known key = false | Fuel => False end /\
               snd ((do d <- metaschema E s; do c <- lift (get_kwclass d key); ret (key, c)) st) = st).
  { unfold known. unfold bindM at 1 3. rewrite metaschema_run, Hm.
    assert (Nb : forall k, In k bootstrapped -> str_eqb key k = false).
    { intros k X. destruct (str_eqb key k) eqn:Q; [|reflexivity]. apply str_eqb_eq in Q. subst k. apply mem_str_In in X. rewrite (Hk key (or_introl eq_refl)) in X. discriminate X. }
    destruct Mu as [mu|] eqn:EM; [|unfold class_for; rewrite (Nb (lit "$schema")), (Nb (lit "$vocabulary")) by (cbn; tauto); rewrite andb_false_r; split; reflexivity].
    destruct (e_dialect E mu) as [d|] eqn:D; [|unfold class_for; rewrite (Nb (lit "$schema")), (Nb (lit "$vocabulary")), D by (cbn; tauto); rewrite andb_false_r; split; reflexivity].
    destruct (nameable key) eqn:Na.
    - destruct (class_of_key d key mu D (Hk _ (or_introl eq_refl)) Na) as (c & G & C). unfold bindM, lift. rewrite G, C. split; reflexivity.
    - unfold bindM, lift, get_kwclass. destruct (find_class d key) as [c|] eqn:F.
      + pose proof (find_class_key _ _ _ F) as Q. rewrite <- Q, std_nameable in Na. discriminate Na.
      + pose proof (nameable_class key) as Q. rewrite Na in Q. destruct Q as [e ->]. split; reflexivity. }
  unfold classes. cbn [mapM forallb]. unfold ends, bindM at 1. destruct ((do d <- metaschema E s; do c <- lift (get_kwclass d key); ret (key, c)) st) as [[y|e|] st1]; cbn [fst snd] in *; (destruct Kk as [Kk ->]; try (destruct Kk; fail)); [rewrite Kk|now rewrite Kk].
  cbn [andb]. apply ends_last; [|intros; apply ends_ret]. apply IH. intros k X. apply Hk. now right.
Qed.

Lemma rest_ends order : forall st kws u' m', stg st kws u' m' -> outer_meta c0 m' up = Mu -> base_of u' (outer_base c0 up) <> None -> base_of u' (outer_base c0 up) = Bu ->
  NoDup (map key_of order) -> (forall c, In c order -> settled c /\ ~ In (key_of c) (keys kws) /\ exists v, dget (key_of c) doc = Some v /\ ready E id v) ->
  ends (each_ (fun c => add_keyword E s members (key_of c) c) order) st (forallb (fun c => one_ok (key_of c) c) order).
Proof.
  induction order as [|c order IH]; intros st kws u' m' S HM B HB N Ho; [reflexivity|]. cbn [each_ forallb].
  apply ends_bind; [apply (add_ends _ _ _ _ _ _ S B); now right|]. intros x st1 H1. destruct (Ho c (or_introl eq_refl)) as (Sc & Nk & v & D & R).
  destruct (add_keyword_ok E id c0 up doc Mu Bu Up0 (key_of c) c v st kws u' m' x st1 S D R Nk) as (k & u1 & m1 & S1 & Kc & Mv); [|exact H1|].
  { right. split; [rewrite <- HM; exact (stage_meta E id c0 up doc Mu Bu U0 Up0 _ _ _ _ S)|rewrite <- HB; exact (stage_base E id c0 up doc Mu Bu U0 Up0 _ _ _ _ S)]. }
  assert (Q : u1 = u' /\ m1 = m'). { unfold moves, settled in *. destruct c as [c|]; [|exact Mv]. destruct c; try exact Mv; destruct Sc. }
  destruct Q as [-> ->]. cbn [map] in N. inversion N as [|y l N1 N2]; subst y l.
  apply (IH st1 (kws ++ [(key_of c, k)]) u' m' S1 HM B HB N2).
  intros c' Hc'. destruct (Ho c' (or_intror Hc')) as (Sc' & Nk' & V'). split; [exact Sc'|]. split; [|exact V']. unfold keys. rewrite map_app, in_app_iff. cbn.
  intros [X|[X|[]]]; [exact (Nk' X)|]. apply N1. rewrite X. now apply in_map.
Qed.

Lemma base_stays : Bu <> None.
Proof.
  unfold Bu, own_uri. destruct (dget (lit "$id") doc) as [[| | |t| |]|]; try exact Bs. cbv zeta. destruct (ul_absolute (e_lib E) (ul_parse (e_lib E) t)); [cbn; discriminate|].
  destruct (base_of gu (outer_base c0 up)); [cbn; discriminate|now destruct Bs].
Qed.
Lemma object_ends st : stg st [] u m -> ends (build_object E s members) st b.
Proof.
  intro S0. unfold build_object. apply ends_then; [apply ends_read|]. intros o st' R. apply read_ok in R. destruct R as [-> <-].
  pose proof S0 as (O0 & U1 & N & _). fold s in N. rewrite N. apply ends_then.
  { destruct u, up; try apply ends_ret. apply set_uri_ends. }
  intros x1 st1 H1.
  assert (S1 : stg st1 [] gu m).
  { unfold gu, given_uri. destruct u as [u0|]; [apply ret_ok in H1; destruct H1 as [_ <-]; exact S0|].
    destruct up as [up0|] eqn:Eup; [apply ret_ok in H1; destruct H1 as [_ <-]; exact S0|].
    pose proof (set_uri_ok c0 (e_lib E) st _ _ _ _ N H1) as Hh. unfold heads in Hh. cbn [so_up so_cache so_data so_meta] in Hh. fold s in Hh.
    assert (L : length (c_objs st1) = length (c_objs st)) by (rewrite Hh; apply length_set_nth).
    assert (Hs : s < length (c_objs st)) by (apply nth_error_Some; congruence).
    destruct O0 as [L0 O0]. destruct S0 as (_ & _ & _ & _ & _ & Cov). split; [|split; [|split; [|split; [constructor|split; [intros ? ? []|]]]]].
    - split; [lia|]. intros i Hi. rewrite Hh, nth_set_nth_other by (fold s in Hi; lia). now apply O0.
    - intros i o p ks Hi Hu. destruct (Nat.eq_dec i s) as [->|Ni].
      + rewrite Hh, nth_set_nth_same in Hi by exact Hs. injection Hi as <-. discriminate Hu.
      + rewrite Hh, nth_set_nth_other in Hi by congruence. exact (U1 _ _ _ _ Hi Hu).
    - fold s. rewrite Hh. now apply nth_set_nth_same.
    - intros i Hi. rewrite L in Hi. destruct (Cov i Hi) as (? & ? & ? & [] & _). }
  clear S0 O0 U1 N H1. apply (ends_part _ _ _ boot_ok); [now apply bootstrap_ends|exact boot_needed|]. intros x2 st2 H2 Bo.
  destruct (bootstrap_ok E id c0 up doc u m U0 Up0 ready_doc _ _ _ S1 H2) as (kb & u' & m' & S2 & Eu & [HM _] & Kb & Cb). clear S1 H2.
  assert (Km : keys members = keys doc) by (unfold keys; rewrite map_map; reflexivity). rewrite Km.
  set (ks := filter (fun key => negb (mem_str key bootstrapped)) (keys doc)).
  assert (Hks : forall key, In key ks <-> In key (keys doc) /\ mem_str key bootstrapped = false) by (intro key; unfold ks; now rewrite filter_In, negb_true_iff).
  apply (ends_part _ _ _ (forallb known ks)); [apply (classes_ends _ _ _ _ _ S2 HM); intros key X; now apply Hks in X| |].
  { intro Hb. apply forallb_forall. intros key X. apply Hks in X. destruct X as [X _]. destruct (keys_dget _ _ X) as [v D]. pose proof (item_true key v Hb D) as H.
    unfold item in H. unfold known. apply andb_true_iff in H. destruct H as [-> H]. cbn. now destruct (class_for E Mu key). }
  intros cs st3 H3 Kn. apply (classes_ok E c0) in H3. destruct H3 as (-> & Kc & Cc). fold s in Cc.
  assert (In_cs : forall key, In key (keys cs) <-> In key (keys doc) /\ mem_str key bootstrapped = false) by (intro key; rewrite Kc; apply Hks).
  assert (Cl : forall key c, In (key, c) cs -> class_for E Mu key = Some c /\ key_of c = key /\ settled c).
  { intros key c X. destruct (Cc _ _ X) as (mu & d & A1 & A2 & A3).
    assert (Em : Mu = Some mu) by (rewrite <- A1; transitivity (outer_meta c0 m' up); [symmetry; exact HM|symmetry; exact (stage_meta E id c0 up doc Mu Bu U0 Up0 _ _ _ _ S2)]).
    assert (G : class_for E (Some mu) key = Some c /\ key_of c = key /\ settled c) by (apply (class_of_get E d); auto; apply (in_map fst) in X; now apply In_cs in X).
    rewrite <- Em in G. exact G. }
  assert (Nc : NoDup (keys cs)) by (rewrite Kc; now apply NoDup_filter).
  destruct (resolve_standard cs Nc (fun k c X => proj1 (proj2 (Cl k c X)))) as [order R]. rewrite R. apply ends_then; [reflexivity|].
  intros order' st3 H4. apply lift_ok in H4. destruct H4 as [[= <-] <-].
  assert (Ks : map key_of (map snd cs) = keys cs).
  { unfold keys. clear -Cl. induction cs as [|[key c] cs IH]; [reflexivity|]. cbn [map fst snd]. rewrite (proj1 (proj2 (Cl key c (or_introl eq_refl)))). f_equal. apply IH. intros; apply Cl; now right. }
  assert (Ns : NoDup (map snd cs)) by (apply (NoDup_mapped key_of); now rewrite Ks).
  destruct (resolve_sound kwclass_eqb depends_on kwclass_eqb_spec _ cs order Nc Ns R) as [[P _] _].
  assert (Po : Permutation (map key_of order) (keys cs)) by (rewrite <- Ks; now apply Permutation_map).
  assert (No : NoDup (map key_of order)) by (apply (Permutation_NoDup (Permutation_sym Po)), Nc).
  assert (Oin : forall c, In c order -> In (key_of c, c) cs).
  { intros c X. apply (Permutation_in _ P) in X. apply in_map_iff in X. destruct X as ([key c'] & <- & X). cbn [snd]. pose proof (Cl _ _ X) as (_ & K & _). now rewrite K. }
  assert (Q : b = forallb (fun c => one_ok (key_of c) c) order).
  { apply eq_true_iff_eq. split; intro Hb.
    - apply forallb_forall. intros c X. apply Oin in X. destruct (Cl _ _ X) as (C & _ & _). unfold one_ok. destruct (dget (key_of c) doc) as [v|] eqn:D; [|reflexivity].
      now apply (item_class (key_of c)).
    - unfold b. apply forallb_forall. intros [key v] X. cbn [fst snd]. pose proof (In_dget _ _ _ Nd X) as D. apply (in_map fst) in X. cbn [fst] in X. fold (keys doc) in X.
      destruct (mem_str key bootstrapped) eqn:Bk.
      + apply mem_str_In, boot_names in Bk. unfold boot_ok in Bo. apply andb_true_iff in Bo. destruct Bo as [B1 B2]. unfold one_ok in B1, B2. unfold item. destruct Bk as [->|[->| ->]].
        * rewrite D in B1. rewrite andb_comm in B1. exact B1.
        * reflexivity.
        * unfold dmem in B2. rewrite D in B2. cbn [negb orb] in B2. destruct (class_for E Mu (lit "$id")); [|discriminate B2]. rewrite andb_comm in B2. rewrite B2. reflexivity.
      + assert (Xk : In key ks) by now apply Hks. rewrite forallb_forall in Kn. specialize (Kn key Xk). unfold known in Kn. apply andb_true_iff in Kn. destruct Kn as [Kn1 Kn2].
        assert (Xc : In key (map key_of order)) by (apply (Permutation_in _ (Permutation_sym Po)); now apply In_cs). apply in_map_iff in Xc. destruct Xc as (c & <- & Xc).
        unfold item. rewrite Kn1. destruct (Cl _ _ (Oin _ Xc)) as (-> & _ & _). cbn [andb]. rewrite forallb_forall in Hb. specialize (Hb c Xc). unfold one_ok in Hb. rewrite D in Hb.
        now rewrite andb_comm. }
  rewrite Q. apply (rest_ends order st2 kb u' m' S2 HM); [rewrite Eu; exact base_stays|now rewrite Eu|exact No|].
  intros c X. apply Oin in X. destruct (Cl _ _ X) as (_ & _ & Sc). split; [exact Sc|]. apply (in_map fst) in X. cbn [fst] in X. apply In_cs in X. destruct X as [X1 X2].
  split; [intro Y; apply Kb in Y; destruct Y as [Y _]; apply mem_str_In in Y; congruence|]. destruct (keys_dget _ _ X1) as [v D]. exists v. split; [exact D|exact (ready_doc _ _ D)].
Qed.
End Object.

Theorem build_ends v : jwf v = true -> judged v.
Proof.
  assert (G : forall n v, jsize v < n -> jwf v = true -> judged v).
  { induction n as [|n IH]; intros w Hn Wf u m up c U Hup; [lia|].
    destruct w as [|x|x|x|l|doc]; try (cbn [build]; unfold ends, bindM; rewrite new_schema_eq; reflexivity).
    - rewrite build_object_eq, buildable_object. apply ends_then; [unfold ends; now rewrite new_schema_eq|]. intros s c1 H1. rewrite new_schema_eq in H1. injection H1 as <- <-.
      apply ends_last; [|intros; apply ends_ret].
      pose proof (proj1 (jwf_obj _) Wf) as Wf'. destruct Wf' as [Nd Wd].
      assert (Fd : forall key v, dget key doc = Some v -> fit v).
      { clear v. intros key v D. apply dget_In in D. pose proof (jsize_members _ _ D) as Sv. cbn [snd] in Sv. rewrite Forall_forall in Wd. specialize (Wd _ D). cbn [snd] in Wd.
        split; [|split].
        - split; [now apply build_ok|]. destruct v as [|?|?|?|l|m']; try exact I.
          + apply jwf_arr in Wd. rewrite Forall_forall in *. intros y Hy. apply build_ok; auto.
          + apply jwf_obj in Wd. destruct Wd as [Nm Wd]. split; [exact Nm|]. rewrite Forall_forall in *. intros kv Hy. apply build_ok; auto.
        - apply IH; [lia|exact Wd].
        - destruct v as [|?|?|?|l|m']; try exact I.
          + apply jwf_arr in Wd. rewrite Forall_forall in *. intros y Hy. apply IH; [apply jsize_items in Hy; lia|auto].
          + apply jwf_obj in Wd. destruct Wd as [Nm Wd]. rewrite Forall_forall in *. intros kv Hy. apply IH; [apply jsize_members in Hy; lia|auto]. }
      assert (Hup' : forall p ks, up = Some (p, ks) -> p < length (c_objs c)) by (intros p ks Q; exact (proj1 (Hup p ks Q))).
      apply (object_ends c up doc u m U Hup' Nd Fd).
      + unfold given_uri, outer_base. destruct u as [u|]; [discriminate|]. destruct up as [[p ks]|]; [|discriminate]. exact (proj2 (Hup p ks eq_refl)).
      + split; [|split; [|split; [|split; [constructor|split; [intros ? ? []|]]]]]; cbn [c_objs].
        * split; [cbn [c_objs]; rewrite app_length; lia|]. intros i Hi. cbn [c_objs]. now apply nth_error_app1.
        * now apply upward_app.
        * apply nth_last.
        * rewrite app_length. cbn. intros i Hi. lia. }
  exact (G (S (jsize v)) v (Nat.lt_succ_diag_r _)).
Qed.
End Accept.
