(** Facts about create_catalog. *)
From Coq Require Import String List Bool Lia.
From Verif Require Import BaseFacts CatalogFacts SourceFacts SpecStart MetaFacts BuildOk PropsBuild PropsMeta PropsCatalog.
Import ListNotations.
Open Scope list_scope.
Open Scope nat_scope.

(** ** The directory. *)
Lemma split_char_slash s t : split_char 47 (s ++ 47%N :: t) = split_char 47 s ++ split_char 47 t.
Proof.
  induction s as [|c s IH]; [reflexivity|]. cbn [app split_char]. rewrite IH. destruct (N.eqb c 47); [reflexivity|].
  destruct (split_char 47 s) eqn:Sp; [destruct s; cbn in Sp; try discriminate Sp; destruct (N.eqb _ _); [discriminate Sp|]; destruct (split_char 47 s); discriminate Sp|]. reflexivity.
Qed.
Lemma dir_same package v : installed package -> path_of (standard_dir package v) = path_of (package ++ lit "/json-schema-" ++ version_name v).
Proof.
  intros (a & q & -> & Ha). unfold standard_dir. set (x := lit "json-schema-" ++ version_name v).
  assert (Hx : path_of x = mkPath [] [x]) by (destruct v; reflexivity).
  assert (Rx : real_part x = true) by (destruct v; reflexivity).
  assert (Sx : split_char 47 x = [x]) by (destruct v; reflexivity).
  change (lit "/json-schema-" ++ version_name v) with (47%N :: x). rewrite Hx. unfold path_join. cbn [pp_root pp_parts].
  assert (Sl : slashes (a :: q) = 0) by (cbn [slashes]; destruct (N.eqb_spec a 47); congruence).
  assert (R : forall w, posix_root (47%N :: a :: w) = [47%N]).
  { intro w. unfold posix_root. cbn [slashes]. rewrite N.eqb_refl. destruct (N.eqb_spec a 47); [congruence|]. reflexivity. }
  set (l := pp_parts (path_of (47%N :: a :: q)) ++ [x]).
  assert (Pl : Forall (fun t => ~ In 47%N t /\ t <> []) l).
  { apply Forall_app. split; [apply parts_proper|]. constructor; [|constructor]. split; [|destruct v; discriminate]. pose proof (split_parts x) as P. rewrite Sx in P. now inversion P. }
  assert (Nl : l <> []) by (unfold l; now destruct (pp_parts (path_of (47%N :: a :: q)))).
  unfold path_str. cbn [pp_root pp_parts]. fold l. change (pp_root (path_of (47%N :: a :: q))) with (posix_root (47%N :: a :: q)). rewrite R. change ([47%N] ++ slashed l) with (47%N :: slashed l). cbv iota beta.
  match goal with |- path_of ?s = path_of ?t => change (mkPath (posix_root s) (filter real_part (split_char 47 s)) = mkPath (posix_root t) (filter real_part (split_char 47 t))) end. f_equal.
  - assert (Sd : slashes (slashed l) = 0).
    { destruct l as [|y l']; [now destruct Nl|]. inversion Pl as [|? ? [Hy Hn] _]; subst. destruct y as [|c y]; [now destruct Hn|].
      destruct l'; cbn [slashed app slashes]; (destruct (N.eqb_spec c 47) as [->|]; [elim Hy; now left|reflexivity]). }
    change (posix_root ((47%N :: a :: q) ++ 47%N :: x)) with (posix_root (47%N :: a :: (q ++ 47%N :: x))). rewrite R. unfold posix_root. cbn [slashes]. rewrite N.eqb_refl, Sd. reflexivity.
  - change (split_char 47 (47%N :: slashed l)) with ([] :: split_char 47 (slashed l)). rewrite split_slashed; [|exact Nl|eapply Forall_impl; [|exact Pl]; intros t0 Ht0; exact (proj1 Ht0)].
    rewrite split_char_slash, Sx, filter_app. cbn [filter]. rewrite Rx. change (real_part []) with false. cbn [filter]. unfold l. rewrite filter_app. cbn [filter]. rewrite Rx. f_equal.
    cbn [path_of pp_parts]. clear. induction (split_char 47 (47%N :: a :: q)) as [|y r IH]; [reflexivity|]. cbn [filter]. destruct (real_part y) eqn:Y; [cbn [filter]; now rewrite Y, IH|exact IH].
Qed.
Lemma source_file open package v rest : installed package -> standard_source open package v rest = open (file_of package v rest).
Proof. intro I. unfold standard_source, local_source, file_of, local_file. now rewrite dir_same. Qed.

(** ** The sources. *)
Lemma register_snoc L h b src : forall t, SpecCatalog.register L (h ++ [(b, src)]) t =
  match add_uri_source L b src (SpecCatalog.register L h t) with Ok t' => t' | _ => SpecCatalog.register L h t end.
Proof. induction h as [|[b0 s0] r IH]; intro t; [reflexivity|]. cbn [app SpecCatalog.register]. apply IH. Qed.
Lemma base_clash v v' rest r : draft v "" ++ rest = draft v' "" ++ r -> v = v'.
Proof. intro H. destruct v, v'; try reflexivity; exfalso; vm_compute in H; discriminate H. Qed.

Section Start.
Variable E : env.
Variable see : cat -> world.
Variable open : pystr -> res json.
Variable package : pystr.
Notation L := (e_lib E).
Definition hist (vs : list version) : list (option uri * source) := map (fun v => (Some (standard_base E v), standard_source open package v)) vs.
Definition table (vs : list version) : sources := SpecCatalog.register L (hist vs) [].

Lemma base_text v : parses_version E v -> standard_base E v = mkUri (draft v "") None.
Proof. intros (_ & P & _). apply P. now left. Qed.
Lemma hist_In vs b src p : (forall v, In v vs -> parses_version E v) -> In (b, src) (hist vs) -> stands_for L b p ->
  exists v, In v vs /\ p = draft v "" /\ src = standard_source open package v.
Proof.
  intros P I S. apply in_map_iff in I. destruct I as (v & X & I). injection X as <- <-. exists v. split; [exact I|]. split; [|reflexivity].
  destruct S as [_ ->]. rewrite (base_text v (P v I)). unfold uri_str. cbn [u_base u_frag]. apply app_nil_r.
Qed.
Lemma table_loads vs v u rest : (forall w, In w vs -> parses_version E w) -> (forall w, In w vs -> acceptable L (standard_base E w)) ->
  In v vs -> loadable L u -> uri_str u = draft v "" ++ rest ->
  load_json L (table vs) u = match standard_source open package v rest with Exn _ => Exn ECatalog | e => e end.
Proof.
  intros P A I V U.
  assert (Rg : registered L (hist vs) (draft v "")).
  { exists (Some (standard_base E v)), (standard_source open package v). split; [apply in_map_iff; now exists v|]. split; [exact (A v I)|]. rewrite (base_text v (P v I)). symmetry. apply app_nil_r. }
  destruct (registered_latest L (hist vs) _ Rg) as [src La].
  assert (src = standard_source open package v) as ->.
  { destruct La as (h1 & b & h2 & Eq & S & _). destruct (hist_In vs b src (draft v "") P) as (v' & _ & T & ->); [rewrite Eq; apply in_elt|exact S|].
    assert (v = v') by (apply (base_clash v v' [] []); now rewrite !app_nil_r). now subst v'. }
  destruct (C48_longest L (hist vs) u (draft v "") (standard_source open package v) V) as (rest' & U' & H); [|exact La|].
  - split; [exact Rg|]. split; [now exists rest|]. intros q (b & src & Iq & S) [r Q]. destruct (hist_In vs b src q P Iq S) as (v' & _ & -> & _).
    rewrite U in Q. apply base_clash in Q. now subst v'.
  - rewrite U in U'. apply app_inv_head in U'. subst rest'. exact H.
Qed.
Lemma table_reads vs : opens_json open -> (forall w, In w vs -> parses_version E w) -> reads_json (with_sources E (table vs)).
Proof.
  intros O P u doc H. cbn [e_lib e_sources with_sources] in H. destruct (loadable_dec L u) as [V|V]; [|rewrite (C48_not_loadable L _ u V) in H; discriminate H].
  unfold table in H. destruct (C48_exists L (hist vs) u) as [(p & src & Lo & La)|N]; [|rewrite (C48_no_source L _ u N) in H; discriminate H].
  destruct (C48_longest L (hist vs) u p src V Lo La) as (rest & _ & Q). rewrite Q in H.
  destruct La as (h1 & b & h2 & Eq & S & _). destruct (hist_In vs b src p P) as (v' & _ & _ & ->); [rewrite Eq; apply in_elt|exact S|].
  unfold standard_source, local_source in H. destruct (open _) as [d| |] eqn:Od; try discriminate H. injection H as ->. exact (O _ _ Od).
Qed.
Lemma table_add vs v t : add_uri_source L (Some (standard_base E v)) (standard_source open package v) (table vs) = Ok t ->
  t = table (vs ++ [v]) /\ acceptable L (standard_base E v).
Proof.
  intro H. unfold table, hist. rewrite map_app. cbn [map]. rewrite register_snoc. fold (hist vs). fold (table vs). rewrite H. split; [reflexivity|].
  destruct (acceptable_dec L (standard_base E v)) as [A|A]; [exact A|]. exfalso. unfold add_uri_source in H.
  destruct (uri_validate L true true false true (standard_base E v)) as [[]|e|] eqn:V; cbn [or_catalog_error bind] in H; [|destruct e; discriminate H|discriminate H].
  destruct (ends_with_slash (ul_path L (standard_base E v))) eqn:S; [|discriminate H]. apply A. apply slash_spec in S. apply validate_loadable in V. unfold loadable in V. unfold acceptable. tauto.
Qed.

(** ** The vocabularies. *)
Lemma standard_parsed v st : parses_standard E v -> create_standard (ul_parse L) v st = create_standard (fun t => mkUri t None) v st.
Proof.
  intro P. unfold create_standard. unfold parses_standard in P. revert P st. induction (standard_vocabularies v) as [|nc r IH]; intros P st; [reflexivity|]. cbn [fold_left].
  rewrite (P (fst nc)) by (now left). apply IH. intros n I. apply P. now right.
Qed.
Lemma standard_cat v st : mc_cat (create_standard (fun t => mkUri t None) v st) = mc_cat st /\ mc_metas (create_standard (fun t => mkUri t None) v st) = mc_metas st.
Proof. unfold create_standard. revert st. induction (standard_vocabularies v) as [|nc r IH]; intro st; [auto|]. cbn [fold_left]. exact (IH (create_vocabulary (mkUri (fst nc) None) (snd nc) st)). Qed.
Lemma standard_runs v st : runs see st -> runs see (create_standard (fun t => mkUri t None) v st).
Proof. unfold create_standard. revert st. induction (standard_vocabularies v) as [|nc r IH]; intros st H; [exact H|]. cbn [fold_left]. apply IH. now constructor. Qed.
Lemma known_keep l : forall st n, ~ In n (map fst l) -> known_as (fold_left (fun st nc => create_vocabulary (mkUri (fst nc) None) (snd nc) st) l st) (mkUri n None) = known_as st (mkUri n None).
Proof.
  induction l as [|[n' cs'] r IH]; intros st n H; [reflexivity|]. cbn [fold_left fst snd]. rewrite IH by (intro; apply H; now right).
  unfold known_as, create_vocabulary. cbn [mc_vocabs find v_uri]. destruct (uri_eqb (mkUri n' None) (mkUri n None)) eqn:Ue; [|reflexivity].
  exfalso. apply H. left. cbn [fst]. destruct (uri_eqb_spec (mkUri n' None) (mkUri n None)) as [X|]; [congruence|discriminate Ue].
Qed.
Lemma vocab_base v n cs : In (n, cs) (standard_vocabularies v) -> exists r, n = draft v "" ++ r.
Proof.
  intro I. unfold standard_vocabularies in I. apply in_map_iff in I. destruct I as ([x cs'] & X & _). injection X as <- _. exists (lit x). unfold draft. cbn [fst]. rewrite <- !app_assoc. reflexivity.
Qed.
Lemma standard_keep v w st : knows_standard st w -> knows_standard (create_standard (fun t => mkUri t None) v st) w.
Proof.
  intros K n cs I. assert (D : v = w \/ v <> w) by (destruct v, w; (now left) || (right; discriminate)). destruct D as [<-|D]; [now apply C68_known|].
  unfold create_standard. rewrite known_keep; [now apply K|]. intro X. apply in_map_iff in X. destruct X as ([n' cs'] & Eq & I'). cbn [fst] in Eq. subst n'.
  destruct (vocab_base v n cs' I') as [r Er]. destruct (vocab_base w n cs I) as [r' Er']. rewrite Er in Er'. apply base_clash in Er'. contradiction.
Qed.

(** ** The metaschemas. *)
Lemma create_ok E' f u core defaults st s st' : create_metaschema E' see f u core defaults st = (Ok s, st') ->
  exists v vc vs, load_json (e_lib E') (e_sources E') u = Ok v /\ new_metaschema E' f u v vc vs st = (Ok s, st').
Proof.
  intro H. unfold create_metaschema in H. destruct (load_json (e_lib E') (e_sources E') u) as [v| |]; cbn [bind] in H; try discriminate H.
  destruct (default_core (mc_vocabs st) core) as [dc| |]; cbn [bind] in H; try discriminate H. destruct (all_vocabularies (mc_vocabs st) defaults) as [dv| |]; cbn [bind] in H; try discriminate H.
  exists v, dc, dv. split; [reflexivity|]. destruct (new_metaschema E' f u v dc dv st) as [[s0| |] st0] eqn:N; try discriminate H.
  apply pair_equal_spec in H. destruct H as [H ->]. destruct (validate _ _ _ _) as [[|]| |]; try discriminate H. injection H as ->. reflexivity.
Qed.
Lemma id_same E' u ms : same_id E' u ms = true -> own_uri E' (Some u) None ms = Some u.
Proof.
  assert (Self : forall w, entitled (e_lib E') (Some w) w = w) by (intro w; unfold entitled; now destruct (uri_same (e_lib E') w w)).
  unfold same_id, own_uri. cbn [base_of option_map]. destruct (dget (lit "$id") ms) as [[| | |t| |]|]; auto. cbv zeta.
  destruct (ul_absolute (e_lib E') (ul_parse (e_lib E') t)).
  - destruct (uri_eqb_spec u (ul_parse (e_lib E') t)) as [<-|]; [cbn [option_map]; now rewrite Self|discriminate].
  - destruct (uri_eqb_spec u (ul_resolve (e_lib E') (ul_parse (e_lib E') t) (no_fragment u))) as [<-|]; [cbn [option_map]; now rewrite Self|discriminate].
Qed.
Lemma new_object E' f u v core defaults st s st' : reads_json E' -> runs see st -> jwf v = true ->
  new_metaschema E' f u v core defaults st = (Ok s, st') ->
  (exists o, nth_error (c_objs (mc_cat st')) s = Some o /\ so_uri o = Some u /\ so_up o = None) /\
  kept (mc_cat st) (mc_cat st') /\ mc_vocabs st' = mc_vocabs st /\ s = length (c_objs (mc_cat st)) /\ exists m, mc_metas st' = (s, m) :: mc_metas st.
Proof.
  intros R Ru J H. destruct (new_ok E' f u v core defaults st s st' H) as (ms & vc & d & -> & Es & _ & _ & Si & C & Mv & m & Ms & _).
  destruct (C55_made _ f meta_id (JObj ms) (Some u) None (mc_cat st) s (mc_cat st') (reads_with E' _ R) (runs_reachable see st Ru) J C) as [Md K].
  split; [|split; [exact K|split; [exact Mv|split; [exact Es|now exists m]]]].
  inversion Md as [|? ? ? ? ? ? o kws Ho Hd Hu Uo _ _ _ _ _ _]; subst. exists o. split; [exact Ho|]. split; [|exact Hu]. rewrite Uo. exact (id_same E' u ms Si).
Qed.

Lemma draft_split v name : draft v name = draft v "" ++ lit name.
Proof. unfold draft. rewrite <- !app_assoc. reflexivity. Qed.

(** ** What holds all along. *)
Definition fine (vs : list version) (t : sources) (st : mcat) : Prop :=
  t = table vs /\ (forall v, In v vs -> acceptable L (standard_base E v)) /\ runs see st /\
  (forall v, In v vs -> knows_standard st v) /\
  (forall v, In v vs -> has_metaschema st v).
Definition main_document (v : version) : Prop :=
  exists ms, standard_source open package v (lit "schema") = Ok (JObj ms) /\ lists_standard v ms.

Lemma initialize_fine f v vs t st t' st' : opens_json open -> (forall w, In w (vs ++ [v]) -> parses_version E w) -> main_document v ->
  fine vs t st -> initialize E see open package f v t st = (Ok tt, (t', st')) -> fine (vs ++ [v]) t' st'.
Proof.
  intros O P (ms & Om & Ls) (Ht & A & Ru & Kn & Me) H. unfold initialize in H.
  destruct (add_uri_source L (Some (standard_base E v)) (standard_source open package v) t) as [t1| |] eqn:Ad; try discriminate H.
  rewrite Ht in Ad. destruct (table_add vs v t1 Ad) as [-> Av]. set (E' := with_sources E (table (vs ++ [v]))) in *.
  assert (Pv : parses_version E v) by (apply P; apply in_elt). destruct Pv as (Ps & Pb & Lv).
  rewrite (standard_parsed v st Ps) in H. set (st1 := create_standard (fun t => mkUri t None) v st) in *.
  destruct (create_standard_metaschema E' see f v st1) as [[s| |] st2] eqn:C; [|discriminate H|discriminate H]. apply pair_equal_spec in H. destruct H as [_ H]. apply pair_equal_spec in H. destruct H as [<- <-].
  assert (Av' : forall w, In w (vs ++ [v]) -> acceptable L (standard_base E w)) by (intros w I; apply in_app_iff in I; destruct I as [I|[<-|[]]]; [exact (A w I)|exact Av]).
  assert (R : reads_json E') by (now apply table_reads).
  assert (Ru1 : runs see st1) by (now apply standard_runs).
  assert (Us : ul_parse (e_lib E') (draft v "schema") = mkUri (draft v "schema") None) by (apply Pb; right; now left).
  assert (Ld : load_json (e_lib E') (e_sources E') (ul_parse (e_lib E') (draft v "schema")) = Ok (JObj ms)).
  { rewrite Us. cbn [e_lib e_sources E' with_sources]. rewrite (table_loads (vs ++ [v]) v _ (lit "schema") P Av'); [now rewrite Om|apply in_elt|exact Lv|].
    unfold uri_str. cbn [u_base u_frag]. now rewrite app_nil_r, draft_split. }
  assert (Kv : knows_standard st1 v) by apply C68_known.
  destruct (C68_standard E' see f v st1 s st2 ms R Ru1 Ps Kv Ld Ls C) as (m & Mm & Pm).
  assert (C' := C). unfold create_standard_metaschema in C'. rewrite Us in C'. destruct (map _ (standard_vocabularies v)) as [|core others]; [discriminate C'|].
  destruct (create_ok E' f _ _ _ _ _ _ C') as (doc & vc & ds & Ld' & N). rewrite <- Us, Ld in Ld'. injection Ld' as <-.
  destruct (new_object E' f _ (JObj ms) vc ds st1 s st2 R Ru1 (R _ _ Ld) N) as ((o & Ho & Uo & Up) & K & Mv & Es & m2 & Ms).
  destruct (standard_cat v st) as [Sc Sm]. fold st1 in Sc, Sm.
  split; [reflexivity|]. split; [exact Av'|]. split.
  { assert (X : st2 = snd (create_metaschema E' see f (mkUri (draft v "schema") None) (Some core) others st1)) by now rewrite C'. rewrite X. now constructor. }
  split.
  - assert (Same : forall w, knows_standard st1 w -> knows_standard st2 w) by (intros w Hk n cs I; unfold known_as; rewrite Mv; exact (Hk n cs I)).
    intros w I. apply Same. apply in_app_iff in I. destruct I as [I|[<-|[]]]; [apply standard_keep; now apply Kn|exact Kv].
  - intros w I. apply in_app_iff in I. destruct I as [I|[<-|[]]].
    + destruct (Me w I) as (s' & o' & m' & Ho' & Uo' & Up' & Mm' & Pm'). assert (Hl : s' < length (c_objs (mc_cat st))) by (apply nth_error_Some; congruence).
      rewrite <- Sc in Ho', Hl. destruct (K s' o' Ho') as (o2 & Ho2 & Q1 & _ & Q2 & _). exists s', o2, m'. split; [exact Ho2|]. split; [congruence|]. split; [congruence|]. split; [|exact Pm'].
      unfold meta_at in *. rewrite Ms, Sm. cbn [find fst]. assert (Ne : (s =? s') = false) by (apply Nat.eqb_neq; lia). now rewrite Ne.
    + exists s, o, m. auto.
Qed.

Lemma all_fine f names : forall vs t st t' st', opens_json open ->
  (forall n v, In n names -> version_called n = Some v -> parses_version E v /\ main_document v) ->
  (forall v, In v vs -> parses_version E v) -> fine vs t st ->
  initialize_all E see open package f names t st = (Ok tt, (t', st')) ->
  exists ws, map version_called names = map Some ws /\ fine (vs ++ ws) t' st'.
Proof.
  induction names as [|n r IH]; intros vs t st t' st' O Hn P F H; cbn [initialize_all] in H.
  - exists []. apply pair_equal_spec in H. destruct H as [_ H]. apply pair_equal_spec in H. destruct H as [<- <-]. rewrite app_nil_r. auto.
  - destruct (version_called n) as [v|] eqn:Vn; [|discriminate H]. destruct (initialize E see open package f v t st) as [[[]| |] [t1 st1]] eqn:I; try discriminate H.
    destruct (Hn n v (or_introl eq_refl) Vn) as [Pv Dv].
    assert (P' : forall w, In w (vs ++ [v]) -> parses_version E w) by (intros w Hw; apply in_app_iff in Hw; destruct Hw as [Hw|[<-|[]]]; auto).
    destruct (IH (vs ++ [v]) t1 st1 t' st' O) as (ws & Eq & Fw); [intros n' w Hi; apply Hn; now right|exact P'|eapply initialize_fine; eauto|exact H|].
    exists (v :: ws). cbn [map]. rewrite Vn, Eq. split; [reflexivity|]. now rewrite <- app_assoc in Fw.
Qed.
End Start.
