(** C85: format validators. *)
From Coq Require Import String List Bool Lia.
From Verif Require Import Formats SpecFormats BaseFacts PropsPointer PropsEval.
Import ListNotations.
Open Scope string_scope.
Open Scope list_scope.
Open Scope nat_scope.

Lemma after_snoc h e : after (h ++ [e]) = happen (after h) e.
Proof. unfold after. now rewrite fold_left_app. Qed.
Lemma imported_after h : fs_imported (after h) = true <-> exists e, In e h /\ imports e.
Proof.
  induction h as [|e h IH] using rev_ind; [split; [discriminate|intros (e & [] & _)]|]. rewrite after_snoc.
  assert (S : (exists x, In x (h ++ [e]) /\ imports x) <-> (exists x, In x h /\ imports x) \/ imports e).
  { split.
    - intros (x & H & I). apply in_app_iff in H. destruct H as [H|[<-|[]]]; eauto.
    - intros [(x & H & I)|I]; [exists x|exists e]; rewrite in_app_iff; cbn; auto. }
  rewrite S, <- IH. destruct e as [name types f| |c names]; cbn [happen imports format_validator enable fs_imported]; [intuition| |];
    unfold import_formats; destruct (fs_imported (after h)) eqn:Q; cbn [fs_imported]; rewrite ?Q; intuition.
Qed.
Lemma puts_table h e name : 
  (exists x, puts_in_place h e name x /\ dget name (fs_table (happen (after h) e)) = Some x) \/
  (forall x, ~ puts_in_place h e name x) /\ dget name (fs_table (happen (after h) e)) = dget name (fs_table (after h)).
Proof.
  assert (Im : imports e -> fs_table (happen (after h) e) = fs_table (import_formats (after h))) by (destruct e; cbn [imports happen enable fs_table]; tauto).
  destruct e as [n types f| |c names].
  1:{ cbn [happen format_validator fs_table]. rewrite dget_dset. destruct (str_eqb_spec name n) as [->|Ne].
      - left. eexists. split; [constructor|reflexivity].
      - right. split; [|reflexivity]. intros x P. inversion P as [|e I]; subst; [now apply Ne|destruct I]. }
  all: rewrite (Im I); pose proof (imported_after h) as A; unfold import_formats; destruct (fs_imported (after h)).
  all: try (right; split; [|reflexivity]; intros x P; inversion P as [|e I F]; subst; destruct (proj1 A eq_refl) as (e' & H & J); exact (F e' H J)).
  all: cbn [format_validator fs_table]; rewrite dget_dset; destruct (str_eqb_spec name (lit "json-pointer")) as [->|Ne].
  all: try (right; split; [|reflexivity]; intros x P; inversion P; subst; now apply Ne).
  all: left; eexists; split; [|reflexivity]; constructor; [exact I|]; intros e' H J; assert (X : false = true) by (apply A; eauto); discriminate X.
Qed.
Lemma puts_fun h e name x y : puts_in_place h e name x -> puts_in_place h e name y -> x = y.
Proof. intros P Q. inversion P as [|e1 I1 F1]; subst; inversion Q as [|e2 I2 F2]; subst; try reflexivity; [destruct I2|destruct I1]. Qed.
Lemma snoc_split {A} (h1 : list A) e h2 h e0 : h1 ++ e :: h2 = h ++ [e0] ->
  (h2 = [] /\ h1 = h /\ e = e0) \/ exists h2', h2 = h2' ++ [e0] /\ h = h1 ++ e :: h2'.
Proof.
  intro H. destruct h2 as [|z h2'] using rev_ind.
  - left. apply app_inj_tail in H. destruct H. auto.
  - right. clear IHh2'. exists h2'. assert (H' : (h1 ++ e :: h2') ++ [z] = h ++ [e0]) by (rewrite <- app_assoc; exact H).
    apply app_inj_tail in H'. destruct H' as [-> ->]. auto.
Qed.

(** Whatever has been registered, imported and enabled, in any order: the table
    holds for each name the validator that was put there last. *)
Theorem C85_in_force : forall h (name : pystr) x, dget name (fs_table (after h)) = Some x <-> in_force h name x.
Proof.
  intros h name. induction h as [|e h IH] using rev_ind; intro x.
  { split; [discriminate|]. intros (h1 & e & h2 & H & _). now destruct h1. }
  rewrite after_snoc. destruct (puts_table h e name) as [(y & P & ->)|[N ->]].
  - split.
    + intro E. injection E as <-. exists h, e, []. split; [reflexivity|]. split; [exact P|]. intros h3 e' h4 z H. now destruct h3.
    + intros (h1 & e1 & h2 & H & Q & F). symmetry in H. apply snoc_split in H. destruct H as [(-> & -> & ->)|(h2' & -> & ->)].
      * f_equal. exact (puts_fun _ _ _ _ _ P Q).
      * elim (F h2' e [] y eq_refl). exact P.
  - rewrite IH. split; intros (h1 & e1 & h2 & H & Q & F).
    + subst h. exists h1, e1, (h2 ++ [e]). split; [now rewrite <- app_assoc|]. split; [exact Q|]. intros h3 e' h4 z H.
      symmetry in H. apply snoc_split in H. destruct H as [(-> & -> & ->)|(h4' & -> & ->)]; [apply N|exact (F _ _ _ _ eq_refl)].
    + symmetry in H. apply snoc_split in H. destruct H as [(-> & -> & ->)|(h2' & -> & ->)]; [elim (N _ Q)|].
      exists h1, e1, h2'. split; [reflexivity|]. split; [exact Q|]. intros h3 e' h4 z ->. apply (F h3 e' (h4 ++ [e])). now rewrite <- app_assoc.
Qed.
Print Assumptions C85_in_force.

Lemma enabled_iff h c name : enabled c name (after h) = true <-> enabled_in h c name.
Proof.
  assert (S : forall p, In p (fs_enabled (after h)) <-> In (Enabled (fst p) (snd p)) h).
  { induction h as [|e h IH] using rev_ind; intro p; [reflexivity|]. rewrite after_snoc, in_app_iff.
    assert (Q : fs_enabled (import_formats (after h)) = fs_enabled (after h)) by (unfold import_formats; now destruct (fs_imported (after h))).
    destruct e as [n types f| |c' names]; cbn [happen format_validator enable fs_enabled In]; rewrite ?Q; [rewrite IH; intuition discriminate..|].
    cbn [In]. rewrite IH. split.
    - intros [<-|H]; [right; left; reflexivity|now left].
    - intros [H|[H|[]]]; [now right|]. left. destruct p. cbn [fst snd] in H. now injection H as -> ->. }
  unfold enabled, enabled_in. rewrite existsb_exists. split.
  - intros (p & H & C). apply S in H. apply andb_true_iff in C. destruct C as [C M]. apply Nat.eqb_eq in C. subst c. exists (snd p). split; [exact H|]. now apply mem_str_In.
  - intros (names & H & M). exists (c, names). split; [now apply S|]. cbn [fst snd]. rewrite Nat.eqb_refl. cbn [andb]. now apply mem_str_In.
Qed.

(** A format keyword made then holds a validator exactly if its format has been
    enabled in the catalog of the schema; it is the one in force at that time.
    A format that is enabled but has no validator raises KeyError. *)
Theorem C85_keyword : forall h c (name : pystr),
  (forall x, format_keyword c name (after h) = Ok (Some x) <-> enabled_in h c name /\ in_force h name x) /\
  (format_keyword c name (after h) = Ok None <-> ~ enabled_in h c name) /\
  (format_keyword c name (after h) = Exn EKey <-> enabled_in h c name /\ forall x, ~ in_force h name x).
Proof.
  intros h c name. pose proof (enabled_iff h c name) as En. pose proof (C85_in_force h name) as F. unfold format_keyword.
  destruct (enabled c name (after h)).
  - assert (Y : enabled_in h c name) by now apply En. destruct (dget name (fs_table (after h))) as [x|].
    + assert (Fx : in_force h name x) by now apply F. split; [|split].
      * intro y. split; [intro H; injection H as <-; auto|]. intros [_ H]. apply F in H. now injection H as ->.
      * split; [discriminate|]. intro H. elim (H Y).
      * split; [discriminate|]. intros [_ H]. elim (H x Fx).
    + split; [|split].
      * intro y. split; [discriminate|]. intros [_ H]. apply F in H. discriminate H.
      * split; [discriminate|]. intro H. elim (H Y).
      * split; [intros _|reflexivity]. split; [exact Y|]. intros x H. apply F in H. discriminate H.
  - assert (N : ~ enabled_in h c name) by (intro H; apply En in H; discriminate H). split; [|split].
    + intro y. split; [discriminate|]. intros [H _]. elim (N H).
    + split; auto.
    + split; [discriminate|]. intros [H _]. elim (N H).
Qed.
Print Assumptions C85_keyword.

(** The validator of the library accepts what RFC 6901 calls a pointer, and
    everything that is no string. *)
Theorem C85_pointer : forall v, (forall s, v = JStr s -> valid_str s) ->
  (validate_json_pointer v = Ok tt <-> pointer_if_text v) /\ (validate_json_pointer v = Exn EValue <-> ~ pointer_if_text v).
Proof.
  intros v V. assert (D : validate_json_pointer v = Ok tt /\ pointer_if_text v \/ validate_json_pointer v = Exn EValue /\ ~ pointer_if_text v).
  { unfold pointer_if_text. destruct v as [| | |s| |]; try (left; split; [reflexivity|discriminate]). cbn [validate_json_pointer].
    pose proof (C03_accepts_exactly_rfc6901 s (V s eq_refl)) as A. pose proof (C03_only_malformed_error s) as B.
    destruct (fullmatch JSON_POINTER_RE s) eqn:Fm.
    - left. split; [reflexivity|]. intros t H. injection H as <-. apply A. destruct B as [B|B]; [exact B|]. unfold parse_pointer in B. cbn in B. rewrite Fm in B. discriminate B.
    - right. split; [reflexivity|]. intro H. specialize (H s eq_refl). apply A in H. destruct H as (ks & H). unfold parse_pointer in H. cbn in H. rewrite Fm in H. discriminate H. }
  destruct D as [[-> P]|[-> P]]; (split; split); try discriminate; try tauto; auto.
Qed.
Print Assumptions C85_pointer.

(** So, where nobody has registered another validator for it and the catalog
    has the format json-pointer enabled, the keyword fails exactly the strings
    that are not pointers. *)
Theorem C85_json_pointer : forall h c i n n' held,
  (forall types f, ~ In (Registered (lit "json-pointer") types f) h) -> enabled_in h c (lit "json-pointer") ->
  (forall s, i_val i = JStr s -> valid_str s) -> r_valid n = true ->
  format_keyword c (lit "json-pointer") (after h) = Ok held -> format_evaluate (lit "json-pointer") held i n = Ok n' ->
  r_annot n' = JStr (lit "json-pointer") /\ (r_valid n' = true <-> pointer_if_text (i_val i)).
Proof.
  intros h c i n n' held Nr En Vs Vn K Ev. pose proof (C85_keyword h c (lit "json-pointer")) as (K1 & K2 & _).
  destruct held as [x|]; [|elim (proj1 K2 K En)]. apply K1 in K. destruct K as [_ (h1 & e & h2 & -> & P & _)].
  assert (X : x = (validate_json_pointer, [TString])).
  { inversion P; subst; [|reflexivity]. elim (Nr types f). rewrite in_app_iff. right. now left. }
  subst x. unfold format_evaluate in Ev. pose proof (C85_pointer (i_val i) Vs) as [V1 V2].
  destruct (i_val i) as [| | |s| |] eqn:Iv; cbn [type_of mem_type existsb jtype_eqb orb] in Ev.
  all: try (injection Ev as <-; cbn [noassert annotate r_annot r_valid]; split; [reflexivity|]; rewrite Vn; split; [intros _ t H; discriminate H|reflexivity]).
  destruct (validate_json_pointer (JStr s)) as [[]|[]|]; try discriminate Ev; injection Ev as <-; cbn [fail annotate r_annot r_valid].
  - split; [reflexivity|]. rewrite Vn. split; [intros _; now apply V1|reflexivity].
  - split; [reflexivity|]. split; [discriminate|]. intro H. elim (proj1 V2 eq_refl H).
Qed.
Print Assumptions C85_json_pointer.

(** This is the evaluation of Schema.v, for the validator held. *)
Theorem C85_evaluation : forall W k (name : pystr) held i n,
  kw_json k = KJ (JStr name) -> kw_format k = option_map snd held ->
  (forall f types, held = Some (f, types) -> f (i_val i) = Ok tt /\ w_format W name (i_val i) = true \/
                                             f (i_val i) = Exn EValue /\ w_format W name (i_val i) = false) ->
  e_format W k i n = format_evaluate name held i n.
Proof.
  intros W k name held i n Kj Kf F. unfold e_format, format_evaluate. rewrite Kj, Kf. destruct held as [[f types]|]; cbn [option_map snd]; [|reflexivity].
  destruct (mem_type (type_of (i_val i)) types); [|reflexivity]. destruct (F f types eq_refl) as [[-> ->]|[-> ->]]; reflexivity.
Qed.
Print Assumptions C85_evaluation.

(** Beyond the claim: a validator of one's own for json-pointer does not stay.
    The first enable_formats of the process, for whatever format, imports the
    module with the validators of the library, which replaces it. *)
Theorem C85_own_refuted : ~ forall h (name : pystr) types f,
  In (Registered name types f) h -> (forall types' f', In (Registered name types' f') h -> (f', types') = (f, types)) ->
  in_force h name (f, types).
Proof.
  intro H. pose (own := fun _ : json => @Exn unit EValue).
  assert (A : in_force [Registered (lit "json-pointer") [TString] own; Enabled 0 [lit "date"]] (lit "json-pointer") (own, [TString])).
  { apply H; [now left|]. intros types' f' [X|[X|[]]]; [now injection X as -> ->|discriminate X]. }
  apply C85_in_force in A. assert (B : option_map (fun x => fst x JNull) (dget (lit "json-pointer") (fs_table (after [Registered (lit "json-pointer") [TString] own; Enabled 0 [lit "date"]]))) = Some (Exn EValue)) by (now rewrite A).
  vm_compute in B. discriminate B.
Qed.
Print Assumptions C85_own_refuted.

(** Two catalogs; a validator registered again later; a format that nobody has
    registered. *)
Definition even_length : validator := fun v => match v with JStr s => if Nat.even (length s) then Ok tt else Exn EValue | _ => Ok tt end.
Definition days : list event :=
  [Registered (lit "even") [TString] (fun _ => Exn EValue); Enabled 1 [lit "even"; lit "date"]; Registered (lit "even") [TString; TNull] even_length;
   Enabled 2 [lit "json-pointer"]].
Example C85_case :
  (match format_keyword 1 (lit "even") (after days) with
   | Ok (Some (f, types)) => f (JStr (lit "ab")) = Ok tt /\ f (JStr (lit "abc")) = Exn EValue /\ types = [TString; TNull]
   | _ => False
   end) /\
  format_keyword 1 (lit "date") (after days) = Exn EKey /\
  format_keyword 2 (lit "even") (after days) = Ok None /\
  (match format_keyword 2 (lit "json-pointer") (after days) with
   | Ok (Some (f, _)) => f (JStr (lit "/a~0")) = Ok tt /\ f (JStr (lit "a")) = Exn EValue
   | _ => False
   end) /\
  enabled_in days 2 (lit "json-pointer") /\ (forall types f, ~ In (Registered (lit "json-pointer") types f) days).
Proof.
  vm_compute. repeat split; try reflexivity.
  - exists [lit "json-pointer"]. vm_compute. tauto.
  - intros types f H. repeat destruct H as [H|H]; try discriminate H. exact H.
Qed.
