(** C96: what a RemoteSource fetches. *)
From Coq Require Import String List NArith Bool Lia.
From Verif Require Import BaseFacts PointerFacts CatalogFacts Rfc3986 Source SpecRemote SpecCatalog PropsCatalog.
Import ListNotations.
Open Scope N_scope.
Open Scope list_scope.

(** ** Facts about the library *)
Lemma stop_free stop c : ~ In c stop -> existsb (N.eqb c) stop = false.
Proof.
  intro H. destruct (existsb (N.eqb c) stop) eqn:E; [|reflexivity]. apply existsb_exists in E. destruct E as (x & Hx & E).
  apply N.eqb_eq in E. subst x. contradiction.
Qed.
Lemma upto_stops stop a c r : free stop a -> In c stop -> upto stop (a ++ c :: r) = (a, c :: r).
Proof.
  intros F I. induction a as [|x a IH]; cbn [app upto].
  - replace (existsb (N.eqb c) stop) with true; [reflexivity|]. symmetry. apply existsb_exists. exists c. split; [exact I|apply N.eqb_refl].
  - rewrite stop_free by (apply F; now left). rewrite IH by (intros y Hy; apply F; now right). reflexivity.
Qed.
Lemma upto_all stop a : free stop a -> upto stop a = (a, []).
Proof.
  intro F. induction a as [|x a IH]; cbn [upto]; [reflexivity|].
  rewrite stop_free by (apply F; now left). rewrite IH by (intros y Hy; apply F; now right). reflexivity.
Qed.
Lemma free_app stop a b : free stop a -> free stop b -> free stop (a ++ b).
Proof. intros A B c H. apply in_app_or in H. destruct H; [now apply A|now apply B]. Qed.
Lemma free_less stop stop' a : (forall c, In c stop' -> In c stop) -> free stop a -> free stop' a.
Proof. intros I F c H K. exact (F c H (I c K)). Qed.
Lemma free_one stop c : ~ In c stop -> free stop [c].
Proof. intros N x [<-|[]]. exact N. Qed.

Lemma folders_free c l : c <> 47 -> In c [47; 63; 35] -> Forall segment l -> free [c] (folders l).
Proof.
  intros N I. induction 1 as [|s l [F _] _ IH]; cbn [folders flat_map]; [now intros x []|]. apply free_app; [apply free_app|exact IH].
  - apply (free_less [47; 63; 35]); [intros x [<-|[]]; exact I|exact F].
  - apply free_one. intros [E|[]]. congruence.
Qed.

(** Dot segments. *)
Lemma drop_none l : forall out, Forall (fun s => s <> lit "." /\ s <> lit "..") l -> drop_dots out l = rev out ++ l.
Proof.
  induction l as [|s l IH]; intros out F; cbn [drop_dots]; [now rewrite app_nil_r|].
  apply Forall_cons_iff in F. destruct F as [[A B] F]. apply str_eqb_neq in A, B. rewrite A, B, (IH _ F). cbn [rev]. now rewrite <- app_assoc.
Qed.
Lemma split_folders l s : Forall (fun x => ~ In 47 x) l -> split_char 47 (folders l ++ s) = l ++ split_char 47 s.
Proof.
  induction 1 as [|x l N _ IH]; [reflexivity|]. cbn [folders flat_map app]. rewrite <- !app_assoc. cbn [app].
  rewrite (split_app 47 x) by exact N. f_equal. exact IH.
Qed.
Lemma join_folders l s : join_slash (l ++ [s]) = folders l ++ s.
Proof.
  induction l as [|x l IH]; [reflexivity|]. cbn [app folders flat_map]. rewrite <- !app_assoc.
  destruct (l ++ [s]) as [|y t] eqn:E; [destruct l; discriminate E|]. transitivity (x ++ 47 :: join_slash (y :: t)); [reflexivity|]. now rewrite IH.
Qed.
Lemma no_dots l s : Forall segment l -> segment s -> remove_dot_segments (47 :: folders l ++ s) = 47 :: folders l ++ s.
Proof.
  intros F [Fs [S1 S2]]. cbn [remove_dot_segments]. f_equal.
  assert (Nl : Forall (fun x => ~ In 47 x) l) by (eapply Forall_impl; [|exact F]; intros x [Fx _] H; apply (Fx 47 H); now left).
  rewrite split_folders by exact Nl. rewrite split_noslash by (intro H; apply (Fs 47 H); now left).
  rewrite drop_none; [apply join_folders|]. apply Forall_app. split; [|constructor; [now split|constructor]].
  eapply Forall_impl; [|exact F]. now intros x [_ D].
Qed.

(** Taking the texts apart. *)
Lemma scheme_free s : is_scheme s = true -> free [58; 47; 63; 35] s.
Proof.
  intro H. assert (G : forall c, scheme_char c = true -> ~ In c [58; 47; 63; 35]).
  { intros c C [<-|[<-|[<-|[<-|[]]]]]; discriminate C. }
  intros c Hc. apply G. destruct s as [|x s]; [destruct Hc|]. cbn [is_scheme] in H. apply andb_true_iff in H. destruct H as [A B].
  destruct Hc as [<-|Hc]; [unfold scheme_char; now rewrite A|]. rewrite forallb_forall in B. now apply B.
Qed.
Lemma split_folder_url scheme authority l : right_folder scheme authority l ->
  split_parts (folder_url scheme authority l) = mkParts (Some scheme) (Some authority) (47 :: folders l) None.
Proof.
  intros (S & A & F). unfold split_parts, folder_url. unfold split_scheme. cbn [app].
  rewrite (upto_stops _ scheme 58) by (first [now apply scheme_free|now left]). rewrite S. cbn [split_authority].
  rewrite (upto_stops _ authority 47) by (first [exact A|now left]).
  rewrite upto_all; [reflexivity|]. intros c [<-|Hc]; [intros [E|[]]; discriminate E|].
  exact (folders_free 63 l ltac:(discriminate) ltac:(right; now left) F c Hc).
Qed.
Lemma no_scheme a t : free [58; 47; 63; 35] a -> t = [] \/ (exists r, t = 47 :: r) \/ (exists r, t = 63 :: r) -> split_scheme (a ++ t) = (None, a ++ t).
Proof.
  intros F [->|[[r ->]|[r ->]]]; unfold split_scheme.
  - rewrite app_nil_r, upto_all by exact F. reflexivity.
  - rewrite upto_stops by (first [exact F|cbn; tauto]). reflexivity.
  - rewrite upto_stops by (first [exact F|cbn; tauto]). reflexivity.
Qed.
Lemma no_authority c s : c <> 47 -> split_authority (c :: s) = (None, c :: s).
Proof. intro N. unfold split_authority. destruct c as [|c]; [reflexivity|]. do 6 (destruct c as [c|c|]; try reflexivity). congruence. Qed.
Lemma split_query a q : free [63] a ->
  match upto [63] (a ++ match q with Some q => 63 :: q | None => [] end) with
  | (path, 63 :: q) => mkParts None None path (Some q)
  | (path, _) => mkParts None None path None
  end = mkParts None None a q.
Proof.
  intro F. destruct q as [q|].
  - rewrite upto_stops by (first [exact F|now left]). reflexivity.
  - rewrite app_nil_r, upto_all by exact F. reflexivity.
Qed.
Lemma split_rel_text l name query : right_rel l name query ->
  split_parts (rel_text l name query) = mkParts None None (folders l ++ name) query.
Proof.
  intros (F & N & H & Q).
  assert (P : free [63] (folders l ++ name)).
  { apply free_app; [now apply folders_free; [discriminate|right; left|]|]. apply (free_less [47; 63; 35]); [|apply N]. intros c [<-|[]]. right. now left. }
  assert (B : split_scheme (rel_text l name query) = (None, rel_text l name query) /\ split_authority (rel_text l name query) = (None, rel_text l name query)).
  { unfold rel_text. destruct l as [|s l].
    - cbn [folders flat_map app]. split.
      + apply no_scheme; [|destruct query; eauto]. intros c Hc [<-|Hs]; [exact (H 58 Hc (or_introl eq_refl))|exact (proj1 N c Hc Hs)].
      + destruct name as [|c name]; [destruct query; reflexivity|]. apply no_authority. intros ->. exact (proj1 N 47 (or_introl eq_refl) (or_introl eq_refl)).
    - destruct H as [Hn Hc0]. apply Forall_cons_iff in F. destruct F as [Fs F]. cbn [folders flat_map]. rewrite <- !app_assoc. cbn [app]. split.
      + apply no_scheme; [|right; left; eauto]. intros c Hc [<-|Hs]; [exact (Hc0 58 Hc (or_introl eq_refl))|exact (proj1 Fs c Hc Hs)].
      + destruct s as [|c s]; [now elim Hn|]. apply no_authority. intros ->. exact (proj1 Fs 47 (or_introl eq_refl) (or_introl eq_refl)). }
  destruct B as [B1 B2]. unfold split_parts. rewrite B1, B2. unfold rel_text. rewrite app_assoc. now apply split_query.
Qed.

Lemma rel_no_fragment l name query : right_rel l name query -> parse_uri_reference (rel_text l name query) = mkUri (rel_text l name query) None.
Proof.
  intros (F & N & H & Q). unfold parse_uri_reference. rewrite upto_all; [reflexivity|].
  apply free_app; [now apply folders_free; [discriminate|right; right; left|]|apply free_app].
  - apply (free_less [47; 63; 35]); [|apply N]. intros c [<-|[]]. right. right. now left.
  - destruct query as [q|]; [|now intros c []]. intros c [<-|Hc]; [intros [E|[]]; discriminate E|exact (Q c Hc)].
Qed.

Lemma last_slash p : after_last_slash (p ++ [47]) = p ++ [47].
Proof. unfold after_last_slash. rewrite rev_app_distr. cbn [rev app upto existsb N.eqb Pos.eqb orb snd]. cbn [rev]. now rewrite rev_involutive. Qed.
Lemma folders_end l : exists p, 47 :: folders l = p ++ [47].
Proof.
  destruct l as [|s l] using rev_ind; [exists []; reflexivity|]. exists (47 :: folders l ++ s).
  unfold folders. rewrite flat_map_app. cbn [flat_map]. rewrite app_nil_r. cbn [app]. now rewrite <- !app_assoc.
Qed.
Lemma resolve_relative c p q b : c <> 47 -> resolve_parts (mkParts None None (c :: p) q) b =
  mkParts (p_scheme b) (p_authority b) (remove_dot_segments (merge_path b (c :: p))) q.
Proof. intro N. unfold resolve_parts. cbn [p_scheme p_authority p_path p_query]. destruct c as [|c]; [reflexivity|]. do 6 (destruct c as [c|c|]; try reflexivity). congruence. Qed.

Lemma resolves_below scheme authority l l' name query fragment :
  right_folder scheme authority l -> right_rel l' name query ->
  resolve_uri (parse_uri_reference (rel_text l' name query)) (mkUri (folder_url scheme authority l) fragment) =
  mkUri (folder_url scheme authority l ++ rel_text l' name query) None.
Proof.
  intros B R. rewrite (rel_no_fragment _ _ _ R). unfold resolve_uri. cbn [u_base u_frag].
  rewrite (split_rel_text _ _ _ R), (split_folder_url _ _ _ B). f_equal. destruct B as (S & A & F). destruct R as (F' & N & H & Q).
  destruct (folders l' ++ name) as [|c p] eqn:E.
  - apply app_eq_nil in E. destruct E as [El ->]. destruct l' as [|s l']; [|destruct s; discriminate El].
    unfold resolve_parts, join_parts, rel_text, folder_url. cbn [p_scheme p_authority p_path p_query folders flat_map app].
    destruct query; rewrite <- ?app_assoc; cbn [app]; rewrite <- ?app_assoc; cbn [app]; rewrite ?app_nil_r; reflexivity.
  - assert (Nc : c <> 47).
    { intros ->. destruct l' as [|s l'].
      - cbn [folders flat_map app] in E. subst name. exact (proj1 N 47 (or_introl eq_refl) (or_introl eq_refl)).
      - destruct H as [Hn _]. destruct s as [|x s]; [now elim Hn|]. injection E as E _. apply Forall_inv in F'. subst x.
        exact (proj1 F' 47 (or_introl eq_refl) (or_introl eq_refl)). }
    rewrite (resolve_relative c p query _ Nc). rewrite <- E. unfold merge_path. cbn [p_authority p_path p_scheme].
    destruct (folders_end l) as [w Ew].
    assert (M : after_last_slash (47 :: folders l) ++ folders l' ++ name = 47 :: folders (l ++ l') ++ name).
    { rewrite Ew, last_slash, <- Ew. unfold folders. rewrite flat_map_app. cbn [app]. now rewrite <- app_assoc. }
    rewrite M, no_dots by (first [apply Forall_app; now split|exact N]).
    unfold join_parts, rel_text, folder_url. cbn [p_scheme p_authority p_path p_query]. unfold folders. rewrite flat_map_app.
    repeat (rewrite <- ?app_assoc; cbn [app]). reflexivity.
Qed.

(** ** C96 *)

(** A path that has no slash in front, no colon in its first segment and no dot
    segments is looked for below the base, with the suffix after it. *)
Theorem C96_below_partial : forall fetch scheme authority l fragment suffix l' name query,
  right_folder scheme authority l -> right_rel l' name query ->
  remote_source rfc3986 fetch (mkUri (folder_url scheme authority l) fragment) suffix (rel_text l' name query) =
  fetch (folder_url scheme authority l ++ rel_text l' name query ++ match suffix with Some s => s | None => [] end).
Proof.
  intros fetch scheme authority l fragment suffix l' name query B R. unfold remote_source. cbn [ul_resolve ul_parse rfc3986].
  rewrite (resolves_below _ _ _ _ _ _ _ B R). unfold uri_str. cbn [u_base u_frag]. now rewrite app_nil_r, <- app_assoc.
Qed.
Print Assumptions C96_below_partial.

(** Through the catalog: what is loaded for a URI whose longest registered
    prefix is that of a RemoteSource. *)
Theorem C96_loads_partial : forall fetch scheme authority l fragment suffix h u p l' name query,
  right_folder scheme authority l -> right_rel l' name query ->
  loadable rfc3986 u -> longest rfc3986 h (uri_str u) p ->
  latest rfc3986 h p (remote_source rfc3986 fetch (mkUri (folder_url scheme authority l) fragment) suffix) ->
  uri_str u = p ++ rel_text l' name query ->
  load_json rfc3986 (SpecCatalog.register rfc3986 h []) u =
  match fetch (folder_url scheme authority l ++ rel_text l' name query ++ match suffix with Some s => s | None => [] end) with
  | Exn _ => Exn ECatalog | e => e end.
Proof.
  intros fetch scheme authority l fragment suffix h u p l' name query B R V Lo La E.
  destruct (C48_longest rfc3986 h u p _ V Lo La) as (rest & E' & ->). rewrite E in E'. apply app_inv_head in E'. subst rest.
  now rewrite (C96_below_partial fetch scheme authority l fragment suffix l' name query B R).
Qed.
Print Assumptions C96_loads_partial.

(** The claim for all paths fails.  A mirror of https://a.org/ at
    https://b.org/m/ fetches from any host and from outside /m/, although the
    URIs asked for are normal and below https://a.org/. *)
Definition mirror (fetch : pystr -> res json) : list (option uri * source) :=
  [(Some (mkUri (lit "https://a.org/") None), remote_source rfc3986 fetch (mkUri (folder_url (lit "https") (lit "b.org") [lit "m"]) None) None)].
Definition echo (url : pystr) : res json := Ok (JStr url).
Definition asked (s : string) : res json := load_json rfc3986 (SpecCatalog.register rfc3986 (mirror echo) []) (mkUri (lit s) None).
Definition is_below (r : res json) : Prop := exists rest, r = Ok (JStr (folder_url (lit "https") (lit "b.org") [lit "m"] ++ rest)).

Theorem C96_below_refuted :
  asked "https://a.org///evil.org/x" = Ok (JStr (lit "https://evil.org/x")) /\
  asked "https://a.org//x" = Ok (JStr (lit "https://b.org/x")) /\
  asked "https://a.org/http://evil.org/x" = Ok (JStr (lit "http://evil.org/x")) /\
  asked "https://a.org/urn:x" = Ok (JStr (lit "urn:x")) /\
  Forall (fun s => loadable rfc3986 (mkUri (lit s) None) /\ ~ is_below (asked s))
    ["https://a.org///evil.org/x"; "https://a.org//x"; "https://a.org/http://evil.org/x"; "https://a.org/urn:x"]%string.
Proof.
  do 4 (split; [vm_compute; reflexivity|]).
  repeat apply Forall_cons; [..|apply Forall_nil]; (split; [vm_compute; repeat split|intros (rest & E); vm_compute in E; discriminate E]).
Qed.
Print Assumptions C96_below_refuted.

(** A source registered for all URIs is handed the URI itself, and then the base
    does not matter. *)
Theorem C96_default : forall fetch base suffix scheme authority l name query,
  right_folder scheme authority l -> segment name -> match query with Some q => free [35] q | None => True end ->
  let url := folder_url scheme authority l ++ name ++ match query with Some q => 63 :: q | None => [] end in
  remote_source rfc3986 fetch base suffix url = fetch (url ++ match suffix with Some t => t | None => [] end).
Proof.
  intros fetch base suffix scheme authority l name query (S & A & F) Nm Q url. unfold remote_source. cbn [ul_resolve ul_parse rfc3986].
  assert (E1 : parse_uri_reference url = mkUri url None).
  { unfold parse_uri_reference. rewrite upto_all; [reflexivity|]. unfold url, folder_url. repeat apply free_app.
    - apply (free_less [58; 47; 63; 35]); [intros c [<-|[]]; cbn; tauto|now apply scheme_free].
    - intros c [<-|[<-|[<-|[]]]] [E|[]]; discriminate E.
    - apply (free_less [47; 63; 35]); [intros c [<-|[]]; cbn; tauto|exact A].
    - intros c [<-|[]] [E|[]]; discriminate E.
    - now apply folders_free; [discriminate|cbn; tauto|].
    - apply (free_less [47; 63; 35]); [intros c [<-|[]]; cbn; tauto|apply Nm].
    - destruct query as [q|]; [|now intros c []]. intros c [<-|Hc]; [intros [E|[]]; discriminate E|exact (Q c Hc)]. }
  assert (E2 : split_parts url = mkParts (Some scheme) (Some authority) (47 :: folders l ++ name) query).
  { unfold split_parts, url, folder_url, split_scheme. repeat (rewrite <- ?app_assoc; cbn [app]).
    rewrite (upto_stops _ scheme 58) by (first [now apply scheme_free|now left]). rewrite S. cbn [split_authority].
    rewrite (upto_stops _ authority 47) by (first [exact A|now left]).
    assert (P : free [63] (47 :: folders l ++ name)).
    { intros c [<-|Hc]; [intros [E|[]]; discriminate E|]. apply in_app_or in Hc. destruct Hc as [Hc|Hc].
      - exact (folders_free 63 l ltac:(discriminate) ltac:(right; now left) F c Hc).
      - intros [<-|[]]. apply (proj1 Nm 63 Hc). cbn. tauto. }
    rewrite app_assoc, app_comm_cons. destruct query as [q|].
    - rewrite upto_stops by (first [exact P|now left]). reflexivity.
    - rewrite app_nil_r, upto_all by exact P. reflexivity. }
  rewrite E1. unfold resolve_uri. cbn [u_base u_frag]. rewrite E2. unfold resolve_parts. cbn [p_scheme p_authority p_path p_query].
  rewrite (no_dots l name F Nm). unfold uri_str. cbn [u_base u_frag]. unfold join_parts. cbn [p_scheme p_authority p_path p_query].
  unfold url, folder_url. f_equal. rewrite app_nil_r. repeat (rewrite <- ?app_assoc; cbn [app]). reflexivity.
Qed.
Print Assumptions C96_default.

Example C96_case :
  right_folder (lit "https") (lit "b.org") [lit "m"] /\ right_rel [lit "c"; []; lit "d:e"] (lit "f") (Some (lit "x=/?"))
  /\ rel_text [lit "c"; []; lit "d:e"] (lit "f") (Some (lit "x=/?")) = lit "c//d:e/f?x=/?"
  /\ loadable rfc3986 (mkUri (lit "https://a.org/c//d:e/f?x=/?") None)
  /\ asked "https://a.org/c//d:e/f?x=/?" = Ok (JStr (lit "https://b.org/m/c//d:e/f?x=/?"))
  /\ asked "https://a.org/" = Ok (JStr (lit "https://b.org/m/"))
  /\ asked "https://c.org/" = Exn ECatalog
  /\ remote_source rfc3986 echo (mkUri (lit "https://b.org/m/") None) (Some (lit ".json")) (lit "c/d") = Ok (JStr (lit "https://b.org/m/c/d.json"))
  /\ remote_source rfc3986 echo (mkUri (lit "https://b.org/m") None) None (lit "c/d") = Ok (JStr (lit "https://b.org/c/d"))
  /\ remote_source rfc3986 echo (mkUri (lit "https://b.org/m/") None) None (lit "http://d.org/x?y") = Ok (JStr (lit "http://d.org/x?y")).
Proof.
  assert (D : forall stop s, forallb (fun c => negb (existsb (N.eqb c) stop)) s = true -> free stop s).
  { intros stop s H c Hc K. rewrite forallb_forall in H. specialize (H c Hc). apply negb_true_iff in H.
    enough (existsb (N.eqb c) stop = true) by congruence. apply existsb_exists. exists c. split; [exact K|apply N.eqb_refl]. }
  assert (G : forall s, forallb (fun c => negb (existsb (N.eqb c) [47; 63; 35])) s && negb (str_eqb s (lit ".")) && negb (str_eqb s (lit "..")) = true -> segment s).
  { intros s H. apply andb_true_iff in H. destruct H as [H C]. apply andb_true_iff in H. destruct H as [A B].
    apply negb_true_iff, str_eqb_neq in B. apply negb_true_iff, str_eqb_neq in C. split; [now apply D|now split]. }
  split; [split; [reflexivity|split; [apply D; reflexivity|repeat constructor; apply G; reflexivity]]|].
  split; [split; [repeat apply Forall_cons; [..|apply Forall_nil]; apply G; reflexivity|split; [apply G; reflexivity|split; [split; [discriminate|apply D; reflexivity]|apply D; reflexivity]]]|].
  split; [reflexivity|]. split; [vm_compute; repeat split|]. repeat apply conj; vm_compute; reflexivity.
Qed.
