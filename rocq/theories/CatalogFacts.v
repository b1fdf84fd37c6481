(** Sources and caches. *)
From Coq Require Import List Lia Bool.
From Verif Require Export BaseFacts SpecCatalog.
Import ListNotations.
Open Scope nat_scope.

Lemma uri_eqb_spec a b : reflect (a = b) (uri_eqb a b).
Proof.
  destruct a as [a f], b as [b g]. unfold uri_eqb. cbn. destruct (str_eqb_spec a b) as [->|N]; [|constructor; congruence].
  destruct f as [f|], g as [g|]; cbn; try (constructor; congruence). destruct (str_eqb_spec f g); constructor; congruence.
Qed.
Lemma uget_set_same u s m : uget u (uset u s m) = Some s.
Proof. induction m as [|[u' s'] m IH]; cbn; [now destruct (uri_eqb_spec u u)|]. destruct (uri_eqb u u') eqn:E; cbn; rewrite E; auto. Qed.
Lemma uget_set_other u v s m : u <> v -> uget v (uset u s m) = uget v m.
Proof.
  intro N. induction m as [|[u' s'] m IH]; cbn.
  - destruct (uri_eqb_spec v u); congruence.
  - destruct (uri_eqb_spec u u') as [<-|]; cbn; [|now rewrite IH]. destruct (uri_eqb_spec v u); congruence.
Qed.
Lemma uget_In u s m : uget u m = Some s -> In (u, s) m.
Proof. induction m as [|[u' s'] m IH]; cbn; [discriminate|]. destruct (uri_eqb_spec u u') as [<-|]; [intros [= ->]; now left|right; auto]. Qed.
Lemma uget_None u m : uget u m = None <-> ~ In u (map fst m).
Proof.
  induction m as [|[u' s'] m IH]; cbn; [tauto|]. destruct (uri_eqb_spec u u') as [<-|N]; [split; [discriminate|tauto]|]. rewrite IH. intuition congruence.
Qed.
Lemma udrop_In u v m : In v (map fst (udrop u m)) -> In v (map fst m).
Proof. induction m as [|[u' s'] m IH]; cbn; [auto|]. destruct (uri_eqb u u'); cbn; tauto. Qed.
Lemma udrop_NoDup u m : NoDup (map fst m) -> NoDup (map fst (udrop u m)).
Proof.
  induction m as [|[u' s'] m IH]; cbn; intro N; [constructor|]. inversion N; subst. destruct (uri_eqb u u'); [assumption|]. cbn. constructor; [|auto].
  intro H. apply H1. exact (udrop_In _ _ _ H).
Qed.
Lemma uget_drop_same u m : NoDup (map fst m) -> uget u (udrop u m) = None.
Proof.
  induction m as [|[u' s'] m IH]; cbn; intro N; [reflexivity|]. inversion N; subst. destruct (uri_eqb_spec u u') as [<-|E]; [now apply uget_None|].
  cbn. destruct (uri_eqb_spec u u'); [congruence|auto].
Qed.
Lemma uget_drop_other u v m : u <> v -> uget v (udrop u m) = uget v m.
Proof.
  intro N. induction m as [|[u' s'] m IH]; cbn; [reflexivity|]. destruct (uri_eqb_spec u u') as [<-|E]; cbn; [destruct (uri_eqb_spec v u); congruence|now rewrite IH].
Qed.
Lemma uset_keys u s m v : In v (map fst (uset u s m)) <-> v = u \/ In v (map fst m).
Proof.
  induction m as [|[u' s'] m IH]; cbn; [intuition|]. destruct (uri_eqb_spec u u') as [<-|E]; cbn; [intuition|]. rewrite IH. intuition.
Qed.
Lemma uset_NoDup u s m : NoDup (map fst m) -> NoDup (map fst (uset u s m)).
Proof.
  induction m as [|[u' s'] m IH]; cbn; intro N; [repeat constructor; auto|]. inversion N; subst. destruct (uri_eqb_spec u u') as [<-|E]; cbn; constructor; auto.
  rewrite uset_keys. intros [->|H]; [congruence|auto].
Qed.

(** ** Sources. *)
Lemma validate_loadable L u : (uri_validate L true true false true u = Ok tt <-> loadable L u) /\
  (~ loadable L u -> uri_validate L true true false true u = Exn EURI).
Proof.
  unfold uri_validate, loadable. cbn [negb andb orb].
  destruct (ul_conforms L u), (ul_has_scheme L u), (ul_normal L u), (u_frag u); cbn; split; try split; try tauto; try discriminate;
    try (intros (A & B & C & D); discriminate); intro H; exfalso; apply H; auto.
Qed.
Lemma loadable_dec L u : loadable L u \/ ~ loadable L u.
Proof.
  unfold loadable. destruct (ul_conforms L u), (ul_has_scheme L u), (ul_normal L u), (u_frag u); try (left; now auto); right; intros (A & B & C & D); discriminate.
Qed.
Lemma slash_spec s : ends_with_slash s = true <-> exists q, s = q ++ [47%N].
Proof.
  unfold ends_with_slash. split.
  - destruct (rev s) as [|c r] eqn:E; [discriminate|]. intro H. apply N.eqb_eq in H. subst c. exists (rev r).
    rewrite <- (rev_involutive s), E. reflexivity.
  - intros [q ->]. rewrite rev_app_distr. reflexivity.
Qed.
Lemma acceptable_dec L u : acceptable L u \/ ~ acceptable L u.
Proof.
  unfold acceptable. destruct (loadable_dec L u) as [(A & B & C & D)|N].
  - destruct (ends_with_slash (ul_path L u)) eqn:E.
    + left. apply slash_spec in E. auto.
    + right. intros (_ & _ & _ & _ & H). apply slash_spec in H. congruence.
  - right. intros (A & B & C & D & _). apply N. repeat split; assumption.
Qed.
Lemma stands_for_dec L b p : stands_for L b p \/ ~ stands_for L b p.
Proof.
  destruct b as [u|]; cbn.
  - destruct (acceptable_dec L u); [|tauto]. destruct (str_eqb_spec p (uri_str u)); tauto.
  - destruct p; [now left|right; discriminate].
Qed.
Lemma stands_for_fun L b p q : stands_for L b p -> stands_for L b q -> p = q.
Proof. destruct b; cbn; intuition congruence. Qed.

(** Registering either sets the prefix or does nothing. *)
Lemma add_uri_source_spec L b src t :
  (exists p, stands_for L b p /\ add_uri_source L b src t = Ok (dset p src t)) \/
  ((forall p, ~ stands_for L b p) /\ add_uri_source L b src t = Exn ECatalog).
Proof.
  destruct b as [u|]; cbn [add_uri_source stands_for]; [|left; exists []; auto].
  destruct (loadable_dec L u) as [A|N].
  - rewrite (proj2 (proj1 (validate_loadable L u)) A). cbn [or_catalog_error bind]. destruct (ends_with_slash (ul_path L u)) eqn:E.
    + left. exists (uri_str u). split; [|reflexivity]. split; [|reflexivity]. apply slash_spec in E. destruct A as (A & B & C & D). repeat split; assumption.
    + right. split; [|reflexivity]. intros p [(_ & _ & _ & _ & H) _]. apply slash_spec in H. congruence.
  - rewrite (proj2 (validate_loadable L u) N). right. split; [|reflexivity]. intros p [(A & B & C & D & _) _]. apply N. repeat split; assumption.
Qed.

Lemma latest_cons L x h p src : (exists b s, In (b, s) h /\ stands_for L b p) -> latest L (x :: h) p src -> latest L h p src.
Proof.
  intros (b0 & s0 & Hin & H0) (h1 & b & h2 & E & S & N). destruct h1 as [|y h1]; cbn in E; injection E as -> ->.
  - exfalso. exact (N _ _ Hin H0).
  - exists h1, b, h2. auto.
Qed.
Lemma latest_more L x h p src : latest L h p src -> latest L (x :: h) p src.
Proof. intros (h1 & b & h2 & E & S & N). exists (x :: h1), b, h2. rewrite E. auto. Qed.
Lemma latest_registered L h p src : latest L h p src -> registered L h p.
Proof. intros (h1 & b & h2 & -> & S & _). exists b, src. split; [apply in_or_app; right; now left|exact S]. Qed.
Lemma registered_latest L h p : registered L h p -> exists src, latest L h p src.
Proof.
  induction h as [|[b0 s0] h IH]; [intros (b & s & [] & _)|]. intros (b & s & Hin & S).
  assert (D : registered L h p \/ ~ registered L h p).
  { clear -h. induction h as [|[b s] h IH]; [right; intros (? & ? & [] & _)|]. destruct (stands_for_dec L b p) as [S|S].
    - left. exists b, s. split; [now left|exact S].
    - destruct IH as [(b' & s' & H & S')|N]; [left; exists b', s'; split; [now right|exact S']|]. right.
      intros (b' & s' & [[= <- <-]|H] & S'); [auto|]. apply N. exists b', s'. auto. }
  destruct D as [R|N].
  - destruct (IH R) as [src H]. exists src. now apply latest_more.
  - destruct Hin as [[= -> ->]|Hin]; [|exfalso; apply N; exists b, s; auto]. exists s, [], b, h. split; [reflexivity|]. split; [exact S|].
    intros b' s' Hin' S'. apply N. exists b', s'. auto.
Qed.

Lemma register_get L h : forall t p,
  (forall src, latest L h p src -> dget p (register L h t) = Some src) /\
  (~ registered L h p -> dget p (register L h t) = dget p t).
Proof.
  induction h as [|[b s] h IH]; intros t p; cbn [register].
  - split; [|auto]. intros src (h1 & b & h2 & E & _). destruct h1; discriminate.
  - set (t' := match add_uri_source L b s t with Ok t' => t' | _ => t end). destruct (IH t' p) as [IH1 IH2]. split.
    + intros src H. destruct (stands_for_dec L b p) as [Sb|Sb].
      * assert (D : registered L h p \/ ~ registered L h p).
        { clear. induction h as [|[b s] h IH]; [right; intros (? & ? & [] & _)|]. destruct (stands_for_dec L b p) as [S|S].
          - left. exists b, s. split; [now left|exact S].
          - destruct IH as [(b' & s' & H & S')|N]; [left; exists b', s'; split; [now right|exact S']|]. right.
            intros (b' & s' & [[= <- <-]|H] & S'); [auto|]. apply N. exists b', s'. auto. }
        destruct D as [R|N].
        -- apply IH1. apply (latest_cons L (b, s)); [exact R|exact H].
        -- rewrite (IH2 N). destruct H as (h1 & b' & h2 & E & S & Nn). destruct h1 as [|y h1]; cbn in E.
           ++ injection E as <- <- <-. subst t'. destruct (add_uri_source_spec L b s t) as [(q & Sq & ->)|[Nq _]]; [|exfalso; exact (Nq _ Sb)].
              rewrite (stands_for_fun L b q p Sq Sb). apply dget_dset_same.
           ++ injection E as _ ->. exfalso. apply N. exists b', src. split; [apply in_or_app; right; now left|exact S].
      * apply IH1. destruct H as (h1 & b' & h2 & E & S & Nn). destruct h1 as [|y h1]; cbn in E.
        -- injection E as -> -> ->. contradiction.
        -- injection E as _ ->. exists h1, b', h2. auto.
    + intro N. rewrite IH2 by (intros (b' & s' & H & S); apply N; exists b', s'; split; [now right|exact S]).
      subst t'. destruct (add_uri_source_spec L b s t) as [(q & Sq & ->)|[_ ->]]; [|reflexivity]. apply dget_dset_other. intros ->.
      apply N. exists b, s. split; [now left|exact Sq].
Qed.

Lemma prefixb_spec p : forall s, prefixb p s = true <-> is_prefix p s.
Proof.
  induction p as [|x p IH]; intro s; cbn [prefixb].
  - split; [intros _; now exists s|reflexivity].
  - destruct s as [|y s]; [split; [discriminate|intros [r [=]]]|]. rewrite andb_true_iff, IH, N.eqb_eq. split.
    + intros [-> [r ->]]. now exists r.
    + intros [r [= -> ->]]. split; [reflexivity|now exists r].
Qed.
Lemma same_prefix p q s : is_prefix p s -> is_prefix q s -> length p = length q -> p = q.
Proof.
  intros [r ->] [r' E] Hl. revert q E Hl. induction p as [|x p IH]; intros [|y q] E Hl; cbn in *; try congruence. injection E as -> E. f_equal. apply IH; [exact E|lia].
Qed.

Lemma insert_longest_In {A} (x y : pystr * A) l : In y (insert_longest x l) <-> y = x \/ In y l.
Proof. induction l as [|z l IH]; cbn; [intuition|]. destruct (_ <=? _); cbn; [intuition|]. rewrite IH. intuition. Qed.
Lemma sort_longest_In {A} (y : pystr * A) l : In y (sort_longest l) <-> In y l.
Proof. induction l as [|x l IH]; cbn; [tauto|]. rewrite insert_longest_In, IH. intuition. Qed.
Definition headmost {A} (l : list (pystr * A)) : Prop := match l with [] => True | x :: r => forall y, In y r -> length (fst y) <= length (fst x) end.
Lemma insert_headmost {A} (x : pystr * A) l : headmost l -> headmost (insert_longest x l).
Proof.
  destruct l as [|z l]; cbn; [intros _ y []|]. intro H. destruct (Nat.leb_spec (length (fst z)) (length (fst x))); cbn.
  - intros y [<-|Hy]; [assumption|]. specialize (H y Hy). lia.
  - intros y Hy. apply insert_longest_In in Hy. destruct Hy as [->|Hy]; [lia|auto].
Qed.
Lemma sort_headmost {A} (l : list (pystr * A)) : headmost (sort_longest l).
Proof. induction l as [|x l IH]; cbn; [exact I|]. now apply insert_headmost. Qed.

Lemma dset_keys {A} k (v : A) m p : In p (keys (dset k v m)) <-> p = k \/ In p (keys m).
Proof. induction m as [|[k' v'] m IH]; cbn; [intuition|]. destruct (str_eqb_spec k k') as [<-|]; cbn; [intuition|]. rewrite IH. intuition. Qed.
Lemma register_keys L h : forall t p, In p (keys (register L h t)) <-> registered L h p \/ In p (keys t).
Proof.
  induction h as [|[b s] h IH]; intros t p; cbn [register]; [split; [auto|intros [(? & ? & [] & _)|H]; exact H]|]. rewrite IH.
  destruct (add_uri_source_spec L b s t) as [(q & Sq & ->)|[N ->]]; [rewrite dset_keys|]; split.
  - intros [(b' & s' & H & S)|[->|H]]; [left; exists b', s'; split; [now right|exact S]|left; exists b, s; split; [now left|exact Sq]|now right].
  - intros [(b' & s' & [[= <- <-]|H] & S)|H]; [right; left; exact (stands_for_fun L b _ _ S Sq)|left; exists b', s'; auto|auto].
  - intros [(b' & s' & H & S)|H]; [left; exists b', s'; split; [now right|exact S]|now right].
  - intros [(b' & s' & [[= <- <-]|H] & S)|H]; [exfalso; exact (N _ S)|left; exists b', s'; auto|auto].
Qed.
Lemma register_NoDup L h : forall t, NoDup (keys t) -> NoDup (keys (register L h t)).
Proof.
  induction h as [|[b s] h IH]; intros t N; cbn [register]; [exact N|]. apply IH. destruct (add_uri_source_spec L b s t) as [(q & Sq & ->)|[_ ->]]; [now apply NoDup_dset|exact N].
Qed.

Lemma load_longest L h u p src : loadable L u -> longest L h (uri_str u) p -> latest L h p src ->
  load_json L (register L h []) u = match src (skipn (length p) (uri_str u)) with Exn _ => Exn ECatalog | e => e end.
Proof.
  intros V (R & P & Max) La. unfold load_json. rewrite (proj2 (proj1 (validate_loadable L u)) V). cbn [or_catalog_error bind].
  set (l := filter (fun c => prefixb (fst c) (uri_str u)) (register L h [])).
  assert (Hp : In (p, src) l).
  { apply filter_In. split; [|now apply prefixb_spec]. apply dget_In, (proj1 (register_get L h [] p)), La. }
  pose proof (sort_headmost l) as H. pose proof (fun y => sort_longest_In y l) as HIn. destruct (sort_longest l) as [|[q src'] r]; [exfalso; apply (HIn (p, src)), Hp|].
  assert (Hq : In (q, src') l) by (apply HIn; now left). apply filter_In in Hq. destruct Hq as [Hq Pq]. cbn [fst] in Pq. apply prefixb_spec in Pq.
  assert (q = p) as ->.
  { apply (same_prefix q p (uri_str u)); [exact Pq|exact P|].
    assert (length q <= length p). { apply Max; [|exact Pq]. destruct (proj1 (register_keys L h [] q)) as [X|X]; [apply (in_map fst) in Hq; exact Hq|exact X|destruct X]. }
    apply HIn in Hp. destruct Hp as [[= <- <-]|Hp]; [reflexivity|]. specialize (H _ Hp). cbn [fst] in H. lia. }
  assert (E : Some src' = Some src).
  { rewrite <- (proj1 (register_get L h [] p) src La). symmetry. apply In_dget; [apply register_NoDup; constructor|exact Hq]. }
  injection E as ->. now destruct (src _).
Qed.
Lemma load_none L h u : loadable L u -> (forall p, registered L h p -> ~ is_prefix p (uri_str u)) -> load_json L (register L h []) u = Exn ECatalog.
Proof.
  intros V N. unfold load_json. rewrite (proj2 (proj1 (validate_loadable L u)) V). cbn [or_catalog_error bind].
  set (l := filter (fun c => prefixb (fst c) (uri_str u)) (register L h [])).
  pose proof (fun y => sort_longest_In y l) as HIn. destruct (sort_longest l) as [|[q src'] r]; [reflexivity|exfalso].
  assert (Hq : In (q, src') l) by (apply HIn; now left). apply filter_In in Hq. destruct Hq as [Hq Pq]. cbn [fst] in Pq. apply prefixb_spec in Pq.
  apply (N q); [|exact Pq]. destruct (proj1 (register_keys L h [] q)) as [X|X]; [apply (in_map fst) in Hq; exact Hq|exact X|destruct X].
Qed.
Lemma longest_or_none L h s : (exists p, longest L h s p) \/ forall p, registered L h p -> ~ is_prefix p s.
Proof.
  set (l := filter (fun p => prefixb p s) (keys (register L h []))).
  assert (HIn : forall p, In p l <-> registered L h p /\ is_prefix p s).
  { intro p. unfold l. rewrite filter_In, register_keys, prefixb_spec. cbn. tauto. }
  clearbody l. destruct l as [|x l]; [right; intros p R P; apply (HIn p); auto|]. left.
  assert (M : exists p, In p (x :: l) /\ forall q, In q (x :: l) -> length q <= length p).
  { clear. revert x. induction l as [|y l IH]; intro x; [exists x; split; [now left|]; intros q [->|[]]; lia|].
    destruct (IH y) as (p & Hp & Mp). destruct (Nat.le_gt_cases (length x) (length p)).
    - exists p. split; [now right|]. intros q [<-|Hq]; [assumption|auto].
    - exists x. split; [now left|]. intros q [<-|Hq]; [lia|]. specialize (Mp q Hq). lia. }
  destruct M as (p & Hp & Mp). exists p. apply HIn in Hp. split; [tauto|]. split; [tauto|]. intros q R P. apply Mp, HIn. auto.
Qed.

(** ** Caches. *)
Definition tidy (t : caches) : Prop := NoDup (keys t) /\ Forall (fun e => NoDup (map fst (snd e))) t.
Lemma Forall_dset {A} (P : pystr * A -> Prop) k v m : Forall P m -> (forall k', k' = k -> P (k', v)) -> Forall P (dset k v m).
Proof.
  intros F H. induction F as [|[k' v'] m Hx F IH]; cbn; [constructor; [now apply H|constructor]|]. destruct (str_eqb_spec k k') as [<-|]; constructor; auto.
Qed.
Lemma tidy_dget c t m : tidy t -> dget c t = Some m -> NoDup (map fst m).
Proof. intros [_ F] H. apply dget_In in H. rewrite Forall_forall in F. exact (F _ H). Qed.
Lemma tidy_add c u s t : tidy t -> tidy (add_schema c u s t).
Proof.
  intros T. pose proof T as [N F]. unfold add_schema. split; [now apply NoDup_dset|]. apply Forall_dset; [exact F|]. intros k _. cbn [snd]. apply uset_NoDup.
  destruct (dget c t) as [m|] eqn:E; [exact (tidy_dget _ _ _ T E)|constructor].
Qed.
Lemma tidy_del c u t : tidy t -> tidy (del_schema c u t).
Proof.
  intros T. pose proof T as [N F]. unfold del_schema. destruct (dget c t) as [m|] eqn:E; [|exact T]. split; [now apply NoDup_dset|].
  apply Forall_dset; [exact F|]. intros k _. cbn [snd]. apply udrop_NoDup. exact (tidy_dget _ _ _ T E).
Qed.
Lemma tidy_leave c t : tidy t -> tidy (leave_cache c t).
Proof.
  intros [N F]. split; [now apply NoDup_ddel|]. unfold leave_cache. clear N. induction F as [|[k' v'] m Hx F IH]; cbn; [constructor|]. destruct (str_eqb c k'); [exact F|now constructor].
Qed.
Lemma cached_add c u s t c' u' : cached c' u' (add_schema c u s t) = if str_eqb c' c && uri_eqb u' u then Some s else cached c' u' t.
Proof.
  unfold cached, add_schema. destruct (str_eqb_spec c' c) as [->|N]; cbn [andb]; [|now rewrite dget_dset_other].
  rewrite dget_dset_same. destruct (uri_eqb_spec u' u) as [->|N]; [apply uget_set_same|]. rewrite uget_set_other by congruence. now destruct (dget c t).
Qed.
Lemma cached_del c u t c' u' : tidy t -> cached c' u' (del_schema c u t) = if str_eqb c' c && uri_eqb u' u then None else cached c' u' t.
Proof.
  intro T. unfold cached, del_schema. destruct (str_eqb_spec c' c) as [->|N]; cbn [andb].
  - destruct (dget c t) as [m|] eqn:E; [|rewrite E; now destruct (uri_eqb u' u)]. rewrite dget_dset_same.
    destruct (uri_eqb_spec u' u) as [->|N]; [apply uget_drop_same, (tidy_dget _ _ _ T E)|now apply uget_drop_other; congruence].
  - destruct (dget c t) as [m|] eqn:E; [now rewrite dget_dset_other|reflexivity].
Qed.
Lemma cached_leave c t c' u' : tidy t -> cached c' u' (leave_cache c t) = if str_eqb c' c then None else cached c' u' t.
Proof.
  intros [N _]. unfold cached, leave_cache. destruct (str_eqb_spec c' c) as [->|X]; [now rewrite dget_ddel_same|now rewrite dget_ddel_other].
Qed.
Lemma tidy_happen e t : tidy t -> tidy (happen e t).
Proof. destruct e; cbn; [apply tidy_add|apply tidy_del|apply tidy_leave]. Qed.
Lemma history_snoc h e : history (h ++ [e]) = happen e (history h).
Proof. unfold history. now rewrite fold_left_app. Qed.
Lemma tidy_history h : tidy (history h).
Proof. induction h as [|e h IH] using rev_ind; [repeat constructor|]. rewrite history_snoc. now apply tidy_happen. Qed.

Lemma stays_snoc h e c u s : stays (h ++ [e]) c u s <-> e = Added c u s \/ (~ concerns c u e /\ stays h c u s).
Proof.
  split.
  - intros (h1 & h2 & E & N). destruct h2 as [|x h2] using rev_ind.
    + apply app_inj_tail in E. left. apply E.
    + right. rewrite app_comm_cons, app_assoc in E. apply app_inj_tail in E. destruct E as [-> ->]. split; [apply N, in_or_app; right; now left|].
      exists h1, h2. split; [reflexivity|]. intros e H. apply N, in_or_app. now left.
  - intros [->|[N (h1 & h2 & -> & H)]]; [exists h, []; split; [reflexivity|intros e []]|]. exists h1, (h2 ++ [e]). rewrite <- app_assoc. split; [reflexivity|].
    intros x Hx. apply in_app_or in Hx. destruct Hx as [Hx|[<-|[]]]; auto.
Qed.
Lemma history_cached h c u s : cached c u (history h) = Some s <-> stays h c u s.
Proof.
  induction h as [|e h IH] using rev_ind.
  - split; [discriminate|]. intros (h1 & h2 & E & _). destruct h1; discriminate.
  - rewrite history_snoc, stays_snoc, <- IH. destruct e as [c' u' s'|c' u'|c']; cbn [happen concerns].
    + rewrite cached_add. destruct (str_eqb_spec c c') as [<-|N]; cbn [andb].
      * destruct (uri_eqb_spec u u') as [<-|N]; [|intuition congruence]. split; [intros [= <-]; now left|]. intros [[= ->]|[X _]]; [reflexivity|]. exfalso. auto.
      * intuition congruence.
    + rewrite cached_del by apply tidy_history. destruct (str_eqb_spec c c') as [<-|N]; cbn [andb].
      * destruct (uri_eqb_spec u u') as [<-|N]; [|intuition congruence]. split; [discriminate|]. intros [X|[X _]]; [discriminate|]. exfalso. auto.
      * intuition congruence.
    + rewrite cached_leave by apply tidy_history. destruct (str_eqb_spec c c') as [<-|N]; [split; [discriminate|]; intros [X|[X _]]; [discriminate|exfalso; auto]|intuition congruence].
Qed.

(** Programs. *)
Lemma cmd_induction (P : cmd -> Prop) :
  (forall c u s, P (CAdd c u s)) -> (forall c u, P (CDel c u)) -> P CRaise -> (forall c body, Forall P body -> P (CBlock c body)) -> forall x, P x.
Proof.
  intros A B C D. fix IH 1. intros [c u s|c u| |c body]; [apply A|apply B|apply C|]. apply D. induction body; constructor; [apply IH|assumption].
Qed.
Lemma run_block c body t : run_cmd (CBlock c body) t =
  match enter_cache c t with Ok _ => let '(t', raised) := run_cmds body t in (leave_cache c t', raised) | _ => (t, true) end.
Proof.
  cbn [run_cmd]. destruct (enter_cache c t); [|reflexivity|reflexivity].
  assert (E : forall l t, (fix go (l : list cmd) (t : caches) : caches * bool :=
               match l with [] => (t, false) | x :: r => let '(t', raised) := run_cmd x t in if raised then (t', true) else go r t' end) l t = run_cmds l t).
  { induction l as [|x l IH]; intro t'; cbn [run_cmds]; [reflexivity|]. destruct (run_cmd x t') as [t2 [|]]; [reflexivity|apply IH]. }
  now rewrite E.
Qed.
Lemma run_cmds_ind (P : caches -> Prop) l : Forall (fun x => forall t, P t -> P (fst (run_cmd x t))) l -> forall t, P t -> P (fst (run_cmds l t)).
Proof.
  induction 1 as [|x l H _ IH]; intros t Ht; cbn [run_cmds]; [exact Ht|]. specialize (H t Ht). destruct (run_cmd x t) as [t' [|]]; cbn [fst] in *; [exact H|]. now apply IH.
Qed.
Lemma run_cmd_tidy x : forall t, tidy t -> tidy (fst (run_cmd x t)).
Proof.
  induction x as [c u s|c u| |c body IH] using cmd_induction; intros t T; [now apply tidy_add|now apply tidy_del|exact T|].
  rewrite run_block. destruct (enter_cache c t); [|exact T|exact T]. pose proof (run_cmds_ind tidy body IH t T) as H. destruct (run_cmds body t) as [t' r]. cbn [fst] in *. now apply tidy_leave.
Qed.
Lemma run_cmds_tidy l t : tidy t -> tidy (fst (run_cmds l t)).
Proof. apply run_cmds_ind. apply Forall_forall. intros x _. apply run_cmd_tidy. Qed.

Lemma run_cmd_foreign c x : foreign c x -> forall t, tidy t -> forall u, cached c u (fst (run_cmd x t)) = cached c u t.
Proof.
  induction x as [c' u s|c' u| |c' body IH] using cmd_induction; intros F t T v; inversion F as [? ? ? N|? ? N| |? ? N Fb]; subst.
  - cbn [run_cmd fst]. rewrite cached_add. destruct (str_eqb_spec c c'); [congruence|reflexivity].
  - cbn [run_cmd fst]. rewrite cached_del by exact T. destruct (str_eqb_spec c c'); [congruence|reflexivity].
  - reflexivity.
  - rewrite run_block. destruct (enter_cache c' t); [|reflexivity|reflexivity].
    assert (H : tidy (fst (run_cmds body t)) /\ cached c v (fst (run_cmds body t)) = cached c v t).
    { apply (run_cmds_ind (fun t' => tidy t' /\ cached c v t' = cached c v t)); [|auto]. rewrite Forall_forall in *. intros x Hx t' [T' E'].
      split; [now apply run_cmd_tidy|]. rewrite <- E'. now apply IH; auto. }
    destruct (run_cmds body t) as [t' r]. cbn [fst] in *. rewrite cached_leave by apply H. destruct (str_eqb_spec c c'); [congruence|apply H].
Qed.
